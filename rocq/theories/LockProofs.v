(** Proofs about the locks of the language server.

    [safe] computes, for a program, which locks its handler holds at every point ([abs]) and
    what it may assume there; [inv] says that this agrees with the locks of the server.  Every
    action of every handler preserves [inv]. *)
From Verif Require Import Base Dict LockModel LockSpec.
From Coq Require Import Lia.
Local Open Scope nat_scope.

Inductive lev := L0 | L1 | L2.

Definition lev_of (i : nat) (t a : option nat) : lev :=
  match t with
  | Some j => if Nat.eqb j i then
                match a with Some k => if Nat.eqb k i then L2 else L1 | None => L1 end
              else L0
  | None => L0
  end.

Arguments lev_of : simpl never.

(** What a handler holds of the cache and of its document, whether its variable holds a document
    and, while it holds the cache, whether its URI is open. *)
Record abs := { ac : lev; ad : lev; al : bool; ak : bool }.

Definition a_c (a : abs) (v : lev) : abs := {| ac := v; ad := ad a; al := al a; ak := ak a |}.
Definition a_d (a : abs) (v : lev) : abs := {| ac := ac a; ad := v; al := al a; ak := ak a |}.
Definition a_l (a : abs) (v : bool) : abs := {| ac := ac a; ad := L0; al := v; ak := ak a |}.
Definition a_k (a : abs) (v : bool) : abs := {| ac := ac a; ad := ad a; al := al a; ak := v |}.

Fixpoint safe (s : stmt) (N E : abs -> Prop) (a : abs) : Prop :=
  match s with
  | SSkip => N a
  | SSeq x y => safe x (safe y N E) E a
  | SAcqT LCache => ac a = L0 /\ ad a = L0 /\ N (a_c a L1)
  | SAcqT LDoc => al a = true /\ ad a = L0 /\ N (a_d a L1)
  | SAcqA LCache => ac a = L1 /\ forall b, N (a_k (a_c a L2) b)
  | SAcqA LDoc => al a = true /\ ad a = L1 /\ N (a_d a L2)
  | SRelA LCache => ac a = L2 /\ N (a_k (a_c a L1) false)
  | SRelA LDoc => al a = true /\ ad a = L2 /\ N (a_d a L1)
  | SRelT LCache => ac a = L1 /\ N (a_c a L0)
  | SRelT LDoc => al a = true /\ ad a = L1 /\ N (a_d a L0)
  | SSuppress x => safe x N N a
  | SFinally x y => safe x (safe y N E) (safe y E E) a
  | SOnError x y => safe x N (safe y E E) a
  | SLookup => ac a = L2 /\ ad a = L0 /\ N (a_l a (ak a))
  | SIfFound x y => if al a then safe x N E a else safe y N E a
  | SNew => ad a = L0 /\ N (a_l a true) /\ E a
  | SSet => ac a = L2 /\ al a = true /\ N (a_k a true)
  | SDel => ac a = L2 /\ ak a = true /\ N (a_k a false)
  | SBody => al a = true /\ ad a = L2 /\ N a /\ E a
  | SSuspend => False
  end.

Definition fin (a : abs) : Prop := ac a = L0 /\ ad a = L0.

Fixpoint st_ok (k : list frame) : (abs -> Prop) * (abs -> Prop) :=
  match k with
  | [] => (fin, fin)
  | f :: k =>
      let N := fst (st_ok k) in let E := snd (st_ok k) in
      match f with
      | FSeq b => (safe b N E, E)
      | FSuppress => (N, N)
      | FFinally b => (safe b N E, safe b E E)
      | FOnError b => (N, safe b E E)
      | FReraise c => if c then (fun _ => False, E) else (E, E)
      end
  end.

Section Proofs.
Context {Doc Par Ans : Type}.
Variable lib : library Doc Par Ans.
Notation world := (world Doc).
Notation task := (task Par Ans).
Notation step := (step lib).

Definition safe_task (t : task) (a : abs) : Prop :=
  match k_mode t with
  | MRun s => safe s (fst (st_ok (k_stack t))) (snd (st_ok (k_stack t))) a
  | MRet => fst (st_ok (k_stack t)) a
  | MExc c => if c then k_stack t = [] /\ fin a else snd (st_ok (k_stack t)) a
  end.

Definition has (o : option nat) : bool := match o with Some _ => true | None => false end.

Definition abs_of (w : world) (i : nat) (t : task) : abs :=
  let c := lev_of i (w_t w) (w_a w) in
  {| ac := c;
     ad := match k_local t with
           | Some d => lev_of i (o_t (w_heap w d)) (o_a (w_heap w d))
           | None => L0 end;
     al := has (k_local t);
     ak := match c with L2 => has (d_get (rq_uri (k_req t)) (w_docs w)) | _ => false end |}.

Record inv (w : world) (ts : list task) : Prop := {
  i_safe : forall i t, nth_error ts i = Some t -> safe_task t (abs_of w i t);
  i_at : forall i, w_a w = Some i -> w_t w = Some i;
  i_ct : forall i, w_t w = Some i -> exists t, nth_error ts i = Some t;
  i_dat : forall d i, o_a (w_heap w d) = Some i -> o_t (w_heap w d) = Some i;
  i_dt : forall d i, o_t (w_heap w d) = Some i ->
           exists t, nth_error ts i = Some t /\ k_local t = Some d;
  i_doc : forall u d, d_get u (w_docs w) = Some d -> d < w_next w;
  i_loc : forall i t d, nth_error ts i = Some t -> k_local t = Some d -> d < w_next w
}.

(** ** Lists *)
Lemma nth_set_eq {A} i (x y : A) l : nth_error l i = Some y -> nth_error (set_nth i x l) i = Some x.
Proof. revert l; induction i; intros [|z l] H; try discriminate; cbn in *; auto. Qed.

Lemma nth_set_neq {A} i j (x : A) l : i <> j -> nth_error (set_nth i x l) j = nth_error l j.
Proof.
  revert j l; induction i; intros j [|z l] H; cbn; auto;
    destruct j; cbn; try congruence; auto.
Qed.

Lemma nth_set_cases {A} i j (x t y : A) l :
  nth_error l i = Some y -> nth_error (set_nth i x l) j = Some t ->
  (j = i /\ t = x) \/ (j <> i /\ nth_error l j = Some t).
Proof.
  intros H1 H2. destruct (Nat.eq_dec i j) as [->|N].
  - rewrite (nth_set_eq _ _ _ _ H1) in H2. left. split; congruence.
  - rewrite nth_set_neq in H2 by assumption. right. auto.
Qed.

Lemma lev_none i a : lev_of i None a = L0. Proof. reflexivity. Qed.

Lemma lev_other i j a : i <> j -> lev_of j (Some i) a = L0.
Proof. intros H. unfold lev_of. apply Nat.eqb_neq in H. rewrite H. reflexivity. Qed.

Lemma lev_L0 i t a : lev_of i t a = L0 -> t <> Some i.
Proof.
  unfold lev_of. destruct t as [j|]; [|discriminate]. destruct (Nat.eqb j i) eqn:E.
  - destruct a as [k|]; [destruct (Nat.eqb k i)|]; discriminate.
  - apply Nat.eqb_neq in E. congruence.
Qed.

Lemma lev_L1 i t a : lev_of i t a = L1 -> t = Some i /\ a <> Some i.
Proof.
  unfold lev_of. destruct t as [j|]; [|discriminate]. destruct (Nat.eqb j i) eqn:E; [|discriminate].
  apply Nat.eqb_eq in E. subst j. destruct a as [k|]; [|split; congruence].
  destruct (Nat.eqb k i) eqn:E; [discriminate|]. apply Nat.eqb_neq in E. split; congruence.
Qed.

Lemma lev_L2 i t a : lev_of i t a = L2 -> t = Some i /\ a = Some i.
Proof.
  unfold lev_of. destruct t as [j|]; [|discriminate]. destruct (Nat.eqb j i) eqn:E; [|discriminate].
  apply Nat.eqb_eq in E. subst j. destruct a as [k|]; [|discriminate].
  destruct (Nat.eqb k i) eqn:E; [|discriminate]. apply Nat.eqb_eq in E. split; congruence.
Qed.

Lemma lev_T i : lev_of i (Some i) None = L1.
Proof. unfold lev_of. rewrite Nat.eqb_refl. reflexivity. Qed.
Lemma lev_TA i : lev_of i (Some i) (Some i) = L2.
Proof. unfold lev_of. rewrite Nat.eqb_refl. reflexivity. Qed.

(** ** Updating one handler *)
Lemma inv_update w ts i t w' t' :
  inv w ts -> nth_error ts i = Some t ->
  safe_task t' (abs_of w' i t') ->
  (forall j tj, j <> i -> nth_error ts j = Some tj -> abs_of w' j tj = abs_of w j tj) ->
  (forall j, w_a w' = Some j -> w_t w' = Some j) ->
  (forall j, w_t w' = Some j -> w_t w = Some j \/ j = i) ->
  (forall d j, o_a (w_heap w' d) = Some j -> o_t (w_heap w' d) = Some j) ->
  (forall d j, o_t (w_heap w' d) = Some j ->
     (j = i /\ k_local t' = Some d) \/ (j <> i /\ o_t (w_heap w d) = Some j)) ->
  (forall u d, d_get u (w_docs w') = Some d -> d < w_next w') ->
  (forall d, k_local t' = Some d -> d < w_next w') ->
  w_next w <= w_next w' ->
  inv w' (set_nth i t' ts).
Proof.
  intros I H Hs Hj Ha Ht Hda Hdt Hdoc Hl Hn. constructor.
  - intros j tj Hj'. destruct (nth_set_cases _ _ _ _ _ _ H Hj') as [[-> ->]|[Nj Hj2]]; [exact Hs|].
    rewrite Hj by assumption. exact (i_safe _ _ I _ _ Hj2).
  - exact Ha.
  - intros j Hw. destruct (Ht j Hw) as [Ho| ->].
    + destruct (i_ct _ _ I _ Ho) as [tj Hj2]. destruct (Nat.eq_dec i j) as [->|Nj].
      * exists t'. eapply nth_set_eq; eauto.
      * exists tj. rewrite nth_set_neq; assumption.
    + exists t'. eapply nth_set_eq; eauto.
  - exact Hda.
  - intros d j Hw. destruct (Hdt d j Hw) as [[-> Hl']|[Nj Ho]].
    + exists t'. split; [eapply nth_set_eq; eauto|assumption].
    + destruct (i_dt _ _ I _ _ Ho) as [tj [Hj2 Hl2]]. exists tj.
      split; [rewrite nth_set_neq; congruence|assumption].
  - exact Hdoc.
  - intros j tj d Hj' Hl'. destruct (nth_set_cases _ _ _ _ _ _ H Hj') as [[-> ->]|[Nj Hj2]].
    + exact (Hl d Hl').
    + pose proof (i_loc _ _ I _ _ _ Hj2 Hl'). lia.
Qed.

(** Actions that change neither the server nor the variable. *)
Lemma inv_ctl w ts i t t' :
  inv w ts -> nth_error ts i = Some t ->
  k_local t' = k_local t -> k_req t' = k_req t ->
  (safe_task t (abs_of w i t) -> safe_task t' (abs_of w i t)) ->
  inv w (set_nth i t' ts).
Proof.
  intros I H Hl Hr Hs.
  assert (Ea : abs_of w i t' = abs_of w i t) by (unfold abs_of; rewrite Hl, Hr; reflexivity).
  eapply inv_update; eauto; try (intros; reflexivity).
  - rewrite Ea. apply Hs. exact (i_safe _ _ I _ _ H).
  - exact (i_at _ _ I).
  - exact (i_dat _ _ I).
  - intros d j Hw. destruct (Nat.eq_dec j i) as [->|Nj]; [left|right; auto].
    split; [reflexivity|]. destruct (i_dt _ _ I _ _ Hw) as [t2 [H2 H3]]. congruence.
  - exact (i_doc _ _ I).
  - intros d Hd. rewrite Hl in Hd. exact (i_loc _ _ I _ _ _ H Hd).
Qed.

(** Changing one lock of the cache, taken by handler [i] before or after. *)
Lemma inv_cache w ts i t t' tt' a' :
  inv w ts -> nth_error ts i = Some t ->
  k_local t' = k_local t -> k_req t' = k_req t ->
  (w_t w = None \/ w_t w = Some i) -> (tt' = None \/ tt' = Some i) ->
  (a' = None \/ a' = Some i) -> (a' = Some i -> tt' = Some i) ->
  let w' := {| w_docs := w_docs w; w_heap := w_heap w; w_next := w_next w;
               w_t := tt'; w_a := a' |} in
  safe_task t' (abs_of w' i t') ->
  inv w' (set_nth i t' ts).
Proof.
  intros I H Hl Hr Ht Ht' Ha' Hat w' Hs.
  eapply inv_update; eauto; cbn.
  - intros j tj Nj Hj. unfold abs_of. cbn.
    assert (E1 : lev_of j tt' a' = L0)
      by (destruct Ht' as [-> | ->]; [reflexivity|apply lev_other; congruence]).
    assert (E2 : lev_of j (w_t w) (w_a w) = L0)
      by (destruct Ht as [-> | ->]; [reflexivity|apply lev_other; congruence]).
    rewrite E1, E2. reflexivity.
  - intros j Hj. destruct Ha' as [-> | ->]; [discriminate|]. rewrite Hat by reflexivity. exact Hj.
  - intros j Hj. right. destruct Ht' as [-> | ->]; congruence.
  - exact (i_dat _ _ I).
  - intros d j Hw. destruct (Nat.eq_dec j i) as [->|Nj]; [left|right; auto].
    split; [reflexivity|]. destruct (i_dt _ _ I _ _ Hw) as [t2 [H2 H3]]. congruence.
  - exact (i_doc _ _ I).
  - intros d Hd. rewrite Hl in Hd. exact (i_loc _ _ I _ _ _ H Hd).
Qed.

Lemma h_set_same (h : nat -> obj Doc) i o : h_set h i o i = o.
Proof. unfold h_set. rewrite Nat.eqb_refl. reflexivity. Qed.
Lemma h_set_other (h : nat -> obj Doc) i o j : j <> i -> h_set h i o j = h j.
Proof. intros N. unfold h_set. apply Nat.eqb_neq in N. rewrite N. reflexivity. Qed.

(** Changing the object in the variable of handler [i]. *)
Lemma inv_object w ts i t t' d o :
  inv w ts -> nth_error ts i = Some t ->
  k_local t = Some d -> k_local t' = Some d -> k_req t' = k_req t ->
  (o_t (w_heap w d) = None \/ o_t (w_heap w d) = Some i) ->
  (o_t o = None \/ o_t o = Some i) -> (o_a o = None \/ o_a o = Some i) ->
  (o_a o = Some i -> o_t o = Some i) ->
  safe_task t' (abs_of (set_heap w d o) i t') ->
  inv (set_heap w d o) (set_nth i t' ts).
Proof.
  intros I H Hl Hl' Hr Ht Ht' Ha' Hat Hs.
  eapply inv_update; eauto; cbn.
  - intros j tj Nj Hj. unfold abs_of. cbn. f_equal.
    destruct (k_local tj) as [e|]; [|reflexivity].
    destruct (Nat.eq_dec e d) as [->|Ne]; [|rewrite h_set_other by assumption; reflexivity].
    rewrite h_set_same.
    assert (E1 : lev_of j (o_t o) (o_a o) = L0)
      by (destruct Ht' as [-> | ->]; [reflexivity|apply lev_other; congruence]).
    assert (E2 : lev_of j (o_t (w_heap w d)) (o_a (w_heap w d)) = L0)
      by (destruct Ht as [-> | ->]; [reflexivity|apply lev_other; congruence]).
    rewrite E1, E2. reflexivity.
  - exact (i_at _ _ I).
  - intros e j. destruct (Nat.eq_dec e d) as [->|Ne].
    + rewrite h_set_same. intros Hj. destruct Ha' as [E|E]; rewrite E in Hj; [discriminate|].
      rewrite Hat by assumption. congruence.
    + rewrite h_set_other by assumption. apply (i_dat _ _ I).
  - intros e j. destruct (Nat.eq_dec e d) as [->|Ne].
    + rewrite h_set_same. intros Hj. left. destruct Ht' as [E|E]; split; congruence.
    + rewrite h_set_other by assumption. intros Hj. destruct (Nat.eq_dec j i) as [->|Nj]; [left|right; auto].
      destruct (i_dt _ _ I _ _ Hj) as [t2 [H2 H3]]. congruence.
  - exact (i_doc _ _ I).
  - intros e He. assert (e = d) by congruence. subst e.
    exact (i_loc _ _ I _ _ _ H Hl).
Qed.

(** Changing the documents while holding the cache. *)
Lemma inv_docs w ts i t t' dd :
  inv w ts -> nth_error ts i = Some t ->
  k_local t' = k_local t -> k_req t' = k_req t -> w_t w = Some i ->
  (forall u d, d_get u dd = Some d -> d < w_next w) ->
  safe_task t' (abs_of (set_docs w dd) i t') ->
  inv (set_docs w dd) (set_nth i t' ts).
Proof.
  intros I H Hl Hr Ht Hd Hs.
  eapply inv_update; eauto; cbn.
  - intros j tj Nj Hj. unfold abs_of. cbn. rewrite Ht. rewrite !lev_other by congruence. reflexivity.
  - exact (i_at _ _ I).
  - exact (i_dat _ _ I).
  - intros d j Hw. destruct (Nat.eq_dec j i) as [->|Nj]; [left|right; auto].
    split; [reflexivity|]. destruct (i_dt _ _ I _ _ Hw) as [t2 [H2 H3]]. congruence.
  - intros d Hd'. rewrite Hl in Hd'. exact (i_loc _ _ I _ _ _ H Hd').
Qed.

(** Changing the variable of a handler that holds no document. *)
Lemma inv_local w ts i t t' :
  inv w ts -> nth_error ts i = Some t ->
  ad (abs_of w i t) = L0 -> k_req t' = k_req t ->
  (forall d, k_local t' = Some d -> d < w_next w) ->
  safe_task t' (abs_of w i t') ->
  inv w (set_nth i t' ts).
Proof.
  intros I H Hd Hr Hl Hs.
  eapply inv_update; eauto; cbn.
  - exact (i_at _ _ I).
  - exact (i_dat _ _ I).
  - intros d j Hw. destruct (Nat.eq_dec j i) as [->|Nj]; [exfalso|right; auto].
    destruct (i_dt _ _ I _ _ Hw) as [t2 [H2 H3]]. assert (t2 = t) by congruence. subst t2.
    cbn in Hd. rewrite H3 in Hd. exact (lev_L0 _ _ _ Hd Hw).
  - exact (i_doc _ _ I).
Qed.

Lemma no_holder w ts d : inv w ts -> w_next w <= d ->
  o_t (w_heap w d) = None /\ o_a (w_heap w d) = None.
Proof.
  intros I Hd. assert (E : o_t (w_heap w d) = None).
  { destruct (o_t (w_heap w d)) as [j|] eqn:E; [|reflexivity].
    destruct (i_dt _ _ I _ _ E) as [t2 [H2 H3]]. pose proof (i_loc _ _ I _ _ _ H2 H3). lia. }
  split; [exact E|]. destruct (o_a (w_heap w d)) as [j|] eqn:Ea; [|reflexivity].
  pose proof (i_dat _ _ I _ _ Ea). congruence.
Qed.

(** Making a document. *)
Lemma inv_new w ts i t t' doc :
  inv w ts -> nth_error ts i = Some t ->
  ad (abs_of w i t) = L0 -> k_req t' = k_req t -> k_local t' = Some (w_next w) ->
  let w' := {| w_docs := w_docs w;
               w_heap := h_set (w_heap w) (w_next w) {| o_doc := doc; o_t := None; o_a := None |};
               w_next := S (w_next w); w_t := w_t w; w_a := w_a w |} in
  safe_task t' (abs_of w' i t') ->
  inv w' (set_nth i t' ts).
Proof.
  intros I H Hd Hr Hl w' Hs.
  eapply inv_update; eauto; cbn.
  - intros j tj Nj Hj. unfold abs_of. cbn. f_equal.
    destruct (k_local tj) as [e|] eqn:El; [|reflexivity].
    pose proof (i_loc _ _ I _ _ _ Hj El). rewrite h_set_other by lia. reflexivity.
  - exact (i_at _ _ I).
  - intros e j. destruct (Nat.eq_dec e (w_next w)) as [->|Ne].
    + rewrite h_set_same. discriminate.
    + rewrite h_set_other by assumption. apply (i_dat _ _ I).
  - intros e j. destruct (Nat.eq_dec e (w_next w)) as [->|Ne].
    + rewrite h_set_same. discriminate.
    + rewrite h_set_other by assumption. intros Hw.
      destruct (Nat.eq_dec j i) as [->|Nj]; [exfalso|right; auto].
      destruct (i_dt _ _ I _ _ Hw) as [t2 [H2 H3]]. assert (t2 = t) by congruence. subst t2.
      cbn in Hd. rewrite H3 in Hd. exact (lev_L0 _ _ _ Hd Hw).
  - intros u e Hu. pose proof (i_doc _ _ I _ _ Hu). lia.
  - intros e He. rewrite Hl in He. injection He as <-. lia.
  - lia.
Qed.

(** ** Every action preserves the invariant *)
Lemma inv_acquire w ts i t l p w' t' :
  inv w ts -> nth_error ts i = Some t ->
  k_mode t = MRun (match p with PThread => SAcqT l | PAsync => SAcqA l end) ->
  step_acquire i w t l p = ONext w' t' -> inv w' (set_nth i t' ts).
Proof.
  intros I H Em Hs. pose proof (i_safe _ _ I _ _ H) as S. unfold safe_task in S. rewrite Em in S.
  unfold step_acquire in Hs. destruct l.
  - cbn in Hs. destruct p; cbn in S.
    + destruct S as [S1 [S2 S3]]. destruct (w_t w) as [j|] eqn:Et; [discriminate|].
      assert (Ea : w_a w = None).
      { destruct (w_a w) as [j|] eqn:Ea; [|reflexivity]. pose proof (i_at _ _ I _ Ea). congruence. }
      injection Hs as <- <-. rewrite Ea in *.
      eapply inv_cache; eauto; try reflexivity; try discriminate. cbn.
      unfold safe_task, abs_of. cbn. rewrite lev_T. unfold abs_of, a_c in S3. cbn in S3.
      rewrite Et, Ea in S3. exact S3.
    + destruct S as [S1 S3]. destruct (w_a w) as [j|] eqn:Ea; [discriminate|].
      injection Hs as <- <-. apply lev_L1 in S1 as [S1 _]. rewrite S1 in *.
      eapply inv_cache; eauto; try reflexivity. cbn.
      unfold safe_task, abs_of. cbn. rewrite lev_TA.
      specialize (S3 (has (d_get (rq_uri (k_req t)) (w_docs w)))). exact S3.
  - destruct (k_local t) as [d|] eqn:El.
    + cbn in Hs. destruct p; cbn in S.
      * destruct S as [S1 [S2 S3]]. destruct (o_t (w_heap w d)) as [j|] eqn:Et; [discriminate|].
        assert (Ea : o_a (w_heap w d) = None).
        { destruct (o_a (w_heap w d)) as [j|] eqn:Ea; [|reflexivity].
          pose proof (i_dat _ _ I _ _ Ea). congruence. }
        injection Hs as <- <-. rewrite Ea.
        eapply inv_object; eauto; try reflexivity; try discriminate; cbn; auto.
        unfold safe_task, abs_of. cbn. rewrite El, h_set_same. cbn. rewrite lev_T.
        unfold abs_of, a_d in S3. cbn in S3. rewrite El in S3. exact S3.
      * destruct S as [S1 [S2 S3]]. rewrite El in S2. destruct (o_a (w_heap w d)) as [j|] eqn:Ea; [discriminate|].
        injection Hs as <- <-. apply lev_L1 in S2 as [S2 _]. rewrite S2.
        eapply inv_object; eauto; try reflexivity; cbn; auto.
        unfold safe_task, abs_of. cbn. rewrite El, h_set_same. cbn. rewrite lev_TA.
        unfold abs_of, a_d in S3. cbn in S3. rewrite El in S3. exact S3.
    + exfalso. destruct p; cbn in S; rewrite El in S; destruct S; discriminate.
Qed.

Lemma inv_release w ts i t l p w' t' :
  inv w ts -> nth_error ts i = Some t ->
  k_mode t = MRun (match p with PThread => SRelT l | PAsync => SRelA l end) ->
  step_release w t l p = ONext w' t' -> inv w' (set_nth i t' ts).
Proof.
  intros I H Em Hs. pose proof (i_safe _ _ I _ _ H) as S. unfold safe_task in S. rewrite Em in S.
  unfold step_release in Hs. destruct l.
  - cbn in Hs. destruct p; cbn in S.
    + destruct S as [S1 S3]. apply lev_L1 in S1 as [S1 S2]. rewrite S1 in *.
      assert (Ea : w_a w = None).
      { destruct (w_a w) as [j|] eqn:Ea; [|reflexivity]. pose proof (i_at _ _ I _ Ea). congruence. }
      injection Hs as <- <-. rewrite Ea in *.
      eapply inv_cache; eauto; try reflexivity; try discriminate. cbn.
      unfold safe_task, abs_of. cbn. unfold abs_of, a_c in S3. cbn in S3.
      rewrite S1, Ea, lev_T in S3. exact S3.
    + destruct S as [S1 S3]. pose proof S1 as S1'. apply lev_L2 in S1 as [S1 S2]. rewrite S2 in Hs.
      injection Hs as <- <-. rewrite S1.
      eapply inv_cache; eauto; try reflexivity; try discriminate. cbn.
      unfold safe_task, abs_of. cbn. rewrite lev_T. exact S3.
  - destruct (k_local t) as [d|] eqn:El.
    + cbn in Hs. destruct p; cbn in S; destruct S as [S1 [S2 S3]]; rewrite El in S2.
      * apply lev_L1 in S2 as [S2 S2']. rewrite S2 in *.
        assert (Ea : o_a (w_heap w d) = None).
        { destruct (o_a (w_heap w d)) as [j|] eqn:Ea; [|reflexivity].
          pose proof (i_dat _ _ I _ _ Ea). congruence. }
        injection Hs as <- <-. rewrite Ea.
        eapply inv_object; eauto; try reflexivity; cbn; auto.
        unfold safe_task, abs_of. cbn. rewrite El, h_set_same. cbn.
        unfold abs_of, a_d in S3. cbn in S3. rewrite El in S3. exact S3.
      * apply lev_L2 in S2 as [S2 S2']. rewrite S2' in Hs.
        injection Hs as <- <-. rewrite S2.
        eapply inv_object; eauto; try reflexivity; cbn; auto.
        unfold safe_task, abs_of. cbn. rewrite El, h_set_same. cbn. rewrite lev_T.
        unfold abs_of, a_d in S3. cbn in S3. rewrite El in S3. exact S3.
    + exfalso. destruct p; cbn in S; rewrite El in S; destruct S; discriminate.
Qed.

Lemma inv_step w ts i t w' t' :
  inv w ts -> nth_error ts i = Some t ->
  step i w t = ONext w' t' \/ step i w t = OSusp w' t' -> inv w' (set_nth i t' ts).
Proof.
  intros I H Hs.
  assert (Hctl : forall m st, w' = w -> t' = to_mode t m st ->
            (safe_task t (abs_of w i t) -> safe_task (to_mode t m st) (abs_of w i t)) ->
            inv w' (set_nth i t' ts)).
  { intros m st -> -> Hc. eapply inv_ctl; eauto; reflexivity. }
  pose proof (i_safe _ _ I _ _ H) as S. unfold LockModel.step in Hs.
  destruct (k_mode t) as [s| |c] eqn:Em.
  - destruct s; cbn beta iota in Hs.
    + destruct Hs as [Hs|Hs]; [|discriminate]. injection Hs as <- <-.
      eapply Hctl; eauto. unfold safe_task. rewrite Em. exact (fun h => h).
    + destruct Hs as [Hs|Hs]; [|discriminate]. injection Hs as <- <-.
      eapply Hctl; eauto. unfold safe_task. rewrite Em. exact (fun h => h).
    + destruct Hs as [Hs|Hs]; [exact (inv_acquire _ _ _ _ l PThread _ _ I H Em Hs)|].
      unfold step_acquire in Hs. destruct (lock_get w (k_local t) l PThread) as [[?|]|]; discriminate.
    + destruct Hs as [Hs|Hs]; [exact (inv_acquire _ _ _ _ l PAsync _ _ I H Em Hs)|].
      unfold step_acquire in Hs. destruct (lock_get w (k_local t) l PAsync) as [[?|]|]; discriminate.
    + destruct Hs as [Hs|Hs]; [exact (inv_release _ _ _ _ l PThread _ _ I H Em Hs)|].
      unfold step_release in Hs. destruct (lock_get w (k_local t) l PThread) as [[?|]|]; discriminate.
    + destruct Hs as [Hs|Hs]; [exact (inv_release _ _ _ _ l PAsync _ _ I H Em Hs)|].
      unfold step_release in Hs. destruct (lock_get w (k_local t) l PAsync) as [[?|]|]; discriminate.
    + destruct Hs as [Hs|Hs]; [|discriminate]. injection Hs as <- <-.
      eapply Hctl; eauto. unfold safe_task. rewrite Em. exact (fun h => h).
    + destruct Hs as [Hs|Hs]; [|discriminate]. injection Hs as <- <-.
      eapply Hctl; eauto. unfold safe_task. rewrite Em. exact (fun h => h).
    + destruct Hs as [Hs|Hs]; [|discriminate]. injection Hs as <- <-.
      eapply Hctl; eauto. unfold safe_task. rewrite Em. exact (fun h => h).
    + (* SLookup *)
      destruct Hs as [Hs|Hs]; [|discriminate]. injection Hs as <- <-.
      unfold safe_task in S. rewrite Em in S. cbn [safe] in S. destruct S as [S1 [S2 S3]].
      eapply inv_local; eauto; [intros d Hd; exact (i_doc _ _ I _ _ Hd)|].
      unfold safe_task. cbn [k_mode set_local].
      assert (E : abs_of w i (set_local t (d_get (rq_uri (k_req t)) (w_docs w)))
                  = a_l (abs_of w i t) (ak (abs_of w i t))).
      { cbn in S1. unfold abs_of, a_l. cbn. rewrite S1. f_equal.
        destruct (d_get (rq_uri (k_req t)) (w_docs w)) as [d|] eqn:Ed; [|reflexivity].
        apply lev_L2 in S1 as [S1 _].
        destruct (lev_of i (o_t (w_heap w d)) (o_a (w_heap w d))) eqn:El; [reflexivity| |];
          [apply lev_L1 in El as [El _]|apply lev_L2 in El as [El _]];
          destruct (i_dt _ _ I _ _ El) as [t2 [H2 H3]]; assert (t2 = t) by congruence; subst t2;
          cbn in S2; rewrite H3 in S2; exfalso; exact (lev_L0 _ _ _ S2 El). }
      rewrite E. exact S3.
    + (* SIfFound *)
      destruct Hs as [Hs|Hs]; [|discriminate]. injection Hs as <- <-.
      eapply Hctl; eauto. unfold safe_task. rewrite Em. cbn. destruct (k_local t); exact (fun h => h).
    + (* SNew *)
      unfold safe_task in S. rewrite Em in S. cbn [safe] in S. destruct S as [S1 [S2 S3]].
      destruct (supported lib (rq_uri (k_req t))); destruct Hs as [Hs|Hs]; try discriminate;
        injection Hs as <- <-.
      * eapply inv_new; eauto. unfold safe_task. cbn [k_mode set_local].
        match goal with |- fst _ ?x => assert (E : x = a_l (abs_of w i t) true) end.
        { unfold abs_of, a_l. cbn. rewrite h_set_same. reflexivity. }
        rewrite E. exact S2.
      * eapply Hctl; eauto.
    + (* SSet *)
      unfold safe_task in S. rewrite Em in S. cbn [safe] in S. destruct S as [S1 [S2 S3]].
      cbn in S1, S2. destruct (k_local t) as [d|] eqn:El; [|discriminate].
      destruct Hs as [Hs|Hs]; [|discriminate]. injection Hs as <- <-.
      pose proof S1 as S1'. apply lev_L2 in S1' as [St Sa].
      eapply inv_docs; eauto.
      * intros u e. rewrite d_get_set. destruct (str_eqb u (rq_uri (k_req t))).
        -- intros Hu. injection Hu as <-. exact (i_loc _ _ I _ _ _ H El).
        -- apply (i_doc _ _ I).
      * unfold safe_task. cbn [k_mode to_mode].
        match goal with |- fst _ ?x => assert (E : x = a_k (abs_of w i t) true) end.
        { unfold abs_of, a_k. cbn. rewrite S1, d_get_set, str_eqb_refl. reflexivity. }
        rewrite E. exact S3.
    + (* SDel *)
      unfold safe_task in S. rewrite Em in S. cbn [safe] in S. destruct S as [S1 [S2 S3]].
      cbn in S1, S2. rewrite S1 in S2.
      destruct (d_get (rq_uri (k_req t)) (w_docs w)) as [d|] eqn:Ed; [|discriminate].
      destruct Hs as [Hs|Hs]; [|discriminate]. injection Hs as <- <-.
      pose proof S1 as S1'. apply lev_L2 in S1' as [St Sa].
      eapply inv_docs; eauto.
      * intros u e. rewrite d_get_del. destruct (str_eqb u (rq_uri (k_req t))); [discriminate|].
        apply (i_doc _ _ I).
      * unfold safe_task. cbn [k_mode to_mode].
        match goal with |- fst _ ?x => assert (E : x = a_k (abs_of w i t) false) end.
        { unfold abs_of, a_k. cbn. rewrite S1, d_get_del, str_eqb_refl. reflexivity. }
        rewrite E. exact S3.
    + (* SBody *)
      unfold safe_task in S. rewrite Em in S. cbn [safe] in S. destruct S as [S1 [S2 [S3 S4]]].
      cbn in S1, S2. destruct (k_local t) as [d|] eqn:El; [|discriminate].
      apply lev_L2 in S2 as [St Sa].
      destruct (on_request lib (k_req t) (o_doc (w_heap w d))) as [doc' r] eqn:Er.
      assert (E : forall t'', k_local t'' = k_local t -> k_req t'' = k_req t ->
         abs_of (set_heap w d {| o_doc := doc'; o_t := o_t (w_heap w d); o_a := o_a (w_heap w d) |})
                i t'' = abs_of w i t).
      { intros t'' E1 E2. unfold abs_of. cbn. rewrite E1, E2, El, h_set_same. reflexivity. }
      destruct r as [a|]; destruct Hs as [Hs|Hs]; try discriminate; injection Hs as <- <-.
      * eapply inv_object; eauto; try reflexivity; cbn; auto.
        unfold safe_task. cbn [k_mode set_ans]. rewrite E by reflexivity. exact S3.
      * eapply inv_object; eauto; try reflexivity; cbn; auto.
        unfold safe_task. cbn [k_mode to_mode]. rewrite E by reflexivity. exact S4.
    + (* SSuspend *)
      unfold safe_task in S. rewrite Em in S. destruct S.
  - destruct (k_stack t) as [|f st] eqn:Est; [destruct Hs; discriminate|].
    destruct f; destruct Hs as [Hs|Hs]; try discriminate; injection Hs as <- <-;
      eapply Hctl; eauto; unfold safe_task; rewrite Em, Est; cbn; try exact (fun h => h).
    destruct cancelled; cbn; [intros []|exact (fun h => h)].
  - destruct (k_stack t) as [|f st] eqn:Est; [destruct Hs; discriminate|].
    unfold safe_task in S. rewrite Em, Est in S.
    destruct c; [destruct S; discriminate|].
    destruct f; destruct Hs as [Hs|Hs]; try discriminate; injection Hs as <- <-;
      eapply Hctl; eauto; unfold safe_task; rewrite Em, Est; cbn; try exact (fun h => h).
    destruct cancelled; cbn; exact (fun h => h).
Qed.

(** ** The start *)
Definition idle (a : abs) : Prop := ac a = L0 /\ ad a = L0 /\ al a = false.

Lemma handler_safe k a : idle a -> safe (handler k) fin fin a.
Proof.
  intros [H1 [H2 H3]]. destruct a as [c d l kk]. cbn in H1, H2, H3. subst.
  destruct k; cbn;
    repeat match goal with
           | |- _ /\ _ => split
           | |- forall b : bool, _ => intros []; cbn
           | |- fin _ => unfold fin; cbn
           | |- _ = _ => reflexivity
           end.
Qed.

Lemma handler_idle k a : safe (handler k) fin fin a -> ac a = L0 /\ ad a = L0.
Proof. destruct k; cbn; intros [H1 [H2 _]]; auto. Qed.

Definition all_new (ts : list task) : Prop :=
  forall i t, nth_error ts i = Some t -> t = new_task handler (k_req t).

Lemma map_new rs : all_new (map (new_task handler) rs).
Proof.
  intros i t H. rewrite nth_error_map in H. destruct (nth_error rs i); [|discriminate].
  injection H as <-. reflexivity.
Qed.

Lemma inv_start rs : inv (start_world lib) (map (new_task handler) rs).
Proof.
  constructor; cbn; try discriminate.
  - intros i t H. rewrite (map_new _ _ _ H). unfold safe_task. cbn [k_mode new_task k_stack st_ok fst snd].
    apply handler_safe. repeat split.
  - intros i t d H. rewrite (map_new _ _ _ H). discriminate.
Qed.

Lemma inv_tsteps n c c' : tsteps lib n c c' -> inv (fst c) (snd c) -> inv (fst c') (snd c').
Proof.
  induction 1 as [|n c c' c'' _ IH St]; [auto|]. intros I. specialize (IH I).
  destruct St as [i w ts t w' t' H Hs]. cbn in *. eapply inv_step; eauto.
Qed.

(** ** Finished handlers hold nothing *)
Lemma holds_unfinished w ts i : inv w ts -> holds w i ->
  exists t, nth_error ts i = Some t /\ ~ finished t.
Proof.
  intros I Hh.
  assert (G : w_t w = Some i \/ exists d, o_t (w_heap w d) = Some i).
  { destruct Hh as [Hh|[Hh|[d [Hh|Hh]]]]; auto.
    - left. exact (i_at _ _ I _ Hh).
    - right. exists d. exact Hh.
    - right. exists d. exact (i_dat _ _ I _ _ Hh). }
  assert (F : forall t, nth_error ts i = Some t -> finished t -> fin (abs_of w i t)).
  { intros t H [F1 F2]. pose proof (i_safe _ _ I _ _ H) as S. unfold safe_task in S.
    destruct F2 as [F2|[c F2]]; rewrite F2, F1 in S; [exact S|]. destruct c; [exact (proj2 S)|exact S]. }
  destruct G as [G|[d G]].
  - destruct (i_ct _ _ I _ G) as [t H]. exists t. split; [exact H|]. intros Ft.
    destruct (F _ H Ft) as [F1 _]. exact (lev_L0 _ _ _ F1 G).
  - destruct (i_dt _ _ I _ _ G) as [t [H Hl]]. exists t. split; [exact H|]. intros Ft.
    destruct (F _ H Ft) as [_ F1]. cbn in F1. rewrite Hl in F1. exact (lev_L0 _ _ _ F1 G).
Qed.

(** ** Progress *)
Definition acts i w (t : task) : Prop := exists w' t', step i w t = ONext w' t'.

(** A handler acts, has ended, or waits for a lock another one holds; if that lock is the one of
    a document, it holds no document itself. *)
Lemma step_cases w ts i t : inv w ts -> nth_error ts i = Some t ->
  acts i w t \/ finished t \/
  (exists j, i <> j /\ w_t w = Some j /\ ad (abs_of w i t) = L0 /\ ac (abs_of w i t) = L0) \/
  (exists j d, i <> j /\ o_t (w_heap w d) = Some j /\ ad (abs_of w i t) = L0).
Proof.
  intros I H. pose proof (i_safe _ _ I _ _ H) as S. unfold safe_task in S.
  unfold acts, LockModel.step.
  destruct (k_mode t) as [s| |c] eqn:Em.
  - destruct s; try (left; eexists; eexists; reflexivity).
    + unfold step_acquire. destruct l; cbn [lock_get].
      * destruct (w_t w) as [j|] eqn:Et; [|left; eexists; eexists; reflexivity].
        cbn in S. destruct S as [S1 [S2 _]]. right; right; left. exists j.
        split; [|auto]. intros ->. rewrite Et in S1. exact (lev_L0 _ _ _ S1 eq_refl).
      * destruct (k_local t) as [d|] eqn:El; [|left; eexists; eexists; reflexivity].
        destruct (o_t (w_heap w d)) as [j|] eqn:Et; [|left; eexists; eexists; reflexivity].
        cbn in S. destruct S as [S1 [S2 _]]. right; right; right. exists j, d.
        split; [|auto]. intros ->. rewrite El, Et in S2. exact (lev_L0 _ _ _ S2 eq_refl).
    + unfold step_acquire. destruct l; cbn [lock_get].
      * destruct (w_a w) as [j|] eqn:Et; [|left; eexists; eexists; reflexivity].
        cbn in S. destruct S as [S1 _]. apply lev_L1 in S1 as [S1 S2].
        pose proof (i_at _ _ I _ Et). congruence.
      * destruct (k_local t) as [d|] eqn:El; [|left; eexists; eexists; reflexivity].
        destruct (o_a (w_heap w d)) as [j|] eqn:Et; [|left; eexists; eexists; reflexivity].
        cbn in S. destruct S as [_ [S1 _]]. rewrite El in S1. apply lev_L1 in S1 as [S1 S2].
        pose proof (i_dat _ _ I _ _ Et). congruence.
    + unfold step_release. destruct (lock_get w (k_local t) l PThread) as [[?|]|];
        left; eexists; eexists; reflexivity.
    + unfold step_release. destruct (lock_get w (k_local t) l PAsync) as [[?|]|];
        left; eexists; eexists; reflexivity.
    + destruct (supported lib (rq_uri (k_req t))); left; eexists; eexists; reflexivity.
    + destruct (k_local t); left; eexists; eexists; reflexivity.
    + destruct (d_get (rq_uri (k_req t)) (w_docs w)); left; eexists; eexists; reflexivity.
    + destruct (k_local t) as [d|]; [|left; eexists; eexists; reflexivity].
      destruct (on_request lib (k_req t) (o_doc (w_heap w d))) as [doc' [a|]];
        left; eexists; eexists; reflexivity.
    + destruct S.
  - destruct (k_stack t) as [|f st] eqn:Est; [right; left; split; auto|].
    destruct f; left; eexists; eexists; reflexivity.
  - destruct (k_stack t) as [|f st] eqn:Est; [right; left; split; eauto|].
    destruct f; try (left; eexists; eexists; reflexivity).
    destruct c; left; eexists; eexists; reflexivity.
Qed.

Lemma doc_holder_acts w ts j d : inv w ts -> o_t (w_heap w d) = Some j ->
  exists t, nth_error ts j = Some t /\ acts j w t.
Proof.
  intros I G. destruct (i_dt _ _ I _ _ G) as [t [H Hl]]. exists t. split; [exact H|].
  assert (A : ad (abs_of w j t) <> L0).
  { cbn. rewrite Hl. intros E. exact (lev_L0 _ _ _ E G). }
  destruct (step_cases _ _ _ _ I H) as [C|[C|[[k [_ [_ [C _]]]]|[k [e [_ [_ C]]]]]]]; auto; try contradiction.
  exfalso. assert (Hh : holds w j) by (right; right; exists d; auto).
  destruct (holds_unfinished _ _ _ I Hh) as [t2 [H2 H3]]. congruence.
Qed.

Lemma progress w ts i t : inv w ts -> nth_error ts i = Some t -> ~ finished t ->
  exists j tj, nth_error ts j = Some tj /\ acts j w tj.
Proof.
  intros I H Nf. destruct (step_cases _ _ _ _ I H) as [C|[C|[[j [Nj [C _]]]|[j [d [Nj [C _]]]]]]].
  - exists i, t. auto.
  - contradiction.
  - destruct (i_ct _ _ I _ C) as [tj Hj].
    destruct (step_cases _ _ _ _ I Hj) as [C2|[C2|[[k [Nk [C2 _]]]|[k [d [Nk [C2 _]]]]]]].
    + exists j, tj. auto.
    + exfalso. assert (Hh : holds w j) by (left; auto).
      destruct (holds_unfinished _ _ _ I Hh) as [t2 [H2 H3]]. congruence.
    + congruence.
    + destruct (doc_holder_acts _ _ _ _ I C2) as [t2 [H2 H3]]. eauto.
  - destruct (doc_holder_acts _ _ _ _ I C) as [t2 [H2 H3]]. eauto.
Qed.

(** ** Every handler ends *)
Fixpoint size (s : stmt) : nat :=
  match s with
  | SSeq a b => 1 + size a + size b
  | SFinally a b | SOnError a b => 2 + size a + size b
  | SSuppress a => 2 + size a
  | SIfFound a b => 1 + size a + size b
  | _ => 2
  end.
Lemma size_pos s : 1 <= size s.
Proof. induction s; cbn; lia. Qed.

Definition fsize (f : frame) : nat :=
  match f with FSeq b => size b | FSuppress => 1 | FFinally b | FOnError b => 1 + size b
             | FReraise _ => 1 end.
Definition msize (m : mode) : nat := match m with MRun s => size s | _ => 1 end.
Definition tsize (t : task) : nat := msize (k_mode t) + list_sum (map fsize (k_stack t)).

Lemma step_size i w t w' t' :
  step i w t = ONext w' t' \/ step i w t = OSusp w' t' -> tsize t' < tsize t.
Proof.
  intros Hs. unfold tsize, list_sum. unfold LockModel.step in Hs.
  destruct (k_mode t) as [s| |c] eqn:Em; rewrite ?Em.
  - destruct s; cbn [msize size]; unfold step_acquire, step_release in Hs;
      repeat match type of Hs with
             | context [match ?x with _ => _ end] =>
                 match x with
                 | k_stack _ => fail 1
                 | _ => destruct x
                 end
             end;
      destruct Hs as [Hs|Hs]; try discriminate; injection Hs as <- <-; cbn; try lia.
  - destruct (k_stack t) as [|f st]; [destruct Hs; discriminate|].
    destruct f; destruct Hs as [Hs|Hs]; try discriminate; injection Hs as <- <-; cbn; lia.
  - destruct (k_stack t) as [|f st]; [destruct Hs; discriminate|].
    destruct f; try pose proof (size_pos b);
      try destruct c; destruct Hs as [Hs|Hs]; try discriminate; injection Hs as <- <-; cbn; lia.
Qed.

Definition total (ts : list task) : nat := list_sum (map tsize ts).

Lemma total_set i t t' ts : nth_error ts i = Some t -> tsize t' < tsize t ->
  total (set_nth i t' ts) < total ts.
Proof.
  unfold total, list_sum. revert ts. induction i as [|i IH]; intros [|x ts] H Hlt; try discriminate; cbn in *.
  - injection H as ->. lia.
  - specialize (IH _ H Hlt). lia.
Qed.

Lemma tstep_total c c' : tstep lib c c' -> total (snd c') < total (snd c).
Proof.
  intros [i w ts t w' t' H Hs]. cbn. eapply total_set; eauto. eapply step_size; eauto.
Qed.

Lemma tsteps_total n c c' : tsteps lib n c c' -> n + total (snd c') <= total (snd c).
Proof.
  induction 1 as [|n c c' c'' _ IH St]; [lia|]. apply tstep_total in St. lia.
Qed.

Lemma finished_dec (t : task) : {finished t} + {~ finished t}.
Proof.
  unfold finished. destruct (k_stack t); [|right; intros [? _]; discriminate].
  destruct (k_mode t).
  - right. intros [_ [?|[? ?]]]; discriminate.
  - left. auto.
  - left. split; [reflexivity|]. right. eauto.
Qed.

Lemma all_finished_dec (ts : list task) :
  (forall t, In t ts -> finished t) \/ exists i t, nth_error ts i = Some t /\ ~ finished t.
Proof.
  induction ts as [|x ts IH]; [left; intros t []|].
  destruct (finished_dec x) as [F|F]; [|right; exists 0, x; auto].
  destruct IH as [IH|[i [t [H1 H2]]]].
  - left. intros t [<-|H]; auto.
  - right. exists (S i), t. auto.
Qed.

Lemma tsteps_trans n m c c' c'' :
  tsteps lib n c c' -> tsteps lib m c' c'' -> tsteps lib (n + m) c c''.
Proof.
  intros H1 H2. revert H1. induction H2 as [|m c1 c2 c3 _ IH St]; intros H1.
  - rewrite Nat.add_0_r. exact H1.
  - rewrite Nat.add_succ_r. econstructor; eauto.
Qed.

Lemma complete c : inv (fst c) (snd c) ->
  exists n c', tsteps lib n c c' /\ forall t, In t (snd c') -> finished t.
Proof.
  remember (total (snd c)) as m eqn:Em. revert c Em.
  induction m as [m IH] using lt_wf_ind. intros [w ts] -> I. cbn in *.
  destruct (all_finished_dec ts) as [F|[i [t [H Nf]]]].
  - exists 0, (w, ts). split; [constructor|exact F].
  - destruct (progress _ _ _ _ I H Nf) as [j [tj [Hj [w' [t' St]]]]].
    assert (T : tstep lib (w, ts) (w', set_nth j t' ts)) by (econstructor; eauto).
    pose proof (tstep_total _ _ T) as L. cbn in L.
    assert (I' : inv w' (set_nth j t' ts)) by (eapply inv_step; eauto).
    destruct (IH _ L (w', set_nth j t' ts) eq_refl I') as [n [c' [H1 H2]]].
    exists (1 + n), c'. split; [|exact H2].
    eapply tsteps_trans; [|exact H1]. econstructor; [constructor|exact T].
Qed.

End Proofs.

(** The handlers in one event loop: none ever waits, and the server behaves as the function
    [serve] applied to the requests one after the other. *)
From Verif Require Import Base Dict LockModel LockSpec LockProofs.
From Coq Require Import Lia.
Local Open Scope nat_scope.

Section Loop.
Context {Doc Par Ans : Type}.
Variable lib : library Doc Par Ans.
Notation world := (world Doc).
Notation task := (task Par Ans).
Notation step := (step lib).

(** ** Runs of one handler *)
Fixpoint iter (n : nat) (i : nat) (w : world) (t : task) : option (world * task) :=
  match n with
  | O => Some (w, t)
  | S n => match step i w t with ONext w' t' => iter n i w' t' | _ => None end
  end.

Definition runs i w t w' t' : Prop := exists n, iter n i w t = Some (w', t').

Lemma iter_app n m i w t : iter (n + m) i w t =
  match iter n i w t with Some (w', t') => iter m i w' t' | None => None end.
Proof.
  revert w t. induction n as [|n IH]; intros w t; [reflexivity|]. cbn.
  destruct (step i w t); auto.
Qed.

Lemma runs_refl i w t : runs i w t w t. Proof. exists 0. reflexivity. Qed.
Lemma runs_trans i w t w1 t1 w2 t2 : runs i w t w1 t1 -> runs i w1 t1 w2 t2 -> runs i w t w2 t2.
Proof. intros [n H1] [m H2]. exists (n + m). rewrite iter_app, H1. exact H2. Qed.
Lemma runs_step i w t w1 t1 w2 t2 :
  step i w t = ONext w1 t1 -> runs i w1 t1 w2 t2 -> runs i w t w2 t2.
Proof. intros H1 [m H2]. exists (S m). cbn. rewrite H1. exact H2. Qed.

Lemma finished_step i w t : finished t -> step i w t = OEnd.
Proof.
  intros [F1 F2]. unfold LockModel.step. rewrite F1. destruct F2 as [->|[c ->]]; reflexivity.
Qed.

Lemma iter_finished n i w t w' t' : finished t -> iter n i w t = Some (w', t') -> w' = w /\ t' = t.
Proof.
  intros F H. destruct n; cbn in H; [split; congruence|]. rewrite finished_step in H by assumption.
  discriminate.
Qed.

Lemma runs_unique i w t w1 t1 w2 t2 :
  runs i w t w1 t1 -> finished t1 -> runs i w t w2 t2 -> finished t2 -> w1 = w2 /\ t1 = t2.
Proof.
  intros [n H1] F1 [m H2] F2. destruct (Nat.le_ge_cases n m) as [L|L].
  - replace m with (n + (m - n)) in H2 by lia. rewrite iter_app, H1 in H2.
    apply iter_finished in H2 as [-> ->]; auto.
  - replace n with (m + (n - m)) in H1 by lia. rewrite iter_app, H2 in H1.
    apply iter_finished in H1 as [-> ->]; auto.
Qed.

(** ** Runs of the parts of a handler *)
Definition tk (r : request Par) m st lo an : task :=
  {| k_req := r; k_mode := m; k_stack := st; k_local := lo; k_ans := an |}.
Definition mkw dd h n t a : world :=
  {| w_docs := dd; w_heap := h; w_next := n; w_t := t; w_a := a |}.

Ltac tidy := unfold to_mode, set_local, set_ans, lock_set, set_heap, set_docs; cbn.
Ltac go := eapply runs_step; [reflexivity|]; tidy.

Lemma run_acq_cache i r st lo an dd h n :
  runs i (mkw dd h n None None) (tk r (MRun (acquire LCache)) st lo an)
         (mkw dd h n (Some i) (Some i)) (tk r MRet st lo an).
Proof. unfold tk, mkw. do 6 go. apply runs_refl. Qed.

Lemma run_rel_cache i j k r st lo an dd h n :
  runs i (mkw dd h n (Some j) (Some k)) (tk r (MRun (release LCache)) st lo an)
         (mkw dd h n None None) (tk r MRet st lo an).
Proof. unfold tk, mkw. do 8 go. apply runs_refl. Qed.

(** [h'] is [h] but for the object [d]. *)
Definition obj_set (h h' : nat -> obj Doc) (d : nat) (o : obj Doc) : Prop :=
  h' d = o /\ forall e, e <> d -> h' e = h e.

Lemma obj_set_h_set h d o : obj_set h (h_set h d o) d o.
Proof.
  split; [apply h_set_same|]. intros e He. apply h_set_other. assumption.
Qed.
Lemma obj_set_trans h h1 h2 d o1 o2 : obj_set h h1 d o1 -> obj_set h1 h2 d o2 -> obj_set h h2 d o2.
Proof.
  intros [A1 A2] [B1 B2]. split; [exact B1|]. intros e He. rewrite B2, A2 by assumption. reflexivity.
Qed.

Lemma run_acq_doc i r st d an dd h n t a doc :
  h d = {| o_doc := doc; o_t := None; o_a := None |} ->
  exists h', runs i (mkw dd h n t a) (tk r (MRun (acquire LDoc)) st (Some d) an)
                    (mkw dd h' n t a) (tk r MRet st (Some d) an)
    /\ obj_set h h' d {| o_doc := doc; o_t := Some i; o_a := Some i |}.
Proof.
  intros Hd. eexists. split.
  - unfold tk, mkw. do 2 go.
    eapply runs_step; [unfold LockModel.step, step_acquire; cbn; rewrite Hd; reflexivity|].
    tidy. go.
    eapply runs_step; [unfold LockModel.step, step_acquire; cbn; rewrite h_set_same; cbn; reflexivity|].
    tidy. go. apply runs_refl.
  - cbn. eapply obj_set_trans; [apply obj_set_h_set|]. cbn.
    apply obj_set_h_set.
Qed.

Lemma run_rel_doc i j k r st d an dd h n t a doc :
  h d = {| o_doc := doc; o_t := Some j; o_a := Some k |} ->
  exists h', runs i (mkw dd h n t a) (tk r (MRun (release LDoc)) st (Some d) an)
                    (mkw dd h' n t a) (tk r MRet st (Some d) an)
    /\ obj_set h h' d {| o_doc := doc; o_t := None; o_a := None |}.
Proof.
  intros Hd. eexists. split.
  - unfold tk, mkw. do 2 go.
    eapply runs_step; [unfold LockModel.step, step_release; cbn; rewrite Hd; reflexivity|].
    tidy. do 3 go.
    eapply runs_step; [unfold LockModel.step, step_release; cbn; rewrite h_set_same; cbn; reflexivity|].
    tidy. go. apply runs_refl.
  - cbn. eapply obj_set_trans; [apply obj_set_h_set|]. cbn.
    apply obj_set_h_set.
Qed.

Lemma run_get_open i r st lo an dd h n t a d :
  d_get (rq_uri r) dd = Some d ->
  runs i (mkw dd h n t a) (tk r (MRun get_document) st lo an)
         (mkw dd h n t a) (tk r MRet st (Some d) an).
Proof.
  intros Hd. unfold tk, mkw. go. go. rewrite Hd. go. go. go. apply runs_refl.
Qed.

Lemma run_get_new i r st lo an dd h n t a :
  d_get (rq_uri r) dd = None -> supported lib (rq_uri r) = true ->
  exists h', runs i (mkw dd h n t a) (tk r (MRun get_document) st lo an)
    (mkw (d_set (rq_uri r) n dd) h' (S n) t a) (tk r MRet st (Some n) an)
    /\ obj_set h h' n {| o_doc := new_doc lib; o_t := None; o_a := None |}.
Proof.
  intros Hd Hs.
  destruct (run_acq_doc i r (FSeq (SFinally SSet (release LDoc)) :: st) n an dd
              (h_set h n {| o_doc := new_doc lib; o_t := None; o_a := None |}) (S n) t a
              (new_doc lib) (h_set_same _ _ _)) as [h1 [R1 O1]].
  destruct (run_rel_doc i i i r st n an (d_set (rq_uri r) n dd) h1 (S n) t a _ (proj1 O1))
    as [h2 [R2 O2]].
  exists h2. split.
  - unfold tk, mkw. go. go. rewrite Hd. go. go. go.
    eapply runs_step; [unfold LockModel.step; cbn; rewrite Hs; reflexivity|]. tidy. go. go.
    eapply runs_trans; [exact R1|]. unfold tk, mkw. go. go. go. go. exact R2.
  - eapply obj_set_trans; [apply obj_set_h_set|]. eapply obj_set_trans; [exact O1|exact O2].
Qed.

Lemma run_get_unsupported i r st lo an dd h n t a :
  d_get (rq_uri r) dd = None -> supported lib (rq_uri r) = false ->
  runs i (mkw dd h n t a) (tk r (MRun get_document) st lo an)
         (mkw dd h n t a) (tk r (MExc false) st None an).
Proof.
  intros Hd Hs. unfold tk, mkw. go. go. rewrite Hd. go. go. go.
  eapply runs_step; [unfold LockModel.step; cbn; rewrite Hs; reflexivity|]. tidy. go. apply runs_refl.
Qed.

(** Looking up or making the document: afterwards it is unlocked and known under the URI. *)
Lemma run_get i r st lo an dd h n t a s :
  (forall u d, d_get u dd = Some d -> d < n) ->
  (forall u v d, d_get u dd = Some d -> d_get v dd = Some d -> u = v) ->
  (forall d, d < n -> o_t (h d) = None /\ o_a (h d) = None) ->
  (forall u, s u = match d_get u dd with Some d => Some (o_doc (h d)) | None => None end) ->
  match (match s (rq_uri r) with
         | Some doc => Some doc
         | None => if supported lib (rq_uri r) then Some (new_doc lib) else None end) with
  | Some doc =>
      exists dd' h' n' d,
        runs i (mkw dd h n t a) (tk r (MRun get_document) st lo an)
               (mkw dd' h' n' t a) (tk r MRet st (Some d) an)
        /\ d_get (rq_uri r) dd' = Some d
        /\ (forall u d, d_get u dd' = Some d -> d < n')
        /\ (forall u v d, d_get u dd' = Some d -> d_get v dd' = Some d -> u = v)
        /\ (forall d, d < n' -> o_t (h' d) = None /\ o_a (h' d) = None)
        /\ o_doc (h' d) = doc
        /\ (forall u, u <> rq_uri r -> s u = match d_get u dd' with
                                            | Some e => Some (o_doc (h' e)) | None => None end)
  | None =>
      runs i (mkw dd h n t a) (tk r (MRun get_document) st lo an)
             (mkw dd h n t a) (tk r (MExc false) st None an)
  end.
Proof.
  intros Hlt Hinj Hfree Hs. rewrite Hs.
  destruct (d_get (rq_uri r) dd) as [d|] eqn:Ed.
  - exists dd, h, n, d. split; [apply run_get_open; exact Ed|]. repeat split; auto; apply Hfree; auto.
  - destruct (supported lib (rq_uri r)) eqn:Esup.
    + destruct (run_get_new i r st lo an dd h n t a Ed Esup) as [h' [R [O1 O2]]].
      exists (d_set (rq_uri r) n dd), h', (S n), n. split; [exact R|].
      split; [rewrite d_get_set, str_eqb_refl; reflexivity|].
      split.
      { intros u e. rewrite d_get_set. destruct (str_eqb u (rq_uri r)); intros H.
        - injection H as <-. lia.
        - specialize (Hlt _ _ H). lia. }
      split.
      { intros u v e. rewrite !d_get_set.
        destruct (str_eqb u (rq_uri r)) eqn:E1, (str_eqb v (rq_uri r)) eqn:E2; intros H1 H2.
        - apply str_eqb_eq in E1, E2. congruence.
        - injection H1 as <-. specialize (Hlt _ _ H2). lia.
        - injection H2 as <-. specialize (Hlt _ _ H1). lia.
        - eapply Hinj; eauto. }
      split.
      { intros e He. destruct (Nat.eq_dec e n) as [->|Ne]; [rewrite O1; cbn; auto|].
        rewrite O2 by assumption. apply Hfree. lia. }
      split; [rewrite O1; reflexivity|].
      intros u Hu. rewrite d_get_set. destruct (str_eqb u (rq_uri r)) eqn:Eu.
      { apply str_eqb_eq in Eu. contradiction. }
      rewrite Hs. destruct (d_get u dd) as [e|] eqn:Ee; [|reflexivity].
      rewrite O2; [reflexivity|]. specialize (Hlt _ _ Ee). lia.
    + apply run_get_unsupported; assumption.
Qed.

(** ** A whole handler *)
Record wok (w : world) : Prop := {
  k_lt : forall u d, d_get u (w_docs w) = Some d -> d < w_next w;
  k_inj : forall u v d, d_get u (w_docs w) = Some d -> d_get v (w_docs w) = Some d -> u = v;
  k_free : forall d, d < w_next w -> o_t (w_heap w d) = None /\ o_a (w_heap w d) = None;
  k_t : w_t w = None;
  k_a : w_a w = None
}.

(** [SBody] and releasing the document, in the situation [run_get] and [run_acq_doc] leave. *)
Lemma run_body i r st d an dd h n t a doc :
  h d = {| o_doc := doc; o_t := Some i; o_a := Some i |} ->
  exists h' o, runs i (mkw dd h n t a)
         (tk r (MRun (SFinally SBody (release LDoc))) st (Some d) an)
         (mkw dd h' n t a)
         (tk r (match snd (on_request lib r doc) with Some _ => MRet | None => MExc false end)
             st (Some d) o)
    /\ (forall x, snd (on_request lib r doc) = Some x -> o = Some x)
    /\ obj_set h h' d {| o_doc := fst (on_request lib r doc); o_t := None; o_a := None |}.
Proof.
  intros Hd. destruct (on_request lib r doc) as [doc' res] eqn:Er. cbn [fst snd].
  set (h1 := h_set h d {| o_doc := doc'; o_t := Some i; o_a := Some i |}).
  assert (E1 : h1 d = {| o_doc := doc'; o_t := Some i; o_a := Some i |}) by apply h_set_same.
  destruct res as [x|].
  - destruct (run_rel_doc i i i r st d (Some x) dd h1 n t a _ E1) as [h2 [R2 O2]].
    exists h2, (Some x). split; [|split].
    + unfold tk, mkw. go.
      eapply runs_step; [unfold LockModel.step; cbn; rewrite Hd; cbn; rewrite Er; reflexivity|].
      tidy. go. exact R2.
    + congruence.
    + eapply obj_set_trans; [apply obj_set_h_set|exact O2].
  - destruct (run_rel_doc i i i r (FReraise false :: st) d an dd h1 n t a _ E1) as [h2 [R2 O2]].
    exists h2, an. split; [|split].
    + unfold tk, mkw. go.
      eapply runs_step; [unfold LockModel.step; cbn; rewrite Hd; cbn; rewrite Er; reflexivity|].
      tidy. go. eapply runs_trans; [exact R2|]. unfold tk, mkw. go. apply runs_refl.
    + discriminate.
    + eapply obj_set_trans; [apply obj_set_h_set|exact O2].
Qed.

(** What a run of a handler must achieve. *)
Definition served (i : nat) (r : request Par) (w : world) (prog : stmt) : Prop :=
  exists w' t', runs i w (tk r (MRun prog) [] None None) w' t' /\ finished t' /\ wok w'
    /\ (forall u, view w' u = fst (serve lib r (view w)) u)
    /\ reply t' = Some (snd (serve lib r (view w))).

Lemma served_use i r w : wok w -> rq_kind r <> KClose -> served i r w (use_document SBody).
Proof.
  intros K Hk. destruct w as [dd h n t a]. destruct K as [Klt Kinj Kfree Kt Ka]. cbn in *. subst t a.
  pose proof (run_get i r (FSeq (acquire LDoc) :: FFinally (release LCache)
                :: FSeq (SFinally SBody (release LDoc)) :: []) None None dd h n (Some i) (Some i)
                (view (mkw dd h n None None)) Klt Kinj Kfree (fun _ => eq_refl)) as G.
  unfold served, serve.
  set (s := view (mkw dd h n None None)) in *.
  change (view {| w_docs := dd; w_heap := h; w_next := n; w_t := None; w_a := None |}) with s.
  assert (Start : runs i (mkw dd h n None None) (tk r (MRun (use_document SBody)) [] None None)
     (mkw dd h n (Some i) (Some i)) (tk r (MRun get_document)
        (FSeq (acquire LDoc) :: FFinally (release LCache)
           :: FSeq (SFinally SBody (release LDoc)) :: []) None None)).
  { unfold tk, mkw. go. go. eapply runs_trans; [apply run_acq_cache|]. unfold tk, mkw. go. go. go.
    apply runs_refl. }
  assert (Go : forall doc,
     match s (rq_uri r) with Some doc => Some doc | None =>
       if supported lib (rq_uri r) then Some (new_doc lib) else None end = Some doc ->
     exists w' t', runs i (mkw dd h n None None) (tk r (MRun (use_document SBody)) [] None None) w' t'
       /\ finished t' /\ wok w'
       /\ (forall u, view w' u = upd s (rq_uri r) (Some (fst (on_request lib r doc))) u)
       /\ reply t' = Some (snd (on_request lib r doc))).
  { intros doc Hdoc. rewrite Hdoc in G.
    destruct G as [dd' [h' [n' [d [R [Ed [Hlt [Hinj [Hfree [Hd Hv]]]]]]]]]].
    assert (Hd' : h' d = {| o_doc := doc; o_t := None; o_a := None |}).
    { destruct (Hfree d (Hlt _ _ Ed)) as [F1 F2]. destruct (h' d). cbn in *. congruence. }
    destruct (run_acq_doc i r (FFinally (release LCache)
                :: FSeq (SFinally SBody (release LDoc)) :: []) d None dd' h' n' (Some i) (Some i) _ Hd')
      as [h1 [R1 O1]].
    destruct (run_body i r [] d None dd' h1 n' None None _ (proj1 O1)) as [h2 [o [R2 [Ho O2]]]].
    pose proof (obj_set_trans _ _ _ _ _ _ O1 O2) as [O3 O4].
    eexists. eexists. split; [|split; [|split; [|split]]].
    - eapply runs_trans; [exact Start|]. eapply runs_trans; [exact R|]. unfold tk, mkw. go.
      eapply runs_trans; [exact R1|]. unfold tk, mkw. go.
      eapply runs_trans; [apply run_rel_cache|]. unfold tk, mkw. go. exact R2.
    - split; [reflexivity|]. cbn. destruct (snd (on_request lib r doc)); eauto.
    - constructor; cbn; auto.
      intros e He. destruct (Nat.eq_dec e d) as [->|Ne]; [rewrite O3; cbn; auto|].
      rewrite O4 by assumption. apply Hfree. assumption.
    - intros u. unfold view, upd. cbn. destruct (str_eqb u (rq_uri r)) eqn:Eu.
      + apply str_eqb_eq in Eu. subst u. rewrite Ed, O3. reflexivity.
      + assert (Nu : u <> rq_uri r) by (intros ->; rewrite str_eqb_refl in Eu; discriminate).
        rewrite (Hv u Nu). destruct (d_get u dd') as [e|] eqn:Ee; [|reflexivity].
        rewrite O4; [reflexivity|]. intros ->. apply Nu. eapply Hinj; eauto.
    - unfold reply. cbn. destruct (snd (on_request lib r doc)) as [x|] eqn:Ex; [|reflexivity].
      rewrite (Ho x eq_refl). reflexivity. }
  assert (Ek : forall (o : option Ans) (x : Doc),
     match rq_kind r, o with KClose, Some _ => None | _, _ => Some x end = Some x)
    by (intros o x; destruct (rq_kind r); try reflexivity; contradiction).
  destruct (s (rq_uri r)) as [doc|].
  - destruct (on_request lib r doc) as [doc' res] eqn:Er. cbn [fst snd]. rewrite Ek.
    specialize (Go doc eq_refl). rewrite Er in Go. exact Go.
  - destruct (supported lib (rq_uri r)).
    + destruct (on_request lib r (new_doc lib)) as [doc' res] eqn:Er. cbn [fst snd]. rewrite Ek.
      specialize (Go _ eq_refl). rewrite Er in Go. exact Go.
    + clear Go. eexists. eexists. split; [|split; [|split; [|split]]].
      * eapply runs_trans; [exact Start|]. eapply runs_trans; [exact G|]. unfold tk, mkw. go. go.
        eapply runs_trans; [apply run_rel_cache|]. unfold tk, mkw. go. go. apply runs_refl.
      * split; [reflexivity|]. right. eexists. reflexivity.
      * constructor; cbn; auto.
      * intros u. reflexivity.
      * reflexivity.
Qed.

Lemma served_close i r w : wok w -> rq_kind r = KClose -> served i r w (close_document SBody).
Proof.
  intros K Hk. destruct w as [dd h n t a]. destruct K as [Klt Kinj Kfree Kt Ka]. cbn in *. subst t a.
  pose proof (run_get i r (FSeq (SSeq (acquire LDoc) (SSeq (SFinally SBody (release LDoc)) SDel))
                :: FFinally (release LCache) :: []) None None dd h n (Some i) (Some i)
                (view (mkw dd h n None None)) Klt Kinj Kfree (fun _ => eq_refl)) as G.
  unfold served, serve. rewrite Hk.
  set (s := view (mkw dd h n None None)) in *.
  change (view {| w_docs := dd; w_heap := h; w_next := n; w_t := None; w_a := None |}) with s.
  assert (Start : runs i (mkw dd h n None None) (tk r (MRun (close_document SBody)) [] None None)
     (mkw dd h n (Some i) (Some i)) (tk r (MRun get_document)
        (FSeq (SSeq (acquire LDoc) (SSeq (SFinally SBody (release LDoc)) SDel))
                :: FFinally (release LCache) :: []) None None)).
  { unfold tk, mkw. go. eapply runs_trans; [apply run_acq_cache|]. unfold tk, mkw. go. go. go.
    apply runs_refl. }
  assert (Go : forall doc,
     match s (rq_uri r) with Some doc => Some doc | None =>
       if supported lib (rq_uri r) then Some (new_doc lib) else None end = Some doc ->
     exists w' t', runs i (mkw dd h n None None) (tk r (MRun (close_document SBody)) [] None None) w' t'
       /\ finished t' /\ wok w'
       /\ (forall u, view w' u = upd s (rq_uri r)
             (match snd (on_request lib r doc) with
              | Some _ => None | None => Some (fst (on_request lib r doc)) end) u)
       /\ reply t' = Some (snd (on_request lib r doc))).
  { intros doc Hdoc. rewrite Hdoc in G.
    destruct G as [dd' [h' [n' [d [R [Ed [Hlt [Hinj [Hfree [Hd Hv]]]]]]]]]].
    assert (Hd' : h' d = {| o_doc := doc; o_t := None; o_a := None |}).
    { destruct (Hfree d (Hlt _ _ Ed)) as [F1 F2]. destruct (h' d). cbn in *. congruence. }
    destruct (run_acq_doc i r (FSeq (SSeq (SFinally SBody (release LDoc)) SDel)
                :: FFinally (release LCache) :: []) d None dd' h' n' (Some i) (Some i) _ Hd')
      as [h1 [R1 O1]].
    destruct (run_body i r (FSeq SDel :: FFinally (release LCache) :: []) d None dd' h1 n'
                (Some i) (Some i) _ (proj1 O1)) as [h2 [o [R2 [Ho O2]]]].
    pose proof (obj_set_trans _ _ _ _ _ _ O1 O2) as [O3 O4].
    destruct (snd (on_request lib r doc)) as [x|] eqn:Ex.
    - exists (mkw (d_del (rq_uri r) dd') h2 n' None None), (tk r MRet [] (Some d) o).
      split; [|split; [|split; [|split]]].
      + eapply runs_trans; [exact Start|]. eapply runs_trans; [exact R|]. unfold tk, mkw. go. go.
        eapply runs_trans; [exact R1|]. unfold tk, mkw. go. go.
        eapply runs_trans; [exact R2|]. unfold tk, mkw. go.
        eapply runs_step; [unfold LockModel.step; cbn; rewrite Ed; reflexivity|]. tidy. go.
        apply run_rel_cache.
      + split; [reflexivity|]. left. reflexivity.
      + constructor; cbn; auto.
        * intros u e. rewrite d_get_del. destruct (str_eqb u (rq_uri r)); [discriminate|]. apply Hlt.
        * intros u v e. rewrite !d_get_del.
          destruct (str_eqb u (rq_uri r)), (str_eqb v (rq_uri r)); try discriminate. apply Hinj.
        * intros e He. destruct (Nat.eq_dec e d) as [->|Ne]; [rewrite O3; cbn; auto|].
          rewrite O4 by assumption. apply Hfree. assumption.
      + intros u. unfold view, upd. cbn. rewrite d_get_del. destruct (str_eqb u (rq_uri r)) eqn:Eu; [reflexivity|].
        assert (Nu : u <> rq_uri r) by (intros ->; rewrite str_eqb_refl in Eu; discriminate).
        rewrite (Hv u Nu). destruct (d_get u dd') as [e|] eqn:Ee; [|reflexivity].
        rewrite O4; [reflexivity|]. intros ->. apply Nu. eapply Hinj; eauto.
      + unfold reply. cbn. rewrite (Ho x eq_refl). reflexivity.
    - exists (mkw dd' h2 n' None None), (tk r (MExc false) [] (Some d) o).
      split; [|split; [|split; [|split]]].
      + eapply runs_trans; [exact Start|]. eapply runs_trans; [exact R|]. unfold tk, mkw. go. go.
        eapply runs_trans; [exact R1|]. unfold tk, mkw. go. go.
        eapply runs_trans; [exact R2|]. unfold tk, mkw. go. go.
        eapply runs_trans; [apply run_rel_cache|]. unfold tk, mkw. go. apply runs_refl.
      + split; [reflexivity|]. right. eexists. reflexivity.
      + constructor; cbn; auto.
        intros e He. destruct (Nat.eq_dec e d) as [->|Ne]; [rewrite O3; cbn; auto|].
        rewrite O4 by assumption. apply Hfree. assumption.
      + intros u. unfold view, upd. cbn. destruct (str_eqb u (rq_uri r)) eqn:Eu.
        * apply str_eqb_eq in Eu. subst u. rewrite Ed, O3. reflexivity.
        * assert (Nu : u <> rq_uri r) by (intros ->; rewrite str_eqb_refl in Eu; discriminate).
          rewrite (Hv u Nu). destruct (d_get u dd') as [e|] eqn:Ee; [|reflexivity].
          rewrite O4; [reflexivity|]. intros ->. apply Nu. eapply Hinj; eauto.
      + reflexivity. }
  destruct (s (rq_uri r)) as [doc|].
  - specialize (Go doc eq_refl). destruct (on_request lib r doc) as [doc' [x|]]; exact Go.
  - destruct (supported lib (rq_uri r)).
    + specialize (Go _ eq_refl). destruct (on_request lib r (new_doc lib)) as [doc' [x|]]; exact Go.
    + clear Go. eexists. eexists. split; [|split; [|split; [|split]]].
      * eapply runs_trans; [exact Start|]. eapply runs_trans; [exact G|]. unfold tk, mkw. go. go.
        eapply runs_trans; [apply run_rel_cache|]. unfold tk, mkw. go. apply runs_refl.
      * split; [reflexivity|]. right. eexists. reflexivity.
      * constructor; cbn; auto.
      * intros u. reflexivity.
      * reflexivity.
Qed.

Lemma served_handler i r w : wok w -> served i r w (handler (rq_kind r)).
Proof.
  intros K. destruct (rq_kind r) eqn:Ek; try (apply served_use; [exact K|congruence]).
  apply served_close; assumption.
Qed.

(** ** The loop *)
Lemma new_holds_nothing (w : world) (ts : list task) j t :
  inv w ts -> nth_error ts j = Some t -> t = new_task handler (k_req t) -> ~ holds w j.
Proof.
  intros I H E Hh. pose proof (i_safe _ _ I _ _ H) as S.
  assert (G : w_t w = Some j \/ exists d, o_t (w_heap w d) = Some j).
  { destruct Hh as [Hh|[Hh|[d [Hh|Hh]]]]; auto.
    - left. exact (i_at _ _ I _ Hh).
    - right. exists d. exact Hh.
    - right. exists d. exact (i_dat _ _ I _ _ Hh). }
  destruct G as [G|[d G]].
  - rewrite E in S. unfold safe_task in S. cbn [k_mode new_task k_stack st_ok fst snd] in S.
    apply handler_idle in S as [S _]. exact (lev_L0 _ _ _ S G).
  - destruct (i_dt _ _ I _ _ G) as [t2 [H2 H3]]. assert (t2 = t) by congruence. subst t2.
    rewrite E in H3. discriminate.
Qed.

Definition others (w : world) (ts : list task) (run : option nat) : Prop :=
  forall j t, nth_error ts j = Some t -> run <> Some j ->
    t = new_task handler (k_req t) \/ finished t.

Lemma others_free (w : world) ts run j : inv w ts -> others w ts run -> run <> Some j -> ~ holds w j.
Proof.
  intros I O N Hh. destruct (holds_unfinished _ _ _ I Hh) as [t [H Nf]].
  destruct (O _ _ H N) as [E|F]; [|contradiction]. exact (new_holds_nothing _ _ _ _ I H E Hh).
Qed.

Lemma runner_acts w ts i t : inv w ts -> others w ts (Some i) -> nth_error ts i = Some t ->
  acts lib i w t \/ finished t.
Proof.
  intros I O H. destruct (step_cases lib _ _ _ _ I H) as [C|[C|[[j [Nj [C _]]]|[j [d [Nj [C _]]]]]]]; auto.
  - exfalso. apply (others_free _ _ _ j I O); [congruence|]. left. exact C.
  - exfalso. apply (others_free _ _ _ j I O); [congruence|]. right; right. exists d. auto.
Qed.

Lemma serve_ext r s s' : (forall u, s u = s' u) ->
  (forall u, fst (serve lib r s) u = fst (serve lib r s') u)
  /\ snd (serve lib r s) = snd (serve lib r s').
Proof.
  intros E. unfold serve. rewrite <- E. destruct (s (rq_uri r)) as [doc|].
  - destruct (on_request lib r doc) as [doc' a]. cbn. split; [|reflexivity].
    intros u. unfold upd. destruct (str_eqb u (rq_uri r)); auto.
  - destruct (supported lib (rq_uri r)); [|cbn; auto].
    destruct (on_request lib r (new_doc lib)) as [doc' a]. cbn. split; [|reflexivity].
    intros u. unfold upd. destruct (str_eqb u (rq_uri r)); auto.
Qed.

Lemma serve_all_snoc rs r s :
  serve_all lib (rs ++ [r]) s =
  (fst (serve lib r (fst (serve_all lib rs s))),
   snd (serve_all lib rs s) ++ [snd (serve lib r (fst (serve_all lib rs s)))]).
Proof.
  revert s. induction rs as [|x rs IH]; intros s; cbn.
  - destruct (serve lib r s); reflexivity.
  - destruct (serve lib x s) as [s1 a]. rewrite IH. destruct (serve_all lib rs s1) as [s2 l]. reflexivity.
Qed.

Definition no_docs : str -> option Doc := fun _ => None.

Definition done_ok (rs : list (request Par)) (w0 : world) (ts : list task)
    (don : list nat) (reqs : list (request Par)) : Prop :=
  Forall2 (fun i r => nth_error rs i = Some r) don reqs
  /\ wok w0
  /\ (forall u, view w0 u = fst (serve_all lib reqs no_docs) u)
  /\ Forall2 (fun i a => exists t, nth_error ts i = Some t /\ reply t = Some a)
             don (snd (serve_all lib reqs no_docs)).

Record linv (rs : list (request Par)) (c : loop Doc Par Ans) : Prop := {
  li_inv : inv (l_world c) (l_tasks c);
  li_req : forall i t, nth_error (l_tasks c) i = Some t -> nth_error rs i = Some (k_req t);
  li_other : others (l_world c) (l_tasks c) (l_run c);
  li_seq : exists don reqs w0, done_ok rs w0 (l_tasks c) don reqs /\
    match l_run c with
    | None => l_log c = don /\ w0 = l_world c
    | Some i => l_log c = don ++ [i] /\ ~ In i don /\
        exists t, nth_error (l_tasks c) i = Some t /\
                  runs i w0 (new_task handler (k_req t)) (l_world c) t
    end
}.

Lemma reply_finished (t : task) a : reply t = Some a -> finished t.
Proof.
  unfold reply, finished. destruct (k_stack t); [|discriminate].
  destruct (k_mode t); [discriminate| |]; intros _; eauto.
Qed.

Lemma done_finished rs w0 ts don reqs i : done_ok rs w0 ts don reqs -> In i don ->
  exists t, nth_error ts i = Some t /\ finished t.
Proof.
  intros [_ [_ [_ F]]] Hi. induction F as [|x y l l' [t [H1 H2]] _ IH]; [destruct Hi|].
  destruct Hi as [<-|Hi]; [|auto]. exists t. split; [exact H1|]. eapply reply_finished; eauto.
Qed.

Lemma done_set rs w0 ts don reqs i t : done_ok rs w0 ts don reqs -> ~ In i don ->
  done_ok rs w0 (set_nth i t ts) don reqs.
Proof.
  intros [A [B [C F]]] Hi. split; [exact A|]. split; [exact B|]. split; [exact C|].
  clear A C. induction F as [|x y l l' [t' [H1 H2]] _ IH]; constructor.
  - exists t'. split; [|exact H2]. rewrite nth_set_neq; [exact H1|]. intros ->. apply Hi. left. reflexivity.
  - apply IH. intros H. apply Hi. right. exact H.
Qed.

Lemma new_unfinished (r : request Par) : ~ finished (new_task handler r : task).
Proof. intros [_ [H|[c H]]]; discriminate. Qed.

Lemma step_susp i w t w' t' : step i w t = OSusp w' t' -> k_mode t = MRun SSuspend.
Proof.
  unfold LockModel.step. destruct (k_mode t) as [s| |c].
  - destruct s; unfold step_acquire, step_release;
      repeat match goal with
             | |- context [match ?x with _ => _ end] => destruct x; try discriminate
             end; try discriminate; auto.
  - destruct (k_stack t) as [|[]]; discriminate.
  - destruct (k_stack t) as [|[]]; try destruct c; discriminate.
Qed.

Lemma step_req i w t w' t' : step i w t = ONext w' t' -> k_req t' = k_req t.
Proof.
  unfold LockModel.step. destruct (k_mode t) as [s| |c].
  - destruct s; unfold step_acquire, step_release;
      repeat match goal with
             | |- context [match ?x with _ => _ end] =>
                 match x with
                 | context [match _ with _ => _ end] => fail 1
                 | _ => destruct x; try discriminate
                 end
             end; intros H; try discriminate; injection H as <- <-; reflexivity.
  - destruct (k_stack t) as [|[]]; intros H; try discriminate; injection H as <- <-; reflexivity.
  - destruct (k_stack t) as [|[]]; try destruct c; intros H; try discriminate; injection H as <- <-; reflexivity.
Qed.

Lemma linv_start rs : linv rs (loop_start lib handler rs).
Proof.
  constructor; cbn.
  - apply inv_start.
  - intros i t H. rewrite nth_error_map in H. destruct (nth_error rs i); [|discriminate].
    injection H as <-. reflexivity.
  - intros j t H _. left. exact (map_new _ _ _ H).
  - exists [], [], (start_world lib). split; [|auto].
    split; [constructor|]. split; [|split; [reflexivity|constructor]].
    constructor; cbn; try discriminate; auto.
Qed.

Lemma linv_step rs c c' : linv rs c -> lstep lib handler c c' -> linv rs c'.
Proof.
  intros [I R O [don [reqs [w0 [D M]]]]] St.
  destruct St as [w ts log i t H Nf Ns|w ts log i t H Nf St _|w ts log i t w' t' H Hs
                 |w ts log i t w' t' H Hs|w ts log i t H Hs|w ts log i t H F|w ts log i t H Nf];
    cbn in *.
  - (* pick *)
    destruct M as [-> ->].
    assert (E : t = new_task handler (k_req t)).
    { destruct (O _ _ H ltac:(discriminate)) as [E|F]; [exact E|contradiction]. }
    constructor; cbn; auto.
    + intros j tj Hj Nj. apply (O _ _ Hj). discriminate.
    + exists don, reqs, w. split; [exact D|]. split; [reflexivity|]. split.
      * intros Hi. destruct (done_finished _ _ _ _ _ _ D Hi) as [t2 [H2 F2]]. congruence.
      * exists t. split; [exact H|]. rewrite <- E. apply runs_refl.
  - (* resume *)
    exfalso. destruct (O _ _ H ltac:(discriminate)) as [E|F]; [|contradiction]. apply St. exact E.
  - (* act *)
    destruct M as [-> [Ni [t0 [H0 Rn]]]]. assert (t0 = t) by congruence. subst t0.
    pose proof (step_req _ _ _ _ _ Hs) as Er.
    constructor; cbn.
    + eapply inv_step; eauto.
    + intros j tj Hj. destruct (nth_set_cases _ _ _ _ _ _ H Hj) as [[-> ->]|[Nj Hj2]]; [|eauto].
      rewrite Er. eauto.
    + intros j tj Hj Nj. destruct (nth_set_cases _ _ _ _ _ _ H Hj) as [[-> ->]|[_ Hj2]]; [congruence|].
      exact (O _ _ Hj2 Nj).
    + exists don, reqs, w0. split; [apply done_set; assumption|]. split; [reflexivity|]. split; [exact Ni|].
      exists t'. split; [eapply nth_set_eq; eauto|]. rewrite Er.
      eapply runs_trans; [exact Rn|]. eapply runs_step; [exact Hs|]. apply runs_refl.
  - (* suspend *)
    exfalso. pose proof (i_safe _ _ I _ _ H) as S. unfold safe_task in S.
    rewrite (step_susp _ _ _ _ _ Hs) in S. destruct S.
  - (* wait *)
    exfalso. destruct (runner_acts _ _ _ _ I O H) as [[w' [t' A]]|F]; [congruence|].
    rewrite (finished_step _ _ _ F) in Hs. discriminate.
  - (* end *)
    destruct M as [-> [Ni [t0 [H0 Rn]]]]. assert (t0 = t) by congruence. subst t0.
    destruct D as [D1 [D2 [D3 D4]]].
    destruct (served_handler i (k_req t) w0 D2) as [w1 [t1 [R1 [F1 [K1 [V1 A1]]]]]].
    destruct (runs_unique _ _ _ _ _ _ _ R1 F1 Rn F) as [-> ->].
    destruct (serve_ext (k_req t) _ _ D3) as [X1 X2].
    constructor; cbn; auto.
    + intros j tj Hj _. destruct (Nat.eq_dec i j) as [->|Nj]; [right; congruence|].
      apply (O _ _ Hj). congruence.
    + exists (don ++ [i]), (reqs ++ [k_req t]), w. split; [|auto].
      unfold done_ok. rewrite serve_all_snoc. cbn [fst snd].
      split; [apply Forall2_app; [exact D1|constructor; [eauto|constructor]]|].
      split; [exact K1|]. split.
      * intros u. rewrite V1. apply X1.
      * apply Forall2_app; [exact D4|constructor; [|constructor]]. exists t. split; [exact H|].
        rewrite <- X2. exact A1.
  - (* cancel *)
    destruct M as [-> ->].
    assert (E : t = new_task handler (k_req t)).
    { destruct (O _ _ H ltac:(discriminate)) as [E|F]; [exact E|contradiction]. }
    assert (Es : k_stack t = []) by (rewrite E; reflexivity).
    constructor; cbn.
    + eapply inv_ctl; eauto; try reflexivity. intros S. unfold safe_task. cbn. split; [exact Es|].
      assert (Em : k_mode t = MRun (handler (rq_kind (k_req t)))) by (rewrite E; reflexivity).
      unfold safe_task in S. rewrite Em, Es in S. cbn [st_ok fst snd] in S.
      apply handler_idle in S. exact S.
    + intros j tj Hj. destruct (nth_set_cases _ _ _ _ _ _ H Hj) as [[-> ->]|[Nj Hj2]]; eauto.
      cbn. eauto.
    + intros j tj Hj _. destruct (nth_set_cases _ _ _ _ _ _ H Hj) as [[-> ->]|[_ Hj2]].
      * right. split; [exact Es|]. right. eexists. reflexivity.
      * apply (O _ _ Hj2). discriminate.
    + exists don, reqs, w. split; [|auto]. apply done_set; [exact D|].
      intros Hi. destruct (done_finished _ _ _ _ _ _ D Hi) as [t2 [H2 F2]]. congruence.
Qed.

Lemma linv_steps rs c c' : lsteps lib handler c c' -> linv rs c -> linv rs c'.
Proof.
  induction 1 as [|c c' c'' _ IH St]; [auto|]. intros I. exact (linv_step _ _ _ (IH I) St).
Qed.

End Loop.

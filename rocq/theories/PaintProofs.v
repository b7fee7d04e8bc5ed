(** Lemmas for C61 and C62. *)
From Coq Require Import Reals Lra.
From Verif Require Import Base Num NumReal Dict Ast StateModel GeomModel CompilerModel LayerProofs BoxModel ArcModel VmModel BoxSpec BoxProofs VmSpec VmProofs VmInv VmSim VmAccept PaintModel PaintSpec.

(** *** The order of calls *)
Definition settled {K} (log : list (option str * draw K)) : Prop :=
  forall l1 a p l2, log = l1 ++ (a, DPaste p) :: l2 -> ~ In (Some (pa_src p)) (map fst ((a, DPaste p) :: l2)).

Section Order.
  Context {K : Type} {NK : Num K} (be : backend K) (fl : bool).

  Lemma step_log c m m' : vstep be fl c m m' -> exists new, vm_log m' = vm_log m ++ new /\ forall e, In e new -> fst e = hd_error (vm_stack m).
  Proof.
    intros HS. destruct HS; cbn [vm_log vm_stack hd_error];
      try (exists []; rewrite app_nil_r; split; [reflexivity|intros e []]); eexists; (split; [reflexivity|]); intros e He.
    - destruct He as [<-|[]]. reflexivity.
    - destruct He as [<-|[]]. reflexivity.
    - apply in_map_iff in He. destruct He as (d & <- & _). reflexivity.
  Qed.
  Lemma given_in cs : forall open id d, In d (given (K := K) open id cs) -> In (KDraw d) cs.
  Proof.
    induction cs as [|c cs IH]; intros open id d; cbn [given]; [contradiction|]. destruct c as [j b o|e|].
    - intros H. right. eapply IH; exact H.
    - rewrite in_app_iff. intros [H|H]; [|right; eapply IH; exact H]. left.
      destruct open as [|j r]; [contradiction|]. destruct (str_eqb j id); [|contradiction]. destruct H as [->|[]]. reflexivity.
    - intros H. right. eapply IH; exact H.
  Qed.
  Lemma closed_mono cs : forall pre open closed open' closed', brackets (K := K) pre = Some (open, closed) ->
    brackets (pre ++ cs) = Some (open', closed') -> incl closed closed'.
  Proof.
    induction cs as [|c cs IH] using rev_ind; intros pre open closed open' closed' H H'.
    - rewrite app_nil_r, H in H'. injection H' as -> ->. apply incl_refl.
    - rewrite app_assoc, brackets_snoc in H'. destruct (brackets (pre ++ cs)) as [[o1 c1]|] eqn:E; [|discriminate H'].
      specialize (IH _ _ _ _ _ H E). destruct c as [j b o|e|]; cbn [bracket_step] in H'.
      + injection H' as _ <-. exact IH.
      + injection H' as _ <-. exact IH.
      + destruct o1 as [|x r]; [discriminate H'|]. injection H' as _ <-. apply incl_tl. exact IH.
  Qed.
  Lemma closed_pastes cs open closed p : pastes_closed (K := K) cs -> brackets cs = Some (open, closed) ->
    In (KDraw (DPaste p)) cs -> In (pa_src p) closed.
  Proof.
    intros Hc Hb Hi. apply in_split in Hi. destruct Hi as (pre & post & ->). destruct (Hc _ _ _ eq_refl) as (o & cl & E & H).
    eapply closed_mono; [exact E|exact Hb|exact H].
  Qed.
  Lemma closed_prefix cs c : pastes_closed (K := K) (cs ++ [c]) -> pastes_closed cs.
  Proof. intros H pre p post E. apply (H pre p (post ++ [c])). rewrite E, <- app_assoc. reflexivity. Qed.

  Lemma log_given cs m id d : exec be fl cs vm_init = Ok m -> In (Some id, d) (vm_log m) -> In d (given [] id cs).
  Proof.
    intros Ex Hi. pose proof (held_exec be fl cs _ _ id Ex) as H. pose proof (i_log _ _ _ (exec_inv _ _ _ _ Ex) id) as Hl.
    unfold held, content in H. cbn [vm_init vm_layers vm_stack d_get app] in H.
    assert (Hc : In d (calls_on id (vm_log m))).
    { unfold calls_on. apply in_flat_map. exists (Some id, d). split; [exact Hi|]. cbn [fst snd]. rewrite str_eqb_refl. left. reflexivity. }
    rewrite Hl in Hc. destruct (d_get id (vm_layers m)) as [[]|]; try contradiction. subst. exact Hc.
  Qed.
  Lemma log_some cs m e : be_strict be = true -> exec be fl cs vm_init = Ok m -> In e (vm_log m) -> fst e <> None.
  Proof.
    intros Hs. revert m. induction cs as [|c cs IH] using rev_ind; intros m Ex Hi.
    - cbn in Ex. apply Ok_inj in Ex. subst m. contradiction.
    - apply exec_snoc in Ex. destruct Ex as (m1 & Ex & HS). specialize (IH m1 Ex). destruct HS; cbn [vm_log] in *; auto.
      + apply in_app_or in Hi. destruct Hi as [Hi|[<-|[]]]; [auto|discriminate].
      + congruence.
      + apply in_app_or in Hi. destruct Hi as [Hi|Hi]; [auto|]. apply in_map_iff in Hi. destruct Hi as (d & <- & _). discriminate.
  Qed.

  Lemma log_settled cs : forall m, be_strict be = true -> pastes_closed cs -> exec be fl cs vm_init = Ok m -> settled (vm_log m).
  Proof.
    induction cs as [|c cs IH] using rev_ind; intros m Hs Hc Ex.
    - cbn in Ex. apply Ok_inj in Ex. subst m. intros l1 a p l2 E. destruct l1; discriminate E.
    -
      pose proof Ex as Ex0. apply exec_snoc in Ex. destruct Ex as (m1 & Ex & HS).
      specialize (IH m1 Hs (closed_prefix _ _ Hc) Ex). destruct (step_log _ _ _ HS) as (new & El & Hnew).
      destruct (exec_inv _ _ _ _ Ex) as [(open & closed & Hb & Hst & _ & Hnd & _ & _ & _) _ _ _ _ _].
      assert (Hold : forall p, In (KDraw (DPaste p)) cs -> In (pa_src p) closed) by (intros p; eapply closed_pastes; [eapply closed_prefix; exact Hc|exact Hb]).
      assert (Htop : forall j, In j closed -> forall e, In e new -> fst e <> Some j).
      { intros j Hj e He E. rewrite (Hnew e He), Hst in E. destruct open as [|x r]; [discriminate E|]. injection E as E.
        cbn [map app] in Hnd. inversion Hnd as [|? ? H1 H2]; subst. apply H1. apply in_or_app. right. exact Hj. }
      intros l1 a p l2 E. rewrite El in E. apply split_app in E.
      assert (Hsrc : In (a, DPaste p) (vm_log m) -> In (pa_src p) closed).
      { intros Hi. destruct a as [id|]; [|exfalso; exact (log_some _ _ _ Hs Ex0 Hi eq_refl)].
        pose proof (log_given _ _ _ _ Ex0 Hi) as H. apply given_in in H. apply in_app_or in H. destruct H as [H|[H|[]]]; [auto|].
        subst c. destruct (Hc cs p [] eq_refl) as (o' & c' & E1 & E2). rewrite Hb in E1. injection E1 as -> ->. exact E2. }
      destruct E as [(l2' & -> & E)|(l1' & -> & E)].
      + assert (Hp : In (pa_src p) closed).
        { apply Hsrc. rewrite El, E. apply in_or_app. left. apply in_or_app. right. left. reflexivity. }
        cbn [map fst]. rewrite map_app. intros H. change (In (Some (pa_src p)) ((a :: map fst l2') ++ map fst new)) in H.
        apply in_app_or in H. destruct H as [H|H]; [exact (IH _ _ _ _ E H)|].
        apply in_map_iff in H. destruct H as (e & He & H). exact (Htop _ Hp e H He).
      + assert (Hp : In (pa_src p) closed).
        { apply Hsrc. rewrite El, E. apply in_or_app. right. apply in_or_app. right. left. reflexivity. }
        intros H. apply in_map_iff in H. destruct H as (e & He & H). refine (Htop _ Hp e _ He). rewrite E. apply in_or_app. right. exact H.
  Qed.
End Order.

(** *** Canvases *)
Lemma settled_prefix {K} (l : list (option str * draw K)) e : settled (l ++ [e]) -> settled l.
Proof.
  intros H l1 a p l2 E Hi. apply (H l1 a p (l2 ++ [e])); [rewrite E, <- app_assoc; reflexivity|].
  change ((a, DPaste p) :: l2 ++ [e]) with (((a, DPaste p) :: l2) ++ [e]). rewrite map_app. apply in_or_app. left. exact Hi.
Qed.
Lemma calls_on_in {K} id d (log : list (option str * draw K)) : In d (calls_on id log) -> In (Some id, d) log.
Proof.
  unfold calls_on. intros H. apply in_flat_map in H. destruct H as ([[j|] e] & Hi & H); cbn [fst snd] in H; [|contradiction].
  destruct (str_eqb j id) eqn:E; [|contradiction]. apply str_eqb_eq in E. subst. destruct H as [->|[]]. exact Hi.
Qed.

Section Canvases.
  Context {K C P : Type} (ls : dict (vlayer K)).
  Variable put : box K -> vec K -> C -> draw K -> option (box K * vec K * C) -> C.
  Variable init : C.
  Variable lit : str -> C -> P -> Prop.
  (** What a drawing covers, given the canvases. *)
  Variable cov : (str -> P -> Prop) -> str -> draw K -> P -> Prop.
  Definition looks (st : str -> C) (id : str) (p : P) : Prop := lit id (st id) p.
  Hypothesis lit_init : forall id p, ~ lit id init p.
  Hypothesis cov_src : forall sh sh' id d p, (forall q, d = DPaste q -> forall p, sh (pa_src q) p <-> sh' (pa_src q) p) ->
    (cov sh id d p <-> cov sh' id d p).
  Hypothesis lit_put : forall st id b o d p, frame ls id = Some (b, o) ->
    (forall q, d = DPaste q -> frame ls (pa_src q) <> None) ->
    (lit id (put b o (st id) d (source ls st d)) p <->
     if is_clear d then lit id (st id) p /\ ~ cov (looks st) id d p else lit id (st id) p \/ cov (looks st) id d p).
  Definition framed (log : list (option str * draw K)) : Prop :=
    forall id d, In (Some id, d) log -> frame ls id <> None /\ forall q, d = DPaste q -> frame ls (pa_src q) <> None.

  Lemma dark_ext (c c' : draw K -> P -> Prop) ds p : (forall d, In d ds -> (c d p <-> c' d p)) -> dark c ds p <-> dark c' ds p.
  Proof.
    assert (H : forall c c' : draw K -> P -> Prop, (forall d, In d ds -> (c d p <-> c' d p)) -> dark c ds p -> dark c' ds p).
    { intros c1 c2 Hx (l1 & d & l2 & -> & Hn & Hd & Hl). exists l1, d, l2. split; [reflexivity|]. split; [exact Hn|]. split.
      - apply Hx; [|exact Hd]. apply in_or_app. right. left. reflexivity.
      - rewrite Forall_forall in *. intros e He Hc H. apply (Hl e He Hc). apply Hx; [|exact H]. apply in_or_app. right. right. exact He. }
    intros Hx. split; apply H; intros d Hd; [apply Hx; exact Hd|symmetry; apply Hx; exact Hd].
  Qed.
  Lemma dark_snoc (c : draw K -> P -> Prop) ds d p :
    dark c (ds ++ [d]) p <-> if is_clear d then dark c ds p /\ ~ c d p else dark c ds p \/ c d p.
  Proof.
    split.
    - intros (l1 & e & l2 & E & Hn & He & Hl). apply split_snoc in E. destruct E as [(-> & -> & ->)|(l2' & -> & ->)].
      + rewrite Hn. right. exact He.
      + apply Forall_app in Hl. destruct Hl as [Hl Hd]. inversion Hd; subst.
        assert (D : dark c (l1 ++ e :: l2') p) by (exists l1, e, l2'; auto). destruct (is_clear d); auto.
    - assert (Hmore : (is_clear d = true -> ~ c d p) -> dark c ds p -> dark c (ds ++ [d]) p).
      { intros Hd (l1 & e & l2 & -> & Hn & He & Hl). exists l1, e, (l2 ++ [d]). split; [rewrite <- app_assoc; reflexivity|].
        split; [exact Hn|]. split; [exact He|]. apply Forall_app. split; [exact Hl|]. constructor; [exact Hd|constructor]. }
      destruct (is_clear d) eqn:E.
      + intros [D H]. apply Hmore; auto.
      + intros [D|H]; [apply Hmore; [discriminate|exact D]|]. exists ds, d, []. auto.
  Qed.

  Lemma canvases_snoc log e : canvases ls put init (log ++ [e]) = call ls put (canvases ls put init log) e.
  Proof. unfold canvases. rewrite fold_left_app. reflexivity. Qed.

  Lemma canvases_dark log : framed log -> settled log -> forall id p,
    looks (canvases ls put init log) id p <-> dark (cov (looks (canvases ls put init log)) id) (calls_on id log) p.
  Proof.
    induction log as [|e log IH] using rev_ind; intros Hf Hs id p.
    - unfold looks, canvases. cbn [fold_left calls_on flat_map]. split; [intros H; exfalso; exact (lit_init _ _ H)|].
      intros (l1 & d & l2 & E & _). destruct l1; discriminate E.
    - assert (Hf' : framed log) by (intros i d Hi; apply Hf; apply in_or_app; left; exact Hi).
      specialize (IH Hf' (settled_prefix _ _ Hs)). rewrite canvases_snoc, calls_on_app.
      set (st := canvases ls put init log) in *. destruct e as [[k|] d].
      2:{ unfold call. cbn [fst]. unfold calls_on at 2. cbn [flat_map fst]. rewrite app_nil_r. apply IH. }
      destruct (Hf k d) as [Hk Hq]; [apply in_or_app; right; left; reflexivity|].
      unfold call. cbn [fst snd]. destruct (frame ls k) as [[b o]|] eqn:Ek; [|congruence].
      set (st' := fun j => if str_eqb j k then put b o (st k) d (source ls st d) else st j).
      assert (Hother : forall j, j <> k -> st' j = st j).
      { intros j Hj. unfold st'. destruct (str_eqb j k) eqn:E; [apply str_eqb_eq in E; contradiction|reflexivity]. }
      (* no drawing made so far has the current layer as its source *)
      assert (Hcov : forall j e, In (Some j, e) (log ++ [(Some k, d)]) -> forall p, cov (looks st) j e p <-> cov (looks st') j e p).
      { intros j e He p0. apply cov_src. intros q -> p1. unfold looks. rewrite Hother; [reflexivity|]. intros E.
        apply in_split in He. destruct He as (l1 & l2 & El). apply (Hs _ _ _ _ El). rewrite E.
        destruct l2 as [|z l2] using rev_ind; [apply app_inj_tail in El; destruct El as [_ El]; injection El as -> _; left; reflexivity|].
        assert (z = (Some k, d)) as -> .
        { change (l1 ++ (Some j, DPaste q) :: l2 ++ [z]) with (l1 ++ ((Some j, DPaste q) :: l2) ++ [z]) in El. rewrite app_assoc in El.
          apply app_inj_tail in El. symmetry. apply El. }
        change ((Some j, DPaste q) :: l2 ++ [(Some k, d)]) with (((Some j, DPaste q) :: l2) ++ [(Some k, d)]).
        rewrite map_app. apply in_or_app. right. left. reflexivity. }
      assert (Hc : forall j, dark (cov (looks st) j) (calls_on j log) p <-> dark (cov (looks st') j) (calls_on j log) p).
      { intros j. apply dark_ext. intros e He. apply Hcov. apply in_or_app. left. apply calls_on_in. exact He. }
      destruct (str_eqb k id) eqn:E.
      + apply str_eqb_eq in E. subst k. unfold calls_on at 2. cbn [flat_map fst snd]. rewrite str_eqb_refl. cbn [app].
        rewrite dark_snoc. specialize (Hc id). specialize (IH id p).
        assert (Hd : cov (looks st) id d p <-> cov (looks st') id d p) by (apply Hcov; apply in_or_app; right; left; reflexivity).
        pose proof (lit_put st id b o d p Ek Hq) as Hl. unfold looks at 1. unfold looks at 1 in IH.
        replace (st' id) with (put b o (st id) d (source ls st d)) by (unfold st'; rewrite str_eqb_refl; reflexivity).
        destruct (is_clear d); tauto.
      + unfold calls_on at 2. cbn [flat_map fst snd]. rewrite E. cbn [app]. rewrite app_nil_r, <- Hc. unfold looks at 1.
        rewrite Hother; [apply IH|]. intros ->. rewrite str_eqb_refl in E. discriminate E.
  Qed.

  (** There is only one way to make the layers right. *)
  Lemma dark_unique log (sh sh' : str -> P -> Prop) (ids : str -> Prop) : settled log ->
    (forall a q, In (a, DPaste q) log -> ids (pa_src q)) ->
    (forall id, ids id -> forall p, sh id p <-> dark (cov sh id) (calls_on id log) p) ->
    (forall id, ids id -> forall p, sh' id p <-> dark (cov sh' id) (calls_on id log) p) ->
    forall id, ids id -> forall p, sh id p <-> sh' id p.
  Proof.
    intros Hs Hq H H'.
    assert (G : forall n l1 l2, (length l1 <= n)%nat -> log = l1 ++ l2 -> forall id, ids id -> ~ In (Some id) (map fst l2) -> forall p, sh id p <-> sh' id p).
    { induction n as [|n IH]; intros l1 l2 Hn El id Hi Hl2 p; rewrite (H id Hi), (H' id Hi); apply dark_ext; intros d Hd; apply cov_src; intros q -> p1.
      - destruct l1; [|cbn in Hn; lia]. exfalso. apply calls_on_in in Hd. apply Hl2. rewrite El in Hd. exact (in_map fst _ _ Hd).
      - apply calls_on_in in Hd. pose proof (Hq _ _ Hd) as Hsrc. rewrite El in Hd. apply in_app_or in Hd. destruct Hd as [Hd|Hd]; [|exfalso; apply Hl2; exact (in_map fst _ _ Hd)].
        apply in_split in Hd. destruct Hd as (k1 & k2 & ->). rewrite <- app_assoc in El. cbn [app] in El.
        apply (IH k1 ((Some id, DPaste q) :: k2 ++ l2)); [rewrite app_length in Hn; cbn in Hn; lia|exact El|exact Hsrc|]. exact (Hs _ _ _ _ El). }
    intros id Hi p. apply (G (length log) log [] (le_n _)); [rewrite app_nil_r; reflexivity|exact Hi|intros []].
  Qed.
End Canvases.

(** *** Origins and frames *)
Section Frames.
  Context {K : Type} {NK : Num K} (be : backend K) (fl : bool).
  Definition at_origin (o : vec K) (x : vlayer K) : Prop := match x with LEager _ o' _ => o' = o | LDeferred o' _ => o' = o end.
  Lemma started_at cs : forall m id x, exec be fl cs vm_init = Ok m -> d_get id (vm_layers m) = Some x ->
    exists b o, In (KStart id b o) cs /\ at_origin o x.
  Proof.
    induction cs as [|c cs IH] using rev_ind; intros m id x Ex Hg.
    - cbn in Ex. apply Ok_inj in Ex. subst m. discriminate Hg.
    - apply exec_snoc in Ex. destruct Ex as (m1 & Ex & HS).
      assert (Hk : forall y, d_get id (vm_layers m1) = Some y -> (forall o, at_origin o y -> at_origin o x) ->
        exists b o, In (KStart id b o) (cs ++ [c]) /\ at_origin o x).
      { intros y Hy Hyx. destruct (IH _ _ _ Ex Hy) as (b & o & Hi & Ho). exists b, o. split; [apply in_or_app; left; exact Hi|apply Hyx; exact Ho]. }
      destruct HS; cbn [vm_layers] in *; try (apply (Hk x Hg); auto; fail);
        rewrite d_get_set in Hg; (destruct (str_eqb id id0) eqn:E; [apply str_eqb_eq in E; subst id0; injection Hg as <-|exact (Hk _ Hg (fun _ H => H))]).
      + exists None, o. split; [apply in_or_app; right; left; reflexivity|reflexivity].
      + exists (Some b), o. split; [apply in_or_app; right; left; reflexivity|reflexivity].
      + eapply Hk; [eassumption|]. auto.
      + eapply Hk; [eassumption|]. auto.
      + eapply Hk; [eassumption|]. auto.
  Qed.
  Lemma origin_of_start z cs id b o : NoDup (started (K := K) cs) -> In (KStart id b o) cs -> origin_of z cs id = o.
  Proof.
    intros Hn Hi. induction cs as [|c cs IH]; [contradiction|]. cbn [origin_of fold_right]. destruct Hi as [->|Hi].
    - rewrite str_eqb_refl. reflexivity.
    - assert (Hs : In id (started cs)) by (unfold started; apply in_flat_map; eexists; split; [exact Hi|left; reflexivity]).
      unfold started in Hn. cbn [flat_map] in Hn.
      destruct c as [j b' o'|d|]; cbn [app] in Hn; try (apply IH; assumption). inversion Hn as [|? ? H1 H2]; subst.
      destruct (str_eqb j id) eqn:E; [apply str_eqb_eq in E; subst; contradiction|apply IH; assumption].
  Qed.
  Lemma frame_origin z cs m id b o : exec be fl cs vm_init = Ok m -> frame (vm_layers m) id = Some (b, o) -> origin_of z cs id = o.
  Proof.
    intros Ex Hf. unfold frame in Hf. destruct (d_get id (vm_layers m)) as [[b' o' l|]|] eqn:E; try discriminate Hf. injection Hf as -> ->.
    destruct (started_at _ _ _ _ Ex E) as (bb & o1 & Hi & Ho). cbn in Ho. subst o1.
    apply (origin_of_start z _ _ bb); [exact (i_dup _ _ _ (exec_inv _ _ _ _ Ex))|exact Hi].
  Qed.
  Lemma frame_painted (m : vm K) id : painted m id <-> frame (vm_layers m) id <> None.
  Proof.
    unfold painted, frame. split.
    - intros (b & o & l & ->). discriminate.
    - destruct (d_get id (vm_layers m)) as [[b o l|]|]; intros H; try congruence. eauto.
  Qed.
  Lemma log_framed cs m : be_strict be = true -> exec be fl cs vm_init = Ok m -> framed (vm_layers m) (vm_log m).
  Proof.
    intros Hs Ex id d Hi. destruct (exec_inv _ _ _ _ Ex) as [_ _ _ _ Hp Hl]. split.
    - apply frame_painted. specialize (Hl id). unfold painted. destruct (d_get id (vm_layers m)) as [[b o l|]|]; eauto;
        exfalso; assert (Hc : In d (calls_on id (vm_log m))) by
          (unfold calls_on; apply in_flat_map; exists (Some id, d); split; [exact Hi|cbn [fst snd]; rewrite str_eqb_refl; left; reflexivity]);
        rewrite Hl in Hc; exact Hc.
    - intros q ->. apply frame_painted. destruct (Hp Hs _ _ Hi) as (b & o & l & H). exists b, o, l. exact H.
  Qed.
  Lemma painted_calls cs m id : exec be fl cs vm_init = Ok m -> painted m id -> calls_on id (vm_log m) = given [] id cs.
  Proof.
    intros Ex (b & o & l & Hg). pose proof (held_exec be fl cs _ _ id Ex) as H. pose proof (i_log _ _ _ (exec_inv _ _ _ _ Ex) id) as Hl.
    unfold held, content in H. cbn [vm_init vm_layers vm_stack d_get app] in H. rewrite Hg in H, Hl. congruence.
  Qed.
  (** Canvases that follow the drawing rules make the image; images are unique. *)
  Lemma images (C P : Type) put (init : C) (lit : str -> C -> P -> Prop) cov cs m : be_strict be = true -> pastes_closed cs ->
    exec be fl cs vm_init = Ok m ->
    (forall id p, ~ lit id init p) ->
    (forall sh sh' id d p, (forall q, d = DPaste q -> forall p, sh (pa_src q) p <-> sh' (pa_src q) p) -> (cov sh id d p <-> cov sh' id d p)) ->
    (forall st id b o d p, frame (vm_layers m) id = Some (b, o) -> (forall q, d = DPaste q -> frame (vm_layers m) (pa_src q) <> None) ->
      (lit id (put b o (st id) d (source (vm_layers m) st d)) p <->
       if is_clear d then lit id (st id) p /\ ~ cov (looks lit st) id d p else lit id (st id) p \/ cov (looks lit st) id d p)) ->
    image cov (painted m) cs (looks lit (canvases (vm_layers m) put init (vm_log m))) /\
    (forall sh sh', image cov (painted m) cs sh -> image cov (painted m) cs sh' -> forall id, painted m id -> forall p, sh id p <-> sh' id p).
  Proof.
    intros Hs Hc Ex Hi Hcov Hput. pose proof (log_settled _ _ _ _ Hs Hc Ex) as Hset. pose proof (log_framed _ _ Hs Ex) as Hf. split.
    - intros id Hid p. rewrite <- (painted_calls _ _ _ Ex Hid). apply canvases_dark; assumption.
    - intros sh sh' H H'. apply (dark_unique cov Hcov (vm_log m)); [exact Hset| | |].
      + intros [a|] q Hq; [|exfalso; exact (log_some _ _ _ _ _ Hs Ex Hq eq_refl)]. apply frame_painted. exact (proj2 (Hf _ _ Hq) _ eq_refl).
      + intros id Hid p. rewrite (painted_calls _ _ _ Ex Hid). apply H. exact Hid.
      + intros id Hid p. rewrite (painted_calls _ _ _ Ex Hid). apply H'. exact Hid.
  Qed.
End Frames.

(** *** Shapely *)
Open Scope R_scope.
Section Plane.
  Variable fill : list (vec R) -> vec R -> Prop.
  Variable meets : region R -> region R -> bool.
  Variable fuel : nat.
  Hypothesis Hfill : fills_anywhere fill.
  Hypothesis Hmeets : forall g h p, meets g h = false -> g p -> h p -> False.

  Lemma vec_ext (a b : vec R) : vx a = vx b -> vy a = vy b -> a = b.
  Proof. destruct a, b. cbn. intros -> ->. reflexivity. Qed.
  Definition inside_of (s : shape R) (p : vec R) : Prop := exists pts, shape_points Shapely fuel s = Ok pts /\ fill pts p.
  Lemma union_cut own (g : region R) p :
    union (map (fun h => if meets h g then differ h g else h) own) p <-> union own p /\ ~ g p.
  Proof.
    unfold union. induction own as [|h own IH]; cbn [map].
    - split; [intros H; inversion H|intros [H _]; inversion H].
    - rewrite !Exists_cons, IH. destruct (meets h g) eqn:E; [unfold differ; tauto|].
      split; [intros [H|H]; [split; [left; exact H|intros G; exact (Hmeets _ _ _ E H G)]|tauto]|tauto].
  Qed.
  Lemma cut_all src (h : region R) (p : vec R) : forall acc : region R, (acc p -> h p) ->
    (fold_left (fun acc g => if meets h g then differ acc g else acc) src acc p <-> acc p /\ ~ union src p).
  Proof.
    unfold union. induction src as [|g src IH]; intros acc Ha; cbn [fold_left].
    - split; [intros H; split; [exact H|intros X; inversion X]|tauto].
    - rewrite Exists_cons. destruct (meets h g) eqn:E.
      + rewrite IH by (unfold differ; tauto). unfold differ. tauto.
      + rewrite IH by exact Ha. split; [intros [H N]; split; [exact H|intros [G|G]; [exact (Hmeets _ _ _ E (Ha H) G)|exact (N G)]]|tauto].
  Qed.
  Lemma union_cut_all own src p :
    union (map (fun h => fold_left (fun acc g => if meets h g then differ acc g else acc) src h) own) p <-> union own p /\ ~ union src p.
  Proof.
    unfold union at 1 2. induction own as [|h own IH]; cbn [map].
    - split; [intros H; inversion H|intros [H _]; inversion H].
    - rewrite !Exists_cons, IH, (cut_all src h p h) by auto. tauto.
  Qed.
  Lemma union_app (a b : list (region R)) p : union (a ++ b) p <-> union a p \/ union b p.
  Proof. unfold union. apply Exists_app. Qed.
  Lemma union_moved v (l : list (region R)) p : union (map (moved v) l) p <-> union l (v_sub p v).
  Proof.
    unfold union. induction l as [|g l IH]; cbn [map]; [split; intros H; inversion H|]. rewrite !Exists_cons, IH. unfold moved. reflexivity.
  Qed.

  Definition lit_abs (cs : list (cmd R)) (id : str) (c : list (region R)) (p : vec R) : Prop :=
    union c (less_v p (origin_of (MkVec 0 0) cs id)).
  Lemma shapely_lit be fl cs m st id b o d p : exec be fl cs vm_init = Ok m ->
    frame (vm_layers m) id = Some (b, o) -> (forall q, d = DPaste q -> frame (vm_layers m) (pa_src q) <> None) ->
    (lit_abs cs id (shapely_put fill meets fuel b o (st id) d (source (vm_layers m) st d)) p <->
     if is_clear d then lit_abs cs id (st id) p /\ ~ plane_covers inside_of (origin_of (MkVec 0 0) cs) (looks (lit_abs cs) st) id d p
     else lit_abs cs id (st id) p \/ plane_covers inside_of (origin_of (MkVec 0 0) cs) (looks (lit_abs cs) st) id d p).
  Proof.
    intros Ex Hf Hq. unfold lit_abs at 1 2 4. rewrite (frame_origin _ _ (MkVec 0 0) _ _ _ _ _ Ex Hf).
    destruct d as [s|q]; cbn [shapely_put is_clear plane_covers source].
    - unfold inside_of. destruct (shape_points Shapely fuel s) as [pts|e] eqn:Es.
      + unfold add_polygon.
        assert (Hx : fill (map (fun q => v_add q (v_neg o)) pts) (less_v p o) <-> (exists pts0, Ok pts = Ok (E := exc) pts0 /\ fill pts0 p)).
        { pose proof (Hfill pts (v_neg o) (less_v p o)) as H. change (fun q => v_add q (v_neg o)) with (fun q => plus_v q (v_neg o)).
          replace (less_v (less_v p o) (v_neg o)) with p in H by (apply vec_ext; cbn; ring).
          rewrite H. split; [intros G; exists pts; auto|intros (pts0 & E & G); injection E as <-; exact G]. }
        destruct (sh_neg s).
        * rewrite union_cut, Hx. reflexivity.
        * rewrite union_app. unfold union at 2. rewrite Exists_cons. rewrite Hx. split; [intros [H|[H|H]]; auto; inversion H|tauto].
      + assert (N : ~ (exists pts, Err e = Ok pts /\ fill pts p)) by (intros (pts & E & _); discriminate E).
        destruct (sh_neg s); tauto.
    - specialize (Hq q eq_refl). destruct (frame (vm_layers m) (pa_src q)) as [[sb so]|] eqn:Es; [|congruence].
      unfold paste_regions.
      assert (Hx : union (map (moved (v_add (v_neg o) (pa_center q))) (st (pa_src q))) (less_v p o) <->
                   looks (lit_abs cs) st (pa_src q) (plus_v (less_v p (pa_center q)) (origin_of (MkVec 0 0) cs (pa_src q)))).
      { rewrite union_moved. unfold looks, lit_abs. rewrite (frame_origin _ _ (MkVec 0 0) _ _ _ _ _ Ex Es).
        replace (less_v (plus_v (less_v p (pa_center q)) so) so) with (v_sub (less_v p o) (v_add (v_neg o) (pa_center q)))
          by (apply vec_ext; cbn; ring). reflexivity. }
      destruct (pa_neg q).
      + rewrite union_cut_all, Hx. reflexivity.
      + rewrite union_app, Hx. reflexivity.
  Qed.
End Plane.

(** *** Pillow *)
Lemma in_image_spec size xy : in_image size xy = true <-> inside_image size xy.
Proof. unfold in_image, inside_image. rewrite !andb_true_iff, !Z.leb_le, !Z.ltb_lt. tauto. Qed.
Section Pixels.
  Context {K : Type} {NK : Num K}.
  Variable fill : list (Z * Z) -> bitmap.
  Variables (dpmm : Z) (fuel : nat).
  Variable m : vm K.
  Definition size_of (id : str) : Z * Z := match frame (vm_layers m) id with Some (b, _) => layer_size dpmm b | None => (0, 0)%Z end.
  Definition filled_by (id : str) (s : shape K) (xy : Z * Z) : Prop :=
    exists b o pts, frame (vm_layers m) id = Some (b, o) /\ shape_points (Pillow dpmm) fuel s = Ok pts /\ fill (layer_pixels dpmm b pts) xy = true.
  Definition corner_of (id : str) (q : paste K) : Z * Z :=
    match frame (vm_layers m) id, frame (vm_layers m) (pa_src q) with
    | Some (b, _), Some (sb, so) => paste_corner dpmm b sb so (pa_center q)
    | _, _ => (0, 0)%Z
    end.
  Definition lit_px (_ : str) (c : bitmap) (xy : Z * Z) : Prop := c xy = true.
  Lemma pillow_lit st id b o d p : frame (vm_layers m) id = Some (b, o) ->
    (forall q, d = DPaste q -> frame (vm_layers m) (pa_src q) <> None) ->
    (lit_px id (pillow_put fill dpmm fuel b o (st id) d (source (vm_layers m) st d)) p <->
     if is_clear d then lit_px id (st id) p /\ ~ pixel_covers size_of filled_by corner_of (looks lit_px st) id d p
     else lit_px id (st id) p \/ pixel_covers size_of filled_by corner_of (looks lit_px st) id d p).
  Proof.
    intros Hf Hq. unfold lit_px at 1 2 4.
    assert (Hif : forall (c e f neg : bool) (X : Prop), (c = true <-> X) -> ((if c then f else e) = true <-> if neg then e = true /\ ~ X else e = true \/ X) <->
       (c = true -> f = negb neg)).
    { intros c e f neg X H. destruct c, e, f, neg; cbn; intuition congruence. }
    destruct d as [s|q]; cbn [pillow_put is_clear source].
    - unfold pixel_covers, filled_by, size_of. rewrite Hf. destruct (shape_points (Pillow dpmm) fuel s) as [pts|e] eqn:Es.
      + unfold draw_polygon. apply Hif; [|reflexivity]. rewrite andb_true_iff, in_image_spec. split.
        * intros [H1 H2]. split; [exact H1|]. exists b, o, pts. auto.
        * intros [H1 (b' & o' & pts' & E1 & E2 & E3)]. injection E1 as <- <-. injection E2 as <-. auto.
      + assert (N : ~ (inside_image (layer_size dpmm b) p /\ exists b0 o0 pts, Some (b, o) = Some (b0, o0) /\ Err e = Ok pts /\ fill (layer_pixels dpmm b0 pts) p = true))
          by (intros (_ & b' & o' & pts & _ & E & _); discriminate E).
        destruct (sh_neg s); tauto.
    - specialize (Hq q eq_refl). destruct (frame (vm_layers m) (pa_src q)) as [[sb so]|] eqn:Es; [|congruence].
      unfold pixel_covers, size_of, corner_of. rewrite Hf, Es. unfold paste_bitmap, paste_image. apply Hif.
      + rewrite !andb_true_iff, !in_image_spec. unfold looks, lit_px. cbv zeta. tauto.
      + rewrite !andb_true_iff. intros [_ H]. destruct (pa_neg q); [exact (f_equal negb H)|exact H].
  Qed.
End Pixels.

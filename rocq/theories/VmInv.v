(** Invariants of runs of the virtual machine (C23, C25). *)
From Verif Require Import Base Num Dict Ast StateModel GeomModel CompilerModel LayerProofs BoxModel VmModel BoxSpec BoxProofs VmSpec VmProofs.

Section Inv.
  Context {K : Type} {NK : Num K} (be : backend K) (fl : bool).
  Implicit Types (m : vm K) (ls : dict (vlayer K)) (d : draw K) (c : cmd K).

  Definition declared_in (cs : list (cmd K)) (id : str) : Prop := exists b o, In (KStart id (Some b) o) cs.
  Definition deferred_in (cs : list (cmd K)) (id : str) : Prop := exists o, In (KStart id None o) cs.

  (** An open layer and what the machine stores for it. *)
  Definition open_ok ls (cs : list (cmd K)) (x : olayer) : Prop :=
    match d_get (o_id x) ls with
    | Some (LEager b o l) => o_declared x = true /\ In (KStart (o_id x) (Some b) o) cs
    | Some (LDeferred o l) => o_declared x = false /\ In (KStart (o_id x) None o) cs
    | None => False
    end.

  Record inv (cs : list (cmd K)) m : Prop := {
    i_open : exists open closed, brackets cs = Some (open, closed) /\ vm_stack m = map o_id open /\
        Forall (open_ok (vm_layers m) cs) open /\
        NoDup (map o_id open ++ closed) /\
        (forall id, In id (started cs) <-> In id (map o_id open ++ closed)) /\
        (forall id, d_get id (vm_layers m) <> None <-> In id (started cs)) /\
        (forall l1 a p l2, be_strict be = true -> vm_log m = l1 ++ (a, DPaste p) :: l2 -> deferred_in cs (pa_src p) ->
           In (pa_src p) closed /\ ~ In (Some (pa_src p)) (map fst l2));
    i_dup : NoDup (started cs);
    i_mode : vm_defer m = false -> match vm_stack m with [] => True | id :: _ => is_deferred (d_get id (vm_layers m)) = false end;
    i_mode' : top_deferred (vm_layers m) (vm_stack m) = true -> vm_defer m = true;
    i_past : be_strict be = true -> forall a p, In (a, DPaste p) (vm_log m) ->
        exists b o l, d_get (pa_src p) (vm_layers m) = Some (LEager b o l);
    i_log : forall id, calls_on id (vm_log m) = match d_get id (vm_layers m) with Some (LEager _ _ l) => l | _ => [] end }.

  Lemma calls_on_app id l1 l2 : calls_on (K := K) id (l1 ++ l2) = calls_on id l1 ++ calls_on id l2.
  Proof. unfold calls_on. apply flat_map_app. Qed.
  Lemma calls_on_map id k (ds : list (draw K)) : calls_on id (map (fun d => (Some k, d)) ds) = if str_eqb k id then ds else [].
  Proof.
    unfold calls_on. induction ds as [|d r IH]; cbn [map flat_map fst snd]; [destruct (str_eqb k id); reflexivity|].
    rewrite IH. destruct (str_eqb k id); reflexivity.
  Qed.
  Lemma bracket_draw open closed d : bracket_step (K := K) (Some (open, closed)) (KDraw d) =
    Some (match open with x :: r => MkOpen (o_id x) (o_declared x) true :: r | [] => [] end, closed).
  Proof. reflexivity. Qed.
  Lemma open_ok_mono ls cs c x : open_ok ls cs x -> open_ok ls (cs ++ [c]) x.
  Proof.
    unfold open_ok. destruct (d_get (o_id x) ls) as [[]|]; intros H; try contradiction; destruct H; split; auto; apply in_or_app; auto.
  Qed.
  Lemma open_ok_set ls cs x k v : o_id x <> k -> open_ok (d_set k v ls) cs x <-> open_ok ls cs x.
  Proof. intros H. unfold open_ok. rewrite d_get_set_ne by exact H. reflexivity. Qed.
  Lemma opens_mono ls cs c open : Forall (open_ok ls cs) open -> Forall (open_ok ls (cs ++ [c])) open.
  Proof. apply Forall_impl. intros x. apply open_ok_mono. Qed.
  Lemma opens_set ls cs k v open : ~ In k (map o_id open) -> Forall (open_ok ls cs) open -> Forall (open_ok (d_set k v ls) cs) open.
  Proof.
    intros Hk H. rewrite Forall_forall in *. intros x Hx. apply open_ok_set; auto. intros E. apply Hk. rewrite <- E. apply in_map. exact Hx.
  Qed.

  Lemma deferred_in_snoc cs c id : deferred_in (cs ++ [c]) id -> deferred_in cs id \/ exists o, c = KStart id None o.
  Proof. intros (o & H). apply in_app_or in H. destruct H as [H|[H|[]]]; [left; exists o; exact H|right; exists o; exact H]. Qed.

  Lemma split_snoc {A} (l l1 l2 : list A) x y : l ++ [x] = l1 ++ y :: l2 ->
    (l2 = [] /\ l = l1 /\ x = y) \/ exists l2', l2 = l2' ++ [x] /\ l = l1 ++ y :: l2'.
  Proof.
    destruct l2 as [|z l2] using rev_ind; intros H.
    - apply app_inj_tail in H. left. intuition.
    - right. exists l2. change (l1 ++ y :: l2 ++ [z]) with (l1 ++ (y :: l2) ++ [z]) in H. rewrite app_assoc in H.
      apply app_inj_tail in H. destruct H as [H ->]. auto.
  Qed.
  Lemma split_app {A} (l r l1 l2 : list A) y : l ++ r = l1 ++ y :: l2 ->
    (exists l2', l2 = l2' ++ r /\ l = l1 ++ y :: l2') \/ (exists l1', l1 = l ++ l1' /\ r = l1' ++ y :: l2).
  Proof.
    revert l1. induction l as [|a l IH]; intros l1; cbn [app].
    - intros ->. right. exists l1. auto.
    - destruct l1 as [|b l1]; cbn [app]; intros E; injection E as -> E.
      + left. exists l. subst. auto.
      + destruct (IH _ E) as [(l2' & -> & ->)|(l1' & -> & ->)]; [left; exists l2'; auto|right; exists l1'; auto].
  Qed.

  Lemma nodup_app_r {A} (l r : list A) : NoDup (l ++ r) -> NoDup r.
  Proof. induction l as [|a l IH]; cbn [app]; [auto|]. intros H. inversion H; auto. Qed.
  Lemma nodup_snoc {A} (l : list A) x : NoDup l -> ~ In x l -> NoDup (l ++ [x]).
  Proof.
    intros Hl Hx. rewrite <- (rev_involutive (l ++ [x])). apply NoDup_rev. rewrite rev_app_distr. cbn [rev app].
    constructor; [rewrite <- in_rev; exact Hx|apply NoDup_rev; exact Hl].
  Qed.
  Lemma nodup_in_start cs id b o b' o' : NoDup (started cs) -> In (KStart id b o) cs -> In (KStart (K := K) id b' o') cs -> b = b' /\ o = o'.
  Proof.
    induction cs as [|c r IH]; intros Hn H H'; [contradiction|].
    assert (Hin : forall b o, In (KStart id b o) r -> In id (started r)).
    { intros b0 o0 Hi. unfold started. apply in_flat_map. exists (KStart id b0 o0). split; [exact Hi|left; reflexivity]. }
    destruct H as [->|H], H' as [E|H'].
    - injection E as -> ->. auto.
    - cbn [started flat_map app] in Hn. inversion Hn; subst. exfalso. apply Hin in H'. auto.
    - subst c. cbn [started flat_map app] in Hn. inversion Hn; subst. exfalso. apply Hin in H. auto.
    - apply IH; auto. unfold started in *. cbn [flat_map] in Hn. apply nodup_app_r in Hn. exact Hn.
  Qed.

  Lemma inv_init : inv [] (vm_init).
  Proof.
    constructor; cbn; auto using NoDup_nil; try contradiction.
    exists [], []. cbn. repeat split; auto using NoDup_nil; try tauto; intros; try contradiction; destruct l1; discriminate.
  Qed.

  Lemma paste_src_eager ls ds d p : In d ds -> d = DPaste p -> forall x, deferred_box ls ds = Ok x ->
    exists b o l, d_get (pa_src p) ls = Some (LEager b o l).
  Proof.
    assert (Hb : forall p x, draw_box ls (DPaste p) = Ok x -> exists b o l, d_get (pa_src p) ls = Some (LEager (K := K) b o l)).
    { intros q x. cbn [draw_box]. destruct (d_get (pa_src q) ls) as [[b o l|]|]; try discriminate. eauto. }
    assert (Hj : forall r acc x, join_boxes ls acc r = Ok x -> In (DPaste p) r -> exists b o l, d_get (pa_src p) ls = Some (LEager (K := K) b o l)).
    { induction r as [|e r IH]; intros acc x E H; [contradiction|]; destruct H as [H|H]; cbn [join_boxes] in E.
      - subst e. destruct (draw_box ls (DPaste p)) eqn:E1; [|discriminate]. eapply Hb; exact E1.
      - destruct (draw_box ls e) eqn:E1; [|discriminate]. cbn [bind] in E. eapply IH; [exact E|exact H]. }
    intros H -> x E. destruct ds as [|e r]; [contradiction|]. cbn [deferred_box] in E.
    destruct (draw_box ls e) as [a|] eqn:E1; [|discriminate]. cbn [bind] in E.
    destruct (join_boxes ls a r) eqn:E2; [|discriminate]. destruct H as [H|H]; [subst e; eapply Hb; exact E1|eapply Hj; [exact E2|exact H]].
  Qed.


  Lemma eager_set ls k b o l j : (exists b0 o0 l0, d_get j ls = Some (LEager (K := K) b0 o0 l0)) ->
    exists b0 o0 l0, d_get j (d_set k (LEager b o l) ls) = Some (LEager b0 o0 l0).
  Proof. intros (b0 & o0 & l0 & H). rewrite d_get_set. destruct (str_eqb j k); eauto. Qed.
  Lemma eager_keep ls k v j x : d_get k ls = x -> (forall b o l, x <> Some (LEager b o l)) ->
    (exists b0 o0 l0, d_get j ls = Some (LEager (K := K) b0 o0 l0)) ->
    exists b0 o0 l0, d_get j (d_set k v ls) = Some (LEager b0 o0 l0).
  Proof.
    intros Hk Hx (b0 & o0 & l0 & H). rewrite d_get_set. destruct (str_eqb j k) eqn:E; [|eauto].
    apply str_eqb_eq in E. subst. exfalso. eapply Hx; exact H.
  Qed.

  Lemma inv_step cs c m m' : inv cs m -> vstep be fl c m m' -> inv (cs ++ [c]) m'.
  Proof.
    intros HI HS. destruct HI as [(open & closed & Hb & Hst & Ho & Hnd & Hs & Hl & Hp) Hdup Hmode Hmode' Hpast Hlog].
    assert (Hnotin : forall id, d_get id (vm_layers m) = None -> ~ In id (map o_id open ++ closed)).
    { intros id Hg H. apply Hs in H. apply Hl in H. contradiction. }
    assert (Htop : forall id r, vm_stack m = id :: r -> exists x open', open = x :: open' /\ o_id x = id /\ r = map o_id open' /\
       ~ In id (map o_id open') /\ ~ In id closed).
    { intros id r E. rewrite Hst in E. destruct open as [|x open']; [discriminate|]. cbn [map] in E. injection E as E1 E2.
      exists x, open'. subst. split; [reflexivity|]. split; [reflexivity|]. split; [reflexivity|]. cbn [map app] in Hnd. inversion Hnd; subst.
      split; intros H; apply H1; apply in_or_app; auto. }
    assert (Hclosed : forall j, deferred_in cs j -> (exists b o l, d_get j (vm_layers m) = Some (LEager b o l)) -> In j closed).
    { intros j (o0 & Hj) (b1 & o1 & l1 & Hg). assert (Hi : In j (map o_id open ++ closed)).
      { apply Hs. apply Hl. rewrite Hg. discriminate. }
      apply in_app_or in Hi. destruct Hi as [Hi|Hi]; [|exact Hi]. exfalso. apply in_map_iff in Hi. destruct Hi as (x & Ex & Hx).
      rewrite Forall_forall in Ho. specialize (Ho x Hx). unfold open_ok in Ho. rewrite Ex, Hg in Ho. destruct Ho as [_ Ho].
      pose proof (nodup_in_start _ _ _ _ _ _ Hdup Hj Ho) as [E _]. discriminate E. }
    destruct HS as [id o ls st df lg Hg|id b o ls st df lg Hg Hz|d ls id st lg o l Hg|d ls id st lg b o l Hg Hd|d ls lg Hz Hd
        |ls id st df lg b o l Hg Hpr|ls id st df lg o Hg Hf|ls id st df lg o ds b Hg Hn Hbx Hz Hd Hpr];
      cbn [vm_layers vm_stack vm_defer vm_log] in *.
    - (* start without box *)
      specialize (Hnotin id Hg). assert (Hni : ~ In id (started cs)) by (intros H; apply Hs in H; contradiction).
      constructor; cbn [vm_layers vm_stack vm_defer vm_log]; rewrite ?started_snoc.
      + exists (MkOpen id false false :: open), closed. rewrite brackets_snoc, Hb. cbn [bracket_step map o_id].
        split; [reflexivity|]. split; [f_equal; exact Hst|].
        split. { constructor; [unfold open_ok; cbn [o_id o_declared]; rewrite d_get_set_eq; split; [reflexivity|apply in_or_app; right; left; reflexivity]|].
          apply opens_mono. apply opens_set; [|exact Ho]. intros H; apply Hnotin; apply in_or_app; auto. }
        split; [cbn [app]; constructor; assumption|].
        split; [intros j; rewrite in_app_iff, Hs; cbn [app In]; tauto|].
        split; [intros j; rewrite d_get_set, in_app_iff; destruct (str_eqb j id) eqn:E;
          [apply str_eqb_eq in E; subst; split; [intros _; right; left; reflexivity|discriminate]|
           rewrite Hl; split; [auto|intros [H|[H|[]]]; [exact H|subst; rewrite str_eqb_refl in E; discriminate]]]|].
        intros l1 a p l2 Hst' El Hdf. apply deferred_in_snoc in Hdf. destruct Hdf as [Hdf|(o' & E)]; [eapply Hp; eassumption|].
        injection E as E _. exfalso. destruct (Hpast Hst' a p) as (b0 & o0 & l0 & H0); [rewrite El; apply in_or_app; right; left; reflexivity|].
        rewrite <- E, Hg in H0. discriminate H0.
      + apply nodup_snoc; assumption.
      + discriminate.
      + auto.
      + intros Hz a p Hi. apply eager_keep with (x := None); [exact Hg|discriminate|]. exact (Hpast Hz a p Hi).
      + intros j. rewrite Hlog, d_get_set. destruct (str_eqb j id) eqn:E; [apply str_eqb_eq in E; subst; rewrite Hg|]; reflexivity.
    - (* start with a box *)
      specialize (Hnotin id Hg). assert (Hni : ~ In id (started cs)) by (intros H; apply Hs in H; contradiction).
      constructor; cbn [vm_layers vm_stack vm_defer vm_log]; rewrite ?started_snoc.
      + exists (MkOpen id true false :: open), closed. rewrite brackets_snoc, Hb. cbn [bracket_step map o_id].
        split; [reflexivity|]. split; [f_equal; exact Hst|].
        split. { constructor; [unfold open_ok; cbn [o_id o_declared]; rewrite d_get_set_eq; split; [reflexivity|apply in_or_app; right; left; reflexivity]|].
          apply opens_mono. apply opens_set; [|exact Ho]. intros H; apply Hnotin; apply in_or_app; auto. }
        split; [cbn [app]; constructor; assumption|].
        split; [intros j; rewrite in_app_iff, Hs; cbn [app In]; tauto|].
        split; [intros j; rewrite d_get_set, in_app_iff; destruct (str_eqb j id) eqn:E;
          [apply str_eqb_eq in E; subst; split; [intros _; right; left; reflexivity|discriminate]|
           rewrite Hl; split; [auto|intros [H|[H|[]]]; [exact H|subst; rewrite str_eqb_refl in E; discriminate]]]|].
        intros l1 a p l2 Hst' El Hdf. apply deferred_in_snoc in Hdf. destruct Hdf as [Hdf|(o' & E)]; [eapply Hp; eassumption|discriminate E].
      + apply nodup_snoc; assumption.
      + rewrite d_get_set_eq. reflexivity.
      + cbn [top_deferred]. rewrite d_get_set_eq. discriminate.
      + intros Hz' a p Hi. apply eager_set. exact (Hpast Hz' a p Hi).
      + intros j. rewrite Hlog, d_get_set. destruct (str_eqb j id) eqn:E; [apply str_eqb_eq in E; subst; rewrite Hg|]; reflexivity.
    - (* stored command *)
      destruct (Htop _ _ eq_refl) as (x & open' & -> & Hx & -> & Hn1 & Hn2). subst id. inversion Ho as [|? ? Ho1 Ho2]; subst.
      assert (Hstart : forall j, In j (started (cs ++ [KDraw d])) <-> In j (started cs)) by (intros j; rewrite started_snoc, app_nil_r; reflexivity).
      constructor; cbn [vm_layers vm_stack vm_defer vm_log].
      + exists (MkOpen (o_id x) (o_declared x) true :: open'), closed. rewrite brackets_snoc, Hb, bracket_draw.
        split; [reflexivity|]. cbn [map o_id]. split; [reflexivity|].
        split. { constructor; [|apply opens_mono; apply opens_set; assumption]. unfold open_ok in *. cbn [o_id o_declared]. rewrite d_get_set_eq. rewrite Hg in Ho1.
          destruct Ho1. split; [assumption|apply in_or_app; auto]. }
        split; [exact Hnd|]. split; [intros j; rewrite Hstart; apply Hs|].
        split; [intros j; rewrite Hstart, d_get_set; destruct (str_eqb j (o_id x)) eqn:E;
          [apply str_eqb_eq in E; subst; rewrite <- Hl, Hg; split; discriminate|apply Hl]|].
        intros l1 a p l2 Hst' El Hdf. apply deferred_in_snoc in Hdf. destruct Hdf as [Hdf|(o' & E)]; [eapply Hp; eassumption|discriminate E].
      + rewrite started_snoc, app_nil_r. exact Hdup.
      + discriminate.
      + auto.
      + intros Hz a p Hi. apply eager_keep with (x := Some (LDeferred o l)); [exact Hg|discriminate|]. exact (Hpast Hz a p Hi).
      + intros j. rewrite Hlog, d_get_set. destruct (str_eqb j (o_id x)) eqn:E; [apply str_eqb_eq in E; subst; rewrite Hg|]; reflexivity.
    - (* direct command *)
      destruct (Htop _ _ eq_refl) as (x & open' & -> & Hx & -> & Hn1 & Hn2). subst id. inversion Ho as [|? ? Ho1 Ho2]; subst.
      assert (Hstart : forall j, In j (started (cs ++ [KDraw d])) <-> In j (started cs)) by (intros j; rewrite started_snoc, app_nil_r; reflexivity).
      constructor; cbn [vm_layers vm_stack vm_defer vm_log].
      + exists (MkOpen (o_id x) (o_declared x) true :: open'), closed. rewrite brackets_snoc, Hb, bracket_draw.
        split; [reflexivity|]. cbn [map o_id]. split; [reflexivity|].
        split. { constructor; [|apply opens_mono; apply opens_set; assumption]. unfold open_ok in *. cbn [o_id o_declared]. rewrite d_get_set_eq. rewrite Hg in Ho1.
          destruct Ho1. split; [assumption|apply in_or_app; auto]. }
        split; [exact Hnd|]. split; [intros j; rewrite Hstart; apply Hs|].
        split; [intros j; rewrite Hstart, d_get_set; destruct (str_eqb j (o_id x)) eqn:E;
          [apply str_eqb_eq in E; subst; rewrite <- Hl, Hg; split; discriminate|apply Hl]|].
        intros l1 a p l2 Hst' El Hdf. apply deferred_in_snoc in Hdf. destruct Hdf as [Hdf|(o' & E)]; [|discriminate E].
        apply split_snoc in El. destruct El as [(-> & -> & E)|(l2' & -> & ->)].
        * injection E as _ ->. split; [|intros []]. apply Hclosed; [exact Hdf|]. exact (Hd Hst').
        * destruct (Hp _ _ _ _ Hst' eq_refl Hdf) as [H1 H2]. split; [exact H1|]. rewrite map_app, in_app_iff. cbn [map fst In].
          intros [H|[H|[]]]; [auto|]. injection H as H. rewrite H in Hn2. contradiction.
      + rewrite started_snoc, app_nil_r. exact Hdup.
      + rewrite d_get_set_eq. reflexivity.
      + cbn [top_deferred]. rewrite d_get_set_eq. discriminate.
      + intros Hz a p Hi. apply eager_set. apply in_app_or in Hi. destruct Hi as [Hi|[Hi|[]]]; [exact (Hpast Hz a p Hi)|].
        injection Hi as _ ->. exact (Hd Hz).
      + intros j. rewrite calls_on_app, Hlog, d_get_set. unfold calls_on at 1. cbn [flat_map fst snd]. rewrite app_nil_r.
        destruct (str_eqb j (o_id x)) eqn:E.
        * apply str_eqb_eq in E. subst. rewrite Hg, str_eqb_refl. reflexivity.
        * destruct (str_eqb (o_id x) j) eqn:E'; [apply str_eqb_eq in E'; subst; rewrite str_eqb_refl in E; discriminate|]. apply app_nil_r.
    - (* a drawing outside of all layers *)
      destruct open as [|x open]; [|discriminate Hst].
      constructor; cbn [vm_layers vm_stack vm_defer vm_log].
      + exists [], closed. rewrite brackets_snoc, Hb, bracket_draw. rewrite started_snoc, app_nil_r. cbn [map app].
        repeat split; auto; try apply Hs; try apply Hl; intros; congruence.
      + rewrite started_snoc, app_nil_r. exact Hdup.
      + auto.
      + auto.
      + intros; congruence.
      + intros j. rewrite calls_on_app, Hlog. unfold calls_on. cbn [flat_map fst]. rewrite app_nil_r. reflexivity.
    - (* end of a layer with a box *)
      destruct (Htop _ _ eq_refl) as (x & open' & -> & Hx & -> & Hn1 & Hn2). subst id. inversion Ho as [|? ? Ho1 Ho2]; subst.
      assert (Hmove : forall j, In j (map o_id open' ++ o_id x :: closed) <-> In j (map o_id (x :: open') ++ closed)).
      { intros j. cbn [map app In]. rewrite !in_app_iff. cbn [In]. tauto. }
      constructor; cbn [vm_layers vm_stack vm_defer vm_log]; rewrite ?started_snoc, ?app_nil_r.
      + exists open', (o_id x :: closed). rewrite brackets_snoc, Hb. cbn [bracket_step].
        split; [reflexivity|]. split; [reflexivity|]. split; [apply opens_mono; exact Ho2|].
        split; [apply NoDup_Add with (a := o_id x) (l := map o_id open' ++ closed); [apply Add_app|cbn [map app] in Hnd; inversion Hnd; subst; split; assumption]|].
        split; [intros j; rewrite Hmove; apply Hs|]. split; [exact Hl|].
        intros l1 a p l2 Hst' El Hdf. apply deferred_in_snoc in Hdf. destruct Hdf as [Hdf|(o' & E)]; [|discriminate E].
        destruct (Hp _ _ _ _ Hst' El Hdf). split; [right|]; assumption.
      + exact Hdup.
      + unfold top_deferred. destruct (map o_id open'); [auto|]. auto.
      + auto.
      + exact Hpast.
      + exact Hlog.
    - (* end of an empty layer without box *)
      destruct (Htop _ _ eq_refl) as (x & open' & -> & Hx & -> & Hn1 & Hn2). subst id. inversion Ho as [|? ? Ho1 Ho2]; subst.
      assert (Hmove : forall j, In j (map o_id open' ++ o_id x :: closed) <-> In j (map o_id (x :: open') ++ closed)).
      { intros j. cbn [map app In]. rewrite !in_app_iff. cbn [In]. tauto. }
      assert (Hdt : df = true) by (apply Hmode'; cbn [top_deferred]; rewrite Hg; reflexivity). subst df.
      constructor; cbn [vm_layers vm_stack vm_defer vm_log]; rewrite ?started_snoc, ?app_nil_r.
      + exists open', (o_id x :: closed). rewrite brackets_snoc, Hb. cbn [bracket_step].
        split; [reflexivity|]. split; [reflexivity|]. split; [apply opens_mono; exact Ho2|].
        split; [apply NoDup_Add with (a := o_id x) (l := map o_id open' ++ closed); [apply Add_app|cbn [map app] in Hnd; inversion Hnd; subst; split; assumption]|].
        split; [intros j; rewrite Hmove; apply Hs|]. split; [exact Hl|].
        intros l1 a p l2 Hst' El Hdf. apply deferred_in_snoc in Hdf. destruct Hdf as [Hdf|(o' & E)]; [|discriminate E].
        destruct (Hp _ _ _ _ Hst' El Hdf). split; [right|]; assumption.
      + exact Hdup.
      + discriminate.
      + auto.
      + exact Hpast.
      + exact Hlog.
    - (* end of a layer without box *)
      destruct (Htop _ _ eq_refl) as (x & open' & -> & Hx & -> & Hn1 & Hn2). subst id. inversion Ho as [|? ? Ho1 Ho2]; subst.
      assert (Hmove : forall j, In j (map o_id open' ++ o_id x :: closed) <-> In j (map o_id (x :: open') ++ closed)).
      { intros j. cbn [map app In]. rewrite !in_app_iff. cbn [In]. tauto. }
      assert (Hsrc : forall p, In (DPaste p) ds -> exists b o l, d_get (pa_src p) ls = Some (LEager b o l)).
      { intros p Hi. eapply paste_src_eager; [exact Hi|reflexivity|exact Hbx]. }
      constructor; cbn [vm_layers vm_stack vm_defer vm_log]; rewrite ?started_snoc, ?app_nil_r.
      + exists open', (o_id x :: closed). rewrite brackets_snoc, Hb. cbn [bracket_step].
        split; [reflexivity|]. split; [reflexivity|]. split; [apply opens_mono; apply opens_set; assumption|].
        split; [apply NoDup_Add with (a := o_id x) (l := map o_id open' ++ closed); [apply Add_app|cbn [map app] in Hnd; inversion Hnd; subst; split; assumption]|].
        split; [intros j; rewrite Hmove; apply Hs|].
        split; [intros j; rewrite d_get_set; destruct (str_eqb j (o_id x)) eqn:E;
          [apply str_eqb_eq in E; subst; rewrite <- Hl, Hg; split; discriminate|apply Hl]|].
        intros l1 a p l2 Hst' El Hdf. apply deferred_in_snoc in Hdf. destruct Hdf as [Hdf|(o' & E)]; [|discriminate E].
        apply split_app in El. destruct El as [(l2' & -> & ->)|(l1' & -> & El)].
        * destruct (Hp _ _ _ _ Hst' eq_refl Hdf) as [H1 H2]. split; [right; exact H1|]. rewrite map_app, in_app_iff, map_map. cbn [fst].
          intros [H|H]; [auto|]. apply in_map_iff in H. destruct H as (e & H & _). injection H as H. rewrite H in Hn2. contradiction.
        * assert (Hi : In (DPaste p) ds).
          { assert (Hi : In (a, DPaste p) (map (fun d => (Some (o_id x), d)) ds)) by (rewrite El; apply in_or_app; right; left; reflexivity).
            apply in_map_iff in Hi. destruct Hi as (e & He & Hi). injection He as _ ->. exact Hi. }
          pose proof (Hclosed _ Hdf (Hsrc p Hi)) as Hc. split; [right; exact Hc|].
          intros H. assert (H' : In (Some (pa_src p)) (map fst (map (fun d => (Some (o_id x), d)) ds))).
          { rewrite El, map_app. apply in_or_app. right. right. exact H. }
          rewrite map_map in H'. cbn [fst] in H'. apply in_map_iff in H'. destruct H' as (e & H' & _). injection H' as H'. rewrite H' in Hn2. contradiction.
      + exact Hdup.
      + unfold top_deferred. destruct (map o_id open'); auto.
      + auto.
      + intros Hst' a p Hi. apply eager_set. apply in_app_or in Hi. destruct Hi as [Hi|Hi]; [exact (Hpast Hst' a p Hi)|].
        apply in_map_iff in Hi. destruct Hi as (e & He & Hi). injection He as _ ->. exact (Hsrc p Hi).
      + intros j. rewrite calls_on_app, Hlog, calls_on_map, d_get_set.
        destruct (str_eqb j (o_id x)) eqn:E.
        * apply str_eqb_eq in E. subst. rewrite Hg, str_eqb_refl. reflexivity.
        * destruct (str_eqb (o_id x) j) eqn:E'; [apply str_eqb_eq in E'; subst; rewrite str_eqb_refl in E; discriminate|]. apply app_nil_r.
  Qed.

  Lemma exec_inv cs : forall m, exec be fl cs vm_init = Ok m -> inv cs m.
  Proof.
    induction cs as [|c cs IH] using rev_ind; intros m E.
    - cbn in E. apply Ok_inj in E. subst. apply inv_init.
    - apply exec_snoc in E. destruct E as (m1 & E & HS). eapply inv_step; eauto.
  Qed.

  (** Layers that are not open never change again; a layer with a box keeps box and origin. *)
  Lemma step_stable c m m' j : vstep be fl c m m' -> d_get j (vm_layers m) <> None -> ~ In j (vm_stack m) ->
    d_get j (vm_layers m') = d_get j (vm_layers m) /\ ~ In j (vm_stack m').
  Proof.
    intros HS Hj Hn. destruct HS; cbn [vm_layers vm_stack] in *;
      repeat match goal with H : ~ In _ (_ :: _) |- _ => apply not_in_cons in H; destruct H end;
      rewrite ?d_get_set_ne by congruence; split; auto; intros [HE|HE]; subst; auto.
  Qed.
  Lemma step_keeps c m m' j b o l : vstep be fl c m m' -> d_get j (vm_layers m) = Some (LEager b o l) ->
    exists l', d_get j (vm_layers m') = Some (LEager b o l').
  Proof.
    intros HS Hj. destruct HS; cbn [vm_layers] in *; try (eexists; exact Hj); rewrite d_get_set; destruct (str_eqb j id) eqn:E; eauto;
      apply str_eqb_eq in E; subst; rewrite Hj in *; try discriminate;
      match goal with HE : Some _ = Some _ |- _ => injection HE as -> -> -> end; eauto.
  Qed.
End Inv.

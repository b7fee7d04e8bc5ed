(** Runs with declared and with computed boxes (C24), boxes computed (C25), streams accepted
    (C23) and empty layers (C26). *)
From Verif Require Import Base Num Dict Ast StateModel GeomModel CompilerModel LayerProofs BoxModel VmModel BoxSpec BoxProofs VmSpec VmProofs VmInv.

Section Runs.
  Context {K : Type} {NK : Num K} (be : backend K) (fl : bool).
  Implicit Types (m : vm K) (ls : dict (vlayer K)) (d : draw K) (c : cmd K).

  Lemma exec_cons c cs m m' : exec be fl (c :: cs) m = Ok m' <-> exists m1, vstep be fl c m m1 /\ exec be fl cs m1 = Ok m'.
  Proof.
    cbn [exec]. split.
    - destruct (step be fl c m) as [m1|] eqn:E; [|discriminate]. cbn [bind]. intros H. exists m1. split; [apply step_vstep; exact E|exact H].
    - intros (m1 & H & E). apply step_vstep in H. rewrite H. exact E.
  Qed.
  Lemma exec_stable cs : forall m m' j, exec be fl cs m = Ok m' -> d_get j (vm_layers m) <> None -> ~ In j (vm_stack m) ->
    d_get j (vm_layers m') = d_get j (vm_layers m).
  Proof.
    induction cs as [|c cs IH]; intros m m' j E Hj Hn; [cbn in E; apply Ok_inj in E; subst; reflexivity|].
    apply exec_cons in E. destruct E as (m1 & HS & E). destruct (step_stable _ _ _ _ _ _ HS Hj Hn) as [H1 H2].
    rewrite (IH _ _ _ E); [exact H1|rewrite H1; exact Hj|exact H2].
  Qed.
  Lemma exec_keeps cs : forall m m' j b o l, exec be fl cs m = Ok m' -> d_get j (vm_layers m) = Some (LEager b o l) ->
    exists l', d_get j (vm_layers m') = Some (LEager b o l').
  Proof.
    induction cs as [|c cs IH]; intros m m' j b o l E Hj; [cbn in E; apply Ok_inj in E; subst; eauto|].
    apply exec_cons in E. destruct E as (m1 & HS & E). destruct (step_keeps _ _ _ _ _ _ _ _ _ HS Hj) as [l' H1].
    exact (IH _ _ _ _ _ _ E H1).
  Qed.
  Definition content ls (j : str) : option (list (draw K)) :=
    match d_get j ls with Some (LEager _ _ l) => Some l | Some (LDeferred _ l) => Some l | None => None end.
  Lemma step_grows c m m' j l : vstep be fl c m m' -> content (vm_layers m) j = Some l -> exists x, content (vm_layers m') j = Some (l ++ x).
  Proof.
    intros HS Hc. unfold content in *.
    destruct HS as [id o ls st df lg Hg|id b o ls st df lg Hg Hz|d ls id st lg o l0 Hg|d ls id st lg b o l0 Hg Hd|d ls lg Hz Hd
        |ls id st df lg b o l0 Hg Hpr|ls id st df lg o Hg Hf|ls id st df lg o ds b Hg Hn Hbx Hz Hd Hpr];
      cbn [vm_layers] in *; try (exists []; rewrite app_nil_r; exact Hc);
      rewrite d_get_set; destruct (str_eqb j id) eqn:E; try (exists []; rewrite app_nil_r; exact Hc);
      apply str_eqb_eq in E; subst j; rewrite Hg in Hc; try discriminate; injection Hc as <-; eauto.
    exists []. rewrite app_nil_r. reflexivity.
  Qed.
  Lemma exec_grows cs : forall m m' j l, exec be fl cs m = Ok m' -> content (vm_layers m) j = Some l -> exists x, content (vm_layers m') j = Some (l ++ x).
  Proof.
    induction cs as [|c cs IH]; intros m m' j l E Hj; [cbn in E; apply Ok_inj in E; subst; exists []; rewrite app_nil_r; exact Hj|].
    apply exec_cons in E. destruct E as (m1 & HS & E). destruct (step_grows _ _ _ _ _ HS Hj) as [x H1].
    destruct (IH _ _ _ _ E H1) as [y H2]. exists (x ++ y). rewrite app_assoc. exact H2.
  Qed.
  Definition sound m : Prop := forall j b o l, d_get j (vm_layers m) = Some (LEager b o l) ->
    be_size be b = true /\ forall s, In (DShape s) l -> be_shape be s = None.
  Lemma sound_step c m m' : sound m -> vstep be fl c m m' -> sound m'.
  Proof.
    intros H HS. destruct HS as [id o ls st df lg Hg|id b o ls st df lg Hg Hz|d ls id st lg o l Hg|d ls id st lg b o l Hg Hd|d ls lg Hz Hd
        |ls id st df lg b o l Hg Hpr|ls id st df lg o Hg Hf|ls id st df lg o ds b Hg Hn Hbx Hz Hd Hpr];
      unfold sound in *; cbn [vm_layers] in *; try exact H; intros j b0 o0 l0; rewrite d_get_set; destruct (str_eqb j id) eqn:E; try apply H; intros HE; try discriminate HE;
      injection HE as <- <- <-.
    - split; [exact Hz|intros s []].
    - destruct (H _ _ _ _ Hg) as [H1 H2]. split; [exact H1|]. intros s Hs. apply in_app_or in Hs. destruct Hs as [Hs|[->|[]]]; [auto|exact Hd].
    - split; [exact Hz|]. intros s Hs. rewrite Forall_forall in Hd. exact (Hd _ Hs).
  Qed.
  Lemma exec_sound cs : forall m m', sound m -> exec be fl cs m = Ok m' -> sound m'.
  Proof.
    induction cs as [|c cs IH]; intros m m' H E; [cbn in E; apply Ok_inj in E; subst; exact H|].
    apply exec_cons in E. destruct E as (m1 & HS & E). exact (IH _ _ (sound_step _ _ _ H HS) E).
  Qed.
  Lemma sound_init : sound vm_init.
  Proof. intros j b o l H. discriminate H. Qed.

  (** ** Computed boxes *)
  Definition boxes_kept ls ls' : Prop := forall j b o l, d_get j ls = Some (LEager b o l) -> exists l', d_get j ls' = Some (LEager (K := K) b o l').
  Lemma draw_box_kept ls ls' d b : boxes_kept ls ls' -> draw_box ls d = Ok b -> draw_box ls' d = Ok b.
  Proof.
    intros H. destruct d as [s|p]; cbn [draw_box]; [auto|]. destruct (d_get (pa_src p) ls) as [[b0 o0 l0|]|] eqn:E; try discriminate.
    destruct (H _ _ _ _ E) as [l' ->]. auto.
  Qed.
  Lemma join_boxes_kept ls ls' ds : boxes_kept ls ls' -> forall a b, join_boxes ls a ds = Ok b -> join_boxes ls' a ds = Ok b.
  Proof.
    intros H. induction ds as [|d r IH]; intros a b; cbn [join_boxes]; [auto|].
    destruct (draw_box ls d) as [x|] eqn:E; [|discriminate]. rewrite (draw_box_kept _ _ _ _ H E). cbn [bind]. apply IH.
  Qed.
  Lemma deferred_box_kept ls ls' ds b : boxes_kept ls ls' -> deferred_box ls ds = Ok b -> deferred_box ls' ds = Ok b.
  Proof.
    intros H. destruct ds as [|d r]; cbn [deferred_box]; [auto|].
    destruct (draw_box ls d) as [x|] eqn:E; [|discriminate]. rewrite (draw_box_kept _ _ _ _ H E). cbn [bind].
    destruct (join_boxes ls x r) as [y|] eqn:E2; [|discriminate]. rewrite (join_boxes_kept _ _ _ H _ _ E2). auto.
  Qed.
  Lemma step_boxes_kept c m m' : vstep be fl c m m' -> boxes_kept (vm_layers m) (vm_layers m').
  Proof. intros HS j b o l Hj. exact (step_keeps _ _ _ _ _ _ _ _ _ HS Hj). Qed.

  Definition computed (cs : list (cmd K)) m : Prop := forall j b o l, deferred_in cs j -> d_get j (vm_layers m) = Some (LEager b o l) ->
    l <> [] /\ deferred_box (vm_layers m) l = Ok (Some b) /\ In (KStart j None o) cs.
  Lemma not_both cs m j b o l : inv be cs m -> vm_stack m <> [] -> In j (vm_stack m) -> d_get j (vm_layers m) = Some (LEager b o l) -> ~ deferred_in cs j.
  Proof.
    intros [(open & closed & Hb & Hst & Ho & Hnd & Hs & Hl & Hp) Hdup _ _ _ _] _ Hi Hg (o1 & Hd).
    rewrite Hst in Hi. apply in_map_iff in Hi. destruct Hi as (x & Ex & Hx). rewrite Forall_forall in Ho. specialize (Ho x Hx).
    unfold open_ok in Ho. rewrite Ex, Hg in Ho. destruct Ho as [_ Ho]. destruct (nodup_in_start _ _ _ _ _ _ Hdup Hd Ho) as [E _]. discriminate E.
  Qed.
  Lemma computed_step cs c m m' : inv be cs m -> computed cs m -> vstep be fl c m m' -> computed (cs ++ [c]) m'.
  Proof.
    intros HI HC HS j b o l Hdf Hg.
    pose proof (step_boxes_kept _ _ _ HS) as Hk. pose proof (inv_step _ _ _ _ _ _ HI HS) as HI'.
    assert (Hold : forall l0, deferred_in cs j -> d_get j (vm_layers m) = Some (LEager b o l0) -> l = l0 ->
      l <> [] /\ deferred_box (vm_layers m') l = Ok (Some b) /\ In (KStart j None o) (cs ++ [c])).
    { intros l0 Hd0 Hg0 ->. destruct (HC _ _ _ _ Hd0 Hg0) as (H1 & H2 & H3). split; [exact H1|]. split; [exact (deferred_box_kept _ _ _ _ Hk H2)|apply in_or_app; auto]. }
    apply deferred_in_snoc in Hdf. destruct Hdf as [Hdf|(o1 & ->)].
    2:{ inversion HS; subst. cbn [vm_layers] in Hg. rewrite d_get_set_eq in Hg. discriminate Hg. }
    pose proof (not_both cs m j) as Hnb.
    destruct HS as [id o1 ls st df lg Hg1|id b1 o1 ls st df lg Hg1 Hz|d ls id st lg o1 l1 Hg1|d ls id st lg b1 o1 l1 Hg1 Hd|d ls lg Hz Hd
        |ls id st df lg b1 o1 l1 Hg1 Hpr|ls id st df lg o1 Hg1 Hf|ls id st df lg o1 ds b1 Hg1 Hn Hbx Hz Hd Hpr]; cbn [vm_layers vm_stack] in *.
    1-4, 8: rewrite d_get_set in Hg; destruct (str_eqb j id) eqn:E; [apply str_eqb_eq in E; subst j|eapply Hold; eauto].
    - discriminate Hg.
    - exfalso. destruct HI as [(open & closed & _ & _ & _ & _ & _ & Hl & _) _ _ _ _ _]. destruct Hdf as (o2 & Hdf). cbn [vm_layers] in Hl.
      apply (Hl id); [|exact Hg1]. unfold started. apply in_flat_map. eexists; split; [exact Hdf|left; reflexivity].
    - discriminate Hg.
    - exfalso. eapply Hnb; [exact HI|discriminate|left; reflexivity|exact Hg1|exact Hdf].
    - injection Hg as <- <- <-. split; [exact Hn|]. split; [exact (deferred_box_kept _ _ _ _ Hk Hbx)|]. apply in_or_app. left.
      destruct HI as [(open & closed & _ & Hst & Ho & _) Hdup _ _ _ _]. cbn [vm_stack vm_layers] in *.
      destruct open as [|x open]; [discriminate Hst|]. inversion Ho as [|? ? Ho1 _]; subst. cbn [map] in Hst. injection Hst as -> _.
      unfold open_ok in Ho1. rewrite Hg1 in Ho1. apply Ho1.
    - eapply Hold; eauto.
    - eapply Hold; eauto.
    - eapply Hold; eauto.
  Qed.
  Lemma exec_computed cs : forall m, exec be fl cs vm_init = Ok m -> computed cs m.
  Proof.
    induction cs as [|c cs IH] using rev_ind; intros m E.
    - intros j b o l (o1 & []).
    - apply exec_snoc in E. destruct E as (m1 & E & HS). eapply computed_step; eauto. apply exec_inv with (fl := fl). exact E.
  Qed.

  (** ** Filling in the computed boxes (C24) *)
  Definition all_eager ls : Prop := forall j x, d_get j ls = Some x -> exists b o l, x = LEager (K := K) b o l.
  Definition fill_cmd (er : str -> bool) ls c : cmd K :=
    match c with
    | KStart id None o => if er id then match d_get id ls with Some (LEager b _ _) => KStart id (Some b) o | _ => c end else c
    | _ => c
    end.

  Section Fill.
    Context (er : str -> bool) (lsf : dict (vlayer K)).
    Definition swap (x : option (vlayer K)) (j : str) : option (vlayer K) :=
      match x with
      | Some (LDeferred o l) => if er j then match d_get j lsf with Some (LEager b _ _) => Some (LEager b o l) | _ => x end else x
      | _ => x
      end.
    Definition pending ls (st : list str) : list (option str * draw K) :=
      match st with
      | id :: _ => match d_get id ls with
                   | Some (LDeferred _ l) => if er id then map (fun d => (Some id, d)) l else []
                   | _ => []
                   end
      | [] => []
      end.
    Record sim m m' : Prop := {
      s_stack : vm_stack m' = vm_stack m;
      s_layers : forall j, d_get j (vm_layers m') = swap (d_get j (vm_layers m)) j;
      s_defer : vm_defer m = top_deferred (vm_layers m) (vm_stack m);
      s_defer' : vm_defer m' = top_deferred (vm_layers m') (vm_stack m') }.
    Definition sim_log m m' : Prop := vm_log m' = vm_log m ++ pending (vm_layers m) (vm_stack m).

    Lemma swap_eager x j b o l : x = Some (LEager b o l) -> swap x j = x.
    Proof. intros ->. reflexivity. Qed.

    Lemma sim_step cs c cs' m m1 mf m' :
      inv be cs m -> sim m m' -> vstep be fl c m m1 -> exec be fl cs' m1 = Ok mf -> lsf = vm_layers mf -> all_eager lsf -> sound mf ->
      (forall p, c = KDraw (DPaste p) -> exists open closed, brackets cs = Some (open, closed) /\ In (pa_src p) closed) ->
      exists m1', vstep be fl (fill_cmd er lsf c) m' m1' /\ sim m1 m1' /\
        ((length (vm_stack m) <= 1 -> length (vm_stack m1) <= 1 -> sim_log m m' -> sim_log m1 m1')%nat).
    Proof.
      intros HI HSim HS HE Hlf Hall Hsnd Hpc.
      assert (HIb := HI). destruct HIb as [(open & closed & Hb & Hst & Ho & Hnd & Hs & Hl & _) Hdup _ _ _ _].
      assert (Hfin : forall j, d_get j (vm_layers m1) <> None -> ~ In j (vm_stack m1) -> d_get j lsf = d_get j (vm_layers m1)).
      { intros j Hj Hn. rewrite Hlf. eapply exec_stable; eauto. }
      assert (Hclosed : forall j, In j closed -> exists b o l, d_get j (vm_layers m) = Some (LEager b o l)).
      { intros j Hj. assert (Hj' : d_get j (vm_layers m) <> None) by (apply Hl; apply Hs; apply in_or_app; auto).
        assert (Hns : ~ In j (vm_stack m)).
        { rewrite Hst. intros H. clear - Hj H Hnd. induction (map o_id open) as [|a r IH]; [exact H|]. cbn [app] in Hnd. inversion Hnd; subst.
          destruct H as [->|H]; [apply H2; apply in_or_app; auto|auto]. }
        destruct (step_stable _ _ _ _ _ _ HS Hj' Hns) as [H1 H2]. assert (H3 : d_get j (vm_layers m1) <> None) by (rewrite H1; exact Hj').
        pose proof (Hfin j H3 H2) as H4. rewrite H1 in H4. destruct (d_get j (vm_layers m)) as [x|]; [|contradiction].
        destruct (Hall _ _ H4) as (b & o & l & ->). eauto. }
      assert (Hpast : forall p, c = KDraw (DPaste p) -> exists b o l, d_get (pa_src p) (vm_layers m) = Some (LEager b o l)).
      { intros p Hp. destruct (Hpc p Hp) as (op & cl & E & Hi). rewrite Hb in E. injection E as <- <-. auto. }
      assert (Hshape : forall j l s, content (vm_layers m1) j = Some l -> In (DShape s) l -> be_shape be s = None).
      { intros j l s Hc Hi. destruct (exec_grows _ _ _ _ _ HE Hc) as [x Hx]. unfold content in Hx. rewrite <- Hlf in Hx.
        destruct (d_get j lsf) as [y|] eqn:Ey; [|discriminate]. destruct (Hall _ _ Ey) as (b & o & l' & ->).
        injection Hx as ->. rewrite Hlf in Ey. destruct (Hsnd _ _ _ _ Ey) as [_ H]. apply H. apply in_or_app; auto. }
      destruct HSim as [S1 S2 S3 S4]. destruct m' as [ls' st' df' lg']. cbn [vm_layers vm_stack vm_defer vm_log] in S1, S2, S4.
      destruct HS as [id o ls st df lg Hg|id b o ls st df lg Hg Hz|d ls id st lg o l Hg|d ls id st lg b o l Hg Hd|d ls lg Hz Hd
        |ls id st df lg b o l Hg Hpr|ls id st df lg o Hg Hf|ls id st df lg o ds b Hg Hn Hbx Hz Hd Hpr];
        cbn [vm_layers vm_stack vm_defer vm_log fill_cmd] in *; subst st' df'.
      - (* start without box *)
        assert (Hg' : d_get id ls' = None) by (rewrite S2, Hg; reflexivity).
        destruct (er id) eqn:Eer.
        + assert (Hx : exists b o1 l, d_get id lsf = Some (LEager b o1 l)).
          { destruct (exec_grows _ _ _ id [] HE) as [x Hx]; [unfold content; cbn [vm_layers]; rewrite d_get_set_eq; reflexivity|].
            unfold content in Hx. rewrite <- Hlf in Hx. destruct (d_get id lsf) as [y|] eqn:Ey; [|discriminate].
            destruct (Hall _ _ Ey) as (b & o1 & l & ->). eauto. }
          destruct Hx as (b & o1 & l & Ey). rewrite Ey. eexists. split; [apply vs_start_e; [exact Hg'|]|split].
          * rewrite Hlf in Ey. apply (Hsnd _ _ _ _ Ey).
          * constructor; cbn [vm_layers vm_stack vm_defer top_deferred]; rewrite ?d_get_set_eq; auto.
            intros j. rewrite !d_get_set. destruct (str_eqb j id) eqn:E; [apply str_eqb_eq in E; subst j; cbn [swap]; rewrite Eer, Ey; reflexivity|apply S2].
          * unfold sim_log. cbn [vm_layers vm_stack vm_log pending length]. rewrite d_get_set_eq, Eer. cbn [map]. rewrite app_nil_r.
            destruct st as [|k st]; [|cbn [length]; lia]. cbn [pending]. rewrite app_nil_r. auto.
        + eexists. split; [apply vs_start_d; exact Hg'|split].
          * constructor; cbn [vm_layers vm_stack vm_defer top_deferred]; rewrite ?d_get_set_eq; auto.
            intros j. rewrite !d_get_set. destruct (str_eqb j id) eqn:E; [apply str_eqb_eq in E; subst j; cbn [swap]; rewrite Eer; reflexivity|apply S2].
          * unfold sim_log. cbn [vm_layers vm_stack vm_log pending length]. rewrite d_get_set_eq, Eer. rewrite app_nil_r.
            destruct st as [|k st]; [|cbn [length]; lia]. cbn [pending]. rewrite app_nil_r. auto.
      - (* start with a box *)
        assert (Hg' : d_get id ls' = None) by (rewrite S2, Hg; reflexivity).
        eexists. split; [apply vs_start_e; [exact Hg'|exact Hz]|split].
        + constructor; cbn [vm_layers vm_stack vm_defer top_deferred]; rewrite ?d_get_set_eq; auto.
          intros j. rewrite !d_get_set. destruct (str_eqb j id) eqn:E; [reflexivity|apply S2].
        + unfold sim_log. cbn [vm_layers vm_stack vm_log pending length]. rewrite d_get_set_eq, app_nil_r.
          destruct st as [|k st]; [|cbn [length]; lia]. cbn [pending]. rewrite app_nil_r. auto.
      - (* stored command *)
        cbn [top_deferred]. pose proof (S2 id) as Sid. rewrite Hg in Sid. cbn [swap] in Sid.
        assert (Hdef : forall s, d = DShape s -> be_shape be s = None).
        { intros s ->. apply (Hshape id (l ++ [DShape s]) s); [unfold content; cbn [vm_layers]; rewrite d_get_set_eq; reflexivity|apply in_or_app; right; left; reflexivity]. }
        assert (Hdraw : drawable be ls' d).
        { destruct d as [s|p]; cbn [drawable]; [apply Hdef; reflexivity|]. intros _. rewrite S2.
          destruct (Hpast p eq_refl) as (b & o1 & l1 & ->). cbn [swap]. eauto. }
        destruct (er id) eqn:Eer; [destruct (d_get id lsf) as [[bf of lf|of lf]|] eqn:Ef|].
        + rewrite Sid. cbn [is_deferred]. eexists. split; [apply vs_eager; [exact Sid|exact Hdraw]|split].
          * constructor; cbn [vm_layers vm_stack vm_defer top_deferred]; rewrite ?d_get_set_eq; auto.
            intros j. rewrite !d_get_set. destruct (str_eqb j id) eqn:E; [apply str_eqb_eq in E; subst j; cbn [swap]; rewrite Eer, Ef; reflexivity|apply S2].
          * unfold sim_log. cbn [vm_layers vm_stack vm_log pending length]. intros _ _. rewrite d_get_set_eq, Hg, Eer, map_app. cbn [map].
            intros ->. rewrite app_assoc. reflexivity.
        + exfalso. destruct (Hall _ _ Ef) as (b & o1 & l1 & E). discriminate E.
        + exfalso. destruct (exec_grows _ _ _ id (l ++ [d]) HE) as [x Hx]; [unfold content; cbn [vm_layers]; rewrite d_get_set_eq; reflexivity|].
          unfold content in Hx. rewrite <- Hlf, Ef in Hx. discriminate Hx.
        + rewrite Sid. cbn [is_deferred]. eexists. split; [apply vs_defer; exact Sid|split].
          * constructor; cbn [vm_layers vm_stack vm_defer top_deferred]; rewrite ?d_get_set_eq; auto.
            intros j. rewrite !d_get_set. destruct (str_eqb j id) eqn:E; [apply str_eqb_eq in E; subst j; cbn [swap]; rewrite Eer; reflexivity|apply S2].
          * unfold sim_log. cbn [vm_layers vm_stack vm_log pending length]. intros _ _. rewrite d_get_set_eq, Hg, Eer. auto.
      - (* direct command *)
        cbn [top_deferred]. pose proof (S2 id) as Sid. rewrite Hg in Sid. cbn [swap] in Sid. rewrite Sid. cbn [is_deferred].
        eexists. split; [apply vs_eager; [exact Sid|]|split].
        + destruct d as [s|p]; cbn [drawable] in *; [exact Hd|]. intros Hz. destruct (Hd Hz) as (b1 & o1 & l1 & H1). rewrite S2, H1. cbn [swap]. eauto.
        + constructor; cbn [vm_layers vm_stack vm_defer top_deferred]; rewrite ?d_get_set_eq; auto.
          intros j. rewrite !d_get_set. destruct (str_eqb j id) eqn:E; [reflexivity|apply S2].
        + unfold sim_log. cbn [vm_layers vm_stack vm_log pending length]. intros _ _. rewrite d_get_set_eq, Hg, !app_nil_r. intros ->. reflexivity.
      - (* outside of all layers *)
        eexists. split; [apply vs_loose; [exact Hz|]|split].
        + destruct d as [s|p]; cbn [drawable] in *; [exact Hd|]. congruence.
        + constructor; cbn [vm_layers vm_stack vm_defer top_deferred]; auto.
        + unfold sim_log. cbn [vm_layers vm_stack vm_log pending length]. intros _ _. rewrite !app_nil_r. intros ->. reflexivity.
      - (* end of a layer with box *)
        pose proof (S2 id) as Sid. rewrite Hg in Sid. cbn [swap] in Sid.
        assert (Hpr' : present ls' st).
        { destruct st as [|k st]; [exact I|]. cbn [present] in *. rewrite S2. destruct (d_get k ls) as [[]|]; cbn [swap]; try discriminate; [|contradiction].
          destruct (er k); [|discriminate]. destruct (d_get k lsf) as [[]|]; discriminate. }
        eexists. split; [eapply vs_end_e; [exact Sid|exact Hpr']|split].
        + constructor; cbn [vm_layers vm_stack vm_defer]; auto.
        + unfold sim_log. cbn [vm_layers vm_stack vm_log length]. intros H1 _. destruct st as [|k st]; [|cbn [length] in H1; lia].
          cbn [pending]. rewrite Hg, !app_nil_r. auto.
      - (* empty layers do not occur *)
        exfalso. assert (Hns : ~ In id st).
        { rewrite <- Hst in Hnd. cbn [app] in Hnd. inversion Hnd; subst. intros H. apply H1. apply in_or_app; auto. }
        assert (Hne : d_get id ls <> None) by (rewrite Hg; discriminate). pose proof (Hfin id Hne Hns) as H1. rewrite Hg in H1.
        destruct (Hall _ _ H1) as (b & o1 & l1 & E). discriminate E.
      - (* end of a layer without box *)
        pose proof (S2 id) as Sid. rewrite Hg in Sid. cbn [swap] in Sid.
        assert (Hns : ~ In id st).
        { rewrite <- Hst in Hnd. cbn [app] in Hnd. inversion Hnd; subst. intros H. apply H1. apply in_or_app; auto. }
        assert (Hf : d_get id lsf = Some (LEager b o ds)).
        { rewrite <- (d_get_set_eq id (LEager b o ds) ls). apply Hfin; [rewrite d_get_set_eq; discriminate|exact Hns]. }
        assert (Hkept : boxes_kept ls ls').
        { intros j bj oj lj Hj. rewrite S2, Hj. cbn [swap]. eauto. }
        assert (Hpr' : forall x, present (d_set id x ls') st).
        { intros x. destruct st as [|k st]; [exact I|]. cbn [present] in *. rewrite d_get_set in *. destruct (str_eqb k id); [discriminate|].
          rewrite S2. destruct (d_get k ls) as [[]|]; cbn [swap]; try discriminate; [|contradiction].
          destruct (er k); [|discriminate]. destruct (d_get k lsf) as [[]|]; discriminate. }
        destruct (er id) eqn:Eer.
        + rewrite Hf in Sid.
          eexists. split; [eapply vs_end_e; [exact Sid|]|split].
          * specialize (Hpr' (LEager b o ds)). rewrite d_set_same in Hpr' by exact Sid. exact Hpr'.
          * constructor; cbn [vm_layers vm_stack vm_defer]; auto.
            intros j. rewrite d_get_set. destruct (str_eqb j id) eqn:E; [apply str_eqb_eq in E; subst j; exact Sid|apply S2].
          * unfold sim_log. cbn [vm_layers vm_stack vm_log length]. intros H1 _. destruct st as [|k st]; [|cbn [length] in H1; lia].
            cbn [pending]. rewrite Hg, Eer, !app_nil_r. auto.
        + eexists. split; [eapply vs_end_d; [exact Sid|exact Hn|exact (deferred_box_kept _ _ _ _ Hkept Hbx)|exact Hz| |apply Hpr']|split].
          * eapply Forall_impl; [|exact Hd]. intros e He. destruct e as [s|p]; cbn [drawable] in *; [exact He|]. intros Hz'. specialize (He Hz').
            rewrite d_get_set in *. destruct (str_eqb (pa_src p) id); [exact He|]. destruct He as (b1 & o1 & l1 & H1). rewrite S2, H1. cbn [swap]. eauto.
          * constructor; cbn [vm_layers vm_stack vm_defer]; auto.
            intros j. rewrite !d_get_set. destruct (str_eqb j id) eqn:E; [reflexivity|apply S2].
          * unfold sim_log. cbn [vm_layers vm_stack vm_log length]. intros H1 _. destruct st as [|k st]; [|cbn [length] in H1; lia].
            cbn [pending]. rewrite Hg, Eer, !app_nil_r. intros ->. reflexivity.
    Qed.

    Lemma sim_exec cs' : forall cs m mf m', inv be cs m -> sim m m' -> exec be fl cs' m = Ok mf -> lsf = vm_layers mf -> all_eager lsf -> sound mf ->
      (forall pre p post, cs' = pre ++ KDraw (DPaste p) :: post -> exists open closed, brackets (cs ++ pre) = Some (open, closed) /\ In (pa_src p) closed) ->
      exists mf', exec be fl (map (fill_cmd er lsf) cs') m' = Ok mf' /\ sim mf mf' /\
        ((forall pre post open closed, cs' = pre ++ post -> brackets (cs ++ pre) = Some (open, closed) -> (length open <= 1)%nat) ->
         sim_log m m' -> sim_log mf mf').
    Proof.
      induction cs' as [|c cs' IH]; intros cs m mf m' HI HSim HE Hlf Hall Hsnd Hpc; cbn [map].
      - cbn [exec] in *. apply Ok_inj in HE. subst mf. exists m'. auto.
      - assert (HE0 := HE). apply exec_cons in HE. destruct HE as (m1 & HS & HE).
        destruct (sim_step cs c cs' m m1 mf m' HI HSim HS HE Hlf Hall Hsnd) as (m1' & HS' & HSim' & Hlog).
        { intros p ->. specialize (Hpc [] p cs' eq_refl). rewrite app_nil_r in Hpc. exact Hpc. }
        pose proof (inv_step _ _ _ _ _ _ HI HS) as HI'.
        destruct (IH _ _ _ _ HI' HSim' HE Hlf Hall Hsnd) as (mf' & HE' & HSf & Hlog').
        { intros pre p post ->. rewrite <- app_assoc. apply (Hpc (c :: pre) p post). reflexivity. }
        exists mf'. split; [apply exec_cons; eauto|]. split; [exact HSf|]. intros Hflat HL. apply Hlog'.
        + intros pre post open closed ->. rewrite <- app_assoc. apply (Hflat (c :: pre) post). reflexivity.
        + apply Hlog; [| |exact HL].
          * destruct HI as [(open & closed & Hb & Hst & _) _ _ _ _ _]. rewrite Hst, map_length. apply (Hflat [] (c :: cs') open closed eq_refl). rewrite app_nil_r. exact Hb.
          * destruct HI' as [(open & closed & Hb & Hst & _) _ _ _ _ _]. rewrite Hst, map_length. exact (Hflat [c] cs' open closed eq_refl Hb).
    Qed.
  End Fill.
End Runs.

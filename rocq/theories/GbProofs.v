(** Proofs for C38 and C40: reading the commands of the builder. *)
From Verif Require Import Base Num Dict CoordModel CoordSpec CoordProofs Ast StateModel GbModel GbSpec.
From Coq Require Import Qabs Lqa.
Local Open Scope Q_scope.
Local Existing Instance NumQ.
Local Notation vis := (visitor Q (list (@call Q))).

(** ** Rounding *)
Lemma near_morph q q' v : q == q' -> near q v -> near q' v.
Proof. intros E [H1 H2]. split; [exact H1|]. rewrite <- E. exact H2. Qed.
Lemma near_grid q : near q (Qred (on_grid q 6)).
Proof.
  split.
  - exists (apply_sign (q_neg q) (scaled q 6)). rewrite Qred_correct. unfold on_grid.
    change (Z.to_pos (10 ^ Z.of_nat 6)) with 1000000%positive. unfold Qeq, Qdiv, Qmult, inject_Z, Qinv; cbn. lia.
  - rewrite Qred_correct. pose proof (on_grid_close q 6) as H. exact H.
Qed.
Lemma near2_morph p p' x y : fst p == fst p' -> snd p == snd p' -> near2 p x y -> near2 p' x y.
Proof. intros E1 E2 [H1 H2]. split; eapply near_morph; eauto. Qed.

Lemma pack1_read q t : pack1 q = Ok t -> exists k, unpack SkipLeading 4 6 t = Ok k /\ near q (Qred k).
Proof.
  unfold pack1. pose proof (pack_unpack SkipLeading 4 6 q ltac:(lia) ltac:(lia)) as H.
  destruct (_ <? _)%Z.
  - destruct H as (s & E1 & E2). rewrite E1. intros E. injection E as <-. exists (on_grid q 6). split; [exact E2|apply near_grid].
  - rewrite H. discriminate.
Qed.
Lemma pack1_fits q : pack1 q = if (scaled q 6 <? 10000000000)%Z then pack1 q else Err (GCoord TooLong).
Proof.
  unfold pack1. pose proof (pack_unpack SkipLeading 4 6 q ltac:(lia) ltac:(lia)) as H.
  change (10 ^ Z.of_nat (4 + 6))%Z with 10000000000%Z in H.
  destruct (_ <? _)%Z; [reflexivity|]. rewrite H. reflexivity.
Qed.
Lemma pack1_ok_iff q : (exists t, pack1 q = Ok t) <-> (scaled q 6 < 10000000000)%Z.
Proof.
  unfold pack1. pose proof (pack_unpack SkipLeading 4 6 q ltac:(lia) ltac:(lia)) as H.
  change (10 ^ Z.of_nat (4 + 6))%Z with 10000000000%Z in H.
  destruct (Z.ltb_spec (scaled q 6) 10000000000).
  - destruct H as (s & -> & _). split; eauto.
  - rewrite H. split; [intros [t E]; discriminate|lia].
Qed.

(** ** The reader's state *)
Definition fmt46 : cfmt := MkCF SkipLeading Absolute 4 6 4 6.
Lemma read46 s b q t : s_cf s = Some fmt46 -> pack1 q = Ok t -> exists k, read_coord s b t = Ok k /\ near q k.
Proof.
  intros E Ht. destruct (pack1_read q t Ht) as (k & Hk & Hn). exists (Qred k). split; [|exact Hn].
  unfold read_coord. rewrite E. destruct b; cbn [fmt46 cf_zeros cf_xi cf_xd cf_yi cf_yd]; rewrite Hk; reflexivity.
Qed.

Section Sync.
  Context (A : dict (ad Q)) (M : dict (list (prim Q))).

  Record sync (sel : option str) (tr : transform Q) (l : option loc) (real : plot_mode) (rg : bool) (v : vis) : Prop := MkSync {
    y_unit : s_unit (v_state v) = Metric;
    y_cf : s_cf (v_state v) = Some fmt46;
    y_plot : s_plot (v_state v) = real;
    y_arc : s_arc (v_state v) = MultiQuadrant;
    y_apid : s_apid (v_state v) = sel;
    y_cur : forall p, l = Some p -> near2 p (s_cur_x (v_state v)) (s_cur_y (v_state v));
    y_tr : s_tr (v_state v) = tr;
    y_aps : s_apertures (v_state v) = A;
    y_mac : s_macros (v_state v) = M;
    y_region : s_region (v_state v) = rg;
    y_d01 : v_d01 v = (if rg then d01_region_table else d01_table) real MultiQuadrant;
    y_disp : v_dispatch_region v = rg;
    y_d03 : forall id, sel = Some id -> exists a, d_get id A = Some a /\ v_d03 v = Some (handler_for (ApAD a)) }.

  Definition g_tr (g : gb) : transform Q := MkTr (g_polarity g) (g_mirroring g) (g_rotation g) (g_scale g).
  Definition gsync (g : gb) := sync (g_selected g) (g_tr g) (g_loc g).

  Lemma visits_app ns ns' (v : vis) : visits recorder (ns ++ ns') v = obind (visits recorder ns v) (visits recorder ns') (fun v => v).
  Proof.
    revert v. induction ns as [|n r IH]; intros v; [reflexivity|]. cbn [app visits].
    destruct (visit recorder n v) as [v'|v'|e]; cbn [obind]; [apply IH|reflexivity|reflexivity].
  Qed.

  (** [seen ns v v'] : the commands are read without error and nothing is drawn. *)
  Definition quiet ns (v v' : vis) := visits recorder ns v = Done v' /\ v_ext v' = v_ext v.
  Lemma quiet_nil v : quiet [] v v. Proof. split; reflexivity. Qed.
  Lemma quiet_app ns ns' v v' v'' : quiet ns v v' -> quiet ns' v' v'' -> quiet (ns ++ ns') v v''.
  Proof. intros [H1 H2] [H3 H4]. split; [rewrite visits_app, H1; exact H3|congruence]. Qed.

  Lemma mode_eqb_eq a b : mode_eqb a b = true <-> a = b.
  Proof. destruct a, b; cbn; split; congruence. Qed.
  Lemma polarity_eqb_eq a b : polarity_eqb a b = true <-> a = b.
  Proof. destruct a, b; cbn; split; congruence. Qed.
  Lemma mirroring_eqb_eq a b : mirroring_eqb a b = true <-> a = b.
  Proof. destruct a, b; cbn; split; congruence. Qed.
  Lemma mirroring_new_spec x y : mirrors (mirroring_new x y) x y.
  Proof. destruct x, y; split; reflexivity. Qed.

  Ltac one := destruct 1; eexists; split; [split; reflexivity|constructor; cbn; try assumption; try congruence].

  Lemma rd_select sel tr l real v id a : sync sel tr l real false v -> d_get id A = Some a ->
    exists v', quiet [NDnn id] v v' /\ sync (Some id) tr l real false v'.
  Proof.
    intros [] Ha. eexists. split.
    - unfold quiet. cbn [visits visit visit_leaf]. unfold on_dnn. unfold current_aperture. cbn [with_state v_state set_apid s_apid s_apertures].
      rewrite y_aps0, Ha. cbn [obind]. split; reflexivity.
    - constructor; cbn; try assumption; try reflexivity. intros id' E. injection E as <-. exists a. split; [exact Ha|reflexivity].
  Qed.
  Lemma rd_tr sel tr l real v n f : sync sel tr l real false v ->
    visit_leaf recorder n v = Done (with_state (set_tr_with f) v) -> visit recorder n v = visit_leaf recorder n v ->
    exists v', quiet [n] v v' /\ sync sel (f tr) l real false v'.
  Proof.
    intros [] E1 E2. eexists. split.
    - split; [cbn [visits]; rewrite E2, E1; reflexivity|reflexivity].
    - constructor; cbn; try assumption. rewrite y_tr0. reflexivity.
  Qed.
  Lemma rd_mode sel tr l real v m rg : sync sel tr l real rg v ->
    exists v', quiet [NG (mode_g m)] v v' /\ sync sel tr l m rg v'.
  Proof.
    intros []. eexists. split.
    - split; [cbn [visits visit visit_leaf]; unfold on_g; destruct m; reflexivity|destruct m; reflexivity].
    - destruct m; constructor; cbn; try assumption; try reflexivity; rewrite y_disp0, y_arc0; destruct rg; reflexivity.
  Qed.

  Lemma state_updates_read ap pol rot mx my sc mode g ups g' real v a :
    state_updates ap pol rot mx my sc mode g = (ups, g') -> gsync g real false v -> d_get ap A = Some a ->
    let real' := match mode with
                 | None => real
                 | Some m => if match g_mode g with Some t => mode_eqb t m | None => false end then real else m
                 end in
    (exists v', quiet ups v v' /\ gsync g' real' false v').
  Proof.
    intros E S Ha. unfold state_updates in E.
    destruct (if match g_selected g with Some s => negb (str_eqb s ap) | None => true end then _ else _) as [n1 g1] eqn:E1.
    assert (H1 : exists v', quiet n1 v v' /\ gsync g1 real false v' /\ g_mode g1 = g_mode g).
    { destruct (match g_selected g with Some s => negb (str_eqb s ap) | None => true end); injection E1 as <- <-.
      - destruct (rd_select _ _ _ _ _ ap a S Ha) as (v' & Q1 & Q2). exists v'. split; [exact Q1|]. split; [exact Q2|reflexivity].
      - exists v. split; [apply quiet_nil|]. split; [exact S|reflexivity]. }
    clear E1 S. destruct H1 as (v1 & Q1 & S1 & M1).
    destruct (if negb (polarity_eqb pol (g_polarity g1)) then _ else _) as [n2 g2] eqn:E2.
    assert (H2 : exists v', quiet n2 v1 v' /\ gsync g2 real false v' /\ g_mode g2 = g_mode g).
    { destruct (negb _); injection E2 as <- <-; [|exists v1; split; [apply quiet_nil|]; split; assumption].
      destruct (rd_tr _ _ _ _ _ (NLP pol) (fun t => MkTr pol (tr_mirroring t) (tr_rotation t) (tr_scaling t)) S1 eq_refl eq_refl) as (v' & Q2 & S2).
      exists v'. split; [exact Q2|]. split; [exact S2|exact M1]. }
    clear E2. destruct H2 as (v2 & Q2 & S2 & M2).
    destruct (if negb (Qeq_bool rot (g_rotation g2)) then _ else _) as [n3 g3] eqn:E3.
    assert (H3 : exists v', quiet n3 v2 v' /\ gsync g3 real false v' /\ g_mode g3 = g_mode g).
    { destruct (negb _); injection E3 as <- <-; [|exists v2; split; [apply quiet_nil|]; split; assumption].
      destruct (rd_tr _ _ _ _ _ (NLR rot) (fun t => MkTr (tr_polarity t) (tr_mirroring t) rot (tr_scaling t)) S2 eq_refl eq_refl) as (v' & Q3 & S3).
      exists v'. split; [exact Q3|]. split; [exact S3|exact M2]. }
    clear E3. destruct H3 as (v3 & Q3 & S3 & M3).
    destruct (if negb (mirroring_eqb (mirroring_new mx my) (g_mirroring g3)) then _ else _) as [n4 g4] eqn:E4.
    assert (H4 : exists v', quiet n4 v3 v' /\ gsync g4 real false v' /\ g_mode g4 = g_mode g).
    { destruct (negb _); injection E4 as <- <-; [|exists v3; split; [apply quiet_nil|]; split; assumption].
      destruct (rd_tr _ _ _ _ _ (NLM (mirroring_new mx my)) (fun t => MkTr (tr_polarity t) (mirroring_new mx my) (tr_rotation t) (tr_scaling t)) S3 eq_refl eq_refl) as (v' & Q4 & S4).
      exists v'. split; [exact Q4|]. split; [exact S4|exact M3]. }
    clear E4. destruct H4 as (v4 & Q4 & S4 & M4).
    destruct (if negb (Qeq_bool sc (g_scale g4)) then _ else _) as [n5 g5] eqn:E5.
    assert (H5 : exists v', quiet n5 v4 v' /\ gsync g5 real false v' /\ g_mode g5 = g_mode g).
    { destruct (negb _); injection E5 as <- <-; [|exists v4; split; [apply quiet_nil|]; split; assumption].
      destruct (rd_tr _ _ _ _ _ (NLS sc) (fun t => MkTr (tr_polarity t) (tr_mirroring t) (tr_rotation t) sc) S4 eq_refl eq_refl) as (v' & Q5 & S5).
      exists v'. split; [exact Q5|]. split; [exact S5|exact M4]. }
    clear E5. destruct H5 as (v5 & Q5 & S5 & M5).
    rewrite <- M5.
    match type of E with (let '(_, _) := ?t in _) = _ => destruct t as [n6 g6] eqn:E6 end.
    injection E as <- <-. intros real'.
    assert (H6 : exists v', quiet n6 v5 v' /\ gsync g6 real' false v').
    { unfold real'. destruct mode as [m|]; [|injection E6 as <- <-; exists v5; split; [apply quiet_nil|exact S5]].
      destruct (g_mode g5) as [t|]; [destruct (mode_eqb t m) eqn:Em|]; cbn [negb] in E6; injection E6 as <- <-.
      - exists v5. split; [apply quiet_nil|exact S5].
      - destruct (rd_mode _ _ _ _ _ m _ S5) as (v' & Q6 & S6). exists v'. split; [exact Q6|exact S6].
      - destruct (rd_mode _ _ _ _ _ m _ S5) as (v' & Q6 & S6). exists v'. split; [exact Q6|exact S6]. }
    destruct H6 as (v6 & Q6 & S6). exists v6. split; [|exact S6].
    repeat (eapply quiet_app; [eassumption|]). exact Q6.
  Qed.

  (** What [state_updates] makes of the builder. *)
  Lemma state_updates_gb ap pol rot mx my sc mode g ups g' :
    state_updates ap pol rot mx my sc mode g = (ups, g') ->
    g_selected g' = Some ap /\ g_polarity g' = pol /\ g_rotation g' == rot /\ mirrors (g_mirroring g') mx my /\ g_scale g' == sc /\
    g_mode g' = match mode with Some m => Some m | None => g_mode g end /\
    g_objs g' = g_objs g /\ g_pads g' = g_pads g /\ g_macros g' = g_macros g /\ g_id g' = g_id g /\ g_macro_id g' = g_macro_id g /\
    g_draws g' = g_draws g /\ g_loc g' = g_loc g /\ g_trace_pads g' = g_trace_pads g.
  Proof.
    unfold state_updates. pose proof (mirroring_new_spec mx my) as HM.
    assert (Hsel : forall s, negb (str_eqb s ap) = false -> s = ap).
    { intros s H. apply negb_false_iff, str_eqb_eq in H. exact H. }
    destruct g as [o i mi ps ms ds l sel r mir s p md tp]. cbn [g_selected g_polarity g_rotation g_mirroring g_scale g_mode].
    assert (E1 : exists n1, (if match sel with Some s => negb (str_eqb s ap) | None => true end
       then ([NDnn (K:=Q) ap], set_selected (Some ap) (MkGb o i mi ps ms ds l sel r mir s p md tp)) else ([], MkGb o i mi ps ms ds l sel r mir s p md tp))
       = (n1, MkGb o i mi ps ms ds l (Some ap) r mir s p md tp)).
    { destruct sel as [x|]; [|eexists; reflexivity]. destruct (negb (str_eqb x ap)) eqn:E; [eexists; reflexivity|].
      apply Hsel in E. subst x. eexists; reflexivity. }
    destruct E1 as [n1 ->]. cbn [g_polarity].
    assert (E2 : exists n2, (if negb (polarity_eqb pol p) then ([NLP (K:=Q) pol], set_polarity pol (MkGb o i mi ps ms ds l (Some ap) r mir s p md tp)) else ([], MkGb o i mi ps ms ds l (Some ap) r mir s p md tp))
       = (n2, MkGb o i mi ps ms ds l (Some ap) r mir s pol md tp)).
    { destruct (polarity_eqb pol p) eqn:E; [|eexists; reflexivity]. apply polarity_eqb_eq in E. subst p. eexists; reflexivity. }
    destruct E2 as [n2 ->]. cbn [g_rotation].
    assert (E3 : exists n3 r', (if negb (Qeq_bool rot r) then ([NLR rot], set_rotation rot (MkGb o i mi ps ms ds l (Some ap) r mir s pol md tp)) else ([], MkGb o i mi ps ms ds l (Some ap) r mir s pol md tp))
       = (n3, MkGb o i mi ps ms ds l (Some ap) r' mir s pol md tp) /\ r' == rot).
    { destruct (Qeq_bool rot r) eqn:E; [|do 2 eexists; split; reflexivity]. apply Qeq_bool_eq in E. do 2 eexists; split; [reflexivity|symmetry; exact E]. }
    destruct E3 as (n3 & r' & -> & Hr). cbn [g_mirroring].
    assert (E4 : exists n4, (if negb (mirroring_eqb (mirroring_new mx my) mir) then ([NLM (K:=Q) (mirroring_new mx my)], set_mirroring (mirroring_new mx my) (MkGb o i mi ps ms ds l (Some ap) r' mir s pol md tp)) else ([], MkGb o i mi ps ms ds l (Some ap) r' mir s pol md tp))
       = (n4, MkGb o i mi ps ms ds l (Some ap) r' (mirroring_new mx my) s pol md tp)).
    { destruct (mirroring_eqb _ mir) eqn:E; [|eexists; reflexivity]. apply mirroring_eqb_eq in E. rewrite E. eexists; reflexivity. }
    destruct E4 as [n4 ->]. cbn [g_scale].
    assert (E5 : exists n5 s', (if negb (Qeq_bool sc s) then ([NLS sc], set_scale sc (MkGb o i mi ps ms ds l (Some ap) r' (mirroring_new mx my) s pol md tp)) else ([], MkGb o i mi ps ms ds l (Some ap) r' (mirroring_new mx my) s pol md tp))
       = (n5, MkGb o i mi ps ms ds l (Some ap) r' (mirroring_new mx my) s' pol md tp) /\ s' == sc).
    { destruct (Qeq_bool sc s) eqn:E; [|do 2 eexists; split; reflexivity]. apply Qeq_bool_eq in E. do 2 eexists; split; [reflexivity|symmetry; exact E]. }
    destruct E5 as (n5 & s' & -> & Hs). cbn [g_mode].
    destruct mode as [m|]; [|intros E; injection E as <- <-; cbn; repeat (split; [reflexivity || assumption|]); reflexivity].
    destruct md as [t|]; [destruct (mode_eqb t m) eqn:Em|]; cbn [negb]; intros E; injection E as <- <-; cbn;
      repeat (split; [reflexivity || assumption|]); try reflexivity.
    apply mode_eqb_eq in Em. subst. repeat (split; [reflexivity|]). reflexivity.
  Qed.

  (** ** Drawing commands *)
  Definition tr_ok (tr : transform Q) pol (rot : Q) mx my (sc : Q) :=
    tr_polarity tr = pol /\ tr_rotation tr == rot /\ mirrors (tr_mirroring tr) mx my /\ tr_scaling tr == sc.
  Lemma sync_placed sel tr l real rg v s pol rot mx my sc : sync sel tr l real rg v -> tr_ok tr pol rot mx my sc ->
    s_unit s = s_unit (v_state v) -> s_tr s = s_tr (v_state v) -> placed s pol rot mx my sc.
  Proof. intros [] (H1 & H2 & H3 & H4) E1 E2. unfold placed. rewrite E1, E2, y_tr0. auto. Qed.

  Lemma pack2_inv p x y : pack2 p = Ok (x, y) -> pack1 (fst p) = Ok x /\ pack1 (snd p) = Ok y.
  Proof.
    unfold pack2. destruct (pack1 (fst p)); cbn; [|discriminate]. destruct (pack1 (snd p)); cbn; [|discriminate].
    intros E. injection E as <- <-. auto.
  Qed.

  Lemma flash_read id tr l real v p x y a : sync (Some id) tr l real false v -> d_get id A = Some a -> pack2 p = Ok (x, y) ->
    exists v' s, visits recorder [ND03 (Some x) (Some y)] v = Done v' /\ sync (Some id) tr (Some p) real false v' /\
      v_ext v' = v_ext v ++ [CFlash (handler_for (ApAD a)) (ApAD a) s] /\
      s_unit s = s_unit (v_state v) /\ s_tr s = s_tr (v_state v) /\ s_macros s = M /\ near2 p (coordinate_x s) (coordinate_y s).
  Proof.
    intros S Ha Hp. apply pack2_inv in Hp as [Hx Hy]. destruct S.
    destruct (read46 (v_state v) true _ _ y_cf0 Hx) as (kx & Rx & Nx). destruct (read46 (v_state v) false _ _ y_cf0 Hy) as (ky & Ry & Ny).
    destruct (y_d04 id eq_refl) as (a' & Ha' & H3). rewrite Ha in Ha'. injection Ha' as <-.
    cbn [visits visit visit_leaf]. unfold on_d03, on_coords, read_coords, read_opt. rewrite Rx. cbn [bind]. rewrite Ry. cbn [bind].
    cbn [with_state v_state]. unfold current_aperture. cbn [set_xyij s_apid s_apertures v_d03]. rewrite y_apid0, y_aps0, Ha. cbn [v_d03 with_state]. rewrite H3.
    cbn [recorder hk_flash lift obind v_ext]. do 2 eexists. split; [reflexivity|].
    split; [|split; [reflexivity|]; split; [reflexivity|]; split; [reflexivity|]; split; [exact y_mac0|split; assumption]].
    - constructor; cbn; try assumption; try reflexivity.
      intros q E. injection E as <-. split; assumption.
  Qed.

  Lemma move_read sel tr l real rg v p x y : sync sel tr l real rg v -> pack2 p = Ok (x, y) ->
    exists v' s, visits recorder [ND02 (Some x) (Some y)] v = Done v' /\ sync sel tr (Some p) real rg v' /\
      v_ext v' = v_ext v ++ (if rg then [CFlushRegion s] else []) /\ s_unit s = s_unit (v_state v) /\ s_tr s = s_tr (v_state v).
  Proof.
    intros S Hp. apply pack2_inv in Hp as [Hx Hy]. destruct S.
    destruct (read46 (v_state v) true _ _ y_cf0 Hx) as (kx & Rx & Nx). destruct (read46 (v_state v) false _ _ y_cf0 Hy) as (ky & Ry & Ny).
    cbn [visits visit visit_leaf]. unfold on_d02, on_coords, read_coords, read_opt. rewrite Rx. cbn [bind]. rewrite Ry. cbn [bind].
    cbn [with_state v_state update_coordinates set_cur set_xyij s_region]. rewrite y_region0.
    destruct rg; cbn [lift recorder hk_flush_region obind v_ext]; eexists.
    - eexists. split; [reflexivity|]. split; [|split; [reflexivity|split; reflexivity]].
      constructor; cbn; try assumption; try reflexivity. intros q E. injection E as <-. split; assumption.
    - exists (v_state v). split; [reflexivity|]. split; [|split; [cbn; symmetry; apply app_nil_r|split; reflexivity]].
      constructor; cbn; try assumption; try reflexivity. intros q E. injection E as <-. split; assumption.
  Qed.

  Definition offset (c b : loc) : loc := (fst c - fst b, snd c - snd b).
  Lemma opt_pack_inv c i j : opt_pack c = Ok (i, j) ->
    match c with None => i = None /\ j = None | Some p => exists x y, i = Some x /\ j = Some y /\ pack2 p = Ok (x, y) end.
  Proof.
    destruct c as [p|]; cbn; [|intros E; injection E as <- <-; auto].
    destruct (pack2 p) as [[x y]|]; cbn; [|discriminate]. intros E. injection E as <- <-. exists x, y. auto.
  Qed.
  Lemma stroke_read sel tr b real rg v e x y c i j :
    sync sel tr (Some b) real rg v -> tr_ok tr Dark 0 false false 1 -> pack2 e = Ok (x, y) ->
    opt_pack (match c with Some c => Some (offset c b) | None => None end) = Ok (i, j) ->
    exists v' s, visits recorder [ND01 (Some x) (Some y) i j] v = Done v' /\ sync sel tr (Some e) real rg v' /\
      v_ext v' = v_ext v ++ [CDraw ((if rg then d01_region_table else d01_table) real MultiQuadrant) s] /\
      stroke s b e c /\ s_apid s = sel /\ s_apertures s = A.
  Proof.
    intros S T Hp Hc. pose proof S as S0. apply pack2_inv in Hp as [Hx Hy]. destruct S.
    destruct (read46 (v_state v) true _ _ y_cf0 Hx) as (kx & Rx & Nx). destruct (read46 (v_state v) false _ _ y_cf0 Hy) as (ky & Ry & Ny).
    assert (HIJ : exists i' j', read_opt (v_state v) true i (s_i (v_state v)) = Ok i' /\ read_opt (v_state v) false j (s_j (v_state v)) = Ok j' /\
      match c with Some c => near2 (offset c b) (opt_or i' n0) (opt_or j' n0) | None => True end).
    { apply opt_pack_inv in Hc. destruct c as [c|].
      - destruct Hc as (ti & tj & -> & -> & Hp). apply pack2_inv in Hp as [Hi Hj].
        destruct (read46 (v_state v) true _ _ y_cf0 Hi) as (ki & Ri & Ni). destruct (read46 (v_state v) false _ _ y_cf0 Hj) as (kj & Rj & Nj).
        exists (Some ki), (Some kj). unfold read_opt. rewrite Ri, Rj. cbn [bind]. split; [reflexivity|]. split; [reflexivity|]. split; assumption.
      - destruct Hc as [-> ->]. exists (s_i (v_state v)), (s_j (v_state v)). repeat split; reflexivity. }
    destruct HIJ as (i' & j' & Ri & Rj & NIJ).
    cbn [visits visit visit_leaf]. unfold on_d01, on_coords, read_coords.
    assert (EX : read_opt (v_state v) true (Some x) (s_x (v_state v)) = Ok (Some kx)) by (unfold read_opt; rewrite Rx; reflexivity).
    assert (EY : read_opt (v_state v) false (Some y) (s_y (v_state v)) = Ok (Some ky)) by (unfold read_opt; rewrite Ry; reflexivity).
    rewrite EX. cbn [bind]. rewrite EY. cbn [bind]. rewrite Ri. cbn [bind]. rewrite Rj. cbn [bind].
    cbn [lift recorder hk_draw obind with_state v_d01 v_ext v_state]. rewrite y_d02.
    do 2 eexists. split; [reflexivity|]. split; [|split; [reflexivity|split; [|split; [exact y_apid0|exact y_aps0]]]].
    - constructor; cbn; try assumption; try reflexivity. intros q E. injection E as <-. split; assumption.
    - split; [eapply sync_placed; [exact S0|exact T|reflexivity|reflexivity]|].
      split; [exact (y_cur0 b eq_refl)|]. split; [split; assumption|]. destruct c as [c|]; [exact NIJ|exact I].
  Qed.
End Sync.

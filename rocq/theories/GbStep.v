(** Proofs for C38: every call keeps the invariants. *)
From Verif Require Import Base Num Dict CoordModel Ast StateModel GbModel GbSpec GbProofs GbInv.
From Coq Require Import Qabs Lqa.
Local Open Scope Q_scope.
Local Existing Instance NumQ.
Local Notation vis := (visitor Q (list (@call Q))).

Definition inv (h : history) (g : gb) : Prop := invo h g /\ invd h g.

Lemma inv_raise c h g g1 : inv h g -> defs_ok g1 -> grows g g1 -> same_pen g g1 ->
  inv ((c, false) :: h) (set_objs (g_objs g1 ++ [ONothing]) g1).
Proof.
  intros [I D] HD G (P1 & P2 & P3 & P4 & P5 & P6). split.
  - eapply invo_keep; eauto; [rewrite P3; apply I| |exact Logic.I].
    intros n Hn. destruct (object n g); try exact Logic.I; destruct c; try split; reflexivity.
  - eapply invd_keep; eauto. cbn. apply app_nil_r.
Qed.
Lemma inv_silent c h g g1 o : inv h g -> defs_ok g1 -> grows g g1 -> same_pen g g1 -> wishes ((c, true) :: h) = wishes h ->
  (forall n, unmoved (c, true) h n (object n g)) -> obj_ok ((c, true) :: h) g1 (length h) o ->
  inv ((c, true) :: h) (set_objs (g_objs g1 ++ [o]) g1).
Proof.
  intros [I D] HD G (P1 & P2 & P3 & P4 & P5 & P6) W U Ho. split.
  - eapply invo_keep; eauto. rewrite P3. apply I.
  - eapply invd_keep; eauto.
Qed.
Lemma same_pen_refl g : same_pen g g. Proof. repeat split; reflexivity. Qed.
Lemma nth_call_here c h : nth_call ((c, true) :: h) (length h) = Some (c, h).
Proof. cbn. rewrite Nat.eqb_refl. reflexivity. Qed.
Lemma object_lt h g n : invo h g -> object n g <> ONothing -> (n < length h)%nat.
Proof.
  intros I H. rewrite <- (io_len _ _ I). destruct (Nat.lt_ge_cases n (length (g_objs g))) as [L|L]; [exact L|].
  exfalso. apply H. unfold object. apply nth_overflow. exact L.
Qed.

Lemma pad_place_spec h g p l : invo h g -> pad_place p g = Ok l -> comes_from (spot h) p = Some l.
Proof.
  intros I. destruct p as [q|n]; cbn; [congruence|]. destruct (object n g) as [|i|ps f|r|q|b e|q] eqn:E; try discriminate.
  pose proof (io_obj _ _ I n (object_lt h g n I ltac:(congruence))) as H. rewrite E in H. cbn in H. rewrite H. cbn. congruence.
Qed.
Lemma begin_place_spec h g p l : invo h g -> begin_place p g = Ok l -> comes_from (spot h) p = Some l.
Proof.
  intros I. destruct p as [q|n]; cbn; [congruence|]. destruct (object n g) as [|i|ps f|r|q|b e|q] eqn:E; try discriminate;
  pose proof (io_obj _ _ I n (object_lt h g n I ltac:(congruence))) as H; rewrite E in H; cbn in H; rewrite H; cbn; congruence.
Qed.
Lemma end_place_spec h g p l : invo h g -> end_place p g = Ok l -> goes_to (spot h) p = Some l.
Proof.
  intros I. destruct p as [q|n]; cbn; [congruence|]. destruct (object n g) as [|i|ps f|r|q|b e|q] eqn:E; try discriminate;
  pose proof (io_obj _ _ I n (object_lt h g n I ltac:(congruence))) as H; rewrite E in H; cbn in H; rewrite H; cbn; congruence.
Qed.
Lemma place_objs (p : place) g g' : g_objs g' = g_objs g ->
  pad_place p g' = pad_place p g /\ begin_place p g' = begin_place p g /\ end_place p g' = end_place p g.
Proof. intros E. destruct p as [l|n]; [auto|]. unfold pad_place, begin_place, end_place, object. rewrite E. auto. Qed.

Lemma defs_ok_same g g' : defs_ok g -> g_pads g' = g_pads g -> g_macros g' = g_macros g -> g_id g' = g_id g -> g_macro_id g' = g_macro_id g ->
  g_trace_pads g' = g_trace_pads g -> defs_ok g'.
Proof.
  intros [] E1 E2 E3 E4 E5. assert (EA : ads g' = ads g) by (unfold ads; congruence).
  constructor; rewrite ?EA, ?E2, ?E3, ?E4, ?E5; assumption.
Qed.
Lemma grows_same g g' : g_pads g' = g_pads g -> g_macros g' = g_macros g -> grows g g'.
Proof. intros E1 E2. split; exists []; rewrite app_nil_r; [unfold ads; congruence|exact E2]. Qed.

(** *** Pads *)
Lemma pack1_err q e : pack1 q = Err e -> exists x, e = GCoord x.
Proof. unfold pack1. destruct (pack SkipLeading 4 6 q) as [s|x]; [discriminate|]. intros E. exists x. congruence. Qed.
Lemma pack2_err p e : pack2 p = Err e -> exists x, e = GCoord x.
Proof.
  unfold pack2. destruct (pack1 (fst p)) as [s|x] eqn:E1; cbn [bind]; [destruct (pack1 (snd p)) as [t|x] eqn:E2; cbn [bind]; [discriminate|]|];
  intros E; injection E as <-; eauto using pack1_err.
Qed.
Lemma opt_pack_err p e : opt_pack p = Err e -> exists x, e = GCoord x.
Proof.
  destruct p as [p|]; cbn; [|discriminate]. destruct (pack2 p) as [xy|] eqn:E; cbn; [discriminate|].
  intros H. injection H as <-. exact (pack2_err _ _ E).
Qed.
Lemma add_pad_step n p cut rot mx my sc h g g1 r : inv h g ->
  add_pad n p cut rot mx my sc g = (g1, r) -> match r with Ok _ => True | Err e => clean_error e end ->
  inv ((AddPad n p cut rot mx my sc, is_ok r) :: h) (set_objs (g_objs g1 ++ [match r with Ok o => o | Err _ => ONothing end]) g1).
Proof.
  intros HI E C. unfold add_pad in E.
  assert (HR : forall e, raise g e = (g1, r) -> inv ((AddPad n p cut rot mx my sc, is_ok r) :: h) (set_objs (g_objs g1 ++ [match r with Ok o => o | Err _ => ONothing end]) g1)).
  { intros e Ee. injection Ee as <- <-. apply (inv_raise _ h g g); [exact HI|apply HI|apply grows_refl|apply same_pen_refl]. }
  destruct (object n g) as [|i|ps f|rg|q|b e|q] eqn:Eo; try (exact (HR _ E)). clear HR.
  destruct HI as [I D]. pose proof (object_lt h g n I ltac:(congruence)) as Ln.
  pose proof (io_obj _ _ I n Ln) as Ho. rewrite Eo in Ho. cbn in Ho. destruct Ho as (a & lk & Ha & Hlk & Hl).
  rewrite (pad_id_nth _ _ _ Ha) in E.
  destruct (state_updates (ad_id a) (if cut then Clear else Dark) rot mx my sc None g) as [ups g2] eqn:Eu.
  destruct (state_updates_gb _ _ _ _ _ _ _ _ _ _ Eu) as (U1 & U2 & U3 & U4 & U5 & U6 & U7 & U8 & U9 & U10 & U11 & U12 & U13 & U14).
  rewrite (proj1 (place_objs p _ _ U7)) in E.
  destruct (pad_place p g) as [l|e] eqn:Ep; [|injection E as <- <-; destruct p; cbn in Ep; [discriminate|destruct (object n0 g); try discriminate; injection Ep as <-; destruct C]].
  destruct (pack2 l) as [[x y]|e] eqn:Epk.
  2: { injection E as <- <-. destruct (pack2_err _ _ Epk) as [z ->]. destruct C. }
  injection E as <- <-. pose proof (pad_place_spec _ _ _ _ I Ep) as Hp.
  set (gd := add_draw l (ups ++ [ND03 (Some x) (Some y)]) g2).
  assert (HG : grows g gd) by (apply grows_same; cbn; assumption).
  split.
  - eapply invo_keep; [exact I| |exact HG| |exact U7| |].
    + apply (defs_ok_same g); try assumption. apply I.
    + intros l' El. injection El as <-. eauto.
    + intros m Hm. destruct (object m g); try exact Logic.I; try split; reflexivity.
    + cbn [obj_ok]. cbn [spot negb]. rewrite Nat.eqb_refl, Hp. reflexivity.
  - eapply (invd_draw _ h g gd _ (WPad n l (if cut then Clear else Dark) rot mx my sc)); [exact D|exact HG| | | | |].
    + cbn. rewrite U12. reflexivity.
    + cbn [wishes negb is_ok]. rewrite Hp. reflexivity.
    + reflexivity.
    + cbn. rewrite U6. apply D.
    + intros A M v HA S. cbn [after snd].
      assert (HAa : d_get (ad_id a) A = Some a).
      { apply HA. apply (nth_error_In _ i). exact (grows_nth _ _ _ _ HG Ha). }
      destruct (state_updates_read A M _ _ _ _ _ _ _ _ _ _ _ _ _ Eu S HAa) as (v1 & [V1 X1] & S1).
      unfold gsync in S1. rewrite U1 in S1.
      destruct (flash_read A M _ _ _ _ _ _ _ _ _ S1 HAa Epk) as (v2 & s & V2 & S2 & X2 & Q1 & Q2 & Q3 & Q4).
      exists v2, [CFlash (handler_for (ApAD a)) (ApAD a) s]. split; [rewrite visits_app, V1; exact V2|].
      split; [unfold gsync; cbn [gd add_draw g_selected g_loc]; rewrite U1; exact S2|].
      split; [rewrite X2, X1; reflexivity|].
      assert (HLk : looks (s_macros s) a lk) by (rewrite Q3; apply (looks_in_defines A M gd); [exact HA|exact (looks_in_grows _ _ _ _ HG Hl)]).
      replace (handler_for (ApAD a)) with (match lk with
               | Plain (TCircle _ _) => FCircle | Plain (TRect _ _ _) => FRect | Plain (TObround _ _ _) => FObround
               | Plain (TPolygon _ _ _ _) => FPolygon | _ => FMacro end).
      * apply (sh_pad _ n l _ rot mx my sc lk a s); [apply pad_look_cons; exact Hlk|exact HLk| |exact Q4].
        apply (sync_placed A M _ _ _ _ _ _ s _ _ _ _ _ S1); [|exact Q1|exact Q2]. unfold tr_ok, g_tr. cbn. auto.
      * cbn [handler_for]. destruct lk as [t|fs]; cbn in HLk.
        -- rewrite HLk. destruct t; reflexivity.
        -- destruct HLk as (nm & ps & -> & _). reflexivity.
Qed.

(** *** Traces *)
Lemma loc_eqb_eq a b : loc_eqb a b = true -> fst a == fst b /\ snd a == snd b.
Proof. unfold loc_eqb. intros H. apply andb_true_iff in H as [H1 H2]. split; apply Qeq_bool_eq; assumption. Qed.
Definition trace_call (c : bcall) : option (plot_mode * Q * place * place * option loc) :=
  match c with
  | AddLine w b e => Some (PmLinear, w, b, e, None)
  | AddArc cw w b e c => Some (if cw then PmArc else PmCcwArc, w, b, e, Some c)
  | _ => None
  end.
Lemma move_sync A M sel tr (l : option loc) b real v :
  sync A M sel tr l real false v -> match l with Some l => negb (loc_eqb l b) | None => true end = false -> sync A M sel tr (Some b) real false v.
Proof.
  intros [] H. destruct l as [l|]; [|discriminate]. apply negb_false_iff, loc_eqb_eq in H as [H1 H2].
  constructor; try assumption. intros p E. injection E as <-. apply (near2_morph l); [exact H1|exact H2|apply y_cur; reflexivity].
Qed.

Lemma add_trace_step c m w b e ct h g g1 r : inv h g -> trace_call c = Some (m, w, b, e, ct) ->
  add_trace m w b e ct g = (g1, r) -> match r with Ok _ => True | Err e => clean_error e end ->
  inv ((c, is_ok r) :: h) (set_objs (g_objs g1 ++ [match r with Ok o => o | Err _ => ONothing end]) g1).
Proof.
  intros HI Ec E C. unfold add_trace in E. destruct HI as [I D].
  destruct (trace_pad w g) as [i ga] eqn:Et. destruct (trace_pad_ok _ _ _ _ Et (io_defs _ _ I)) as (Da & Ga & Pa & a & w' & Ha & Ta & Ew).
  pose proof Pa as (P1 & P2 & P3 & P4 & P5 & P6).
  assert (HR : forall x, raise ga x = (g1, r) -> inv ((c, is_ok r) :: h) (set_objs (g_objs g1 ++ [match r with Ok o => o | Err _ => ONothing end]) g1)).
  { intros x Ex. injection Ex as <- <-. apply (inv_raise _ h g ga); [split; assumption|exact Da|exact Ga|exact Pa]. }
  destruct (place_objs b _ _ P1) as (_ & Eb & _). destruct (place_objs e _ _ P1) as (_ & _ & Ee). rewrite Eb, Ee in E. clear Eb Ee.
  destruct (begin_place b g) as [bl|x] eqn:Hb; [|exact (HR _ E)]. destruct (end_place e g) as [el|x] eqn:He; [|exact (HR _ E)]. clear HR.
  apply (begin_place_spec _ _ _ _ I) in Hb. apply (end_place_spec _ _ _ _ I) in He.
  rewrite (pad_id_nth _ _ _ Ha) in E.
  destruct (state_updates (ad_id a) Dark 0 false false 1 (Some m) ga) as [ups g2] eqn:Eu.
  destruct (state_updates_gb _ _ _ _ _ _ _ _ _ _ Eu) as (U1 & U2 & U3 & U4 & U5 & U6 & U7 & U8 & U9 & U10 & U11 & U12 & U13 & U14).
  rewrite U13 in E. rewrite P3 in E. set (mv := match g_loc g with Some l => negb (loc_eqb l bl) | None => true end) in *.
  destruct (if mv then let* xy := pack2 bl in Ok [ND02 (Some (fst xy)) (Some (snd xy))] else Ok []) as [d02|x] eqn:E02; cbn [bind] in E.
  2: { injection E as <- <-. destruct mv; [|discriminate]. destruct (pack2 bl) eqn:Ex; [discriminate|]. cbn in E02. injection E02 as <-.
       destruct (pack2_err _ _ Ex) as [y ->]. destruct C. }
  destruct (pack2 el) as [[x y]|z] eqn:Epk; cbn [bind] in E.
  2: { injection E as <- <-. destruct (pack2_err _ _ Epk) as [y ->]. destruct C. }
  destruct (opt_pack _) as [[ti tj]|z] eqn:Eij; cbn [bind] in E.
  2: { injection E as <- <-. destruct (opt_pack_err _ _ Eij) as [z' ->]. destruct C. }
  injection E as <- <-. cbn [fst snd].
  set (ns := ups ++ d02 ++ [ND01 (Some x) (Some y) ti tj]). set (gd := add_draw el ns g2).
  assert (HG : grows g gd).
  { apply (grows_trans g ga); [exact Ga|]. apply grows_same; cbn; assumption. }
  assert (HW : wishes ((c, true) :: h) = wishes h ++ [WTrace m w bl el ct]).
  { destruct c; try discriminate Ec; cbn in Ec; injection Ec as <- <- <- <- <-; cbn [wishes negb]; rewrite Hb, He; reflexivity. }
  split.
  - eapply invo_keep; [exact I| |exact HG| | | |].
    + apply (defs_ok_same ga); assumption.
    + intros l' El. injection El as <-. eauto.
    + cbn. congruence.
    + intros k Hk. destruct (object k g); try exact Logic.I; destruct c; try discriminate Ec; try split; reflexivity.
    + cbn [obj_ok is_ok]. destruct c; try discriminate Ec; cbn in Ec; injection Ec as <- <- <- <- <-; cbn [spot negb]; rewrite Nat.eqb_refl, Hb, He; reflexivity.
  - cbn [is_ok]. eapply (invd_draw _ h g gd _ (WTrace m w bl el ct)); [exact D|exact HG| |exact HW| | |].
    + cbn. rewrite U12, P2. reflexivity.
    + reflexivity.
    + exact U6.
    + intros A M v HA S.
      assert (HAa : d_get (ad_id a) A = Some a).
      { apply HA. apply (nth_error_In _ i). unfold gd, ads. cbn. rewrite U8. exact Ha. }
      assert (Sa : gsync A M ga (real h) false v) by (unfold gsync; rewrite P3, P4, P5; exact S).
      destruct (state_updates_read A M _ _ _ _ _ _ _ _ _ _ _ _ _ Eu Sa HAa) as (v1 & [V1 X1] & S1).
      rewrite P6, (id_mode _ _ D) in S1. cbn [after snd]. set (m' := if match told h with Some t => mode_eqb t m | None => false end then real h else m) in *.
      unfold gsync in S1. rewrite U1, U13, P3 in S1.
      assert (H2 : exists v2, visits recorder d02 v1 = Done v2 /\ v_ext v2 = v_ext v1 /\ sync A M (Some (ad_id a)) (g_tr g2) (Some bl) m' false v2).
      { destruct mv eqn:Emv.
        - destruct (pack2 bl) as [[bx by_]|] eqn:Epb; [|discriminate]. cbn in E02. injection E02 as <-.
          destruct (move_read A M _ _ _ _ _ _ _ _ _ S1 Epb) as (v2 & s2 & V2 & S2 & X2 & _). exists v2. rewrite app_nil_r in X2. auto.
        - injection E02 as <-. exists v1. split; [reflexivity|]. split; [reflexivity|]. exact (move_sync _ _ _ _ _ _ _ _ S1 Emv). }
      destruct H2 as (v2 & V2 & X2 & S2).
      assert (T2 : tr_ok (g_tr g2) Dark 0 false false 1) by (unfold tr_ok, g_tr; cbn; auto).
      destruct (stroke_read A M _ _ _ _ _ _ _ _ _ ct _ _ S2 T2 Epk Eij) as (v3 & s & V3 & S3 & X3 & K & Q1 & Q2).
      exists v3, [CDraw (d01_table m' MultiQuadrant) s].
      split; [unfold ns; rewrite visits_app, V1; cbn [obind]; rewrite visits_app, V2; exact V3|].
      split; [unfold gsync; cbn [gd add_draw g_selected g_loc]; rewrite U1; exact S3|].
      split; [rewrite X3, X2, X1; reflexivity|].
      replace (d01_table m' MultiQuadrant) with (match m' with PmLinear => HDrawLine | PmArc => HDrawCwMq | PmCcwArc => HDrawCcwMq end)
        by (destruct m'; reflexivity).
      apply (sh_trace _ m' w bl el ct a w' s); try assumption.
      unfold current_aperture. rewrite Q1, Q2, HAa. reflexivity.
Qed.

(** *** Regions *)
Lemma region_ops_err segs : forall m e, region_ops m segs = Err e -> exists x, e = GCoord x.
Proof.
  induction segs as [|s r IH]; intros m e; cbn [region_ops]; [discriminate|].
  destruct (pack2 (o_end s)) eqn:E1; cbn [bind]; [|intros H; injection H as <-; exact (pack2_err _ _ E1)].
  destruct (opt_pack _) eqn:E2; cbn [bind]; [|intros H; injection H as <-; exact (opt_pack_err _ _ E2)].
  destruct (region_ops (Some _) r) eqn:E3; cbn [bind]; [discriminate|]. intros H. injection H as <-. exact (IH _ _ E3).
Qed.
Lemma create_region_step n h g g1 r : inv h g ->
  create_region n g = (g1, r) -> match r with Ok _ => True | Err e => clean_error e end ->
  inv ((CreateRegion n, is_ok r) :: h) (set_objs (g_objs g1 ++ [match r with Ok o => o | Err _ => ONothing end]) g1).
Proof.
  intros HI E C. unfold create_region in E.
  assert (HR : forall e, raise g e = (g1, r) -> inv ((CreateRegion n, is_ok r) :: h) (set_objs (g_objs g1 ++ [match r with Ok o => o | Err _ => ONothing end]) g1)).
  { intros e Ee. injection Ee as <- <-. apply (inv_raise _ h g g); [exact HI|apply HI|apply grows_refl|apply same_pen_refl]. }
  destruct (object n g) as [|i|ps f|rg|q|b e|q] eqn:Eo; try (exact (HR _ E)).
  destruct (length (r_outline rg) <? 3)%nat eqn:E3; [exact (HR _ E)|]. clear HR.
  destruct HI as [I D]. pose proof (object_lt h g n I ltac:(congruence)) as Ln.
  pose proof (io_obj _ _ I n Ln) as Ho. rewrite Eo in Ho. cbn in Ho. destruct Ho as ((h0 & Hc) & Hout & Hprev).
  destruct (trace_pad 1 g) as [i ga] eqn:Et. destruct (trace_pad_ok _ _ _ _ Et (io_defs _ _ I)) as (Da & Ga & Pa & a & w' & Ha & Ta & Ew).
  pose proof Pa as (P1 & P2 & P3 & P4 & P5 & P6).
  rewrite (pad_id_nth _ _ _ Ha) in E.
  destruct (state_updates (ad_id a) Dark 0 false false 1 None ga) as [ups g2] eqn:Eu.
  destruct (state_updates_gb _ _ _ _ _ _ _ _ _ _ Eu) as (U1 & U2 & U3 & U4 & U5 & U6 & U7 & U8 & U9 & U10 & U11 & U12 & U13 & U14).
  destruct (pack2 (r_begin rg)) as [[x y]|e] eqn:Epk.
  2: { injection E as <- <-. destruct (pack2_err _ _ Epk) as [z ->]. destruct C. }
  set (b := r_begin rg) in *. set (segs := segments h n) in *.
  assert (Hcl : closed_outline rg = trail b (close b segs)).
  { replace rg with (MkRegion b (trail b (if created h n then close b segs else segs)) (r_previous rg)).
    - rewrite closed_trail. destruct (created h n); [rewrite close_idem|]; reflexivity.
    - rewrite <- Hout. unfold b. destruct rg; reflexivity. }
  rewrite Hcl in E.
  destruct (region_ops None (trail b (close b segs))) as [ops|e] eqn:Eops.
  2: { injection E as <- <-. destruct (region_ops_err _ _ _ Eops) as [z ->]. destruct C. }
  injection E as <- <-.
  set (ns := ups ++ _). set (o' := ORegion _). set (gd := add_draw b ns (set_object n o' g2)).
  assert (HG : grows g gd).
  { apply (grows_trans g ga); [exact Ga|]. apply grows_same; cbn; assumption. }
  split.
  - eapply invo_touch with (k := n) (o' := o'); [exact I| |exact HG| | | | |exact Logic.I].
    + apply (defs_ok_same ga); assumption.
    + intros l El. injection El as <-. eauto.
    + cbn. congruence.
    + intros m Hm Nm. destruct (object m g); try exact Logic.I; [reflexivity|]. split; [reflexivity|]. cbn.
      destruct (Nat.eqb_spec n m); [congruence|reflexivity].
    + cbn [obj_ok o' r_begin r_outline r_previous is_ok]. rewrite nth_call_cons by exact Ln.
      assert (Ecr : created ((CreateRegion n, true) :: h) n = true) by (cbn; rewrite Nat.eqb_refl; reflexivity). rewrite Ecr.
      split; [eauto|]. split; [reflexivity|discriminate].
  - cbn [is_ok]. eapply (invd_draw _ h g gd _ (WRegion b (close b segs))); [exact D|exact HG| | | | |].
    + cbn. rewrite U12, P2. reflexivity.
    + cbn [wishes negb]. rewrite Hc. reflexivity.
    + reflexivity.
    + cbn. rewrite U6, P6. apply D.
    + intros A M v HA S.
      assert (HAa : d_get (ad_id a) A = Some a).
      { apply HA. apply (nth_error_In _ i). unfold gd, ads. cbn. rewrite U8. exact Ha. }
      assert (Sa : gsync A M ga (real h) false v) by (unfold gsync; rewrite P3, P4, P5; exact S).
      destruct (state_updates_read A M _ _ _ _ _ _ _ _ _ _ _ _ _ Eu Sa HAa) as (v1 & [V1 X1] & S1). cbn [after snd] in *.
      assert (T2 : tr_ok (g_tr g2) Dark 0 false false 1) by (unfold tr_ok, g_tr; cbn; auto).
      destruct (region_read A M _ _ _ _ _ _ _ _ _ _ Eops Epk S1 T2) as (v2 & cs & s0 & s1 & V2 & S2 & X2 & L0 & L1 & O2).
      exists v2, ([CStartRegion; CFlushRegion s0] ++ cs ++ [CFlushRegion s1; CEndRegion]).
      split; [unfold ns; rewrite visits_app, V1; exact V2|].
      split; [exact S2|]. split; [rewrite X2, X1; reflexivity|]. constructor; assumption.
Qed.
Lemma add_segment_step n s h g g1 r : inv h g -> (match r with Ok _ => created h n = false | Err _ => True end) ->
  add_segment n s g = (g1, r) ->
  inv ((AddSegment n s, is_ok r) :: h) (set_objs (g_objs g1 ++ [match r with Ok o => o | Err _ => ONothing end]) g1).
Proof.
  intros HI HC E. unfold add_segment in E.
  assert (HR : forall e, raise g e = (g1, r) -> inv ((AddSegment n s, is_ok r) :: h) (set_objs (g_objs g1 ++ [match r with Ok o => o | Err _ => ONothing end]) g1)).
  { intros e Ee. injection Ee as <- <-. apply (inv_raise _ h g g); [exact HI|apply HI|apply grows_refl|apply same_pen_refl]. }
  destruct (object n g) as [|i|ps f|rg|q|b e|q] eqn:Eo; try (exact (HR _ E)). clear HR. injection E as <- <-. cbn [is_ok].
  destruct HI as [I D]. pose proof (object_lt h g n I ltac:(congruence)) as Ln.
  pose proof (io_obj _ _ I n Ln) as Ho. rewrite Eo in Ho. cbn in Ho. destruct Ho as ((h0 & Hc) & Hout & Hprev).
  rewrite HC in Hout. specialize (Hprev HC). split.
  - eapply invo_touch with (k := n); [exact I|destruct (io_defs _ _ I); constructor; assumption|apply grows_same; reflexivity|exact (io_loc _ _ I)|reflexivity| | |exact Logic.I].
    + intros m Hm Nm. destruct (object m g); try exact Logic.I; [reflexivity|]. split; [|reflexivity]. cbn.
      destruct (Nat.eqb_spec n m); [congruence|apply app_nil_r].
    + cbn [obj_ok r_begin r_outline r_previous]. rewrite nth_call_cons by exact Ln. split; [eauto|].
      cbn [created segments]. rewrite HC, Nat.eqb_refl, Hout, trail_app, path_end_app, Hprev.
      split; [destruct s; reflexivity|intros _; destruct s; reflexivity].
  - eapply invd_keep; [exact D|apply grows_same; reflexivity|reflexivity..|]. cbn. apply app_nil_r.
Qed.

(** *** Custom pads *)
Lemma prim_of_spec u f : match f with FgOutline _ ps _ => ps <> [] | _ => True end -> draws_figure f (prim_of u f).
Proof.
  assert (HC : forall q, is_const (const q) q) by (intros q; exists q; split; reflexivity).
  assert (HB : forall b, is_bool (exposure b) b) by (intros b; eexists; split; reflexivity).
  assert (HP : forall p : loc, is_point (const (fst p)) (const (snd p)) p) by (intros p; split; apply HC).
  destruct f; cbn [draws_figure prim_of]; intros Hne; repeat (split; [first [apply HB|apply HP|apply HC|idtac]|]); try apply HC.
  - rewrite map_length. apply HC.
  - clear - HP. induction points as [|p ps IH]; cbn; [apply Forall2_nil|apply Forall2_cons; [apply HP|exact IH]].
  - destruct points as [|p ps] using rev_ind; [contradiction|]. exists ps, p. split; [reflexivity|]. rewrite last_last. apply HP.
Qed.
Lemma add_figure_step n f h g g1 r : inv h g -> add_figure n f g = (g1, r) ->
  inv ((AddFigure n f, is_ok r) :: h) (set_objs (g_objs g1 ++ [match r with Ok o => o | Err _ => ONothing end]) g1).
Proof.
  intros HI E. unfold add_figure in E.
  assert (HR : forall e, raise g e = (g1, r) -> inv ((AddFigure n f, is_ok r) :: h) (set_objs (g_objs g1 ++ [match r with Ok o => o | Err _ => ONothing end]) g1)).
  { intros e Ee. injection Ee as <- <-. apply (inv_raise _ h g g); [exact HI|apply HI|apply grows_refl|apply same_pen_refl]. }
  destruct (object n g) as [|i|ps fin|rg|q|b e|q] eqn:Eo; try (exact (HR _ E)).
  destruct (match f with FgOutline _ pts _ => (length pts <? 3)%nat | _ => false end) eqn:E3; [exact (HR _ E)|].
  destruct fin; [exact (HR _ E)|]. clear HR. injection E as <- <-. cbn [is_ok].
  destruct HI as [I D]. pose proof (object_lt h g n I ltac:(congruence)) as Ln.
  pose proof (io_obj _ _ I n Ln) as Ho. rewrite Eo in Ho. cbn in Ho. split.
  - eapply invo_touch with (k := n); [exact I|destruct (io_defs _ _ I); constructor; assumption|apply grows_same; reflexivity|exact (io_loc _ _ I)|reflexivity| | |exact Logic.I].
    + intros m Hm Nm. destruct (object m g); try exact Logic.I; [|split; reflexivity]. cbn.
      destruct (Nat.eqb_spec n m); [congruence|apply app_nil_r].
    + cbn [obj_ok figures]. rewrite Nat.eqb_refl. apply Forall2_app; [exact Ho|]. constructor; [|constructor].
      apply prim_of_spec. destruct f; try exact Logic.I. destruct points; [discriminate E3|discriminate].
  - eapply invd_keep; [exact D|apply grows_same; reflexivity|reflexivity..|]. cbn. apply app_nil_r.
Qed.
Lemma create_custom_step n h g g1 r : inv h g -> create_custom n g = (g1, r) ->
  inv ((CreateCustom n, is_ok r) :: h) (set_objs (g_objs g1 ++ [match r with Ok o => o | Err _ => ONothing end]) g1).
Proof.
  intros HI E. unfold create_custom in E.
  assert (HR : forall e, raise g e = (g1, r) -> inv ((CreateCustom n, is_ok r) :: h) (set_objs (g_objs g1 ++ [match r with Ok o => o | Err _ => ONothing end]) g1)).
  { intros e Ee. injection Ee as <- <-. apply (inv_raise _ h g g); [exact HI|apply HI|apply grows_refl|apply same_pen_refl]. }
  destruct (object n g) as [|i|ps fin|rg|q|b e|q] eqn:Eo; try (exact (HR _ E)).
  destruct fin; [exact (HR _ E)|]. clear HR.
  destruct HI as [I D]. pose proof (object_lt h g n I ltac:(congruence)) as Ln.
  pose proof (io_obj _ _ I n Ln) as Ho. rewrite Eo in Ho. cbn in Ho.
  set (name := lit "M" ++ z_repr (g_macro_id g + 1)) in *.
  set (gm := set_macros (g_macro_id g + 1)%Z (g_macros g ++ [(name, ps)]) g) in *.
  assert (Dm : defs_ok gm).
  { destruct (io_defs _ _ I). constructor; try assumption; cbn [gm set_macros g_macro_id g_macros].
    - rewrite app_length, Nat2Z.inj_add. cbn [length]. lia.
    - intros i m H. apply nth_error_snoc in H as [[H _]|[-> ->]]; [auto|]. cbn [fst]. unfold name. do 2 f_equal. lia. }
  assert (Gm : grows g gm) by (split; [exists []; symmetry; apply app_nil_r|eexists; reflexivity]).
  destruct (new_pad (TMacro name None) gm) as [i gp] eqn:N. injection E as <- <-. cbn [is_ok].
  destruct (new_pad_ok _ _ _ _ N Dm) as (Dp & Gp & (P1 & P2 & P3 & P4 & P5 & P6) & Ei & Em & (a & Ea & Ta) & Etp).
  assert (HG : grows g (set_object n (OCustom ps true) gp)) by (apply (grows_trans g gm _ Gm); exact Gp).
  split.
  - eapply invo_touch with (k := n); [exact I|destruct Dp; constructor; assumption|exact HG| | | | |].
    + cbn [set_object set_objs g_loc]. rewrite P3. exact (io_loc _ _ I).
    + cbn [set_object set_objs g_objs]. rewrite P1. reflexivity.
    + intros m Hm Nm. destruct (object m g); try exact Logic.I; try split; reflexivity.
    + exact Ho.
    + cbn [obj_ok]. exists a, (Custom (figures h n)). split; [|split].
      * change (ads (set_object n (OCustom ps true) gp)) with (ads gp). rewrite Ea, Ei, nth_error_app2, Nat.sub_diag by lia. reflexivity.
      * unfold pad_look. rewrite nth_call_here. reflexivity.
      * cbn [looks_in]. exists name, ps. split; [exact Ta|]. split; [|exact Ho]. cbn [set_object set_objs g_macros]. rewrite Em.
        apply in_or_app. right. left. reflexivity.
  - eapply invd_keep; [exact D|exact HG|exact P2|exact P3|exact P4|exact P5|exact P6|]. cbn. apply app_nil_r.
Qed.

(** *** Attributes *)
Lemma map_replace l p q : forall i, p_ad q = p_ad p -> nth_error l i = Some p -> map p_ad (replace l i q) = map p_ad l.
Proof.
  induction l as [|x l IH]; intros [|i] E H; try discriminate; cbn in *; [injection H as ->; rewrite E; reflexivity|].
  f_equal. exact (IH i E H).
Qed.
Lemma set_attr_step c n f h g g1 r : inv h g -> (forall p, p_ad (f p) = p_ad p) ->
  (match c with SetFunction _ _ | SetDrill _ _ _ | SetCustom _ _ _ => True | _ => False end) -> set_attr n f g = (g1, r) ->
  inv ((c, is_ok r) :: h) (set_objs (g_objs g1 ++ [match r with Ok o => o | Err _ => ONothing end]) g1).
Proof.
  intros HI Hf Hc E. unfold set_attr in E.
  assert (HR : forall e, raise g e = (g1, r) -> inv ((c, is_ok r) :: h) (set_objs (g_objs g1 ++ [match r with Ok o => o | Err _ => ONothing end]) g1)).
  { intros e Ee. injection Ee as <- <-. apply (inv_raise _ h g g); [exact HI|apply HI|apply grows_refl|apply same_pen_refl]. }
  destruct (object n g) as [|i|ps fin|rg|q|b e|q] eqn:Eo; try (exact (HR _ E)).
  destruct (nth_error (g_pads g) i) as [p|] eqn:Ep; [|exact (HR _ E)]. clear HR. injection E as <- <-. cbn [is_ok].
  set (gp := set_pads _ _ g).
  assert (EA : ads gp = ads g).
  { unfold ads, gp. cbn [set_pads g_pads]. exact (map_replace _ _ _ _ (Hf p) Ep). }
  assert (HG : grows g gp) by (split; exists []; rewrite app_nil_r; [exact EA|reflexivity]).
  apply (inv_silent c h g gp ONothing HI); [|exact HG|repeat split; reflexivity| |intros m; destruct (object m g); try exact Logic.I; destruct c; try contradiction; try split; reflexivity|exact Logic.I].
  - destruct (io_defs _ _ (proj1 HI)). constructor; rewrite ?EA; assumption.
  - destruct c; try contradiction; cbn; apply app_nil_r.
Qed.

(** *** All calls *)
Lemma new_pad_step c t h g : inv h g -> pad_look ((c, true) :: h) (length h) = Some (Plain t) ->
  wishes ((c, true) :: h) = wishes h -> (forall n, unmoved (c, true) h n (object n g)) ->
  inv ((c, true) :: h) (set_objs (g_objs (snd (new_pad t g)) ++ [OPad (fst (new_pad t g))]) (snd (new_pad t g))).
Proof.
  intros HI Hl Hw Hu. destruct (new_pad t g) as [i g1] eqn:N. cbn [fst snd].
  destruct (new_pad_ok _ _ _ _ N (io_defs _ _ (proj1 HI))) as (Dp & Gp & Pp & Ei & Em & (a & Ea & Ta) & Etp).
  apply (inv_silent c h g g1 (OPad i)); try assumption.
  cbn [obj_ok]. exists a, (Plain t). split; [rewrite Ea, Ei, nth_error_app2, Nat.sub_diag by lia; reflexivity|]. split; [exact Hl|exact Ta].
Qed.

(** Nothing has been added yet to what does not exist yet. *)
Definition future (h : history) : Prop := forall n, (length h <= n)%nat -> figures h n = [] /\ segments h n = [] /\ created h n = false.
Lemma future_step c h g : inv h g -> future h -> future ((c, is_ok (snd (perform c g))) :: h).
Proof.
  intros [I _] F n Hn. cbn [length] in Hn. destruct (F n ltac:(lia)) as (F1 & F2 & F3).
  assert (HL : forall m, object m g <> ONothing -> (m =? n)%nat = false).
  { intros m Hm. apply Nat.eqb_neq. pose proof (object_lt h g m I Hm). lia. }
  destruct (is_ok (snd (perform c g))) eqn:Eok; [|destruct c; cbn; rewrite ?F1, ?F2, ?F3; auto].
  destruct c; cbn [figures segments created]; rewrite ?F1, ?F2, ?F3; auto; cbn [perform] in Eok;
    (rewrite HL; [auto|]); intros Eo; unfold add_figure, add_segment, create_region in Eok; rewrite Eo in Eok; discriminate.
Qed.

Lemma inv_step c h g : inv h g -> future h -> match snd (perform c g) with Ok _ => True | Err e => clean_error e end ->
  regions_left_alone ((c, is_ok (snd (perform c g))) :: h) ->
  inv ((c, is_ok (snd (perform c g))) :: h) (gstep g c).
Proof.
  intros HI HF0 C R. unfold gstep. destruct (perform c g) as [g1 r] eqn:E. cbn [snd] in *.
  assert (HU : forall c', match c' with AddFigure _ _ | AddSegment _ _ | CreateRegion _ => False | _ => True end ->
     forall n, unmoved (c', true) h n (object n g)).
  { intros c' Hc n. destruct (object n g); try exact Logic.I; destruct c'; try contradiction; try split; reflexivity. }
  assert (HP : forall t, returns_pad (new_pad t g) = (g1, r) -> pad_look ((c, true) :: h) (length h) = Some (Plain t) ->
     wishes ((c, true) :: h) = wishes h -> (forall n, unmoved (c, true) h n (object n g)) ->
     inv ((c, is_ok r) :: h) (set_objs (g_objs g1 ++ [match r with Ok o => o | Err _ => ONothing end]) g1)).
  { intros t Et H1 H2 H3. injection Et as <- <-. exact (new_pad_step c t h g HI H1 H2 H3). }
  destruct c; cbn [perform] in E.
  1-4: apply (HP _ E); [unfold pad_look; rewrite nth_call_here; reflexivity|cbn; apply app_nil_r|apply HU; exact Logic.I].
  - injection E as <- <-. apply (inv_silent NewCustom h g g (OCustom [] false) HI); [apply HI|apply grows_refl|apply same_pen_refl|cbn; apply app_nil_r|apply HU; exact Logic.I|].
    cbn [obj_ok figures].
    rewrite (proj1 (HF0 _ (le_n _))). constructor.
  - exact (add_figure_step _ _ _ _ _ _ HI E).
  - exact (create_custom_step _ _ _ _ _ HI E).
  - eapply set_attr_step; [exact HI| |exact Logic.I|exact E]; reflexivity.
  - eapply set_attr_step; [exact HI| |exact Logic.I|exact E]; reflexivity.
  - eapply set_attr_step; [exact HI| |exact Logic.I|exact E]; reflexivity.
  - exact (add_pad_step _ _ _ _ _ _ _ _ _ _ _ HI E C).
  - eapply add_trace_step; [exact HI|reflexivity|exact E|exact C].
  - eapply add_trace_step; [exact HI|reflexivity|exact E|exact C].
  - injection E as <- <-. apply (inv_silent _ h g g _ HI); [apply HI|apply grows_refl|apply same_pen_refl|cbn; apply app_nil_r|apply HU; exact Logic.I|].
    cbn [obj_ok r_begin r_outline r_previous segments created]. split; [eexists; apply nth_call_here|].
    destruct (HF0 _ (le_n _)) as (_ & -> & ->). split; reflexivity.
  - refine (add_segment_step _ _ _ _ _ _ HI _ E). destruct r; [exact (proj1 R)|exact Logic.I].
  - exact (create_region_step _ _ _ _ _ HI E C).
Qed.

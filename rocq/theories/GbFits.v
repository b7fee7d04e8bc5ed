(** Proofs for C40: which coordinates the builder accepts. *)
From Verif Require Import Base Num Dict CoordModel CoordProofs Ast StateModel GbModel GbSpec GbProofs GbInv GbStep GbRead GbAttr.
From Coq Require Import Qabs Lqa.
Local Open Scope Q_scope.
Local Existing Instance NumQ.

Lemma rounds_below x : (round_half_even x < 10000000000)%Z <-> x < 19999999999 # 2.
Proof.
  pose proof (round_half_even_close x) as H. apply Qabs_Qle_condition in H as [H1 H2]. set (r := round_half_even x) in *.
  split; intros L.
  - assert (Hr : inject_Z r <= inject_Z 9999999999) by (rewrite <- Zle_Qle; lia). change (inject_Z 9999999999) with (9999999999 # 1) in Hr.
    destruct (Qlt_le_dec x (19999999999 # 2)) as [Hx|Hx]; [exact Hx|]. exfalso.
    assert (E : x == 19999999999 # 2) by (apply Qle_antisym; [lra|exact Hx]).
    unfold r in L. rewrite (round_half_even_morph _ _ E) in L. vm_compute in L. discriminate.
  - apply Z.nle_gt. intros Hn. assert (Hr : inject_Z 10000000000 <= inject_Z r) by (rewrite <- Zle_Qle; exact Hn).
    change (inject_Z 10000000000) with (10000000000 # 1) in Hr. lra.
Qed.
Lemma fits_iff q : (exists t, pack1 q = Ok t) <-> fits q.
Proof.
  rewrite pack1_ok_iff. unfold fits, scaled. rewrite rounds_below. change (inject_Z (10 ^ Z.of_nat 6)) with (1000000 # 1).
  split; intros H; lra.
Qed.
Lemma fits2_iff p : (exists xy, pack2 p = Ok xy) <-> fits2 p.
Proof.
  unfold fits2, pack2. rewrite <- !fits_iff. split.
  - intros [xy H]. destruct (pack1 (fst p)) as [s|]; [|discriminate]. cbn [bind] in H. destruct (pack1 (snd p)) as [t|]; [|discriminate]. eauto.
  - intros [[s ->] [t ->]]. eexists. reflexivity.
Qed.
(** The error. *)
Lemma pack1_too_long q e : pack1 q = Err e -> e = GCoord TooLong.
Proof.
  unfold pack1. pose proof (pack_unpack SkipLeading 4 6 q ltac:(lia) ltac:(lia)) as H. destruct (scaled q 6 <? _)%Z.
  - destruct H as (s & -> & _). discriminate.
  - rewrite H. congruence.
Qed.
Lemma pack2_too_long p e : pack2 p = Err e -> e = GCoord TooLong.
Proof.
  unfold pack2. destruct (pack1 (fst p)) as [s|x] eqn:E1; cbn [bind]; [destruct (pack1 (snd p)) as [t|x] eqn:E2; cbn [bind]; [discriminate|]|];
  intros E; injection E as <-; eauto using pack1_too_long.
Qed.
Lemma pack2_dec p : (exists xy, pack2 p = Ok xy /\ fits2 p) \/ (pack2 p = Err (GCoord TooLong) /\ ~ fits2 p).
Proof.
  destruct (pack2 p) as [xy|e] eqn:E; [left; exists xy; split; [reflexivity|apply fits2_iff; eauto]|].
  right. rewrite (pack2_too_long _ _ E). split; [reflexivity|]. rewrite <- fits2_iff. intros [xy H]. congruence.
Qed.

(** The present location was packed before. *)
Definition loc_ok (g : gb) : Prop := forall l, g_loc g = Some l -> fits2 l.
Lemma new_pad_loc t g : g_loc (snd (new_pad t g)) = g_loc g. Proof. reflexivity. Qed.
Lemma trace_pad_loc w g i g' : trace_pad w g = (i, g') -> g_loc g' = g_loc g.
Proof. unfold trace_pad. destruct (find_width w (g_trace_pads g)); intros E; injection E as <- <-; reflexivity. Qed.
Lemma loc_step c g : loc_ok g -> loc_ok (gstep g c).
Proof.
  intros L. unfold gstep. destruct (perform c g) as [g1 r] eqn:E.
  assert (HL : g_loc g1 = g_loc g \/ exists l, g_loc g1 = Some l /\ fits2 l).
  2: { intros l. cbn [set_objs g_loc]. destruct HL as [->|(l' & -> & F)]; [apply L|congruence]. }
  assert (HS : forall n f, set_attr n f g = (g1, r) -> g_loc g1 = g_loc g).
  { intros n f. unfold set_attr. destruct (object n g); try (intros H; injection H as <- _; reflexivity).
    destruct (nth_error (g_pads g) i); intros H; injection H as <- _; reflexivity. }
  assert (HT : forall m w b e ct, add_trace m w b e ct g = (g1, r) -> g_loc g1 = g_loc g \/ exists l, g_loc g1 = Some l /\ fits2 l).
  { intros m w b e ct H. unfold add_trace in H. destruct (trace_pad w g) as [i ga] eqn:Et. apply trace_pad_loc in Et.
    destruct (begin_place b ga) as [bl|x]; [|injection H as <- _; auto]. destruct (end_place e ga) as [el|x]; [|injection H as <- _; auto].
    destruct (state_updates _ _ _ _ _ _ _ ga) as [ups g2] eqn:Eu.
    destruct (state_updates_gb _ _ _ _ _ _ _ _ _ _ Eu) as (_ & _ & _ & _ & _ & _ & _ & _ & _ & _ & _ & _ & U13 & _).
    destruct (if match g_loc g2 with Some l => negb (loc_eqb l bl) | None => true end then _ else _) as [d02|x]; cbn [bind] in H; [|injection H as <- _; left; cbn; congruence].
    destruct (pack2 el) as [xy|x] eqn:Ep; cbn [bind] in H; [|injection H as <- _; left; cbn; congruence].
    destruct (opt_pack _) as [ij|x]; cbn [bind] in H; injection H as <- _; [|left; cbn; congruence].
    right. exists el. split; [reflexivity|]. apply fits2_iff. eauto. }
  destruct c; cbn [perform] in E; eauto.
  1-5: (left; injection E as <- _; reflexivity).
  - left. unfold add_figure in E. destruct (object custom g); try (injection E as <- _; reflexivity).
    destruct (match f with FgOutline _ pts _ => _ | _ => _ end); [injection E as <- _; reflexivity|]. destruct finalized; injection E as <- _; reflexivity.
  - left. unfold create_custom in E. destruct (object custom g); try (injection E as <- _; reflexivity). destruct finalized; injection E as <- _; reflexivity.
  - unfold add_pad in E. destruct (object pad g); try (injection E as <- _; auto; fail).
    destruct (state_updates _ _ _ _ _ _ _ g) as [ups g2] eqn:Eu.
    destruct (state_updates_gb _ _ _ _ _ _ _ _ _ _ Eu) as (_ & _ & _ & _ & _ & _ & _ & _ & _ & _ & _ & _ & U13 & _).
    destruct (pad_place _ g2) as [l|x]; [|injection E as <- _; auto]. destruct (pack2 l) as [[x y]|] eqn:Ep; injection E as <- _; [|auto].
    right. exists l. split; [reflexivity|]. apply fits2_iff. eauto.
  - left. injection E as <- _. reflexivity.
  - left. unfold add_segment in E. destruct (object region g); injection E as <- _; reflexivity.
  - unfold create_region in E. destruct (object region g) as [|?|? ?|rg|?|? ?|?]; try (injection E as <- _; auto; fail).
    destruct (length (r_outline rg) <? 3)%nat; [injection E as <- _; auto|].
    destruct (trace_pad 1 g) as [i ga] eqn:Et. apply trace_pad_loc in Et.
    destruct (state_updates _ _ _ _ _ _ _ ga) as [ups g2] eqn:Eu.
    destruct (state_updates_gb _ _ _ _ _ _ _ _ _ _ Eu) as (_ & _ & _ & _ & _ & _ & _ & _ & _ & _ & _ & _ & U13 & _).
    destruct (pack2 (r_begin rg)) as [[x y]|] eqn:Ep; [|injection E as <- _; left; cbn; congruence].
    destruct (region_ops None _); injection E as <- _; [|left; cbn; congruence].
    right. exists (r_begin rg). split; [reflexivity|]. apply fits2_iff. eauto.
Qed.
Lemma loc_build cs : loc_ok (build cs).
Proof.
  unfold build. rewrite <- (rev_involutive cs). induction (rev cs) as [|c r IH]; [discriminate|].
  cbn [rev]. rewrite fold_left_app. apply loc_step. exact IH.
Qed.

(** Which calls raise. *)
Definition too_long : gb_error := GCoord TooLong.
Lemma pad_fits n l cut rot mx my sc g i : object n g = OPad i ->
  (is_ok (snd (perform (AddPad n (At l) cut rot mx my sc) g)) = true <-> fits2 l) /\
  (~ fits2 l -> snd (perform (AddPad n (At l) cut rot mx my sc) g) = Err too_long).
Proof.
  intros E. cbn [perform]. unfold add_pad. rewrite E. destruct (state_updates _ _ _ _ _ _ _ g) as [ups g2]. cbn [pad_place].
  destruct (pack2_dec l) as [([x y] & -> & F)|[-> F]]; cbn; split; try tauto; split; try tauto; discriminate.
Qed.
Lemma fits_morph a b : a == b -> fits a -> fits b.
Proof. unfold fits. intros ->. auto. Qed.
Lemma trace_fits cs m w b e ct : 
  let g := build cs in
  let all := fits2 b /\ fits2 e /\ (match ct with Some c => fits2 (seen_from b c) | None => True end) in
  (is_ok (snd (add_trace m w (At b) (At e) ct g)) = true <-> all) /\ (~ all -> snd (add_trace m w (At b) (At e) ct g) = Err too_long).
Proof.
  intros g all. unfold add_trace. pose proof (loc_build cs) as HL. fold g in HL.
  destruct (trace_pad w g) as [i ga] eqn:Et. apply trace_pad_loc in Et. cbn [begin_place end_place].
  destruct (state_updates _ _ _ _ _ _ _ ga) as [ups g2] eqn:Eu.
  destruct (state_updates_gb _ _ _ _ _ _ _ _ _ _ Eu) as (_ & _ & _ & _ & _ & _ & _ & _ & _ & _ & _ & _ & U13 & _).
  rewrite U13, Et. set (mv := match g_loc g with Some l => negb (loc_eqb l b) | None => true end).
  assert (Hb : (if mv then let* xy := pack2 b in Ok [@ND02 Q (Some (fst xy)) (Some (snd xy))] else Ok []) = Err too_long /\ ~ fits2 b \/
     (exists d, (if mv then let* xy := pack2 b in Ok [@ND02 Q (Some (fst xy)) (Some (snd xy))] else Ok []) = Ok d) /\ fits2 b).
  { destruct mv eqn:Em.
    - destruct (pack2_dec b) as [(xy & -> & F)|[-> F]]; cbn [bind]; [right; split; [eauto|exact F]|left; auto].
    - right. split; [eauto|]. unfold mv in Em. destruct (g_loc g) as [l|] eqn:Eg; [|discriminate]. apply negb_false_iff, loc_eqb_eq in Em as [E1 E2].
      destruct (HL l Eg) as [F1 F2]. split; eapply fits_morph; eauto. }
  destruct Hb as [[-> F]|[[d ->] Fb]]; cbn [bind].
  { cbn. unfold all. split; [split; [discriminate|tauto]|reflexivity]. }
  destruct (pack2_dec e) as [(xy & -> & Fe)|[-> Fe]]; cbn [bind].
  2: { cbn. unfold all. split; [split; [discriminate|tauto]|reflexivity]. }
  destruct ct as [c|]; cbn [opt_pack].
  - change (fst c - fst b, snd c - snd b) with (seen_from b c).
    destruct (pack2_dec (seen_from b c)) as [(ij & -> & Fc)|[-> Fc]]; cbn; unfold all; split; try tauto; split; try tauto; discriminate.
  - cbn. unfold all. split; tauto.
Qed.
Lemma region_ops_fits segs : forall m, ((exists ops, region_ops m segs = Ok ops) /\ Forall segment_fits segs) \/
  (region_ops m segs = Err too_long /\ ~ Forall segment_fits segs).
Proof.
  induction segs as [|s r IH]; intros m; cbn [region_ops]; [left; split; [eauto|constructor]|].
  destruct (pack2_dec (o_end s)) as [(xy & -> & F)|[-> F]]; cbn [bind].
  2: { right. split; [reflexivity|]. intros H. inversion H as [|? ? [H1 _] _]. contradiction. }
  assert (HO : (exists ij, opt_pack (match s with OLine _ => None | OCw b c _ | OCcw b c _ => Some (fst c - fst b, snd c - snd b) end) = Ok ij) /\ segment_fits s \/
     opt_pack (match s with OLine _ => None | OCw b c _ | OCcw b c _ => Some (fst c - fst b, snd c - snd b) end) = Err too_long /\ ~ segment_fits s).
  { destruct s as [e|b c e|b c e]; cbn [opt_pack]; [left; split; [eauto|split; auto]|..];
    change (fst c - fst b, snd c - snd b) with (seen_from b c);
    (destruct (pack2_dec (seen_from b c)) as [(ij & -> & Fc)|[-> Fc]]; cbn [bind]; [left; split; [eauto|split; auto]|right; split; [reflexivity|]]);
    intros [_ H]; contradiction. }
  destruct HO as [[[ij ->] Fs]|[-> Fs]]; cbn [bind].
  2: { right. split; [reflexivity|]. intros H. inversion H. contradiction. }
  destruct (IH (Some (match s with OLine _ => PmLinear | OCw _ _ _ => PmArc | OCcw _ _ _ => PmCcwArc end))) as [[[ops ->] Fr]|[-> Fr]]; cbn [bind].
  - left. split; [eauto|]. constructor; assumption.
  - right. split; [reflexivity|]. intros H. inversion H. contradiction.
Qed.
Lemma closed_fits r : (3 <= length (r_outline r))%nat -> fits2 (r_begin r) -> (Forall segment_fits (closed_outline r) <-> Forall segment_fits (r_outline r)).
Proof.
  intros L F. unfold closed_outline. destruct (rev (r_outline r)) as [|s t] eqn:E.
  - apply (f_equal (@rev _)) in E. rewrite rev_involutive in E. rewrite E in L. cbn in L. lia.
  - destruct (loc_eqb (o_end s) (r_begin r)); [reflexivity|]. rewrite Forall_app. split; [tauto|]. intros H. split; [exact H|].
    constructor; [split; [exact F|exact Logic.I]|constructor].
Qed.
Lemma region_fits n g r : object n g = ORegion r -> (3 <= length (r_outline r))%nat ->
  let all := fits2 (r_begin r) /\ Forall segment_fits (r_outline r) in
  (is_ok (snd (perform (CreateRegion n) g)) = true <-> all) /\ (~ all -> snd (perform (CreateRegion n) g) = Err too_long).
Proof.
  intros E L all. cbn [perform]. unfold create_region. rewrite E. destruct (Nat.ltb_spec (length (r_outline r)) 3); [lia|].
  destruct (trace_pad 1 g) as [i ga]. destruct (state_updates _ _ _ _ _ _ _ ga) as [ups g2].
  destruct (pack2_dec (r_begin r)) as [([x y] & -> & F)|[-> F]].
  2: { cbn. unfold all. split; [split; [discriminate|tauto]|reflexivity]. }
  pose proof (closed_fits r L F) as HC.
  destruct (region_ops_fits (closed_outline r) None) as [[[ops ->] Fr]|[-> Fr]]; cbn; unfold all; split; try tauto; split; try tauto; discriminate.
Qed.

(** What is written. *)
Lemma pack1_reads q t : pack1 q = Ok t -> reads (Some t) q.
Proof. intros E. exists t. split; [reflexivity|]. intros st b H. exact (read46 st b q t H E). Qed.
Lemma pack2_reads p x y : pack2 p = Ok (x, y) -> reads2 (Some x) (Some y) p.
Proof. intros E. apply pack2_inv in E as [E1 E2]. split; apply pack1_reads; assumption. Qed.
Lemma opt_pack_writes b c i j : opt_pack (match c with Some c => Some (fst c - fst b, snd c - snd b) | None => None end) = Ok (i, j) -> writes_center i j b c.
Proof.
  destruct c as [c|]; cbn [opt_pack writes_center]; [|intros E; injection E as <- <-; auto].
  change (fst c - fst b, snd c - snd b) with (seen_from b c). destruct (pack2 (seen_from b c)) as [[x y]|] eqn:E; cbn [bind]; [|discriminate].
  intros H. injection H as <- <-. exact (pack2_reads _ _ _ E).
Qed.
Lemma pad_writes n l cut rot mx my sc g : is_ok (snd (perform (AddPad n (At l) cut rot mx my sc) g)) = true ->
  exists pre x y, g_draws (gstep g (AddPad n (At l) cut rot mx my sc)) = g_draws g ++ [pre ++ [ND03 x y]] /\ reads2 x y l.
Proof.
  unfold gstep. cbn [perform]. unfold add_pad. destruct (object n g) eqn:Eo; try discriminate.
  destruct (state_updates _ _ _ _ _ _ _ g) as [ups g2] eqn:Eu. cbn [pad_place].
  destruct (state_updates_gb _ _ _ _ _ _ _ _ _ _ Eu) as (_ & _ & _ & _ & _ & _ & _ & _ & _ & _ & _ & U12 & _ & _).
  destruct (pack2 l) as [[x y]|e] eqn:Ep; [|discriminate]. intros _. exists ups, (Some x), (Some y).
  split; [cbn; rewrite U12; reflexivity|exact (pack2_reads _ _ _ Ep)].
Qed.
Lemma trace_writes m w b e ct g : is_ok (snd (add_trace m w (At b) (At e) ct g)) = true ->
  exists pre x y i j, g_draws (fst (add_trace m w (At b) (At e) ct g)) = g_draws g ++ [pre ++ [ND01 x y i j]] /\ reads2 x y e /\ writes_center i j b ct.
Proof.
  unfold add_trace. destruct (trace_pad w g) as [k ga] eqn:Et.
  assert (Ed : g_draws ga = g_draws g) by (unfold trace_pad in Et; destruct (find_width w (g_trace_pads g)); injection Et as <- <-; reflexivity).
  cbn [begin_place end_place]. destruct (state_updates _ _ _ _ _ _ _ ga) as [ups g2] eqn:Eu.
  destruct (state_updates_gb _ _ _ _ _ _ _ _ _ _ Eu) as (_ & _ & _ & _ & _ & _ & _ & _ & _ & _ & _ & U12 & _ & _).
  destruct (if match g_loc g2 with Some l => negb (loc_eqb l b) | None => true end then _ else _) as [d02|x]; cbn [bind]; [|discriminate].
  destruct (pack2 e) as [[x y]|z] eqn:Ep; cbn [bind]; [|discriminate].
  destruct (opt_pack _) as [[i j]|z] eqn:Ei; cbn [bind]; [|discriminate]. intros _.
  exists (ups ++ d02), (Some x), (Some y), i, j. split; [cbn; rewrite U12, Ed, <- app_assoc; reflexivity|].
  split; [exact (pack2_reads _ _ _ Ep)|exact (opt_pack_writes _ _ _ _ Ei)].
Qed.
Lemma region_ops_writes segs : forall m ops, region_ops m segs = Ok ops ->
  Forall2 (fun s '(x, y, i, j) => reads2 x y (o_end s) /\ writes_center i j (fst (o_begin_center s)) (snd (o_begin_center s))) segs (d01s ops).
Proof.
  induction segs as [|s r IH]; intros m ops; cbn [region_ops]; [intros H; injection H as <-; constructor|].
  destruct (pack2 (o_end s)) as [[x y]|] eqn:E1; cbn [bind]; [|discriminate].
  destruct (opt_pack _) as [[i j]|] eqn:E2; cbn [bind]; [|discriminate].
  destruct (region_ops (Some _) r) as [t|] eqn:E; cbn [bind]; [|discriminate].
  intros H. injection H as <-. unfold d01s. rewrite flat_map_app.
  match goal with |- context [flat_map ?f (if ?b then [] else ?l)] => replace (flat_map f (if b then [] else l)) with (@nil (option str * option str * option str * option str)) by (destruct b; reflexivity) end.
  cbn [app flat_map]. constructor; [|exact (IH _ _ E)].
  split; [exact (pack2_reads _ _ _ E1)|]. apply opt_pack_writes. destruct s; exact E2.
Qed.
Lemma region_writes n g r : object n g = ORegion r -> is_ok (snd (perform (CreateRegion n) g)) = true ->
  exists pre x y ops, g_draws (gstep g (CreateRegion n)) = g_draws g ++ [pre ++ [NG G36; ND02 x y] ++ ops ++ [NG G37; ND02 x y]] /\
    reads2 x y (r_begin r) /\
    Forall2 (fun s '(x, y, i, j) => reads2 x y (o_end s) /\ writes_center i j (fst (o_begin_center s)) (snd (o_begin_center s))) (closed_outline r) (d01s ops).
Proof.
  intros Eo. unfold gstep. cbn [perform]. unfold create_region. rewrite Eo. destruct (length (r_outline r) <? 3)%nat; [discriminate|].
  destruct (trace_pad 1 g) as [k ga] eqn:Et.
  assert (Ed : g_draws ga = g_draws g) by (unfold trace_pad in Et; destruct (find_width 1 (g_trace_pads g)); injection Et as <- <-; reflexivity).
  destruct (state_updates _ _ _ _ _ _ _ ga) as [ups g2] eqn:Eu.
  destruct (state_updates_gb _ _ _ _ _ _ _ _ _ _ Eu) as (_ & _ & _ & _ & _ & _ & _ & _ & _ & _ & _ & U12 & _ & _).
  destruct (pack2 (r_begin r)) as [[x y]|] eqn:Ep; [|discriminate]. destruct (region_ops None _) as [ops|] eqn:Er; [|discriminate]. intros _.
  exists ups, (Some x), (Some y), ops. split; [cbn; rewrite U12, Ed; reflexivity|]. split; [exact (pack2_reads _ _ _ Ep)|].
  exact (region_ops_writes _ _ _ Er).
Qed.

(** C59: what the primitives of an aperture macro paint.  Real arithmetic. *)
From Coq Require Import Reals Lra Lia Psatz Permutation.
From Verif Require Import Base Num NumReal Dict Ast StateModel ExprSpec ExprModel ExprProofs GeomModel CompilerModel
  LayerProofs GeoSpec GeoProofs ShapeProofs SimilarProofs PolyProofs OutlineProofs OutlineMore FigSpec FigProofs PolyMore.
Open Scope R_scope.

Definition scope_of (m : mstate (K := R)) : str -> option R := fun v => d_get v (ms_scope m).

(** Comments, circles, vector lines, outlines and both rectangles. *)
Theorem C59_primitives :
  forall (clock : nat -> Z) (md : meta) (p : prim R) (m : mstate (K := R)) (fs : list (bool * figure)),
    documented (scope_of m) p fs -> exists m', on_prim clock md p m = Ok m' /\ draws m m' fs.
Proof. intros clock md p m fs. apply prim_drawn. Qed.

(** Moires. *)
Definition moire_statement (P : R -> R -> nat -> R -> Prop) : Prop :=
  forall (clock : nat -> Z) (md : meta) (p : prim R) (m : mstate (K := R)) (c : vec R)
         (outer ring gap : R) (n : nat) (thick len r : R) (fs : list figure),
    moire (scope_of m) p c outer ring gap n thick len r ->
    0 < thick -> 0 < len -> 0 < ring -> 0 < outer -> (0 < n)%nat -> moire_rings c ring gap n outer fs ->
    P ring gap n outer ->
    exists m', on_prim clock md p m = Ok m' /\
      draws m m' (map (shown_as r false) (cross_hair c thick len ++ fs)).
(** Missing: rings whose diameter is used up, and rings whose diameter lies between one and two
    thicknesses. *)
Theorem C59_moire_partial : moire_statement roomy.
Proof.
  intros clock md p m c outer ring gap n thick len r fs H H1 H2 H3 H4 H5 H6 H7.
  exact (moire_drawn clock md p m c outer ring gap n thick len r fs H H1 H2 H3 H4 H5 H6 H7).
Qed.

Lemma same_length {A B} (P : A -> B -> Prop) l l' : Forall2 P l l' -> length l = length l'.
Proof. induction 1; cbn; congruence. Qed.
Definition idle : mstate (K := R) := MkM [] (empty_buffer (lit "D10")) compiler_init.
Definition stopped : nat -> Z := fun _ => 0%Z.
Definition ring_pair (outer gap n : R) : prim R :=
  PCode6 (EConst 0) (EConst 0) (EConst outer) (EConst 1) (EConst gap) (EConst n) (EConst 1) (EConst 6) (EConst 0).
Lemma ring_pair_moire outer gap n : moire (scope_of idle) (ring_pair outer gap (INR n)) origin outer 1 gap n 1 6 0.
Proof. unfold moire, ring_pair, val. repeat eexists; cbn [meaning]; constructor. Qed.

(** A ring with a diameter of 1.5 thicknesses has no room for a hole: the assertion in
    [new_ring] fails. *)
Theorem C59_moire_hole_refuted : ~ moire_statement (fun ring _ _ outer => ring < outer).
Proof.
  intros H. destruct (H stopped None _ _ _ _ _ _ _ _ _ _ [circle_line origin (3 / 2)] (ring_pair_moire (3 / 2) 1 1)) as (m' & E & _);
    try lra; try lia; [constructor; lra|].
  revert E. unfold ring_pair. cbn [on_prim eval bind]. cbn [n_ltb NumR]. rewrite !r_n0.
  replace (r_ltb 0 1) with true by (symmetry; apply r_ltb_lt; lra).
  replace (r_ltb 0 (3 / 2)) with true by (symmetry; apply r_ltb_lt; lra).
  replace (r_ltb 0 (INR 1)) with true by (symmetry; apply r_ltb_lt; cbn; lra).
  cbn [andb]. cbn [n_trunc NumR]. rewrite r_trunc_INR.
  cbn [rings n_leb NumR]. replace (r_leb (3 / 2) 1) with false by (symmetry; apply r_leb_gt; lra).
  unfold new_ring. cbv zeta. cbn [n_sub n_mul n_ltb n_div NumR]. rewrite !r_n0, !r_n2.
  match goal with |- context [negb (r_ltb 0 ?t)] => replace (r_ltb 0 t) with true by (symmetry; apply r_ltb_lt; lra) end.
  cbn [negb].
  match goal with |- context [negb (r_ltb 0 ?t)] => replace (r_ltb 0 t) with false by (symmetry; apply r_ltb_ge; lra) end.
  discriminate.
Qed.
(** Rings of thickness 1 and gap 2 from diameter 4: the second diameter is -2, and a disc of
    diameter 2 is painted in the middle. *)
Theorem C59_moire_used_up_refuted : ~ moire_statement (fun ring _ _ outer => 2 * ring < outer).
Proof.
  intros H. destruct (H stopped None _ _ _ _ _ _ _ _ _ _ (half_rings origin 4 (4 - 2 * 1) ++ []) (ring_pair_moire 4 2 2)) as (m' & E & D);
    try lra; try lia; [apply mr_ring; [lra|apply mr_stop; lra]|].
  destruct D as (_ & _ & _ & ds & gs & EC & P & F).
  apply Permutation_length in P. apply same_length in F. apply (f_equal (@length _)) in EC.
  rewrite app_length in EC. rewrite map_length in P. cbn in P.
  revert E. unfold ring_pair. cbn [on_prim eval bind]. cbn [n_ltb NumR]. rewrite !r_n0.
  replace (r_ltb 0 1) with true by (symmetry; apply r_ltb_lt; lra).
  replace (r_ltb 0 6) with true by (symmetry; apply r_ltb_lt; lra).
  replace (r_ltb 0 4) with true by (symmetry; apply r_ltb_lt; lra).
  replace (r_ltb 0 (INR 2)) with true by (symmetry; apply r_ltb_lt; cbn; lra).
  cbn [andb]. cbn [n_trunc NumR]. rewrite r_trunc_INR.
  cbn [rings n_leb NumR]. replace (r_leb 4 1) with false by (symmetry; apply r_leb_gt; lra).
  unfold new_ring. cbv zeta. cbn [n_sub n_mul n_add n_ltb n_div NumR]. rewrite !r_n0, !r_n2.
  match goal with |- context [negb (r_ltb 0 ?t)] => replace (r_ltb 0 t) with true by (symmetry; apply r_ltb_lt; lra) end.
  cbn [negb].
  match goal with |- context [negb (r_ltb 0 ?t)] => replace (r_ltb 0 t) with true by (symmetry; apply r_ltb_lt; lra) end.
  cbn [negb bind].
  match goal with |- context [r_leb ?t 1] => replace (r_leb t 1) with true by (symmetry; apply r_leb_le; lra) end.
  cbn [bind app map]. intros E. apply Ok_inj in E. subst m'. cbn in EC. lia.
Qed.

(** Thermals: the ring is painted and the gaps are cut in a layer of their own, which is
    pasted at the turned centre. *)
Theorem C59_thermal :
  forall (clock : nat -> Z) (md : meta) (p : prim R) (m : mstate (K := R)) (c : vec R) (outer inner gap r : R),
    thermal (scope_of m) p c outer inner gap r -> 0 < gap -> gap * sqrt 2 < inner -> inner < outer ->
    exists m' id buf gs len, on_prim clock md p m = Ok m' /\ outer <= len /\
      bf_cmds (ms_buf m') = bf_cmds (ms_buf m) ++ [DPaste (MkPaste id (turn r c) false None)] /\
      d_get id (c_buffers (ms_c m')) = Some buf /\
      Permutation (map (shown_as r false) (half_rings origin outer inner)) gs /\
      Forall2 drawn (bf_cmds buf)
        (gs ++ map (shown_as r true)
                 [band_line (MkVec (- (len / 2)) 0) (MkVec (len / 2) 0) gap;
                  band_line (MkVec 0 (- (len / 2))) (MkVec 0 (len / 2)) gap]).
Proof. intros clock md p m c outer inner gap r. apply thermal_drawn. Qed.

(** Polygons. *)
Lemma polygon_actual clock md p (m : mstate (K := R)) c off n d r :
  polygon (scope_of m) p c off n d r -> (3 <= n)%nat -> r_mod360 r < 2 * (360 / INR n) ->
  exists m', on_prim clock md p m = Ok m' /\ draws m m' [(off, turned r (ngon c d n r))].
Proof.
  intros (e & k & x & y & w & rot & e' & -> & V1 & EX & V2 & V3 & V4 & V5 & V6) Hn Hr.
  cbn [on_prim]; unfold scope_of in *; evs. rewrite (exposed_neg _ _ EX). cbn [n_trunc NumR].
  assert (r_trunc (INR n) = Z.of_nat n) as ->.
  { pose proof (pos_INR n). unfold r_trunc. destruct (Rle_dec 0 (INR n)) as [_|L]; [|lra].
    apply Int_part_unique. rewrite <- INR_IZR_INZ. lra. }
  destruct (polygon_outline (MkVec (vx c) (vy c)) d (Z.of_nat n) r off md) as (s & E & Hs & St & O).
  - lia.
  - rewrite <- INR_IZR_INZ. exact Hr.
  - rewrite E. cbn [bind]. eexists. split; [reflexivity|]. apply draws_one. eexists. split; [reflexivity|].
    split; [exact Hs|]. intros q. rewrite rot_straight by exact St. rewrite O, Nat2Z.id.
    cbn [snd]. unfold turned. destruct c; reflexivity.
Qed.
Definition polygon_statement (P : R -> Prop) : Prop :=
  forall (clock : nat -> Z) (md : meta) (p : prim R) (m : mstate (K := R)) (c : vec R) (off : bool)
         (n : nat) (d r : R),
    polygon (scope_of m) p c off n d r -> (3 <= n)%nat -> P r ->
    exists m', on_prim clock md p m = Ok m' /\ draws m m' [(off, turned r (ngon c d n 0))].
(** Missing: every rotation that is not a whole number of turns; the code applies it twice. *)
Theorem C59_polygon_partial : polygon_statement (fun r => exists z, r = IZR z * 360).
Proof.
  intros clock md p m c off n d r H Hn (z & Hz).
  assert (0 < INR n) as Hn' by (apply lt_0_INR; lia).
  destruct (polygon_actual clock md p m c off n d r H Hn) as (m' & E & D).
  - assert (r_mod360 r = 0) as ->.
    { unfold r_mod360. rewrite Hz. replace (IZR z * 360 / 360) with (IZR z) by field.
      rewrite (Int_part_unique (IZR z) z) by lra. ring. }
    assert (0 < 360 / INR n) by (apply Rdiv_lt_0_compat; lra). lra.
  - exists m'. split; [exact E|]. destruct D as (D1 & D2 & D3 & ds & gs & D4 & D5 & D6).
    split; [exact D1|]. split; [exact D2|]. split; [exact D3|]. exists ds, [(off, turned r (ngon c d n 0))].
    apply Permutation_length_1_inv in D5. subst gs. split; [exact D4|]. split; [apply Permutation_refl|].
    inversion D6 as [|? ? ? ? (s & -> & Hs & O) F]; subst. inversion F; subst. constructor; [|constructor].
    eexists. split; [reflexivity|]. split; [exact Hs|]. intros q. rewrite O. cbn [snd]. unfold turned, ngon.
    match goal with |- path_line ?a _ <-> path_line ?b _ => replace a with b; [reflexivity|] end.
    apply map_ext. intros k. unfold corner.
    rewrite <- (turn_whole z (0 + INR k * (360 / INR n))). f_equal. f_equal. ring.
Qed.
(** A square turned by 45 degrees is painted turned by 90 degrees. *)
Theorem C59_polygon_refuted : ~ polygon_statement (fun r => r = 45).
Proof.
  intros H.
  set (p := PCode5 (EConst 1) (EConst (INR 4)) (EConst 0) (EConst 0) (EConst 2) (EConst 45)).
  assert (polygon (scope_of idle) p origin false 4 2 45) as Hp.
  { unfold polygon, p, val. repeat eexists; cbn [meaning]; try constructor. lra. }
  destruct (H stopped None p idle origin false 4%nat 2 45 Hp) as (m' & E & D); [lia|reflexivity|].
  destruct (polygon_actual stopped None p idle origin false 4%nat 2 45 Hp) as (m2 & E2 & D2); [lia| |].
  { assert (r_mod360 45 = 45) as ->.
    { unfold r_mod360. rewrite (Int_part_unique (45 / 360) 0) by lra. lra. }
    replace (INR 4) with 4 by (cbn; ring). lra. }
  assert (m2 = m') as -> by congruence.
  destruct D as (_ & _ & _ & ds & gs & C1 & P1 & F1). destruct D2 as (_ & _ & _ & ds' & gs' & C2 & P2 & F2).
  assert (ds' = ds) as -> by (apply (app_inv_head (bf_cmds (ms_buf idle))); congruence).
  apply Permutation_length_1_inv in P1, P2. subst gs gs'.
  inversion F1 as [|? ? ? ? (s & -> & _ & O1) _]; subst. inversion F2 as [|? ? ? ? (s' & Es & _ & O2) _]; subst.
  injection Es as <-. cbn [snd] in O1, O2.
  assert (outline s (MkVec 1 0)) as O.
  { apply O2. unfold turned, ngon. exists 3%nat. do 2 eexists. split; [reflexivity|]. split; [reflexivity|].
    replace (INR 4) with 4 by (cbn; ring).
    assert (turn (- (45)) (MkVec 1 0) = corner origin 2 (45 + 3 * (360 / 4))) as ->.
    { unfold corner. replace (45 + 3 * (360 / 4)) with (- (45) + 360) by lra. rewrite turn_360.
      replace (MkVec (2 / 2) 0) with (MkVec 1 0) by (apply vec_eq; cbn; lra). unfold origin. vring. }
    replace (INR 3) with 3 by (cbn; ring). exists 0. split; [lra|]. vring. }
  apply O1 in O. unfold turned, ngon in O.
  assert (forall k, corner origin 2 (0 + INR k * (360 / INR 4)) = MkVec (cos (deg (INR k * 90))) (sin (deg (INR k * 90)))) as EC.
  { intros k. unfold corner, origin. replace (INR 4) with 4 by (cbn; ring).
    replace (0 + INR k * (360 / 4)) with (INR k * 90) by field. apply vec_eq; cbn; field. }
  assert (forall k, (k < 5)%nat -> vx (corner origin 2 (0 + INR k * (360 / INR 4))) - vy (corner origin 2 (0 + INR k * (360 / INR 4))) <= 1) as B.
  { intros k Hk. rewrite EC. cbn [vx vy].
    assert (deg (INR k * 90) = INR k * (PI / 2)) as -> by (unfold deg; field).
    destruct k as [|[|[|[|[|]]]]]; try lia; cbn [INR].
    - rewrite Rmult_0_l, cos_0, sin_0. lra.
    - rewrite Rmult_1_l, cos_PI2, sin_PI2. lra.
    - replace ((1 + 1) * (PI / 2)) with PI by field. rewrite cos_PI, sin_PI. lra.
    - replace ((1 + 1 + 1) * (PI / 2)) with (3 * (PI / 2)) by field. rewrite cos_3PI2, sin_3PI2. lra.
    - replace ((1 + 1 + 1 + 1) * (PI / 2)) with (2 * PI) by field. rewrite cos_2PI, sin_2PI. lra. }
  destruct O as (i & a & b & Ia & Ib & t & Ht & Et).
  assert (forall j v, nth_error (map (fun k => corner origin 2 (0 + INR k * (360 / INR 4))) (seq 0 5)) j = Some v -> vx v - vy v <= 1) as N.
  { intros j v Hj. apply nth_error_In, in_map_iff in Hj. destruct Hj as (k & <- & Hk). apply in_seq in Hk. apply B. lia. }
  apply N in Ia, Ib. assert (vx (turn (- (45)) (MkVec 1 0)) - vy (turn (- (45)) (MkVec 1 0)) = 2 * (1 / sqrt 2)) as V.
  { cbn [turn vx vy]. rewrite deg_opp, cos_neg, sin_neg. replace (deg 45) with (PI / 4) by (unfold deg; field).
    rewrite cos_PI4, sin_PI4. ring. }
  rewrite Et in V. cbn [vx vy plus times minus] in V.
  assert (1 < 2 * (1 / sqrt 2)) as S.
  { pose proof Rlt_sqrt2_0 as S0. assert (sqrt 2 < 2) by (rewrite <- (sqrt_square 2) at 2 by lra; apply sqrt_lt_1; lra).
    apply (Rmult_lt_reg_r (sqrt 2)); [exact S0|]. field_simplify; lra. }
  nra.
Qed.

(** A rectangle of 2 x 1 with its lower left corner at (1, 1), turned by 30 degrees. *)
Example C59_case :
  exists m', on_prim stopped None
      (PCode22 (EConst 1) (EConst 2) (EConst 1) (EConst 1) (EConst 1) (EConst 30)) idle = Ok m' /\
    draws idle m' [(false, turned 30 (rectangle_line (MkVec (1 + 2 / 2) (1 + 1 / 2)) 2 1))].
Proof.
  apply C59_primitives. eapply doc_rect_ll; try (unfold val; cbn [meaning]; constructor); try lra.
Qed.
(** Two rings: diameters 8 and 4, thickness 1, gap 1. *)
Example C59_moire_case :
  exists m', on_prim stopped None (ring_pair 8 1 (INR 2)) idle = Ok m' /\
    draws idle m' (map (shown_as 0 false) (cross_hair origin 1 6 ++
      half_rings origin 8 (8 - 2 * 1) ++ half_rings origin (8 - 2 * (1 + 1)) (8 - 2 * (1 + 1) - 2 * 1) ++ [])).
Proof.
  eapply C59_moire_partial; [apply ring_pair_moire| | | | | | |]; try lra; try lia.
  - apply mr_ring; [lra|]. apply mr_ring; [lra|]. apply mr_done.
  - cbn [roomy]. right. split; [lra|]. right. split; [lra|exact I].
Qed.
Print Assumptions C59_primitives. Print Assumptions C59_moire_partial. Print Assumptions C59_thermal. Print Assumptions C59_polygon_partial.
Print Assumptions C59_moire_hole_refuted. Print Assumptions C59_moire_used_up_refuted. Print Assumptions C59_polygon_refuted.

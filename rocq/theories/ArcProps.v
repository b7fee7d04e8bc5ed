(** C34, C57: the points the backends draw.  Real arithmetic. *)
From Coq Require Import Reals Lra Lia Psatz.
From Verif Require Import Base Num NumReal Dict Ast StateModel GeomModel BoxModel GeoSpec GeoProofs ShapeProofs SimilarProofs
  OutlineProofs OutlineMore ArcModel ArcProofs RangeProofs.
Open Scope R_scope.

(** *** C34 *)
Definition with_ends (be : backend) (a b : vec R) (ps : list (vec R)) : list (vec R) :=
  match be with Pillow _ => a :: ps ++ [b] | Shapely => ps end.
Lemma parallel_angle a b c : minus a c <> origin -> minus b c <> origin ->
  arc_start_angle a c = arc_start_angle b c -> turns 0 (minus a c) (minus b c).
Proof.
  intros Ha Hb E. pose proof (norm_pos _ Ha). pose proof (norm_pos _ Hb).
  exists (norm (minus b c) / norm (minus a c)). split; [apply Rdiv_lt_0_compat; assumption|].
  rewrite turn_0.
  transitivity (times (norm (minus b c)) (turn (arc_start_angle b c) (MkVec 1 0))); [apply start_angle_spec; exact Hb|].
  transitivity (times (norm (minus b c) / norm (minus a c)) (times (norm (minus a c)) (turn (arc_start_angle a c) (MkVec 1 0))));
    [|rewrite <- start_angle_spec by exact Ha; reflexivity].
  rewrite E. apply vec_eq; cbn [times vx vy]; field; lra.
Qed.
Lemma climbs_le lim lim' ts T : lim <= lim' -> forall x, climbs lim x ts T -> climbs lim' x ts T.
Proof.
  intros L. induction ts as [|t ts IH]; intros x; cbn; [auto|]. intros [H C]. split; [lra|apply IH; exact C].
Qed.
Lemma samples_le a b c cw lim lim' ps : lim <= lim' -> samples a b c cw lim ps -> samples a b c cw lim' ps.
Proof. intros L (T & ts & S & C & E). exists T, ts. split; [exact S|]. split; [exact (climbs_le _ _ _ _ L _ C)|exact E]. Qed.

(** Missing for all arcs: those whose two ends lie in the same direction (full turns and zero
    radii, see below). *)
Theorem C34_samples_partial :
  forall (be : backend) (a b c : vec R) (cw : bool), a <> c -> b <> c -> ~ turns 0 (minus a c) (minus b c) ->
    exists n ps, samples a b c cw (match be with Pillow _ => 30 | Shapely => 15 end) ps /\
      forall fuel, (n <= fuel)%nat -> arc_points be fuel a b c cw = Ok (with_ends be a b ps).
Proof.
  intros be a b c cw Ha Hb Hd.
  assert (minus a c <> origin) as Na by (intros E; apply minus_0 in E; contradiction).
  assert (minus b c <> origin) as Nb by (intros E; apply minus_0 in E; contradiction).
  destruct (arc_samples be a b c cw Na Nb) as (n & ps & S & F).
  { intros E. apply Hd. apply parallel_angle; assumption. }
  exists n, ps. split; [|exact F]. apply (samples_le _ _ _ _ (arc_step be a b c)); [|exact S].
  apply arc_step_bound.
Qed.

Lemma r_trunc_bounds x : 0 <= x -> IZR (r_trunc x) <= x < IZR (r_trunc x) + 1.
Proof.
  intros H. unfold r_trunc. destruct (Rle_dec 0 x); [|contradiction]. destruct (base_Int_part x). lra.
Qed.
Lemma segment_count_requested be len : 0 <= len -> (match be with Pillow d => (0 <= d)%Z | Shapely => True end) ->
  requested (match be with Pillow d => Some d | Shapely => None end) len (segment_count be len).
Proof.
  intros Hl Hd. destruct be as [d|]; cbn [requested segment_count].
  - exists (to_pixel d len). split.
    + unfold to_pixel. cbn [n_trunc n_mul NumR]. rewrite r_of_Z. apply r_trunc_bounds.
      apply (IZR_le 0) in Hd. nra.
    + cbv zeta. destruct (12 <? to_pixel d len * 2)%Z eqn:E; [apply Z.ltb_lt in E|apply Z.ltb_ge in E]; lia.
  - cbn [n_trunc n_abs n_mul n_add n_of_Q NumR]. rewrite Rabs_right by lra.
    replace (Q2R 24) with 24 by (unfold Q2R; cbn; lra). replace (Q2R (2 # 5)) with (2 / 5) by (unfold Q2R; cbn; lra).
    replace (2 / 5 * len) with (len * (2 / 5)) by ring. apply r_trunc_bounds. lra.
Qed.
Lemma start_turns a c : minus a c <> origin -> turns (- arc_start_angle a c) (minus a c) (MkVec 1 0).
Proof.
  intros H. pose proof (start_angle_spec a c H) as E. pose proof (norm_pos _ H).
  exists (/ norm (minus a c)). split; [apply Rinv_0_lt_compat; assumption|].
  set (s := arc_start_angle a c) in *.
  transitivity (times (/ norm (minus a c)) (turn (- s) (times (norm (minus a c)) (turn s (MkVec 1 0))))); [|rewrite <- E; reflexivity].
  rewrite turn_times, turn_inv. apply vec_eq; cbn; field; lra.
Qed.
Lemma uncrossed a b c cw T : minus a c <> origin -> minus b c <> origin ->
  arc_start_angle a c <> arc_start_angle b c ->
  sweep cw (minus a c) (minus b c) T -> ~ crosses cw (minus a c) T ->
  Rabs (arc_start_angle a c - arc_start_angle b c) = T.
Proof.
  intros Ha Hb Ne S NC. pose proof (sweep_of a b c cw Ha Hb Ne) as SW.
  pose proof (sweep_unique cw _ _ _ _ Ha S SW) as ET.
  pose proof (start_angle_range a c). pose proof (start_angle_range b c).
  pose proof (start_turns a c Ha) as ST.
  set (s := arc_start_angle a c) in *. set (e := arc_start_angle b c) in *.
  unfold arc_stop in ET. destruct (r_leb s e) eqn:L; rdec; destruct cw; cbn [negb dir] in ET.
  - exfalso. apply NC. exists s. split; [lra|exact ST].
  - rewrite Rabs_left1; lra.
  - rewrite Rabs_right; lra.
  - exfalso. apply NC. exists (360 - s). split; [lra|]. cbn [signed].
    replace (360 - s) with (- s + 360) by ring. apply turns_full. exact ST.
Qed.
(** The spacing is the requested one when the sweep does not pass the direction of the
    positive x axis. *)
Theorem C34_resolution_partial :
  forall (be : backend) (a b c : vec R) (cw : bool) (T : R), a <> c -> b <> c -> ~ turns 0 (minus a c) (minus b c) ->
    sweep cw (minus a c) (minus b c) T -> ~ crosses cw (minus a c) T ->
    (match be with Pillow d => (0 <= d)%Z | Shapely => True end) ->
    exists n ps k, samples a b c cw (T / IZR k) ps /\
      requested (match be with Pillow d => Some d | Shapely => None end) (arc_length T (dist a c)) k /\
      forall fuel, (n <= fuel)%nat -> arc_points be fuel a b c cw = Ok (with_ends be a b ps).
Proof.
  intros be a b c cw T Ha Hb Hd S NC HD.
  assert (minus a c <> origin) as Na by (intros E; apply minus_0 in E; contradiction).
  assert (minus b c <> origin) as Nb by (intros E; apply minus_0 in E; contradiction).
  assert (arc_start_angle a c <> arc_start_angle b c) as Ne.
  { intros E. apply Hd. apply parallel_angle; assumption. }
  destruct (arc_samples be a b c cw Na Nb Ne) as (n & ps & SA & F).
  pose proof (uncrossed a b c cw T Na Nb Ne S NC) as ET.
  exists n, ps, (segment_count be (arc_length T (dist a c))).
  split; [|split; [|exact F]].
  - unfold arc_step in SA. cbv zeta in SA. rewrite ET in SA. exact SA.
  - apply segment_count_requested; [|exact HD]. unfold arc_length.
    assert (0 <= dist a c) by apply norm_ge0. destruct S as [[S0 S1] _].
    assert (0 <= Q2R (884279719003555 # 281474976710656)) by (unfold Q2R; cbn; lra).
    apply Rmult_le_pos; [lra|]. nra.
Qed.
(** A sweep across the positive x axis is sampled with the spacing of the complementary arc:
    a clockwise quarter circle of radius 1 gets 9 steps instead of 24. *)
Lemma climbs_length lim ts T : forall x, climbs lim x ts T -> T - x <= lim * INR (length ts).
Proof.
  induction ts as [|t ts IH]; intros x; cbn [climbs length]; [intros ->; cbn; lra|].
  intros [H C]. apply IH in C. rewrite S_INR. lra.
Qed.
Lemma quarter_points : exists ps, length ps = 10%nat /\
  forall fuel, (9 <= fuel)%nat -> arc_points Shapely fuel (MkVec 1 0) (MkVec 0 (-1)) origin true = Ok ps.
Proof.
  assert (minus (MkVec 1 0) origin = MkVec 1 0) as E1 by (unfold origin; vring).
  assert (minus (MkVec 0 (-1)) origin = MkVec 0 (-1)) as E2 by (unfold origin; vring).
  assert (arc_start_angle (MkVec 1 0) origin = 0) as S1.
  { apply start_angle_unique; [rewrite E1; apply vec_nz; lra|lra|]. rewrite E1. exists 1. split; [lra|]. rewrite turn_0. vring. }
  assert (arc_start_angle (MkVec 0 (-1)) origin = 270) as S2.
  { apply start_angle_unique; [rewrite E2; apply vec_nz; lra|lra|]. rewrite E2. exists 1. split; [lra|].
    replace 270 with (180 + 90) by ring. rewrite turn_plus, turn_90, turn_180. vring. }
  assert (arc_step Shapely (MkVec 1 0) (MkVec 0 (-1)) origin = 270 / 25) as ST.
  { unfold arc_step. cbv zeta. rewrite S1, S2, E1, norm_h, Rabs_R1.
    replace (Rabs (0 - 270)) with 270 by (rewrite Rabs_left; lra). f_equal.
    change 25 with (IZR 25). f_equal. cbn [segment_count n_trunc n_abs n_mul n_add n_of_Q NumR].
    set (p := n_pi). assert (3 < p < 3.2) as P.
    { unfold p, n_pi. cbn [n_of_Q NumR]. unfold Q2R. cbn. lra. }
    rewrite Rabs_right by lra.
    replace (Q2R 24) with 24 by (unfold Q2R; cbn; lra). replace (Q2R (2 # 5)) with (2 / 5) by (unfold Q2R; cbn; lra).
    unfold r_trunc. destruct (Rle_dec 0 _); [|lra]. apply Int_part_unique. lra. }
  eexists. split; [|intros fuel HF; unfold arc_points; rewrite arc_angles_eq; cbv zeta; rewrite S1, S2, ST].
  2:{ replace (arc_stop 0 270 true) with (-90).
      - pose proof (gen_angles_spec false (-90) (270 / 25) 9 fuel 0 0) as G.
        cbn [INR dir] in G. rewrite Rmult_0_l, Rmult_0_r, Rplus_0_r in G. cbn [negb]. rewrite G; [reflexivity| |lia].
        intros j _. change 9%nat with (9%nat). split; intros L.
        + assert (INR j <= 8) by (replace 8 with (INR 8) by (cbn; ring); apply le_INR; lia). lra.
        + apply INR_lt. replace (INR 9) with 9 by (cbn; ring). lra.
      - unfold arc_stop. replace (r_leb 0 270) with true by (symmetry; apply r_leb_le; lra). lra. }
  rewrite map_length, app_length, map_length, seq_length. reflexivity.
Qed.
Theorem C34_resolution_refuted :
  ~ forall (a b c : vec R) (cw : bool) (T : R) (k : Z), a <> c -> b <> c -> ~ turns 0 (minus a c) (minus b c) ->
      sweep cw (minus a c) (minus b c) T -> requested None (arc_length T (dist a c)) k ->
      exists n ps, samples a b c cw (T / IZR k) ps /\
        forall fuel, (n <= fuel)%nat -> arc_points Shapely fuel a b c cw = Ok ps.
Proof.
  intros H.
  assert (minus (MkVec 1 0) origin = MkVec 1 0) as E1 by (unfold origin; vring).
  assert (minus (MkVec 0 (-1)) origin = MkVec 0 (-1)) as E2 by (unfold origin; vring).
  assert (sweep true (minus (MkVec 1 0) origin) (minus (MkVec 0 (-1)) origin) 90) as S.
  { rewrite E1, E2. split; [lra|]. exists 1. split; [lra|]. cbn [signed]. apply vec_eq; cbn;
    rewrite deg_opp, deg_90, cos_neg, sin_neg, cos_PI2, sin_PI2; ring. }
  destruct (H (MkVec 1 0) (MkVec 0 (-1)) origin true 90 24%Z) as (n & ps & SA & F).
  - apply vec_nz; lra.
  - apply vec_nz; lra.
  - rewrite E1, E2. intros (k & Hk & X). rewrite turn_0 in X. apply (f_equal vy) in X. cbn in X. lra.
  - exact S.
  - cbn [requested]. unfold arc_length. rewrite dist_norm, E1, norm_h, Rabs_R1.
    set (p := Q2R _). assert (3 < p < 3.2) as P by (unfold p, Q2R; cbn; lra). lra.
  - destruct quarter_points as (qs & L & G).
    specialize (F (Nat.max n 9) (Nat.le_max_l _ _)). rewrite (G (Nat.max n 9) (Nat.le_max_r _ _)) in F.
    injection F as <-. destruct SA as (T & ts & SW & C & E).
    assert (T = 90) as -> by (apply (sweep_unique true (minus (MkVec 1 0) origin) (minus (MkVec 0 (-1)) origin)); auto; rewrite E1; apply vec_nz; lra).
    apply climbs_length in C. rewrite E, map_length in L. cbn [length] in L. injection L as L. rewrite L in C.
    replace (INR 9) with 9 in C by (cbn; ring). lra.
Qed.
(** A full clockwise turn never ends in shapely and fails in pillow. *)
Theorem C34_full_turn_refuted :
  ~ (forall (a c : vec R), a <> c -> exists fuel ps, arc_points Shapely fuel a a c true = Ok ps) /\
  ~ (forall (a c : vec R) (dpmm : Z) (cw : bool), a <> c -> exists fuel ps, arc_points (Pillow dpmm) fuel a a c cw = Ok ps).
Proof.
  assert (MkVec 1 0 <> origin) as N by (apply vec_nz; lra). split; intros H.
  - destruct (H _ _ N) as (fuel & ps & E). rewrite arc_equal_shapely_cw in E by reflexivity. discriminate.
  - destruct (H _ _ 10%Z true N) as (fuel & ps & E). rewrite arc_equal_pillow in E by reflexivity. discriminate.
Qed.
(** The circle of an aperture with diameter zero never ends in shapely and fails in pillow. *)
Theorem C34_zero_circle_refuted :
  forall (c : vec R) (neg : bool) (m : meta) (fuel : nat) (dpmm : Z),
    shape_points Shapely fuel (new_circle c 0 neg m) = Err EOutOfFuel /\
    shape_points (Pillow dpmm) fuel (new_circle c 0 neg m) = Err EAssertionError.
Proof.
  intros c neg m fuel dpmm. unfold shape_points, new_circle, at_. cbv zeta. rewrite half_n2.
  cbn [sh_segs segs_points seg_points n_add n_sub NumR].
  replace (MkVec (vx c - 0 / 2) (vy c)) with c by (apply vec_eq; cbn; field).
  replace (MkVec (vx c + 0 / 2) (vy c)) with c by (apply vec_eq; cbn; field).
  rewrite arc_equal_shapely_cw, arc_equal_pillow by reflexivity. split; reflexivity.
Qed.
Example C34_case : exists n ps, samples (MkVec 1 0) (MkVec (-1) 0) origin true 15 ps /\
  forall fuel, (n <= fuel)%nat -> arc_points Shapely fuel (MkVec 1 0) (MkVec (-1) 0) origin true = Ok ps.
Proof.
  apply (C34_samples_partial Shapely); [apply vec_nz; lra|apply vec_nz; lra|].
  intros (k & Hk & X). rewrite turn_0 in X. apply (f_equal vx) in X. unfold origin in X. cbn in X. lra.
Qed.

(** *** C57 *)
(** Missing: arcs whose ends are not equally far from the centre, refuted below. *)
Theorem C57_points_partial :
  forall (be : backend) (fuel : nat) (s : shape R) (ps : list (vec R)),
    (forall x, In x (sh_segs s) -> fair x) ->
    shape_points be fuel s = Ok ps -> forall p, In p ps -> in_box (shape_box s) p.
Proof. intros be fuel s ps H E p. exact (shape_points_in_box be fuel s ps p H E). Qed.
Theorem C57_pixels_partial :
  forall (dpmm : Z) (fuel : nat) (s : shape R) (ps : list (vec R)) (x0 y0 x1 y1 : R), (0 <= dpmm)%Z ->
    (forall x, In x (sh_segs s) -> fair x) ->
    (forall p, in_box (shape_box s) p -> in_box (BoxOf x0 y0 x1 y1) p) ->
    shape_points (Pillow dpmm) fuel s = Ok ps ->
    forall q, In q (polygon_pixels dpmm x0 y0 x1 y1 ps) ->
      (0 <= fst q <= fst (image_size dpmm x0 y0 x1 y1))%Z /\ (0 <= snd q <= snd (image_size dpmm x0 y0 x1 y1))%Z.
Proof.
  intros dpmm fuel s ps x0 y0 x1 y1 Hd Hs Hb E q Hq. apply (pixels_range dpmm x0 y0 x1 y1 ps q Hd); [|exact Hq].
  intros p Hp. apply Hb. exact (shape_points_in_box _ _ _ _ _ Hs E Hp).
Qed.
(** The pixel of a point is the one below and left of it, counted from the layer's corner. *)
Theorem C57_pixel_of_point :
  forall (dpmm : Z) (x0 y0 x1 y1 : R) (p : vec R), (0 <= dpmm)%Z -> in_box (BoxOf x0 y0 x1 y1) p ->
    exists i j, polygon_pixels dpmm x0 y0 x1 y1 [p] = [(i, j)] /\
      IZR i <= (vx p - x0) * IZR dpmm < IZR i + 1 /\ IZR j <= (vy p - y0) * IZR dpmm < IZR j + 1.
Proof.
  intros dpmm x0 y0 x1 y1 p Hd Hp. cbn [in_box] in Hp. apply (IZR_le 0) in Hd.
  unfold polygon_pixels. cbv zeta. cbn [map]. do 2 eexists. split; [reflexivity|].
  rewrite !half_n2. unfold to_pixel. cbn [n_trunc n_mul n_add n_sub n_abs NumR]. rewrite !r_of_Z.
  rewrite !(Rabs_right (_ - _)) by lra.
  replace ((x1 + x0) / 2 - (x1 - x0) / 2) with x0 by field. replace ((y1 + y0) / 2 - (y1 - y0) / 2) with y0 by field.
  split; apply r_trunc_bounds; nra.
Qed.
(** An arc whose end is nearer to the centre than its start is drawn with the radius of the
    start, and leaves its box. *)
Lemma climbs_last lim ts T : forall x, climbs lim x ts T -> In T (x :: ts).
Proof. induction ts as [|t ts IH]; intros x; cbn [climbs]; [intros ->; left; reflexivity|]. intros [_ C]. right. exact (IH t C). Qed.
Lemma low_box l : forall x0 y0 x1 y1 p, (forall w, In w l -> vy w <= 1) -> y1 <= 1 -> 1 < vy p ->
  ~ in_box (fold_left (b_extend (K := R)) l (BoxOf x0 y0 x1 y1)) p.
Proof.
  induction l as [|w l IH]; intros x0 y0 x1 y1 p Hl Hy Hp; [cbn; lra|]. cbn [fold_left b_extend]. apply IH; [intros; apply Hl; right; assumption| |exact Hp].
  rewrite r_max. specialize (Hl w (or_introl eq_refl)). apply Rmax_lub; assumption.
Qed.
Theorem C57_unequal_refuted :
  forall be, ~ forall (fuel : nat) (s : shape R) (ps : list (vec R)),
    shape_points be fuel s = Ok ps -> forall p, In p ps -> in_box (shape_box s) p.
Proof.
  intros be H. set (a := MkVec 10 0). set (b := MkVec 0 1).
  assert (minus a origin = a) as E1 by (unfold a, origin; vring). assert (minus b origin = b) as E2 by (unfold b, origin; vring).
  assert (a <> origin) as Na by (apply vec_nz; lra). assert (b <> origin) as Nb by (apply vec_nz; lra).
  assert (turn 90 a = MkVec 0 10) as T90 by (unfold a; rewrite turn_90; vring).
  assert (sweep false (minus a origin) (minus b origin) 90) as SW.
  { rewrite E1, E2. split; [lra|]. exists (/ 10). split; [lra|]. cbn [signed]. rewrite T90. unfold b. apply vec_eq; cbn; lra. }
  assert (arc_start_angle a origin <> arc_start_angle b origin) as Ne.
  { intros X. destruct (parallel_angle a b origin) as (k & Hk & Y); [rewrite E1; exact Na|rewrite E2; exact Nb|exact X|].
    rewrite turn_0, E1, E2 in Y. apply (f_equal vy) in Y. unfold a, b in Y. cbn in Y. lra. }
  destruct (arc_samples be a b origin false) as (n & core & (T & ts & ST & C & EC) & F); [rewrite E1; exact Na|rewrite E2; exact Nb|exact Ne|].
  assert (T = 90) as -> by (apply (sweep_unique false (minus a origin) (minus b origin)); [rewrite E1; exact Na|exact ST|exact SW]).
  assert (In (MkVec 0 10) core) as Hin.
  { rewrite EC. apply in_map_iff. exists 90. split; [|exact (climbs_last _ _ _ _ C)]. cbn [signed]. rewrite E1, T90. unfold origin. vring. }
  pose proof (F n (le_n _)) as Fn. set (x := SArc a b origin false).
  assert (exists ps, shape_points be n (MkShape [x] false None) = Ok ps /\ In (MkVec 0 10) ps) as (ps & Ep & Hp).
  { unfold shape_points, x. cbn [sh_segs segs_points seg_points]. rewrite Fn. cbn [bind append_new last_is_not app]. destruct be as [d|].
    - eexists. split; [reflexivity|]. right. apply in_or_app. left. right. apply in_or_app. left. exact Hin.
    - destruct (append_new (a :: core) b) as [|q r] eqn:Eq; [unfold append_new in Eq; destruct (last_is_not (a :: core) b); discriminate|].
      eexists. split; [reflexivity|]. apply in_or_app. left. rewrite <- Eq. unfold append_new. destruct (last_is_not (a :: core) b); [apply in_or_app; left|]; right; exact Hin. }
  specialize (H n _ ps Ep _ Hp). unfold shape_box, x in H. cbn [sh_segs fold_left seg_box] in H. unfold b_of_vecs in H. revert H.
  apply low_box; [|rewrite v_add_plus; rnum; unfold origin; cbn; lra|cbn; lra]. intros w Hw. apply in_map_iff in Hw as (v & <- & Hv).
  assert (vy v <= 1); [|rewrite v_add_plus; unfold origin; cbn; lra].
  apply arc_vectors_spec in Hv. rewrite E1, E2 in Hv. destruct Hv as [-> |[-> |(e & He & L & ->)]]; [unfold a; cbn; lra|unfold b; cbn; lra|].
  assert (norm e = 1) as Ue by (apply norm_axis; exact He).
  destruct (toward_spec false a e Na Ue) as [Tr Tt]. destruct (total_spec false a b Na Nb) as (Sr & _ & St). cbn [signed] in Tt, St. pose proof (norm_ge0 a) as Pa.
  destruct He as [<-|[<-|[<-|[<-|[]]]]]; cbn [times vx vy]; try lra. exfalso.
  assert (turns (toward false a b) a b) as Tu. { unfold b. exists (/ norm a). pose proof (norm_pos a Na). split; [apply Rinv_0_lt_compat; assumption|]. rewrite Tt. apply vec_eq; cbn; field; lra. }
  change (MkVec 0 1) with b in Tr, Tt, L. assert (total false a b < 360) as Lt.
  { destruct (Rlt_dec (total false a b) 360) as [|G]; [assumption|exfalso]. assert (total false a b = 360) as X by lra. rewrite X in St.
    destruct St as (k & Hk & Y). replace 360 with (0 + 360) in Y by ring. rewrite turn_360, turn_0 in Y. apply (f_equal vy) in Y. unfold a, b in Y. cbn in Y. lra. }
  assert (toward false a b = total false a b) by (apply (turns_unique _ _ a b); auto; lra). lra.
Qed.
Example C57_case : forall q,
  In q (polygon_pixels 10%Z 0 0 2 1 [MkVec 0 0; MkVec 2 0; MkVec 2 1; MkVec 0 1]) ->
  (0 <= fst q <= fst (image_size 10%Z 0%R 0%R 2%R 1%R))%Z.
Proof.
  intros q Hq. apply (pixels_range 10 0 0 2 1 _ q ltac:(lia)) in Hq; [apply Hq|].
  intros p Hp. cbn [In] in Hp. repeat destruct Hp as [<-|Hp]; try contradiction; cbn; lra.
Qed.
Print Assumptions C34_samples_partial. Print Assumptions C34_resolution_partial. Print Assumptions C34_zero_circle_refuted.
Print Assumptions C57_points_partial. Print Assumptions C57_pixels_partial. Print Assumptions C57_pixel_of_point. Print Assumptions C57_unequal_refuted.
Print Assumptions C34_resolution_refuted. Print Assumptions C34_full_turn_refuted.

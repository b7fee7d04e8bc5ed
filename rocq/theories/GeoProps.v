(** C28-C33, C58: vectors, matrices, outlines and boxes.  Real arithmetic. *)
From Coq Require Import Reals Lra Lia Psatz.
From Verif Require Import Base Num NumReal Ast StateModel ExprSpec GeomModel GeoSpec GeoProofs ShapeProofs SimilarProofs PolyProofs
  OutlineProofs OutlineMore FigSpec FigProofs PolyMore ArcModel ArcProofs RangeProofs.
Open Scope R_scope.

(** *** C28 *)
Theorem C28_composition :
  forall (a b : mat R) (v : vec R), built a -> built b ->
    v_transform (mmul a b) v = v_transform a (v_transform b v) /\ built (mmul a b).
Proof.
  intros a b v Ha Hb. destruct (built_affine b Hb) as (H0 & H1 & H2). split.
  - apply transform_mul; assumption.
  - apply built_mul; assumption.
Qed.
Theorem C28_actions :
  forall (x y a : R) (v : vec R),
    v_transform (mtranslate x y) v = plus v (MkVec x y) /\
    v_transform (mscale x y) v = MkVec (x * vx v) (y * vy v) /\
    v_transform (mrotate a) v = turn a v /\
    (forall fx fy : bool, v_transform (mreflect fx fy) v = MkVec (if fx then - vx v else vx v) (if fy then - vy v else vy v)).
Proof.
  intros x y a v. split; [apply transform_translate|]. split; [apply transform_scale|].
  split; [apply transform_rotate|]. intros fx fy. apply transform_reflect.
Qed.
Theorem C28_rotations :
  forall (a b : R) (v : vec R),
    mmul (mrotate a) (mrotate b) = mrotate (a + b) /\ norm (v_transform (mrotate a) v) = norm v.
Proof. intros a b v. split; [apply rotate_mul|apply rotate_length]. Qed.
Theorem C28_inverses :
  forall (x y a : R) (fx fy : bool) (v : vec R),
    v_transform (mmul (mtranslate x y) (mtranslate (- x) (- y))) v = v /\
    v_transform (mmul (mrotate a) (mrotate (- a))) v = v /\
    v_transform (mmul (mreflect fx fy) (mreflect fx fy)) v = v /\
    (x <> 0 -> y <> 0 -> v_transform (mmul (mscale x y) (mscale (/ x) (/ y))) v = v).
Proof.
  intros x y a fx fy v. rewrite translate_inv, rotate_inv, reflect_inv, transform_identity.
  repeat split. intros Hx Hy. rewrite scale_inv by assumption. apply transform_identity.
Qed.
(** A matrix with another last row does not compose. *)
Theorem C28_any_matrix_refuted :
  ~ forall (a b : mat R) (v : vec R), v_transform (mmul a b) v = v_transform a (v_transform b v).
Proof.
  intros H. specialize (H (mtranslate 1 0) (MkMat 1 0 0 0 1 0 1 0 1) (MkVec 1 0)).
  apply (f_equal vx) in H. cbn in H. unfold dot3 in H. cbn in H. rnum. lra.
Qed.
(** A quarter turn after a shift: (1, 0) goes to (3, 0) and then to (0, 3). *)
Example C28_case : v_transform (mmul (mrotate 90) (mtranslate 2 0)) (MkVec 1 0) = MkVec 0 3.
Proof.
  rewrite (proj1 (C28_composition _ _ (MkVec 1 0) (built_rotate 90) (built_translate 2 0))).
  rewrite transform_translate, transform_rotate, turn_90. apply vec_eq; cbn; ring.
Qed.

(** *** C29 *)
Theorem C29_counter_clockwise :
  forall a b : vec R, a <> origin -> b <> origin ->
    0 <= angle_cc a b < 360 /\ turns (angle_cc a b) a b /\
    forall t, 0 <= t < 360 -> turns t a b -> t = angle_cc a b.
Proof.
  intros a b Ha Hb. split; [apply angle_cc_range|]. split; [apply angle_cc_turns; assumption|].
  intros t Ht T. apply (turns_unique t (angle_cc a b) a b); auto; [apply angle_cc_range|apply angle_cc_turns; assumption].
Qed.
(** The clockwise angle is in (0, 360] instead of [0, 360). *)
Theorem C29_clockwise_partial :
  forall a b : vec R, a <> origin -> b <> origin ->
    0 < angle_between a b <= 360 /\ turns (- angle_between a b) a b /\
    (forall t, 0 < t <= 360 -> turns (- t) a b -> t = angle_between a b) /\
    angle_between a b + angle_cc a b = 360.
Proof.
  intros a b Ha Hb. pose proof (angle_cc_range a b). rewrite angle_between_cc.
  split; [lra|]. pose proof (angle_between_turns a b Ha Hb) as T. rewrite angle_between_cc in T.
  split; [exact T|]. split; [|lra]. intros t Ht S. apply (signed_unique true t (360 - angle_cc a b) a b Ha); auto. lra.
Qed.
Theorem C29_clockwise_refuted :
  ~ forall a b : vec R, a <> origin -> b <> origin -> 0 <= angle_between a b < 360.
Proof.
  intros H. assert (MkVec 1 0 <> origin) as N by (apply vec_nz; lra).
  specialize (H _ _ N N). rewrite angle_between_cc in H.
  assert (angle_cc (MkVec 1 0) (MkVec 1 0) = 0) as E; [|lra].
  symmetry. apply (C29_counter_clockwise _ _ N N); [lra|]. exists 1. split; [lra|]. rewrite turn_0. vring.
Qed.
Example C29_case : angle_cc (MkVec 2 0) (MkVec 0 5) = 90 /\ angle_between (MkVec 2 0) (MkVec 0 5) = 270.
Proof.
  assert (MkVec 2 0 <> origin) as N1 by (apply vec_nz; lra).
  assert (MkVec 0 5 <> origin) as N2 by (apply vec_nz; lra).
  assert (angle_cc (MkVec 2 0) (MkVec 0 5) = 90) as E.
  { symmetry. apply (C29_counter_clockwise _ _ N1 N2); [lra|]. exists (5 / 2). split; [lra|].
    rewrite turn_90. apply vec_eq; cbn; field. }
  split; [exact E|]. rewrite angle_between_cc, E. ring.
Qed.

(** *** C30 *)
Section Closed.
  Context {K : Type} {NK : Num K}.
  Theorem C30_closed :
    forall (c p : vec K) (ps : list (vec K)) (w h : K) (neg : bool) (m : meta),
      closed (sh_segs (new_rectangle c w h neg m)) /\ closed (sh_segs (new_obround c w h neg m)) /\
      closed (sh_segs (new_circle c w neg m)) /\ closed (sh_segs (new_connected_points p ps neg m)).
  Proof.
    intros c p ps w h neg m. split; [apply rectangle_closed|]. split; [apply obround_closed|].
    split; [apply circle_closed|apply points_closed].
  Qed.
End Closed.
Theorem C30_polygon_partial :
  forall (c : vec R) (d rot : R) (n : Z) (neg : bool) (m : meta), (3 <= n)%Z -> r_mod360 rot < 360 / IZR n ->
    exists ss, new_polygon c d n rot neg m = Ok (MkShape ss neg m) /\ closed ss.
Proof.
  intros c d rot n neg m Hn Hb. destruct (polygon_spec c d n rot neg m Hn) as (N & HN & HJ & ->).
  eexists. split; [reflexivity|].
  assert (3 <= IZR n) as HR by (apply (IZR_le 3); exact Hn). pose proof (full_turn n Hn) as Full.
  assert (N = Z.to_nat n) as EN.
  { assert (Z.to_nat n - 1 < N)%nat; [|lia]. apply HJ. rewrite minus_INR by lia. cbn [INR]. lra. }
  split; [destruct N; [lia|discriminate]|].
  exists (vertex c d (r_mod360 rot + INR 0 * (360 / IZR n))).
  pose proof (sides_chain c d (r_mod360 rot) (360 / IZR n) N 0) as Ch.
  cbn [Nat.add] in Ch. rewrite EN, Full, vertex_full in Ch. rewrite EN.
  cbn [INR] in *. replace (r_mod360 rot + 0 * (360 / IZR n)) with (r_mod360 rot) in * by ring. exact Ch.
Qed.
(** Strokes leave gaps between their segments; the implicit straight joins close them. *)
Theorem C30_line_refuted :
  ~ forall (a b : vec R) (th : R) (neg : bool) (m : meta), a <> b -> 0 < th -> closed (sh_segs (new_line a b th neg m)).
Proof.
  intros H. assert (MkVec 0 0 <> MkVec 1 0) as N.
  { intros E. apply (f_equal vx) in E. cbn in E. lra. }
  destruct (H _ _ 2 false None N ltac:(lra)) as (_ & p & C). unfold new_line in C. cbv zeta in C.
  rewrite (line_perp _ _ 2 N) in C. cbn [sh_segs chain] in C. destruct C as (_ & C & _).
  change (@v_add R NumR) with plus in C. change (@v_sub R NumR) with minus in C.
  assert (dist (MkVec 1 0) (MkVec 0 0) = 1) as D.
  { unfold dist, norm. cbn. replace ((1 - 0) * (1 - 0) + (0 - 0) * (0 - 0)) with 1 by ring. apply sqrt_1. }
  rewrite D, turn_90 in C. apply (f_equal vy) in C. cbn in C. lra.
Qed.
Theorem C30_arc_refuted :
  ~ forall (a b c : vec R) (th : R) (neg : bool) (m : meta), a <> c -> dist a c = dist b c -> 0 < th ->
      closed (sh_segs (new_cw_arc a b c th neg m)).
Proof.
  intros H. assert (MkVec 1 0 <> origin) as N by (apply vec_nz; lra).
  destruct (H (MkVec 1 0) (MkVec (-1) 0) origin 1 false None N) as (_ & p & C); [|lra|].
  { unfold dist, norm, origin. cbn. f_equal. ring. }
  unfold new_cw_arc in C. cbv zeta in C. cbn [sh_segs chain] in C. destruct C as (_ & C & _).
  change (@v_sub R NumR (MkVec (-1) 0) origin) with (minus (MkVec (-1) 0) origin) in C.
  assert (minus (MkVec (-1) 0) origin <> origin) as N2.
  { intros E. apply (f_equal vx) in E. cbn in E. lra. }
  rewrite (v_norm_spec _ N2) in C. apply (f_equal vx) in C. cbn in C.
  assert (0 < / norm (minus (MkVec (-1) 0) origin)) by (apply Rinv_0_lt_compat; apply norm_pos; exact N2).
  unfold norm in *. cbn in *. rnum. lra.
Qed.
(** What is missing for strokes is made up by the straight joins: the drawn outline is the
    documented one, see C58. *)
Example C30_case : closed (sh_segs (new_obround (MkVec 1 2) 3 1 false None)).
Proof. apply (C30_closed (MkVec 1 2) (MkVec 0 0) [] 3 1 false None). Qed.

(** *** C31 *)
Theorem C31_segments_partial :
  forall (s : shape R) (x : seg R) (p : vec R), In x (sh_segs s) -> fair x -> ~ full_ccw x ->
    on_seg x p -> in_box (shape_box s) p.
Proof.
  intros [ss neg m] x p Hin Hf Hn On. apply (shape_in_box ss x); [exact Hin|]. apply seg_in_box; assumption.
Qed.
(** The straight joins are inside too. *)
Theorem C31_outline_partial :
  forall (s : shape R) (p : vec R), (forall x, In x (sh_segs s) -> fair x /\ ~ full_ccw x) ->
    outline s p -> in_box (shape_box s) p.
Proof. exact outline_in_box. Qed.
Theorem C31_full_circle_refuted :
  ~ forall (s : shape R) (x : seg R) (p : vec R), In x (sh_segs s) -> fair x -> on_seg x p -> in_box (shape_box s) p.
Proof.
  intros H. pose (x := SArc (MkVec 1 0) (MkVec 1 0) origin false).
  specialize (H (MkShape [x] false None) x (MkVec (-1) 0) (or_introl eq_refl) eq_refl).
  assert (MkVec 1 0 <> origin) as N by (apply vec_nz; lra).
  assert (minus (MkVec 1 0) origin = MkVec 1 0) as E1 by (unfold origin; vring).
  cbn [on_seg x] in H.
  assert (on_arc (MkVec 1 0) (MkVec 1 0) origin false (MkVec (-1) 0)) as On.
  { exists 360, 180. rewrite E1. split; [split; [lra|]|split; [lra|]].
    - exists 1. split; [lra|]. cbn [signed]. replace 360 with (0 + 360) by ring. rewrite turn_360, turn_0. vring.
    - cbn [signed]. rewrite turn_180. unfold origin. vring. }
  specialize (H On). unfold shape_box, x in H. cbn [sh_segs fold_left seg_box] in H.
  assert (forall w, In w (arc_vectors (MkVec 1 0) (MkVec 1 0) origin false) -> w = MkVec 1 0) as V.
  { intros w Hw. apply arc_vectors_spec in Hw. change (v_sub (MkVec 1 0) origin) with (minus (MkVec 1 0) origin) in Hw.
    rewrite E1 in Hw. destruct Hw as [Hw|[Hw|(e & He & L & Hw)]]; auto.
    exfalso. destruct (toward_spec false (MkVec 1 0) e N (norm_axis e He)) as [(A & _) _].
    destruct (total_spec false (MkVec 1 0) (MkVec 1 0) N N) as (_ & _ & T).
    unfold total in L. rewrite angle_between_cc in L.
    assert (angle_cc (MkVec 1 0) (MkVec 1 0) = 0) as Z.
    { symmetry. apply (C29_counter_clockwise _ _ N N); [lra|]. exists 1. split; [lra|]. rewrite turn_0. vring. }
    rewrite Z in L. lra. }
  assert (forall b : box R, b = b_of_vecs (v_add (MkVec n0 n0) origin)
            (map (fun v => v_add v origin) (arc_vectors (MkVec 1 0) (MkVec 1 0) origin false)) ->
          in_box b (MkVec (-1) 0) -> False) as G; [|exact (G _ eq_refl H)].
  intros b -> Hb. unfold b_of_vecs in Hb.
  assert (forall l x0 y0 x1 y1, (forall w, In w l -> 0 <= vx w) -> 0 <= x0 ->
            ~ in_box (fold_left b_extend l (BoxOf x0 y0 x1 y1)) (MkVec (-1) 0)) as L.
  { induction l as [|w l IH]; intros x0 y0 x1 y1 Hl Hx; [cbn; lra|].
    cbn [fold_left b_extend]. apply IH; [intros; apply Hl; right; assumption|].
    rewrite r_min. specialize (Hl w (or_introl eq_refl)). apply Rmin_glb; assumption. }
  revert Hb. apply L.
  - intros w Hw. apply in_map_iff in Hw. destruct Hw as (v & <- & Hv). rewrite (V v Hv). cbn. lra.
  - cbn. rewrite r_n0. lra.
Qed.
(** A quarter of a circle: its box reaches the axes. *)
Example C31_case : in_box (shape_box (MkShape [SArc (MkVec 0 2) (MkVec 2 0) origin true] false None)) (turn 45 (MkVec 2 0)).
Proof.
  eapply C31_segments_partial; [left; reflexivity| | |].
  - cbn. unfold dist, norm, origin. cbn. f_equal. ring.
  - cbn. tauto.
  - cbn [on_seg]. exists 90, 45.
    assert (minus (MkVec 0 2) origin = turn 90 (MkVec 2 0)) as -> by (rewrite turn_90; unfold origin; vring).
    assert (minus (MkVec 2 0) origin = MkVec 2 0) as -> by (unfold origin; vring).
    cbn [signed]. split; [split; [lra|]|split; [lra|]].
    + exists 1. split; [lra|]. cbn [signed]. rewrite <- turn_plus. replace (- (90) + 90) with 0 by ring. rewrite turn_0. vring.
    + rewrite <- turn_plus. replace (- (45) + 90) with 45 by ring. unfold origin. vring.
Qed.

(** *** C32 *)
Lemma ends_transform m s : ends (seg_transform m s) = (v_transform m (fst (ends s)), v_transform m (snd (ends s))).
Proof. destruct s; reflexivity. Qed.
Lemma joined_transform m ss : forall f,
  joined (v_transform m f) (map (seg_transform m) ss) = map (seg_transform m) (joined f ss).
Proof.
  induction ss as [|s ss IH]; intros f; [reflexivity|]. cbn [map joined]. rewrite ends_transform. cbn [fst snd seg_transform].
  rewrite IH. f_equal. f_equal. destruct ss as [|s' ss]; [reflexivity|]. cbn [map]. rewrite ends_transform. reflexivity.
Qed.
(** Missing for all similarities: those with a zero in the upper left corner of the matrix,
    that is rotations by exactly 90 or 270 degrees (see below). *)
Theorem C32_outline_partial :
  forall (m : mat R) (s : shape R) (p : vec R), similarity m -> m00 m <> 0 ->
    (outline (shape_transform m s) (v_transform m p) <-> outline s p).
Proof.
  intros m s p H N. unfold outline, shape_transform. cbn [sh_segs]. destruct (sh_segs s) as [|s0 ss]; [reflexivity|].
  cbn [map]. rewrite ends_transform. cbn [fst]. rewrite <- (map_cons (seg_transform m) s0 ss), joined_transform.
  split.
  - intros (x & Hx & On). apply in_map_iff in Hx. destruct Hx as (y & <- & Hy). exists y.
    split; [exact Hy|]. apply seg_transform_points in On; assumption.
  - intros (y & Hy & On). exists (seg_transform m y). split; [apply in_map; exact Hy|].
    apply seg_transform_points; assumption.
Qed.
Theorem C32_segments_partial :
  forall (m : mat R) (s : seg R) (p : vec R), similarity m -> m00 m <> 0 ->
    (on_seg (seg_transform m s) (v_transform m p) <-> on_seg s p).
Proof. exact seg_transform_points. Qed.
Theorem C32_images :
  forall (m : mat R) (a b c : vec R) (cw : bool), similarity m ->
    seg_transform m (SLine a b) = SLine (v_transform m a) (v_transform m b) /\
    exists cw', seg_transform m (SArc a b c cw) = SArc (v_transform m a) (v_transform m b) (v_transform m c) cw' /\
      (fair (seg_transform m (SArc a b c cw)) <-> fair (SArc a b c cw)) /\
      (m00 m <> 0 -> (cw' = negb cw <-> mirrors m)).
Proof.
  intros m a b c cw H. split; [reflexivity|]. rewrite seg_transform_arc. eexists. split; [reflexivity|].
  split; [rewrite <- seg_transform_arc; apply seg_transform_fair; exact H|].
  intros N. pose proof (keeps_spec m H N) as KS. rewrite (mirrors_ref m H) in *.
  destruct (keeps m).
  - split; [destruct cw; discriminate|]. intros X. exfalso. apply KS; [reflexivity|exact X].
  - split; [|reflexivity]. intros _. destruct (similarity_shape m H) as (_ & [S|S]); [exfalso|exact S].
    assert (false = true); [|discriminate]. apply KS. intros [C D]. destruct S as [A B]. rewrite A in C. lra.
Qed.
Lemma rotate_similarity a : similarity (mrotate a).
Proof. exists 1. split; [lra|]. intros u v. rewrite !transform_rotate. unfold dist. rewrite <- turn_minus, norm_turn. ring. Qed.
(** With exact arithmetic the cosine of a right angle is 0 and the test on the product of the
    diagonal entries takes the rotation for a reflection.  (In floating point the cosine of
    [math.radians(90)] is 6e-17, so the program escapes.) *)
Theorem C32_right_angle_refuted :
  ~ forall (m : mat R) (s : seg R) (p : vec R), similarity m ->
      (on_seg (seg_transform m s) (v_transform m p) <-> on_seg s p).
Proof.
  intros H. specialize (H (mrotate 90) (SArc (MkVec 1 0) (MkVec (-1) 0) origin false) (MkVec 0 1) (rotate_similarity 90)).
  rewrite rotate_turn in H. destruct (Req_EM_T (cos (deg 90)) 0) as [_|N]; [|rewrite deg_90, cos_PI2 in N; contradiction].
  cbn [seg_turn seg_flip negb on_seg] in H. rewrite transform_rotate, !turn_90 in H. cbn [vx vy] in H.
  replace (MkVec (- vy origin) (vx origin)) with origin in H by (unfold origin; vring).
  rewrite (half_arc (MkVec 1 0) (MkVec (-1) 0) origin false) in H.
  - rewrite (half_arc (MkVec (-0) 1) (MkVec (-0) (-1)) origin true) in H.
    + cbn iota in H. destruct H as [_ H]. destruct H as [_ H].
      * split; [unfold dist, norm, origin; cbn; f_equal; ring|]. unfold cross, origin. cbn. lra.
      * unfold cross, origin in H. cbn in H. lra.
    + apply vec_nz. cbn. lra.
    + unfold origin. vring.
  - apply vec_nz. cbn. lra.
  - unfold origin. vring.
Qed.
Example C32_case : similarity (mscale 2 2) /\ m00 (mscale 2 2) <> 0 /\ ~ mirrors (mscale 2 2).
Proof.
  split.
  - exists 2. split; [lra|]. intros u v. rewrite !transform_scale. unfold dist, norm. cbn.
    rewrite <- (sqrt_square 2) at 9 by lra. rewrite <- sqrt_mult_alt by lra. f_equal. ring.
  - split; [cbn; lra|]. unfold mirrors. rewrite !transform_scale. cbn. lra.
Qed.

(** *** C33 *)
(** Missing: base rotations of a full step or more. *)
Theorem C33_sides_partial :
  forall (c : vec R) (d rot : R) (n : Z) (neg : bool) (m : meta), (3 <= n)%Z -> 0 <= d -> r_mod360 rot < 360 / IZR n ->
    exists ss, new_polygon c d n rot neg m = Ok (MkShape ss neg m) /\ length ss = Z.to_nat n /\
      forall s, In s ss -> exists a b, s = SLine a b /\ dist a c = d / 2 /\ dist b c = d / 2.
Proof.
  intros c d rot n neg m Hn Hd Hb. destruct (polygon_spec c d n rot neg m Hn) as (N & HN & HJ & ->).
  eexists. split; [reflexivity|].
  assert (3 <= IZR n) as HR by (apply (IZR_le 3); exact Hn). pose proof (full_turn n Hn) as Full.
  assert (N = Z.to_nat n) as EN.
  { assert (Z.to_nat n - 1 < N)%nat; [|lia]. apply HJ. rewrite minus_INR by lia. cbn [INR]. lra. }
  split; [unfold sides; rewrite map_length, seq_length; exact EN|].
  intros s Hs. apply in_map_iff in Hs. destruct Hs as (k & <- & _). do 2 eexists. split; [reflexivity|].
  split; apply vertex_dist; exact Hd.
Qed.
(** Up to two steps the implicit closing line restores the side that is lost. *)
Theorem C33_outline_partial :
  forall (c : vec R) (d rot : R) (n : Z) (neg : bool) (m : meta), (3 <= n)%Z -> r_mod360 rot < 2 * (360 / IZR n) ->
    exists s, new_polygon c d n rot neg m = Ok s /\ forall p, outline s p <-> ngon c d (Z.to_nat n) rot p.
Proof.
  intros c d rot n neg m Hn Hb. destruct (polygon_outline c d n rot neg m Hn Hb) as (s & E & _ & _ & O). eauto.
Qed.
Theorem C33_sides_refuted :
  ~ forall (c : vec R) (d rot : R) (n : Z) (neg : bool) (m : meta), (3 <= n)%Z -> 0 < d ->
      exists ss, new_polygon c d n rot neg m = Ok (MkShape ss neg m) /\ length ss = Z.to_nat n.
Proof.
  intros H. destruct (H origin 2 180 4%Z false None ltac:(lia) ltac:(lra)) as (ss & E & L).
  destruct (polygon_spec origin 2 4 180 false None ltac:(lia)) as (N & HN & HJ & E2).
  rewrite E2 in E. injection E as <-. unfold sides in L. rewrite map_length, seq_length in L.
  assert (2 < N)%nat as X by (rewrite L; lia). apply HJ in X. rewrite r_mod360_id in X by lra. cbn in X. lra.
Qed.
(** A square turned by 180 degrees is drawn as its lower half. *)
Theorem C33_outline_refuted :
  ~ forall (c : vec R) (d rot : R) (n : Z) (neg : bool) (m : meta) (s : shape R), (3 <= n)%Z -> 0 < d ->
      new_polygon c d n rot neg m = Ok s -> forall p, outline s p <-> ngon c d (Z.to_nat n) rot p.
Proof.
  intros H. destruct (polygon_spec origin 2 4 180 false None ltac:(lia)) as (N & HN & HJ & E).
  rewrite r_mod360_id in * by lra.
  assert (N = 2)%nat as ->.
  { assert (1 < N)%nat by (apply HJ; cbn; lra). assert (~ 2 < N)%nat by (rewrite HJ; cbn; lra). lia. }
  specialize (H origin 2 180 4%Z false None _ ltac:(lia) ltac:(lra) E (MkVec 0 1)).
  assert (outline (MkShape (sides origin 2 180 (360 / IZR 4) (seq 0 2)) false None) (MkVec 0 1)) as O.
  { apply H. unfold ngon. apply path_seq. exists 3%nat. split; [cbn; lia|].
    change (Z.to_nat 4) with 4%nat.
    assert (180 + INR 3 * (360 / INR 4) = 90 + 360) as ->.
    { replace (INR 3) with 3 by (cbn; ring). replace (INR 4) with 4 by (cbn; ring). field. }
    replace (corner origin 2 (90 + 360)) with (MkVec 0 1); [apply on_line_start|].
    unfold corner.
    rewrite turn_360, turn_90. unfold origin. vring. field. }
  unfold outline in O. cbn [sh_segs sides map seq ends fst snd joined] in O.
  assert (vertex origin 2 (180 + INR 0 * (360 / IZR 4)) = MkVec (-1) 0) as V0.
  { unfold vertex. replace (180 + INR 0 * (360 / IZR 4)) with 180 by (cbn; field). rewrite turn_180. unfold origin. vring. field. }
  assert (vertex origin 2 (180 + INR 1 * (360 / IZR 4)) = MkVec 0 (-1)) as V1.
  { unfold vertex. replace (180 + INR 1 * (360 / IZR 4)) with (180 + 90) by (cbn; field). rewrite turn_plus, turn_90, turn_180. unfold origin. vring; field. }
  assert (vertex origin 2 (180 + INR 2 * (360 / IZR 4)) = MkVec 1 0) as V2.
  { unfold vertex. replace (180 + INR 2 * (360 / IZR 4)) with (0 + 360) by (cbn; field). rewrite turn_360, turn_0. unfold origin. vring; field. }
  rewrite V0, V1, V2 in O. destruct O as (x & Hx & On).
  assert (forall a b, vy a <= 0 -> vy b <= 0 -> ~ on_line a b (MkVec 0 1)) as G.
  { intros a b Ha Hb (t & Ht & X). apply (f_equal vy) in X. cbn in X. nra. }
  cbn [In] in Hx. destruct Hx as [<-|[<-|[<-|[<-|[]]]]]; cbn [on_seg] in On; revert On; apply G; cbn; lra.
Qed.
Example C33_case : exists s, new_polygon (MkVec 1 1) 2 6 (-315) false None = Ok s /\
  forall p, outline s p <-> ngon (MkVec 1 1) 2 6 (-315) p.
Proof.
  apply C33_outline_partial; [lia|].
  assert (r_mod360 (-315) = 45) as ->; [|cbn; lra].
  unfold r_mod360. rewrite (Int_part_unique _ (-1)); [lra|]. cbn. lra.
Qed.

(** *** C58 *)
Theorem C58_circle :
  forall (c : vec R) (d : R) (neg : bool) (m : meta) (p : vec R), 0 < d ->
    (outline (new_circle c d neg m) p <-> circle_line c d p).
Proof. exact circle_outline. Qed.
Theorem C58_rectangle :
  forall (c : vec R) (w h : R) (neg : bool) (m : meta) (p : vec R), 0 < w -> 0 < h ->
    (outline (new_rectangle c w h neg m) p <-> rectangle_line c w h p).
Proof. exact rectangle_outline. Qed.
Theorem C58_obround :
  forall (c : vec R) (w h : R) (neg : bool) (m : meta) (p : vec R), 0 < w -> 0 < h ->
    (outline (new_obround c w h neg m) p <-> obround_line c w h p).
Proof. exact obround_outline. Qed.
Theorem C58_line :
  forall (a b : vec R) (th : R) (neg : bool) (m : meta) (p : vec R), a <> b -> 0 < th ->
    (outline (new_line a b th neg m) p <-> band_line a b th p).
Proof. exact line_outline. Qed.
Theorem C58_arcs :
  forall (a b c : vec R) (th : R) (neg : bool) (m : meta) (p : vec R), a <> c -> dist a c = dist b c -> 0 < th ->
    (outline (new_cw_arc a b c th neg m) p <-> ring_line a b c th p) /\
    (outline (new_ccw_arc a b c th neg m) p <-> ring_line b a c th p).
Proof.
  intros a b c th neg m p Ha D Ht. split; [apply cw_arc_outline; assumption|].
  apply cw_arc_outline; [|symmetry; exact D|exact Ht]. intros ->. apply Ha. apply minus_0.
  apply norm_0. rewrite <- dist_norm, D, dist_norm. apply norm_0. vring.
Qed.
Theorem C58_points :
  forall (a : vec R) (ps : list (vec R)) (neg : bool) (m : meta) (p : vec R),
    outline (new_connected_points a ps neg m) p <-> path_line (a :: ps ++ [a]) p.
Proof. exact points_outline. Qed.
(** A circle of diameter 4 and a stroke of width 2. *)
Example C58_case : outline (new_circle (MkVec 1 1) 4 false None) (MkVec 1 3) /\
  outline (new_line (MkVec 0 0) (MkVec 3 0) 2 false None) (MkVec 1 1).
Proof.
  split.
  - apply C58_circle; [lra|]. unfold circle_line, dist, norm. cbn.
    replace ((1 - 1) * (1 - 1) + (3 - 1) * (3 - 1)) with (2 * 2) by ring. rewrite sqrt_square; lra.
  - apply C58_line; [intros E; apply (f_equal vx) in E; cbn in E; lra|lra|].
    assert (dist (MkVec 3 0) (MkVec 0 0) = 3) as D.
    { unfold dist, norm. cbn. replace ((3 - 0) * (3 - 0) + (0 - 0) * (0 - 0)) with (3 * 3) by ring. apply sqrt_square. lra. }
    exists 1, 1. rewrite D, turn_90. split; [lra|]. split; [rewrite Rabs_right; lra|].
    split; [right; right; rewrite Rabs_right; lra|]. apply vec_eq; cbn; field.
Qed.
Print Assumptions C28_composition. Print Assumptions C28_actions. Print Assumptions C28_rotations.
Print Assumptions C28_inverses. Print Assumptions C29_counter_clockwise. Print Assumptions C29_clockwise_partial.
Print Assumptions C30_closed. Print Assumptions C30_polygon_partial. Print Assumptions C31_segments_partial.
Print Assumptions C31_outline_partial. Print Assumptions C32_outline_partial. Print Assumptions C32_segments_partial.
Print Assumptions C32_images. Print Assumptions C33_sides_partial. Print Assumptions C33_outline_partial.
Print Assumptions C58_circle. Print Assumptions C58_rectangle. Print Assumptions C58_obround.
Print Assumptions C58_line. Print Assumptions C58_arcs. Print Assumptions C58_points.
Print Assumptions C28_any_matrix_refuted. Print Assumptions C29_clockwise_refuted. Print Assumptions C30_line_refuted.
Print Assumptions C30_arc_refuted. Print Assumptions C31_full_circle_refuted. Print Assumptions C32_right_angle_refuted.
Print Assumptions C33_sides_refuted. Print Assumptions C33_outline_refuted.

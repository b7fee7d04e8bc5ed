(** Lemmas about vectors, angles and matrices over the reals. *)
From Coq Require Import Reals Lra Lia Psatz.
From Verif Require Import Base Num NumReal GeomModel GeoSpec.
Open Scope R_scope.

#[global] Arguments n0 : simpl never.
#[global] Arguments n1 : simpl never.
#[global] Arguments n2 : simpl never.
#[global] Arguments n360 : simpl never.
#[global] Arguments n_of_Z : simpl never.

Ltac veq := match goal with |- MkVec _ _ = MkVec _ _ => f_equal | _ => idtac end.
Lemma vec_eq (a b : vec R) : vx a = vx b -> vy a = vy b -> a = b.
Proof. destruct a, b; cbn; intros; subst; reflexivity. Qed.

Lemma deg_plus a b : deg (a + b) = deg a + deg b. Proof. unfold deg. field. Qed.
Lemma deg_opp a : deg (- a) = - deg a. Proof. unfold deg. field. Qed.
Lemma deg_minus a b : deg (a - b) = deg a - deg b. Proof. unfold deg. field. Qed.
Lemma deg_0 : deg 0 = 0. Proof. unfold deg. field. Qed.
Lemma deg_90 : deg 90 = PI / 2. Proof. unfold deg. field. Qed.
Lemma deg_180 : deg 180 = PI. Proof. unfold deg. field. Qed.
Lemma deg_360 : deg 360 = 2 * PI. Proof. unfold deg. field. Qed.
Lemma deg_undeg x : deg (undeg x) = x.
Proof. unfold deg, undeg. field. apply PI_neq0. Qed.
Lemma undeg_deg x : undeg (deg x) = x.
Proof. unfold deg, undeg. field. apply PI_neq0. Qed.
Lemma deg_lt a b : a < b <-> deg a < deg b.
Proof. unfold deg. pose proof PI_RGT_0. split; intro; nra. Qed.
Lemma deg_le a b : a <= b <-> deg a <= deg b.
Proof. unfold deg. pose proof PI_RGT_0. split; intro; nra. Qed.

Lemma cos_full a : cos (deg (a + 360)) = cos (deg a).
Proof. rewrite deg_plus, deg_360. apply cos_2PI || (rewrite cos_plus, cos_2PI, sin_2PI; ring). Qed.
Lemma sin_full a : sin (deg (a + 360)) = sin (deg a).
Proof. rewrite deg_plus, deg_360. rewrite sin_plus, cos_2PI, sin_2PI; ring. Qed.

Lemma sc1 a : sin (deg a) * sin (deg a) + cos (deg a) * cos (deg a) = 1.
Proof. pose proof (sin2_cos2 (deg a)) as H. unfold Rsqr in H. exact H. Qed.

(** *** turn *)
Lemma turn_0 a : turn 0 a = a.
Proof. apply vec_eq; cbn; rewrite deg_0, cos_0, sin_0; ring. Qed.
Lemma turn_plus s t a : turn (s + t) a = turn s (turn t a).
Proof. apply vec_eq; cbn; rewrite deg_plus, cos_plus, sin_plus; ring. Qed.
Lemma turn_360 t a : turn (t + 360) a = turn t a.
Proof. apply vec_eq; cbn; rewrite cos_full, sin_full; ring. Qed.
Lemma turn_times t k a : turn t (times k a) = times k (turn t a).
Proof. apply vec_eq; cbn; ring. Qed.
Lemma turn_inv t a : turn (- t) (turn t a) = a.
Proof. rewrite <- turn_plus. replace (- t + t) with 0 by ring. apply turn_0. Qed.
Lemma norm_sq a : norm a * norm a = vx a * vx a + vy a * vy a.
Proof. unfold norm. apply sqrt_sqrt. nra. Qed.
Lemma norm_ge0 a : 0 <= norm a. Proof. apply sqrt_pos. Qed.
Lemma norm_turn t a : norm (turn t a) = norm a.
Proof. unfold norm. f_equal. cbn. pose proof (sc1 t). nra. Qed.
Lemma norm_times k a : 0 <= k -> norm (times k a) = k * norm a.
Proof.
  intros Hk. unfold norm. cbn.
  replace (k * vx a * (k * vx a) + k * vy a * (k * vy a)) with ((k * k) * (vx a * vx a + vy a * vy a)) by ring.
  rewrite sqrt_mult by nra. rewrite sqrt_square by assumption. reflexivity.
Qed.
Lemma norm_0 a : norm a = 0 <-> a = origin.
Proof.
  split.
  - intros H. pose proof (norm_sq a) as E. rewrite H in E. apply vec_eq; cbn; nra.
  - intros ->. unfold norm. cbn. replace (0*0+0*0) with 0 by ring. apply sqrt_0.
Qed.
Lemma norm_pos a : a <> origin -> 0 < norm a.
Proof. intros H. destruct (Rle_lt_or_eq_dec _ _ (norm_ge0 a)) as [L|L]; [exact L|]. symmetry in L. apply norm_0 in L. contradiction. Qed.
Lemma v_len_norm a : v_len a = norm a. Proof. reflexivity. Qed.
Lemma v_sub_minus a b : v_sub a b = minus a b. Proof. reflexivity. Qed.
Lemma v_add_plus a b : v_add a b = plus a b. Proof. reflexivity. Qed.

Lemma v_norm_spec a : a <> origin -> v_norm a = times (/ norm a) a.
Proof.
  intros H. unfold v_norm. cbn [n_eqb NumR]. rnum.
  destruct (r_eqb (vx a) 0) eqn:E1; cbn [andb]; [destruct (r_eqb (vy a) 0) eqn:E2|]; rdec.
  - exfalso. apply H. apply vec_eq; cbn; assumption.
  - apply vec_eq; unfold v_divk; cbn [vx vy times n_div NumR]; rewrite ?v_len_norm; unfold Rdiv; ring.
  - apply vec_eq; unfold v_divk; cbn [vx vy times n_div NumR]; rewrite ?v_len_norm; unfold Rdiv; ring.
Qed.
Lemma v_norm_origin : v_norm origin = MkVec 1 0.
Proof.
  unfold v_norm. cbn [n_eqb NumR]. rnum. cbn.
  destruct (r_eqb 0 0) eqn:E; [cbn; apply vec_eq; cbn; rnum; reflexivity|]. rdec. contradiction.
Qed.
Lemma v_norm_unit a : vx (v_norm a) * vx (v_norm a) + vy (v_norm a) * vy (v_norm a) = 1.
Proof.
  destruct (Req_EM_T (norm a) 0) as [H|H].
  - apply norm_0 in H. subst. rewrite v_norm_origin. cbn. ring.
  - assert (a <> origin) as Ha by (intros ->; apply H; apply norm_0; reflexivity).
    rewrite v_norm_spec by exact Ha. cbn.
    replace (/ norm a * vx a * (/ norm a * vx a) + / norm a * vy a * (/ norm a * vy a))
      with ((vx a * vx a + vy a * vy a) * (/ norm a * / norm a)) by ring.
    rewrite <- norm_sq. field. exact H.
Qed.

(** *** atan2 *)
Lemma cos_sin_atan x : cos (atan x) = / sqrt (1 + x * x) /\ sin (atan x) = x / sqrt (1 + x * x).
Proof.
  rewrite cos_atan, sin_atan. unfold Rsqr. split; [unfold Rdiv; ring | reflexivity].
Qed.
Lemma sqrt_quot x y : x <> 0 -> x * x + y * y = 1 -> sqrt (1 + y / x * (y / x)) = / Rabs x.
Proof.
  intros Hx H. replace (1 + y / x * (y / x)) with (/ x * / x).
  - rewrite <- Rabs_inv. rewrite <- sqrt_Rsqr_abs. reflexivity.
  - apply (Rmult_eq_reg_r (x * x)); [|nra]. field_simplify; [|exact Hx|exact Hx]. nra.
Qed.
Lemma atan2_spec x y : x * x + y * y = 1 ->
  cos (atan2 y x) = x /\ sin (atan2 y x) = y /\ - PI < atan2 y x <= PI.
Proof.
  intros H. pose proof PI_RGT_0 as HP. unfold atan2.
  destruct (Rlt_dec 0 x) as [Hx|Hx].
  - destruct (cos_sin_atan (y / x)) as [C S]. rewrite C, S, sqrt_quot by lra.
    rewrite Rabs_right by lra. pose proof (atan_bound (y / x)).
    split; [|split; [|lra]]; field; lra.
  - destruct (Rlt_dec x 0) as [Hx'|Hx'].
    + destruct (cos_sin_atan (y / x)) as [C S].
      rewrite sqrt_quot in C, S by lra. rewrite Rabs_left in C, S by lra.
      pose proof (atan_bound (y / x)) as B.
      destruct (Rle_dec 0 y) as [Hy|Hy].
      * rewrite neg_cos, neg_sin, C, S. split; [field; lra|]. split; [field; lra|].
        assert (atan (y / x) <= 0).
        { rewrite <- atan_0. destruct (Req_dec y 0) as [->|Hn].
          - unfold Rdiv. rewrite Rmult_0_l. lra.
          - left. apply atan_increasing. apply (Rmult_lt_reg_r (-x)); [lra|].
            unfold Rdiv. replace (y * / x * - x) with (- y) by (field; lra). lra. }
        lra.
      * replace (atan (y / x) - PI) with (- (PI - atan (y / x))) by ring.
        rewrite cos_neg, sin_neg, cos_minus, sin_minus, cos_PI, sin_PI, C, S.
        split; [field; lra|]. split; [field; lra|].
        assert (0 < atan (y / x)).
        { rewrite <- atan_0. apply atan_increasing. apply (Rmult_lt_reg_r (-x)); [lra|].
          unfold Rdiv. replace (y * / x * - x) with (- y) by (field; lra). lra. }
        lra.
    + assert (x = 0) by lra. subst x.
      destruct (Rlt_dec 0 y).
      * rewrite cos_PI2, sin_PI2. split; [reflexivity|]. split; [nra|lra].
      * destruct (Rlt_dec y 0); [|assert (y = 0) by lra; nra].
        rewrite cos_neg, sin_neg, cos_PI2, sin_PI2. split; [reflexivity|]. split; [nra|lra].
Qed.

(** *** angles *)
Lemma angle_cc_unit (a b : vec R) :
  0 <= angle_cc a b < 360 /\ v_norm b = turn (angle_cc a b) (v_norm a).
Proof.
  pose proof (v_norm_unit a) as Ha. pose proof (v_norm_unit b) as Hb.
  unfold angle_cc. cbn zeta. set (u := v_norm a) in *. set (v := v_norm b) in *.
  cbn [n_add n_sub n_mul n_ltb n_atan2d NumR]. rnum.
  set (s := vx u * vy v - vx v * vy u). set (c := vx u * vx v + vy u * vy v).
  assert (c * c + s * s = 1) as E.
  { unfold c, s. transitivity ((vx u * vx u + vy u * vy u) * (vx v * vx v + vy v * vy v)); [ring|].
    rewrite Ha, Hb. ring. }
  destruct (atan2_spec c s E) as (C & S & L). set (t := atan2 s c) in *.
  assert (deg (undeg t) = t) as D by apply deg_undeg.
  assert (-180 < undeg t <= 180) as B.
  { rewrite <- D in L. rewrite <- deg_180 in L. rewrite <- deg_opp in L.
    split; [apply deg_lt; apply L|apply deg_le; apply L]. }
  assert (v = turn (undeg t) u) as R.
  { apply vec_eq; cbn; rewrite D, C, S; unfold c, s.
    - transitivity (vx v * (vx u * vx u + vy u * vy u)); [rewrite Ha; ring|ring].
    - transitivity (vy v * (vx u * vx u + vy u * vy u)); [rewrite Ha; ring|ring]. }
  destruct (r_ltb (undeg t) 0) eqn:O; rdec.
  - split; [lra|]. rewrite turn_360. exact R.
  - rewrite Rplus_0_r. split; [lra|exact R].
Qed.
Lemma angle_cc_range (a b : vec R) : 0 <= angle_cc a b < 360.
Proof. apply angle_cc_unit. Qed.
Lemma angle_cc_turns (a b : vec R) : a <> origin -> b <> origin -> turns (angle_cc a b) a b.
Proof.
  intros Ha Hb. destruct (angle_cc_unit a b) as [_ E].
  rewrite (v_norm_spec a Ha), (v_norm_spec b Hb), turn_times in E.
  pose proof (norm_pos a Ha). pose proof (norm_pos b Hb).
  exists (norm b / norm a). split; [apply Rdiv_lt_0_compat; assumption|].
  apply vec_eq.
  - apply (f_equal vx) in E. cbn [times vx] in E |- *.
    apply (Rmult_eq_reg_l (/ norm b)); [|apply Rinv_neq_0_compat; lra].
    rewrite E. field. lra.
  - apply (f_equal vy) in E. cbn [times vy] in E |- *.
    apply (Rmult_eq_reg_l (/ norm b)); [|apply Rinv_neq_0_compat; lra].
    rewrite E. field. lra.
Qed.
Lemma angle_between_cc (a b : vec R) : angle_between a b = 360 - angle_cc a b.
Proof. unfold angle_between. cbn [n_sub NumR]. rnum. reflexivity. Qed.
Lemma turns_full t a b : turns (t + 360) a b <-> turns t a b.
Proof. unfold turns. split; intros (k & Hk & E); exists k; split; try exact Hk; rewrite ?turn_360 in *; exact E. Qed.
Lemma turns_full' t a b : turns (t - 360) a b <-> turns t a b.
Proof. rewrite <- (turns_full (t - 360)). replace (t - 360 + 360) with t by ring. reflexivity. Qed.
Lemma angle_between_turns (a b : vec R) : a <> origin -> b <> origin -> turns (- angle_between a b) a b.
Proof.
  intros Ha Hb. rewrite angle_between_cc. replace (- (360 - angle_cc a b)) with (angle_cc a b - 360) by ring.
  apply turns_full'. apply angle_cc_turns; assumption.
Qed.

Lemma turn_fix t a : a <> origin -> 0 <= t < 360 -> (exists k, 0 < k /\ turn t a = times k a) -> t = 0.
Proof.
  intros Ha Ht (k & Hk & E).
  assert (k = 1) as ->.
  { pose proof (f_equal norm E) as N. rewrite norm_turn, norm_times in N by lra.
    pose proof (norm_pos a Ha). nra. }
  assert (cos (deg t) = 1) as C.
  { pose proof (f_equal vx E) as X. pose proof (f_equal vy E) as Y. cbn in X, Y.
    pose proof (norm_pos a Ha) as P. pose proof (norm_sq a) as Q.
    assert (0 < vx a * vx a + vy a * vy a) by nra.
    assert ((cos (deg t) - 1) * (vx a * vx a + vy a * vy a) = 0) as Z.
    { transitivity (vx a * (cos (deg t) * vx a - sin (deg t) * vy a - 1 * vx a)
                    + vy a * (sin (deg t) * vx a + cos (deg t) * vy a - 1 * vy a)); [ring|].
      rewrite X, Y. ring. }
    apply Rmult_integral in Z. lra. }
  destruct (Req_dec t 0) as [|N]; [assumption|]. exfalso.
  assert (0 < deg t < 2 * PI) as B.
  { rewrite <- deg_0, <- deg_360. split; apply (proj1 (deg_lt _ _)); lra. }
  destruct (Rle_dec (deg t) PI) as [L|L].
  - assert (cos (deg t) < cos 0) by (apply cos_decreasing_1; lra). rewrite cos_0 in *. lra.
  - assert (cos (2 * PI - deg t) < cos 0) as W by (apply cos_decreasing_1; lra).
    rewrite cos_0, cos_minus, cos_2PI, sin_2PI in W. lra.
Qed.
Lemma turns_unique s t a b : a <> origin -> 0 <= s < 360 -> 0 <= t < 360 ->
  turns s a b -> turns t a b -> s = t.
Proof.
  intros Ha Hs Ht (k & Hk & E) (l & Hl & F).
  assert (forall s t k l, 0 <= s < 360 -> 0 <= t < 360 -> 0 < k -> 0 < l -> s <= t ->
          times k (turn s a) = times l (turn t a) -> s = t) as W.
  { clear - Ha. intros s t k l Hs Ht Hk Hl L E.
    assert (t - s = 0); [|lra]. apply (turn_fix (t - s) a Ha); [lra|].
    exists (k / l). split; [apply Rdiv_lt_0_compat; assumption|].
    assert (turn (- s) (times k (turn s a)) = turn (- s) (times l (turn t a))) as F by (rewrite E; reflexivity).
    rewrite !turn_times, turn_inv, <- turn_plus in F. replace (- s + t) with (t - s) in F by ring.
    apply vec_eq; [apply (f_equal vx) in F|apply (f_equal vy) in F]; cbn [times vx vy] in F |- *;
      apply (Rmult_eq_reg_l l); try lra; rewrite <- F; field; lra. }
  rewrite E in F. destruct (Rle_dec s t).
  - eapply W; [| | | | |exact F]; lra.
  - symmetry. eapply W; [| | | | |symmetry; exact F]; lra.
Qed.

(** *** matrices *)
Lemma built_affine m : built m -> m20 m = 0 /\ m21 m = 0 /\ m22 m = 1.
Proof.
  induction 1 as [x y|a|x y|x y|a b _ (A & B & C) _ (D & E & F)]; cbn; rewrite ?r_n0, ?r_n1; auto.
  unfold dot3; cbn; rnum. rewrite A, B, C, D, E, F. repeat split; ring.
Qed.
Lemma transform_mul a b v : m20 b = 0 -> m21 b = 0 -> m22 b = 1 ->
  v_transform (mmul a b) v = v_transform a (v_transform b v).
Proof. intros A B C. apply vec_eq; cbn; unfold dot3; cbn; rnum; rewrite A, B, C; ring. Qed.
Lemma transform_translate x y v : v_transform (mtranslate x y) v = plus v (MkVec x y).
Proof. apply vec_eq; cbn; rnum; ring. Qed.
Lemma transform_rotate a v : v_transform (mrotate a) v = turn a v.
Proof. apply vec_eq; cbn; rnum; ring. Qed.
Lemma transform_reflect x y v :
  v_transform (mreflect x y) v = MkVec (if x then - vx v else vx v) (if y then - vy v else vy v).
Proof. destruct x, y; apply vec_eq; cbn; rnum; ring. Qed.
Lemma transform_scale x y v : v_transform (mscale x y) v = MkVec (x * vx v) (y * vy v).
Proof. apply vec_eq; cbn; rnum; ring. Qed.

Lemma mat_eq (a b : mat R) :
  m00 a = m00 b -> m01 a = m01 b -> m02 a = m02 b -> m10 a = m10 b -> m11 a = m11 b ->
  m12 a = m12 b -> m20 a = m20 b -> m21 a = m21 b -> m22 a = m22 b -> a = b.
Proof. destruct a, b; cbn; intros; subst; reflexivity. Qed.
Ltac mateq := apply mat_eq; cbn; unfold dot3; cbn; rnum; try ring.
Lemma rotate_mul a b : mmul (mrotate a) (mrotate b) = mrotate (a + b).
Proof. mateq; rewrite deg_plus, ?cos_plus, ?sin_plus; ring. Qed.
Lemma mmul_assoc a b c : mmul a (mmul b c) = mmul (mmul a b) c.
Proof. mateq. Qed.
Lemma rotate_length a v : norm (v_transform (mrotate a) v) = norm v.
Proof. rewrite transform_rotate. apply norm_turn. Qed.

Definition identity : mat R := mscale 1 1.
Lemma transform_identity v : v_transform identity v = v.
Proof. unfold identity. rewrite transform_scale. apply vec_eq; cbn; ring. Qed.
Lemma translate_inv x y : mmul (mtranslate x y) (mtranslate (- x) (- y)) = identity.
Proof. mateq. Qed.
Lemma rotate_inv a : mmul (mrotate a) (mrotate (- a)) = identity.
Proof. mateq; rewrite !deg_opp, cos_neg, sin_neg; pose proof (sc1 a); lra. Qed.
Lemma reflect_inv x y : mmul (mreflect x y) (mreflect x y) = identity.
Proof. destruct x, y; mateq. Qed.
Lemma scale_inv x y : x <> 0 -> y <> 0 -> mmul (mscale x y) (mscale (/ x) (/ y)) = identity.
Proof. intros. mateq; field; assumption. Qed.

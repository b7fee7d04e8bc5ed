(** Similarity transforms act on segments point by point. *)
From Coq Require Import Reals Lra Lia Psatz.
From Verif Require Import Base Num NumReal GeomModel GeoSpec GeoProofs ShapeProofs.
Open Scope R_scope.

Definition lin (m : mat R) (v : vec R) : vec R :=
  MkVec (m00 m * vx v + m01 m * vy v) (m10 m * vx v + m11 m * vy v).
Lemma transform_lin m v : v_transform m v = plus (lin m v) (v_transform m origin).
Proof. apply vec_eq; cbn; ring. Qed.
Lemma minus_transform m a b : minus (v_transform m a) (v_transform m b) = lin m (minus a b).
Proof. apply vec_eq; cbn; ring. Qed.
Lemma transform_plus m a b : v_transform m (plus a b) = plus (v_transform m a) (lin m b).
Proof. apply vec_eq; cbn; ring. Qed.
Lemma lin_times m k a : lin m (times k a) = times k (lin m a).
Proof. apply vec_eq; cbn; ring. Qed.

Lemma sumsq0 x y : x * x + y * y = 0 -> x = 0 /\ y = 0.
Proof. intros H. pose proof (Rle_0_sqr x). pose proof (Rle_0_sqr y). unfold Rsqr in *. split; nra. Qed.

(** The linear part of a similarity is a scaled rotation or a scaled reflection. *)
Definition rot_like (m : mat R) : Prop := m11 m = m00 m /\ m01 m = - m10 m.
Definition ref_like (m : mat R) : Prop := m11 m = - m00 m /\ m01 m = m10 m.

Lemma similarity_sq m : similarity m ->
  exists q, 0 < q /\ forall u, vx (lin m u) * vx (lin m u) + vy (lin m u) * vy (lin m u)
                             = q * (vx u * vx u + vy u * vy u).
Proof.
  intros (s & Hs & H). exists (s * s). split; [nra|]. intros u.
  specialize (H u origin). rewrite !dist_norm, minus_transform in H.
  replace (minus u origin) with u in H by (apply vec_eq; cbn; ring).
  rewrite <- !norm_sq, H. ring.
Qed.
Lemma similarity_shape m : similarity m ->
  (0 < m00 m * m00 m + m10 m * m10 m) /\ (rot_like m \/ ref_like m).
Proof.
  intros H. destruct (similarity_sq m H) as (q & Hq & Q).
  pose proof (Q (MkVec 1 0)) as A. pose proof (Q (MkVec 0 1)) as B. pose proof (Q (MkVec 1 1)) as C.
  cbn in A, B, C.
  set (a := m00 m) in *. set (b := m01 m) in *. set (c := m10 m) in *. set (d := m11 m) in *.
  ring_simplify in A. ring_simplify in B. ring_simplify in C.
  assert (a * b + c * d = 0) as O by nra.
  split; [nra|].
  assert ((a * d - b * c) * (a * d - b * c) = q * q) as D.
  { transitivity ((a * a + c * c) * (b * b + d * d) - (a * b + c * d) * (a * b + c * d)); [ring|].
    rewrite O. replace (a * a + c * c) with q by nra. replace (b * b + d * d) with q by nra. ring. }
  assert ((a * d - b * c - q) * (a * d - b * c + q) = 0) as E by nra.
  unfold rot_like, ref_like. fold a b c d.
  apply Rmult_integral in E. destruct E as [E|E].
  - left. assert ((d - a) * (d - a) + (b + c) * (b + c) = 0) as S by nra.
    apply sumsq0 in S. lra.
  - right. assert ((d + a) * (d + a) + (b - c) * (b - c) = 0) as S by nra.
    apply sumsq0 in S. lra.
Qed.

Lemma lin_turn_rot m t v : rot_like m -> lin m (turn t v) = turn t (lin m v).
Proof. intros [A B]. apply vec_eq; cbn; rewrite A, B; ring. Qed.
Lemma lin_turn_ref m t v : ref_like m -> lin m (turn t v) = turn (- t) (lin m v).
Proof. intros [A B]. apply vec_eq; cbn; rewrite A, B, deg_opp, cos_neg, sin_neg; ring. Qed.

Lemma lin_inj m u v : similarity m -> lin m u = lin m v -> u = v.
Proof.
  intros H E. destruct (similarity_sq m H) as (q & Hq & Q).
  specialize (Q (minus u v)).
  replace (lin m (minus u v)) with origin in Q.
  - cbn in Q.
    assert ((vx u - vx v) * (vx u - vx v) + (vy u - vy v) * (vy u - vy v) = 0) as Z by nra.
    apply sumsq0 in Z. apply vec_eq; lra.
  - apply vec_eq; [apply (f_equal vx) in E|apply (f_equal vy) in E]; cbn in *; lra.
Qed.

Lemma mirrors_det m : mirrors m <-> m00 m * m11 m - m10 m * m01 m < 0.
Proof. unfold mirrors. cbn zeta. cbn [v_transform vx vy minus origin n_add n_mul NumR].
  split; intros H; ring_simplify in H; ring_simplify; lra.
Qed.
Lemma mirrors_ref m : similarity m -> (mirrors m <-> ref_like m).
Proof.
  intros H. destruct (similarity_shape m H) as (P & S). rewrite mirrors_det. destruct S as [[A B]|[A B]].
  - split; [rewrite A, B; nra|]. intros [C D]. rewrite A, B in *. nra.
  - split; [intros _; split; assumption|intros _]. rewrite A, B. nra.
Qed.

(** What the code decides with [m00 * m11 > 0]. *)
Definition keeps (m : mat R) : bool := r_ltb 0 (m00 m * m11 m).
Lemma keeps_spec m : similarity m -> m00 m <> 0 -> (keeps m = true <-> ~ mirrors m).
Proof.
  intros H N. rewrite (mirrors_ref m H). destruct (similarity_shape m H) as (P & S).
  unfold keeps. rewrite r_ltb_lt. destruct S as [[A B]|[A B]]; rewrite A.
  - split; [|nra]. intros _ [C D]. rewrite A in C. nra.
  - split; [nra|]. intros W. exfalso. apply W. split; assumption.
Qed.

Lemma lin_turn m cw t v : similarity m -> m00 m <> 0 ->
  lin m (turn (signed cw t) v) = turn (signed (if keeps m then cw else negb cw) t) (lin m v).
Proof.
  intros H N. destruct (keeps m) eqn:E.
  - apply (keeps_spec m H N) in E. rewrite (mirrors_ref m H) in E.
    destruct (similarity_shape m H) as (_ & [S|S]); [apply lin_turn_rot; exact S|contradiction].
  - assert (ref_like m) as S.
    { destruct (similarity_shape m H) as (_ & [S|S]); [|exact S]. exfalso.
      assert (keeps m = true); [|congruence]. apply (keeps_spec m H N). rewrite (mirrors_ref m H).
      intros [C D]. destruct S as [A B]. rewrite A in C. lra. }
    rewrite lin_turn_ref by exact S. f_equal. destruct cw; cbn; ring.
Qed.

Lemma turns_lin m cw T u v : similarity m -> m00 m <> 0 ->
  (turns (signed (if keeps m then cw else negb cw) T) (lin m u) (lin m v) <-> turns (signed cw T) u v).
Proof.
  intros H N. unfold turns. split; intros (k & Hk & E); exists k; (split; [exact Hk|]).
  - apply (lin_inj m _ _ H). rewrite lin_times, lin_turn by assumption. exact E.
  - rewrite E, lin_times, lin_turn by assumption. reflexivity.
Qed.

Lemma seg_transform_arc m a b c cw :
  seg_transform m (SArc a b c cw) =
  SArc (v_transform m a) (v_transform m b) (v_transform m c) (if keeps m then cw else negb cw).
Proof. cbn [seg_transform]. unfold keeps. cbn [n_ltb n_mul NumR]. rnum. reflexivity. Qed.

Lemma plus_inj a u v : plus a u = plus a v -> u = v.
Proof. intros E. apply vec_eq; [apply (f_equal vx) in E|apply (f_equal vy) in E]; cbn in E; lra. Qed.

Lemma on_line_transform m a b p : similarity m ->
  (on_line (v_transform m a) (v_transform m b) (v_transform m p) <-> on_line a b p).
Proof.
  intros H. unfold on_line. rewrite minus_transform. split; intros (t & Ht & E); exists t; (split; [exact Ht|]).
  - rewrite <- lin_times, <- transform_plus in E.
    rewrite (transform_lin m p), (transform_lin m (plus _ _)) in E.
    apply (lin_inj m _ _ H). apply (plus_inj (v_transform m origin)).
    replace (plus (v_transform m origin) (lin m p)) with (plus (lin m p) (v_transform m origin)) by (apply vec_eq; cbn; ring).
    rewrite E. apply vec_eq; cbn; ring.
  - rewrite E, transform_plus, lin_times. reflexivity.
Qed.
Lemma transform_inj m a b : similarity m -> v_transform m a = v_transform m b -> a = b.
Proof.
  intros H E. rewrite (transform_lin m a), (transform_lin m b) in E. apply (lin_inj m _ _ H).
  apply vec_eq; [apply (f_equal vx) in E|apply (f_equal vy) in E]; cbn in *; lra.
Qed.
Lemma on_arc_transform m a b c cw p : similarity m -> m00 m <> 0 ->
  (on_seg (seg_transform m (SArc a b c cw)) (v_transform m p) <-> on_arc a b c cw p).
Proof.
  intros H N. rewrite seg_transform_arc. cbn [on_seg]. unfold on_arc, sweep. rewrite !minus_transform.
  split; intros (T & t & (HT & S) & Ht & E); exists T, t.
  - rewrite turns_lin in S by assumption. split; [split; assumption|]. split; [exact Ht|].
    apply (transform_inj m _ _ H). rewrite E, transform_plus, lin_turn by assumption. reflexivity.
  - rewrite turns_lin by assumption. split; [split; assumption|]. split; [exact Ht|].
    rewrite E, transform_plus, lin_turn by assumption. reflexivity.
Qed.
Lemma seg_transform_points m s p : similarity m -> m00 m <> 0 ->
  (on_seg (seg_transform m s) (v_transform m p) <-> on_seg s p).
Proof.
  intros H N. destruct s as [a b|a b c cw]; [|apply on_arc_transform; assumption].
  cbn [seg_transform on_seg]. apply on_line_transform. exact H.
Qed.
Lemma seg_transform_fair m s : similarity m -> (fair (seg_transform m s) <-> fair s).
Proof.
  intros (k & Hk & H). destruct s as [a b|a b c cw]; cbn [seg_transform fair]; [tauto|].
  rewrite !H. split; intros E; [nra|rewrite E; reflexivity].
Qed.

(** Every point of the plane is an image. *)
Lemma transform_onto m q : similarity m -> exists p, v_transform m p = q.
Proof.
  intros H. destruct (similarity_shape m H) as (P & S).
  set (D := m00 m * m00 m + m10 m * m10 m) in *.
  set (w := minus q (v_transform m origin)).
  exists (MkVec ((m00 m * vx w + m10 m * vy w) / D) ((m01 m * vx w + m11 m * vy w) / D)).
  transitivity (plus w (v_transform m origin)); [|apply vec_eq; cbn; ring].
  rewrite transform_lin. f_equal. apply vec_eq; destruct S as [[A B]|[A B]]; cbn [lin vx vy];
    rewrite ?A, ?B; unfold D; field; unfold D in P; lra.
Qed.

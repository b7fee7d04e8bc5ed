(** The outlines drawn by the shape constructors. *)
From Coq Require Import Reals Lra Lia Psatz.
From Verif Require Import Base Num NumReal GeomModel GeoSpec GeoProofs ShapeProofs SimilarProofs PolyProofs.
Open Scope R_scope.

Ltac vring := apply vec_eq; cbn; try ring.

Lemma on_line_start a b : on_line a b a.
Proof. exists 0. split; [lra|]. vring. Qed.
Lemma on_line_end a b : on_line a b b.
Proof. exists 1. split; [lra|]. vring. Qed.
Lemma on_line_point a p : on_line a a p <-> p = a.
Proof.
  split; [|intros ->; apply on_line_start]. intros (t & _ & ->). vring.
Qed.
Lemma on_line_flip a b p : on_line a b p -> on_line b a p.
Proof. intros (t & Ht & ->). exists (1 - t). split; [lra|]. vring. Qed.

(** *** Half circles *)
Definition cross (u v : vec R) : R := vx u * vy v - vy u * vx v.
Lemma cross_turn t u : cross u (turn t u) = norm u * norm u * sin (deg t).
Proof. rewrite norm_sq. unfold cross. cbn. ring. Qed.
Lemma turn_180 u : turn 180 u = times (-1) u.
Proof. apply vec_eq; cbn; rewrite deg_180, cos_PI, sin_PI; ring. Qed.
Lemma turn_m180 u : turn (-180) u = times (-1) u.
Proof.
  assert (deg (-180) = - PI) as E by (unfold deg; field).
  apply vec_eq; cbn; rewrite E, cos_neg, sin_neg, cos_PI, sin_PI; ring.
Qed.
Lemma turn_90 u : turn 90 u = MkVec (- vy u) (vx u).
Proof. apply vec_eq; cbn; rewrite deg_90, cos_PI2, sin_PI2; ring. Qed.
Lemma sin_half t : 0 <= t < 360 -> (0 <= sin (deg t) <-> t <= 180).
Proof.
  intros Ht. pose proof PI_RGT_0. split.
  - intros S. destruct (Rle_dec t 180) as [|N]; [assumption|]. exfalso.
    assert (sin (deg t) < 0); [|lra]. apply sin_lt_0.
    + rewrite <- deg_180. apply (proj1 (deg_lt _ _)). lra.
    + rewrite <- deg_360. apply (proj1 (deg_lt _ _)). lra.
  - intros L. apply sin_ge_0.
    + rewrite <- deg_0. apply (proj1 (deg_le _ _)). lra.
    + rewrite <- deg_180. apply (proj1 (deg_le _ _)). lra.
Qed.
Lemma same_norm_turn u v : u <> origin -> norm u = norm v ->
  exists t, 0 <= t < 360 /\ v = turn t u.
Proof.
  intros Hu E. assert (v <> origin) as Hv.
  { intros ->. rewrite (proj2 (norm_0 origin) eq_refl) in E. pose proof (norm_pos u Hu). lra. }
  exists (angle_cc u v). split; [apply angle_cc_range|].
  apply (turns_exact _ _ _ E). apply angle_cc_turns; assumption.
Qed.
Lemma half_sweep cw u T : u <> origin -> sweep cw u (times (-1) u) T -> T = 180.
Proof.
  intros Hu (HT & H). apply (signed_unique cw T 180 u (times (-1) u) Hu); auto; [lra|].
  exists 1. split; [lra|]. destruct cw; cbn [signed].
  - rewrite turn_m180. vring.
  - rewrite turn_180. vring.
Qed.
Lemma half_sweep' cw u : sweep cw u (times (-1) u) 180.
Proof.
  split; [lra|]. exists 1. split; [lra|]. destruct cw; cbn [signed].
  - rewrite turn_m180. vring.
  - rewrite turn_180. vring.
Qed.
Lemma half_arc a b c cw p : minus a c <> origin -> minus b c = times (-1) (minus a c) ->
  (on_arc a b c cw p <->
   dist p c = norm (minus a c) /\
   (if cw then cross (minus a c) (minus p c) <= 0 else 0 <= cross (minus a c) (minus p c))).
Proof.
  intros Hu Hb. unfold on_arc. rewrite Hb. set (u := minus a c) in *.
  assert (0 < norm u * norm u) as N by (pose proof (norm_pos u Hu); nra).
  split.
  - intros (T & t & S & Ht & ->). apply (half_sweep cw u T Hu) in S. subst T.
    assert (minus (plus c (turn (signed cw t) u)) c = turn (signed cw t) u) as E by vring.
    rewrite dist_norm, E, norm_turn, cross_turn. split; [reflexivity|].
    assert (0 <= sin (deg t)) by (apply sin_half; lra).
    destruct cw; cbn [signed]; [rewrite deg_opp, sin_neg|]; nra.
  - intros [D C]. rewrite dist_norm in D.
    destruct (same_norm_turn u (minus p c) Hu (eq_sym D)) as (t & Ht & E).
    assert (p = plus c (minus p c)) as P by vring.
    destruct cw; cbn [signed].
    + rewrite E, cross_turn in C. assert (sin (deg t) <= 0) as S by nra.
      destruct (Req_dec t 0) as [->|NZ].
      * exists 180, 0. split; [apply half_sweep'|]. split; [lra|].
        rewrite Ropp_0. rewrite P, E. reflexivity.
      * assert (0 <= sin (deg (360 - t))).
        { rewrite deg_minus, sin_minus, deg_360, sin_2PI, cos_2PI. lra. }
        apply sin_half in H; [|lra].
        exists 180, (360 - t). split; [apply (half_sweep' true)|]. split; [lra|].
        replace (- (360 - t)) with (t + -360) by ring. rewrite P, E.
        replace (turn t u) with (turn (t + -360) u); [reflexivity|].
        rewrite <- (turn_360 (t + -360)). f_equal. ring.
    + rewrite E, cross_turn in C. assert (0 <= sin (deg t)) as S by nra. apply sin_half in S; [|lra].
      exists 180, t. split; [apply (half_sweep' false)|]. split; [lra|]. rewrite P, E. reflexivity.
Qed.

(** *** Circles *)
Lemma half_n2 (d : R) : n_div d n2 = d / 2. Proof. cbn [n_div NumR]. rnum. reflexivity. Qed.
Lemma circle_outline c d neg m p : 0 < d -> (outline (new_circle c d neg m) p <-> circle_line c d p).
Proof.
  intros Hd. unfold outline, new_circle, circle_line, at_. cbv zeta. rewrite half_n2.
  cbn [sh_segs joined ends fst snd n_add n_sub NumR].
  set (l := MkVec (vx c - d / 2) (vy c)). set (r := MkVec (vx c + d / 2) (vy c)).
  assert (minus l c = MkVec (- (d / 2)) 0) as El by vring.
  assert (minus r c = MkVec (d / 2) 0) as Er by vring.
  assert (minus l c <> origin) as Nl by (rewrite El; intros E; apply (f_equal vx) in E; cbn in E; lra).
  assert (minus r c <> origin) as Nr by (rewrite Er; intros E; apply (f_equal vx) in E; cbn in E; lra).
  assert (norm (minus l c) = d / 2) as Ml.
  { rewrite El. unfold norm. cbn. replace (- (d / 2) * - (d / 2) + 0 * 0) with (d / 2 * (d / 2)) by ring. apply sqrt_square. lra. }
  assert (norm (minus r c) = d / 2) as Mr.
  { rewrite Er. unfold norm. cbn. replace (d / 2 * (d / 2) + 0 * 0) with (d / 2 * (d / 2)) by ring. apply sqrt_square. lra. }
  assert (on_arc l r c true p <-> dist p c = d / 2 /\ cross (minus l c) (minus p c) <= 0) as A1.
  { rewrite <- Ml at 1. apply (half_arc l r c true p Nl). rewrite El, Er. vring. }
  assert (on_arc r l c true p <-> dist p c = d / 2 /\ cross (minus r c) (minus p c) <= 0) as A2.
  { rewrite <- Mr at 1. apply (half_arc r l c true p Nr). rewrite El, Er. vring. }
  split.
  - intros (x & Hx & On). cbn [In] in Hx.
    destruct Hx as [<-|[<-|[<-|[<-|[]]]]]; cbn [on_seg] in On.
    + apply A1 in On. tauto.
    + apply on_line_point in On. subst p. rewrite dist_norm. exact Mr.
    + apply A2 in On. tauto.
    + apply on_line_point in On. subst p. rewrite dist_norm. exact Ml.
  - intros D. destruct (Rle_dec (cross (minus l c) (minus p c)) 0) as [L|L].
    + eexists. split; [left; reflexivity|]. apply A1. auto.
    + eexists. split; [right; right; left; reflexivity|]. apply A2. split; [exact D|].
      rewrite El in L. rewrite Er. unfold cross in *. cbn in *. lra.
Qed.

(** *** Rectangles *)
Lemma on_line_h x0 x1 y p : x0 < x1 -> (on_line (MkVec x0 y) (MkVec x1 y) p <-> x0 <= vx p <= x1 /\ vy p = y).
Proof.
  intros H. split.
  - intros (t & Ht & ->). cbn. split; [nra|ring].
  - intros [L E]. exists ((vx p - x0) / (x1 - x0)). split.
    + split; [apply Rmult_le_pos; [lra|left; apply Rinv_0_lt_compat; lra]|].
      apply (Rmult_le_reg_r (x1 - x0)); [lra|]. unfold Rdiv. rewrite Rmult_assoc, Rinv_l by lra. lra.
    + apply vec_eq; cbn; [field; lra|rewrite E; ring].
Qed.
Lemma on_line_v x y0 y1 p : y0 < y1 -> (on_line (MkVec x y0) (MkVec x y1) p <-> y0 <= vy p <= y1 /\ vx p = x).
Proof.
  intros H. split.
  - intros (t & Ht & ->). cbn. split; [nra|ring].
  - intros [L E]. exists ((vy p - y0) / (y1 - y0)). split.
    + split; [apply Rmult_le_pos; [lra|left; apply Rinv_0_lt_compat; lra]|].
      apply (Rmult_le_reg_r (y1 - y0)); [lra|]. unfold Rdiv. rewrite Rmult_assoc, Rinv_l by lra. lra.
    + apply vec_eq; cbn; [rewrite E; ring|field; lra].
Qed.
Lemma on_line_sym a b p : on_line a b p <-> on_line b a p.
Proof. split; apply on_line_flip. Qed.
Lemma Rabs_le_iff x b : Rabs x <= b <-> - b <= x <= b.
Proof. unfold Rabs. destruct (Rcase_abs x); split; lra. Qed.
Lemma Rabs_eq_iff x b : 0 <= b -> (Rabs x = b <-> x = b \/ x = - b).
Proof. intros. unfold Rabs. destruct (Rcase_abs x); split; lra. Qed.

Lemma rectangle_outline c w h neg m p : 0 < w -> 0 < h ->
  (outline (new_rectangle c w h neg m) p <-> rectangle_line c w h p).
Proof.
  intros Hw Hh. unfold outline, new_rectangle, rectangle_line, at_. cbv zeta. rewrite !half_n2.
  cbn [sh_segs joined ends fst snd n_add n_sub NumR].
  rewrite !Rabs_le_iff, !Rabs_eq_iff by lra.
  set (l := vx c - w / 2). set (r := vx c + w / 2). set (b := vy c - h / 2). set (t := vy c + h / 2).
  pose proof (on_line_h l r b p ltac:(unfold l, r; lra)) as B.
  pose proof (on_line_v r b t p ltac:(unfold b, t; lra)) as R.
  pose proof (on_line_h l r t p ltac:(unfold l, r; lra)) as T. rewrite on_line_sym in T.
  pose proof (on_line_v l b t p ltac:(unfold b, t; lra)) as L. rewrite on_line_sym in L.
  assert (l < r /\ b < t) as O by (unfold l, r, b, t; lra).
  split.
  - intros (x & Hx & On). cbn [In] in Hx.
    destruct Hx as [<-|[<-|[<-|[<-|[<-|[<-|[<-|[<-|[]]]]]]]]]; cbn [on_seg] in On;
      try apply on_line_point in On; try subst p; cbn [vx vy];
      try apply B in On; try apply R in On; try apply T in On; try apply L in On;
      unfold l, r, b, t in *; lra.
  - intros (P & Q & [[E|E]|[E|E]]).
    + exists (SLine (MkVec r b) (MkVec r t)). split; [cbn; auto|]. apply R. unfold l, r, b, t in *; lra.
    + exists (SLine (MkVec l t) (MkVec l b)). split; [cbn; auto 10|]. apply L. unfold l, r, b, t in *; lra.
    + exists (SLine (MkVec r t) (MkVec l t)). split; [cbn; auto 10|]. apply T. unfold l, r, b, t in *; lra.
    + exists (SLine (MkVec l b) (MkVec r b)). split; [cbn; auto 10|]. apply B. unfold l, r, b, t in *; lra.
Qed.

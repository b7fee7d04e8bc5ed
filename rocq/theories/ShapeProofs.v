(** Lemmas about segments, boxes, similarity transforms and polygons over the reals. *)
From Coq Require Import Reals Lra Lia Psatz.
From Verif Require Import Base Num NumReal GeomModel GeoSpec GeoProofs.
Open Scope R_scope.

(** *** boxes *)
Lemma b_of_vecs_spec (vs : list (vec R)) : forall v, exists x0 y0 x1 y1,
  b_of_vecs v vs = BoxOf x0 y0 x1 y1 /\
  forall w, In w (v :: vs) -> x0 <= vx w <= x1 /\ y0 <= vy w <= y1.
Proof.
  intros v. unfold b_of_vecs.
  assert (forall x0 y0 x1 y1 (ws : list (vec R)), 
    exists x0' y0' x1' y1', fold_left b_extend ws (BoxOf x0 y0 x1 y1) = BoxOf x0' y0' x1' y1' /\
      x0' <= x0 /\ y0' <= y0 /\ x1 <= x1' /\ y1 <= y1' /\
      forall w, In w ws -> x0' <= vx w <= x1' /\ y0' <= vy w <= y1') as G.
  { intros x0 y0 x1 y1 ws; revert x0 y0 x1 y1; induction ws as [|w ws IH]; intros x0 y0 x1 y1.
    - exists x0, y0, x1, y1. cbn. repeat split; try lra; try contradiction.
    - cbn [fold_left b_extend]. rewrite !r_min, !r_max.
      destruct (IH (Rmin x0 (vx w)) (Rmin y0 (vy w)) (Rmax x1 (vx w)) (Rmax y1 (vy w)))
        as (a & b & c & d & E & A & B & C & D & F).
      pose proof (Rmin_l x0 (vx w)); pose proof (Rmin_r x0 (vx w)).
      pose proof (Rmin_l y0 (vy w)); pose proof (Rmin_r y0 (vy w)).
      pose proof (Rmax_l x1 (vx w)); pose proof (Rmax_r x1 (vx w)).
      pose proof (Rmax_l y1 (vy w)); pose proof (Rmax_r y1 (vy w)).
      exists a, b, c, d. split; [exact E|]. repeat split; try lra;
        destruct H7 as [<-|Hw]; try lra; apply F in Hw; lra. }
  destruct (G (vx v) (vy v) (vx v) (vy v) vs) as (a & b & c & d & E & A & B & C & D & F).
  exists a, b, c, d. split; [exact E|]. intros w [<-|Hw]; [lra|apply F; exact Hw].
Qed.

Definition dot (a b : vec R) : R := vx a * vx b + vy a * vy b.
Lemma in_b_of_vecs v vs p :
  (forall u, In u [MkVec 1 0; MkVec (-1) 0; MkVec 0 1; MkVec 0 (-1)] ->
             exists w, In w (v :: vs) /\ dot p u <= dot w u) ->
  in_box (b_of_vecs v vs) p.
Proof.
  intros H. destruct (b_of_vecs_spec vs v) as (a & b & c & d & -> & F). cbn [in_box].
  assert (In (MkVec 1 0) [MkVec 1 0; MkVec (-1) 0; MkVec 0 1; MkVec 0 (-1)]) as I1 by (cbn; auto).
  assert (In (MkVec (-1) 0) [MkVec 1 0; MkVec (-1) 0; MkVec 0 1; MkVec 0 (-1)]) as I2 by (cbn; auto).
  assert (In (MkVec 0 1) [MkVec 1 0; MkVec (-1) 0; MkVec 0 1; MkVec 0 (-1)]) as I3 by (cbn; auto).
  assert (In (MkVec 0 (-1)) [MkVec 1 0; MkVec (-1) 0; MkVec 0 1; MkVec 0 (-1)]) as I4 by (cbn; auto).
  destruct (H _ I1) as (w1 & W1 & L1), (H _ I2) as (w2 & W2 & L2),
    (H _ I3) as (w3 & W3 & L3), (H _ I4) as (w4 & W4 & L4).
  apply F in W1, W2, W3, W4. unfold dot in *. cbn in *. lra.
Qed.
Lemma in_b_join_l a b p : in_box a p -> in_box (b_join a b) p.
Proof.
  destruct a as [|a1 a2 a3 a4], b as [|b1 b2 b3 b4]; cbn; try tauto.
  rewrite !r_min, !r_max. pose proof (Rmin_l a1 b1). pose proof (Rmin_l a2 b2).
  pose proof (Rmax_l a3 b3). pose proof (Rmax_l a4 b4). lra.
Qed.
Lemma in_b_join_r a b p : in_box b p -> in_box (b_join a b) p.
Proof.
  destruct a as [|a1 a2 a3 a4], b as [|b1 b2 b3 b4]; cbn; try tauto.
  rewrite !r_min, !r_max. pose proof (Rmin_r a1 b1). pose proof (Rmin_r a2 b2).
  pose proof (Rmax_r a3 b3). pose proof (Rmax_r a4 b4). lra.
Qed.

(** *** modulo 360 *)
Lemma r_mod360_range x : 0 <= r_mod360 x < 360.
Proof.
  unfold r_mod360. destruct (base_Int_part (x / 360)) as [A B].
  assert (x = 360 * (x / 360)) by field. lra.
Qed.
Lemma Int_part_unique x z : IZR z <= x < IZR z + 1 -> Int_part x = z.
Proof.
  intros H. destruct (base_Int_part x) as [A B].
  assert (IZR (Int_part x) < IZR z + 1) by lra. assert (IZR z < IZR (Int_part x) + 1) by lra.
  rewrite <- plus_IZR in *. apply lt_IZR in H0, H1. lia.
Qed.
Lemma r_mod360_id x : 0 <= x < 360 -> r_mod360 x = x.
Proof. intros H. unfold r_mod360. rewrite (Int_part_unique _ 0); [lra|]. lra. Qed.
Lemma r_mod360_360 : r_mod360 360 = 0.
Proof. unfold r_mod360. rewrite (Int_part_unique _ 1); [lra|]. lra. Qed.
Lemma mod_angle a b : r_mod360 (angle_between a b) = if Req_EM_T (angle_cc a b) 0 then 0 else angle_between a b.
Proof.
  rewrite angle_between_cc. pose proof (angle_cc_range a b). destruct (Req_EM_T (angle_cc a b) 0) as [E|E].
  - rewrite E, Rminus_0_r. apply r_mod360_360.
  - apply r_mod360_id. lra.
Qed.
Lemma mod_angle_turns a b : a <> origin -> b <> origin -> turns (- r_mod360 (angle_between a b)) a b.
Proof.
  intros Ha Hb. rewrite mod_angle. destruct (Req_EM_T (angle_cc a b) 0) as [E|E].
  - rewrite Ropp_0. rewrite <- E. apply angle_cc_turns; assumption.
  - apply angle_between_turns; assumption.
Qed.
Lemma turns_neg_full t a b : turns (- t) a b -> turns (360 - t) a b.
Proof. intros H. replace (360 - t) with (- t + 360) by ring. apply turns_full. exact H. Qed.

(** *** sweeps *)
Lemma signed_unique cw S T u v : u <> origin -> 0 < S <= 360 -> 0 < T <= 360 ->
  turns (signed cw S) u v -> turns (signed cw T) u v -> S = T.
Proof.
  intros Hu HS HT A B. destruct cw; cbn [signed] in *.
  - apply turns_neg_full in A, B. assert (360 - S = 360 - T); [|lra].
    apply (turns_unique _ _ u v); auto; lra.
  - destruct (Req_dec S 360) as [->|NS], (Req_dec T 360) as [->|NT]; try reflexivity.
    + replace 360 with (0 + 360) in A by ring. rewrite turns_full in A.
      assert (0 = T) by (apply (turns_unique _ _ u v); auto; lra). lra.
    + replace 360 with (0 + 360) in B by ring. rewrite turns_full in B.
      assert (S = 0) by (apply (turns_unique _ _ u v); auto; lra). lra.
    + apply (turns_unique _ _ u v); auto; lra.
Qed.
Lemma turns_exact t u v : norm u = norm v -> turns t u v -> v = turn t u.
Proof.
  intros E (k & Hk & ->). destruct (Req_dec (norm u) 0) as [N|N].
  - apply norm_0 in N. subst. apply vec_eq; cbn; ring.
  - rewrite norm_times, norm_turn in E by lra. assert (k = 1) by nra. subst k.
    apply vec_eq; cbn; ring.
Qed.
Lemma unit_turns t u e : norm e = 1 -> turns t u e -> turn t u = times (norm u) e.
Proof.
  intros E (k & Hk & ->). rewrite norm_times, norm_turn in E by lra.
  apply vec_eq; cbn [times vx vy]; rewrite <- Rmult_assoc, (Rmult_comm (norm u)), E; ring.
Qed.

Lemma cos_convex a b c : 0 <= a <= b -> b <= c <= 2 * PI -> cos b <= Rmax (cos a) (cos c).
Proof.
  intros H1 H2. pose proof PI_RGT_0. destruct (Rle_dec b PI) as [L|L].
  - eapply Rle_trans; [|apply Rmax_l]. destruct (Req_dec a b) as [->|N]; [lra|].
    left. apply cos_decreasing_1; lra.
  - eapply Rle_trans; [|apply Rmax_r]. destruct (Req_dec b c) as [->|N]; [lra|].
    left. apply cos_increasing_1; lra.
Qed.

Lemma dot_turn t e : norm e = 1 -> dot (turn t e) e = cos (deg t).
Proof.
  intros E. pose proof (norm_sq e) as Q. rewrite E in Q. unfold dot. cbn.
  transitivity (cos (deg t) * (vx e * vx e + vy e * vy e)); [ring|]. rewrite <- Q. ring.
Qed.
Lemma dot_times k a b : dot (times k a) b = k * dot a b.
Proof. unfold dot; cbn; ring. Qed.
Lemma dot_toward cw X u e t : norm e = 1 -> turn (signed cw X) u = times (norm u) e ->
  dot (turn (signed cw t) u) e = norm u * cos (deg (X - t)).
Proof.
  intros E F.
  assert (u = turn (- signed cw X) (times (norm u) e)) as U by (rewrite <- F, turn_inv; reflexivity).
  rewrite U at 1. rewrite <- turn_plus, turn_times, dot_times, dot_turn by exact E.
  f_equal. destruct cw; cbn [signed].
  - f_equal. f_equal. ring.
  - replace (t + - X) with (- (X - t)) by ring. rewrite deg_opp, cos_neg. reflexivity.
Qed.
Lemma axis_bound cw X T t u e : norm e = 1 -> 0 <= t <= T -> T <= X <= 360 ->
  turn (signed cw X) u = times (norm u) e ->
  dot (turn (signed cw t) u) e <= Rmax (dot u e) (dot (turn (signed cw T) u) e).
Proof.
  intros E Ht HX F.
  assert (turn (signed cw 0) u = u) as Z.
  { replace (signed cw 0) with 0 by (destruct cw; cbn; ring). apply turn_0. }
  pose proof (dot_toward cw X u e 0 E F) as D0. rewrite Z in D0. rewrite D0.
  rewrite !(dot_toward cw X u e) by assumption. pose proof (norm_ge0 u).
  rewrite RmaxRmult by assumption. apply Rmult_le_compat_l; [assumption|].
  rewrite Rmax_comm.
  assert (deg 0 <= deg (X - T) <= deg (X - t)) as P by (split; apply (proj1 (deg_le _ _)); lra).
  assert (deg (X - t) <= deg (X - 0) <= deg 360) as Q by (split; apply (proj1 (deg_le _ _)); lra).
  rewrite deg_0 in P. rewrite deg_360 in Q. apply cos_convex; assumption.
Qed.
Lemma dot_le_norm u e : norm e = 1 -> dot u e <= norm u.
Proof.
  intros E. pose proof (norm_sq u) as U. pose proof (norm_sq e) as Q. rewrite E in Q.
  pose proof (norm_ge0 u). apply Rsqr_incr_0_var; [|assumption]. unfold Rsqr. rewrite U.
  unfold dot. pose proof (Rle_0_sqr (vx u * vy e - vy u * vx e)) as S. unfold Rsqr in S.
  assert (vx u * vx u + vy u * vy u = (vx u * vx u + vy u * vy u) * (vx e * vx e + vy e * vy e)) as -> by (rewrite <- Q; ring).
  nra.
Qed.

(** *** the box of an arc *)
Lemma unit_xR : unit_x = MkVec 1 0. Proof. unfold unit_x; rnum; reflexivity. Qed.
Lemma unit_yR : unit_y = MkVec 0 1. Proof. unfold unit_y; rnum; reflexivity. Qed.
Lemma neg_xR : v_neg unit_x = MkVec (-1) 0.
Proof. rewrite unit_xR. apply vec_eq; cbn; ring. Qed.
Lemma neg_yR : v_neg unit_y = MkVec 0 (-1).
Proof. rewrite unit_yR. apply vec_eq; cbn; ring. Qed.
Lemma norm_axis e : In e [MkVec 1 0; MkVec (-1) 0; MkVec 0 1; MkVec 0 (-1)] -> norm e = 1.
Proof.
  intros H. cbn [In] in H. unfold norm.
  repeat destruct H as [<-|H]; try contradiction; cbn [vx vy];
    apply eq_trans with (sqrt 1); try apply sqrt_1; f_equal; ring.
Qed.

Definition toward (cw : bool) (u e : vec R) : R :=
  let t := r_mod360 (angle_between u e) in if cw then t else 360 - t.
Definition total (cw : bool) (u v : vec R) : R :=
  let t := angle_between u v in if cw then t else 360 - t.

Lemma arc_vectors_spec a b c cw w :
  In w (arc_vectors a b c cw) <->
  w = minus a c \/ w = minus b c \/
  exists e, In e [MkVec 1 0; MkVec (-1) 0; MkVec 0 1; MkVec 0 (-1)] /\
    toward cw (minus a c) e < total cw (minus a c) (minus b c) /\ w = times (norm (minus a c)) e.
Proof.
  unfold arc_vectors. cbv zeta beta. rewrite neg_xR, neg_yR, unit_xR, unit_yR, (v_sub_minus a c), (v_sub_minus b c), v_len_norm.
  cbn [n_ltb n_opp n_sub n_mod360 NumR]. rnum.
  set (u := minus a c). set (v := minus b c).
  change (if cw then angle_between u v else 360 - angle_between u v) with (total cw u v).
  repeat match goal with |- context [if cw then r_mod360 (angle_between u ?e) else 360 - r_mod360 (angle_between u ?e)] =>
    change (if cw then r_mod360 (angle_between u e) else 360 - r_mod360 (angle_between u e)) with (toward cw u e) end.
  assert (times (norm u) (MkVec 1 0) = MkVec (norm u) 0) as E1 by (apply vec_eq; cbn; ring).
  assert (times (norm u) (MkVec (-1) 0) = MkVec (- norm u) 0) as E2 by (apply vec_eq; cbn; ring).
  assert (times (norm u) (MkVec 0 1) = MkVec 0 (norm u)) as E3 by (apply vec_eq; cbn; ring).
  assert (times (norm u) (MkVec 0 (-1)) = MkVec 0 (- norm u)) as E4 by (apply vec_eq; cbn; ring).
  rewrite !in_app_iff. split.
  - intros H. cbn in H.
    destruct H as [[<-|[<-|[]]]|[H|[H|[H|H]]]]; auto;
      (right; right);
      match type of H with In _ (if ?b then _ else _) => destruct b eqn:B end; try destruct H as [<-|[]]; try contradiction; rdec.
    + exists (MkVec 1 0). cbn; auto.
    + exists (MkVec 0 (-1)). cbn; auto 6.
    + exists (MkVec (-1) 0). cbn; auto.
    + exists (MkVec 0 1). cbn; auto 6.
  - intros [->|[->|(e & He & L & ->)]]; [cbn; auto|cbn; auto|].
    right. apply r_ltb_lt in L. cbn in He.
    repeat destruct He as [<-|He]; try contradiction; rewrite L, ?E1, ?E2, ?E3, ?E4; cbn; auto 6.
Qed.

Lemma toward_spec cw u e : u <> origin -> norm e = 1 ->
  0 <= toward cw u e <= 360 /\ turn (signed cw (toward cw u e)) u = times (norm u) e.
Proof.
  intros Hu He. assert (e <> origin) as Ho by (intros ->; rewrite (proj2 (norm_0 origin) eq_refl) in He; lra).
  pose proof (mod_angle_turns u e Hu Ho) as T. pose proof (r_mod360_range (angle_between u e)).
  unfold toward. destruct cw; cbn [signed]; (split; [lra|]); apply unit_turns; try exact He.
  - exact T.
  - apply turns_neg_full. exact T.
Qed.
Lemma total_spec cw u v : u <> origin -> v <> origin ->
  0 <= total cw u v <= 360 /\ (cw = true -> 0 < total cw u v) /\ turns (signed cw (total cw u v)) u v.
Proof.
  intros Hu Hv. pose proof (angle_between_turns u v Hu Hv) as T. pose proof (angle_cc_range u v).
  rewrite angle_between_cc in T. unfold total. rewrite angle_between_cc.
  destruct cw; cbn [signed]; (split; [lra|split; [|]]); try (intro; lra); try discriminate.
  - exact T.
  - apply turns_neg_full. exact T.
Qed.

Lemma dist_norm a c : dist a c = norm (minus a c). Proof. reflexivity. Qed.
Lemma minus_0 a c : minus a c = origin -> a = c.
Proof. intros H. apply vec_eq; [apply (f_equal vx) in H|apply (f_equal vy) in H]; cbn in H; lra. Qed.

Lemma turn_origin t : turn t origin = origin.
Proof. apply vec_eq; cbn; ring. Qed.

Lemma arc_in_box a b c cw p :
  fair (SArc a b c cw) -> ~ full_ccw (SArc a b c cw) ->
  on_arc a b c cw p -> in_box (seg_box (SArc a b c cw)) p.
Proof.
  intros Hf Hn (T & t & (HT & Hturn) & Ht & ->). cbn [fair] in Hf. rewrite !dist_norm in Hf.
  cbn [seg_box]. rnum. change (MkVec 0 0) with origin. rewrite v_add_plus.
  apply in_b_of_vecs. intros e He. pose proof (norm_axis e He) as Ne.
  assert (forall w, dot (plus c w) e = dot c e + dot w e) as DP by (intros w; unfold dot; cbn; ring).
  assert (exists w, (w = origin \/ In w (arc_vectors a b c cw)) /\ dot (turn (signed cw t) (minus a c)) e <= dot w e) as (w & Hw & L).
  2:{ exists (v_add w c). rewrite v_add_plus. split.
      - destruct Hw as [->|Hw]; [left; reflexivity|right].
        apply in_map_iff. exists w. split; [rewrite v_add_plus; reflexivity|exact Hw].
      - rewrite DP. replace (plus w c) with (plus c w) by (apply vec_eq; cbn; ring). rewrite DP. lra. }
  set (u := minus a c) in *. set (v := minus b c) in *.
  destruct (Req_dec (norm u) 0) as [Z|Z].
  { apply norm_0 in Z. rewrite Z, turn_origin. exists origin. split; [auto|lra]. }
  assert (u <> origin) as Hu by (intros E; apply Z; rewrite E; apply norm_0; reflexivity).
  assert (v <> origin) as Hv by (intros E; rewrite E, (proj2 (norm_0 origin) eq_refl) in Hf; lra).
  destruct (total_spec cw u v Hu Hv) as (Tr & Tp & Tt).
  assert (total cw u v = T) as ET.
  { destruct (Req_dec (total cw u v) 0) as [E0|N0].
    - exfalso. destruct cw; [specialize (Tp eq_refl); lra|]. apply Hn. cbn.
      rewrite E0 in Tt. cbn in Tt. apply (turns_exact _ _ _ Hf) in Tt. rewrite turn_0 in Tt.
      split.
      + unfold u, v in Tt. apply vec_eq; [apply (f_equal vx) in Tt|apply (f_equal vy) in Tt]; cbn in Tt; lra.
      + intros ->. apply Hu. unfold u. apply vec_eq; cbn; ring.
    - apply (signed_unique cw _ _ u v Hu); auto. lra. }
  destruct (toward_spec cw u e Hu Ne) as (Xr & Xt).
  destruct (Rlt_dec (toward cw u e) (total cw u v)) as [L|L].
  - exists (times (norm u) e). split.
    + right. apply arc_vectors_spec. right; right. exists e. auto.
    + rewrite dot_times. pose proof (norm_sq e) as Q. rewrite Ne in Q. unfold dot at 2. rewrite <- Q.
      rewrite !Rmult_1_r. rewrite <- (norm_turn (signed cw t) u). apply dot_le_norm. exact Ne.
  - pose proof (axis_bound cw (toward cw u e) T t u e Ne Ht ltac:(lra) Xt) as B.
    rewrite <- (turns_exact _ _ _ Hf Hturn) in B.
    unfold Rmax in B. destruct (Rle_dec (dot u e) (dot v e)).
    + exists v. split; [right; apply arc_vectors_spec; auto|exact B].
    + exists u. split; [right; apply arc_vectors_spec; auto|exact B].
Qed.
Lemma line_in_box a b p : on_line a b p -> in_box (seg_box (SLine a b)) p.
Proof.
  intros (t & Ht & ->). cbn [seg_box]. apply in_b_of_vecs. intros e He.
  destruct (Rle_dec (dot a e) (dot b e)) as [L|L].
  - exists b. split; [cbn; auto|]. unfold dot in *. cbn. nra.
  - exists a. split; [cbn; auto|]. unfold dot in *. cbn. nra.
Qed.
Lemma seg_in_box s p : fair s -> ~ full_ccw s -> on_seg s p -> in_box (seg_box s) p.
Proof. destruct s; cbn [on_seg]; intros; [apply line_in_box; assumption|apply arc_in_box; assumption]. Qed.

Lemma shape_in_box ss s p neg m : In s ss -> in_box (seg_box s) p -> in_box (shape_box (MkShape ss neg m)) p.
Proof.
  unfold shape_box. cbn [sh_segs]. destruct ss as [|x r]; [contradiction|]. intros Hin Hp.
  assert (forall r b, in_box b p -> in_box (fold_left (fun b s => b_join b (seg_box s)) r b) p) as G.
  { clear. induction r as [|y r IH]; intros b H; cbn; [exact H|]. apply IH. apply in_b_join_l. exact H. }
  destruct Hin as [->|Hin]; [apply G; exact Hp|].
  revert Hin. generalize (seg_box x). induction r as [|y r IH]; intros b Hin; [contradiction|]. cbn.
  destruct Hin as [->|Hin]; [apply G; apply in_b_join_r; exact Hp|apply IH; exact Hin].
Qed.

(** Lemmas about the discretisation of arcs. *)
From Coq Require Import Reals Lra Lia Psatz.
From Verif Require Import Base Num NumReal Ast StateModel GeomModel GeoSpec GeoProofs ShapeProofs ArcModel.
Open Scope R_scope.

Definition dir (up : bool) : R := if up then 1 else -1.

(** *** The generator *)
Lemma gen_angles_spec up stop delta N : forall fuel k cur0,
  (forall j, (k <= j)%nat -> ((j < N)%nat <-> INR j * delta < dir up * (stop - cur0))) ->
  (N - k <= fuel)%nat ->
  gen_angles fuel up (cur0 + dir up * (INR k * delta)) stop delta
  = Ok (map (fun j => cur0 + dir up * (INR j * delta)) (seq k (N - k)) ++ [stop]).
Proof.
  induction fuel as [|f IH]; intros k cur0 HN HF.
  - replace (N - k)%nat with 0%nat by lia. cbn [seq map app gen_angles n_ltb NumR].
    assert (~ INR k * delta < dir up * (stop - cur0)) as L by (intros L; apply HN in L; lia).
    destruct up; cbn [dir] in *;
      match goal with |- context [r_ltb ?a ?b] => destruct (r_ltb a b) eqn:E end; rdec; try reflexivity; lra.
  - cbn [gen_angles n_ltb NumR].
    destruct (Nat.lt_ge_cases k N) as [L|L].
    + pose proof (proj1 (HN k (le_n _)) L) as B.
      assert ((if up then r_ltb (cur0 + dir up * (INR k * delta)) stop
               else r_ltb stop (cur0 + dir up * (INR k * delta))) = true) as ->.
      { destruct up; cbn [dir] in *; apply r_ltb_lt; lra. }
      cbn [n_add n_sub NumR].
      replace (if up then cur0 + dir up * (INR k * delta) + delta else cur0 + dir up * (INR k * delta) - delta)
        with (cur0 + dir up * (INR (S k) * delta)) by (rewrite S_INR; destruct up; cbn [dir]; ring).
      rewrite (IH (S k) cur0); [|intros; apply HN; lia|lia]. cbn [bind].
      replace (N - k)%nat with (S (N - S k)) by lia. reflexivity.
    + replace (N - k)%nat with 0%nat by lia. cbn [seq map app].
      assert (~ INR k * delta < dir up * (stop - cur0)) as B by (intros B; apply HN in B; lia).
      assert ((if up then r_ltb (cur0 + dir up * (INR k * delta)) stop
               else r_ltb stop (cur0 + dir up * (INR k * delta))) = false) as ->.
      { destruct up; cbn [dir] in *; apply r_ltb_ge; lra. }
      reflexivity.
Qed.

(** The number of steps below a bound. *)
Lemma count_below delta g : 0 < delta -> exists N, forall j, (j < N)%nat <-> INR j * delta < g.
Proof.
  intros Hd.
  assert (exists m, g <= INR m * delta) as (m & Hm).
  { exists (Z.to_nat (Z.max 0 (up (g / delta)))).
    rewrite INR_IZR_INZ, Z2Nat.id by lia. destruct (archimed (g / delta)) as [A _].
    assert (g = g / delta * delta) by (field; lra).
    assert (IZR (up (g / delta)) <= IZR (Z.max 0 (up (g / delta)))) by (apply IZR_le; lia). nra. }
  assert (forall m, exists N, (forall j, (j < N)%nat -> INR j * delta < g) /\ (N <= m)%nat /\
            ((N < m)%nat -> g <= INR N * delta)) as G.
  { clear m Hm. induction m as [|m (N & A & B & C)].
    - exists 0%nat. repeat split; intros; lia.
    - destruct (Nat.eq_dec N m) as [->|Ne].
      + destruct (Rlt_dec (INR m * delta) g) as [L|L].
        * exists (S m). split; [|split; [lia|lia]]. intros j Hj.
          destruct (Nat.eq_dec j m) as [->|]; [exact L|apply A; lia].
        * exists m. split; [exact A|]. split; [lia|]. intros _. lra.
      + exists N. split; [exact A|]. split; [lia|]. intros _. apply C. lia. }
  destruct (G m) as (N & A & B & C). exists N. intros j. split; [apply A|].
  intros L. destruct (Nat.lt_ge_cases j N) as [|H]; [assumption|].
  assert (INR N <= INR j) by (apply le_INR; exact H).
  assert (g <= INR N * delta); [|nra].
  destruct (Nat.eq_dec N m) as [->|]; [exact Hm|apply C; lia].
Qed.

(** *** The polar angle of a point *)
Lemma start_angle_range a c : 0 <= arc_start_angle a c < 360.
Proof. apply r_mod360_range. Qed.
Lemma start_angle_spec a c : minus a c <> origin ->
  minus a c = times (norm (minus a c)) (turn (arc_start_angle a c) (MkVec 1 0)).
Proof.
  intros H. unfold arc_start_angle. change (v_sub a c) with (minus a c). rewrite unit_xR. cbn [n_mod360 NumR].
  assert (norm (MkVec 1 0) = 1) as N by (apply norm_axis; cbn; auto).
  assert (MkVec 1 0 <> origin) as O by (intros E; apply (f_equal vx) in E; cbn in E; lra).
  pose proof (unit_turns _ _ _ N (mod_angle_turns _ _ H O)) as E.
  set (w := minus a c) in *. set (s := r_mod360 (angle_between w (MkVec 1 0))) in *.
  rewrite <- turn_times, <- E, <- turn_plus. replace (s + - s) with 0 by ring.
  symmetry. apply turn_0.
Qed.
Lemma start_angle_unique a c t : minus a c <> origin -> 0 <= t < 360 ->
  turns t (MkVec 1 0) (minus a c) -> arc_start_angle a c = t.
Proof.
  intros H Ht T. apply (turns_unique _ _ (MkVec 1 0) (minus a c)); auto.
  - intros E; apply (f_equal vx) in E; cbn in E; lra.
  - apply start_angle_range.
  - exists (norm (minus a c)). split; [apply norm_pos; exact H|apply start_angle_spec; exact H].
Qed.
Lemma start_angle_origin c : arc_start_angle c c = 0.
Proof.
  unfold arc_start_angle. change (v_sub c c) with (minus c c). rewrite unit_xR. cbn [n_mod360 NumR].
  replace (minus c c) with origin by (apply vec_eq; cbn; ring).
  rewrite mod_angle. destruct (Req_EM_T _ 0) as [E|E]; [reflexivity|]. exfalso. apply E.
  destruct (angle_cc_unit origin (MkVec 1 0)) as [R U].
  assert (norm (MkVec 1 0) = 1) as N by (apply norm_axis; cbn; auto).
  assert (MkVec 1 0 <> origin) as O by (intros X; apply (f_equal vx) in X; cbn in X; lra).
  rewrite v_norm_origin, (v_norm_spec _ O), N in U.
  apply (turn_fix _ (MkVec 1 0) O R). exists 1. split; [lra|]. rewrite <- U.
  apply vec_eq; cbn; lra.
Qed.

Lemma arc_point_spec a c t : minus a c <> origin ->
  arc_point a c t = plus c (turn (t - arc_start_angle a c) (minus a c)).
Proof.
  intros H. unfold arc_point. rewrite v_add_plus. f_equal.
  pose proof (start_angle_spec a c H) as E. set (s := arc_start_angle a c) in *.
  transitivity (turn (t - s) (times (norm (minus a c)) (turn s (MkVec 1 0)))); [|rewrite <- E; reflexivity].
  rewrite turn_times, <- turn_plus. replace (t - s + s) with t by ring.
  change (v_len (v_sub a c)) with (norm (minus a c)). apply vec_eq; cbn; ring.
Qed.

(** *** Number of segments *)
Lemma Int_part_ge z x : IZR z <= x -> (z <= Int_part x)%Z.
Proof.
  intros H. destruct (base_Int_part x) as [A B].
  assert (IZR z < IZR (Int_part x) + 1) by lra. rewrite <- plus_IZR in *. apply lt_IZR in H0. lia.
Qed.
Lemma r_trunc_ge z x : (0 <= z)%Z -> IZR z <= x -> (z <= r_trunc x)%Z.
Proof.
  intros Hz H. assert (0 <= IZR z) by (apply (IZR_le 0); exact Hz).
  unfold r_trunc. destruct (Rle_dec 0 x); [|lra]. apply Int_part_ge. exact H.
Qed.
Lemma segment_count_min be (len : R) :
  (match be with Pillow _ => 12 | Shapely => 24 end <= segment_count be len)%Z.
Proof.
  destruct be as [dpmm|]; cbn [segment_count].
  - cbn zeta. destruct (12 <? _)%Z eqn:E; [apply Z.ltb_lt in E|]; lia.
  - cbn [n_trunc n_abs n_mul n_add n_of_Q NumR]. apply r_trunc_ge; [lia|].
    pose proof (Rabs_pos len). replace (Q2R 24) with 24 by (unfold Q2R; cbn; lra).
    replace (Q2R (2 # 5)) with (2 / 5) by (unfold Q2R; cbn; lra). lra.
Qed.

Definition arc_step (be : backend) (a b c : vec R) : R :=
  let d := Rabs (arc_start_angle a c - arc_start_angle b c) in
  d / IZR (segment_count be (d / 360 * (norm (minus a c) * 2 * n_pi))).
Lemma arc_step_bound be a b c : 0 <= arc_step be a b c <= match be with Pillow _ => 30 | Shapely => 15 end.
Proof.
  unfold arc_step. cbn zeta. set (d := Rabs _). set (l := d / 360 * _).
  assert (0 <= d < 360) as Hd.
  { unfold d. split; [apply Rabs_pos|]. pose proof (start_angle_range a c). pose proof (start_angle_range b c).
    unfold Rabs. destruct (Rcase_abs _); lra. }
  pose proof (segment_count_min be l) as M. apply IZR_le in M.
  destruct be.
  - split; [apply Rmult_le_pos; [lra|left; apply Rinv_0_lt_compat; lra]|].
    apply (Rmult_le_reg_r (IZR (segment_count (Pillow dpmm) l))); [lra|].
    unfold Rdiv. rewrite Rmult_assoc, Rinv_l by lra. lra.
  - split; [apply Rmult_le_pos; [lra|left; apply Rinv_0_lt_compat; lra]|].
    apply (Rmult_le_reg_r (IZR (segment_count Shapely l))); [lra|].
    unfold Rdiv. rewrite Rmult_assoc, Rinv_l by lra. lra.
Qed.
Lemma arc_step_pos be a b c : arc_start_angle a c <> arc_start_angle b c -> 0 < arc_step be a b c.
Proof.
  intros H. unfold arc_step. cbn zeta. set (d := Rabs _). set (l := d / 360 * _).
  assert (0 < d) by (apply Rabs_pos_lt; lra).
  pose proof (segment_count_min be l) as M. apply IZR_le in M.
  apply Rdiv_lt_0_compat; [assumption|]. destruct be; lra.
Qed.

(** Where the generator is told to stop. *)
Definition arc_stop (s e : R) (cw : bool) : R :=
  if r_leb s e then (if cw then e - 360 else e) else (if cw then e else e + 360).
Lemma arc_angles_eq be fuel a b c cw :
  arc_angles be fuel a b c cw =
  let s := arc_start_angle a c in let e := arc_start_angle b c in
  if (match be with Pillow _ => negb (r_ltb 0 (arc_step be a b c)) | Shapely => false end)
  then Err EAssertionError
  else gen_angles fuel (negb cw) s (arc_stop s e cw) (arc_step be a b c).
Proof.
  unfold arc_angles. cbv zeta.
  pose proof (start_angle_range a c) as A. pose proof (start_angle_range b c) as B.
  cbn [n_leb n_ltb n_abs n_sub n_div n_add n_mul NumR]. rnum. change (v_len (v_sub a c)) with (norm (minus a c)).
  replace (r_leb 0 (arc_start_angle a c)) with true by (symmetry; apply r_leb_le; lra).
  replace (r_leb 0 (arc_start_angle b c)) with true by (symmetry; apply r_leb_le; lra).
  replace (r_ltb (arc_start_angle a c) 360) with true by (symmetry; apply r_ltb_lt; lra).
  replace (r_ltb (arc_start_angle b c) 360) with true by (symmetry; apply r_ltb_lt; lra).
  cbn [andb negb].
  change (Rabs (arc_start_angle a c - arc_start_angle b c) /
      IZR (segment_count be (Rabs (arc_start_angle a c - arc_start_angle b c) / 360 * (norm (minus a c) * 2 * n_pi))))
    with (arc_step be a b c).
  unfold arc_stop. destruct be.
  - destruct (negb _); [reflexivity|]. destruct (r_leb _ _), cw; reflexivity.
  - pose proof (arc_step_bound Shapely a b c).
    replace (r_leb 0 (arc_step Shapely a b c)) with true by (symmetry; apply r_leb_le; lra). cbn [negb].
    destruct (r_leb (arc_start_angle a c) _), cw; reflexivity.
Qed.

Lemma climbs_seq delta T : 0 < delta -> forall N k,
  (forall j, (k <= j)%nat -> ((j < N)%nat <-> INR j * delta < T)) -> (k < N)%nat ->
  climbs delta (INR k * delta) (map (fun j => INR j * delta) (seq (S k) (N - S k)) ++ [T]) T.
Proof.
  intros Hd N k HN L. remember (N - S k)%nat as m. revert k Heqm HN L.
  induction m as [|m IH]; intros k Hm HN L.
  - cbn. assert (INR k * delta < T) as A by (apply HN; [lia|exact L]).
    assert (~ (S k < N)%nat) as B by lia. rewrite (HN (S k)) in B by lia. rewrite S_INR in B. repeat split; lra.
  - cbn [seq map app climbs]. split.
    + rewrite S_INR. lra.
    + apply IH; [lia|intros; apply HN; lia|lia].
Qed.

Lemma sweep_of a b c cw : minus a c <> origin -> minus b c <> origin ->
  arc_start_angle a c <> arc_start_angle b c ->
  sweep cw (minus a c) (minus b c)
        (dir (negb cw) * (arc_stop (arc_start_angle a c) (arc_start_angle b c) cw - arc_start_angle a c)).
Proof.
  intros Ha Hb N. pose proof (start_angle_range a c) as A. pose proof (start_angle_range b c) as B.
  set (s := arc_start_angle a c) in *. set (e := arc_start_angle b c) in *.
  assert (forall t, turn t (MkVec 1 0) = turn e (MkVec 1 0) -> turns (t - s) (minus a c) (minus b c)) as G.
  { intros t E. exists (norm (minus b c) / norm (minus a c)).
    pose proof (norm_pos _ Ha). pose proof (norm_pos _ Hb).
    split; [apply Rdiv_lt_0_compat; assumption|].
    pose proof (start_angle_spec b c Hb) as EB. fold e in EB. rewrite <- E in EB.
    pose proof (start_angle_spec a c Ha) as EA. fold s in EA.
    transitivity (times (norm (minus b c) / norm (minus a c)) (turn (t - s) (times (norm (minus a c)) (turn s (MkVec 1 0)))));
      [|rewrite <- EA; reflexivity].
    rewrite turn_times, <- turn_plus. replace (t - s + s) with t by ring.
    transitivity (times (norm (minus b c)) (turn t (MkVec 1 0))); [exact EB|].
    apply vec_eq; cbn [times vx vy]; field; lra. }
  assert (turns (e - s) (minus a c) (minus b c)) as T0 by (apply G; reflexivity).
  assert (turns (e - 360 - s) (minus a c) (minus b c)) as T1.
  { apply G. replace e with (e - 360 + 360) at 2 by ring. rewrite turn_360. reflexivity. }
  assert (turns (e + 360 - s) (minus a c) (minus b c)) as T2 by (apply G; apply turn_360).
  unfold sweep, arc_stop. destruct (r_leb s e) eqn:L; rdec; destruct cw; cbn [negb dir signed]; (split; [lra|]).
  - replace (- (-1 * (e - 360 - s))) with (e - 360 - s) by ring. exact T1.
  - replace (1 * (e - s)) with (e - s) by ring. exact T0.
  - replace (- (-1 * (e - s))) with (e - s) by ring. exact T0.
  - replace (1 * (e + 360 - s)) with (e + 360 - s) by ring. exact T2.
Qed.

Lemma arc_samples be a b c cw : minus a c <> origin -> minus b c <> origin ->
  arc_start_angle a c <> arc_start_angle b c ->
  exists n core, samples a b c cw (arc_step be a b c) core /\
    forall fuel, (n <= fuel)%nat ->
      arc_points be fuel a b c cw = Ok (match be with Pillow _ => a :: core ++ [b] | Shapely => core end).
Proof.
  intros Ha Hb Ne. pose proof (arc_step_pos be a b c Ne) as Hd.
  set (s := arc_start_angle a c) in *. set (e := arc_start_angle b c) in *.
  set (stop := arc_stop s e cw). set (T := dir (negb cw) * (stop - s)).
  pose proof (sweep_of a b c cw Ha Hb Ne) as SW. fold s e stop T in SW.
  destruct (count_below (arc_step be a b c) T Hd) as (N & HN).
  assert (0 < N)%nat as N0. { apply HN. cbn. destruct SW as [[? ?] _]. lra. }
  exists N, (map (fun t => plus c (turn (signed cw t) (minus a c)))
               (map (fun j => INR j * arc_step be a b c) (seq 0 N) ++ [T])).
  split.
  - exists T, (map (fun j => INR j * arc_step be a b c) (seq 1 (N - 1)) ++ [T]). split; [exact SW|]. split.
    + pose proof (climbs_seq (arc_step be a b c) T Hd N 0 (fun j _ => HN j) N0) as C.
      cbn [INR] in C. rewrite Rmult_0_l in C. exact C.
    + replace N with (S (N - 1)) at 1 by lia. cbn [seq map app INR]. rewrite Rmult_0_l. reflexivity.
  - intros fuel HF. unfold arc_points. rewrite arc_angles_eq. cbv zeta. fold s e.
    assert ((match be with Pillow _ => negb (r_ltb 0 (arc_step be a b c)) | Shapely => false end) = false) as ->.
    { destruct be; [|reflexivity]. apply Bool.negb_false_iff. apply r_ltb_lt. exact Hd. }
    pose proof (gen_angles_spec (negb cw) stop (arc_step be a b c) N fuel 0 s (fun j _ => HN j) ltac:(lia)) as G.
    cbn [INR] in G. rewrite Rmult_0_l, Rmult_0_r, Rplus_0_r, Nat.sub_0_r in G. fold stop. rewrite G.
    cbn [bind]. 
    assert (map (arc_point a c) (map (fun j => s + dir (negb cw) * (INR j * arc_step be a b c)) (seq 0 N) ++ [stop])
            = map (fun t => plus c (turn (signed cw t) (minus a c)))
               (map (fun j => INR j * arc_step be a b c) (seq 0 N) ++ [T])) as ->; [|reflexivity].
    rewrite !map_app, !map_map. f_equal.
    + apply map_ext. intros j. rewrite arc_point_spec by exact Ha. f_equal. f_equal. fold s.
      destruct cw; cbn [negb dir signed]; ring.
    + cbn [map]. f_equal. rewrite arc_point_spec by exact Ha. f_equal. f_equal. fold s. unfold T.
      destruct cw; cbn [negb dir signed]; ring.
Qed.

(** *** Equal directions *)
Lemma gen_stuck stop cur : stop < cur -> forall fuel, gen_angles fuel false cur stop 0 = Err EOutOfFuel.
Proof.
  intros H fuel. induction fuel as [|f IH]; cbn [gen_angles n_ltb NumR].
  - replace (r_ltb stop cur) with true by (symmetry; apply r_ltb_lt; exact H). reflexivity.
  - replace (r_ltb stop cur) with true by (symmetry; apply r_ltb_lt; exact H).
    cbn [n_sub NumR]. rewrite Rminus_0_r, IH. reflexivity.
Qed.
Lemma arc_step_zero be a b c : arc_start_angle a c = arc_start_angle b c -> arc_step be a b c = 0.
Proof.
  intros E. unfold arc_step. rewrite E. cbv zeta. rewrite Rminus_diag_eq by reflexivity. rewrite Rabs_R0.
  unfold Rdiv. ring.
Qed.
Lemma arc_equal_shapely_cw fuel a b c : arc_start_angle a c = arc_start_angle b c ->
  arc_points Shapely fuel a b c true = Err EOutOfFuel.
Proof.
  intros E. unfold arc_points. rewrite arc_angles_eq. cbv zeta. cbn [negb].
  rewrite arc_step_zero by exact E. unfold arc_stop. rewrite E.
  replace (r_leb (arc_start_angle b c) (arc_start_angle b c)) with true by (symmetry; apply r_leb_le; lra).
  rewrite gen_stuck by lra. reflexivity.
Qed.
Lemma arc_equal_shapely_ccw fuel a b c : arc_start_angle a c = arc_start_angle b c ->
  arc_points Shapely fuel a b c false = Ok [arc_point a c (arc_start_angle a c)].
Proof.
  intros E. unfold arc_points. rewrite arc_angles_eq. cbv zeta. cbn [negb].
  rewrite arc_step_zero by exact E. unfold arc_stop. rewrite E.
  replace (r_leb (arc_start_angle b c) (arc_start_angle b c)) with true by (symmetry; apply r_leb_le; lra).
  destruct fuel; cbn [gen_angles n_ltb NumR];
    replace (r_ltb (arc_start_angle b c) (arc_start_angle b c)) with false by (symmetry; apply r_ltb_ge; lra);
    reflexivity.
Qed.
Lemma arc_equal_pillow dpmm fuel a b c cw : arc_start_angle a c = arc_start_angle b c ->
  arc_points (Pillow dpmm) fuel a b c cw = Err EAssertionError.
Proof.
  intros E. unfold arc_points. rewrite arc_angles_eq. cbv zeta. rewrite arc_step_zero by exact E.
  replace (r_ltb 0 0) with false by (symmetry; apply r_ltb_ge; lra). reflexivity.
Qed.

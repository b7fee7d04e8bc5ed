(** Outlines: closed chains and regular polygons. *)
From Coq Require Import Reals Lra Lia Psatz.
From Verif Require Import Base Num NumReal GeomModel GeoSpec GeoProofs ShapeProofs.
Open Scope R_scope.

(** *** Closed outlines, for every kind of number *)
Section Closed.
  Context {K : Type} {NK : Num K}.
  Lemma rectangle_closed (c : vec K) w h neg m : closed (sh_segs (new_rectangle c w h neg m)).
  Proof. cbn. split; [discriminate|]. eexists. cbn. repeat split. Qed.
  Lemma obround_closed (c : vec K) w h neg m : closed (sh_segs (new_obround c w h neg m)).
  Proof. unfold new_obround. cbn zeta. destruct (n_leb w h); (split; [discriminate|]); eexists; cbn; repeat split. Qed.
  Lemma circle_closed (c : vec K) d neg m : closed (sh_segs (new_circle c d neg m)).
  Proof. split; [discriminate|]. eexists; cbn; repeat split. Qed.
  Lemma connect_chain (r : list (vec K)) : forall first p, chain p (connect first p r) first.
  Proof. induction r as [|q r IH]; intros; cbn; auto. Qed.
  Lemma points_closed (p : vec K) ps neg m : closed (sh_segs (new_connected_points p ps neg m)).
  Proof. split; [destruct ps; discriminate|]. exists p. apply connect_chain. Qed.
End Closed.

(** *** Regular polygons *)
Lemma v_scale_times (a : vec R) k : v_scale a k = times k a.
Proof. apply vec_eq; cbn; ring. Qed.
Lemma v_divk_half (a : vec R) : v_divk a 2 = times (/ 2) a.
Proof. apply vec_eq; cbn; rnum; unfold Rdiv; ring. Qed.

Definition vertex (c : vec R) (d : R) (a : R) : vec R := plus c (turn a (MkVec (d / 2) 0)).
Definition sides (c : vec R) (d base step : R) (ks : list nat) : list (seg R) :=
  map (fun k => SLine (vertex c d (base + INR k * step)) (vertex c d (base + INR (S k) * step))) ks.

Lemma polygon_loop_spec c d base step : 0 < step -> forall fuel k N,
  (forall j, (k <= j)%nat -> ((j < N)%nat <-> base + INR j * step < 360)) ->
  (N - k < fuel)%nat ->
  polygon_loop fuel c (mrotate step) step (base + INR k * step) (turn (base + INR k * step) (MkVec (d / 2) 0))
  = Some (sides c d base step (seq k (N - k))).
Proof.
  intros Hs fuel. induction fuel as [|f IH]; intros k N HN HF; [lia|].
  cbn [polygon_loop n_ltb NumR]. rnum.
  destruct (r_ltb (base + INR k * step) 360) eqn:E; rdec.
  - assert (k < N)%nat as L by (apply HN; [lia|exact E]).
    rewrite transform_rotate, <- turn_plus. cbn [n_add NumR].
    replace (base + INR k * step + step) with (base + INR (S k) * step) by (rewrite S_INR; ring).
    replace (step + (base + INR k * step)) with (base + INR (S k) * step) by (rewrite S_INR; ring).
    rewrite (IH (S k) N); [|intros; apply HN; lia|lia].
    replace (N - k)%nat with (S (N - S k)) by lia. cbn [seq sides map]. reflexivity.
  - assert (~ (k < N)%nat) as L by (intros L; apply HN in L; [lra|lia]).
    replace (N - k)%nat with 0%nat by lia. reflexivity.
Qed.

(** The number of steps from [base] up to a full turn. *)
Lemma steps_exist base n : (3 <= n)%Z -> 0 <= base < 360 ->
  exists N, (0 < N <= Z.to_nat n)%nat /\
    forall j, ((j < N)%nat <-> base + INR j * (360 / IZR n) < 360).
Proof.
  intros Hn Hb. assert (3 <= IZR n) as HR by (apply (IZR_le 3); exact Hn).
  set (step := 360 / IZR n). assert (0 < step) as Hs by (unfold step; apply Rdiv_lt_0_compat; lra).
  assert (INR (Z.to_nat n) * step = 360) as Full.
  { rewrite INR_IZR_INZ, Z2Nat.id by lia. unfold step. field. lra. }
  assert (forall m, exists N, (N <= m)%nat /\ (forall j, (j < N)%nat -> base + INR j * step < 360)
            /\ ((N < m)%nat -> 360 <= base + INR N * step)) as G.
  { induction m as [|m (N & A & B & C)].
    - exists 0%nat. repeat split; intros; lia.
    - destruct (Nat.eq_dec N m) as [->|Ne].
      + destruct (Rlt_dec (base + INR m * step) 360) as [L|L].
        * exists (S m). split; [lia|]. split; [|lia]. intros j Hj.
          destruct (Nat.eq_dec j m) as [->|]; [exact L|apply B; lia].
        * exists m. split; [lia|]. split; [exact B|]. intros _. lra.
      + exists N. split; [lia|]. split; [exact B|]. intros _. apply C. lia. }
  destruct (G (Z.to_nat n)) as (N & A & B & C). exists N.
  assert (forall j, (N <= j)%nat -> 360 <= base + INR j * step) as D.
  { intros j Hj. assert (INR N <= INR j) by (apply le_INR; exact Hj).
    assert (360 <= base + INR N * step); [|nra].
    destruct (Nat.eq_dec N (Z.to_nat n)) as [->|]; [rewrite Full; lra|apply C; lia]. }
  split; [split; [|exact A]|].
  - destruct N; [|lia]. specialize (D 0%nat (le_n _)). cbn in D. lra.
  - intros j. split; [apply B|]. intros L. destruct (Nat.lt_ge_cases j N) as [|H]; [assumption|].
    apply D in H. lra.
Qed.

Lemma polygon_spec c d n rot neg m : (3 <= n)%Z ->
  exists N, (0 < N <= Z.to_nat n)%nat /\
    (forall j, ((j < N)%nat <-> r_mod360 rot + INR j * (360 / IZR n) < 360)) /\
    new_polygon c d n rot neg m =
    Ok (MkShape (sides c d (r_mod360 rot) (360 / IZR n) (seq 0 N)) neg m).
Proof.
  intros Hn. pose proof (r_mod360_range rot) as Hb.
  assert (3 <= IZR n) as HR by (apply (IZR_le 3); exact Hn).
  destruct (steps_exist (r_mod360 rot) n Hn Hb) as (N & HN & HJ).
  exists N. split; [exact HN|]. split; [exact HJ|].
  unfold new_polygon. replace (n <? 3)%Z with false by (symmetry; apply Z.ltb_ge; exact Hn).
  cbn zeta. cbn [n_mod360 n_leb n_ltb n_div NumR]. rnum.
  replace (r_leb 0 (r_mod360 rot)) with true by (symmetry; apply r_leb_le; lra).
  replace (r_ltb (r_mod360 rot) 360) with true by (symmetry; apply r_ltb_lt; lra). cbn [andb negb].
  rewrite transform_rotate, v_scale_times, v_divk_half, unit_xR.
  replace (times (/ 2) (times d (MkVec 1 0))) with (MkVec (d / 2) 0) by (apply vec_eq; cbn; unfold Rdiv; ring).
  pose proof (polygon_loop_spec c d (r_mod360 rot) (360 / IZR n) ltac:(apply Rdiv_lt_0_compat; lra)
                (S (Z.to_nat n)) 0 N (fun j _ => HJ j) ltac:(lia)) as L.
  cbn [INR] in L. rewrite Rmult_0_l, Rplus_0_r, Nat.sub_0_r in L. rewrite L. reflexivity.
Qed.

Lemma sides_chain c d base step : forall len k,
  chain (vertex c d (base + INR k * step)) (sides c d base step (seq k len))
        (vertex c d (base + INR (k + len) * step)).
Proof.
  induction len as [|len IH]; intros k; cbn [seq sides map chain].
  - rewrite Nat.add_0_r. reflexivity.
  - split; [reflexivity|]. replace (k + S len)%nat with (S k + len)%nat by lia. apply IH.
Qed.
Lemma vertex_full c d a : vertex c d (a + 360) = vertex c d a.
Proof. unfold vertex. rewrite turn_360. reflexivity. Qed.
Lemma vertex_dist c d a : 0 <= d -> dist (vertex c d a) c = d / 2.
Proof.
  intros Hd. rewrite dist_norm. unfold vertex.
  replace (minus (plus c (turn a (MkVec (d / 2) 0))) c) with (turn a (MkVec (d / 2) 0)) by (apply vec_eq; cbn; ring).
  rewrite norm_turn. unfold norm. cbn.
  replace (d / 2 * (d / 2) + 0 * 0) with (d / 2 * (d / 2)) by ring. apply sqrt_square. lra.
Qed.
Lemma full_turn n : (3 <= n)%Z -> INR (Z.to_nat n) * (360 / IZR n) = 360.
Proof.
  intros Hn. assert (3 <= IZR n) by (apply (IZR_le 3); exact Hn).
  rewrite INR_IZR_INZ, Z2Nat.id by lia. field. lra.
Qed.

(** *** Stroke outlines *)
Lemma v_norm_times a : exists e, v_norm a = e /\ norm e = 1.
Proof.
  exists (v_norm a). split; [reflexivity|]. unfold norm. rewrite v_norm_unit. apply sqrt_1.
Qed.

(** Proofs about doubles. *)
From Verif Require Import Base Num CoordModel CoordSpec CoordProofs PegModel GramText NumTextModel NumTextSpec NumTextProofs
  FloatModel FloatSpec.
From Coq Require Import Qround Qabs Qpower Lqa.
Open Scope Q_scope.

(** ** Powers of two *)
Lemma two_nz : ~ 2 == 0. Proof. discriminate. Qed.
Lemma p2_pos e : 0 < 2 ^ e. Proof. apply Qpower_0_lt. reflexivity. Qed.
Lemma p2_nz e : ~ 2 ^ e == 0. Proof. apply Qpower_not_0, two_nz. Qed.
Lemma p2_add a b : 2 ^ (a + b) == 2 ^ a * 2 ^ b. Proof. apply Qpower_plus, two_nz. Qed.
Lemma p2_Z n : (0 <= n)%Z -> 2 ^ n == inject_Z (2 ^ n). Proof. intros H. symmetry. apply (Zpower_Qpower 2 n H). Qed.
Lemma p2_le a b : (a <= b)%Z -> 2 ^ a <= 2 ^ b. Proof. intros H. apply Qpower_le_compat_l; [exact H|discriminate]. Qed.
Lemma p2_lt_inv a b : 2 ^ a < 2 ^ b -> (a < b)%Z. Proof. intros H. eapply Qpower_lt_compat_l_inv; [exact H|reflexivity]. Qed.

Lemma Zlog2_Q z : (0 < z)%Z -> 2 ^ Z.log2 z <= inject_Z z /\ inject_Z z < 2 ^ (Z.log2 z + 1).
Proof.
  intros H. pose proof (Z.log2_spec z H) as [A B]. pose proof (Z.log2_nonneg z) as C.
  rewrite !p2_Z by lia. rewrite <- Zle_Qle, <- Zlt_Qlt. split; [exact A|exact B].
Qed.
Lemma flog2_spec q : 0 < q -> 2 ^ flog2 q <= q /\ q < 2 ^ (flog2 q + 1).
Proof.
  intros H. assert (Hn : (0 < Qnum q)%Z) by (unfold Qlt in H; cbn in H; lia).
  destruct (Zlog2_Q _ Hn) as [A B]. destruct (Zlog2_Q (Z.pos (Qden q)) eq_refl) as [C D].
  set (a := Z.log2 (Qnum q)) in *. set (b := Z.log2 (Z.pos (Qden q))) in *.
  assert (E : q == inject_Z (Qnum q) / inject_Z (Z.pos (Qden q))) by (destruct q; apply Qmake_Qdiv).
  set (n := inject_Z (Qnum q)) in *. set (d := inject_Z (Z.pos (Qden q))) in *.
  assert (Hd : 0 < d) by (pose proof (p2_pos b); lra).
  assert (Ed : q * d == n) by (rewrite E; field; lra).
  assert (U : q < 2 ^ (a - b + 1)).
  { assert (Z : 2 ^ (a - b + 1) * 2 ^ b == 2 ^ (a + 1)) by (rewrite <- p2_add; f_equiv; lia).
    pose proof (p2_pos (a - b + 1)). apply Qnot_le_lt. intros L. nra. }
  assert (L : 2 ^ (a - b - 1) < q).
  { assert (Z : 2 ^ (a - b - 1) * 2 ^ (b + 1) == 2 ^ a) by (rewrite <- p2_add; f_equiv; lia).
    pose proof (p2_pos (a - b - 1)). apply Qnot_le_lt. intros K. nra. }
  unfold flog2. fold a b. cbv zeta. destruct (Qle_bool _ _) eqn:Hb.
  - apply Qle_bool_iff in Hb. auto.
  - split; [lra|]. replace (a - b - 1 + 1)%Z with (a - b)%Z by lia. apply Qnot_le_lt. intros K.
    apply Qle_bool_iff in K. congruence.
Qed.
Lemma flog2_unique q e : 2 ^ e <= q -> q < 2 ^ (e + 1) -> flog2 q = e.
Proof.
  intros A B. assert (H : 0 < q) by (pose proof (p2_pos e); lra). destruct (flog2_spec q H) as [C D].
  assert (2 ^ e < 2 ^ (flog2 q + 1)) as L1 by lra. assert (2 ^ flog2 q < 2 ^ (e + 1)) as L2 by lra.
  apply p2_lt_inv in L1, L2. lia.
Qed.
Lemma flog2_morph p q : 0 < p -> p == q -> flog2 p = flog2 q.
Proof. intros H E. destruct (flog2_spec p H) as [A B]. symmetry. apply flog2_unique; rewrite <- E; assumption. Qed.

(** ** Rounding to an integer *)
Lemma rhe_near x n : Qabs (x - inject_Z (round_half_even x)) <= Qabs (x - inject_Z n).
Proof.
  pose proof (round_half_even_close x) as H. rewrite Qabs_Qminus. set (m := round_half_even x) in *.
  destruct (Z.eq_dec n m) as [->|N]; [rewrite Qabs_Qminus; lra|].
  assert (K : 1 <= Qabs (inject_Z m - inject_Z n)).
  { rewrite <- inject_Z_opp, <- inject_Z_plus || (unfold Qminus; rewrite <- inject_Z_opp, <- inject_Z_plus).
    change (Qabs (inject_Z ?z)) with (inject_Z (Z.abs z)). change 1 with (inject_Z 1). rewrite <- Zle_Qle. lia. }
  assert (T : Qabs (inject_Z m - inject_Z n) <= Qabs (inject_Z m - x) + Qabs (x - inject_Z n)).
  { setoid_replace (inject_Z m - inject_Z n) with ((inject_Z m - x) + (x - inject_Z n)) by ring. apply Qabs_triangle. }
  lra.
Qed.
Lemma rhe_tie x n : Qabs (x - inject_Z n) == Qabs (x - inject_Z (round_half_even x)) ->
  n <> round_half_even x -> Z.even (round_half_even x) = true.
Proof.
  intros E N. pose proof (round_half_even_close x) as H. rewrite Qabs_Qminus in H.
  revert E N H. unfold round_half_even. cbv zeta. pose proof (Qfloor_le x) as L. pose proof (Qlt_floor x) as U.
  set (f := Qfloor x) in *. rewrite inject_Z_plus in U. change (inject_Z 1) with 1 in U.
  destruct (Qcompare (x - inject_Z f) (1 # 2)) eqn:C.
  - intros _ _ _. destruct (Z.even f) eqn:F; [exact F|]. rewrite Z.even_add, F. reflexivity.
  - apply Qlt_alt in C. intros E N H. exfalso. assert (n < f \/ f + 1 <= n)%Z as [K|K] by lia.
    + assert (inject_Z n <= inject_Z f - 1) by (change 1 with (inject_Z 1); unfold Qminus; rewrite <- inject_Z_opp, <- inject_Z_plus, <- Zle_Qle; lia).
      rewrite !Qabs_pos in E by lra. lra.
    + rewrite Zle_Qle, inject_Z_plus in K. change (inject_Z 1) with 1 in K.
      rewrite (Qabs_neg (x - inject_Z n)), Qabs_pos in E by lra. lra.
  - apply Qgt_alt in C. intros E N H. exfalso. assert (n <= f \/ f + 2 <= n)%Z as [K|K] by lia.
    + rewrite Zle_Qle in K. rewrite (Qabs_pos (x - inject_Z n)) in E by lra. rewrite Qabs_neg in E by (rewrite inject_Z_plus; change (inject_Z 1) with 1; lra).
      rewrite inject_Z_plus in E. change (inject_Z 1) with 1 in E. lra.
    + rewrite Zle_Qle, inject_Z_plus in K. change (inject_Z 2) with 2 in K.
      rewrite inject_Z_plus in E. change (inject_Z 1) with 1 in E. rewrite !Qabs_neg in E by lra. lra.
Qed.

(** ** The mantissa of a positive number *)
Definition mant (q : Q) : Q := q / 2 ^ last_bit q.
Lemma mant_times q : mant q * 2 ^ last_bit q == q.
Proof. unfold mant. field. apply p2_nz. Qed.
Lemma last_bit_pos q : 0 < q -> last_bit q = Z.max (flog2 q - 52) (-1074).
Proof.
  intros H. unfold last_bit. rewrite (flog2_morph (Qabs q) q); [reflexivity| |]; rewrite Qabs_pos by lra; [lra|reflexivity].
Qed.
Lemma mant_bounds q : 0 < q -> 0 < mant q /\ mant q < inject_Z (2 ^ 53) /\
  ((-1074 < last_bit q)%Z -> inject_Z (2 ^ 52) <= mant q).
Proof.
  intros H. destruct (flog2_spec q H) as [A B]. pose proof (mant_times q) as E. rewrite (last_bit_pos q H) in *.
  set (u := Z.max (flog2 q - 52) (-1074)) in *. pose proof (p2_pos u) as P.
  assert (M : 0 < mant q) by (apply Qnot_le_lt; intros K; nra).
  split; [exact M|]. split.
  - rewrite <- p2_Z by lia. apply Qnot_le_lt. intros K.
    assert (2 ^ (flog2 q + 1) <= 2 ^ 53 * 2 ^ u) by (rewrite <- p2_add; apply p2_le; lia). nra.
  - intros L. rewrite <- p2_Z by lia. assert (flog2 q = 52 + u)%Z as F by lia. rewrite F, p2_add in A.
    apply Qnot_lt_le. intros K. nra.
Qed.
Lemma double_pos q : 0 < q -> double q == inject_Z (round_half_even (mant q)) * 2 ^ last_bit q.
Proof.
  intros H. unfold double, mant. cbv zeta. rewrite Qred_correct. rewrite (proj2 (Qle_bool_iff 0 q)) by lra.
  erewrite round_half_even_morph; [reflexivity|]. rewrite Qabs_pos by lra. reflexivity.
Qed.
Lemma double_zero q : q == 0 -> double q = 0.
Proof.
  intros H. unfold double. cbv zeta. replace (round_half_even (Qabs q / 2 ^ last_bit q)) with 0%Z.
  - replace (if Qle_bool 0 q then 0%Z else (-0)%Z) with 0%Z by (destruct (Qle_bool 0 q); reflexivity).
    change 0 with (Qred 0). apply Qred_complete. apply Qmult_0_l.
  - symmetry. rewrite <- (round_half_even_integer 0). apply round_half_even_morph.
    assert (A : Qabs q == 0) by (rewrite H; reflexivity). rewrite A. unfold Qdiv. apply Qmult_0_l.
Qed.
Lemma last_bit_morph p q : ~ p == 0 -> p == q -> last_bit p = last_bit q.
Proof.
  intros N E. unfold last_bit. rewrite (flog2_morph (Qabs p) (Qabs q)); [reflexivity| |rewrite E; reflexivity].
  pose proof (Qabs_nonneg p) as A. destruct (Qlt_le_dec 0 (Qabs p)) as [L|L]; [exact L|]. exfalso. apply N.
  revert L A. apply Qabs_case; intros; lra.
Qed.
Lemma double_morph p q : p == q -> double p = double q.
Proof.
  intros E. destruct (Qeq_dec p 0) as [Z|N].
  - rewrite !double_zero; [reflexivity|rewrite <- E; exact Z|exact Z].
  - unfold double. rewrite (last_bit_morph p q N E). cbv zeta.
    rewrite (round_half_even_morph _ (Qabs q / 2 ^ last_bit q)) by (rewrite E; reflexivity).
    replace (Qle_bool 0 q) with (Qle_bool 0 p); [reflexivity|].
    apply eq_true_iff_eq. rewrite !Qle_bool_iff. rewrite E. reflexivity.
Qed.
Lemma double_opp q : double (- q) == - double q.
Proof.
  destruct (Qeq_dec q 0) as [Z|N]; [rewrite !double_zero; [reflexivity|exact Z|rewrite Z; reflexivity]|].
  unfold double. cbv zeta. rewrite !Qred_correct.
  assert (E : last_bit (- q) = last_bit q).
  { unfold last_bit. f_equal. f_equal. apply flog2_morph; [|apply Qabs_opp].
    rewrite Qabs_opp. pose proof (Qabs_nonneg q) as A. destruct (Qlt_le_dec 0 (Qabs q)) as [L|L]; [exact L|]. exfalso. apply N.
    revert L A. apply Qabs_case; intros; lra. }
  rewrite E. rewrite (round_half_even_morph _ (Qabs q / 2 ^ last_bit q)) by (rewrite Qabs_opp; reflexivity).
  set (m := round_half_even _).
  assert (Hs : Qle_bool 0 (- q) = negb (Qle_bool 0 q)).
  { apply eq_true_iff_eq. rewrite negb_true_iff, Qle_bool_iff. split; intros H.
    - destruct (Qle_bool 0 q) eqn:F; [|reflexivity]. apply Qle_bool_iff in F. exfalso. apply N. lra.
    - destruct (Qlt_le_dec q 0) as [L|L]; [lra|]. apply Qle_bool_iff in L. congruence. }
  rewrite Hs. destruct (Qle_bool 0 q); cbn [negb]; rewrite ?inject_Z_opp; ring.
Qed.

(** A double seen in units of [2^u]: an integer, or of less than [2^52] units. *)
Lemma double_units g u : is_double g ->
  (exists n, g == inject_Z n * 2 ^ u) \/ (Qabs g <= (inject_Z (2 ^ 52) - (1 # 2)) * 2 ^ u /\ (-1074 < u)%Z).
Proof.
  intros (m & e & Hm & He & E). destruct (Z.le_gt_cases u e) as [L|L].
  - left. exists (m * 2 ^ (e - u))%Z. rewrite E, inject_Z_mult, <- (p2_Z (e - u)) by lia.
    rewrite <- Qmult_assoc, <- p2_add. replace (e - u + u)%Z with e by lia. reflexivity.
  - right. split; [|lia]. rewrite E, Qabs_Qmult. rewrite (Qabs_pos (2 ^ e)) by (apply Qlt_le_weak, p2_pos).
    change (Qabs (inject_Z m)) with (inject_Z (Z.abs m)).
    assert (A : inject_Z (Z.abs m) <= inject_Z (2 ^ 53 - 1)) by (rewrite <- Zle_Qle; lia).
    assert (B : 2 ^ e <= 2 ^ (u - 1)) by (apply p2_le; lia).
    assert (C : 2 ^ (u - 1) * 2 == 2 ^ u) by (change 2 with (2 ^ 1) at 2; rewrite <- p2_add; f_equiv; lia).
    pose proof (p2_pos e). pose proof (p2_pos (u - 1)).
    assert (D : inject_Z (Z.abs m) * 2 ^ e <= inject_Z (2 ^ 53 - 1) * 2 ^ (u - 1)).
    { apply Qle_trans with (inject_Z (2 ^ 53 - 1) * 2 ^ e).
      - apply Qmult_le_compat_r; lra.
      - rewrite !(Qmult_comm (inject_Z _)). apply Qmult_le_compat_r; [exact B|discriminate]. }
    eapply Qle_trans; [exact D|]. rewrite <- C.
    setoid_replace ((inject_Z (2 ^ 52) - (1 # 2)) * (2 ^ (u - 1) * 2)) with ((inject_Z (2 ^ 52) * 2 - 1) * 2 ^ (u - 1)) by field.
    change (inject_Z (2 ^ 52) * 2 - 1) with (inject_Z (2 ^ 53 - 1)). apply Qle_refl.
Qed.

Lemma double_is_double_pos q : 0 < q -> is_double (double q).
Proof.
  intros H. destruct (mant_bounds q H) as (A & B & _). pose proof (double_pos q H) as D.
  assert (U : (-1074 <= last_bit q)%Z) by (unfold last_bit; lia).
  set (u := last_bit q) in *. pose proof (round_half_even_close (mant q)) as C.
  pose proof (round_half_even_nonneg (mant q) ltac:(lra)) as N.
  set (m := round_half_even (mant q)) in *.
  apply Qabs_Qle_condition in C.
  assert (m < 2 ^ 53 + 1)%Z.
  { rewrite Zlt_Qlt, inject_Z_plus. change (inject_Z 1) with 1. lra. }
  destruct (Z.eq_dec m (2 ^ 53)) as [E|E].
  - exists (2 ^ 52)%Z, (u + 1)%Z. split; [reflexivity|]. split; [lia|]. rewrite D, E, (p2_add u 1).
    change (2 ^ 1) with 2. change (inject_Z (2 ^ 53)) with (inject_Z (2 ^ 52) * 2). ring.
  - exists m, u. split; [lia|]. split; [exact U|exact D].
Qed.

Lemma abs_scale a s : 0 < s -> Qabs (a * s) == Qabs a * s.
Proof. intros H. rewrite Qabs_Qmult, (Qabs_pos s) by lra. reflexivity. Qed.
Lemma scaled_diff q n s : 0 < s -> Qabs (q * s - n * s) == Qabs (q - n) * s.
Proof. intros H. rewrite <- abs_scale by exact H. setoid_replace (q * s - n * s) with ((q - n) * s) by ring. reflexivity. Qed.
Lemma small_far q g : 0 < q -> (-1074 < last_bit q)%Z -> Qabs g <= (inject_Z (2 ^ 52) - (1 # 2)) * 2 ^ last_bit q ->
  Qabs (q - double q) < Qabs (q - g).
Proof.
  intros H L G. destruct (mant_bounds q H) as (_ & _ & M). specialize (M L). pose proof (double_pos q H) as D.
  pose proof (mant_times q) as T. set (u := last_bit q) in *. pose proof (p2_pos u) as P.
  pose proof (rhe_near (mant q) (2 ^ 52)) as R.
  assert (X : Qabs (q - double q) == Qabs (mant q - inject_Z (round_half_even (mant q))) * 2 ^ u).
  { rewrite <- (scaled_diff _ _ _ P). rewrite D, T. reflexivity. }
  rewrite X. rewrite (Qabs_pos (mant q - inject_Z (2 ^ 52))) in R by lra.
  assert (Y : (mant q - inject_Z (2 ^ 52)) * 2 ^ u < q - g).
  { apply Qabs_Qle_condition in G. nra. }
  eapply Qle_lt_trans; [apply Qmult_le_compat_r; [exact R|lra]|]. eapply Qlt_le_trans; [exact Y|apply Qle_Qabs].
Qed.
Lemma unit_near q n : 0 < q -> Qabs (q - double q) <= Qabs (q - inject_Z n * 2 ^ last_bit q).
Proof.
  intros H. pose proof (double_pos q H) as D. pose proof (mant_times q) as T. pose proof (p2_pos (last_bit q)) as P.
  assert (X : forall m, Qabs (q - m * 2 ^ last_bit q) == Qabs (mant q - m) * 2 ^ last_bit q).
  { intros m. rewrite <- (scaled_diff _ _ _ P), T. reflexivity. }
  rewrite D, !X. apply Qmult_le_compat_r; [|lra]. apply rhe_near.
Qed.
Lemma nearest_pos q : 0 < q -> nearest q (double q).
Proof.
  intros H. split; [apply double_is_double_pos, H|]. intros g Hg.
  destruct (double_units g (last_bit q) Hg) as [(n & E)|[E L]].
  - rewrite E. apply unit_near, H.
  - apply Qlt_le_weak, small_far; assumption.
Qed.
Lemma is_double_morph f g : f == g -> is_double f -> is_double g.
Proof. intros E (m & e & A & B & C). exists m, e. rewrite <- E. auto. Qed.
Lemma is_double_opp f : is_double f -> is_double (- f).
Proof.
  intros (m & e & A & B & C). exists (- m)%Z, e. split; [lia|]. split; [exact B|]. rewrite C, inject_Z_opp. ring.
Qed.
Lemma nearest_morph q q' f f' : q == q' -> f == f' -> nearest q f -> nearest q' f'.
Proof.
  intros E F [A B]. split; [eapply is_double_morph; eauto|]. intros g Hg. rewrite <- E, <- F. auto.
Qed.
Lemma nearest_opp q f : nearest q f -> nearest (- q) (- f).
Proof.
  intros [A B]. split; [apply is_double_opp, A|]. intros g Hg.
  setoid_replace (- q - - f) with (- (q - f)) by ring. setoid_replace (- q - g) with (- (q - - g)) by ring.
  rewrite !Qabs_opp. apply B, is_double_opp, Hg.
Qed.
Lemma sign_cases q : 0 < q \/ q == 0 \/ 0 < - q.
Proof. destruct (Q_dec q 0) as [[H|H]|H]; [right; right; lra|left; exact H|right; left; exact H]. Qed.
Lemma nearest_double q : nearest q (double q).
Proof.
  destruct (sign_cases q) as [H|[H|H]].
  - apply nearest_pos, H.
  - rewrite (double_zero q H). split.
    + exists 0%Z, 0%Z. split; [reflexivity|]. split; [lia|reflexivity].
    + intros g _. setoid_replace (q - 0) with 0 by (rewrite H; reflexivity). apply Qabs_nonneg.
  - eapply nearest_morph; [| |apply nearest_opp, nearest_pos, H]; [ring|]. rewrite double_opp. ring.
Qed.

(** ** Ties *)
Lemma even_pos q g : 0 < q -> is_double g -> Qabs (q - g) == Qabs (q - double q) -> ~ g == double q -> even_double (double q).
Proof.
  intros H Hg E N. destruct (double_units g (last_bit q) Hg) as [(n & G)|[G L]].
  2: { pose proof (small_far q g H L G). lra. }
  destruct (mant_bounds q H) as (A & B & C). pose proof (double_pos q H) as D. pose proof (mant_times q) as T.
  assert (U : (-1074 <= last_bit q)%Z) by (unfold last_bit; lia). pose proof (p2_pos (last_bit q)) as P.
  pose proof (round_half_even_close (mant q)) as R. apply Qabs_Qle_condition in R.
  assert (Hn : n <> round_half_even (mant q)) by (intros ->; apply N; rewrite G, D; reflexivity).
  assert (X : forall m, Qabs (q - m * 2 ^ last_bit q) == Qabs (mant q - m) * 2 ^ last_bit q).
  { intros m. rewrite <- (scaled_diff _ _ _ P), T. reflexivity. }
  assert (Ev : Z.even (round_half_even (mant q)) = true).
  { apply (rhe_tie _ n); [|exact Hn]. rewrite G, D, !X in E. apply Qmult_inj_r in E; [exact E|lra]. }
  set (m := round_half_even (mant q)) in *. set (u := last_bit q) in *.
  assert (Up : (m < 2 ^ 53 + 1)%Z) by (rewrite Zlt_Qlt, inject_Z_plus; change (inject_Z 1) with 1; lra).
  assert (Lo : (-1074 < u)%Z -> (2 ^ 52 - 1 < m)%Z).
  { intros L. specialize (C L). rewrite Zlt_Qlt. unfold Z.sub. rewrite inject_Z_plus. change (inject_Z (-(1))) with (-1%Q). lra. }
  assert (M0 : (-1 < m)%Z) by (rewrite Zlt_Qlt; change (inject_Z (-1)) with (-1%Q); lra).
  destruct (Z.eq_dec m (2 ^ 53)) as [Em|Em].
  - exists (2 ^ 52)%Z, (u + 1)%Z. split; [reflexivity|]. split; [reflexivity|]. split; [lia|]. split; [left; reflexivity || (cbn; lia)|].
    rewrite D, Em, (p2_add u 1). change (2 ^ 1) with 2. change (inject_Z (2 ^ 53)) with (inject_Z (2 ^ 52) * 2). ring.
  - exists m, u. split; [exact Ev|]. split; [lia|]. split; [exact U|]. split; [|exact D].
    destruct (Z.eq_dec u (-1074)) as [->|Nu]; [right; reflexivity|left]. specialize (Lo ltac:(lia)). lia.
Qed.
Lemma even_double_opp f g : g == - f -> even_double f -> even_double g.
Proof.
  intros E (m & e & A & B & C & D & F). exists (- m)%Z, e. rewrite Z.even_opp, Z.abs_opp. repeat split; auto.
  rewrite E, F, inject_Z_opp. ring.
Qed.
Lemma double_even q g : is_double g -> Qabs (q - g) == Qabs (q - double q) -> ~ g == double q -> even_double (double q).
Proof.
  intros Hg E N. destruct (sign_cases q) as [H|[H|H]].
  - eapply even_pos; eauto.
  - rewrite (double_zero q H) in *. exfalso. apply N. rewrite H in E. change (Qabs (0 - 0)) with 0 in E.
    revert E. apply Qabs_case; intros; lra.
  - apply (even_double_opp (double (- q))); [rewrite double_opp; ring|]. apply (even_pos _ (- g)); auto.
    + apply is_double_opp, Hg.
    + rewrite double_opp. setoid_replace (- q - - g) with (- (q - g)) by ring.
      setoid_replace (- q - - double q) with (- (q - double q)) by ring. rewrite !Qabs_opp. exact E.
    + rewrite double_opp. intros K. apply N. lra.
Qed.

(** ** How far the double is *)
Lemma error_pos q : 2 ^ (-1022) <= q -> Qabs (q - double q) <= q * 2 ^ (-53).
Proof.
  intros H. assert (H0 : 0 < q) by (pose proof (p2_pos (-1022)); lra).
  destruct (flog2_spec q H0) as [A B].
  assert (L : (-1022 < flog2 q + 1)%Z) by (apply p2_lt_inv; lra).
  pose proof (last_bit_pos q H0) as U. pose proof (double_pos q H0) as D. pose proof (mant_times q) as T.
  set (u := last_bit q) in *. pose proof (p2_pos u) as P.
  assert (X : Qabs (q - double q) == Qabs (mant q - inject_Z (round_half_even (mant q))) * 2 ^ u).
  { rewrite <- (scaled_diff _ _ _ P). rewrite D, T. reflexivity. }
  rewrite X. pose proof (round_half_even_close (mant q)) as R. rewrite Qabs_Qminus in R.
  assert (E : 2 ^ flog2 q == 2 ^ u * 2 ^ 52) by (rewrite <- p2_add; f_equiv; lia).
  change (2 ^ 52) with (inject_Z (2 ^ 52)) in E. change (2 ^ (-53)) with (1 # (2 ^ 53)).
  rewrite E in A. assert (Qabs (mant q - inject_Z (round_half_even (mant q))) * 2 ^ u <= (1 # 2) * 2 ^ u) by (apply Qmult_le_compat_r; lra).
  change (inject_Z (2 ^ 52)) with (4503599627370496 # 1) in A. change (1 # 2 ^ 53) with (1 # 9007199254740992). lra.
Qed.
Lemma double_id f : is_double f -> double f == f.
Proof.
  intros H. destruct (nearest_double f) as [_ B]. specialize (B f H).
  setoid_replace (f - f) with 0 in B by ring. change (Qabs 0) with 0 in B.
  revert B. apply Qabs_case; intros; lra.
Qed.
Lemma nearest_error q f : nearest q f -> 2 ^ (-1022) <= Qabs q -> Qabs (q - f) <= Qabs q * 2 ^ (-53).
Proof.
  intros [_ N] H. eapply Qle_trans; [apply (N (double q)), nearest_double|].
  destruct (sign_cases q) as [S|[S|S]].
  - rewrite (Qabs_pos q) in * by lra. apply error_pos, H.
  - rewrite S in H. pose proof (p2_pos (-1022)). change (Qabs 0) with 0 in H. lra.
  - rewrite (Qabs_neg q) in * by lra. pose proof (error_pos (- q) H) as E. rewrite double_opp in E.
    setoid_replace (- q - - double q) with (- (q - double q)) in E by ring. rewrite Qabs_opp in E. exact E.
Qed.
Lemma nearest_zero q f : nearest q f -> q == 0 -> f == 0.
Proof.
  intros [_ N] H. assert (Z : is_double 0) by (exists 0%Z, 0%Z; split; [reflexivity|]; split; [lia|reflexivity]).
  specialize (N 0 Z). rewrite H in N. change (Qabs (0 - 0)) with 0 in N. revert N. apply Qabs_case; intros; lra.
Qed.

(** ** Decimal fractions of up to 15 digits *)
Lemma rhe_close x n : Qabs (x - inject_Z n) < 1 # 2 -> round_half_even x = n.
Proof.
  intros H. pose proof (rhe_near x n) as N. set (m := round_half_even x) in *.
  assert (K : Qabs (inject_Z m - inject_Z n) < 1).
  { setoid_replace (inject_Z m - inject_Z n) with ((inject_Z m - x) + (x - inject_Z n)) by ring.
    eapply Qle_lt_trans; [apply Qabs_triangle|]. rewrite (Qabs_Qminus (inject_Z m)). lra. }
  unfold Qminus in K. rewrite <- inject_Z_opp, <- inject_Z_plus in K.
  change (Qabs (inject_Z (m + - n))) with (inject_Z (Z.abs (m + - n))) in K. change 1 with (inject_Z 1) in K.
  rewrite <- Zlt_Qlt in K. lia.
Qed.
Lemma tens_pos d : 0 < inject_Z (10 ^ Z.of_nat d).
Proof. change 0 with (inject_Z 0). rewrite <- Zlt_Qlt. apply pow10_pos. Qed.
Lemma same_sign q f : Qabs (q - f) < Qabs q -> q_neg f = q_neg q.
Proof.
  intros H. unfold q_neg. f_equal. apply eq_true_iff_eq. rewrite !Qle_bool_iff.
  revert H. do 2 apply Qabs_case; intros; split; intros; lra.
Qed.
Lemma decimal_double q f n d : q == inject_Z n / inject_Z (10 ^ Z.of_nat d) -> (Z.abs n < 10 ^ 15)%Z -> (d <= 300)%nat ->
  nearest q f -> scaled f d = Z.abs n /\ scaled q d = Z.abs n /\ q_neg f = q_neg q.
Proof.
  intros Hq Hn Hd N. pose proof (tens_pos d) as P.
  set (t := inject_Z (10 ^ Z.of_nat d)) in *.
  assert (Q1 : Qabs q * t == inject_Z (Z.abs n)).
  { rewrite <- abs_scale by exact P. rewrite Hq. setoid_replace (inject_Z n / t * t) with (inject_Z n) by (field; lra). reflexivity. }
  assert (Q2 : scaled q d = Z.abs n).
  { unfold scaled. fold t. rewrite (round_half_even_morph _ _ Q1). apply round_half_even_integer. }
  destruct (Z.eq_dec n 0) as [->|Nz].
  { assert (Z0 : q == 0) by (rewrite Hq; unfold Qdiv; apply Qmult_0_l). pose proof (nearest_zero q f N Z0) as Zf.
    split; [|split; [exact Q2|]].
    - rewrite <- Q2. unfold scaled. apply round_half_even_morph. rewrite Zf, Z0. reflexivity.
    - unfold q_neg. f_equal. apply eq_true_iff_eq. rewrite !Qle_bool_iff, Zf, Z0. reflexivity. }
  assert (A1 : 1 <= Qabs q * t) by (rewrite Q1; change 1 with (inject_Z 1); rewrite <- Zle_Qle; lia).
  assert (A2 : t <= 2 ^ 1022).
  { rewrite p2_Z by lia. unfold t. rewrite <- Zle_Qle. apply Z.le_trans with (10 ^ 300)%Z; [apply Z.pow_le_mono_r; lia|].
    apply Z.leb_le. vm_compute. reflexivity. }
  assert (A3 : 2 ^ (-1022) <= Qabs q).
  { assert (E : 2 ^ (-1022) * 2 ^ 1022 == 1) by (rewrite <- p2_add; reflexivity).
    pose proof (p2_pos (-1022)). pose proof (p2_pos 1022). pose proof (Qabs_nonneg q).
    apply Qnot_lt_le. intros L.
    assert (Qabs q * t <= Qabs q * 2 ^ 1022) by (rewrite !(Qmult_comm (Qabs q)); apply Qmult_le_compat_r; assumption).
    assert (Qabs q * 2 ^ 1022 < 2 ^ (-1022) * 2 ^ 1022) by (apply Qmult_lt_compat_r; assumption). lra. }
  pose proof (nearest_error q f N A3) as E.
  assert (A4 : Qabs q * t < inject_Z (10 ^ 15)) by (rewrite Q1, <- Zlt_Qlt; exact Hn).
  assert (E2 : Qabs (q - f) * t < 1 # 2).
  { assert (Qabs (q - f) * t <= Qabs q * 2 ^ (-53) * t) by (apply Qmult_le_compat_r; lra).
    change (2 ^ (-53)) with (1 # 9007199254740992) in *. change (inject_Z (10 ^ 15)) with (1000000000000000 # 1) in A4. lra. }
  split; [|split; [exact Q2|]].
  - unfold scaled. fold t. apply rhe_close. rewrite <- Q1.
    setoid_replace (Qabs f * t - Qabs q * t) with ((Qabs f - Qabs q) * t) by ring. rewrite (abs_scale _ _ P).
    eapply Qle_lt_trans; [apply Qmult_le_compat_r; [|apply Qlt_le_weak, P]|exact E2].
    rewrite (Qabs_Qminus q f). revert E. clear. intros _. apply Qabs_case; do 2 (apply Qabs_case; intros); try (apply Qabs_case; intros); lra.
  - apply same_sign. eapply Qle_lt_trans; [exact E|]. change (2 ^ (-53)) with (1 # 9007199254740992). 
    assert (0 < Qabs q) by (pose proof (p2_pos (-1022)); lra). lra.
Qed.
Lemma fixed_same f q d : scaled f d = scaled q d -> q_neg f = q_neg q -> fmt_fixed f d = fmt_fixed q d.
Proof. intros A B. unfold fmt_fixed. fold (scaled f d) (scaled q d) (q_neg f) (q_neg q). rewrite A, B. reflexivity. Qed.
Lemma pack_same z i d f q : fmt_fixed f d = fmt_fixed q d -> pack z i d f = pack z i d q.
Proof.
  intros E. assert (S : pack_split f i d = pack_split q i d) by (unfold pack_split; rewrite E; reflexivity).
  destruct z; cbn [pack]; unfold pack_skip_leading, pack_skip_trailing; rewrite S; reflexivity.
Qed.

(** A coordinate has as many digits as the format allows. *)
Lemma unpack_range z i d s q : unpack z i d s = Ok q ->
  exists n, (Z.abs n < 10 ^ Z.of_nat (i + d))%Z /\ q == inject_Z n / inject_Z (10 ^ Z.of_nat d).
Proof.
  assert (Pf : forall neg p, length p = (i + d)%nat -> py_float neg (firstn i p) (skipn i p) = Ok q ->
    exists n, (Z.abs n < 10 ^ Z.of_nat (i + d))%Z /\ q == inject_Z n / inject_Z (10 ^ Z.of_nat d)).
  { intros neg p Hl H. unfold py_float in H. cbv zeta in H. rewrite firstn_skipn in H. destruct p as [|c p']; [discriminate|].
    set (p := c :: p') in *. destruct (forallb is_digit p) eqn:D; [|discriminate]. apply all_digits_forallb in D.
    rewrite skipn_length, Hl in H. replace (i + d - i)%nat with d in H by lia. injection H as <-.
    pose proof (digits_value_bound p D) as [B1 B2]. rewrite Hl in B2.
    eexists. split; [|apply mk_div]. destruct neg; lia. }
  assert (Pp : forall neg body, unpack_preprocess s i d = Ok (neg, body) -> (length body <= i + d)%nat).
  { intros neg body H. unfold unpack_preprocess in H. destruct s as [|c rest]; [discriminate|].
    destruct (if Ascii.eqb c ch_plus then _ else _) as [a b]. destruct (i + d <? length b)%nat eqn:L; [discriminate|].
    destruct (length b <=? 0)%nat; [discriminate|]. injection H as <- <-. apply Nat.ltb_ge in L. exact L. }
  destruct z; cbn [unpack]; unfold unpack_skip_leading, unpack_skip_trailing;
    destruct (unpack_preprocess s i d) as [[neg body]|e]; try discriminate; cbn [bind]; specialize (Pp _ _ eq_refl); apply Pf;
    unfold rjust, ljust; rewrite app_length, repeat_length; lia.
Qed.

(** ** Shortest texts *)
Lemma double_gap f g : is_double f -> is_double g -> 0 < f -> (-1074 < last_bit f)%Z -> ~ f == g -> f * 2 ^ (-53) <= Qabs (f - g).
Proof.
  intros Hf Hg H L N. destruct (mant_bounds f H) as (A & B & C). specialize (C L). pose proof (mant_times f) as T.
  set (u := last_bit f) in *. pose proof (p2_pos u) as P. set (F := mant f) in *.
  change (2 ^ (-53)) with (1 # 9007199254740992). change (inject_Z (2 ^ 53)) with (9007199254740992 # 1) in *.
  change (inject_Z (2 ^ 52)) with (4503599627370496 # 1) in *.
  destruct (double_units g u Hg) as [(n & G)|[G _]].
  - destruct (double_units f u Hf) as [(k & K)|[K _]].
    + assert (Fk : F == inject_Z k) by (rewrite <- T in K; apply Qmult_inj_r in K; [exact K|lra]).
      assert (1 <= Qabs (inject_Z k - inject_Z n)).
      { unfold Qminus. rewrite <- inject_Z_opp, <- inject_Z_plus. change (Qabs (inject_Z (k + - n))) with (inject_Z (Z.abs (k + - n))).
        change 1 with (inject_Z 1). rewrite <- Zle_Qle. assert (k <> n) by (intros ->; apply N; rewrite K, G; reflexivity). lia. }
      rewrite K at 2. rewrite G, (scaled_diff _ _ _ P). 
      assert (1 * 2 ^ u <= Qabs (inject_Z k - inject_Z n) * 2 ^ u) by (apply Qmult_le_compat_r; lra). nra.
    + change (inject_Z (2 ^ 52)) with (4503599627370496 # 1) in K. rewrite Qabs_pos in K by lra. rewrite <- T in K. exfalso. nra.
  - change (inject_Z (2 ^ 52)) with (4503599627370496 # 1) in G. apply Qabs_Qle_condition in G.
    eapply Qle_trans; [|apply Qle_Qabs]. nra.
Qed.
Lemma close_double f t : is_double f -> 0 < f -> (-1074 < last_bit f)%Z -> 2 * Qabs (t - f) < f * 2 ^ (-53) -> double t == f.
Proof.
  intros Hf H L C. destruct (Qeq_dec f (double t)) as [E|N]; [symmetry; exact E|]. exfalso.
  destruct (nearest_double t) as [D B]. specialize (B f Hf). pose proof (double_gap f _ Hf D H L N) as G.
  assert (T : Qabs (f - double t) <= Qabs (t - f) + Qabs (t - double t)).
  { rewrite (Qabs_Qminus t f). setoid_replace (f - double t) with ((f - t) + (t - double t)) by ring. apply Qabs_triangle. }
  lra.
Qed.

Lemma ten_nz : ~ 10 == 0. Proof. discriminate. Qed.
Lemma p10_pos e : 0 < 10 ^ e. Proof. apply Qpower_0_lt. reflexivity. Qed.
Lemma p10_add a b : 10 ^ (a + b) == 10 ^ a * 10 ^ b. Proof. apply Qpower_plus, ten_nz. Qed.
Lemma p10_Z n : (0 <= n)%Z -> 10 ^ n == inject_Z (10 ^ n). Proof. intros H. symmetry. apply (Zpower_Qpower 10 n H). Qed.
Lemma p10_le a b : (a <= b)%Z -> 10 ^ a <= 10 ^ b. Proof. intros H. apply Qpower_le_compat_l; [exact H|discriminate]. Qed.
Lemma p10_lt_inv a b : 10 ^ a < 10 ^ b -> (a < b)%Z. Proof. intros H. eapply Qpower_lt_compat_l_inv; [exact H|reflexivity]. Qed.

Lemma int_digits_count n : (1 <= n)%Z ->
  (10 ^ (Z.of_nat (length (int_digits n)) - 1) <= n < 10 ^ Z.of_nat (length (int_digits n)))%Z.
Proof.
  intros H. destruct (int_digits_spec n ltac:(lia)) as (_ & _ & Ne).
  assert (L : (1 <= length (int_digits n))%nat) by (destruct (int_digits n); [congruence|cbn; lia]).
  set (l := length (int_digits n)) in *. split.
  - destruct (Nat.eq_dec l 1) as [->|N1]; [exact H|]. apply Z.nlt_ge. intros K.
    replace (Z.of_nat l - 1)%Z with (Z.of_nat (l - 1)) in K by lia.
    apply int_digits_length in K; [|lia|lia]. fold l in K. lia.
  - apply int_digits_length; [lia|exact L|]. apply Nat.le_refl.
Qed.
Lemma dec_point_spec q : 0 < q -> 10 ^ (dec_point q - 1) <= q /\ q < 10 ^ dec_point q.
Proof.
  intros H. assert (Hn : (0 < Qnum q)%Z) by (unfold Qlt in H; cbn in H; lia).
  unfold dec_point. cbv zeta. set (b := Z.log2 (Z.pos (Qden q))). assert (Hb : (0 <= b)%Z) by apply Z.log2_nonneg.
  set (k := (b + 1)%Z). pose proof (p10_pos k) as P.
  assert (E : q == inject_Z (Qnum q) / inject_Z (Z.pos (Qden q))) by (destruct q; apply Qmake_Qdiv).
  assert (D : inject_Z (Z.pos (Qden q)) <= 10 ^ k).
  { rewrite p10_Z by lia. rewrite <- Zle_Qle. pose proof (Z.log2_spec (Z.pos (Qden q)) eq_refl) as [_ S].
    fold b in S. apply Z.le_trans with (2 ^ k)%Z; [unfold k; unfold Z.succ in S; lia|]. apply Z.pow_le_mono_l. lia. }
  assert (One : 1 <= q * 10 ^ k).
  { assert (0 < inject_Z (Z.pos (Qden q))) by reflexivity. set (d := inject_Z (Z.pos (Qden q))) in *.
    assert (1 <= inject_Z (Qnum q)) by (change 1 with (inject_Z 1); rewrite <- Zle_Qle; lia).
    set (n := inject_Z (Qnum q)) in *. assert (q * d == n) by (rewrite E; field; lra).
    assert (q * d <= q * 10 ^ k) by (rewrite !(Qmult_comm q); apply Qmult_le_compat_r; lra). lra. }
  set (n := Qfloor (q * 10 ^ k)).
  assert (N1 : (1 <= n)%Z) by (change 1%Z with (Qfloor 1); apply Qfloor_resp_le, One).
  pose proof (int_digits_count n N1) as [A B]. pose proof (Qfloor_le (q * 10 ^ k)) as F1. pose proof (Qlt_floor (q * 10 ^ k)) as F2.
  fold n in F1, F2. set (l := Z.of_nat (length (int_digits n))) in *.
  assert (L1 : (0 <= l - 1)%Z).
  { destruct (int_digits_spec n ltac:(lia)) as (_ & _ & Ne). unfold l. destruct (int_digits n); [congruence|]. cbn [length]. lia. }
  assert (A' : 10 ^ (l - 1) <= q * 10 ^ k) by (rewrite (p10_Z (l - 1)) by lia; rewrite Zle_Qle in A; eapply Qle_trans; [exact A|exact F1]).
  assert (B' : q * 10 ^ k < 10 ^ l).
  { rewrite (p10_Z l) by lia. assert (n + 1 <= 10 ^ l)%Z as C by lia. rewrite Zle_Qle in C. eapply Qlt_le_trans; [exact F2|exact C]. }
  assert (X1 : 10 ^ (l - k - 1) * 10 ^ k == 10 ^ (l - 1)) by (rewrite <- p10_add; f_equiv; lia).
  assert (X2 : 10 ^ (l - k) * 10 ^ k == 10 ^ l) by (rewrite <- p10_add; f_equiv; lia).
  split.
  - apply Qnot_lt_le. intros C. assert (q * 10 ^ k < 10 ^ (l - k - 1) * 10 ^ k) by (apply Qmult_lt_compat_r; assumption). lra.
  - apply Qnot_le_lt. intros C. assert (10 ^ (l - k) * 10 ^ k <= q * 10 ^ k) by (apply Qmult_le_compat_r; lra). lra.
Qed.

Lemma candidates_spec q k t : 0 < q -> (1 <= k)%nat -> In t (candidates q k) ->
  exists n, t = inject_Z n * 10 ^ (dec_point q - Z.of_nat k) /\ 10 ^ (dec_point q - 1) <= t /\ t <= 10 ^ dec_point q.
Proof.
  intros H Hk Ht. destruct (dec_point_spec q H) as [A B]. unfold candidates in Ht. cbv zeta in Ht.
  set (p := dec_point q) in *. set (s := 10 ^ (p - Z.of_nat k)) in *. pose proof (p10_pos (p - Z.of_nat k)) as P. fold s in P.
  assert (S1 : s * 10 ^ (Z.of_nat k - 1) == 10 ^ (p - 1)) by (unfold s; rewrite <- p10_add; f_equiv; lia).
  assert (S2 : s * 10 ^ Z.of_nat k == 10 ^ p) by (unfold s; rewrite <- p10_add; f_equiv; lia).
  assert (X : q / s * s == q) by (field; lra).
  set (x := q / s) in *.
  assert (X1 : inject_Z (10 ^ (Z.of_nat k - 1)) <= x).
  { rewrite <- p10_Z by lia. apply Qnot_lt_le. intros C.
    assert (x * s < 10 ^ (Z.of_nat k - 1) * s) by (apply Qmult_lt_compat_r; assumption). rewrite (Qmult_comm _ s) in H0. lra. }
  assert (X2 : x < inject_Z (10 ^ Z.of_nat k)).
  { rewrite <- p10_Z by lia. apply Qnot_le_lt. intros C.
    assert (10 ^ Z.of_nat k * s <= x * s) by (apply Qmult_le_compat_r; lra). rewrite (Qmult_comm _ s) in H0. lra. }
  assert (L1 : (10 ^ (Z.of_nat k - 1) <= Qfloor x)%Z).
  { rewrite <- (Qfloor_Z (10 ^ (Z.of_nat k - 1))). apply Qfloor_resp_le, X1. }
  assert (L2 : (Qfloor x < 10 ^ Z.of_nat k)%Z).
  { rewrite Zlt_Qlt. eapply Qle_lt_trans; [apply Qfloor_le|exact X2]. }
  apply in_map_iff in Ht as (n & <- & Hn). exists n. split; [reflexivity|].
  assert (R : (10 ^ (Z.of_nat k - 1) <= n <= 10 ^ Z.of_nat k)%Z).
  { destruct (_ =? _)%Z; cbn [In] in Hn; lia. }
  destruct R as [R1 R2]. rewrite Zle_Qle in R1, R2. rewrite <- p10_Z in R1, R2 by lia.
  rewrite <- S1, <- S2, !(Qmult_comm s). split; apply Qmult_le_compat_r; lra.
Qed.
Lemma candidate_near q k : 0 < q -> exists t, In t (candidates q k) /\ 2 * Qabs (t - q) <= 10 ^ (dec_point q - Z.of_nat k).
Proof.
  intros H. unfold candidates. cbv zeta. set (s := 10 ^ (dec_point q - Z.of_nat k)).
  pose proof (p10_pos (dec_point q - Z.of_nat k)) as P. fold s in P. assert (X : q / s * s == q) by (field; lra).
  set (x := q / s) in *. exists (inject_Z (round_half_even x) * s). split.
  - apply in_map_iff. exists (round_half_even x). split; [reflexivity|].
    destruct (Z.eqb_spec (round_half_even x) (Qfloor x)) as [E|E]; [left; auto|].
    left. symmetry. revert E. unfold round_half_even. cbv zeta. destruct (Qcompare _ _); [destruct (Z.even _)| |]; intros; congruence.
  - setoid_replace (inject_Z (round_half_even x) * s - q) with (inject_Z (round_half_even x) * s - x * s) by (rewrite X; reflexivity).
    rewrite (scaled_diff _ _ _ P). pose proof (round_half_even_close x).
    assert (Qabs (inject_Z (round_half_even x) - x) * s <= (1 # 2) * s) by (apply Qmult_le_compat_r; lra). lra.
Qed.

Definition normal (f : Q) : Prop := is_double f /\ 0 < f /\ (-1074 < last_bit f)%Z.
Definition pick (a : Q) : option Q := find (fun t => Qeq_bool (double t) a) (flat_map (candidates a) (seq 1 17)).
Lemma pick_some a : normal a -> exists t, pick a = Some t /\ double t == a /\
  10 ^ (dec_point a - 1) <= t /\ t <= 10 ^ dec_point a /\ is_decimal t.
Proof.
  intros (D & H & L). assert (Ex : exists t, In t (flat_map (candidates a) (seq 1 17)) /\ Qeq_bool (double t) a = true).
  { destruct (candidate_near a 17 H) as (t & Ht & C). exists t. split.
    - apply in_flat_map. exists 17%nat. split; [apply in_seq; lia|exact Ht].
    - apply Qeq_bool_iff. apply close_double; auto. destruct (dec_point_spec a H) as [A _].
      eapply Qle_lt_trans; [exact C|]. change (Z.of_nat 17) with 17%Z.
      assert (E : 10 ^ (dec_point a - 17) == 10 ^ (dec_point a - 1) * 10 ^ (-16)) by (rewrite <- p10_add; f_equiv; lia).
      rewrite E. change (10 ^ (-16)) with (1 # 10000000000000000). change (2 ^ (-53)) with (1 # 9007199254740992). lra. }
  destruct (pick a) as [t|] eqn:E.
  - exists t. split; [reflexivity|]. apply find_some in E as [Hin Ht]. apply Qeq_bool_iff in Ht. split; [exact Ht|].
    apply in_flat_map in Hin as (k & Hk & Hin). apply in_seq in Hk.
    destruct (candidates_spec a k t H ltac:(lia) Hin) as (n & Et & B1 & B2). split; [exact B1|]. split; [exact B2|].
    set (e := (dec_point a - Z.of_nat k)%Z) in *. rewrite Et. unfold is_decimal. destruct (Z.le_gt_cases 0 e) as [S|S].
    + exists (n * 10 ^ e)%Z, 0%nat. rewrite inject_Z_mult, <- p10_Z by lia. change (inject_Z (10 ^ Z.of_nat 0)) with 1. field.
    + exists n, (Z.to_nat (- e)). rewrite Z2Nat.id by lia. rewrite <- p10_Z by lia.
      assert (X : 10 ^ e * 10 ^ (- e) == 1) by (rewrite <- p10_add; replace (e + - e)%Z with 0%Z by lia; reflexivity).
      pose proof (p10_pos (- e)). apply (Qmult_inj_r _ _ (10 ^ (- e))); [lra|].
      rewrite <- Qmult_assoc, X. field. lra.
  - exfalso. destruct Ex as (t & A & B). pose proof (find_none _ _ E t A) as C. cbv beta in C. congruence.
Qed.

Definition plain (f : Q) : Prop := (1 # 10000) <= Qabs f /\ Qabs f < inject_Z (10 ^ 16).
Lemma plain_normal f : is_double f -> plain f -> 0 < f -> normal f.
Proof.
  intros D [A B] H. split; [exact D|]. split; [exact H|]. rewrite Qabs_pos in A by lra.
  rewrite (last_bit_pos f H). destruct (flog2_spec f H) as [_ C].
  assert (2 ^ (-14) < 2 ^ (flog2 f + 1)) as L by (eapply Qlt_trans; [|eapply Qle_lt_trans; [exact A|exact C]]; reflexivity).
  apply p2_lt_inv in L. lia.
Qed.
Lemma is_decimal_opp q : is_decimal q -> is_decimal (- q).
Proof.
  intros (n & j & E). exists (- n)%Z, j. rewrite E, inject_Z_opp. unfold Qdiv. ring.
Qed.
Lemma is_decimal_morph p q : p == q -> is_decimal p -> is_decimal q.
Proof. intros E (n & j & H). exists n, j. rewrite <- E. exact H. Qed.
Lemma shortest_spec f : is_double f -> plain f -> is_decimal (shortest f) /\ plain (shortest f) /\ double (shortest f) == f.
Proof.
  intros D Pl.
  assert (Pos : forall a, is_double a -> plain a -> 0 < a -> exists t, pick a = Some t /\ is_decimal t /\ plain t /\ 0 < t /\ double t == a).
  { intros a Da Pa Ha. pose proof (plain_normal a Da Pa Ha) as N. destruct (pick_some a N) as (t & E & Dt & T1 & T2 & T3).
    exists t. split; [exact E|]. split; [exact T3|]. destruct (dec_point_spec a Ha) as [A1 A2].
    destruct Pa as [P1 P2]. rewrite Qabs_pos in P1, P2 by lra.
    assert (L1 : (-4 < dec_point a)%Z) by (apply p10_lt_inv; change (10 ^ (-4)) with (1 # 10000); lra).
    assert (L2 : (dec_point a - 1 < 16)%Z) by (apply p10_lt_inv; change (10 ^ 16) with (inject_Z (10 ^ 16)); lra).
    assert (U1 : 10 ^ (-4) <= 10 ^ (dec_point a - 1)) by (apply p10_le; lia). change (10 ^ (-4)) with (1 # 10000) in U1.
    assert (U2 : 10 ^ dec_point a <= 10 ^ 16) by (apply p10_le; lia). change (10 ^ 16) with (inject_Z (10 ^ 16)) in U2.
    assert (T0 : 0 < t) by lra. split; [|split; [exact T0|exact Dt]]. split; rewrite Qabs_pos by lra; [lra|].
    destruct (Qlt_le_dec t (inject_Z (10 ^ 16))) as [L|L]; [exact L|]. exfalso.
    assert (Et : t == inject_Z (10 ^ 16)) by lra. rewrite (double_morph _ _ Et) in Dt.
    assert (B : is_double (inject_Z (10 ^ 16))).
    { exists 152587890625%Z, 16%Z. split; [reflexivity|]. split; [lia|reflexivity]. }
    rewrite (double_id _ B) in Dt. lra. }
  unfold shortest. cbv zeta. fold (pick (Qabs f)).
  destruct (sign_cases f) as [H|[H|H]].
  - destruct (Pos (Qabs f)) as (t & E & T1 & T2 & T3 & T4).
    { eapply is_double_morph; [symmetry; apply Qabs_pos; lra|exact D]. }
    { destruct Pl as [P1 P2]. split; rewrite Qabs_pos by apply Qabs_nonneg; assumption. }
    { rewrite Qabs_pos by lra. exact H. }
    rewrite E. rewrite (proj2 (Qle_bool_iff 0 f)) by lra.
    split; [eapply is_decimal_morph; [symmetry; apply Qred_correct|exact T1]|].
    split; [destruct T2; split; rewrite Qred_correct; assumption|].
    rewrite (double_morph _ _ (Qred_correct t)), T4. apply Qabs_pos. lra.
  - exfalso. destruct Pl as [P1 _]. rewrite H in P1. apply P1. reflexivity.
  - destruct (Pos (Qabs f)) as (t & E & T1 & T2 & T3 & T4).
    { eapply is_double_morph; [symmetry; apply Qabs_neg; lra|apply is_double_opp, D]. }
    { destruct Pl as [P1 P2]. split; rewrite Qabs_pos by apply Qabs_nonneg; assumption. }
    { rewrite Qabs_neg by lra. exact H. }
    rewrite E. assert (B : Qle_bool 0 f = false) by (destruct (Qle_bool 0 f) eqn:B; [apply Qle_bool_iff in B; lra|reflexivity]).
    rewrite B. split; [eapply is_decimal_morph; [symmetry; apply Qred_correct|apply is_decimal_opp, T1]|].
    split; [destruct T2; split; rewrite Qred_correct, Qabs_opp; assumption|].
    rewrite (double_morph _ _ (Qred_correct (- t))), double_opp, T4, Qabs_neg by lra. ring.
Qed.

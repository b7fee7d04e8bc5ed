(** Files of doubles through the formatter and back. *)
From Verif Require Import Base Num CoordModel CoordProofs Ast GramAst PegModel GramModel FmtModel GramText GramExpr
  GramExprRt GramExprSpec GramExplicit NumTextModel NumTextSpec NumTextProofs GramNum GramTok GramWf GramFileSpec GramPieces GramRead GramExact
  FloatModel FloatSpec FloatProofs.
From Coq Require Import Qabs Lqa.
Local Open Scope nat_scope.

(** With [places] decimals: the double of a decimal fraction with that many decimals and at most 15
    digits in all.  With shortest digits: a number written without an exponent. *)
Definition double_fits (places : Z) (f : Q) : Prop :=
  ((1 <= places <= 300)%Z /\ exists n, (Z.abs n < 10 ^ 15)%Z /\ f = double (inject_Z n / inject_Z (10 ^ places))%Q) \/
  ((places < 0)%Z /\ (f == 0 \/ (1 # 10000) <= Qabs f /\ Qabs f < inject_Z (10 ^ 16))%Q).
Definition double_int_fits (places z : Z) : Prop :=
  (places < 0)%Z \/ ((1 <= places <= 300)%Z /\ (Z.abs z * 10 ^ places < 10 ^ 15)%Z).
Definition double_fits_cmd (places : Z) : cmd Q str -> Prop :=
  values_cmd (double_fits places) (double_fits (-1)) (double_int_fits places).

Lemma double_red q : Qred (double q) = double q.
Proof. unfold double. cbv zeta. apply Qred_complete, Qred_correct. Qed.
Lemma double_nonneg q : (0 <= q -> 0 <= double q)%Q.
Proof.
  intros H. destruct (sign_cases q) as [S|[S|S]].
  - rewrite (double_pos q S). apply Qmult_le_0_compat; [|apply Qlt_le_weak, p2_pos].
    change 0%Q with (inject_Z 0). rewrite <- Zle_Qle. apply round_half_even_nonneg. destruct (mant_bounds q S). lra.
  - rewrite (double_zero q S). apply Qle_refl.
  - exfalso. lra.
Qed.
Lemma neg_iff q : q_neg q = false <-> (0 <= q)%Q.
Proof. unfold q_neg. rewrite negb_false_iff. apply Qle_bool_iff. Qed.
Lemma shortest_sign f : ~ (f == 0)%Q -> (double (shortest f) == f)%Q -> q_neg (shortest f) = q_neg f.
Proof.
  intros N E. apply eq_true_iff_eq. rewrite <- !not_false_iff_true, !neg_iff.
  assert (A : (0 <= shortest f <-> 0 <= f)%Q); [|tauto]. split; intros H.
  - rewrite <- E. apply double_nonneg, H.
  - destruct (Qlt_le_dec (shortest f) 0) as [L|L]; [|exact L]. exfalso.
    assert (K : (0 <= - shortest f)%Q) by lra. apply double_nonneg in K. rewrite double_opp, E in K. apply N. lra.
Qed.
Lemma fmt_double_same places tr f q : (0 <= places)%Z -> fmt_fixed f (Z.to_nat places) = fmt_fixed q (Z.to_nat places) ->
  fmt_double places tr f = fmt_double places tr q.
Proof. intros H E. unfold fmt_double. rewrite (proj2 (Z.ltb_ge _ _)) by exact H. rewrite E. reflexivity. Qed.
Lemma pow_nat_Z places : (0 <= places)%Z -> (10 ^ places)%Z = (10 ^ Z.of_nat (Z.to_nat places))%Z.
Proof. intros H. rewrite Z2Nat.id by exact H. reflexivity. Qed.

(** The text of a decimal fraction of 15 digits is that of the fraction. *)
Lemma float_decimal places tr n : (1 <= places <= 300)%Z -> (Z.abs n < 10 ^ 15)%Z ->
  let q := (inject_Z n / inject_Z (10 ^ places))%Q in
  fmt_float places tr (double q) = fmt_double places tr q /\ q_neg (double q) = q_neg q /\ writable places q.
Proof.
  intros H Hn q. unfold fmt_float. rewrite (proj2 (Z.ltb_ge _ _)) by lia.
  destruct (decimal_double q (double q) n (Z.to_nat places)) as (A & B & C);
    [unfold q; rewrite <- pow_nat_Z by lia; reflexivity|exact Hn|lia|apply nearest_double|].
  split; [|split; [exact C|]].
  - apply fmt_double_same; [lia|]. apply fixed_same; [congruence|exact C].
  - left. split; [lia|]. exists n. reflexivity.
Qed.
Lemma float_parts places tr k : is_double k -> Qred k = k -> double_fits places k ->
  exists i f, parts (q_neg k) i f (fmt_float places tr k) /\ double (parts_value (q_neg k) i f) = k.
Proof.
  intros D R [(H & n & Hn & ->)|(H & Hk)].
  - destruct (float_decimal places tr n H Hn) as (A & B & C). rewrite A, B.
    destruct (writable_parts places tr _ C) as (i & f & P & V). exists i, f. split; [exact P|]. apply double_morph, V.
  - unfold fmt_float. rewrite (proj2 (Z.ltb_lt _ _)) by exact H. unfold double_str. destruct (Qeq_bool k 0) eqn:Z.
    + apply Qeq_bool_iff in Z. assert (k = 0%Q) as -> by (rewrite <- R; exact (Qred_complete k 0 Z)).
      exists ["0"%char], ["0"%char]. split; [|reflexivity]. split; [reflexivity|]. repeat split; try discriminate; apply all_digits_forallb; reflexivity.
    + apply Qeq_bool_neq in Z. destruct Hk as [Hk|Hk]; [contradiction|].
      destruct (shortest_spec k D Hk) as (S1 & S2 & S3). rewrite <- (shortest_sign k Z S3).
      destruct (qstr_parts (shortest k) S1 (or_intror S2)) as (i & f & P & V). exists i, f. split; [exact P|].
      rewrite (double_morph _ _ V), <- (double_red (shortest k)). rewrite (Qred_complete _ _ S3). exact R.
Qed.
Lemma read_double k : num_ok d_reader k -> is_double k /\ Qred k = k.
Proof. intros (t & Ht & ->). split; [apply nearest_double|apply double_red]. Qed.
Lemma double_reads places tr k : is_double k -> Qred k = k -> double_fits places k ->
  double_text (fmt_float places tr k) /\ double (read_decimal (fmt_float places tr k)) = k.
Proof.
  intros A B C. destruct (float_parts places tr k A B C) as (i & f & P & V). split; [exact (parts_double _ _ _ _ P)|].
  rewrite (parts_read _ _ _ _ P), (double_morph _ _ (Qred_correct _)). exact V.
Qed.
Lemma double_kept places tr k : num_ok d_reader k -> double_fits places k -> kept d_reader (d_writer places tr) k.
Proof. intros H F. apply read_double in H as [A B]. apply double_reads; assumption. Qed.
Lemma double_kept_str places tr k : num_ok d_reader k -> double_fits (-1) k -> kept_str d_reader (d_writer places tr) k.
Proof. intros H F. apply read_double in H as [A B]. exact (double_reads (-1) TrimYes k A B F). Qed.
Lemma double_float_num k : float_ok d_reader k -> num_ok d_reader k.
Proof.
  intros (t & _ & H). cbn [d_reader r_float] in H. destruct (re_double t) as [[u [|c r]]|] eqn:E; try discriminate.
  apply re_double_some in E as [E _]. exists u. split; [exact E|]. injection H as <-. reflexivity.
Qed.
Lemma double_field places tr k : float_ok d_reader k -> double_fits places k -> kept_field d_reader (d_writer places tr) k.
Proof.
  intros H1 H2. apply double_float_num in H1. destruct (double_kept places tr k H1 H2) as [K1 K2].
  split; [apply field_of_double, K1|]. cbn [d_reader d_writer r_float w_num r_num] in *.
  pose proof (re_double_app _ [] K1 eq_refl) as E. rewrite app_nil_r in E. rewrite E, K2. reflexivity.
Qed.
Lemma double_const places tr k : const_ok d_reader k -> double_fits places k -> survives d_reader (d_writer places tr) k.
Proof.
  intros (t & Ht & Hm & ->) F. destruct (read_facts t Ht) as (_ & _ & N). specialize (N Hm). apply double_nonneg in N.
  cbn [d_reader r_num] in *. set (k := double (read_decimal t)) in *.
  destruct (float_parts places tr k (proj1 (nearest_double _)) (double_red _) F) as (i & f & P & V).
  apply neg_iff in N. rewrite N in *. split; [exact (parts_unsigned _ _ _ P)|].
  cbn [d_reader d_writer r_num w_num]. rewrite (parts_read _ _ _ _ P), (double_morph _ _ (Qred_correct _)). exact V.
Qed.
Lemma double_int places tr z : double_int_fits places z ->
  double_text (fmt_float_int places tr z) /\ int_of_text (fmt_float_int places tr z) = Some z.
Proof.
  intros [H|[H Hz]]; unfold fmt_float_int.
  - rewrite (proj2 (Z.ltb_lt _ _)) by exact H. apply z_repr_text.
  - rewrite (proj2 (Z.ltb_ge _ _)) by lia.
    assert (E : (inject_Z z == inject_Z (z * 10 ^ places) / inject_Z (10 ^ places))%Q).
    { rewrite inject_Z_mult. rewrite pow_nat_Z by lia. field. apply pow10_nz. }
    rewrite (double_morph _ _ E).
    assert (Hn : (Z.abs (z * 10 ^ places) < 10 ^ 15)%Z).
    { rewrite Z.abs_mul, (Z.abs_eq (10 ^ places)) by (apply Z.pow_nonneg; lia). exact Hz. }
    destruct (float_decimal places tr _ H Hn) as (A & _ & C). rewrite A.
    destruct (writable_parts places tr _ C) as (i & f & P & V).
    pose proof (Qeq_trans _ _ _ V (Qeq_sym _ _ E)) as V'.
    split; [exact (parts_double _ _ _ _ P)|exact (parts_integer _ _ _ _ _ P V')].
Qed.
Lemma double_file places tr m l : Forall (root d_reader m) l -> Forall (double_fits_cmd places) (concat l) ->
  Forall (clean d_reader (d_writer places tr)) (concat l).
Proof.
  apply file_kept.
  - intros k. apply double_kept.
  - intros k. apply double_kept_str.
  - intros k. apply double_field.
  - intros k. apply double_const.
  - intros z. apply double_int.
  - intros d (t & Ht & E). cbn [d_reader r_date] in E. injection E as <-. cbn. auto.
Qed.

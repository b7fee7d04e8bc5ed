(** C44: numbers survive formatting. *)
From Verif Require Import Base Num CoordModel CoordSpec CoordProofs PegModel GramModel GramText NumTextModel NumTextSpec NumTextProofs.
From Coq Require Import Qabs.
Open Scope Z_scope.

(** Full statement: for every number of decimals, trimming mode and number the text is one the
    [double] token reads whole, and it denotes the number rounded to the decimals asked for. *)

(** With one or more decimals it holds. *)
Theorem C44_decimals_partial : forall d tr q, (1 <= d)%nat ->
  let t := fmt_double (Z.of_nat d) tr q in
  (exists r, DecimalText t r /\ RoundedTo d q r) /\
  (forall rest, num_end rest -> double_p (t ++ rest) = POk t rest).
Proof.
  intros d tr q Hd. cbv zeta. destruct (fixed_parts d tr q Hd) as (i & f & Hp & Hv). split.
  - exists (on_grid q d). split; [|apply on_grid_rounded].
    eapply decimal_morph; [exact Hv|]. apply parts_decimal. exact Hp.
  - intros rest Hr. pose proof (parts_double _ _ _ _ Hp) as Ht. unfold double_p, token.
    rewrite skip_id by (apply double_head, Ht). rewrite (re_double_app _ _ Ht Hr). reflexivity.
Qed.

(** Without decimals it holds when the rounded number does not end in a zero. *)
Theorem C44_no_decimals_partial : forall tr q, scaled q 0 mod 10 <> 0 ->
  exists r, DecimalText (fmt_double 0 tr q) r /\ RoundedTo 0 q r.
Proof.
  intros tr q H. exists (on_grid q 0). split; [|apply on_grid_rounded].
  eapply decimal_morph; [|exact (parts_decimal _ _ _ _ (zero_parts tr q H))].
  unfold parts_value, on_grid. rewrite app_nil_r. rewrite (proj1 (int_digits_spec _ (scaled_nonneg q 0))). reflexivity.
Qed.
(** Otherwise zeros of the integer part are trimmed: 100 becomes 1, and 0 the empty text. *)
Theorem C44_no_decimals_refuted :
  fmt_double 0 TrimYes 100 = lit "1" /\ fmt_double 0 TrimYes 0 = [] /\ double_p (fmt_double 0 TrimYes 0 ++ lit "*") = PFail.
Proof. vm_compute. repeat split. Qed.

(** As many decimals as needed: exact between 10^-4 and 10^16. *)
Theorem C44_shortest_partial : forall places tr q, places < 0 ->
  (exists n j, (q == inject_Z n / inject_Z (10 ^ Z.of_nat j))%Q) ->
  (q == 0 \/ (1 # 10000) <= Qabs q /\ Qabs q < inject_Z (10 ^ 16))%Q ->
  let t := fmt_double places tr q in
  DecimalText t q /\ (forall rest, num_end rest -> double_p (t ++ rest) = POk t rest).
Proof.
  intros places tr q Hp Hd Hr. cbv zeta. unfold fmt_double. rewrite (proj2 (Z.ltb_lt _ _)) by exact Hp.
  destruct (qstr_parts q Hd Hr) as (i & f & H & Hv). split.
  - eapply decimal_morph; [exact Hv|]. apply parts_decimal. exact H.
  - intros rest Hre. pose proof (parts_double _ _ _ _ H) as Ht. unfold double_p, token.
    rewrite skip_id by (apply double_head, Ht). rewrite (re_double_app _ _ Ht Hre). reflexivity.
Qed.
(** Beyond, an exponent is written, which the grammar does not know: it reads 1 from 1e-07. *)
Theorem C44_exponent_refuted :
  fmt_double (-1) TrimYes (1 # 10000000) = lit "1e-07" /\
  double_p (lit "1e-07") = POk (lit "1") (lit "e-07") /\
  fmt_double (-1) TrimYes (inject_Z (10 ^ 16)) = lit "1e+16".
Proof. vm_compute. repeat split. Qed.

(** Trimming cannot be switched off: with it the text would be 1.50. *)
Theorem C44_trimming_refuted : forall d q, fmt_double d TrimNo q = fmt_double d TrimYes q.
Proof. reflexivity. Qed.

Example C44_ex1 : fmt_double 3 TrimYes (-1 # 8) = lit "-0.125" /\ fmt_double 2 TrimYes (-1 # 8) = lit "-0.12".
Proof. vm_compute. auto. Qed.
Example C44_ex2 : fmt_double 2 TrimNo (3 # 2) = lit "1.5" /\ fmt_double 2 TrimNo 100 = lit "100".
Proof. vm_compute. auto. Qed.
Example C44_ex3 : fmt_double (-1) TrimYes (123 # 8) = lit "15.375" /\ fmt_double (-1) TrimYes 5 = lit "5.0"
  /\ fmt_double (-1) TrimYes (-1 # 1000) = lit "-0.001".
Proof. vm_compute. auto. Qed.

Print Assumptions C44_decimals_partial.
Print Assumptions C44_no_decimals_partial.
Print Assumptions C44_no_decimals_refuted.
Print Assumptions C44_shortest_partial.
Print Assumptions C44_exponent_refuted.
Print Assumptions C44_trimming_refuted.

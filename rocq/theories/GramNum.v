(** The parser and formatter with exact rational numbers. *)
From Verif Require Import Base Num CoordModel CoordProofs Ast GramAst PegModel GramModel FmtModel GramText GramExpr
  GramExprRt NumTextModel NumTextProofs.
From Coq Require Import Qabs Lqa.
Local Open Scope nat_scope.

(** Numbers read exactly; dates kept as texts. *)
Definition q_reader : reader Q str :=
  MkReader Q str read_decimal
    (fun s => match re_double s with Some (t, []) => Some (read_decimal t) | _ => None end) Some.
Definition q_writer (places : Z) (trim : trim_mode) : writer Q str :=
  MkWriter Q str (fmt_double places trim) q_str (fmt_double_int places trim) (fun d => d).

(** A number the options can write: with [places] decimals it is a multiple of [10^-places]; with
    shortest digits its text has no exponent. *)
Definition writable (places : Z) (q : Q) : Prop :=
  ((1 <= places)%Z /\ exists n, (q == inject_Z n / inject_Z (10 ^ places))%Q) \/
  ((places < 0)%Z /\ is_decimal q /\ repr_range q).

Lemma read_signed t : double_text t ->
  exists n j, read_decimal t = Qred (Qmake n (Z.to_pos (10 ^ Z.of_nat j))) /\
    (head_is (Ascii.eqb "-") t = false -> (0 <= n)%Z).
Proof.
  intros (sg & u & -> & Hs & Hu).
  assert (Hu0 : exists i f, match split_on ch_dot u with [i; f] => (i, f) | _ => (u, []) end = (i, f) /\
              all_digits i /\ all_digits f).
  { destruct Hu as (d & f & -> & [[[Hn Hd] Hf]|[-> (g & -> & [Hgn Hg])]]).
    - apply all_digits_forallb in Hd. destruct Hf as [->|(g & -> & [_ Hg])].
      + exists d, []. rewrite app_nil_r. rewrite split_on_no_dot by (apply all_digits_no_dot, Hd).
        auto using all_digits_nil.
      + apply all_digits_forallb in Hg. exists d, g. change "."%char with ch_dot.
        rewrite split_on_one_dot by (apply all_digits_no_dot; assumption). auto.
    - apply all_digits_forallb in Hg. exists [], g. cbn [app].
      pose proof (split_on_one_dot [] g) as E. cbn [app] in E. change "."%char with ch_dot. rewrite E;
        [|intros c []|apply all_digits_no_dot, Hg]. auto using all_digits_nil. }
  destruct Hu0 as (i & f & E & Hi & Hf).
  pose proof (digits_value_bound i Hi) as [Bi _]. pose proof (digits_value_bound f Hf) as [Bf _].
  pose proof (pow10_pos (length f)) as Hp.
  destruct Hs as [->|[->| ->]].
  - exists (1 * (digits_value i * 10 ^ Z.of_nat (length f) + digits_value f))%Z, (length f). split; [|intros _; nia].
    pose proof (unsigned_head u [] Hu) as [Hh _]. rewrite app_nil_r in Hh. cbn [app]. unfold read_decimal.
    destruct u as [|c u]; [rewrite E; reflexivity|]. cbn [head_is] in Hh. unfold is_sign in Hh.
    apply orb_false_iff in Hh as [H1 H2]. 
    assert (Ascii.eqb c ch_minus = false /\ Ascii.eqb c ch_plus = false) as [-> ->] by (split; assumption).
    rewrite E. reflexivity.
  - exists (1 * (digits_value i * 10 ^ Z.of_nat (length f) + digits_value f))%Z, (length f). split; [|intros _; nia].
    unfold read_decimal. cbn [app]. change (Ascii.eqb "+" ch_minus) with false. change (Ascii.eqb "+" ch_plus) with true.
    cbn iota. rewrite E. reflexivity.
  - exists (-1 * (digits_value i * 10 ^ Z.of_nat (length f) + digits_value f))%Z, (length f). split; [|discriminate].
    unfold read_decimal. cbn [app]. change (Ascii.eqb "-" ch_minus) with true. cbn iota. rewrite E. reflexivity.
Qed.

Lemma Qred_id q : Qred (Qred q) = Qred q.
Proof. apply Qred_complete, Qred_correct. Qed.

Lemma read_facts t : double_text t ->
  Qred (read_decimal t) = read_decimal t /\ is_decimal (read_decimal t) /\
  (head_is (Ascii.eqb "-") t = false -> (0 <= read_decimal t)%Q).
Proof.
  intros H. destruct (read_signed t H) as (n & j & -> & Hn). split; [apply Qred_id|]. split.
  - exists n, j. rewrite Qred_correct. apply mk_div.
  - intros Ht. rewrite Qred_correct. unfold Qle. cbn. specialize (Hn Ht). lia.
Qed.

Lemma grid_exact q d n : (q == inject_Z n / inject_Z (10 ^ Z.of_nat d))%Q -> (on_grid q d == q)%Q.
Proof.
  intros H. unfold on_grid. rewrite mk_div.
  assert (E : scaled q d = Z.abs n).
  { unfold scaled. rewrite <- (round_half_even_integer (Z.abs n)). apply round_half_even_morph.
    rewrite H. unfold Qdiv. rewrite Qabs_Qmult, Qabs_Qinv. change (inject_Z (Z.abs n)) with (Qabs (inject_Z n)).
    rewrite (Qabs_pos (inject_Z (10 ^ Z.of_nat d))).
    - field. apply pow10_nz.
    - change 0%Q with (inject_Z 0). rewrite <- Zle_Qle. apply Z.lt_le_incl, pow10_pos. }
  rewrite E. rewrite H at 2. apply Qmult_comp; [|reflexivity].
  assert (Hq : Qle_bool 0 q = (0 <=? n)%Z).
  { destruct (Z.leb_spec 0 n) as [L|L].
    - apply Qle_bool_iff. rewrite H. apply Qle_shift_div_l.
      + change 0%Q with (inject_Z 0). rewrite <- Zlt_Qlt. apply pow10_pos.
      + rewrite Qmult_0_l. change 0%Q with (inject_Z 0). rewrite <- Zle_Qle. exact L.
    - destruct (Qle_bool 0 q) eqn:B; [|reflexivity]. apply Qle_bool_iff in B. rewrite H in B. exfalso.
      assert (0 * inject_Z (10 ^ Z.of_nat d) <= inject_Z n)%Q as B'.
      { setoid_replace (inject_Z n) with (inject_Z n / inject_Z (10 ^ Z.of_nat d) * inject_Z (10 ^ Z.of_nat d))%Q
          by (field; apply pow10_nz).
        apply Qmult_le_compat_r; [exact B|]. change 0%Q with (inject_Z 0). rewrite <- Zle_Qle. apply Z.lt_le_incl, pow10_pos. }
      rewrite Qmult_0_l in B'. change 0%Q with (inject_Z 0) in B'. rewrite <- Zle_Qle in B'. lia. }
  unfold q_neg. rewrite Hq. unfold apply_sign. destruct (Z.leb_spec 0 n); cbn [negb].
  - rewrite Z.abs_eq by lia. reflexivity.
  - rewrite Z.abs_neq, Z.opp_involutive by lia. reflexivity.
Qed.

Lemma writable_parts places tr q : writable places q ->
  exists i f, parts (q_neg q) i f (fmt_double places tr q) /\ (parts_value (q_neg q) i f == q)%Q.
Proof.
  intros [[H1 (n & Hn)]|[H1 [H2 H3]]].
  - rewrite <- (Z2Nat.id places) in Hn |- * by lia.
    destruct (fixed_parts (Z.to_nat places) tr q ltac:(lia)) as (i & f & Hp & Hv). exists i, f. split; [exact Hp|].
    rewrite Hv. apply (grid_exact _ _ _ Hn).
  - unfold fmt_double. rewrite (proj2 (Z.ltb_lt _ _)) by exact H1. apply qstr_parts; assumption.
Qed.
Lemma writable_survives places tr q : writable places q -> Qred q = q -> (0 <= q)%Q ->
  survives q_reader (q_writer places tr) q.
Proof.
  intros H1 H2 H3. destruct (writable_parts places tr q H1) as (i & f & Hp & Hv).
  assert (E : q_neg q = false) by (unfold q_neg; apply Qle_bool_iff in H3; rewrite H3; reflexivity).
  rewrite E in *. cbn [survives q_reader q_writer w_num r_num]. split; [exact (parts_unsigned _ _ _ Hp)|].
  cbn [q_reader q_writer w_num r_num]. rewrite (parts_read _ _ _ _ Hp). rewrite (Qred_complete _ _ Hv). exact H2.
Qed.
Lemma const_ok_survives places tr k : const_ok q_reader k -> writable places k ->
  survives q_reader (q_writer places tr) k.
Proof.
  intros (t & Ht & Hm & ->) Hw. destruct (read_facts t Ht) as (F1 & _ & F3). apply writable_survives; auto.
Qed.

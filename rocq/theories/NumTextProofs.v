(** Proofs about the number output of the formatter. *)
From Verif Require Import Base Num CoordModel CoordSpec CoordProofs ColorSpec ColorProofs PegModel GramText
  NumTextModel NumTextSpec.
From Coq Require Import Qround Qabs Lqa Znumtheory.
Open Scope Z_scope.

(** ** Texts in parts *)
Definition point (f : str) : str := match f with [] => [] | _ => ch_dot :: f end.
Definition parts (neg : bool) (i f t : str) : Prop :=
  t = (if neg then [ch_minus] else []) ++ i ++ point f /\ all_digits i /\ all_digits f /\ i <> [].
Definition parts_value (neg : bool) (i f : str) : Q :=
  Qmake (apply_sign neg (digits_value (i ++ f))) (Z.to_pos (10 ^ Z.of_nat (length f))).

Lemma pow10_Q n : (inject_Z (10 ^ Z.of_nat n) == Z.pos (Z.to_pos (10 ^ Z.of_nat n)) # 1)%Q.
Proof. rewrite Z2Pos.id by apply pow10_pos. reflexivity. Qed.
Lemma mk_div a n : (Qmake a (Z.to_pos (10 ^ Z.of_nat n)) == inject_Z a / inject_Z (10 ^ Z.of_nat n))%Q.
Proof. rewrite (Qmake_Qdiv a), pow10_Q. reflexivity. Qed.
Lemma pow10_nz n : ~ (inject_Z (10 ^ Z.of_nat n) == 0)%Q.
Proof. intros H. unfold Qeq, inject_Z in H. cbn in H. pose proof (pow10_pos n). lia. Qed.

Lemma digit_spec c : is_digit c = true -> spec_digit c = Some (digit_val c).
Proof. destruct c as [[] [] [] [] [] [] [] []]; intros H; try discriminate H; reflexivity. Qed.
Lemma digits_spec s : all_digits s -> spec_value s = Some (digits_value s).
Proof.
  induction s as [|c s IH]; [reflexivity|]. intros H. apply all_digits_cons in H as [H1 H2].
  cbn [spec_value]. rewrite (digit_spec _ H1), (IH H2), digits_value_cons. reflexivity.
Qed.

Lemma parts_decimal neg i f t : parts neg i f t -> DecimalText t (parts_value neg i f).
Proof.
  intros (-> & Hi & Hf & Hn).
  exists (if neg then -1 else 1), (i ++ point f), i, f, (digits_value i), (digits_value f).
  split; [destruct neg; constructor|]. split.
  { destruct f as [|c f]; [left; rewrite app_nil_r; auto|right; split; [reflexivity|discriminate]]. }
  split; [apply digits_spec, Hi|]. split; [apply digits_spec, Hf|].
  unfold parts_value. rewrite mk_div, digits_value_app.
  destruct neg; cbn [apply_sign]; rewrite ?inject_Z_opp, inject_Z_plus, inject_Z_mult; field; apply pow10_nz.
Qed.
Lemma digits_digits1 s : all_digits s -> s <> [] -> digits1 s.
Proof. intros H1 H2. split; [exact H2|]. apply all_digits_forallb, H1. Qed.
Lemma parts_unsigned i f t : parts false i f t -> unsigned t.
Proof.
  intros (-> & Hi & Hf & Hn). exists i, (point f). split; [reflexivity|]. left.
  split; [apply digits_digits1; assumption|].
  destruct f as [|c f]; [left; reflexivity|right]. exists (c :: f). split; [reflexivity|].
  apply digits_digits1; [exact Hf|discriminate].
Qed.
Lemma parts_double neg i f t : parts neg i f t -> double_text t.
Proof.
  intros H. pose proof H as (-> & Hi & Hf & Hn). exists (if neg then [ch_minus] else []), (i ++ point f).
  split; [reflexivity|]. split; [destruct neg; [right; right|left]; reflexivity|].
  apply (parts_unsigned i f). split; [reflexivity|auto].
Qed.
Lemma parts_read neg i f t : parts neg i f t -> read_decimal t = Qred (parts_value neg i f).
Proof.
  intros (-> & Hi & Hf & Hn). unfold read_decimal, parts_value. rewrite digits_value_app.
  set (s := i ++ point f).
  assert (Es : match split_on ch_dot s with [i; f] => (i, f) | _ => (s, []) end = (i, f)).
  { subst s. destruct f as [|c f].
    - cbn [point]. rewrite app_nil_r. rewrite split_on_no_dot by (apply all_digits_no_dot, Hi). reflexivity.
    - cbn [point]. rewrite split_on_one_dot by (apply all_digits_no_dot; assumption). reflexivity. }
  destruct neg.
  - cbn [app]. change (Ascii.eqb ch_minus ch_minus) with true. cbn iota. rewrite Es. reflexivity.
  - cbn [app apply_sign]. subst s. destruct i as [|c i]; [congruence|]. cbn [app] in *.
    apply all_digits_cons in Hi as [Hc _]. apply is_digit_not_sign in Hc as (E1 & E2 & _). rewrite E1, E2, Es.
    rewrite Z.mul_1_l. reflexivity.
Qed.

(** ** [rstrip] *)
Lemma lstrip_app c a b :
  lstrip c (a ++ b) = match lstrip c a with [] => lstrip c b | l => l ++ b end.
Proof.
  induction a as [|x a IH]; [reflexivity|]. cbn [app lstrip]. destruct (Ascii.eqb x c); [exact IH|reflexivity].
Qed.
Lemma rstrip_app c a b :
  rstrip c (a ++ b) = match rstrip c b with [] => rstrip c a | r => a ++ r end.
Proof.
  unfold rstrip. rewrite rev_app_distr, lstrip_app. destruct (lstrip c (rev b)) as [|x l] eqn:E; [reflexivity|].
  rewrite rev_app_distr, rev_involutive. destruct (rev (x :: l)) eqn:E2; [|reflexivity].
  apply (f_equal (@length ascii)) in E2. rewrite rev_length in E2. discriminate.
Qed.
Lemma lstrip_id c s : ~ In c s -> lstrip c s = s.
Proof.
  destruct s as [|x s]; [reflexivity|]. intros H. cbn. destruct (Ascii.eqb x c) eqn:E; [|reflexivity].
  apply Ascii.eqb_eq in E as ->. exfalso. apply H. left. reflexivity.
Qed.
Lemma rstrip_id c s : ~ In c s -> rstrip c s = s.
Proof. intros H. unfold rstrip. rewrite lstrip_id, rev_involutive; [reflexivity|]. rewrite <- in_rev. exact H. Qed.
Lemma digits_no_dot s : all_digits s -> ~ In ch_dot s.
Proof. intros H Hi. apply H in Hi. discriminate. Qed.

Lemma trim_parts a f :
  ~ In ch_dot a -> all_digits f ->
  rstrip ch_dot (rstrip ch_zero (a ++ ch_dot :: f)) = a ++ point (rstrip ch_zero f).
Proof.
  intros Ha Hf. change (ch_dot :: f) with ([ch_dot] ++ f). rewrite app_assoc, rstrip_app.
  pose proof (rstrip_spec f) as [k Ek].
  destruct (rstrip ch_zero f) as [|x r] eqn:E.
  - rewrite rstrip_app. change (rstrip ch_zero [ch_dot]) with [ch_dot].
    cbn iota. rewrite rstrip_app. change (rstrip ch_dot [ch_dot]) with (@nil ascii). cbn iota.
    cbn [point]. rewrite app_nil_r. apply rstrip_id, Ha.
  - rewrite rstrip_app. rewrite (rstrip_id ch_dot (x :: r)).
    + cbn iota. rewrite <- app_assoc. reflexivity.
    + apply digits_no_dot. rewrite Ek in Hf. apply all_digits_app in Hf as [Hf _]. exact Hf.
Qed.

(** ** Fixed number of decimals *)
Lemma strip_value i f k : 
  (parts_value false i (f ++ repeat ch_zero k) == parts_value false i f)%Q.
Proof.
  unfold parts_value. rewrite !mk_div. cbn [apply_sign]. rewrite app_assoc, digits_value_pad_right.
  rewrite app_length, repeat_length, Nat2Z.inj_add, Z.pow_add_r by lia. rewrite !inject_Z_mult.
  field. split; apply pow10_nz.
Qed.
Lemma parts_value_opp neg i f : (parts_value neg i f == inject_Z (if neg then -1 else 1) * parts_value false i f)%Q.
Proof. unfold parts_value, Qeq. destruct neg; cbn [apply_sign Qnum Qden inject_Z Qmult]; lia. Qed.

Lemma sign_no_dot (b : bool) s : all_digits s -> ~ In ch_dot ((if b then [ch_minus] else []) ++ s).
Proof.
  intros H Hi. apply in_app_or in Hi as [Hi|Hi]; [|apply (digits_no_dot _ H Hi)].
  destruct b; [|contradiction]. destruct Hi as [Hi|[]]. discriminate.
Qed.

Lemma fixed_parts d tr q : (1 <= d)%nat ->
  exists i f, parts (q_neg q) i f (fmt_double (Z.of_nat d) tr q) /\ (parts_value (q_neg q) i f == on_grid q d)%Q.
Proof.
  intros Hd. unfold fmt_double. rewrite (proj2 (Z.ltb_ge _ _)) by lia. rewrite Nat2Z.id. cbn [truth].
  unfold fmt_fixed. fold (scaled q d). fold (q_neg q). destruct d as [|d']; [lia|]. set (d := S d') in *.
  set (m := scaled q d). pose proof (scaled_nonneg q d) as Hm. fold m in Hm.
  destruct (int_digits_spec (m / 10 ^ Z.of_nat d)) as (Hv & Ha & Hne).
  { apply Z.div_pos; [exact Hm|apply pow10_pos]. }
  pose proof (fixed_digits_all d m) as Hf. pose proof (rstrip_spec (fixed_digits d m)) as [k Ek].
  exists (int_digits (m / 10 ^ Z.of_nat d)), (rstrip ch_zero (fixed_digits d m)).
  assert (Hs : all_digits (rstrip ch_zero (fixed_digits d m))).
  { rewrite Ek in Hf. apply all_digits_app in Hf as [Hf _]. exact Hf. }
  split.
  - split; [|auto]. rewrite app_assoc, trim_parts; [rewrite <- app_assoc; reflexivity| |exact Hf].
    apply sign_no_dot, Ha.
  - rewrite parts_value_opp. rewrite <- (strip_value _ _ k), <- Ek, <- parts_value_opp.
    unfold parts_value, on_grid. rewrite fixed_digits_length. unfold m. rewrite pack_body_value. reflexivity.
Qed.

Lemma on_grid_rounded q d : RoundedTo d q (on_grid q d).
Proof.
  exists (apply_sign (q_neg q) (scaled q d)). split; [apply mk_div|]. cbv zeta.
  set (p := inject_Z (10 ^ Z.of_nat d)).
  destruct (round_half_even_rounds (Qabs q * p)) as [H1 H2]. fold (scaled q d) in H1, H2. fold p in H1, H2.
  change (round_half_even (Qabs q * p)) with (scaled q d) in H1, H2. set (m := scaled q d) in *.
  unfold q_neg. destruct (Qle_bool 0 q) eqn:E; cbn [negb apply_sign].
  - apply Qle_bool_iff in E. rewrite (Qabs_pos q E) in H1, H2. apply Qabs_Qle_condition in H1 as [H1 H1'].
    split; [lra|]. intros H. apply H2. destruct H as [H|H].
    + first [rewrite Qabs_neg by lra; lra|rewrite Qabs_pos by lra; lra].
    + first [rewrite Qabs_neg by lra; lra|rewrite Qabs_pos by lra; lra].
  - assert (q <= 0)%Q as E'. { destruct (Qlt_le_dec 0 q) as [L|L]; [|exact L]. apply Qlt_le_weak in L.
      apply Qle_bool_iff in L. congruence. }
    rewrite (Qabs_neg q E') in H1, H2. apply Qabs_Qle_condition in H1 as [H1 H1'].
    rewrite inject_Z_opp, Z.even_opp. split; [lra|]. intros H. apply H2. destruct H as [H|H].
    + first [rewrite Qabs_neg by lra; lra|rewrite Qabs_pos by lra; lra].
    + first [rewrite Qabs_neg by lra; lra|rewrite Qabs_pos by lra; lra].
Qed.

Lemma decimal_morph t q q' : (q == q')%Q -> DecimalText t q -> DecimalText t q'.
Proof.
  intros E (s & b & i & f & vi & vf & H1 & H2 & H3 & H4 & H5). exists s, b, i, f, vi, vf. rewrite <- E. auto.
Qed.

(** ** No decimals *)
Lemma zero_parts tr q : (scaled q 0) mod 10 <> 0 ->
  parts (q_neg q) (int_digits (scaled q 0)) [] (fmt_double 0 tr q).
Proof.
  intros H. unfold fmt_double. cbn [Z.ltb Z.compare Z.to_nat truth]. unfold fmt_fixed. fold (scaled q 0). fold (q_neg q).
  change (10 ^ Z.of_nat 0) with 1. rewrite Z.div_1_r. pose proof (scaled_nonneg q 0) as Hm.
  set (m := scaled q 0) in *. destruct (int_digits_spec m Hm) as (Hv & Ha & Hne). cbn [point app].
  assert (E : rstrip ch_zero (int_digits m) = int_digits m).
  { pose proof (rstrip_spec (int_digits m)) as [k Ek]. destruct k as [|k]; [rewrite app_nil_r in Ek; congruence|].
    exfalso. apply H. rewrite <- Hv, Ek, digits_value_pad_right, Nat2Z.inj_succ, Z.pow_succ_r by lia.
    rewrite Z.mul_assoc, (Z.mul_comm _ 10), <- Z.mul_assoc, (Z.mul_comm 10). apply Z_mod_mult. }
  split; [|repeat split; [exact Ha|apply all_digits_nil|exact Hne]].
  unfold point. rewrite !app_nil_r. rewrite rstrip_app, E.
  destruct (int_digits m) as [|c l] eqn:El; [congruence|]. cbn iota. apply rstrip_id, sign_no_dot, Ha.
Qed.

(** ** Shortest digits *)
Lemma ten_power n : forall d j, 0 < d -> (Z.to_nat d <= n)%nat -> 0 <= j -> (d | 10 ^ j) -> (d | 10 ^ Z.log2 d).
Proof.
  induction n as [|n IH]; intros d j Hd Hn Hj Hdiv; [lia|].
  destruct (Z.eq_dec d 1) as [->|H1]; [apply Z.divide_1_l|].
  pose proof (Z.gcd_divide_l d 10) as [d' Hd']. pose proof (Z.gcd_divide_r d 10) as Hg10.
  pose proof (Z.gcd_nonneg d 10) as Hg0. set (g := Z.gcd d 10) in *.
  assert (Hg : g <> 0) by (intros ->; lia).
  destruct (Z.eq_dec g 1) as [Hg1|Hg1].
  - exfalso. assert (d | 1) as D.
    { clear - Hg1 Hdiv Hj. revert Hdiv. pattern j. apply natlike_ind; [auto| |exact Hj].
      intros x Hx I. rewrite Z.pow_succ_r by exact Hx. intros D. apply I. eapply Gauss; [exact D|].
      apply Zgcd_1_rel_prime. exact Hg1. }
    apply Z.divide_1_r_nonneg in D; lia.
  - assert (Hd'0 : 0 < d') by nia. assert (Hlt : d' * 2 <= d) by nia.
    assert (D : (d' | 10 ^ Z.log2 d')).
    { apply (IH d' j); try lia. eapply Z.divide_trans; [|exact Hdiv]. exists g. lia. }
    assert (Hlog : Z.succ (Z.log2 d') <= Z.log2 d).
    { rewrite <- Z.log2_double by exact Hd'0. apply Z.log2_le_mono. lia. }
    replace (Z.log2 d) with (Z.succ (Z.log2 d') + (Z.log2 d - Z.succ (Z.log2 d'))) by lia.
    pose proof (Z.log2_nonneg d'). rewrite Z.pow_add_r by lia. apply Z.divide_mul_l.
    rewrite Z.pow_succ_r by lia. rewrite Hd', (Z.mul_comm d'). apply Z.mul_divide_mono_r with (p := d') in Hg10.
    eapply Z.divide_trans; [exact Hg10|]. apply Z.mul_divide_mono_l. exact D.
Qed.

Definition is_decimal (q : Q) : Prop := exists n j, (q == inject_Z n / inject_Z (10 ^ Z.of_nat j))%Q.

Lemma decimal_exact q : is_decimal q -> (Z.pos (Qden q) | Qnum q * 10 ^ Z.log2 (Z.pos (Qden q))).
Proof.
  intros (n & j & E). destruct q as [a b]. cbn [Qnum Qden].
  assert (E' : a * 10 ^ Z.of_nat j = n * Z.pos b).
  { rewrite <- mk_div in E. unfold Qeq in E. cbn [Qnum Qden] in E. rewrite Z2Pos.id in E by apply pow10_pos. exact E. }
  pose proof (Z.gcd_divide_l (Z.pos b) a) as [b' Hb]. pose proof (Z.gcd_divide_r (Z.pos b) a) as [a' Ha].
  pose proof (Z.gcd_nonneg (Z.pos b) a) as Hg0. set (g := Z.gcd (Z.pos b) a) in *.
  assert (Hg : 0 < g) by (destruct (Z.eq_dec g 0) as [->|]; lia).
  assert (Hb' : 0 < b') by nia.
  assert (Hrp : rel_prime b' a').
  { apply Zgcd_1_rel_prime. apply (Z.mul_reg_l _ _ g); [lia|]. rewrite <- Z.gcd_mul_mono_l_nonneg by lia.
    rewrite (Z.mul_comm g b'), (Z.mul_comm g a'), <- Hb, <- Ha. unfold g. lia. }
  assert (D : (b' | 10 ^ Z.of_nat j)).
  { apply (Gauss b' a'); [|exact Hrp]. exists n. apply (Z.mul_reg_l _ _ g); [lia|]. nia. }
  apply (ten_power (Z.to_nat b') b' _ Hb') in D; [|lia|lia].
  assert (Z.log2 b' <= Z.log2 (Z.pos b)) by (apply Z.log2_le_mono; nia).
  pose proof (Z.log2_nonneg b').
  replace (Z.log2 (Z.pos b)) with (Z.log2 b' + (Z.log2 (Z.pos b) - Z.log2 b')) by lia.
  rewrite Z.pow_add_r by lia. rewrite Z.mul_assoc. apply Z.divide_mul_l.
  rewrite Hb, Ha at 1. rewrite (Z.mul_comm b'), (Z.mul_comm a'), <- Z.mul_assoc. apply Z.mul_divide_mono_l.
  apply Z.divide_mul_r. exact D.
Qed.

Lemma cross i f m k :
  digits_value (i ++ f) * 10 ^ Z.of_nat k = m * 10 ^ Z.of_nat (length f) ->
  (parts_value false i f == inject_Z m / inject_Z (10 ^ Z.of_nat k))%Q.
Proof.
  intros H. unfold parts_value. cbn [apply_sign]. rewrite <- mk_div. unfold Qeq. cbn [Qnum Qden].
  rewrite !Z2Pos.id by apply pow10_pos. exact H.
Qed.
Lemma pow_nat a b : 10 ^ Z.of_nat (a + b) = 10 ^ Z.of_nat a * 10 ^ Z.of_nat b.
Proof. rewrite Nat2Z.inj_add. apply Z.pow_add_r; lia. Qed.

Lemma repr_parts neg m k : 0 < m ->
  let ds := int_digits m in let pt := Z.of_nat (length ds) - Z.of_nat k in
  -4 < pt <= 16 ->
  exists i f, parts neg i f (repr_digits neg (rstrip ch_zero ds) pt) /\
    (parts_value false i f == inject_Z m / inject_Z (10 ^ Z.of_nat k))%Q.
Proof.
  intros Hm ds pt Hpt. destruct (int_digits_spec m ltac:(lia)) as (Hv & Ha & Hne). fold ds in Hv, Ha, Hne.
  destruct (rstrip_spec ds) as [z Ez]. set (r := rstrip ch_zero ds) in *.
  assert (Hr : all_digits r) by (rewrite Ez in Ha; apply all_digits_app in Ha; tauto).
  assert (Hrne : r <> []). { intros E. rewrite E in Ez. rewrite Ez in Hv. cbn [app] in Hv. rewrite digits_value_zeros in Hv. lia. }
  assert (HL : length ds = (length r + z)%nat) by (rewrite Ez at 1; rewrite app_length, repeat_length; reflexivity).
  assert (Hmz : m = digits_value r * 10 ^ Z.of_nat z) by (rewrite <- Hv, Ez at 1; apply digits_value_pad_right).
  unfold repr_digits. rewrite (proj2 (Z.ltb_lt _ _)) by lia. rewrite (proj2 (Z.leb_le pt 16)) by lia. cbn [andb].
  destruct (Z.leb_spec pt 0) as [H0|H0].
  - exists [ch_zero], (repeat ch_zero (Z.to_nat (- pt)) ++ r). split.
    + split; [|split; [intros c [<-|[]]; reflexivity|split; [apply all_digits_app; split; [apply all_digits_repeat_zero|exact Hr]|discriminate]]].
      assert (E : point (repeat ch_zero (Z.to_nat (- pt)) ++ r) = ch_dot :: repeat ch_zero (Z.to_nat (- pt)) ++ r).
      { destruct (repeat ch_zero (Z.to_nat (- pt)) ++ r) eqn:E; [|reflexivity]. apply app_eq_nil in E as [_ E]. congruence. }
      rewrite E. reflexivity.
    + apply cross. change ([ch_zero] ++ ?x) with (repeat ch_zero 1 ++ x). rewrite !digits_value_pad_left, app_length, repeat_length.
      rewrite Hmz, <- Z.mul_assoc, <- pow_nat. f_equal. f_equal. lia.
  - destruct (Z.ltb_spec pt (Z.of_nat (length r))) as [H1|H1].
    + assert (Hs : length (skipn (Z.to_nat pt) r) = (length r - Z.to_nat pt)%nat) by apply skipn_length.
      assert (Hf : length (firstn (Z.to_nat pt) r) = Z.to_nat pt) by (rewrite firstn_length; lia).
      pose proof (firstn_skipn (Z.to_nat pt) r) as Efs. rewrite <- Efs in Hr. apply all_digits_app in Hr as [Hr1 Hr2].
      exists (firstn (Z.to_nat pt) r), (skipn (Z.to_nat pt) r). split.
      * split; [|split; [exact Hr1|split; [exact Hr2|]]].
        -- destruct (skipn (Z.to_nat pt) r); [cbn in Hs; lia|reflexivity].
        -- destruct (firstn (Z.to_nat pt) r); [cbn in Hf; lia|discriminate].
      * apply cross. rewrite Efs, Hs. rewrite Hmz, <- Z.mul_assoc, <- pow_nat. f_equal. f_equal. lia.
    + exists (r ++ repeat ch_zero (Z.to_nat pt - length r)), [ch_zero]. split.
      * split; [rewrite <- !app_assoc; reflexivity|]. split; [apply all_digits_app; split; [exact Hr|apply all_digits_repeat_zero]|].
        split; [intros c [<-|[]]; reflexivity|]. destruct r; [congruence|discriminate].
      * apply cross. change [ch_zero] with (repeat ch_zero 1). rewrite !digits_value_pad_right, repeat_length.
        rewrite Hmz, <- !Z.mul_assoc, <- !pow_nat. f_equal. f_equal. lia.
Qed.

Definition repr_range (q : Q) : Prop := (q == 0 \/ (1 # 10000) <= Qabs q /\ Qabs q < inject_Z (10 ^ 16))%Q.

Lemma qstr_parts q : is_decimal q -> repr_range q ->
  exists i f, parts (q_neg q) i f (q_str q) /\ (parts_value (q_neg q) i f == q)%Q.
Proof.
  intros Hd Hr. pose proof (decimal_exact q Hd) as D. unfold q_str. fold (q_neg q).
  set (b := Z.pos (Qden q)) in *. set (k := Z.to_nat (Z.log2 b)).
  assert (Ek : Z.of_nat k = Z.log2 b) by (unfold k; rewrite Z2Nat.id by apply Z.log2_nonneg; reflexivity).
  rewrite <- Ek in D. set (m := Z.abs (Qnum q) * 10 ^ Z.of_nat k / b).
  assert (Hm : m * b = Z.abs (Qnum q) * 10 ^ Z.of_nat k).
  { unfold m. rewrite Z.mul_comm. symmetry. apply Z_div_exact_full_2; [discriminate|].
    apply Z.mod_divide; [discriminate|]. apply Z.divide_abs_r in D. rewrite Z.abs_mul in D.
    rewrite (Z.abs_eq (10 ^ Z.of_nat k)) in D by apply Z.lt_le_incl, pow10_pos. exact D. }
  assert (Hm0 : 0 <= m) by (apply Z.div_pos; [apply Z.mul_nonneg_nonneg; [lia|apply Z.lt_le_incl, pow10_pos]|reflexivity]).
  assert (Eq : (inject_Z m / inject_Z (10 ^ Z.of_nat k) == Qabs q)%Q).
  { rewrite <- mk_div. destruct q as [x y]. unfold Qeq. cbn [Qabs Qnum Qden] in *. rewrite Z2Pos.id by apply pow10_pos. exact Hm. }
  assert (Es : (inject_Z (if q_neg q then -1 else 1) * Qabs q == q)%Q).
  { unfold q_neg. destruct (Qle_bool 0 q) eqn:E; cbn [negb].
    - apply Qle_bool_iff in E. rewrite Qabs_pos by exact E. change (inject_Z 1) with 1%Q. ring.
    - assert (q <= 0)%Q as E'. { destruct (Qlt_le_dec 0 q) as [L|L]; [|exact L]. apply Qlt_le_weak in L.
        apply Qle_bool_iff in L. congruence. }
      rewrite Qabs_neg by exact E'. change (inject_Z (-1)) with (-1)%Q. ring. }
  destruct (Z.eqb_spec m 0) as [E0|E0].
  - exists [ch_zero], [ch_zero]. split.
    + split; [destruct (q_neg q); reflexivity|]. repeat split; try discriminate; intros c [<-|[]]; reflexivity.
    + rewrite E0 in Eq. eapply Qeq_trans; [|exact Es]. rewrite <- Eq. unfold Qdiv.
      rewrite Qmult_0_l, Qmult_0_r. destruct (q_neg q); reflexivity.
  - destruct Hr as [Hr|[Hr1 Hr2]].
    { exfalso. apply E0. rewrite Hr in Eq. change (Qabs 0) with 0%Q in Eq. rewrite <- mk_div in Eq. unfold Qeq in Eq. cbn in Eq. lia. }
    destruct (repr_parts (q_neg q) m k ltac:(lia)) as (i & f & H1 & H2).
    { rewrite <- Eq, <- mk_div in Hr1, Hr2. unfold Qle, Qlt in Hr1, Hr2. cbn [Qnum Qden inject_Z] in Hr1, Hr2.
      rewrite Z2Pos.id in Hr1, Hr2 by apply pow10_pos. rewrite Z.mul_1_l in Hr1.
      pose proof (int_digits_length m) as IL. split.
      - destruct (Nat.le_gt_cases k 4) as [Hk|Hk].
        + destruct (int_digits_spec m Hm0) as (_ & _ & Hne). destruct (int_digits m); [congruence|]. cbn [length].
          destruct (Nat.eq_dec k 4); lia.
        + specialize (IL (k - 4)%nat Hm0 ltac:(lia)).
          assert (~ (length (int_digits m) <= k - 4)%nat) as G; [|lia]. intros G. apply IL in G.
          replace k with (k - 4 + 4)%nat in Hr1 by lia. rewrite pow_nat in Hr1. change (10 ^ Z.of_nat 4) with 10000 in Hr1. lia.
      - specialize (IL (k + 16)%nat Hm0 ltac:(lia)). assert (length (int_digits m) <= k + 16)%nat; [|lia]. apply IL.
        rewrite pow_nat. change (10 ^ Z.of_nat 16) with (10 ^ 16). lia. }
    exists i, f. split; [exact H1|]. rewrite parts_value_opp, H2, Eq. exact Es.
Qed.

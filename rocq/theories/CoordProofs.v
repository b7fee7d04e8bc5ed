(** Proofs about the coordinate format model. *)
From Verif Require Import Base CoordModel CoordSpec.
From Coq Require Import Qround Qabs Lqa.
Open Scope Z_scope.

Definition all_digits (s : str) : Prop := forall c, In c s -> is_digit c = true.

Lemma all_digits_forallb s : forallb is_digit s = true <-> all_digits s.
Proof. unfold all_digits. apply forallb_forall. Qed.

Lemma all_digits_app a b : all_digits (a ++ b) <-> all_digits a /\ all_digits b.
Proof.
  unfold all_digits; split.
  - intros H; split; intros c Hc; apply H, in_or_app; auto.
  - intros [Ha Hb] c Hc; apply in_app_or in Hc; destruct Hc; auto.
Qed.

Lemma all_digits_cons c s : all_digits (c :: s) <-> is_digit c = true /\ all_digits s.
Proof.
  unfold all_digits; split.
  - intros H; split; [apply H; left; reflexivity | intros d Hd; apply H; right; exact Hd].
  - intros [Hc Hs] d [-> | Hd]; auto.
Qed.

Lemma all_digits_nil : all_digits [].
Proof. intros c []. Qed.

Lemma all_digits_repeat_zero k : all_digits (repeat ch_zero k).
Proof. intros c Hc. apply repeat_spec in Hc. subst c. reflexivity. Qed.

(** ** Digit characters *)
Lemma digit_char_spec n :
  is_digit (digit_char n) = true /\ digit_val (digit_char n) = n mod 10.
Proof.
  unfold digit_char, is_digit, digit_val.
  assert (Hr : 0 <= n mod 10 < 10) by (apply Z.mod_pos_bound; lia).
  assert (H : n mod 10 = 0 \/ n mod 10 = 1 \/ n mod 10 = 2 \/ n mod 10 = 3 \/ n mod 10 = 4
    \/ n mod 10 = 5 \/ n mod 10 = 6 \/ n mod 10 = 7 \/ n mod 10 = 8 \/ n mod 10 = 9) by lia.
  repeat (destruct H as [H|H]; [rewrite H; vm_compute; auto|]).
  rewrite H; vm_compute; auto.
Qed.

Lemma digit_val_range c : is_digit c = true -> 0 <= digit_val c <= 9.
Proof.
  unfold is_digit, digit_val. rewrite andb_true_iff, !N.leb_le. lia.
Qed.

Lemma digit_zero c : is_digit c = true -> digit_val c = 0 -> c = ch_zero.
Proof.
  unfold digit_val, is_digit. intros Hd Hv.
  assert (HN : N_of_ascii c = 48%N) by lia.
  rewrite <- (ascii_N_embedding c), HN. reflexivity.
Qed.

Lemma is_digit_not_sign c :
  is_digit c = true -> Ascii.eqb c ch_plus = false /\ Ascii.eqb c ch_minus = false
                       /\ Ascii.eqb c ch_dot = false.
Proof.
  intros H. repeat split;
  match goal with |- Ascii.eqb ?a ?b = false => destruct (Ascii.eqb a b) eqn:E; [|reflexivity] end;
  apply Ascii.eqb_eq in E; subst c; vm_compute in H; discriminate.
Qed.

(** ** Values of digit strings *)
Lemma digits_value_acc s a :
  fold_left (fun acc c => 10 * acc + digit_val c) s a
  = a * 10 ^ Z.of_nat (length s) + digits_value s.
Proof.
  unfold digits_value. revert a; induction s as [|c s IH]; intros a.
  - simpl. lia.
  - cbn [fold_left length]. rewrite IH, (IH (10 * 0 + digit_val c)).
    rewrite Nat2Z.inj_succ, Z.pow_succ_r by lia. ring.
Qed.

Lemma digits_value_app a b :
  digits_value (a ++ b) = digits_value a * 10 ^ Z.of_nat (length b) + digits_value b.
Proof. unfold digits_value at 1. rewrite fold_left_app, digits_value_acc. reflexivity. Qed.

Lemma digits_value_cons c s :
  digits_value (c :: s) = digit_val c * 10 ^ Z.of_nat (length s) + digits_value s.
Proof. unfold digits_value at 1. cbn [fold_left]. rewrite digits_value_acc. reflexivity. Qed.

Lemma digits_value_bound s :
  all_digits s -> 0 <= digits_value s < 10 ^ Z.of_nat (length s).
Proof.
  induction s as [|c s IH]; intros H.
  - vm_compute; split; congruence.
  - apply all_digits_cons in H as [Hc Hs]. specialize (IH Hs).
    rewrite digits_value_cons. cbn [length].
    rewrite Nat2Z.inj_succ, Z.pow_succ_r by lia.
    pose proof (digit_val_range c Hc). nia.
Qed.

Lemma digits_value_zeros k : digits_value (repeat ch_zero k) = 0.
Proof.
  induction k as [|k IH]; [reflexivity|].
  cbn [repeat]. rewrite digits_value_cons, IH. reflexivity.
Qed.

Lemma digits_value_pad_left k s : digits_value (repeat ch_zero k ++ s) = digits_value s.
Proof. rewrite digits_value_app, digits_value_zeros. lia. Qed.

Lemma digits_value_pad_right k s :
  digits_value (s ++ repeat ch_zero k) = digits_value s * 10 ^ Z.of_nat k.
Proof. rewrite digits_value_app, digits_value_zeros, repeat_length. lia. Qed.

(** ** Fixed width digits *)
Lemma fixed_digits_length w n : length (fixed_digits w n) = w.
Proof. revert n; induction w; intros n; simpl; [reflexivity|]. rewrite app_length, IHw; simpl; lia. Qed.

Lemma fixed_digits_all w n : all_digits (fixed_digits w n).
Proof.
  revert n; induction w; intros n; simpl; [apply all_digits_nil|].
  apply all_digits_app; split; [apply IHw|].
  apply all_digits_cons; split; [apply digit_char_spec | apply all_digits_nil].
Qed.

Lemma fixed_digits_value w n :
  0 <= n -> digits_value (fixed_digits w n) = n mod 10 ^ Z.of_nat w.
Proof.
  revert n; induction w; intros n Hn.
  - simpl. rewrite Z.mod_1_r. reflexivity.
  - cbn [fixed_digits]. rewrite digits_value_app, IHw by (apply Z.div_pos; lia).
    cbn [length]. rewrite digits_value_cons. change (digits_value []) with 0.
    destruct (digit_char_spec n) as [_ Hv]. rewrite Hv.
    change (10 ^ Z.of_nat 1) with 10. change (10 ^ Z.of_nat 0) with 1.
    rewrite Nat2Z.inj_succ, Z.pow_succ_r by lia.
    rewrite Z.rem_mul_r by (pose proof (Z.pow_pos_nonneg 10 (Z.of_nat w)); lia).
    cbn [length]. change (10 ^ Z.of_nat 0) with 1. ring.
Qed.

(** ** Stripping *)
Lemma lstrip_spec s : exists k, s = repeat ch_zero k ++ lstrip ch_zero s.
Proof.
  induction s as [|c s [k IH]]; [exists 0%nat; reflexivity|].
  cbn [lstrip]. destruct (Ascii.eqb c ch_zero) eqn:E.
  - apply Ascii.eqb_eq in E. subst c. exists (S k). cbn [repeat app]. f_equal. exact IH.
  - exists 0%nat. reflexivity.
Qed.

Lemma lstrip_head s c t : lstrip ch_zero s = c :: t -> c <> ch_zero.
Proof.
  induction s as [|x s IH]; cbn [lstrip]; [discriminate|].
  destruct (Ascii.eqb x ch_zero) eqn:E; [exact IH|].
  intros H; injection H as -> _. intros ->. rewrite Ascii.eqb_refl in E. discriminate.
Qed.

Lemma rev_repeat {A} (x : A) k : rev (repeat x k) = repeat x k.
Proof.
  induction k as [|k IH]; [reflexivity|].
  cbn [repeat rev]. rewrite IH. clear IH. induction k as [|k IH]; [reflexivity|].
  cbn [repeat app]. f_equal. exact IH.
Qed.

Lemma rstrip_spec s : exists k, s = rstrip ch_zero s ++ repeat ch_zero k.
Proof.
  unfold rstrip. destruct (lstrip_spec (rev s)) as [k Hk]. exists k.
  rewrite <- (rev_involutive s) at 1. rewrite Hk at 1.
  rewrite rev_app_distr, rev_repeat. reflexivity.
Qed.

Lemma strip_or_value_l s :
  all_digits s -> let t := str_or (lstrip ch_zero s) [ch_zero] in
  digits_value t = digits_value s /\ all_digits t /\ t <> [] /\
  (s <> [] -> length t <= length s)%nat.
Proof.
  intros Hs t. destruct (lstrip_spec s) as [k Hk].
  assert (Hl : all_digits (lstrip ch_zero s)).
  { rewrite Hk in Hs. apply all_digits_app in Hs. tauto. }
  assert (Hv : digits_value s = digits_value (lstrip ch_zero s)).
  { rewrite Hk at 1. apply digits_value_pad_left. }
  assert (Hlen : (length (lstrip ch_zero s) <= length s)%nat).
  { rewrite Hk at 2. rewrite app_length. lia. }
  unfold t, str_or. destruct (lstrip ch_zero s) as [|c u] eqn:E.
  - rewrite Hv. repeat split; [|discriminate|].
    + apply all_digits_cons; split; [reflexivity|apply all_digits_nil].
    + destruct s; [congruence|simpl; lia].
  - repeat split; auto; discriminate.
Qed.

(** ** [str(n)] *)
Lemma int_digits_fits n : 0 <= n -> n < 10 ^ Z.of_nat (S (Z.to_nat (Z.log2 n))).
Proof.
  intros Hn. rewrite Nat2Z.inj_succ, Z2Nat.id by apply Z.log2_nonneg.
  destruct (Z.eq_dec n 0) as [->|Hne]; [vm_compute; reflexivity|].
  pose proof (Z.log2_spec n ltac:(lia)) as [_ H2].
  eapply Z.lt_le_trans; [exact H2|].
  apply Z.pow_le_mono_l. pose proof (Z.log2_nonneg n). lia.
Qed.

Lemma int_digits_spec n :
  0 <= n -> digits_value (int_digits n) = n /\ all_digits (int_digits n) /\ int_digits n <> [].
Proof.
  intros Hn. unfold int_digits.
  destruct (strip_or_value_l (fixed_digits (S (Z.to_nat (Z.log2 n))) n)
              (fixed_digits_all _ _)) as (Hv & Ha & Hne & _).
  split; [|split; assumption]. rewrite Hv, fixed_digits_value by lia.
  apply Z.mod_small. split; [lia|apply int_digits_fits; lia].
Qed.

(** No leading zeros: the length is bounded by [i >= 1] iff the number is below 10^i. *)
Lemma int_digits_length n i :
  0 <= n -> (1 <= i)%nat -> ((length (int_digits n) <= i)%nat <-> n < 10 ^ Z.of_nat i).
Proof.
  intros Hn Hi. destruct (int_digits_spec n Hn) as (Hv & Ha & Hne).
  split; intros H.
  - pose proof (digits_value_bound _ Ha) as [_ Hb]. rewrite Hv in Hb.
    eapply Z.lt_le_trans; [exact Hb|]. apply Z.pow_le_mono_r; lia.
  - unfold int_digits in *.
    set (l := lstrip ch_zero (fixed_digits (S (Z.to_nat (Z.log2 n))) n)) in *.
    destruct l as [|c t] eqn:E; [simpl; lia|].
    assert (Hc : c <> ch_zero) by (eapply lstrip_head; subst l; exact E).
    cbn [str_or] in *. rewrite digits_value_cons in Hv.
    apply all_digits_cons in Ha as [Hdc Hdt].
    pose proof (digits_value_bound _ Hdt) as [Ht0 _].
    pose proof (digit_val_range c Hdc).
    assert (digit_val c <> 0) by (intros Hz; apply Hc, digit_zero; assumption).
    cbn [length]. destruct (Nat.le_gt_cases (S (length t)) i) as [|Hgt]; [assumption|exfalso].
    assert (10 ^ Z.of_nat i <= 10 ^ Z.of_nat (length t)) by (apply Z.pow_le_mono_r; lia).
    nia.
Qed.

(** ** Splitting at the decimal point *)
Lemma split_on_no_dot s :
  (forall c, In c s -> Ascii.eqb c ch_dot = false) -> split_on ch_dot s = [s].
Proof.
  induction s as [|c s IH]; intros H; [reflexivity|].
  cbn [split_on]. rewrite H by (left; reflexivity).
  rewrite IH by (intros d Hd; apply H; right; exact Hd). reflexivity.
Qed.

Lemma split_on_one_dot a b :
  (forall c, In c a -> Ascii.eqb c ch_dot = false) ->
  (forall c, In c b -> Ascii.eqb c ch_dot = false) ->
  split_on ch_dot (a ++ ch_dot :: b) = [a; b].
Proof.
  intros Ha Hb. induction a as [|c a IH].
  - cbn [app split_on]. rewrite Ascii.eqb_refl, split_on_no_dot by exact Hb. reflexivity.
  - cbn [app split_on]. rewrite Ha by (left; reflexivity).
    rewrite IH by (intros d Hd; apply Ha; right; exact Hd). reflexivity.
Qed.

Lemma all_digits_no_dot s : all_digits s -> forall c, In c s -> Ascii.eqb c ch_dot = false.
Proof. intros H c Hc. apply is_digit_not_sign, H, Hc. Qed.

(** ** Closed form of unpack *)
Definition is_sign (c : ascii) : Prop := c = ch_plus \/ c = ch_minus.

(** A packed coordinate: an optional sign and digits. *)
Definition signed (sg : option bool) (ds : str) : str :=
  match sg with
  | None => ds
  | Some false => ch_plus :: ds
  | Some true => ch_minus :: ds
  end.

Definition sign_neg (sg : option bool) : bool := match sg with Some true => true | _ => false end.

Lemma preprocess_signed sg ds i d :
  all_digits ds ->
  unpack_preprocess (signed sg ds) i d
  = if (i + d <? length ds)%nat then Err TooLong
    else match ds with [] => Err TooShort | _ => Ok (sign_neg sg, ds) end.
Proof.
  intros Hd. destruct sg as [[|]|]; cbn [signed unpack_preprocess].
  - replace (Ascii.eqb ch_minus ch_plus) with false by reflexivity.
    rewrite Ascii.eqb_refl. destruct ds as [|c t]; cbn [length].
    + replace (i + d <? 0)%nat with false by (symmetry; apply Nat.ltb_ge; lia). reflexivity.
    + destruct (i + d <? S (length t))%nat; reflexivity.
  - rewrite Ascii.eqb_refl. destruct ds as [|c t]; cbn [length].
    + replace (i + d <? 0)%nat with false by (symmetry; apply Nat.ltb_ge; lia). reflexivity.
    + destruct (i + d <? S (length t))%nat; reflexivity.
  - destruct ds as [|c t].
    + simpl. replace (i + d <? 0)%nat with false by (symmetry; apply Nat.ltb_ge; lia). reflexivity.
    + cbn [unpack_preprocess]. apply all_digits_cons in Hd as [Hc _].
      destruct (is_digit_not_sign c Hc) as (H1 & H2 & _). rewrite H1, H2. reflexivity.
Qed.

Lemma py_float_ok neg a b :
  all_digits (a ++ b) -> a ++ b <> [] ->
  py_float neg a b = Ok (Qmake (if neg then - digits_value (a ++ b) else digits_value (a ++ b))
                               (Z.to_pos (10 ^ Z.of_nat (length b)))).
Proof.
  intros Hd Hne. unfold py_float. cbv zeta.
  rewrite (proj2 (all_digits_forallb _) Hd).
  destruct (a ++ b); [congruence|reflexivity].
Qed.

Definition apply_sign (neg : bool) (z : Z) : Z := if neg then - z else z.

(** Number of zeros the omission mode re-inserts on the right. *)
Definition scale_for (z : zeros) (i d len : nat) : Z :=
  match z with
  | SkipTrailing => 10 ^ Z.of_nat (i + d - len)
  | SkipLeading | SkipLeadingImplied => 1
  end.

Lemma unpack_closed_form z i d sg ds :
  all_digits ds ->
  unpack z i d (signed sg ds)
  = if (i + d <? length ds)%nat then Err TooLong
    else match ds with
         | [] => Err TooShort
         | _ => Ok (Qmake (apply_sign (sign_neg sg) (digits_value ds * scale_for z i d (length ds)))
                          (Z.to_pos (10 ^ Z.of_nat d)))
         end.
Proof.
  intros Hd.
  assert (Hmain : forall padded,
     all_digits padded -> padded <> [] -> (length padded = i + d)%nat ->
     py_float (sign_neg sg) (firstn i padded) (skipn i padded)
     = Ok (Qmake (apply_sign (sign_neg sg) (digits_value padded)) (Z.to_pos (10 ^ Z.of_nat d)))).
  { intros padded Hp Hne Hlen.
    rewrite py_float_ok; rewrite ?firstn_skipn; auto.
    rewrite skipn_length, Hlen. replace (i + d - i)%nat with d by lia. reflexivity. }
  assert (Hlead : unpack_skip_leading i d (signed sg ds)
    = if (i + d <? length ds)%nat then Err TooLong
      else match ds with [] => Err TooShort
           | _ => Ok (Qmake (apply_sign (sign_neg sg) (digits_value ds))
                          (Z.to_pos (10 ^ Z.of_nat d))) end).
  { unfold unpack_skip_leading. rewrite preprocess_signed by exact Hd.
    destruct (i + d <? length ds)%nat eqn:EL; [reflexivity|].
    apply Nat.ltb_ge in EL. destruct ds as [|c t]; [reflexivity|].
    cbn [bind]. rewrite Hmain.
    - unfold rjust. rewrite digits_value_pad_left. reflexivity.
    - apply all_digits_app; split; [apply all_digits_repeat_zero|exact Hd].
    - unfold rjust. destruct (repeat ch_zero _); discriminate.
    - unfold rjust. rewrite app_length, repeat_length. lia. }
  destruct z; cbn [unpack scale_for].
  - rewrite Hlead. rewrite Z.mul_1_r. reflexivity.
  - unfold unpack_skip_trailing. rewrite preprocess_signed by exact Hd.
    destruct (i + d <? length ds)%nat eqn:EL; [reflexivity|].
    apply Nat.ltb_ge in EL. destruct ds as [|c t]; [reflexivity|].
    cbn [bind]. rewrite Hmain.
    + unfold ljust. rewrite digits_value_pad_right. reflexivity.
    + apply all_digits_app; split; [exact Hd|apply all_digits_repeat_zero].
    + unfold ljust. discriminate.
    + unfold ljust. rewrite app_length, repeat_length. lia.
  - rewrite Hlead. rewrite Z.mul_1_r. reflexivity.
Qed.

(** ** Rounding *)
Lemma round_half_even_close q : (Qabs (inject_Z (round_half_even q) - q) <= 1 # 2)%Q.
Proof.
  unfold round_half_even. cbv zeta.
  pose proof (Qfloor_le q) as Hl. pose proof (Qlt_floor q) as Hu.
  rewrite inject_Z_plus in Hu. change (inject_Z 1) with 1%Q in Hu.
  apply Qabs_Qle_condition.
  destruct (Qcompare _ _) eqn:E.
  - apply Qeq_alt in E. destruct (Z.even _); rewrite ?inject_Z_plus;
      change (inject_Z 1) with 1%Q; split; lra.
  - apply Qlt_alt in E. split; lra.
  - apply Qgt_alt in E. rewrite inject_Z_plus; change (inject_Z 1) with 1%Q. split; lra.
Qed.

Lemma round_half_even_integer n : round_half_even (inject_Z n) = n.
Proof.
  unfold round_half_even. rewrite Qfloor_Z. cbv zeta.
  replace (Qcompare (inject_Z n - inject_Z n) (1 # 2)) with Lt; [reflexivity|].
  symmetry. apply Qlt_alt. unfold Qminus. rewrite Qplus_opp_r. reflexivity.
Qed.

Lemma round_half_even_morph p q : (p == q)%Q -> round_half_even p = round_half_even q.
Proof.
  intros H. unfold round_half_even. cbv zeta. rewrite (Qfloor_comp _ _ H).
  replace (Qcompare (p - inject_Z (Qfloor q)) (1 # 2))
    with (Qcompare (q - inject_Z (Qfloor q)) (1 # 2)); [reflexivity|].
  apply Qcompare_comp; [rewrite H; reflexivity | reflexivity].
Qed.

Lemma round_half_even_nonneg q : (0 <= q)%Q -> 0 <= round_half_even q.
Proof.
  intros H. unfold round_half_even. cbv zeta.
  assert (0 <= Qfloor q) by (change 0 with (Qfloor 0); apply Qfloor_resp_le; exact H).
  destruct (Qcompare _ _); [destruct (Z.even _)| |]; lia.
Qed.

(** ** Packing *)
Definition scaled (q : Q) (d : nat) : Z :=
  round_half_even (Qabs q * inject_Z (10 ^ Z.of_nat d)).

Lemma scaled_nonneg q d : 0 <= scaled q d.
Proof.
  apply round_half_even_nonneg. apply Qmult_le_0_compat; [apply Qabs_nonneg|].
  change 0%Q with (inject_Z 0). rewrite <- Zle_Qle. apply Z.pow_nonneg; lia.
Qed.

Definition q_neg (q : Q) : bool := negb (Qle_bool 0 q).
Definition sign_opt (q : Q) : option bool := if q_neg q then Some true else None.

Lemma pow10_pos d : 0 < 10 ^ Z.of_nat d.
Proof. apply Z.pow_pos_nonneg; lia. Qed.

Lemma pack_split_spec q i d :
  (1 <= d)%nat ->
  pack_split q i d
  = if (i <? length (int_digits (scaled q d / 10 ^ Z.of_nat d)))%nat then Err TooLong
    else Ok (if q_neg q then [ch_minus] else [],
             int_digits (scaled q d / 10 ^ Z.of_nat d),
             fixed_digits d (scaled q d)).
Proof.
  intros Hd. unfold pack_split, fmt_fixed. cbv zeta. fold (scaled q d). fold (q_neg q).
  set (ip := scaled q d / 10 ^ Z.of_nat d).
  assert (Hip : 0 <= ip) by (apply Z.div_pos; [apply scaled_nonneg|apply pow10_pos]).
  destruct (int_digits_spec ip Hip) as (Hv & Ha & Hne).
  destruct d as [|d']; [lia|]. set (d := S d') in *.
  rewrite app_assoc, split_on_one_dot.
  - destruct (q_neg q); cbn [app].
    + rewrite Ascii.eqb_refl, orb_true_r. reflexivity.
    + destruct (int_digits ip) as [|c t] eqn:E; [congruence|].
      apply all_digits_cons in Ha as [Hc _].
      destruct (is_digit_not_sign c Hc) as (H1 & H2 & _). rewrite H1, H2. reflexivity.
  - intros c Hc. apply in_app_or in Hc as [Hc|Hc].
    + destruct (q_neg q); [destruct Hc as [<-|[]]; reflexivity|destruct Hc].
    + apply (all_digits_no_dot _ Ha _ Hc).
  - apply all_digits_no_dot, fixed_digits_all.
Qed.

Lemma pack_body_value q d :
  digits_value (int_digits (scaled q d / 10 ^ Z.of_nat d) ++ fixed_digits d (scaled q d))
  = scaled q d.
Proof.
  pose proof (scaled_nonneg q d) as Hs. pose proof (pow10_pos d) as Hp.
  rewrite digits_value_app, fixed_digits_length, fixed_digits_value by lia.
  rewrite (proj1 (int_digits_spec _ (Z.div_pos _ _ Hs Hp))).
  rewrite Z.mul_comm. symmetry. apply Z.div_mod. lia.
Qed.

(** The grid value nearest to [q]. *)
Definition on_grid (q : Q) (d : nat) : Q :=
  Qmake (apply_sign (q_neg q) (scaled q d)) (Z.to_pos (10 ^ Z.of_nat d)).

Lemma pack_unpack z i d q :
  (1 <= i)%nat -> (1 <= d)%nat ->
  if scaled q d <? 10 ^ Z.of_nat (i + d)
  then exists s, pack z i d q = Ok s /\ unpack z i d s = Ok (on_grid q d)
  else pack z i d q = Err TooLong.
Proof.
  intros Hi Hd.
  pose proof (scaled_nonneg q d) as Hs. pose proof (pow10_pos d) as Hp.
  set (n := scaled q d) in *. set (ip := n / 10 ^ Z.of_nat d).
  assert (Hip : 0 <= ip) by (apply Z.div_pos; lia).
  assert (Hfit : (n <? 10 ^ Z.of_nat (i + d)) = negb (i <? length (int_digits ip))%nat).
  { rewrite <- Nat.leb_antisym. apply eq_true_iff_eq.
    rewrite Z.ltb_lt, Nat.leb_le, int_digits_length by assumption.
    unfold ip. rewrite Nat2Z.inj_add, Z.pow_add_r by lia. split; intros H.
    - apply Z.div_lt_upper_bound; lia.
    - pose proof (Z.mul_succ_div_gt n _ Hp). nia. }
  assert (Hsplit := pack_split_spec q i d Hd). fold n in Hsplit. fold ip in Hsplit.
  rewrite Hfit. destruct (i <? length (int_digits ip))%nat eqn:EL; cbn [negb].
  - destruct z; cbn [pack]; unfold pack_skip_leading, pack_skip_trailing; rewrite Hsplit; reflexivity.
  - apply Nat.ltb_ge in EL.
    destruct (int_digits_spec ip Hip) as (Hv & Ha & Hne).
    pose proof (fixed_digits_all d n) as Hfd.
    assert (Hval := pack_body_value q d). fold n in Hval. fold ip in Hval.
    set (body := int_digits ip ++ fixed_digits d n) in *.
    assert (Hbd : all_digits body) by (apply all_digits_app; auto).
    assert (Hbl : (length body <= i + d)%nat)
      by (unfold body; rewrite app_length, fixed_digits_length; lia).
    assert (Hbne : body <> []) by (unfold body; destruct (int_digits ip); [congruence|discriminate]).
    assert (Hsg : forall t, (if q_neg q then [ch_minus] else []) ++ t = signed (sign_opt q) t)
      by (intros t; unfold sign_opt; destruct (q_neg q); reflexivity).
    assert (Hsn : sign_neg (sign_opt q) = q_neg q) by (unfold sign_opt; destruct (q_neg q); reflexivity).
    assert (Hlead : exists s, pack_skip_leading i d q = Ok s /\
              unpack_skip_leading i d s = Ok (on_grid q d)).
    { unfold pack_skip_leading. rewrite Hsplit. cbn [bind]. fold body. rewrite Hsg.
      destruct (strip_or_value_l body Hbd) as (Hv2 & Ha2 & Hne2 & Hl2).
      set (t := str_or (lstrip ch_zero body) [ch_zero]) in *.
      eexists; split; [reflexivity|].
      pose proof (unpack_closed_form SkipLeading i d (sign_opt q) t Ha2) as HU.
      cbn [unpack] in HU. rewrite HU.
      specialize (Hl2 Hbne).
      replace (i + d <? length t)%nat with false by (symmetry; apply Nat.ltb_ge; lia).
      destruct t as [|c t'] eqn:Et; [congruence|]. rewrite <- Et in *.
      unfold scale_for. rewrite Hv2, Z.mul_1_r, Hval, Hsn. reflexivity. }
    assert (Htrail : exists s, pack_skip_trailing i d q = Ok s /\
              unpack_skip_trailing i d s = Ok (on_grid q d)).
    { unfold pack_skip_trailing. rewrite Hsplit. cbn [bind]. rewrite Hsg.
      set (full := rjust i ch_zero (int_digits ip) ++ fixed_digits d n).
      assert (Hfv : digits_value full = n).
      { unfold full, rjust. rewrite <- app_assoc, digits_value_pad_left. exact Hval. }
      assert (Hfa : all_digits full).
      { unfold full, rjust. apply all_digits_app; split; [apply all_digits_app; split|]; auto.
        apply all_digits_repeat_zero. }
      assert (Hfl : length full = (i + d)%nat).
      { unfold full, rjust. rewrite !app_length, repeat_length, fixed_digits_length. lia. }
      destruct (rstrip_spec full) as [k Hk].
      set (r := rstrip ch_zero full) in *.
      assert (Hr : all_digits r) by (rewrite Hk in Hfa; apply all_digits_app in Hfa; tauto).
      assert (Hrl : (length r + k = i + d)%nat).
      { rewrite <- Hfl. rewrite Hk. rewrite app_length, repeat_length. reflexivity. }
      assert (Hrv : digits_value r * 10 ^ Z.of_nat k = n).
      { rewrite <- digits_value_pad_right, <- Hk. exact Hfv. }
      set (t := str_or r [ch_zero]).
      assert (Ht : all_digits t /\ t <> [] /\ (length t <= i + d)%nat /\
                   digits_value t * 10 ^ Z.of_nat (i + d - length t) = n).
      { unfold t. destruct r as [|c r'].
        - cbn [str_or]. split; [apply all_digits_cons; split; [reflexivity|apply all_digits_nil]|].
          split; [discriminate|]. split; [simpl; lia|].
          change (digits_value []) with 0 in Hrv. change (digits_value [ch_zero]) with 0. lia.
        - cbn [str_or]. split; [exact Hr|]. split; [discriminate|]. split; [lia|].
          replace (i + d - length (c :: r'))%nat with k by lia. exact Hrv. }
      destruct Ht as (Hta & Htn & Htl & Htv).
      eexists; split; [reflexivity|].
      pose proof (unpack_closed_form SkipTrailing i d (sign_opt q) t Hta) as HU.
      cbn [unpack] in HU. rewrite HU.
      replace (i + d <? length t)%nat with false by (symmetry; apply Nat.ltb_ge; lia).
      destruct t as [|c t'] eqn:Et; [congruence|]. rewrite <- Et in *.
      unfold scale_for. rewrite Htv, Hsn. reflexivity. }
    destruct z; cbn [pack unpack]; assumption.
Qed.

(** [on_grid] is the value rounded to the grid: within half a unit of the last place. *)
Lemma on_grid_close q d :
  (Qabs (on_grid q d - q) * inject_Z (10 ^ Z.of_nat d) <= 1 # 2)%Q.
Proof.
  pose proof (pow10_pos d) as Hp.
  assert (HP : (0 < inject_Z (10 ^ Z.of_nat d))%Q)
    by (change 0%Q with (inject_Z 0); rewrite <- Zlt_Qlt; exact Hp).
  set (P := 10 ^ Z.of_nat d) in *.
  assert (Hog : (on_grid q d * inject_Z P == inject_Z (apply_sign (q_neg q) (scaled q d)))%Q).
  { unfold on_grid. fold P. unfold Qeq, Qmult, inject_Z; cbn [Qnum Qden].
    rewrite Pos.mul_1_r, Z2Pos.id by exact Hp. ring. }
  rewrite <- (Qabs_pos (inject_Z P)) at 1 by lra.
  rewrite <- Qabs_Qmult.
  setoid_replace ((on_grid q d - q) * inject_Z P)%Q
    with (inject_Z (apply_sign (q_neg q) (scaled q d)) - q * inject_Z P)%Q
    by (rewrite <- Hog; ring).
  pose proof (round_half_even_close (Qabs q * inject_Z P)) as Hr.
  unfold scaled. fold P. set (m := round_half_even _) in *.
  unfold q_neg. destruct (Qle_bool 0 q) eqn:E; cbn [negb apply_sign].
  - apply Qle_bool_iff in E. rewrite (Qabs_pos q E) in Hr. exact Hr.
  - assert (Hq : (q <= 0)%Q).
    { destruct (Qlt_le_dec 0 q) as [H|H]; [|exact H].
      exfalso. assert (Qle_bool 0 q = true) by (apply Qle_bool_iff; lra). congruence. }
    rewrite (Qabs_neg q Hq) in Hr.
    rewrite inject_Z_opp.
    setoid_replace (- inject_Z m - q * inject_Z P)%Q
      with (- (inject_Z m - - q * inject_Z P))%Q by ring.
    rewrite Qabs_opp. exact Hr.
Qed.

(** A value on the grid is its own rounding. *)
Lemma on_grid_exact n d :
  let q := Qmake n (Z.to_pos (10 ^ Z.of_nat d)) in
  scaled q d = Z.abs n /\ (on_grid q d == q)%Q.
Proof.
  intros q. pose proof (pow10_pos d) as Hp.
  set (P := 10 ^ Z.of_nat d) in *.
  assert (Hsc : scaled q d = Z.abs n).
  { unfold scaled. fold P. rewrite <- (round_half_even_integer (Z.abs n)).
    apply round_half_even_morph.
    unfold q, Qabs, Qeq, Qmult, inject_Z; cbn [Qnum Qden].
    rewrite Pos.mul_1_r, Z2Pos.id by exact Hp. ring. }
  split; [exact Hsc|].
  unfold on_grid. rewrite Hsc. fold P.
  assert (Hneg : q_neg q = (n <? 0)).
  { unfold q_neg, q, Qle_bool; cbn [Qnum Qden].
    destruct (Z.leb_spec (0 * Z.pos (Z.to_pos P)) (n * 1)); destruct (Z.ltb_spec n 0); cbn; lia. }
  rewrite Hneg. unfold q, Qeq; cbn [Qnum Qden].
  destruct (Z.ltb_spec n 0); unfold apply_sign; f_equal; lia.
Qed.

(** ** Degenerate formats *)
Lemma pack_decimal_zero z i q : pack z i 0 q = Err ValueError.
Proof.
  assert (H : pack_split q i 0 = Err ValueError).
  { unfold pack_split, fmt_fixed. rewrite app_nil_r.
    rewrite split_on_no_dot; [reflexivity|].
    intros c Hc. apply in_app_or in Hc as [Hc|Hc].
    - destruct (negb _); [destruct Hc as [<-|[]]; reflexivity|destruct Hc].
    - eapply all_digits_no_dot; [|exact Hc]. apply int_digits_spec.
      apply Z.div_pos; [apply scaled_nonneg|apply pow10_pos]. }
  destruct z; cbn [pack]; unfold pack_skip_leading, pack_skip_trailing; rewrite H; reflexivity.
Qed.

Lemma pack_integer_zero z d q : (1 <= d)%nat -> pack z 0 d q = Err TooLong.
Proof.
  intros Hd.
  assert (H : pack_split q 0 d = Err TooLong).
  { rewrite pack_split_spec by exact Hd.
    destruct (int_digits_spec (scaled q d / 10 ^ Z.of_nat d)) as (_ & _ & Hne).
    { apply Z.div_pos; [apply scaled_nonneg|apply pow10_pos]. }
    destruct (int_digits _); [congruence|reflexivity]. }
  destruct z; cbn [pack]; unfold pack_skip_leading, pack_skip_trailing; rewrite H; reflexivity.
Qed.

(** ** Bridge to the specification vocabulary *)

Lemma spec_digit_model c v : spec_digit c = Some v -> is_digit c = true /\ digit_val c = v.
Proof.
  unfold spec_digit.
  repeat match goal with
  | |- (if Ascii.eqb c ?k then _ else _) = _ -> _ =>
      let E := fresh "E" in
      destruct (Ascii.eqb c k) eqn:E;
      [apply Ascii.eqb_eq in E; subst c; intros H; injection H as <-; vm_compute; auto|]
  end. intros H; discriminate H.
Qed.

Lemma spec_value_model s v : spec_value s = Some v -> all_digits s /\ digits_value s = v.
Proof.
  revert v; induction s as [|c t IH]; intros v; cbn [spec_value].
  - intros H; injection H as <-. split; [apply all_digits_nil|reflexivity].
  - destruct (spec_digit c) as [a|] eqn:Ea; [|discriminate].
    destruct (spec_value t) as [b|] eqn:Eb; [|discriminate].
    intros H; injection H as <-.
    destruct (IH b eq_refl) as [H1 H2]. destruct (spec_digit_model c a Ea) as [H3 H4].
    split; [apply all_digits_cons; auto|]. rewrite digits_value_cons, H2, H4. reflexivity.
Qed.

Lemma unpack_spec_lemma z i d sgn ds s v :
  SignedText sgn ds s -> spec_value ds = Some v ->
  unpack z i d s
  = if (i + d <? length ds)%nat then Err TooLong
    else match ds with
         | [] => Err TooShort
         | _ => Ok (Qmake (sgn * (v * scale_for z i d (length ds))) (Z.to_pos (10 ^ Z.of_nat d)))
         end.
Proof.
  intros Hst Hv. destruct (spec_value_model ds v Hv) as [Hd Hval].
  assert (Hcase : exists sg, s = signed sg ds /\ forall x, apply_sign (sign_neg sg) x = sgn * x).
  { destruct Hst; [exists None|exists (Some false)|exists (Some true)];
      (split; [reflexivity|intros x; cbn [sign_neg apply_sign]; lia]). }
  destruct Hcase as (sg & -> & Hap).
  rewrite unpack_closed_form by exact Hd. rewrite Hap, Hval. reflexivity.
Qed.

Lemma mk_Q n d : (Qmake n (Z.to_pos (10 ^ Z.of_nat d)) == inject_Z n / inject_Z (10 ^ Z.of_nat d))%Q.
Proof.
  pose proof (pow10_pos d). rewrite Qmake_Qdiv, Z2Pos.id by assumption. reflexivity.
Qed.

Lemma roundtrip_lemma z i d n :
  (1 <= i)%nat -> (1 <= d)%nat -> Z.abs n < 10 ^ Z.of_nat (i + d) ->
  forall q, (q == inject_Z n / inject_Z (10 ^ Z.of_nat d))%Q ->
  exists s q', pack z i d q = Ok s /\ unpack z i d s = Ok q' /\ (q' == q)%Q.
Proof.
  intros Hi Hd Hn q Hq.
  assert (Hsc : scaled q d = Z.abs n /\ (on_grid q d == q)%Q).
  { destruct (on_grid_exact n d) as [H1 H2].
    set (q0 := Qmake n (Z.to_pos (10 ^ Z.of_nat d))) in *.
    assert (H0 : (q == q0)%Q) by (rewrite Hq; symmetry; apply mk_Q).
    assert (Hs : scaled q d = scaled q0 d).
    { unfold scaled. apply round_half_even_morph. rewrite H0. reflexivity. }
    assert (Hneg : q_neg q = q_neg q0).
    { unfold q_neg. f_equal. apply eq_true_iff_eq. rewrite !Qle_bool_iff. rewrite H0. reflexivity. }
    split; [congruence|]. unfold on_grid. rewrite Hs, Hneg. fold (on_grid q0 d).
    rewrite H2. symmetry; exact H0. }
  destruct Hsc as [Hs Hg].
  pose proof (pack_unpack z i d q Hi Hd) as HP. rewrite Hs in HP.
  apply Z.ltb_lt in Hn. rewrite Hn in HP. destruct HP as (s & H1 & H2).
  exists s, (on_grid q d). auto.
Qed.

Lemma C02_lemma z i d sgn ds s v :
    SignedText sgn ds s -> spec_value ds = Some v ->
    ((i + d < length ds)%nat -> unpack z i d s = Err TooLong) /\
    (ds = [] -> unpack z i d s = Err TooShort) /\
    (ds <> [] -> (length ds <= i + d)%nat ->
       exists q, unpack z i d s = Ok q /\
         (q == match z with
               | SkipTrailing => inject_Z (sgn * v * 10 ^ Z.of_nat (i + d - length ds))
               | _ => inject_Z (sgn * v)
               end / inject_Z (10 ^ Z.of_nat d))%Q).
Proof.
  intros Hst Hv. pose proof (unpack_spec_lemma z i d sgn ds s v Hst Hv) as HU.
  split; [|split].
  - intros Hlen. apply Nat.ltb_lt in Hlen. rewrite Hlen in HU. exact HU.
  - intros ->. cbn [length] in HU.
    replace (i + d <? 0)%nat with false in HU by (symmetry; apply Nat.ltb_ge; lia). exact HU.
  - intros Hne Hlen. apply Nat.ltb_ge in Hlen. rewrite Hlen in HU.
    destruct ds as [|c t]; [congruence|].
    eexists; split; [exact HU|]. rewrite mk_Q.
    destruct z; unfold scale_for; rewrite ?Z.mul_1_r, ?Z.mul_assoc; reflexivity.
Qed.

Lemma C02_padding_lemma z i d sgn ds s s' v :
    SignedText sgn ds s -> spec_value ds = Some v -> ds <> [] ->
    (length ds < i + d)%nat ->
    SignedText sgn (match z with
                    | SkipTrailing => ds ++ ["0"%char]
                    | _ => "0"%char :: ds end) s' ->
    exists q q', unpack z i d s = Ok q /\ unpack z i d s' = Ok q' /\ (q == q')%Q.
Proof.
  intros Hst Hv Hne Hlen Hst'.
  destruct (C02_lemma z i d sgn ds s v Hst Hv) as (_ & _ & H1).
  destruct (H1 Hne ltac:(lia)) as (q & Hq & Eq).
  set (ds' := match z with SkipTrailing => ds ++ ["0"%char] | _ => "0"%char :: ds end) in *.
  assert (Hv' : spec_value ds' = Some (match z with SkipTrailing => 10 * v | _ => v end)).
  { assert (Happ : forall l w, spec_value l = Some w ->
              spec_value (l ++ ["0"%char]) = Some (10 * w)).
    { induction l as [|c t IH]; intros w; cbn [spec_value app].
      - intros H; injection H as <-. reflexivity.
      - destruct (spec_digit c) as [a|]; [|discriminate].
        destruct (spec_value t) as [b|]; [|discriminate].
        intros H; injection H as <-. rewrite (IH b eq_refl). f_equal.
        rewrite app_length. cbn [length]. rewrite Nat.add_1_r, Nat2Z.inj_succ, Z.pow_succ_r by lia.
        ring. }
    unfold ds'. destruct z; [|apply Happ; exact Hv|];
      cbn [spec_value spec_digit]; rewrite Hv; reflexivity. }
  destruct (C02_lemma z i d sgn ds' s' _ Hst' Hv') as (_ & _ & H2).
  assert (Hne' : ds' <> []) by (unfold ds'; destruct z; destruct ds; discriminate).
  assert (Hlen' : length ds' = S (length ds)).
  { unfold ds'; destruct z; rewrite ?app_length; cbn [length]; lia. }
  destruct (H2 Hne' ltac:(lia)) as (q' & Hq' & Eq').
  exists q, q'. split; [exact Hq|split; [exact Hq'|]].
  rewrite Eq, Eq'. destruct z; try reflexivity.
  rewrite Hlen'. replace (i + d - length ds)%nat with (S (i + d - S (length ds)))%nat by lia.
  rewrite Nat2Z.inj_succ, Z.pow_succ_r by lia.
  replace (sgn * v * (10 * 10 ^ Z.of_nat (i + d - S (length ds))))
    with (sgn * (10 * v) * 10 ^ Z.of_nat (i + d - S (length ds))) by ring.
  reflexivity.
Qed.

Lemma pack_faithful z i d q : (1 <= i)%nat -> (1 <= d)%nat -> PackFaithful z i d q.
Proof.
  intros Hi Hd. pose proof (pack_unpack z i d q Hi Hd) as HP.
  destruct (Z.ltb_spec (scaled q d) (10 ^ Z.of_nat (i + d))) as [Hlt|Hge].
  - left. destruct HP as (s & H1 & H2). exists s, (on_grid q d).
    split; [exact H1|split; [exact H2|apply on_grid_close]].
  - right. split; [exact HP|].
    pose proof (round_half_even_close (Qabs q * inject_Z (10 ^ Z.of_nat d))) as Hc.
    fold (scaled q d) in Hc. apply Qabs_Qle_condition in Hc as [_ Hc].
    rewrite Zle_Qle in Hge. lra.
Qed.

Lemma not_faithful_decimal0 z i q : ~ PackFaithful z i 0 q.
Proof. intros [(s & q' & H & _) | [H _]]; rewrite pack_decimal_zero in H; discriminate. Qed.

Lemma not_faithful_integer0 z d q :
  (1 <= d)%nat -> (Qabs q * inject_Z (10 ^ Z.of_nat d) < inject_Z (10 ^ Z.of_nat d) - (1 # 2))%Q ->
  ~ PackFaithful z 0 d q.
Proof.
  intros Hd Hq [(s & q' & H & _) | [_ H]].
  - rewrite pack_integer_zero in H by exact Hd; discriminate.
  - cbn [Nat.add] in H. lra.
Qed.


(** Proofs for C35 and C60. *)
From Coq Require Import Qabs Qround Lqa.
From Verif Require Import Base CoordModel CoordProofs ColorModel ColorSpec.
Open Scope Z_scope.

Lemma hex_digit_spec c n : hex_digit c = Some n <-> exists x, digit c x /\ n = Z.of_nat x.
Proof.
  split.
  - destruct c as [[|] [|] [|] [|] [|] [|] [|] [|]]; vm_compute; intros H; try discriminate; injection H as <-;
      first [exists 0%nat; split; [(left; reflexivity) || (right; reflexivity)|reflexivity]
            |exists 1%nat; split; [(left; reflexivity) || (right; reflexivity)|reflexivity]
            |exists 2%nat; split; [(left; reflexivity) || (right; reflexivity)|reflexivity]
            |exists 3%nat; split; [(left; reflexivity) || (right; reflexivity)|reflexivity]
            |exists 4%nat; split; [(left; reflexivity) || (right; reflexivity)|reflexivity]
            |exists 5%nat; split; [(left; reflexivity) || (right; reflexivity)|reflexivity]
            |exists 6%nat; split; [(left; reflexivity) || (right; reflexivity)|reflexivity]
            |exists 7%nat; split; [(left; reflexivity) || (right; reflexivity)|reflexivity]
            |exists 8%nat; split; [(left; reflexivity) || (right; reflexivity)|reflexivity]
            |exists 9%nat; split; [(left; reflexivity) || (right; reflexivity)|reflexivity]
            |exists 10%nat; split; [(left; reflexivity) || (right; reflexivity)|reflexivity]
            |exists 11%nat; split; [(left; reflexivity) || (right; reflexivity)|reflexivity]
            |exists 12%nat; split; [(left; reflexivity) || (right; reflexivity)|reflexivity]
            |exists 13%nat; split; [(left; reflexivity) || (right; reflexivity)|reflexivity]
            |exists 14%nat; split; [(left; reflexivity) || (right; reflexivity)|reflexivity]
            |exists 15%nat; split; [(left; reflexivity) || (right; reflexivity)|reflexivity]].
  - intros (x & [H|H] & ->); do 16 (destruct x as [|x]; [injection H as <-; reflexivity|]);
      cbn in H; destruct x; discriminate.
Qed.
Lemma digit_lt c x : digit c x -> (x < 16)%nat.
Proof.
  intros [H|H]; (assert (x < length (lit "0123456789abcdef"))%nat as L; [|exact L]).
  - apply nth_error_Some. rewrite H. discriminate.
  - change (length (lit "0123456789abcdef")) with (length (lit "0123456789ABCDEF")). apply nth_error_Some. rewrite H. discriminate.
Qed.
Lemma hex_pair_spec a b n : hex_pair a b = Some n <-> byte [a; b] n.
Proof.
  unfold hex_pair, byte. split.
  - destruct (hex_digit a) eqn:Ea; [|discriminate]. destruct (hex_digit b) eqn:Eb; [|discriminate]. intros H. injection H as <-.
    apply hex_digit_spec in Ea, Eb. destruct Ea as (x & Hx & ->), Eb as (y & Hy & ->). exists a, b, x, y. auto.
  - intros (a' & b' & x & y & E & Hx & Hy & ->). injection E as <- <-.
    assert (hex_digit a = Some (Z.of_nat x)) as -> by (apply hex_digit_spec; eauto).
    assert (hex_digit b = Some (Z.of_nat y)) as -> by (apply hex_digit_spec; eauto). reflexivity.
Qed.
Lemma byte_shape s n : byte s n -> exists a b, s = [a; b] /\ hex_pair a b = Some n.
Proof. intros H. pose proof H as (a & b & x & y & -> & _). exists a, b. split; [reflexivity|]. apply hex_pair_spec. exact H. Qed.
Lemma byte_range s n : byte s n -> 0 <= n <= 255.
Proof.
  intros (a & b & x & y & _ & Hx & Hy & ->). apply digit_lt in Hx, Hy. lia.
Qed.
Lemma channel_ok_iff n : channel_ok n = true <-> 0 <= n <= 255.
Proof. unfold channel_ok. rewrite andb_true_iff, !Z.leb_le. tauto. Qed.
Lemma new_color_ok r g b a : 0 <= r <= 255 -> 0 <= g <= 255 -> 0 <= b <= 255 -> 0 <= a <= 255 ->
  new_color r g b a = Ok (MkColor r g b a).
Proof.
  intros H1 H2 H3 H4. unfold new_color. rewrite !(proj2 (channel_ok_iff _)) by assumption. reflexivity.
Qed.

(** The characters of a hexadecimal digit are no [#] and no newline. *)
Lemma hex_pair_not_newline a b : at_end [a; b] = false. Proof. reflexivity. Qed.
Lemma hex_hash : hex_digit "#"%char = None. Proof. reflexivity. Qed.

Lemma body_rgb r g b x y z : byte r x -> byte g y -> byte b z -> match_body (r ++ g ++ b) = Some (x, y, z, 255).
Proof.
  intros (r1 & r2 & -> & Hr)%byte_shape (g1 & g2 & -> & Hg)%byte_shape (b1 & b2 & -> & Hb)%byte_shape.
  cbn [app match_body]. rewrite Hr, Hg, Hb. reflexivity.
Qed.
Lemma body_rgba r g b a x y z w : byte r x -> byte g y -> byte b z -> byte a w ->
  match_body (r ++ g ++ b ++ a) = Some (x, y, z, w).
Proof.
  intros (r1 & r2 & -> & Hr)%byte_shape (g1 & g2 & -> & Hg)%byte_shape (b1 & b2 & -> & Hb)%byte_shape (a1 & a2 & -> & Ha)%byte_shape.
  cbn [app match_body]. rewrite Hr, Hg, Hb, Ha. reflexivity.
Qed.
Lemma body_newline s x : match_body s = Some x -> at_end s = false.
Proof. destruct s as [|a [|b s]]; [discriminate|discriminate|reflexivity]. Qed.
Definition nl : str := [ascii_of_nat 10].
Lemma at_end_iff s : at_end s = true <-> s = [] \/ s = nl.
Proof.
  split; [|intros [->| ->]; reflexivity]. destruct s as [|c [|d s]]; [auto|cbn|discriminate]. intros H. apply Ascii.eqb_eq in H. subst c. auto.
Qed.
Lemma match_body_inv s x y z w : match_body s = Some (x, y, z, w) ->
  exists t, plain t (MkColor x y z w) /\ (s = t \/ s = t ++ nl).
Proof.
  destruct s as [|r1 [|r2 [|g1 [|g2 [|b1 [|b2 rest]]]]]]; try discriminate. cbn [match_body].
  destruct (hex_pair r1 r2) as [r|] eqn:Er; [|discriminate]. destruct (hex_pair g1 g2) as [g|] eqn:Eg; [|discriminate].
  destruct (hex_pair b1 b2) as [b|] eqn:Eb; [|discriminate]. apply hex_pair_spec in Er, Eg, Eb.
  assert (forall v, (if at_end rest then Some (r, g, b, 255) else None) = Some v -> v = (x, y, z, w) ->
     exists t, plain t (MkColor x y z w) /\ (r1 :: r2 :: g1 :: g2 :: b1 :: b2 :: rest = t \/ r1 :: r2 :: g1 :: g2 :: b1 :: b2 :: rest = t ++ nl)) as Short.
  { intros v H ->. destruct (at_end rest) eqn:E; [|discriminate]. injection H as <- <- <- <-.
    exists ([r1; r2] ++ [g1; g2] ++ [b1; b2]). split; [apply plain_rgb; assumption|].
    apply at_end_iff in E. destruct E as [->| ->]; auto. }
  destruct rest as [|a1 [|a2 rest]]; try (intros H; exact (Short _ H eq_refl)).
  destruct (hex_pair a1 a2) as [a|] eqn:Ea; [|intros H; exact (Short _ H eq_refl)].
  destruct (at_end rest) eqn:E; [|intros H; exact (Short _ H eq_refl)].
  intros H. injection H as <- <- <- <-. apply hex_pair_spec in Ea.
  exists ([r1; r2] ++ [g1; g2] ++ [b1; b2] ++ [a1; a2]). split; [apply plain_rgba; assumption|].
  apply at_end_iff in E. destruct E as [->| ->]; auto.
Qed.
Lemma plain_denotes s c : plain s c -> denotes s c.
Proof. left. assumption. Qed.
Lemma plain_valid s c : plain s c -> valid c.
Proof.
  intros []; unfold valid; cbn; repeat match goal with H : byte _ _ |- _ => apply byte_range in H end; lia.
Qed.
Lemma plain_not_hash s c : plain s c -> forall t, s <> "#"%char :: t.
Proof.
  intros H t E.
  assert (exists a l n, s = a :: l /\ hex_digit a = Some n) as (a & l & n & -> & Hn).
  { destruct H as [r g b x y z Hr _ _|r g b a x y z w Hr _ _ _];
      destruct (byte_shape _ _ Hr) as (c1 & c2 & -> & P); unfold hex_pair in P; destruct (hex_digit c1) eqn:D; try discriminate;
      cbn [app]; eauto. }
  injection E as -> ->. rewrite hex_hash in Hn. discriminate.
Qed.
Lemma plain_body s c : plain s c -> match_body s = Some (c_red c, c_green c, c_blue c, c_alpha c).
Proof. intros []; cbn [c_red c_green c_blue c_alpha]; [apply body_rgb|apply body_rgba]; assumption. Qed.
Lemma plain_accepted s c : plain s c -> from_hex s = Ok c.
Proof.
  intros P. pose proof (plain_not_hash s c P) as B. pose proof (plain_valid s c P) as V. unfold from_hex.
  assert ((match s with c :: r => if Ascii.eqb c "#"%char then r else s | [] => s end) = s) as ->.
  { destruct s as [|a s]; [reflexivity|]. destruct (Ascii.eqb a "#"%char) eqn:E; [|reflexivity].
    apply Ascii.eqb_eq in E. subst a. destruct (B s eq_refl). }
  rewrite (plain_body s c P). destruct V as (V1 & V2 & V3 & V4). rewrite new_color_ok by assumption. destruct c; reflexivity.
Qed.
Lemma denotes_accepted s c : denotes s c -> from_hex s = Ok c.
Proof.
  intros [P|(t & -> & P)]; [apply plain_accepted; exact P|].
  unfold from_hex. rewrite Ascii.eqb_refl. rewrite (plain_body t c P). destruct (plain_valid t c P) as (V1 & V2 & V3 & V4).
  rewrite new_color_ok by assumption. destruct c; reflexivity.
Qed.
Lemma accepted_denotes s c : from_hex s = Ok c -> exists t, denotes t c /\ (s = t \/ s = t ++ nl).
Proof.
  unfold from_hex. set (body := match s with c :: r => if Ascii.eqb c "#"%char then r else s | [] => s end).
  destruct (match_body body) as [[[[x y] z] w]|] eqn:E; [|discriminate]. intros H.
  destruct (match_body_inv _ _ _ _ _ E) as (t & P & Et).
  assert (c = MkColor x y z w) as ->.
  { unfold new_color in H. destruct (_ && _); [injection H as <-; reflexivity|discriminate]. }
  unfold body in Et. destruct s as [|a s].
  - exists t. split; [apply plain_denotes; exact P|exact Et].
  - destruct (Ascii.eqb a "#"%char) eqn:Ea; [|exists t; split; [apply plain_denotes; exact P|exact Et]].
    apply Ascii.eqb_eq in Ea. subst a. exists ("#"%char :: t). split.
    + right. eauto.
    + destruct Et as [->| ->]; auto.
Qed.

(** *** Writing *)
Lemma hex_char_digit n : 0 <= n < 16 -> digit (hex_char n) (Z.to_nat n).
Proof.
  intros H. assert (exists k, (k < 16)%nat /\ n = Z.of_nat k) as (k & Hk & ->) by (exists (Z.to_nat n); lia).
  rewrite Nat2Z.id. left. do 16 (destruct k as [|k]; [reflexivity|]). lia.
Qed.
Lemma hex2_byte n : 0 <= n <= 255 -> byte (hex2 n) n.
Proof.
  intros H. unfold hex2. pose proof (Z.div_mod n 16 ltac:(lia)). pose proof (Z.mod_pos_bound n 16 ltac:(lia)).
  assert (0 <= n / 16 < 16) by (split; [apply Z.div_pos; lia|apply Z.div_lt_upper_bound; lia]).
  do 4 eexists. split; [reflexivity|]. split; [apply hex_char_digit; assumption|]. split; [apply hex_char_digit; assumption|].
  rewrite !Z2Nat.id by lia. lia.
Qed.
Lemma to_hex_denotes c : valid c -> denotes (to_hex c) c.
Proof.
  intros (V1 & V2 & V3 & V4). unfold to_hex.
  assert (plain (hex2 (c_red c) ++ hex2 (c_green c) ++ hex2 (c_blue c) ++ hex2 (c_alpha c)) c) as P.
  { destruct c as [r g b a]. cbn [c_red c_green c_blue c_alpha] in *. apply plain_rgba; apply hex2_byte; assumption. }
  right. eauto.
Qed.

(** *** HSV *)
Lemma round_half_even_rounds q : rounds q (round_half_even q).
Proof.
  split; [apply round_half_even_close|]. unfold round_half_even. cbv zeta.
  pose proof (Qfloor_le q) as F1. pose proof (Qlt_floor q) as F2. set (f := Qfloor q) in *. rewrite inject_Z_plus in F2.
  destruct (Qcompare_spec (q - inject_Z f) (1 # 2)) as [E|E|E].
  - intros _. destruct (Z.even f) eqn:Ev; [exact Ev|]. rewrite Z.add_1_r, Z.even_succ, <- Z.negb_even, Ev. reflexivity.
  - intros A. exfalso. rewrite Qabs_neg in A by lra. lra.
  - intros A. exfalso. rewrite inject_Z_plus in A. change (inject_Z 1) with 1%Q in *. rewrite Qabs_pos in A by lra. lra.
Qed.
Lemma round_range q : (0 <= q)%Q -> (q <= 255)%Q -> 0 <= round_half_even q <= 255.
Proof.
  intros H0 H1. pose proof (round_half_even_close q) as C. apply Qabs_Qle_condition in C. destruct C as [C1 C2].
  set (n := round_half_even q) in *.
  assert (inject_Z n < 256)%Q as U by lra. change 256%Q with (inject_Z 256) in U. rewrite <- Zlt_Qlt in U.
  assert (inject_Z (-1) < inject_Z n)%Q as L by (change (inject_Z (-1)) with (-1)%Q; lra). rewrite <- Zlt_Qlt in L. lia.
Qed.

Lemma remainder h : 0 <= h < 360 ->
  (inject_Z h / 60 - 2 * inject_Z (Qfloor (inject_Z h / 60 / 2)) == inject_Z (h - 120 * (h / 120)) / 60)%Q.
Proof.
  intros H. assert (Qfloor (inject_Z h / 60 / 2) = h / 120) as ->.
  { assert (inject_Z h / 60 / 2 == h # 120)%Q as E.
    { unfold Qeq, Qdiv, inject_Z. cbn. lia. }
    rewrite (Qfloor_comp _ _ E). reflexivity. }
  unfold Z.sub. rewrite inject_Z_plus, inject_Z_opp, inject_Z_mult. field.
Qed.

Lemma hsv_core v s w q : (0 <= v)%Q -> (v <= 1)%Q -> (0 <= s)%Q -> (s <= 1)%Q -> (0 <= w)%Q -> (w <= 1)%Q ->
  (q == (v * s * w + (v - v * s)) * 255)%Q -> (0 <= q)%Q /\ (q <= 255)%Q.
Proof.
  intros V0 V1 S0 S1 W0 W1 ->.
  assert (0 <= v * s)%Q by (apply Qmult_le_0_compat; assumption).
  assert (v * s <= v)%Q by nra. assert (0 <= v * s * w)%Q by (apply Qmult_le_0_compat; assumption).
  assert (v * s * w <= v * s)%Q by nra. lra.
Qed.
Lemma strength_range d : (0 <= strength d)%Q /\ (strength d <= 1)%Q.
Proof.
  unfold strength. destruct (d <=? 60) eqn:E1; [lra|]. destruct (d <=? 120) eqn:E2; [|lra].
  apply Z.leb_gt in E1. apply Z.leb_le in E2.
  assert (0 <= inject_Z (120 - d))%Q by (change 0%Q with (inject_Z 0); rewrite <- Zle_Qle; lia).
  assert (inject_Z (120 - d) <= 60)%Q by (change 60%Q with (inject_Z 60); rewrite <- Zle_Qle; lia).
  assert (inject_Z (120 - d) / 60 == inject_Z (120 - d) * (1 # 60))%Q as -> by (unfold Qdiv; reflexivity). lra.
Qed.
Lemma apart_eq h0 c : apart h0 c = apart (h0 mod 360) c.
Proof.
  unfold apart. rewrite (Zminus_mod h0 c), (Zminus_mod (h0 mod 360) c), Z.mod_mod by lia.
  rewrite (Zminus_mod c h0), (Zminus_mod c (h0 mod 360)), Z.mod_mod by lia. reflexivity.
Qed.
Definition factor (hue : Z) : Q :=
  (1 - Qabs ((inject_Z hue / 60 - 2 * inject_Z (Qfloor (inject_Z hue / 60 / 2))) - 1))%Q.
Lemma factor_eq h : 0 <= h < 360 -> (factor h == inject_Z (60 - Z.abs (h - 120 * (h / 120) - 60)) / 60)%Q.
Proof.
  intros H. unfold factor. rewrite (remainder h H). set (e := h - 120 * (h / 120)).
  assert (inject_Z e / 60 - 1 == inject_Z (e - 60) / 60)%Q as ->.
  { unfold Z.sub. rewrite inject_Z_plus. change (inject_Z (- (60))) with (-60)%Q. field. }
  assert (Qabs (inject_Z (e - 60) / 60) == inject_Z (Z.abs (e - 60)) / 60)%Q as ->.
  { unfold Qeq, Qabs, Qdiv, inject_Z, Qmult, Qinv. cbn. rewrite Z.abs_mul. cbn. lia. }
  unfold Z.sub at 2. rewrite inject_Z_plus, inject_Z_opp. change (inject_Z 60) with 60%Q. field.
Qed.
Lemma channel_value center hue sat val w q : (strength (apart hue center) == w)%Q ->
  (q == (val / 100 * (sat / 100) * w + (val / 100 - val / 100 * (sat / 100))) * 255)%Q ->
  round_half_even q = round_half_even (hsv_channel center hue sat val).
Proof. intros W E. apply round_half_even_morph. rewrite E. unfold hsv_channel. rewrite W. ring. Qed.
Lemma channel_range center hue sat val : (0 <= sat <= 100)%Q -> (0 <= val <= 100)%Q ->
  0 <= round_half_even (hsv_channel center hue sat val) <= 255.
Proof.
  intros [S0 S1] [V0 V1]. destruct (strength_range (apart hue center)) as [W0 W1].
  assert (val / 100 == val * (1 # 100))%Q as EV by (unfold Qdiv; reflexivity).
  assert (sat / 100 == sat * (1 # 100))%Q as ES by (unfold Qdiv; reflexivity).
  destruct (hsv_core (val / 100) (sat / 100) (strength (apart hue center)) (hsv_channel center hue sat val)) as [L U];
    try lra; [|apply round_range; assumption].
  unfold hsv_channel. ring.
Qed.
Lemma apart_cases hue : 0 <= hue < 360 ->
  (hue < 60 -> apart hue 0 <= 60 /\ 60 <= apart hue 120 <= 120 /\ 120 <= apart hue 240) /\
  (60 <= hue < 120 -> 60 <= apart hue 0 <= 120 /\ apart hue 120 <= 60 /\ 120 <= apart hue 240) /\
  (120 <= hue < 180 -> 120 <= apart hue 0 /\ apart hue 120 <= 60 /\ 60 <= apart hue 240 <= 120) /\
  (180 <= hue < 240 -> 120 <= apart hue 0 /\ 60 <= apart hue 120 <= 120 /\ apart hue 240 <= 60) /\
  (240 <= hue < 300 -> 60 <= apart hue 0 <= 120 /\ 120 <= apart hue 120 /\ apart hue 240 <= 60) /\
  (300 <= hue -> apart hue 0 <= 60 /\ 120 <= apart hue 120 /\ 60 <= apart hue 240 <= 120).
Proof.
  intros H. unfold apart.
  assert (forall c, let q := (hue - c) / 360 in (hue - c) mod 360 = hue - c - 360 * q /\ 0 <= hue - c - 360 * q < 360) as A.
  { intros c. cbv zeta. pose proof (Z.div_mod (hue - c) 360 ltac:(lia)). pose proof (Z.mod_pos_bound (hue - c) 360 ltac:(lia)). lia. }
  assert (forall c, let q := (c - hue) / 360 in (c - hue) mod 360 = c - hue - 360 * q /\ 0 <= c - hue - 360 * q < 360) as B.
  { intros c. cbv zeta. pose proof (Z.div_mod (c - hue) 360 ltac:(lia)). pose proof (Z.mod_pos_bound (c - hue) 360 ltac:(lia)). lia. }
  destruct (A 0) as [-> ?], (A 120) as [-> ?], (A 240) as [-> ?], (B 0) as [-> ?], (B 120) as [-> ?], (B 240) as [-> ?].
  lia.
Qed.
Lemma strength_on d : d <= 60 -> (strength d == 1)%Q.
Proof. intros H. unfold strength. apply Z.leb_le in H. rewrite H. reflexivity. Qed.
Lemma strength_off d : 120 <= d -> (strength d == 0)%Q.
Proof.
  intros H. unfold strength. destruct (d <=? 60) eqn:E; [apply Z.leb_le in E; lia|].
  destruct (d <=? 120) eqn:E2; [|reflexivity]. apply Z.leb_le in E2. replace d with 120 by lia. reflexivity.
Qed.
Lemma strength_mid h c : 0 <= h < 360 -> c = 0 \/ c = 120 \/ c = 240 -> 60 <= apart h c <= 120 -> (strength (apart h c) == factor h)%Q.
Proof.
  intros H Hc A. rewrite (factor_eq h H). unfold strength.
  assert ((if apart h c <=? 60 then 1 else if apart h c <=? 120 then inject_Z (120 - apart h c) / 60 else 0) == inject_Z (120 - apart h c) / 60)%Q as ->.
  { destruct (apart h c <=? 60) eqn:E; [apply Z.leb_le in E; replace (apart h c) with 60 by lia; reflexivity|].
    destruct (apart h c <=? 120) eqn:E2; [reflexivity|apply Z.leb_gt in E2; lia]. }
  assert (120 - apart h c = 60 - Z.abs (h - 120 * (h / 120) - 60)) as ->; [|reflexivity].
  revert A. unfold apart.
  assert (exists k, h / 120 = k /\ 0 <= k <= 2 /\ 0 <= h - 120 * k < 120) as (k & -> & Hk & He).
  { exists (h / 120). pose proof (Z.div_mod h 120 ltac:(lia)). pose proof (Z.mod_pos_bound h 120 ltac:(lia)).
    assert (0 <= h / 120) by (apply Z.div_pos; lia). assert (h / 120 < 3) by (apply Z.div_lt_upper_bound; lia). lia. }
  pose proof (Z.div_mod (h - c) 360 ltac:(lia)). pose proof (Z.mod_pos_bound (h - c) 360 ltac:(lia)).
  pose proof (Z.div_mod (c - h) 360 ltac:(lia)). pose proof (Z.mod_pos_bound (c - h) 360 ltac:(lia)).
  destruct Hc as [->|[->| ->]]; lia.
Qed.
Lemma hsv_eq h s v a : (0 <= s <= 100)%Q -> (0 <= v <= 100)%Q -> 0 <= a <= 255 ->
  from_hsv h s v a = Ok (MkColor (round_half_even (hsv_channel 0 h s v)) (round_half_even (hsv_channel 120 h s v))
                                 (round_half_even (hsv_channel 240 h s v)) a).
Proof.
  intros Hs Hv Ha. rewrite <- new_color_ok by (assumption || (apply channel_range; assumption)).
  unfold from_hsv. cbv zeta. pose proof (Z.mod_pos_bound h 360 ltac:(lia)) as Hh.
  assert (forall c, hsv_channel c h s v = hsv_channel c (h mod 360) s v) as E by (intros c; unfold hsv_channel; rewrite (apart_eq h); reflexivity).
  rewrite !E. set (hue := h mod 360) in *. fold (factor hue).
  destruct (apart_cases hue Hh) as (C1 & C2 & C3 & C4 & C5 & C6).
  repeat match goal with
  | |- context [if ?x <? ?y then _ else _] => let E := fresh in destruct (x <? y) eqn:E; [apply Z.ltb_lt in E|apply Z.ltb_ge in E]
  end;
  [destruct C1 as (R & G & B)|destruct C2 as (R & G & B)|destruct C3 as (R & G & B)|destruct C4 as (R & G & B)|destruct C5 as (R & G & B)|destruct C6 as (R & G & B)]; try lia; f_equal;
  first [apply (channel_value _ hue s v 1); [apply strength_on; assumption|ring]
        |apply (channel_value _ hue s v 0); [apply strength_off; assumption|ring]
        |apply (channel_value _ hue s v (factor hue)); [apply strength_mid; auto|ring]].
Qed.

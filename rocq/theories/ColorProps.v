(** C35, C60: colours. *)
From Coq Require Import Qabs.
From Verif Require Import Base CoordModel ColorModel ColorSpec ColorProofs.
Open Scope Z_scope.

(** *** C35 *)
Theorem C35_round_trip : forall c, valid c -> from_hex (to_hex c) = Ok c.
Proof. intros c V. apply denotes_accepted, to_hex_denotes, V. Qed.
Theorem C35_accepts : forall s c, denotes s c -> from_hex s = Ok c.
Proof. exact denotes_accepted. Qed.
(** Missing: a trailing newline is accepted. *)
Theorem C35_rejects_partial :
  forall s, (forall t, s <> t ++ [ascii_of_nat 10]) -> (forall c, ~ denotes s c) -> from_hex s = Err (InvalidLiteral s).
Proof.
  intros s N D. destruct (from_hex s) as [c|e] eqn:E.
  - destruct (accepted_denotes s c E) as (t & H & [->| ->]); [destruct (D c H)|destruct (N t eq_refl)].
  - unfold from_hex in E. destruct (match_body _) as [[[[x y] z] w]|] eqn:M; [|exact (eq_sym E)].
    destruct (match_body_inv _ _ _ _ _ M) as (t & P & _). destruct (plain_valid _ _ P) as (V1 & V2 & V3 & V4). cbn in *.
    rewrite new_color_ok in E by assumption. discriminate.
Qed.
Theorem C35_newline_refuted :
  ~ forall s c, from_hex s = Ok c -> denotes s c.
Proof.
  intros H. specialize (H (lit "#102030" ++ [ascii_of_nat 10]) (MkColor 16 32 48 255) eq_refl).
  assert (forall l c, plain l c -> length l = 6%nat \/ length l = 8%nat) as L.
  { intros l c P. destruct P; repeat match goal with H : byte _ _ |- _ => destruct H as (? & ? & ? & ? & -> & _) end; cbn; lia. }
  destruct H as [P|(t & E & P)].
  - pose proof (plain_not_hash _ _ P _ eq_refl). contradiction.
  - injection E as <-. apply L in P. cbn in P. lia.
Qed.
Example C35_case : from_hex (lit "#0aFf10") = Ok (MkColor 10 255 16 255) /\ to_hex (MkColor 10 255 16 255) = lit "#0aff10ff" /\
  denotes (lit "0aFf1080") (MkColor 10 255 16 128).
Proof.
  split; [reflexivity|]. split; [reflexivity|]. left.
  apply (plain_rgba (lit "0a") (lit "Ff") (lit "10") (lit "80")); apply hex_pair_spec; reflexivity.
Qed.
(** Channels outside 0..255 are rejected by every constructor. *)
Theorem C35_channels : forall r g b a,
  (valid (MkColor r g b a) -> from_rgba r g b (Some a) = Ok (MkColor r g b a)) /\
  (~ valid (MkColor r g b a) -> from_rgba r g b (Some a) = Err OutOfRange).
Proof.
  intros r g b a. split; intros V.
  - destruct V as (V1 & V2 & V3 & V4). apply new_color_ok; assumption.
  - unfold from_rgba, new_color. destruct (_ && _) eqn:E; [|reflexivity]. exfalso. apply V.
    rewrite !andb_true_iff, !channel_ok_iff in E. unfold valid. cbn. tauto.
Qed.
(** C35.  Without alpha colours are opaque. *)
Theorem C35_default_alpha : forall r g b, from_rgba r g b None = from_rgba r g b (Some 255%Z).
Proof. reflexivity. Qed.
(** C35.  As floats the channels are the fractions of 255, between 0 and 1. *)
Theorem C35_floats : forall c, valid c ->
  let '(r, g, b, a) := as_rgba_float c in
  forall n q, In (n, q) [(c_red c, r); (c_green c, g); (c_blue c, b); (c_alpha c, a)] ->
    (q * 255 == inject_Z n /\ 0 <= q <= 1)%Q.
Proof.
  intros c (V1 & V2 & V3 & V4). unfold as_rgba_float. intros n q H.
  assert (A : forall k, (0 <= k <= 255)%Z -> (inject_Z k / 255 * 255 == inject_Z k /\ 0 <= inject_Z k / 255 <= 1)%Q).
  { intros k [H1 H2]. split; [field|]. unfold Qle, Qdiv, Qmult, inject_Z, Qinv. cbn. lia. }
  cbn [In] in H. destruct H as [H|[H|[H|[H|[]]]]]; injection H as <- <-; apply A; assumption.
Qed.
Example C35_float_case : (let '(r, g, b, a) := as_rgba_float (MkColor 0 51 255 102) in r == 0 /\ g == 1 # 5 /\ b == 1 /\ a == 2 # 5)%Q.
Proof. repeat split; reflexivity. Qed.
Print Assumptions C35_default_alpha. Print Assumptions C35_floats.

(** *** C60 *)
Theorem C60_hsv :
  forall (hue : Z) (saturation value : Q) (alpha : Z),
    (0 <= saturation <= 100)%Q -> (0 <= value <= 100)%Q -> 0 <= alpha <= 255 ->
    exists c, from_hsv hue saturation value alpha = Ok c /\ valid c /\ c_alpha c = alpha /\
      rounds (hsv_channel 0 hue saturation value) (c_red c) /\
      rounds (hsv_channel 120 hue saturation value) (c_green c) /\
      rounds (hsv_channel 240 hue saturation value) (c_blue c).
Proof.
  intros h s v a Hs Hv Ha. eexists. split; [apply hsv_eq; assumption|].
  split; [unfold valid; cbn; repeat split; try apply channel_range; assumption || apply Ha|].
  split; [reflexivity|]. repeat split; apply round_half_even_rounds.
Qed.
(** Hue 30, saturation 50, value 100: a light orange. *)
Example C60_case : from_hsv 30 50 100 255 = Ok (MkColor 255 191 128 255).
Proof. reflexivity. Qed.
Print Assumptions C35_round_trip. Print Assumptions C35_accepts. Print Assumptions C35_rejects_partial.
Print Assumptions C35_newline_refuted. Print Assumptions C35_channels. Print Assumptions C60_hsv.

(** Specification for C35 and C60: colour literals and the HSV model. *)
From Coq Require Import Qabs.
From Verif Require Import Base ColorModel.
Open Scope Z_scope.

Definition valid (c : color) : Prop :=
  0 <= c_red c <= 255 /\ 0 <= c_green c <= 255 /\ 0 <= c_blue c <= 255 /\ 0 <= c_alpha c <= 255.

(** A hexadecimal digit in either case. *)
Definition digit (c : ascii) (n : nat) : Prop :=
  nth_error (lit "0123456789abcdef") n = Some c \/ nth_error (lit "0123456789ABCDEF") n = Some c.
Definition byte (s : str) (n : Z) : Prop :=
  exists a b x y, s = [a; b] /\ digit a x /\ digit b y /\ n = 16 * Z.of_nat x + Z.of_nat y.
(** [RRGGBB] and [RRGGBBAA], with or without a leading [#]. *)
Inductive plain : str -> color -> Prop :=
| plain_rgb r g b x y z : byte r x -> byte g y -> byte b z -> plain (r ++ g ++ b) (MkColor x y z 255)
| plain_rgba r g b a x y z w : byte r x -> byte g y -> byte b z -> byte a w ->
    plain (r ++ g ++ b ++ a) (MkColor x y z w).
Definition denotes (s : str) (c : color) : Prop := plain s c \/ exists t, s = "#"%char :: t /\ plain t c.

(** HSV: each primary colour is fully on within 60 degrees of its own hue, fades over the
    next 60 degrees and is off beyond. *)
Definition apart (h g : Z) : Z := Z.min ((h - g) mod 360) ((g - h) mod 360).
Definition strength (d : Z) : Q :=
  if d <=? 60 then 1 else if d <=? 120 then (inject_Z (120 - d) / 60)%Q else 0.
Definition hsv_channel (center hue : Z) (saturation value : Q) : Q :=
  (value / 100 * (1 - saturation / 100 * (1 - strength (apart hue center))) * 255)%Q.
(** [n] is [q] rounded to the nearest integer, ties to even. *)
Definition rounds (q : Q) (n : Z) : Prop :=
  (Qabs (inject_Z n - q) <= 1 # 2)%Q /\ ((Qabs (inject_Z n - q) == 1 # 2)%Q -> Z.even n = true).

(** Model of [Color], [vm/types/color.py].  Floats are exact rationals. *)
From Coq Require Import Qabs Qround.
From Verif Require Import Base CoordModel.
Open Scope Z_scope.

(** Fields 46-56 *)
Record color := MkColor { c_red : Z; c_green : Z; c_blue : Z; c_alpha : Z }.
(** [InvalidHexColorLiteralError] 32-36, and pydantic's [ValidationError] *)
Inductive color_error := InvalidLiteral (s : str) | OutOfRange.

(** The constructor with the bounds of [ChannelField] 20 *)
Definition channel_ok (n : Z) : bool := (0 <=? n) && (n <=? 255).
Definition new_color (r g b a : Z) : result color_error color :=
  if channel_ok r && channel_ok g && channel_ok b && channel_ok a then Ok (MkColor r g b a)
  else Err OutOfRange.
(** [from_rgba] 94-116 *)
Definition from_rgba (r g b : Z) (a : option Z) : result color_error color :=
  new_color r g b (match a with Some a => a | None => 255 end).

(** The class [[A-Fa-f0-9]] and [int(_, base=16)] of one character *)
Definition hex_digit (c : ascii) : option Z :=
  let n := Z.of_N (N_of_ascii c) in
  if (48 <=? n) && (n <=? 57) then Some (n - 48)
  else if (65 <=? n) && (n <=? 70) then Some (n - 55)
  else if (97 <=? n) && (n <=? 102) then Some (n - 87)
  else None.
Definition hex_pair (a b : ascii) : option Z :=
  match hex_digit a, hex_digit b with Some x, Some y => Some (16 * x + y) | _, _ => None end.
(** [$] without MULTILINE: at the end, or before a newline at the end *)
Definition at_end (s : str) : bool :=
  match s with [] => true | [c] => Ascii.eqb c (ascii_of_nat 10) | _ => false end.
(** [from_hex] 58-92 *)
Definition match_body (s : str) : option (Z * Z * Z * Z) :=
  match s with
  | r1 :: r2 :: g1 :: g2 :: b1 :: b2 :: rest =>
      match hex_pair r1 r2, hex_pair g1 g2, hex_pair b1 b2 with
      | Some r, Some g, Some b =>
          let short := if at_end rest then Some (r, g, b, 255) else None in
          match rest with
          | a1 :: a2 :: rest' =>
              match hex_pair a1 a2 with
              | Some a => if at_end rest' then Some (r, g, b, a) else short
              | None => short
              end
          | _ => short
          end
      | _, _, _ => None
      end
  | _ => None
  end.
Definition from_hex (s : str) : result color_error color :=
  let body := match s with c :: r => if Ascii.eqb c "#"%char then r else s | [] => s end in
  match match_body body with
  | Some (r, g, b, a) => new_color r g b a
  | None => Err (InvalidLiteral s)
  end.

(** [f"{n:02x}"] for [0 <= n <= 255], and [to_hex] 198-207 *)
Definition hex_char (n : Z) : ascii := ascii_of_N (Z.to_N (if n <? 10 then 48 + n else 87 + n)).
Definition hex2 (n : Z) : str := [hex_char (n / 16); hex_char (n mod 16)].
Definition to_hex (c : color) : str :=
  "#"%char :: hex2 (c_red c) ++ hex2 (c_green c) ++ hex2 (c_blue c) ++ hex2 (c_alpha c).

(** [from_hsv] 118-176; [round] is [round_half_even] *)
Definition from_hsv (hue : Z) (saturation value : Q) (alpha : Z) : result color_error color :=
  let hue := hue mod 360 in
  let s := (saturation / 100)%Q in
  let v := (value / 100)%Q in
  let c := (v * s)%Q in
  let h60 := (inject_Z hue / 60)%Q in
  let rem := (h60 - 2 * inject_Z (Qfloor (h60 / 2)))%Q in
  let x := (c * (1 - Qabs (rem - 1)))%Q in
  let m := (v - c)%Q in
  let mk r g b := new_color (round_half_even ((r + m) * 255)) (round_half_even ((g + m) * 255))
                            (round_half_even ((b + m) * 255)) alpha in
  if hue <? 60 then mk c x 0%Q
  else if hue <? 120 then mk x c 0%Q
  else if hue <? 180 then mk 0%Q c x
  else if hue <? 240 then mk 0%Q x c
  else if hue <? 300 then mk x 0%Q c
  else mk c 0%Q x.

(** [as_rgba_float] 187-196 *)
Definition as_rgba_float (c : color) : Q * Q * Q * Q :=
  ((inject_Z (c_red c) / 255)%Q, (inject_Z (c_green c) / 255)%Q, (inject_Z (c_blue c) / 255)%Q, (inject_Z (c_alpha c) / 255)%Q).

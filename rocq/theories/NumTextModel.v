(** Model of the number output of the formatter, [_fmt_double], [gerber/formatter/formatter.py]
    374-380, of Python's [str(float)], and of reading a decimal text back.  Numbers are exact
    rationals: [f"{v:.{d}f}"] rounds the exact value half to even ([fmt_fixed]). *)
From Verif Require Import Base Num CoordModel.
From Coq Require Import Qround Qabs.
Open Scope Z_scope.

(** [FloatTrimTrailingZeros], [enums.py] 31-37. *)
Inductive trim_mode := TrimYes | TrimNo.
(** Truth value of an enumeration member in [if self.float_trim_trailing_zeros]: an [Enum] without
    [__bool__] is always true, the member [No] included. *)
Definition truth (m : trim_mode) : bool := true.

(** [repr] of a float with shortest digits [ds] and value [0.ds * 10^pt] (Python's
    [float_repr_style] "short", [format_float_short] with 'r'): positional when
    [-4 < pt <= 16], else one digit, the rest after a point and an exponent of two or more
    digits. *)
Definition repr_digits (neg : bool) (ds : str) (pt : Z) : str :=
  let sg := if neg then [ch_minus] else [] in
  sg ++
  if ((-4 <? pt) && (pt <=? 16))%bool then
    if pt <=? 0 then ch_zero :: ch_dot :: repeat ch_zero (Z.to_nat (- pt)) ++ ds
    else if pt <? Z.of_nat (length ds) then
      firstn (Z.to_nat pt) ds ++ ch_dot :: skipn (Z.to_nat pt) ds
    else ds ++ repeat ch_zero (Z.to_nat pt - length ds) ++ [ch_dot; ch_zero]
  else
    let e := pt - 1 in
    firstn 1 ds ++ match skipn 1 ds with [] => [] | r => ch_dot :: r end ++
    lit "e" ++ (if e <? 0 then [ch_minus] else [ch_plus]) ++ rjust 2 ch_zero (int_digits (Z.abs e)).

(** Shortest digits of a decimal fraction: [|q| * 10^k] is an integer for [k] up to the number of
    bits of the denominator.  (For a rational that is no decimal fraction, hence no float, the
    text is that of its truncation.) *)
Definition q_str (q : Q) : str :=
  let k := Z.to_nat (Z.log2 (Z.pos (Qden q))) in
  let m := Z.abs (Qnum q) * 10 ^ Z.of_nat k / Z.pos (Qden q) in
  let neg := negb (Qle_bool 0 q) in
  if m =? 0 then repr_digits neg [ch_zero] 1
  else let ds := int_digits m in
       repr_digits neg (rstrip ch_zero ds) (Z.of_nat (length ds) - Z.of_nat k).

(** [_fmt_double] *)
Definition fmt_double (places : Z) (trim : trim_mode) (q : Q) : str :=
  if places <? 0 then q_str q
  else
    let double := fmt_fixed q (Z.to_nat places) in
    if truth trim then rstrip ch_dot (rstrip ch_zero double) else double.
(** The same on an [int]: [str] of an [int] has no point. *)
Definition fmt_double_int (places : Z) (trim : trim_mode) (z : Z) : str :=
  if places <? 0 then z_repr z else fmt_double places trim (inject_Z z).

(** [float(text)] for a text matched by the [double] token, without the rounding to binary. *)
Definition read_decimal (s : str) : Q :=
  let '(sg, u) := match s with
                  | c :: r => if Ascii.eqb c ch_minus then (-1, r)
                              else if Ascii.eqb c ch_plus then (1, r) else (1, s)
                  | [] => (1, [])
                  end in
  let '(i, f) := match split_on ch_dot u with [i; f] => (i, f) | _ => (u, []) end in
  Qred (Qmake (sg * (digits_value i * 10 ^ Z.of_nat (length f) + digits_value f))
              (Z.to_pos (10 ^ Z.of_nat (length f)))).

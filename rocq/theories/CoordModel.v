(** Model of [CoordinateFormat] packing and unpacking,
    /repo/src/pygerber/gerber/ast/state_tracking_visitor.py lines 99-246.

    Simplifications: a coordinate (Python float) is the rational number it denotes;
    negative zero and non-finite floats are not represented; the final rounding of
    [float("...")] to a double is not modelled (the exact decimal value is returned). *)
From Verif Require Import Base.
From Coq Require Import Qround Qabs.
Open Scope Z_scope.

(** Errors: [PackedCoordinateTooShortError], [PackedCoordinateTooLongError]
    (state_tracking_visitor.py 170, 181, 184, 214, 238) and builtin [ValueError]
    (tuple unpacking of [split], lines 204 and 228, and [float] at 148 and 162). *)
Inductive coord_error := TooShort | TooLong | ValueError.

(** [Zeros] (gerber/ast/nodes/enums.py): SKIP_LEADING and SKIP_LEADING_IMPLIED select
    the same functions (lines 114-118), SKIP_TRAILING the others (119-123). *)
Inductive zeros := SkipLeading | SkipTrailing | SkipLeadingImplied.

(** Numeric value of a digit string, most significant digit first. *)
Definition digits_value (s : str) : Z :=
  fold_left (fun acc c => 10 * acc + digit_val c) s 0.

(** [float(f"{sign}{integer_value_str}.{decimal_value_str}")], lines 148 and 162:
    ValueError when there is no digit at all or a non-digit character.  (Python also
    accepts underscores between digits; packed strings never contain them because the
    grammar only produces [[+-]?[0-9]+].) *)
Definition py_float (neg : bool) (int_part dec_part : str) : result coord_error Q :=
  let all := int_part ++ dec_part in
  match all with
  | [] => Err ValueError
  | _ =>
      if forallb is_digit all then
        let v := digits_value all in
        Ok (Qmake (if neg then - v else v) (Z.to_pos (10 ^ Z.of_nat (length dec_part))))
      else Err ValueError
  end.

(** [_unpack_preprocess], lines 166-186. *)
Definition unpack_preprocess (coordinate : str) (integer decimal : nat)
  : result coord_error (bool * str) :=
  match coordinate with
  | [] => Err TooShort
  | c :: rest =>
      let '(neg, body) :=
        if Ascii.eqb c ch_plus then (false, rest)
        else if Ascii.eqb c ch_minus then (true, rest)
        else (false, coordinate) in
      if (integer + decimal <? length body)%nat then Err TooLong
      else if (length body <=? 0)%nat then Err TooShort
      else Ok (neg, body)
  end.

(** [_unpack_skip_trailing], lines 138-150. *)
Definition unpack_skip_trailing (integer decimal : nat) (coordinate : str)
  : result coord_error Q :=
  let* p := unpack_preprocess coordinate integer decimal in
  let '(neg, body) := p in
  let padded := ljust (integer + decimal) ch_zero body in
  py_float neg (firstn integer padded) (skipn integer padded).

(** [_unpack_skip_leading], lines 152-164. *)
Definition unpack_skip_leading (integer decimal : nat) (coordinate : str)
  : result coord_error Q :=
  let* p := unpack_preprocess coordinate integer decimal in
  let '(neg, body) := p in
  let padded := rjust (integer + decimal) ch_zero body in
  py_float neg (firstn integer padded) (skipn integer padded).

(** Round half to even, as done by Python's [f"{x:.{d}f}"] on the exact value. *)
Definition round_half_even (q : Q) : Z :=
  let f := Qfloor q in
  let r := (q - inject_Z f)%Q in
  match Qcompare r (1 # 2) with
  | Lt => f
  | Gt => f + 1
  | Eq => if Z.even f then f else f + 1
  end.

(** [f"{coordinate:.{decimal}f}"], lines 204 and 228: sign, integer digits, and when
    [decimal > 0] a point followed by exactly [decimal] digits.  A negative value
    keeps its sign even when it rounds to zero. *)
Definition fmt_fixed (q : Q) (decimal : nat) : str :=
  let scaled := round_half_even (Qabs q * inject_Z (10 ^ Z.of_nat decimal)) in
  let ip := scaled / 10 ^ Z.of_nat decimal in
  let sign := if negb (Qle_bool 0 q) then [ch_minus] else [] in
  sign ++ int_digits ip ++
  match decimal with
  | O => []
  | _ => ch_dot :: fixed_digits decimal scaled
  end.

(** Common head of both pack functions, lines 204-214 and 228-238. *)
Definition pack_split (q : Q) (integer decimal : nat)
  : result coord_error (str * str * str) :=
  match split_on ch_dot (fmt_fixed q decimal) with
  | [integer_str; decimal_str] =>
      let '(sign, integer_str) :=
        match integer_str with
        | c :: rest =>
            if (Ascii.eqb c ch_plus || Ascii.eqb c ch_minus)%bool
            then ([c], rest) else ([], integer_str)
        | [] => ([], integer_str)
        end in
      if (integer <? length integer_str)%nat then Err TooLong
      else Ok (sign, integer_str, decimal_str)
  | _ => Err ValueError
  end.

(** [_pack_skip_leading], lines 198-220. *)
Definition pack_skip_leading (integer decimal : nat) (q : Q) : result coord_error str :=
  let* p := pack_split q integer decimal in
  let '(sign, integer_str, decimal_str) := p in
  Ok (sign ++ str_or (lstrip ch_zero (integer_str ++ decimal_str)) [ch_zero]).

(** [_pack_skip_trailing], lines 222-246. *)
Definition pack_skip_trailing (integer decimal : nat) (q : Q) : result coord_error str :=
  let* p := pack_split q integer decimal in
  let '(sign, integer_str, decimal_str) := p in
  let integer_str := rjust integer ch_zero integer_str in
  Ok (sign ++ str_or (rstrip ch_zero (integer_str ++ decimal_str)) [ch_zero]).

(** Selection by [zeros], lines 114-123 (one axis). *)
Definition pack (z : zeros) : nat -> nat -> Q -> result coord_error str :=
  match z with
  | SkipTrailing => pack_skip_trailing
  | SkipLeading | SkipLeadingImplied => pack_skip_leading
  end.
Definition unpack (z : zeros) : nat -> nat -> str -> result coord_error Q :=
  match z with
  | SkipTrailing => unpack_skip_trailing
  | SkipLeading | SkipLeadingImplied => unpack_skip_leading
  end.

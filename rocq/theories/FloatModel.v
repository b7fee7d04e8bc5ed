(** Python floats: the rounding of [float(text)] to a double and the shortest text [str(float)]
    gives for one.  The other files read and write numbers exactly; here the texts read by
    /repo/src/pygerber/gerber/ast/state_tracking_visitor.py lines 148 and 162 and by
    the fields of type [Double] (gerber/ast/nodes/types.py, validated by pydantic) become
    doubles, and the formatter (gerber/formatter/formatter.py 374-380) writes doubles.

    A double is the rational number it denotes.  Left out: infinities (the exponent has no upper
    bound), NaN and negative zero. *)
From Verif Require Import Base Num CoordModel Ast GramAst PegModel GramModel FmtModel NumTextModel GramNum.
From Coq Require Import Qround Qabs Qpower.
Open Scope Z_scope.

(** The [e] with [2^e <= q < 2^(e+1)] for a positive [q]. *)
Definition flog2 (q : Q) : Z :=
  let e := Z.log2 (Qnum q) - Z.log2 (Z.pos (Qden q)) in
  if Qle_bool (2 ^ e)%Q q then e else e - 1.

(** Exponent of the last bit of the mantissa: 53 bits, but nothing below [2^-1074]. *)
Definition last_bit (q : Q) : Z := Z.max (flog2 (Qabs q) - 52) (-1074).

(** [float(...)] of a number given exactly: round half to even (IEEE 754, binary64). *)
Definition double (q : Q) : Q :=
  let u := last_bit q in
  let m := round_half_even (Qabs q / 2 ^ u) in
  Qred (inject_Z (if Qle_bool 0 q then m else - m) * 2 ^ u).

(** The [p] with [10^(p-1) <= q < 10^p] for a positive [q]. *)
Definition dec_point (q : Q) : Z :=
  let k := Z.log2 (Z.pos (Qden q)) + 1 in
  Z.of_nat (length (int_digits (Qfloor (q * 10 ^ k)))) - k.

(** The two numbers of [k] decimal digits around [q], the nearer one first. *)
Definition candidates (q : Q) (k : nat) : list Q :=
  let s := (10 ^ (dec_point q - Z.of_nat k))%Q in
  let lo := Qfloor (q / s) in
  map (fun n => inject_Z n * s)%Q
      (if round_half_even (q / s) =? lo then [lo; lo + 1] else [lo + 1; lo]).

(** The decimal with the fewest digits which [float] takes to [f] ([float_repr_style] "short",
    mode 0 of [_Py_dg_dtoa]); 17 digits are always enough. *)
Definition shortest (f : Q) : Q :=
  let a := Qabs f in
  let t := match find (fun t => Qeq_bool (double t) a) (flat_map (candidates a) (seq 1 17)) with
           | Some t => t
           | None => a
           end in
  Qred (if Qle_bool 0 f then t else - t).

(** [str] of a float. *)
Definition double_str (f : Q) : str := if Qeq_bool f 0 then q_str 0 else q_str (shortest f).

(** [_fmt_double] on floats, and on an [int], which [f"{v:.3f}"] turns into a float. *)
Definition fmt_float (places : Z) (trim : trim_mode) (f : Q) : str :=
  if places <? 0 then double_str f else fmt_double places trim f.
Definition fmt_float_int (places : Z) (trim : trim_mode) (z : Z) : str :=
  if places <? 0 then z_repr z else fmt_float places trim (double (inject_Z z)).

(** The parser and the formatter with doubles; dates kept as texts. *)
Definition d_reader : reader Q str :=
  MkReader Q str (fun s => double (read_decimal s))
    (fun s => match re_double s with Some (t, []) => Some (double (read_decimal t)) | _ => None end) Some.
Definition d_writer (places : Z) (trim : trim_mode) : writer Q str :=
  MkWriter Q str (fmt_float places trim) double_str (fmt_float_int places trim) (fun d => d).

(** Unpacking a coordinate to a double. *)
Definition unpack_double (z : zeros) (i d : nat) (s : str) : result coord_error Q :=
  let* q := unpack z i d s in Ok (double q).

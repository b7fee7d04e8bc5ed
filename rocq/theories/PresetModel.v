(** Model of the named configurations of the formatter, [gerber/formatter/presets.py], with the
    defaults of [formatter/options.py] 22-200 for what they leave out.  The decimals and the trimming
    are arguments of the writer, [NumTextModel.fmt_double]. *)
From Verif Require Import Base FmtModel.

Definition lf : str := lit (String "010" "").
(** [extra_indent] 18-37 *)
Definition extra_indent : options :=
  MkOptions " " (ICount 4) (ICount 0) SplitOnPrimitives true (ICount 4) (ICount 4) (ICount 2) (ICount 2) (ICount 2)
    lf true false true true false false.
(** [balanced] 38-57 *)
Definition balanced : options :=
  MkOptions " " (ICount 2) (ICount 0) SplitOnPrimitives true (ICount 2) (ICount 2) (ICount 0) (ICount 0) (ICount 0)
    lf true false true true false false.
(** [small_indent] 59-78 *)
Definition small_indent : options :=
  MkOptions " " (ICount 2) (ICount 0) SplitOnPrimitives true (ICount 2) (ICount 2) (ICount 0) (ICount 0) (ICount 0)
    lf true false true true false false.
(** [float_decimal_places] 26, 46, 67 *)
Definition preset_places : Z := 6.

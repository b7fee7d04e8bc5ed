(** Model of [TF_MD5.check_source_hash], [gerber/ast/nodes/attribute/TF.py] 222-234, and of the
    text it looks at: the parser keeps the text with tabs expanded
    ([ParserElement.parse_string] calls [str.expandtabs]; [Parser.parse] does not change that).
    The digest is a parameter. *)
From Verif Require Import Base Num.
Open Scope Z_scope.

Definition cr : ascii := "013"%char.
Definition lf : ascii := "010"%char.
Definition tab : ascii := "009"%char.
Definition sp : ascii := " "%char.

(** [str.expandtabs()]: tab stops every eight columns, columns restart after CR and LF. *)
Fixpoint expandtabs (column : nat) (t : str) : str :=
  match t with
  | [] => []
  | c :: r =>
      if ascii_dec c tab then let n := (8 - column mod 8)%nat in repeat sp n ++ expandtabs (column + n) r
      else if ascii_dec c lf then c :: expandtabs 0 r
      else if ascii_dec c cr then c :: expandtabs 0 r
      else c :: expandtabs (S column) r
  end.
Definition kept (t : str) : str := expandtabs 0 t.

(** [t[:k]] *)
Definition slice_to (t : str) (k : Z) : str :=
  firstn (if k <? 0 then Z.to_nat (Z.of_nat (length t) + k) else Z.to_nat k) t.
(** [.replace(c, "")] *)
Definition without (c : ascii) (t : str) : str := filter (fun d => if ascii_dec c d then false else true) t.

Section Check.
  Context (digest : str -> str).
  Definition hashed (source : str) (location : Z) : str := without cr (without lf (slice_to source (location - 1))).
  Definition check_source_hash (source : str) (location : Z) (md5 : str) : bool := str_eqb (digest (hashed source location)) md5.
End Check.

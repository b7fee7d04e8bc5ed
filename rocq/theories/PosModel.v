(** Model of positions in texts: [common/position.py] 19-85, [ZeroBasedPosition] and
    [OneBasedPosition] of [gerber/ast/node_finder.py] 15-30, and the lines and columns of
    [SourceInfo], [gerber/ast/nodes/base.py] 19-57, which come from [pyparsing.lineno] and
    [pyparsing.col]. *)
From Verif Require Import Base HashModel.
Open Scope Z_scope.

Record position := MkPosition { ps_line : Z; ps_column : Z }.
(** [from_vscode_position] 31-36, [ZeroBasedPosition.to_one_based] 21-23 *)
Definition from_vscode (line character : Z) : position := MkPosition (line + 1) (character + 1).
(** [to_lspt] 38-42 *)
Definition to_lspt (p : position) : Z * Z := (ps_line p - 1, ps_column p - 1).
(** [offset] 44-46 *)
Definition offset (p : position) (line column : Z) : position := MkPosition (ps_line p + line) (ps_column p + column).
(** the operators 51-85 *)
Definition p_eq (a b : position) : bool := (ps_line a =? ps_line b) && (ps_column a =? ps_column b).
Definition p_ne (a b : position) : bool := negb (ps_line a =? ps_line b) && negb (ps_column a =? ps_column b).
Definition p_gt (a b : position) : bool := (ps_line b <? ps_line a) || ((ps_line a =? ps_line b) && (ps_column b <? ps_column a)).
Definition p_ge (a b : position) : bool := (ps_line b <=? ps_line a) || ((ps_line a =? ps_line b) && (ps_column b <=? ps_column a)).
Definition p_lt (a b : position) : bool := (ps_line a <? ps_line b) || ((ps_line a =? ps_line b) && (ps_column a <? ps_column b)).
Definition p_le (a b : position) : bool := (ps_line a <=? ps_line b) || ((ps_line a =? ps_line b) && (ps_column a <=? ps_column b)).

(** [s.count("\n", 0, loc)] and [s.rfind("\n", 0, loc)] *)
Definition is_lf (c : ascii) : bool := if ascii_dec c lf then true else false.
Definition count_lf (t : str) : Z := Z.of_nat (length (filter is_lf t)).
Fixpoint rfind_lf (t : str) (i : Z) (found : Z) : Z :=
  match t with
  | [] => found
  | c :: r => rfind_lf r (i + 1) (if is_lf c then i else found)
  end.
(** [pyparsing.lineno]; [pyparsing.col]: 1 after a line feed, otherwise counted from the last
    line feed. *)
Definition lineno (loc : nat) (s : str) : Z := count_lf (firstn loc s) + 1.
Definition col (loc : nat) (s : str) : Z :=
  if (0 <? loc)%nat && (loc <? length s)%nat && match nth_error s (loc - 1) with Some c => is_lf c | None => false end then 1
  else Z.of_nat loc - rfind_lf (firstn loc s) 0 (-1).
(** [SourceInfo.line], [column], [end_line], [end_column]: the start is [location], the end
    [location + length]. *)
Definition source_position (s : str) (loc : nat) : position := MkPosition (lineno loc s) (col loc s).

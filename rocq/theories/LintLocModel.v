(** [lint(parse(text), rules)]: what [pygerber gerber lint] and the language server do with a text,
    [console/gerber.py] 601-611, [linter/__init__.py] 24-45. *)
From Verif Require Import Base Num CoordModel Ast GramAst PegModel GramModel LinkModel LocModel LocSpec LinterModel.
From Verif Require PosModel.
Local Open Scope nat_scope.

Section Lint.
  Context {K T : Type}.
  (** The node at a path: nodes of blocks are header, contents, end ([AB.visit], [SR.visit]). *)
  Fixpoint down (x : lnode K T) (p : path) : option (lnode K T) :=
    match p with
    | [] => Some x
    | i :: q => match nth_error (inside x) i with Some y => down y q | None => None end
    end.
  Definition node_at (l : list (lnode K T)) (p : path) : option (lnode K T) :=
    match p with
    | [] => None
    | i :: q => match nth_error l i with Some y => down y q | None => None end
    end.
  (** [node.source_info] as far as [Rule.report_violation] reads it, rule.py 46-62. *)
  Definition info (s : str) (x : lnode K T) : srcinfo :=
    let p := PosModel.source_position s (start_of x) in
    MkSI (Z.of_nat (start_of x)) (Z.of_nat (length_of x)) (PosModel.ps_line p) (PosModel.ps_column p).
  Definition source_info (s : str) (l : list (lnode K T)) (p : path) : option srcinfo := option_map (info s) (node_at l p).

  Inductive lerr := LParse (e : parse_error) | LRule (id : str).
  Definition lint_text (rd : reader K T) u taf tff tof (text : str) (ids : option (list str)) : result lerr (list violation) :=
    match parse_located rd text with
    | Err e => Err (LParse e)
    | Ok (l, _) =>
        match lint (source_info (expandtabs text) l) (nodes u taf tff tof (flat_map command_of l)) ids with
        | Ok report => Ok report
        | Err id => Err (LRule id)
        end
    end.
End Lint.

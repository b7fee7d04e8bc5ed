(** Specification for C83: calls of a builder whose file can be compiled. *)
From Coq Require Import Reals Qreals.
From Verif Require Import Base Num Ast GbModel.

(** Polygons have three vertices or more, and a thermal that has a ring with room for its gaps has
    a hole.  Nothing else is asked for: numbers may be zero or negative. *)
Definition agreeable_figure (f : figure) : Prop :=
  match f with
  | FgPolygon _ n _ _ _ => (3 <= n)%Z
  | FgThermal _ o i g _ => (i < o)%Q -> (Q2R g * sqrt 2 < Q2R i)%R -> (0 < i)%Q
  | _ => True
  end.
Definition agreeable (c : bcall) : Prop :=
  match c with
  | NewPolygon _ n _ _ => (3 <= n)%Z
  | AddFigure _ f => agreeable_figure f
  | _ => True
  end.

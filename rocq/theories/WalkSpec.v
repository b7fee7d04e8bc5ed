(** Specification for C84: the nodes of a file in the order of its text, and who is told. *)
From Verif Require Import Base Num Ast GramAst ResModel WalkModel.

Section Tree.
  Context {K T : Type}.
  Notation thing := (thing K T).

  (** The parts of a node that are nodes, in the order of the text. *)
  Definition xs : list (expr K) -> list thing := map XExpr.
  Definition coord (a : axis) (o : option str) : list thing := match o with Some s => [XCoord a s] | None => [] end.
  Definition top_node (n : rnode K T) : thing := match n with Parsed c => XCmd c | Invalid t => XInvalid t end.
  Definition parts (t : thing) : list thing :=
    match t with
    | XFile f => map top_node f
    | XCmd (CAB id body) => [XABopen id] ++ map XCmd body ++ [XABclose]
    | XCmd (CSR h body) => [XSRopen h] ++ map XCmd body ++ [XSRclose]
    | XCmd (CAM name prims) => [XAMopen name] ++ map XPrim prims ++ [XAMclose]
    | XCmd (CD01 _ x y i j) => coord AxX x ++ coord AxY y ++ coord AxI i ++ coord AxJ j
    | XCmd (CD02 _ x y) | XCmd (CD03 _ x y) => coord AxX x ++ coord AxY y
    | XPrim (PCode1 a b c d o) => xs ([a; b; c; d] ++ match o with Some e => [e] | None => [] end)
    | XPrim (PCode2 a b c d e f g) | XPrim (PCode20 a b c d e f g) => xs [a; b; c; d; e; f; g]
    | XPrim (PCode4 a b c d ps r) => xs [a; b; c; d] ++ map (fun xy => XPoint (fst xy) (snd xy)) ps ++ xs [r]
    | XPrim (PCode5 a b c d e f) | XPrim (PCode21 a b c d e f) | XPrim (PCode22 a b c d e f) | XPrim (PCode7 _ a b c d e f) => xs [a; b; c; d; e; f]
    | XPrim (PCode6 a b c d e f g h i) => xs [a; b; c; d; e; f; g; h; i]
    | XPrim (PAssign v e) => xs [EVar v; e]
    | XPoint x y => xs [x; y]
    | XExpr (EParen e) | XExpr (ENeg e) | XExpr (EPos e) => xs [e]
    | XExpr (EAdd h l) | XExpr (ESub h l) | XExpr (EMul h l) | XExpr (EDiv h l) => xs (h :: l)
    | _ => []
    end.
  (** A node and everything below it, every node before its parts. *)
  Inductive listed : thing -> list thing -> Prop :=
  | Listed t ls : listed_all (parts t) ls -> listed t (t :: ls)
  with listed_all : list thing -> list thing -> Prop :=
  | ListedNil : listed_all [] []
  | ListedCons t r a b : listed t a -> listed_all r b -> listed_all (t :: r) (a ++ b).

  (** Classes with a common base class that has a callback of its own: AD, TA, TF, TO, expressions
      and coordinates.  Their listeners are told twice. *)
  Definition grouped (t : thing) : bool :=
    match t with
    | XCmd (CAD _) | XCmd (CTA _) | XCmd (CTF _) | XCmd (CTO _) | XExpr _ | XCoord _ _ => true
    | _ => false
    end.
  Definition told (t : thing) : list thing := if grouped t then [t; t] else [t].
End Tree.

(** Steps taken one after the other, until one fails. *)
Inductive ran {S E : Type} : list (S -> S * option E) -> S -> S -> option E -> Prop :=
| RanNil s : ran [] s s None
| RanFail a r s s' e : a s = (s', Some e) -> ran (a :: r) s s' (Some e)
| RanOn a r s s' s'' o : a s = (s', None) -> ran r s' s'' o -> ran (a :: r) s s'' o.
(** What listeners do about nodes: those registered for exactly the node's class, in the order of
    their registration. *)
Definition reactions {K T S E : Type} (regs : list (str * (thing K T -> S -> S * option E))) (ts : list (thing K T)) : list (S -> S * option E) :=
  flat_map (fun t => map (fun r => snd r t) (filter (fun r => str_eqb (fst r) (type_of t)) regs)) ts.

(** The base classes of [gerber/ast/nodes/**]. *)
Definition base_classes : list str :=
  [lit "Node"; lit "AD"; lit "TA"; lit "TF"; lit "TO"; lit "D"; lit "G"; lit "Expression"; lit "Coordinate"].

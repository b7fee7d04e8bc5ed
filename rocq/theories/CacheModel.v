(** Model of the cached property [Shape.outer_box] ([vm/commands/shape.py] 40-46) together with
    [Shape.transform] (48-54): [model_copy] of pydantic copies the attribute dictionary of the
    object, and [cached_property] keeps its value in that dictionary. *)
From Verif Require Import Base Num Dict Ast StateModel GeomModel.

Section Cache.
  Context {K : Type} {NK : Num K}.
  (** A shape object: its fields and the entry ["outer_box"] of its dictionary. *)
  Record obj := MkObj { ob_shape : shape K; ob_cached : option (box K) }.
  (** Programs using shape objects, numbered in order of creation: making one, reading
      [outer_box], transforming (which makes one). *)
  Inductive use := Make (s : shape K) | ReadBox (i : nat) | Transform (i : nat) (m : mat K).
  Definition read_box (o : obj) : obj * box K :=
    match ob_cached o with
    | Some b => (o, b)
    | None => (MkObj (ob_shape o) (Some (shape_box (ob_shape o))), shape_box (ob_shape o))
    end.
  Definition transform (m : mat K) (o : obj) : obj := MkObj (shape_transform m (ob_shape o)) (ob_cached o).
  Fixpoint replace (i : nat) (o : obj) (h : list obj) : list obj :=
    match h, i with
    | [], _ => []
    | _ :: r, O => o :: r
    | x :: r, S i => x :: replace i o r
    end.
  (** The objects and the boxes read so far, with the shape they were read from; objects that
      do not exist change nothing. *)
  Definition do_use (st : list obj * list (shape K * box K)) (u : use) : list obj * list (shape K * box K) :=
    let '(h, out) := st in
    match u with
    | Make s => (h ++ [MkObj s None], out)
    | ReadBox i => match nth_error h i with
                   | Some o => let '(o', b) := read_box o in (replace i o' h, out ++ [(ob_shape o, b)])
                   | None => st
                   end
    | Transform i m => match nth_error h i with Some o => (h ++ [transform m o], out) | None => st end
    end.
  Definition run_uses (us : list use) : list obj * list (shape K * box K) := fold_left do_use us ([], []).
End Cache.
Arguments obj : clear implicits. Arguments use : clear implicits.

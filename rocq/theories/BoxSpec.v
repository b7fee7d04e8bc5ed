(** Specification vocabulary for C25 and C27: the order on coordinates and boxes. *)
From Verif Require Import Base Num Dict Ast StateModel GeomModel CompilerModel BoxModel VmModel.

Section Spec.
  Context {K : Type} {NK : Num K}.

  (** The laws of numbers needed: a total order decided by [<] and respected by adding and
      subtracting a fixed number.  (Rounded arithmetic obeys them as well.) *)
  Record ordered (le : K -> K -> Prop) : Prop := {
    le_refl : forall a, le a a;
    le_trans : forall a b c, le a b -> le b c -> le a c;
    le_antisym : forall a b, le a b -> le b a -> a = b;
    le_total : forall a b, le a b \/ le b a;
    ltb_le : forall a b, n_ltb a b = false <-> le b a;
    add_le : forall a b c, le a b -> le (n_add a c) (n_add b c);
    sub_le : forall a b c, le a b -> le (n_sub a c) (n_sub b c) }.

  Context (le : K -> K -> Prop).
  Definition e_le (a b : ext K) : Prop :=
    match a, b with
    | MinusInf, _ => True | _, PlusInf => True
    | Fin x, Fin y => le x y
    | _, _ => False
    end.
  (** Points in a box; inclusion of boxes; least box including all of a family. *)
  Definition inside (v : vec K) (b : ebox K) : Prop :=
    e_le (b_minx b) (Fin (vx v)) /\ e_le (Fin (vx v)) (b_maxx b) /\
    e_le (b_miny b) (Fin (vy v)) /\ e_le (Fin (vy v)) (b_maxy b).
  Definition within (a b : ebox K) : Prop :=
    e_le (b_minx b) (b_minx a) /\ e_le (b_miny b) (b_miny a) /\
    e_le (b_maxx a) (b_maxx b) /\ e_le (b_maxy a) (b_maxy b).
  Definition least (P : ebox K -> Prop) (b : ebox K) : Prop := P b /\ forall c, P c -> within b c.

  (** The area a command of a layer covers: the outer box of a shape, the box of a finished
      layer moved so that its origin comes to the paste position. *)
  Definition covers (ls : dict (vlayer K)) (d : draw K) (c : ebox K) : Prop :=
    match d with
    | DShape s => c = embed (shape_box s)
    | DPaste p => exists b o l, d_get (pa_src p) ls = Some (LEager b o l) /\
        c = box_unshift (box_shift (embed b) (pa_center p)) o
    end.
End Spec.

(** Specification vocabulary for C11, C12 and C22: reading an RVMC program as a list of
    layers, without looking at the compiler's buffers. *)
From Verif Require Import Base Num Dict CoordModel CoordSpec Ast StateModel StateSpec GeomModel CompilerModel.

Section Spec.
  Context {K : Type}.

  (** A program as a list of layers: [None] when commands are nested, unterminated or drawn
      outside a layer. *)
  Fixpoint layers_from (inside : option (str * list (draw K))) (cs : list (cmd K))
    : option (list (str * list (draw K))) :=
    match cs, inside with
    | [], None => Some []
    | KStart id _ _ :: r, None => layers_from (Some (id, [])) r
    | KDraw d :: r, Some (id, ds) => layers_from (Some (id, ds ++ [d])) r
    | KEnd :: r, Some l =>
        match layers_from None r with Some ls => Some (l :: ls) | None => None end
    | _, _ => None
    end.
  Definition layers (cs : list (cmd K)) : option (list (str * list (draw K))) := layers_from None cs.

  Definition pastes (ds : list (draw K)) (id : str) : Prop :=
    exists p, In (DPaste p) ds /\ pa_src p = id.

  (** Every layer that is pasted was completed before. *)
  Definition defined_before_use (ls : list (str * list (draw K))) : Prop :=
    forall pre id ds post src, ls = pre ++ (id, ds) :: post -> pastes ds src -> In src (map fst pre).
  Definition defined_once (ls : list (str * list (draw K))) : Prop := NoDup (map fst ls).
  (** Every layer but the last is pasted by a later one. *)
  Definition all_needed (ls : list (str * list (draw K))) : Prop :=
    forall pre id ds l post, ls = pre ++ (id, ds) :: l :: post ->
      exists id' ds', In (id', ds') (l :: post) /\ pastes ds' id.

  (** All nodes of a tree. *)
  Fixpoint subnodes (n : node K) : list (node K) :=
    n :: match n with NAB _ body | NSR _ _ body => flat_map subnodes body | _ => [] end.

  (** Aperture codes are D-codes, and no code is used both by AD and by AB. *)
  Definition codes_valid (ns : list (node K)) : Prop :=
    (forall n a, In n ns -> In (NAD a) (subnodes n) -> exists m, dcode (ad_id a) m) /\
    (forall n id body, In n ns -> In (NAB id body) (subnodes n) -> exists m, dcode id m).
  Definition codes_disjoint (ns : list (node K)) : Prop :=
    forall n n' a id body, In n ns -> In n' ns ->
      In (NAD a) (subnodes n) -> In (NAB id body) (subnodes n') -> ad_id a <> id.
End Spec.

(** *** Dependency graphs (C12 at graph level): edges [id -> depends on] *)
Section Graph.
  Definition edges := list (str * list str).
  Fixpoint targets (g : edges) (a : str) : list str :=
    match g with [] => [] | (k, l) :: r => if str_eqb a k then l else targets r a end.
  Inductive reaches (g : edges) : str -> str -> Prop :=
  | r_one a b : In b (targets g a) -> reaches g a b
  | r_more a b c : In b (targets g a) -> reaches g b c -> reaches g a c.
  Definition acyclic (g : edges) : Prop := forall a, ~ reaches g a a.
End Graph.

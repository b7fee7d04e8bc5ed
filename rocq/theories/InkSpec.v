(** Specification for C85: what leaves something to be seen, dark or clear. *)
From Coq Require Import Reals.
From Verif Require Import Base Num NumReal Dict CoordModel Ast StateModel StateSpec ExprSpec MacroSpec GeomModel CompilerModel
  LayerSpec DrawSpec FlashSpec RenderSpec.
Open Scope R_scope.

(** *** Macros
    A primitive leaves something: all but comments and assignments do; a moire needs a cross or a ring, a thermal
    a ring with room for its gaps. *)
Definition marks_prim (env : str -> option R) (p : prim R) : Prop :=
  let val e k := value env (meaning e) k in
  match p with
  | PCode0 _ | PAssign _ _ => False
  | PCode6 _ _ o w _ n t l _ =>
      (exists t' l', val t t' /\ val l l' /\ 0 < t' /\ 0 < l') \/
      (exists o' w' n', val o o' /\ val w w' /\ val n n' /\ 0 < o' /\ 0 < w' /\ 1 <= n')
  | PCode7 _ _ _ o i g _ => exists o' i' g', val o o' /\ val i i' /\ val g g' /\ i' < o' /\ g' * sqrt 2 < i'
  | _ => True
  end.
Fixpoint marks_body (env : str -> option R) (ps : list (prim R)) : Prop :=
  match ps with
  | [] => False
  | PAssign v e :: r => exists k, value env (meaning e) k /\ marks_body (upd v (Some k) env) r
  | p :: r => marks_prim env p \/ marks_body env r
  end.
(** An aperture, given the commands before its definition. *)
Definition marks_aperture (pre : list (node R)) (a : ad R) : Prop :=
  match ad_template a with
  | TMacro name ps => exists prims env, macros_of pre name = Some prims /\
      binds env (match ps with Some l => l | None => [] end) /\ marks_body env prims
  | _ => True
  end.

(** *** Commands, given the commands executed before them *)
Section Commands.
  Context {K : Type} {NK : Num K}.
  (** Strokes that are not ignored. *)
  Definition strokes (pre : list (node K)) : Prop := plot_of pre = PmLinear \/ arc_mode pre = MultiQuadrant.
  (** A contour was begun: one of its strokes is followed neither by D02 nor by G36 nor by G37. *)
  Definition quiet (n : node K) : Prop := match n with ND02 _ _ | NG G36 | NG G37 => False | _ => True end.
  Definition edge (pre : list (node K)) (n : node K) : Prop :=
    match n with ND01 _ _ _ _ => in_region pre = true /\ strokes pre | _ => False end.
  Definition outlined (pre : list (node K)) : Prop :=
    exists p n q, pre = p ++ n :: q /\ edge p n /\ Forall quiet q.
  Definition marks (pre : list (node K)) (n : node K) : Prop :=
    match n with
    | ND01 _ _ _ _ => in_region pre = false /\ strokes pre
    | ND02 _ _ | NG G37 => outlined pre
    | ND03 _ _ => True
    | _ => False
    end.
End Commands.

(** Something is drawn, and every flashed aperture has a figure. *)
Definition marked (ns : list (node R)) : Prop :=
  (exists pre n post, ns = pre ++ n :: post /\ marks pre n) /\
  forall pre x y post p a q, ns = pre ++ ND03 x y :: post -> latest_selection pre = Some (ad_id a) -> pre = p ++ NAD a :: q -> ~ In (ad_id a) (ad_codes q) ->
    marks_aperture p a.

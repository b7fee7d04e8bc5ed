(** Specification vocabulary for C64, C85 and C86 in files that define codes again: pictures whose flashes
    show the definition that was the latest one when the code was first flashed under the
    transformation. *)
From Coq Require Import Reals.
From Verif Require Import Base Num NumReal Dict CoordModel Ast StateModel StateSpec GeomModel CompilerModel LayerSpec VmModel VmSpec
  DrawSpec FlashSpec PaintSpec RenderSpec InkSpec StaleSpec.

Section Flashes.
  Context {K : Type} {NK : Num K}.
  (** [p]: the commands before the first flash of [id] under the transformation set in [pre];
      this may be the flash after [pre]. *)
  Definition first_use (pre : list (node K)) (id : str) (p : list (node K)) : Prop :=
    (p = pre \/ exists x y q, pre = p ++ ND03 x y :: q) /\
    latest_selection p = Some id /\ matrix_at p = matrix_at pre /\ ~ flashed_under p id (matrix_at pre).
  (** No code is defined again after it was flashed. *)
  Definition steady (whole : list (node K)) : Prop := forall p x y q a r,
    whole = p ++ ND03 x y :: q ++ NAD a :: r -> latest_selection p <> Some (ad_id a).
End Flashes.

Section Picture.
  Context (inside : shape R -> vec R -> Prop) (text : R -> str) (md : bool) (clock : nat -> Z).
  Notation NT := (with_text NumR text).
  (** As [pictured] of [RenderSpec] but for flashes. *)
  Definition repictured (pre : list (node R)) (n : node R) (os : list object) : Prop :=
    match n with
    | ND03 _ _ => exists id p a fs, latest_selection pre = Some id /\ first_use (NK := NT) pre id p /\ selected_as p a /\
        aperture_figure inside text md clock p a (matrix_at (NK := NT) pre) fs /\
        os = [(clear_at pre, moved_to (pen_vec (NK := NT) (pre ++ [n])) (seen fs))]
    | _ => pictured inside text md clock pre n os
    end.
  Inductive repicture : list (node R) -> list object -> Prop :=
  | rp_nil : repicture [] []
  | rp_step pre os n new : repicture pre os -> repictured pre n new -> repicture (pre ++ [n]) (os ++ new).
End Picture.

(** Something is drawn, and every aperture has a figure when it is flashed for the first time
    under a transformation. *)
Definition remarked (ns : list (node R)) : Prop :=
  (exists pre n post, ns = pre ++ n :: post /\ marks pre n) /\
  forall pre x y post p a q, ns = pre ++ ND03 x y :: post -> latest_selection pre = Some (ad_id a) ->
    ~ flashed_under (NK := NumR) pre (ad_id a) (matrix_at (NK := NumR) pre) ->
    pre = p ++ NAD a :: q -> ~ In (ad_id a) (ad_codes q) -> marks_aperture p a.

(** Specification for C85: builder calls whose file can be rendered. *)
From Coq Require Import Reals Qreals.
From Verif Require Import Base Num Dict Ast GbModel GbSpec.

(** All figures leave something but thermals whose gaps are as wide as their hole allows. *)
Definition leaves (f : figure) : Prop :=
  match f with FgThermal _ o i g _ => (i < o)%Q /\ (Q2R g * sqrt 2 < Q2R i)%R | _ => True end.
(** Something is asked for, and every pad that is used has a figure. *)
Definition worth_seeing (h : history) : Prop :=
  (exists w, In w (wishes h) /\ match w with WRegion _ [] => False | _ => True end) /\
  forall n l pol rot mx my sc fs, In (WPad n l pol rot mx my sc) (wishes h) -> pad_look h n = Some (Custom fs) -> Exists leaves fs.

(** Specification vocabulary for C66: a text cut into commands and unreadable rests of lines. *)
From Verif Require Import Base Num Ast GramAst PegModel GramModel GramText ResModel.

Section Spec.
  Context {K T : Type}.
  (** [cut ok s ps]: [s] is made of the texts of [ps], in order, with whitespace between, before
      and after them; no text is empty or starts with whitespace; [ok] tells which nodes a text
      may have, given the text after it. *)
  Inductive cut (ok : str -> list (rnode K T) -> str -> Prop) : str -> list (str * list (rnode K T)) -> Prop :=
  | cut_end w : ws w -> cut ok w []
  | cut_next w t ns s ps : ws w -> t <> [] -> head_is is_ws t = false -> ok t ns s -> cut ok s ps ->
      cut ok (w ++ t ++ s) ((t, ns) :: ps).
  (** A text that reaches to the end of its line. *)
  Definition rest_of_line (t after : str) : Prop :=
    ~ In "010"%char t /\ (after = [] \/ exists r, after = "010"%char :: r).
End Spec.

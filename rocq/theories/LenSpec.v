(** Specification vocabulary for C89: texts put one behind the other. *)
From Verif Require Import Base PegModel GramText.

(** Nothing but blanks. *)
Definition blank (s : str) : Prop := Forall (fun c => In c (lit " " ++ ["010"; "009"; "013"]%char)) s.
(** The last line of the text is empty. *)
Definition ends_line (s : str) : Prop := s = [] \/ exists t c, s = t ++ [c] /\ (c = "010"%char \/ c = "013"%char).
(** [b] may follow [a] without a tab of [b] changing its width. *)
Definition fits (a b : str) : Prop := ~ In "009"%char b \/ ends_line a.

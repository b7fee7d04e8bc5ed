(** Model of what hover texts say about the primitives of macros: [on_code_1] 731-761 and
    [on_code_2] 763-796 of [gerber/language_server/_server/hover/gerber.py], the text after the
    code block, and the sections it refers to ([gerber/spec/rev_2024_05.py] 358-367, titles
    101-113).  [fmt] is the formatter on expressions. *)
From Verif Require Import Base MdModel.

Section PrimMd.
  Context {E : Type} (fmt : E -> str).
  (** [_print] adds a space after the opening backquote. *)
  Definition opened (label : str) : str := newline :: lit " - " ++ label ++ lit ": " ++ [tick] ++ lit " ".
  Definition filled (label : str) (e : E) : str := opened label ++ fmt e ++ [tick].
  Definition code_1_md (exposure diameter x y : E) (rotation : option E) : str :=
    concat [filled (lit "exposure") exposure; filled (lit "diameter") diameter; filled (lit "center_x") x; filled (lit "center_y") y;
            opened (lit "rotation");
            match rotation with
            | Some r => fmt r ++ degree ++ [tick; newline] ++ lit " "
            | None => lit "None" ++ [tick; newline]
            end].
  Definition code_2_md (exposure width sx sy ex ey rotation : E) : str :=
    concat [filled (lit "exposure") exposure; filled (lit "width") width; filled (lit "start_x") sx; filled (lit "start_y") sy;
            filled (lit "end_x") ex; filled (lit "end_y") ey; opened (lit "rotation"); fmt rotation ++ degree ++ [tick; newline] ++ lit " "].
End PrimMd.
(** [code_1] 358-367; [on_code_2] refers to it as well. *)
Definition code_1_sections : list (list nat * str) :=
  [([4; 5], lit "Aperture Macro (AM)"); ([4; 5; 1; 2], lit "Comment, Code 0"); ([4; 5; 1], lit "Primitives");
   ([4; 5; 2], lit "Exposure Parameter"); ([4; 5; 3], lit "Rotation Parameter"); ([4; 5; 4], lit "Macro Variables and Expressions")]%nat.
Definition code_2_sections : list (list nat * str) := code_1_sections.

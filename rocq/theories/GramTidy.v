(** What the options that are not about whitespace do to a file: [keep_non_standalone_codes]
    switched off and the removal of G54 and G55.  Whether a D code is standalone depends on
    whether an unfinished G code is written in front of it. *)
From Verif Require Import Base Num CoordModel Ast GramAst.

Section Tidy.
  Context {K T : Type} (keep : bool) (drop : gcode -> bool).
  Fixpoint tidy_cmd (glued : bool) (c : cmd K T) : list (cmd K T) * bool :=
    let body := fix body (glued : bool) (l : list (cmd K T)) : list (cmd K T) :=
      match l with [] => [] | x :: r => let '(y, g) := tidy_cmd glued x in y ++ body g r end in
    match c with
    | CAB id b => ([CAB id (body false b)], false)
    | CSR h b => ([CSR h (body false b)], false)
    | CG sa g => if drop g then ([], false)
                 else if (keep && negb sa)%bool then ([CG false g], true) else ([CG true g], false)
    | CD01 _ x y i j => ([CD01 (negb glued) x y i j], false)
    | CD02 _ x y => ([CD02 (negb glued) x y], false)
    | CD03 _ x y => ([CD03 (negb glued) x y], false)
    | CDnn _ id => ([CDnn (negb glued) id], false)
    | c => ([c], false)
    end.
  Fixpoint tidy (glued : bool) (l : list (cmd K T)) : list (cmd K T) :=
    match l with [] => [] | x :: r => let '(y, g) := tidy_cmd glued x in y ++ tidy g r end.
End Tidy.

(** Model of what hover texts say about drawing commands: the text between the code block and
    the attributes, [gerber/language_server/_server/hover/gerber.py] 307-372, 488-505, 522-528,
    534-547.  The points are those of [HoverModel]; [show] is [str] of a float. *)
From Verif Require Import Base Num CoordModel Ast StateModel HoverModel MdModel.

Section OpMd.
  Context {K : Type} {NK : Num K} (show : K -> str).
  Definition pieces (l : list str) : str := concat l.
  (** [_append_current_xy] 307-312 and the text of [_append_xy] 314-332; [gap] are the spaces
      after the message *)
  Definition point_md (message gap : str) (p : K * K) : str :=
    pieces [sep; message; lit " "; gap; lit " _x =_ "; span (show (fst p)); lit " _y =_ "; span (show (snd p)); [newline]].
  Definition start_md (s : state K) : str := point_md (lit "Starts at:") (lit "&nbsp;") (shown_start s).
  Definition xy_md (message : str) (p : option (K * K)) : str :=
    match p with Some p => point_md message (lit "&nbsp;&nbsp;&nbsp;") p | None => [] end.
  (** [_current_aperture] 334-335, [_arc_interpolation_mode] 337-344, [_plot_mode] 346-353,
      [_polarity] 355-360, [_transform] 362-372; [_print] adds a space *)
  Definition printed (t : str) : str := t ++ lit " ".
  Definition aperture_md (s : state K) : str := printed (span (lit "Aperture: " ++ match s_apid s with Some id => id | None => lit "None" end)).
  Definition arc_md (s : state K) : str :=
    match s_plot s with
    | PmLinear => []
    | _ => printed match s_arc s with MultiQuadrant => lit "`Multi-quadrant`" | SingleQuadrant => lit "`Single-quadrant`" end
    end.
  Definition plot_md (s : state K) : str :=
    printed match s_plot s with PmLinear => lit "`Linear`" | PmArc => lit "`Clockwise Arc`" | PmCcwArc => lit "`Counter-clockwise Arc`" end.
  Definition polarity_md (s : state K) : str :=
    printed match tr_polarity (s_tr s) with Dark => lit "`Dark polarity`" | Clear => lit "`Clear polarity`" end.
  Definition transform_md (s : state K) : str :=
    printed match tr_mirroring (s_tr s) with
            | MirNone => lit "`No Mirroring`" | MirX => lit "`Mirroring X`" | MirY => lit "`Mirroring Y`" | MirXY => lit "`Mirroring X and Y`"
            end ++
    printed (span (lit "Rotation: " ++ show (tr_rotation (s_tr s))) ++ degree) ++
    span (lit "Scale: " ++ show (tr_scaling (s_tr s))) ++ [newline].
  Definition state_md (s : state K) : str := pieces [sep; aperture_md s; arc_md s; plot_md s; polarity_md s; transform_md s].

  (** [on_d01] 488-505, [on_d02] 522-528, [on_d03] 534-547, up to the attributes *)
  Definition d01_md (s : state K) (x y i j : option str) : result exc str :=
    let* e := shown_end s x y in
    let* c := shown_center s i j in
    Ok (pieces [start_md s; xy_md (lit "Ends at:") e; xy_md (lit "Arc center at:") c; state_md s]).
  Definition d02_md (s : state K) (x y : option str) : result exc str :=
    let* e := shown_end s x y in Ok (xy_md (lit "Relocate to:") e).
  Definition d03_md (s : state K) (x y : option str) : result exc str :=
    let* e := shown_end s x y in Ok (pieces [xy_md (lit "Flash at:") e; state_md s]).
End OpMd.

(** Model of the attribute lists in hover texts: [ToMarkdown] and the lists made with it,
    [gerber/language_server/_server/hover/gerber.py] 111-258, 374-406, and of the lists of
    parameters of aperture definitions, 656-729.

    [show] is [str] of a float.  The degree sign is written as its two bytes.  Members of string
    enumerations are their values; those of [Mount] have names equal to their values. *)
From Verif Require Import Base Num CoordModel Ast GramAst LinkModel.

Definition tick : ascii := "`"%char.
Definition newline : ascii := "010"%char.
Definition degree : str := ["194"; "176"]%char.
(** [f"`{f}`"] and [", ".join(f"`{f}`" for f in fields)] *)
Definition span (t : str) : str := tick :: t ++ [tick].
Fixpoint ticked (l : list str) : str :=
  match l with
  | [] => []
  | [f] => span f
  | f :: r => span f ++ lit ", " ++ ticked r
  end.
(** [s.replace("`", "'")] *)
Definition untick (s : str) : str := map (fun c => if Ascii.eqb c tick then "'"%char else c) s.

Section Md.
  Context {K : Type} (show : K -> str).
  (** [f"{x}"] of an optional value *)
  Definition shown (o : option str) : str := match o with Some t => t | None => lit "None" end.

  (** [on_ta_user_name] 126-130, [on_ta_aper_function] 132-140, [on_ta_drill_tolerance] 142-149,
      [on_ta_flash_text] 151-155 *)
  Definition ta_md (a : ta K) : str :=
    match a with
    | TAUser n f => span n ++ lit ": " ++ ticked f
    | TAAperFunction g f =>
        span (ta_name a) ++ lit ": " ++ span match g with Some g => g | None => lit "<missing>" end ++
        match f with [] => [] | _ => lit ", (" ++ ticked f ++ lit ")" end
    | TADrillTolerance p m =>
        span (ta_name a) ++ lit ": " ++ span ("+"%char :: shown (option_map show p)) ++ lit " /" ++ lit " -" ++ span (shown (option_map show m))
    | TAFlashText s _ _ _ _ _ => span (ta_name a) ++ lit ": " ++ span (untick s)
    end.
  (** [on_to_user_name] 157-161, [on_to_n] 163-167, [on_to_p] 169-173, [on_to_c] 175-181,
      [on_to_crot] 183-187, [on_to_cmfr] 189-193 ... [on_to_clbd] 243-247, [on_to_csup] 249-258 *)
  Definition to_md (a : to K) : str :=
    match a with
    | TOUser n f => span n ++ lit ": " ++ ticked f
    | TON f => lit "`CAD net name` (" ++ span (to_name a) ++ lit "): " ++ ticked f
    | TOP r n f => lit "`Pin number` (" ++ span (to_name a) ++ lit "): " ++ span r ++ lit ", " ++ span n ++ lit ", " ++ span (shown f)
    | TOC r => lit "`Component reference designator(" ++ to_name a ++ lit "`): " ++ span r
    | TOCRot k => span (to_name a) ++ lit ": " ++ span (show k ++ degree)
    | TOText CMfr s => lit "`Supplier` (" ++ span (to_name a) ++ lit "): " ++ span s
    | TOText _ s => span (to_name a) ++ lit ": " ++ span s
    | TOCMnt m => span (to_name a) ++ lit ": " ++ span m
    | TOCHgt k => span (to_name a) ++ lit ": " ++ span (show k)
    | TOCSup s p f =>
        span (to_name a) ++ lit ": " ++ span s ++ lit ", " ++ span p ++ match f with [] => [] | _ => lit ", " ++ ticked f end
    end.

  (** [_sep] 286-287, [_print] 295-296, [_print_line] 298-299 *)
  Definition sep : str := newline :: lit "---" ++ [newline].
  (** [_aperture_attributes] 374-389 and [_object_attributes] 391-406 on the values of the
      dictionary *)
  Definition section (title : str) (items : list str) : str :=
    match items with
    | [] => []
    | _ => sep ++ title ++ [newline] ++ concat (map (fun t => lit "- " ++ t ++ [newline]) items) ++ [newline]
    end.
  Definition aperture_section (id : str) (l : list (ta K)) : str := section (lit "### Aperture attributes (" ++ span id ++ lit ")") (map ta_md l).
  Definition object_section (l : list (to K)) : str := section (lit "### Object attributes") (map to_md l).

  (** [on_adc] 656-668, [on_adr] 670-683, [on_ado] 685-698, [on_adp] 700-714, [on_ad_macro]
      716-729: the lines between the code block and the attributes; [zero] is [0.0], which takes
      the place of a missing or zero rotation ([is_zero]), [count] is [str] of an integer. *)
  Context (zero : K) (is_zero : K -> bool) (count : Z -> str).
  Definition item (label : str) (v : str) : str := newline :: lit " - " ++ label ++ lit ": " ++ span v ++ lit " ".
  Fixpoint params_md (i : Z) (l : list K) : str :=
    match l with
    | [] => []
    | k :: r => item (lit "parameter " ++ span ("$"%char :: count i)) (show k) ++ params_md (i + 1) r
    end.
  Definition ad_md (t : template K) : str :=
    let hole h := item (lit "hole_diameter") (shown (option_map show h)) in
    match t with
    | TCircle d h => item (lit "standard template") (lit "Circle") ++ item (lit "diameter") (show d) ++ hole h
    | TRect w e h => item (lit "standard template") (lit "Rectangle") ++ item (lit "width") (show w) ++ item (lit "height") (show e) ++ hole h
    | TObround w e h => item (lit "standard template") (lit "Obround") ++ item (lit "width") (show w) ++ item (lit "height") (show e) ++ hole h
    | TPolygon d n r h =>
        item (lit "standard template") (lit "Polygon") ++ item (lit "outer diameter") (show d) ++ item (lit "vertex count") (count n) ++
        item (lit "rotation") (show match r with Some r => if is_zero r then zero else r | None => zero end ++ degree) ++ hole h
    | TMacro n p => item (lit "macro name") n ++ match p with Some l => params_md 1 l | None => [] end
    end.
End Md.

(** Model of [Formatter], [gerber/formatter/formatter.py].  The output stream becomes the returned
    text; the only other state is [_base_indent], which is passed along. *)
From Verif Require Import Base Num CoordModel Ast GramAst GramModel.

(** How Python writes numbers and dates: [w_num] is [_fmt_double] 374-380 on a [float], [w_int]
    the same on an [int], [w_str] is [str] of a [float], [w_date] is [isoformat]. *)
Record writer (K T : Type) := MkWriter {
  w_num : K -> str; w_str : K -> str; w_int : Z -> str; w_date : T -> str }.
Arguments w_num {K T}. Arguments w_str {K T}. Arguments w_int {K T}. Arguments w_date {K T}.

(** [formatter/options.py] 22-200 and [enums.py].  An indent is a text or a count of
    [indent_character]s. *)
Inductive split_mode := NoSplit | SplitOnPrimitives | SplitOnParameters.
Inductive indent := ICount (n : nat) | IText (s : str).
Record options := MkOptions {
  op_indent_character : ascii;
  op_macro_body_indent : indent; op_macro_param_indent : indent;
  op_macro_split_mode : split_mode; op_macro_end_in_new_line : bool;
  op_block_indent : indent; op_sr_indent : indent;
  op_d01_indent : indent; op_d02_indent : indent; op_d03_indent : indent;
  op_line_end : str; op_empty_line_before_polarity_switch : bool;
  op_keep_non_standalone : bool; op_remove_g54 : bool; op_remove_g55 : bool;
  op_explicit_parenthesis : bool; op_strip_whitespace : bool }.

(** The attributes computed by [__init__] 231-333. *)
Record settings := MkSettings {
  f_macro_body : str; f_macro_param : str; f_split : split_mode; f_macro_end : bool;
  f_block : str; f_sr : str; f_d01 : str; f_d02 : str; f_d03 : str;
  f_lf : str; f_polarity : str; f_keep : bool; f_remove_g54 : bool; f_remove_g55 : bool;
  f_explicit : bool }.
Definition indent_text (o : options) (i : indent) : str :=
  if op_strip_whitespace o then []
  else match i with ICount n => repeat (op_indent_character o) n | IText s => s end.
Definition init (o : options) : settings :=
  let ind := indent_text o in
  let lf := if op_strip_whitespace o then [] else op_line_end o in
  MkSettings (ind (op_macro_body_indent o)) (ind (op_macro_param_indent o))
    (op_macro_split_mode o) (op_macro_end_in_new_line o)
    (ind (op_block_indent o)) (ind (op_sr_indent o))
    (ind (op_d01_indent o)) (ind (op_d02_indent o)) (ind (op_d03_indent o))
    lf (if op_empty_line_before_polarity_switch o then lf else [])
    (op_keep_non_standalone o) (op_remove_g54 o) (op_remove_g55 o) (op_explicit_parenthesis o).

Section Fmt.
  Context {K T : Type} (w : writer K T) (o : settings).

  (** [_extended_command] 399-403 and [_command] 388-397 *)
  Definition ext (cmd body : str) : str := lit "%" ++ cmd ++ body ++ lit "*%" ++ f_lf o.
  Definition com (body : str) : str := body ++ lit "*" ++ f_lf o.
  Definition opt_text (pre : string) (t : option str) : str :=
    match t with Some s => lit pre ++ s | None => [] end.
  Definition opt_num (pre : string) (k : option K) : str := opt_text pre (option_map (w_num w) k).
  Definition fields_text (l : list str) : str := concat (map (fun f => lit "," ++ f) l).

  (** ** Expressions 1089-1205 *)
  Fixpoint fmt_expr (e : expr K) : str :=
    let wrap (s : str) := if f_explicit o then lit "(" ++ s ++ lit ")" else s in
    let tail (op : string) := fix tail (l : list (expr K)) : str :=
      match l with [] => [] | x :: r => lit op ++ fmt_expr x ++ tail r end in
    match e with
    | EConst k => w_num w k
    | EVar v => v
    | EParen e => if f_explicit o then fmt_expr e else lit "(" ++ fmt_expr e ++ lit ")"
    | ENeg e => lit "-" ++ fmt_expr e
    | EPos e => lit "+" ++ fmt_expr e
    | EAdd h t => wrap (fmt_expr h ++ tail "+"%string t)
    | ESub h t => wrap (fmt_expr h ++ tail "-"%string t)
    | EMul h t => wrap (fmt_expr h ++ tail "x"%string t)
    | EDiv h t => wrap (fmt_expr h ++ tail "/"%string t)
    end.

  (** ** Macros 481-495, 1167-1176, 1231-1439 *)
  Definition prim_lf : str :=
    match f_split o with NoSplit => [] | _ => f_lf o ++ f_macro_body o end.
  Definition param_lf : str :=
    match f_split o with SplitOnParameters => f_lf o ++ f_macro_param o ++ f_macro_body o | _ => [] end.
  Definition params (l : list str) : str := concat (map (fun p => lit "," ++ param_lf ++ p) l).
  Definition prim_text (code : string) (l : list (expr K)) : str :=
    prim_lf ++ lit code ++ params (map fmt_expr l) ++ lit "*".
  Definition fmt_prim (p : prim K) : str :=
    match p with
    | PAssign v e => prim_lf ++ v ++ lit "=" ++ fmt_expr e ++ lit "*"
    | PCode0 s => prim_lf ++ lit "0" ++ s ++ lit "*"
    | PCode1 a b c d r => prim_text "1" ([a; b; c; d] ++ match r with Some r => [r] | None => [] end)
    | PCode2 a b c d e f g => prim_text "2" [a; b; c; d; e; f; g]
    | PCode4 a b c d pts r =>
        prim_lf ++ lit "4" ++ params (map fmt_expr [a; b; c; d]) ++
        params (map (fun p => fmt_expr (fst p) ++ lit "," ++ fmt_expr (snd p)) pts) ++
        params [fmt_expr r] ++ lit "*"
    | PCode5 a b c d e f => prim_text "5" [a; b; c; d; e; f]
    | PCode6 a b c d e f g h i => prim_text "6" [a; b; c; d; e; f; g; h; i]
    | PCode7 _ a b c d e f => prim_text "7" [a; b; c; d; e; f]
    | PCode20 a b c d e f g => prim_text "20" [a; b; c; d; e; f; g]
    | PCode21 a b c d e f => prim_text "21" [a; b; c; d; e; f]
    | PCode22 a b c d e f => prim_text "22" [a; b; c; d; e; f]
    end.
  Definition fmt_macro (base name : str) (ps : list (prim K)) : str :=
    base ++ lit "%AM" ++ name ++ lit "*" ++
    concat (map (fun p => base ++ fmt_prim p) ps) ++
    base ++ (if f_macro_end o then f_lf o else []) ++ lit "%" ++ f_lf o.

  (** ** Aperture definitions 424-479 *)
  Definition fmt_template (t : template K) : str * str :=
    match t with
    | TCircle d h => (lit "C,", w_num w d ++ opt_num "X" h)
    | TRect x y h => (lit "R,", w_num w x ++ lit "X" ++ w_num w y ++ opt_num "X" h)
    | TObround x y h => (lit "O,", w_num w x ++ lit "X" ++ w_num w y ++ opt_num "X" h)
    | TPolygon d v r h =>
        (lit "P,", w_num w d ++ lit "X" ++ z_repr v ++ opt_num "X" r ++ opt_num "X" h)
    | TMacro n None => (n, [])
    | TMacro n (Some []) => (n, [])                  (* [first, *rest = []] raises: not modelled *)
    | TMacro n (Some (p :: l)) =>
        (n, lit "," ++ w_str w p ++ concat (map (fun k => lit "X" ++ w_str w k) l))
    end.

  (** ** Attributes 526-876 *)
  Definition fmt_ta (a : ta K) : str :=
    match a with
    | TAUser n f => ext (lit "TA" ++ n) (fields_text f)
    | TAAperFunction g f => ext (lit "TA.AperFunction") (opt_text "," g ++ fields_text f)
    | TADrillTolerance p m => ext (lit "TA.DrillTolerance") (opt_num "," p ++ opt_num "," m)
    | TAFlashText s mode mir font size c =>
        ext (lit "TA.FlashText")
          (lit "," ++ s ++ lit "," ++ mode ++ lit "," ++ mir ++
           match c with
           | [] => opt_text "," font ++ opt_text "," size
           | _ => lit "," ++ opt_text "" font ++ lit "," ++ opt_text "" size ++ fields_text c
           end)
    end.
  Definition fmt_tf (a : tf T) : str :=
    match a with
    | TFUser n f => ext (lit "TF" ++ n) (fields_text f)
    | TFPart p f => ext (lit "TF.Part,") (p ++ fields_text f)
    | TFFileFunction p f => ext (lit "TF.FileFunction,") (p ++ fields_text f)
    | TFFilePolarity p => ext (lit "TF.FilePolarity,") p
    | TFSameCoordinates i => ext (lit "TF.SameCoordinates") (opt_text "," i)
    | TFCreationDate d => ext (lit "TF.CreationDate") (lit "," ++ w_date w d)
    | TFGenerationSoftware a b c =>
        ext (lit "TF.GenerationSoftware")
          (lit "," ++ opt_text "" a ++ lit "," ++ opt_text "" b ++ lit "," ++ opt_text "" c)
    | TFProjectId a b c =>
        ext (lit "TF.ProjectId")
          (lit "," ++ opt_text "" a ++ lit "," ++ opt_text "" b ++ lit "," ++ opt_text "" c)
    | TFMD5 m => ext (lit "TF.MD5") (lit "," ++ m)
    end.
  Definition tag_text (t : totag) : string :=
    match t with
    | CMfr => "TO.CMfr" | CMPN => "TO.CMPN" | CVal => "TO.CVal" | CFtp => "TO.CFtp"
    | CPgN => "TO.CPgN" | CPgD => "TO.CPgD" | CLbN => "TO.CLbn" | CLbD => "TO.CLbD"
    end%string.
  Definition fmt_to (a : to K) : str :=
    match a with
    | TOUser n f => ext (lit "TO" ++ n) (fields_text f)
    | TON f => ext (lit "TO.N") (fields_text f)
    | TOP r n f => ext (lit "TO.P") (lit "," ++ r ++ lit "," ++ n ++ opt_text "," f)
    | TOC r => ext (lit "TO.C") (lit "," ++ r)
    | TOCRot k => ext (lit "TO.CRot") (lit "," ++ w_num w k)
    | TOText t s => ext (lit (tag_text t)) (lit "," ++ s)
    | TOCMnt m => ext (lit "TO.CMnt") (lit "," ++ m)
    | TOCHgt k => ext (lit "TO.CHgt") (lit "," ++ w_num w k)
    | TOCSup s p f => ext (lit "TO.CSup") (lit "," ++ s ++ lit "," ++ p ++ fields_text f)
    end.

  (** ** Values of the enumerations, [nodes/enums.py] *)
  Definition g_name (g : gcode) : string :=
    match g with
    | G01 => "G01" | G02 => "G02" | G03 => "G03" | G36 => "G36" | G37 => "G37" | G54 => "G54"
    | G55 => "G55" | G70 => "G70" | G71 => "G71" | G74 => "G74" | G75 => "G75" | G90 => "G90"
    | G91 => "G91"
    end%string.
  Definition lm_text (m : mirroring) : string :=
    match m with MirNone => "N" | MirX => "X" | MirY => "Y" | MirXY => "XY" end%string.
  Definition lp_text (p : polarity) : string := match p with Clear => "C" | Dark => "D" end%string.
  Definition as_text (c : axis_corr) : string :=
    match c with AXBY => "AXBY" | AYBX => "AYBX" end%string.
  Definition ip_text (p : image_polarity) : string :=
    match p with ImgPositive => "POS" | ImgNegative => "NEG" end%string.
  Definition mo_text (u : unit_mode) : string :=
    match u with Imperial => "IN" | Metric => "MM" end%string.
  Definition zeros_text (z : zeros) : string :=
    match z with SkipLeading => "L" | SkipTrailing => "T" | SkipLeadingImplied => "" end%string.
  Definition mode_text (m : notation) : string :=
    match m with Absolute => "A" | Incremental => "I" end%string.
  Definition nat_text (n : nat) : str := z_repr (Z.of_nat n).

  (** [on_sr_open] 505-522: every field is guarded by [node.x], and a missing one is written as
      Python writes [None]. *)
  Definition none_text (t : option str) : str := match t with Some s => s | None => lit "None" end.
  Definition fmt_sr (h : sropen) : str :=
    match sr_x h with
    | None => []
    | Some x => lit "X" ++ x ++ lit "Y" ++ none_text (sr_y h) ++ lit "I" ++ none_text (sr_i h) ++
                lit "J" ++ none_text (sr_j h)
    end.

  (** ** D codes 880-924: the indent is only written for what starts a line *)
  Definition line_start (base extra : str) (sa : bool) : str :=
    if (sa || negb (f_keep o))%bool then base ++ extra else [].
  (** ** G codes 928-1023 *)
  Definition removed (g : gcode) : bool :=
    match g with G54 => f_remove_g54 o | G55 => f_remove_g55 o | _ => false end.
  Definition fmt_g (sa : bool) (g : gcode) : str :=
    if removed g then []
    else if (sa || negb (f_keep o))%bool then com (lit (g_name g)) else lit (g_name g).

  (** Commands without a body; the base indent comes first ([_decorator_insert_base_indent]). *)
  Definition fmt_leaf (base : str) (c : cmd K T) : str :=
    match c with
    | CAB _ _ | CSR _ _ => []
    | CAD a => let '(sym, body) := fmt_template (ad_template a) in
               base ++ ext (lit "AD" ++ ad_id a ++ sym) body
    | CAM n ps => fmt_macro base n ps
    | CTA a => base ++ fmt_ta a
    | CTF a => base ++ fmt_tf a
    | CTO a => base ++ fmt_to a
    | CTD s => base ++ ext (lit "TD") (opt_text "" s)
    | CD01 sa x y i j =>
        line_start base (f_d01 o) sa ++ opt_text "X" x ++ opt_text "Y" y ++ opt_text "I" i ++
        opt_text "J" j ++ com (lit "D01")
    | CD02 sa x y =>
        line_start base (f_d02 o) sa ++ opt_text "X" x ++ opt_text "Y" y ++ com (lit "D02")
    | CD03 sa x y =>
        line_start base (f_d03 o) sa ++ opt_text "X" x ++ opt_text "Y" y ++ com (lit "D03")
    | CDnn sa id => line_start base [] sa ++ com id
    | CG sa g => base ++ fmt_g sa g
    | CG04 s => base ++ com (lit "G04" ++ opt_text "" s)
    | CLM m => base ++ ext (lit "LM" ++ lit (lm_text m)) []
    | CLN s => base ++ ext (lit "LN" ++ s) []
    | CLP p => f_polarity o ++ base ++ ext (lit "LP" ++ lit (lp_text p)) []
    | CLR k => base ++ ext (lit "LR" ++ w_num w k) []
    | CLS k => base ++ ext (lit "LS" ++ w_num w k) []
    | CM00 => base ++ com (lit "M00")
    | CM01 => base ++ com (lit "M01")
    | CM02 => base ++ com (lit "M02")
    | CAS c => base ++ ext (lit "AS") (lit (as_text c))
    | CFS f =>
        base ++ ext (lit "FS")
          (lit (zeros_text (fs_zeros f)) ++ lit (mode_text (fs_mode f)) ++
           lit "X" ++ nat_text (fs_xi f) ++ nat_text (fs_xd f) ++
           lit "Y" ++ nat_text (fs_yi f) ++ nat_text (fs_yd f))
    | CIN s => base ++ ext (lit "IN") s
    | CIP p => base ++ ext (lit "IP") (lit (ip_text p))
    | CIR z => base ++ ext (lit "IR") (w_int w z)
    | CMI a b => base ++ ext (lit "MI") (lit "A" ++ z_repr a ++ lit "B" ++ z_repr b)
    | CMO u => base ++ ext (lit "MO") (lit (mo_text u))
    | COF a b =>
        base ++ ext (lit "OF") (opt_text "A" (option_map (w_str w) a) ++
                                opt_text "B" (option_map (w_str w) b))
    | CSF a b => base ++ ext (lit "SF") (lit "A" ++ w_num w a ++ lit "B" ++ w_num w b)
    end.

  (** [_decrease_base_indent] 171-190: removing an empty indent, [base[: -0]], leaves nothing. *)
  Fixpoint ends_with (s d : str) : bool :=
    if str_eqb s d then true else match s with [] => false | _ :: r => ends_with r d end.
  Definition decrease (base d : str) : str :=
    if ends_with base d then
      match d with [] => [] | _ => firstn (length base - length d) base end
    else base.

  (** [AstVisitor.on_ab] 142-149, [on_sr]; [on_ab_open] 416-422 and so on. *)
  Fixpoint fmt_cmd (base : str) (c : cmd K T) : str * str :=
    let body := fix body (base : str) (l : list (cmd K T)) : str * str :=
      match l with
      | [] => ([], base)
      | x :: r => let '(t, b) := fmt_cmd base x in let '(t', b') := body b r in (t ++ t', b')
      end in
    match c with
    | CAB id l =>
        let '(t, b) := body (base ++ f_block o) l in
        let b' := decrease b (f_block o) in
        (base ++ ext (lit "AB") id ++ t ++ b' ++ ext (lit "AB") [], b')
    | CSR h l =>
        let '(t, b) := body (base ++ f_sr o) l in
        let b' := decrease b (f_sr o) in
        (base ++ ext (lit "SR") (fmt_sr h) ++ t ++ b' ++ ext (lit "SR") [], b')
    | c => (fmt_leaf base c, base)
    end.
  Fixpoint fmt_cmds (base : str) (l : list (cmd K T)) : str * str :=
    match l with
    | [] => ([], base)
    | x :: r => let '(t, b) := fmt_cmd base x in let '(t', b') := fmt_cmds b r in (t ++ t', b')
    end.
End Fmt.

(** [formats] 344-348. *)
Definition formats {K T} (w : writer K T) (o : options) (f : list (cmd K T)) : str :=
  fst (fmt_cmds w (init o) [] f).

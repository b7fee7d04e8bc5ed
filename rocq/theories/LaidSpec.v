(** Specification for C81: where the formatter breaks lines and how far they are indented. *)
From Verif Require Import Base Num Ast GramAst GramModel FmtModel GramRead.
Local Open Scope nat_scope.

Section Laid.
  Context {K T : Type} (w : writer K T) (op : options).

  (** The text of an indent and of a line end, given the options. *)
  Inductive indent_is : indent -> str -> Prop :=
  | II_strip i : op_strip_whitespace op = true -> indent_is i []
  | II_count n s : op_strip_whitespace op = false -> length s = n -> Forall (eq (op_indent_character op)) s ->
      indent_is (ICount n) s
  | II_text s : op_strip_whitespace op = false -> indent_is (IText s) s.
  Inductive line_end_is : str -> Prop :=
  | LE_strip : op_strip_whitespace op = true -> line_end_is []
  | LE_text : op_strip_whitespace op = false -> line_end_is (op_line_end op).

  (** Codes left out. *)
  Definition left_out (c : cmd K T) : Prop :=
    (exists sa, c = CG sa G54) /\ op_remove_g54 op = true \/ (exists sa, c = CG sa G55) /\ op_remove_g55 op = true.
  (** A code that stands before another command, and the command behind it, share one line if
      [keep_non_standalone_codes] is on. *)
  Definition shares_line (sa : bool) : Prop := sa = false /\ op_keep_non_standalone op = true.
  (** The indent of its own that a command has. *)
  Definition own_indent (c : cmd K T) : indent :=
    match c with
    | CD01 _ _ _ _ _ => op_d01_indent op | CD02 _ _ _ => op_d02_indent op | CD03 _ _ _ => op_d03_indent op
    | _ => ICount 0
    end.
  (** Commands that take one line, and those that may share one. *)
  Definition one_line (c : cmd K T) : Prop :=
    match c with CAB _ _ | CSR _ _ | CAM _ _ | CLP _ | CG _ _ => False
    | CD01 sa _ _ _ _ | CD02 sa _ _ | CD03 sa _ _ | CDnn sa _ => ~ shares_line sa | _ => True end.
  Definition shared (c : cmd K T) : Prop :=
    match c with CD01 sa _ _ _ _ | CD02 sa _ _ | CD03 sa _ _ | CDnn sa _ => shares_line sa | _ => False end.

  (** A primitive as the first item and the others. *)
  Definition prim_items (p : prim K) : str * list str :=
    let e := fmt_expr w (init op) in
    match p with
    | PAssign v x => (v ++ lit "=" ++ e x, [])
    | PCode0 s => (lit "0" ++ s, [])
    | PCode1 a b c d r => (lit "1", map e ([a; b; c; d] ++ match r with Some r => [r] | None => [] end))
    | PCode2 a b c d x f g => (lit "2", map e [a; b; c; d; x; f; g])
    | PCode4 a b c d pts r =>
        (lit "4", map e [a; b; c; d] ++ map (fun q => e (fst q) ++ lit "," ++ e (snd q)) pts ++ [e r])
    | PCode5 a b c d x f => (lit "5", map e [a; b; c; d; x; f])
    | PCode6 a b c d x f g h i => (lit "6", map e [a; b; c; d; x; f; g; h; i])
    | PCode7 _ a b c d x f => (lit "7", map e [a; b; c; d; x; f])
    | PCode20 a b c d x f g => (lit "20", map e [a; b; c; d; x; f; g])
    | PCode21 a b c d x f => (lit "21", map e [a; b; c; d; x; f])
    | PCode22 a b c d x f => (lit "22", map e [a; b; c; d; x; f])
    end.
  (** What is put before a primitive and before each of its items but the first, inside
      something indented by [ind]. *)
  Inductive break_prim (ind : str) : str -> Prop :=
  | BP_no : op_macro_split_mode op = NoSplit -> break_prim ind []
  | BP_yes lf bi : op_macro_split_mode op <> NoSplit -> line_end_is lf -> indent_is (op_macro_body_indent op) bi ->
      break_prim ind (lf ++ ind ++ bi).
  Inductive break_item (ind : str) : str -> Prop :=
  | BI_no : op_macro_split_mode op <> SplitOnParameters -> break_item ind []
  | BI_yes lf bi pi : op_macro_split_mode op = SplitOnParameters -> line_end_is lf ->
      indent_is (op_macro_body_indent op) bi -> indent_is (op_macro_param_indent op) pi ->
      break_item ind (lf ++ ind ++ pi ++ bi).

  (** [laid ind c t]: [t] is command [c] laid out inside of blocks whose indents are [ind]. *)
  Inductive laid : str -> cmd K T -> str -> Prop :=
  | L_line ind c own lf : one_line c -> indent_is (own_indent c) own -> line_end_is lf ->
      laid ind c (ind ++ own ++ cmd_text w c ++ lf)
  | L_shared ind c lf : shared c -> line_end_is lf -> laid ind c (cmd_text w c ++ lf)
  | L_left_out ind c : left_out c -> laid ind c []
  | L_code ind sa g lf : ~ left_out (CG sa g) -> ~ shares_line sa -> line_end_is lf ->
      laid ind (CG sa g) (ind ++ lit (g_name g) ++ lit "*" ++ lf)
  | L_code_shared ind sa g : ~ left_out (CG sa g) -> shares_line sa -> laid ind (CG sa g) (ind ++ lit (g_name g))
  | L_polarity ind p lf : op_empty_line_before_polarity_switch op = false -> line_end_is lf ->
      laid ind (CLP p) (ind ++ cmd_text w (CLP p) ++ lf)
  | L_polarity_apart ind p lf : op_empty_line_before_polarity_switch op = true -> line_end_is lf ->
      laid ind (CLP p) (lf ++ ind ++ cmd_text w (CLP p) ++ lf)
  | L_macro ind name ps bp bi be lf : break_prim ind bp -> break_item ind bi -> line_end_is lf ->
      (if op_macro_end_in_new_line op then be = lf ++ ind else be = []) ->
      laid ind (CAM name ps)
        (ind ++ lit "%AM" ++ name ++ lit "*" ++
         concat (map (fun p => bp ++ fst (prim_items p) ++ concat (map (fun i => lit "," ++ bi ++ i) (snd (prim_items p))) ++ lit "*") ps) ++
         be ++ lit "%" ++ lf)
  | L_block ind id l bi ts lf : indent_is (op_block_indent op) bi -> line_end_is lf -> laid_all (ind ++ bi) l ts ->
      laid ind (CAB id l) ((ind ++ lit "%AB" ++ id ++ lit "*%" ++ lf) ++ ts ++ (ind ++ lit "%AB*%" ++ lf))
  | L_repeat ind h l si ts lf : indent_is (op_sr_indent op) si -> line_end_is lf -> laid_all (ind ++ si) l ts ->
      laid ind (CSR h l) ((ind ++ lit "%SR" ++ fmt_sr h ++ lit "*%" ++ lf) ++ ts ++ (ind ++ lit "%SR*%" ++ lf))
  with laid_all : str -> list (cmd K T) -> str -> Prop :=
  | LA_nil ind : laid_all ind [] []
  | LA_cons ind c l t ts : laid ind c t -> laid_all ind l ts -> laid_all ind (c :: l) (t ++ ts).

  (** Where it is laid out like that: inside of something indented there are no macros, no codes
      that are left out, and no blocks without an indent. *)
  Inductive simple : str -> cmd K T -> Prop :=
  | S_leaf ind c : match c with CAB _ _ | CSR _ _ => False | CAM _ _ => ind = [] | _ => left_out c -> ind = [] end ->
      simple ind c
  | S_block ind id l bi : indent_is (op_block_indent op) bi -> (bi = [] -> ind = []) ->
      Forall (simple (ind ++ bi)) l -> simple ind (CAB id l)
  | S_repeat ind h l si : indent_is (op_sr_indent op) si -> (si = [] -> ind = []) ->
      Forall (simple (ind ++ si)) l -> simple ind (CSR h l).
End Laid.

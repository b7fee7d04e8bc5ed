(** Model of [gerber/ast/ast_visitor.py] as inherited by [EventAstVisitor]
    ([gerber/linter/event_ast_visitor.py]): every callback tells the listeners of the node's class
    and continues as [AstVisitor] does.  [node.visit(visitor)] calls the callback of the node's
    class ([gerber/ast/nodes/**]).  A listener changes a state and may raise an exception.  A file
    may have [Invalid] nodes between its commands (error resilient parsing, [ResModel]). *)
From Verif Require Import Base Num Dict Ast GramAst ResModel.

Section Walk.
  Context {K T : Type}.

  (** Objects of [gerber/ast/nodes/**]. *)
  Inductive axis := AxX | AxY | AxI | AxJ.
  Inductive thing : Type :=
  | XFile (f : list (rnode K T))
  | XCmd (c : cmd K T)
  | XInvalid (text : str)
  | XABopen (id : str) | XABclose | XAMopen (name : str) | XAMclose | XSRopen (h : sropen) | XSRclose
  | XPrim (p : prim K)
  | XExpr (e : expr K)
  | XPoint (x y : expr K)
  | XCoord (a : axis) (value : str).

  (** [type(node)], by name. *)
  Definition ta_type (a : ta K) : str :=
    match a with
    | TAUser _ _ => lit "TA_UserName" | TAAperFunction _ _ => lit "TA_AperFunction"
    | TADrillTolerance _ _ => lit "TA_DrillTolerance" | TAFlashText _ _ _ _ _ _ => lit "TA_FlashText"
    end.
  Definition tf_type (a : tf T) : str :=
    match a with
    | TFUser _ _ => lit "TF_UserName" | TFPart _ _ => lit "TF_Part" | TFFileFunction _ _ => lit "TF_FileFunction"
    | TFFilePolarity _ => lit "TF_FilePolarity" | TFSameCoordinates _ => lit "TF_SameCoordinates"
    | TFCreationDate _ => lit "TF_CreationDate" | TFGenerationSoftware _ _ _ => lit "TF_GenerationSoftware"
    | TFProjectId _ _ _ => lit "TF_ProjectId" | TFMD5 _ => lit "TF_MD5"
    end.
  Definition to_type (a : to K) : str :=
    match a with
    | TOUser _ _ => lit "TO_UserName" | TON _ => lit "TO_N" | TOP _ _ _ => lit "TO_P" | TOC _ => lit "TO_C" | TOCRot _ => lit "TO_CRot"
    | TOText t _ =>
        match t with
        | CMfr => lit "TO_CMfr" | CMPN => lit "TO_CMNP" | CVal => lit "TO_CVal" | CFtp => lit "TO_CFtp"
        | CPgN => lit "TO_CPgN" | CPgD => lit "TO_CPgD" | CLbN => lit "TO_CLbN" | CLbD => lit "TO_CLbD"
        end
    | TOCMnt _ => lit "TO_CMnt" | TOCHgt _ => lit "TO_CHgt" | TOCSup _ _ _ => lit "TO_CSup"
    end.
  Definition g_type (g : gcode) : str :=
    match g with
    | G01 => lit "G01" | G02 => lit "G02" | G03 => lit "G03" | G36 => lit "G36" | G37 => lit "G37" | G54 => lit "G54" | G55 => lit "G55"
    | G70 => lit "G70" | G71 => lit "G71" | G74 => lit "G74" | G75 => lit "G75" | G90 => lit "G90" | G91 => lit "G91"
    end.
  Definition ad_type (t : template K) : str :=
    match t with
    | TCircle _ _ => lit "ADC" | TRect _ _ _ => lit "ADR" | TObround _ _ _ => lit "ADO" | TPolygon _ _ _ _ => lit "ADP" | TMacro _ _ => lit "ADmacro"
    end.
  Definition cmd_type (c : cmd K T) : str :=
    match c with
    | CAB _ _ => lit "AB" | CSR _ _ => lit "SR" | CAD a => ad_type (ad_template a) | CAM _ _ => lit "AM"
    | CTA a => ta_type a | CTF a => tf_type a | CTO a => to_type a | CTD _ => lit "TD"
    | CD01 _ _ _ _ _ => lit "D01" | CD02 _ _ _ => lit "D02" | CD03 _ _ _ => lit "D03" | CDnn _ _ => lit "Dnn"
    | CG _ g => g_type g | CG04 _ => lit "G04"
    | CLM _ => lit "LM" | CLN _ => lit "LN" | CLP _ => lit "LP" | CLR _ => lit "LR" | CLS _ => lit "LS"
    | CM00 => lit "M00" | CM01 => lit "M01" | CM02 => lit "M02"
    | CAS _ => lit "AS" | CFS _ => lit "FS" | CIN _ => lit "IN" | CIP _ => lit "IP" | CIR _ => lit "IR"
    | CMI _ _ => lit "MI" | CMO _ => lit "MO" | COF _ _ => lit "OF" | CSF _ _ => lit "SF"
    end.
  Definition prim_type (p : prim K) : str :=
    match p with
    | PCode0 _ => lit "Code0" | PCode1 _ _ _ _ _ => lit "Code1" | PCode2 _ _ _ _ _ _ _ => lit "Code2" | PCode4 _ _ _ _ _ _ => lit "Code4"
    | PCode5 _ _ _ _ _ _ => lit "Code5" | PCode6 _ _ _ _ _ _ _ _ _ => lit "Code6" | PCode7 _ _ _ _ _ _ _ => lit "Code7"
    | PCode20 _ _ _ _ _ _ _ => lit "Code20" | PCode21 _ _ _ _ _ _ => lit "Code21" | PCode22 _ _ _ _ _ _ => lit "Code22" | PAssign _ _ => lit "Assignment"
    end.
  Definition expr_type (e : expr K) : str :=
    match e with
    | EConst _ => lit "Constant" | EVar _ => lit "Variable" | EParen _ => lit "Parenthesis" | ENeg _ => lit "Neg" | EPos _ => lit "Pos"
    | EAdd _ _ => lit "Add" | ESub _ _ => lit "Sub" | EMul _ _ => lit "Mul" | EDiv _ _ => lit "Div"
    end.
  Definition type_of (t : thing) : str :=
    match t with
    | XFile _ => lit "File" | XCmd c => cmd_type c | XInvalid _ => lit "Invalid"
    | XABopen _ => lit "ABopen" | XABclose => lit "ABclose" | XAMopen _ => lit "AMopen" | XAMclose => lit "AMclose"
    | XSRopen _ => lit "SRopen" | XSRclose => lit "SRclose"
    | XPrim p => prim_type p | XExpr e => expr_type e | XPoint _ _ => lit "Point"
    | XCoord a _ => match a with AxX => lit "CoordinateX" | AxY => lit "CoordinateY" | AxI => lit "CoordinateI" | AxJ => lit "CoordinateJ" end
    end.

  Context {S E : Type}.
  (** Python statements: the state afterwards and the exception raised, if any. *)
  Definition act := S -> S * option E.
  Definition skip : act := fun s => (s, None).
  Definition seq (a b : act) : act := fun s => match a s with (s, None) => b s | (s, Some e) => (s, Some e) end.
  Infix ";;" := seq (at level 60, right associativity).
  Fixpoint each {A} (f : A -> act) (l : list A) : act :=
    match l with [] => skip | x :: r => f x ;; each f r end.
  Definition maybe {A} (f : A -> act) (o : option A) : act := match o with Some x => f x | None => skip end.

  Definition listener := thing -> act.
  (** [register_listener], event_ast_visitor.py 137-141. *)
  Definition register_listener (node_type : str) (l : listener) (listeners : dict (list listener)) : dict (list listener) :=
    d_set node_type (match d_get node_type listeners with Some ls => ls | None => [] end ++ [l]) listeners.
  (** [_trigger_listeners], 143-147. *)
  Definition trigger_listeners (listeners : dict (list listener)) (node : thing) : act :=
    match d_get (type_of node) listeners with Some ls => each (fun l => l node) ls | None => skip end.

  Section Visitor.
    Context (listeners : dict (list listener)).
    Notation tell := (trigger_listeners listeners).

    (** Lines 491-493 and ast_visitor.py 586-587; [on_ad] 161-163, [on_ta] 209-211, [on_tf] 237-239,
        [on_to] 287-289 and [on_coordinate] 507-509 are the same. *)
    Definition on_group (t : thing) : act := tell t ;; skip.

    (** Lines 459-505; ast_visitor.py 521-604. *)
    Fixpoint on_expr (e : expr K) : act :=
      let operands := fix operands (l : list (expr K)) : act := match l with [] => skip | x :: r => on_expr x ;; operands r end in
      tell (XExpr e) ;;
      match e with
      | EConst _ => on_group (XExpr e)
      | EVar _ => on_group (XExpr e)
      | EParen i => on_group (XExpr e) ;; on_expr i
      | ENeg i => on_group (XExpr e) ;; on_expr i
      | EPos i => on_group (XExpr e) ;; on_expr i
      | EAdd h t => on_group (XExpr e) ;; on_expr h ;; operands t
      | ESub h t => on_group (XExpr e) ;; on_expr h ;; operands t
      | EMul h t => on_group (XExpr e) ;; on_expr h ;; operands t
      | EDiv h t => on_group (XExpr e) ;; on_expr h ;; operands t
      end.
    (** 499-501; ast_visitor.py 595-599. *)
    Definition on_point (xy : expr K * expr K) : act := tell (XPoint (fst xy) (snd xy)) ;; on_expr (fst xy) ;; on_expr (snd xy).
    (** 483-485, 527-565; ast_visitor.py 575-579, 633-731. *)
    Definition on_prim (p : prim K) : act :=
      tell (XPrim p) ;;
      match p with
      | PCode0 _ => skip
      | PCode1 exposure diameter cx cy rotation => on_expr exposure ;; on_expr diameter ;; on_expr cx ;; on_expr cy ;; maybe on_expr rotation
      | PCode2 exposure width sx sy ex ey rotation =>
          on_expr exposure ;; on_expr width ;; on_expr sx ;; on_expr sy ;; on_expr ex ;; on_expr ey ;; on_expr rotation
      | PCode4 exposure n sx sy points rotation =>
          on_expr exposure ;; on_expr n ;; on_expr sx ;; on_expr sy ;; each on_point points ;; on_expr rotation
      | PCode5 exposure n cx cy diameter rotation => on_expr exposure ;; on_expr n ;; on_expr cx ;; on_expr cy ;; on_expr diameter ;; on_expr rotation
      | PCode6 cx cy outer ring gap maxrings chthick chlen rotation =>
          on_expr cx ;; on_expr cy ;; on_expr outer ;; on_expr ring ;; on_expr gap ;; on_expr maxrings ;; on_expr chthick ;; on_expr chlen ;; on_expr rotation
      | PCode7 _ cx cy outer inner gap rotation => on_expr cx ;; on_expr cy ;; on_expr outer ;; on_expr inner ;; on_expr gap ;; on_expr rotation
      | PCode20 exposure width sx sy ex ey rotation =>
          on_expr exposure ;; on_expr width ;; on_expr sx ;; on_expr sy ;; on_expr ex ;; on_expr ey ;; on_expr rotation
      | PCode21 exposure width height cx cy rotation => on_expr exposure ;; on_expr width ;; on_expr height ;; on_expr cx ;; on_expr cy ;; on_expr rotation
      | PCode22 exposure width height x y rotation => on_expr exposure ;; on_expr width ;; on_expr height ;; on_expr x ;; on_expr y ;; on_expr rotation
      | PAssign v e => on_expr (EVar v) ;; on_expr e
      end.
    (** 511-525; ast_visitor.py 611-629. *)
    Definition on_coord (a : axis) (v : str) : act := tell (XCoord a v) ;; on_group (XCoord a v).

    (** 149-457, 567-601; ast_visitor.py 142-515, 735-769. *)
    Fixpoint on_cmd (c : cmd K T) : act :=
      let inner := fix inner (l : list (cmd K T)) : act := match l with [] => skip | x :: r => on_cmd x ;; inner r end in
      tell (XCmd c) ;;
      match c with
      | CAB id body => tell (XABopen id) ;; inner body ;; tell XABclose
      | CSR h body => tell (XSRopen h) ;; inner body ;; tell XSRclose
      | CAM name prims => tell (XAMopen name) ;; each on_prim prims ;; tell XAMclose
      | CAD _ => on_group (XCmd c)
      | CTA _ => on_group (XCmd c)
      | CTF _ => on_group (XCmd c)
      | CTO _ => on_group (XCmd c)
      | CD01 _ x y i j => maybe (on_coord AxX) x ;; maybe (on_coord AxY) y ;; maybe (on_coord AxI) i ;; maybe (on_coord AxJ) j
      | CD02 _ x y => maybe (on_coord AxX) x ;; maybe (on_coord AxY) y
      | CD03 _ x y => maybe (on_coord AxX) x ;; maybe (on_coord AxY) y
      | _ => skip
      end.

    (** [on_invalid], 611-613; ast_visitor.py 796-798. *)
    Definition on_node (n : rnode K T) : act := match n with Parsed c => on_cmd c | Invalid t => tell (XInvalid t) ;; skip end.

    (** [on_exception], ast_visitor.py 789-794, is not overridden. *)
    Definition on_exception (n : rnode K T) (e : E) : bool := true.
    (** [on_end_of_file], 607-609; ast_visitor.py 786-787. *)
    Definition on_end_of_file (f : list (rnode K T)) : act := tell (XFile f).
    Definition guarded (n : rnode K T) : act := fun s =>
      match on_node n s with (s, Some e) => if on_exception n e then (s, Some e) else (s, None) | r => r end.
    (** [on_file], 603-605; ast_visitor.py 773-784.  An exception of the [finally] part replaces
        the one being raised. *)
    Definition on_file (f : list (rnode K T)) : act :=
      tell (XFile f) ;; fun s =>
      let '(s, e) := each guarded f s in
      match on_end_of_file f s with (s, None) => (s, e) | r => r end.
  End Visitor.
End Walk.
Arguments thing : clear implicits. Arguments listener : clear implicits. Arguments act : clear implicits.

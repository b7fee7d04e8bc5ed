(** Model of the source locations of parsed nodes: [make_unpack_callback] 325-341 and the file
    nodes 192-196, 227-231 of [gerber/parser/pyparsing/grammar.py], [SourceInfo.location] and
    [length], [Node.__len__] ([gerber/ast/nodes/base.py] 19-24, 75-79).

    The elements of [PegModel] and the grammar of [GramModel] once more, with the number of
    characters in the tokens that were matched: this is [sum(len(t) for t in tokens)], because
    a token is a text or a node and the length of a node is again such a sum.  [total] is the
    length of the text.  A parse action is called with the place where its element starts, after
    white space.  Locations of coordinates are in [SpotModel], those of
    macro expressions in [TermModel]. *)
From Verif Require Import Base Num CoordModel Ast GramAst PegModel GramModel ResModel.
Local Open Scope nat_scope.

Definition parser (A : Type) := str -> pres (A * nat).
Definition token {A} (f : str -> option (A * str)) : parser A := fun s =>
  match f (skip s) with Some (a, r) => POk (a, length (skip s) - length r) r | None => PFail end.
Definition lit_p (l : string) : parser unit :=
  token (fun s => match strip_prefix (lit l) s with Some r => Some (tt, r) | None => None end).
Definition caseless_p (l : string) : parser unit :=
  token (fun s => match strip_upper (lit l) s with Some r => Some (tt, r) | None => None end).
Definition one_of (ls : list string) : parser str := token (first_prefix (map lit ls)).
Definition chars_not_in (cs : list ascii) : parser str := fun s =>
  match span (fun c => negb (existsb (Ascii.eqb c) cs)) s with
  | ([], _) => PFail
  | (a, r) => POk (a, length a) r
  end.
(** Tokens of a sequence are the tokens of its parts. *)
Definition pbind {A B} (p : parser A) (f : A -> parser B) : parser B := fun s =>
  match p s with
  | POk (a, k) r => match f a r with POk (b, k') r' => POk (b, k + k') r' | PFail => PFail | PErr e => PErr e end
  | PFail => PFail
  | PErr e => PErr e
  end.
Definition ret {A} (a : A) : parser A := fun s => POk (a, 0) s.
Definition pthen {A B} (p : parser A) (q : parser B) : parser B := pbind p (fun _ => q).
Definition validate {A} (o : option A) : parser A := fun s =>
  match o with Some a => POk (a, 0) s | None => PErr EValidation end.
Fixpoint first_of {A} (ps : list (parser A)) : parser A := fun s =>
  match ps with
  | [] => PFail
  | p :: r => match p s with PFail => first_of r s | x => x end
  end.
Definition opt {A} (p : parser A) : parser (option A) := fun s =>
  match p (skip s) with POk (a, k) r => POk (Some a, k) r | PFail => POk (None, 0) (skip s) | PErr e => PErr e end.
Definition opt_raw {A} (p : parser A) : parser (option A) := fun s =>
  match p s with POk (a, k) r => POk (Some a, k) r | PFail => POk (None, 0) s | PErr e => PErr e end.
Definition followed_by {A} (p : parser A) : parser unit := fun s =>
  match p s with POk _ _ => POk (tt, 0) s | PFail => PFail | PErr e => PErr e end.
Fixpoint many {A} (n : nat) (p : parser A) : parser (list A) := fun s =>
  match n with
  | O => PErr EFuel
  | S m => match p s with
           | POk (a, k) r => match many m p r with
                             | POk (l, k') r' => POk (a :: l, k + k') r' | PFail => PFail | PErr e => PErr e
                             end
           | PFail => POk ([], 0) s
           | PErr e => PErr e
           end
  end.
Definition many1 {A} (n : nat) (p : parser A) : parser (list A) :=
  pbind p (fun a => pbind (many n p) (fun l => ret (a :: l))).

Local Notation "'do' x <- p ; q" := (pbind p (fun x => q))
  (at level 200, x pattern, p at level 100, q at level 200, right associativity).
Local Notation "p ;; q" := (pthen p q) (at level 150, right associativity).

(** Nodes: what they are, [location], [length], and the nodes inside of blocks and macros. *)
Inductive lkind (K T : Type) := KCmd (c : cmd K T) | KPrim (p : prim K) | KOpen | KClose | KMacroOpen | KMacroClose | KInvalid (t : str).
Arguments KCmd {K T}. Arguments KPrim {K T}. Arguments KOpen {K T}. Arguments KClose {K T}. Arguments KMacroOpen {K T}. Arguments KMacroClose {K T}. Arguments KInvalid {K T}.
Inductive lnode (K T : Type) := LN (k : lkind K T) (loc len : nat) (kids : list (lnode K T)).
Arguments LN {K T}.

(** Tokens. *)
Definition string_p : parser str := chars_not_in ["%"%char; "*"%char].          (* 278-281 *)
Definition asterisk : parser unit := lit_p "*".                                 (* 260-262 *)
Definition percent : parser unit := lit_p "%".                                  (* 264-266 *)
Definition comma : parser unit := lit_p ",".                                    (* 283-286 *)
Definition name_p : parser str := token re_name.
Definition user_name_p : parser str := token re_user_name.
Definition field_p : parser str := token re_field.
Definition double_p : parser str := token re_double.
Definition integer_p : parser str := token re_integer.
Definition aperture_id_p : parser str := token re_aperture_id.

(** [_command] 268-269 and [_extended_command] 271-272. *)
Definition command {A} (p : parser A) : parser A := do a <- p; asterisk ;; ret a.
Definition extended {A} (p : parser A) : parser A :=
  percent ;; do a <- p; asterisk ;; percent ;; ret a.

Section Gram.
  Context {K T : Type} (rd : reader K T) (total : nat).
  (** [make_unpack_callback]: the node of what was matched and something made from it; a node
      of other nodes; a single command. *)
  Definition node {A} (p : parser (lkind K T * A)) : parser (lnode K T * A) := fun s =>
    match p s with
    | POk ((x, a), k) r => POk ((LN x (total - length (skip s)) k [], a), k) r
    | PFail => PFail
    | PErr e => PErr e
    end.
  Definition block (p : parser (cmd K T * list (lnode K T))) : parser (lnode K T) := fun s =>
    match p s with
    | POk ((c, kids), k) r => POk (LN (KCmd c) (total - length (skip s)) k kids, k) r
    | PFail => PFail
    | PErr e => PErr e
    end.
  Definition leaf (p : parser (cmd K T)) : parser (lnode K T) := block (do c <- p; ret (c, [])).
  Definition num_p : parser K := do s <- double_p; ret (r_num rd s).

  (** ** Macro expressions, [expression] 1398-1483 *)
  Definition variable_p : parser (expr K) := do v <- token re_variable; ret (EVar v).
  Definition constant_p : parser (expr K) := do k <- num_p; ret (EConst k).

  (** A unary level 1409-1427: [match_expr | last_expr], recursive on itself. *)
  Fixpoint unary (n : nat) (op : string) (mk : expr K -> expr K) (last : parser (expr K)) :
    parser (expr K) := fun s =>
    match n with
    | O => PErr EFuel
    | S m =>
        let this := unary m op mk last in
        first_of [ (followed_by (lit_p op ;; this) ;; do e <- (lit_p op ;; this); ret (mk e));
                   last ] s
    end.
  (** A binary level 1429-1479. *)
  Definition binary {O} (n : nat) (op : parser O) (mk : expr K -> list (expr K) -> expr K)
    (last : parser (expr K)) : parser (expr K) :=
    first_of [ (followed_by (last ;; op ;; last) ;;
                do h <- last; do t <- many1 n (op ;; last); ret (mk h t));
               last ].
  Fixpoint expr_p (n : nat) : parser (expr K) := fun s =>
    match n with
    | O => PErr EFuel
    | S m =>
        let factor := first_of
          [ variable_p; constant_p;
            (lit_p "(" ;; do e <- expr_p m; lit_p ")" ;; ret (EParen e)) ] in
        let neg := unary n "-" ENeg factor in
        let pos := unary n "+" EPos neg in
        let div := binary n (lit_p "/") EDiv pos in
        let mul := binary n (one_of ["x"; "X"]%string) EMul div in
        let sub := binary n (lit_p "-") ESub mul in
        let add := binary n (lit_p "+") EAdd sub in
        add s
    end.

  (** ** Macro primitives 1554-1735 *)
  Definition arg (n : nat) : parser (expr K) := comma ;; expr_p n.   (* [cs + self.expression] *)
  (** [assignment] 1501-1508 *)
  Definition assignment_p (n : nat) : parser (prim K) :=
    command (do v <- token re_variable; lit_p "=" ;; do e <- expr_p n; ret (PAssign v e)).
  (** [primitive] 1727-1735 *)
  Definition primitive (code : string) (fields : parser (prim K)) : parser (prim K) :=
    command (lit_p code ;; fields).
  Definition prim_p (n : nat) : parser (prim K) :=
    let a := arg n in
    first_of [
      assignment_p n;
      primitive "0" (do s <- string_p; ret (PCode0 s));
      primitive "1" (do x1 <- a; do x2 <- a; do x3 <- a; do x4 <- a; do r <- opt a;
                     ret (PCode1 x1 x2 x3 x4 r));
      primitive "2" (do x1 <- a; do x2 <- a; do x3 <- a; do x4 <- a; do x5 <- a; do x6 <- a;
                     do x7 <- a; ret (PCode2 x1 x2 x3 x4 x5 x6 x7));
      primitive "4" (do x1 <- a; do x2 <- a; do x3 <- a; do x4 <- a;
                     do pts <- many1 n (do x <- a; do y <- a; ret (x, y));
                     do r <- a; ret (PCode4 x1 x2 x3 x4 pts r));
      primitive "5" (do x1 <- a; do x2 <- a; do x3 <- a; do x4 <- a; do x5 <- a; do x6 <- a;
                     ret (PCode5 x1 x2 x3 x4 x5 x6));
      primitive "6" (do x1 <- a; do x2 <- a; do x3 <- a; do x4 <- a; do x5 <- a; do x6 <- a;
                     do x7 <- a; do x8 <- a; do x9 <- a; ret (PCode6 x1 x2 x3 x4 x5 x6 x7 x8 x9));
      primitive "7" (do x1 <- a; do x2 <- a; do x3 <- a; do x4 <- a; do x5 <- a; do x6 <- a;
                     ret (PCode7 0 x1 x2 x3 x4 x5 x6));
      primitive "20" (do x1 <- a; do x2 <- a; do x3 <- a; do x4 <- a; do x5 <- a; do x6 <- a;
                      do x7 <- a; ret (PCode20 x1 x2 x3 x4 x5 x6 x7));
      primitive "21" (do x1 <- a; do x2 <- a; do x3 <- a; do x4 <- a; do x5 <- a; do x6 <- a;
                      ret (PCode21 x1 x2 x3 x4 x5 x6));
      primitive "22" (do x1 <- a; do x2 <- a; do x3 <- a; do x4 <- a; do x5 <- a; do x6 <- a;
                      ret (PCode22 x1 x2 x3 x4 x5 x6)) ].
  (** [macro] 411-440 *)
  Definition macro_p (n : nat) : parser (lnode K T) :=
    block (do o <- node (percent ;; lit_p "AM" ;; do name <- name_p; asterisk ;; ret (KMacroOpen, name));
           do ps <- many n (node (do p <- prim_p n; ret (KPrim p, p)));
           do c <- node (percent ;; ret (KMacroClose, tt));
           ret (CAM (snd o) (map snd ps), fst o :: map fst ps ++ [fst c])).

  (** ** Aperture definitions 499-580 *)
  Definition x_num : parser K := lit_p "X" ;; num_p.
  Definition adc_p : parser (cmd K T) :=
    extended (lit_p "AD" ;; do id <- aperture_id_p; lit_p "C," ;; do d <- num_p;
              do h <- opt x_num; ret (CAD (MkAD id (TCircle d h)))).
  Definition adr_p (symbol : string) (mk : K -> K -> option K -> template K) : parser (cmd K T) :=
    extended (lit_p "AD" ;; do id <- aperture_id_p; lit_p symbol ;; do w <- num_p;
              do h <- x_num; do hole <- opt x_num; ret (CAD (MkAD id (mk w h hole)))).
  Definition adp_p : parser (cmd K T) :=
    do x <- extended (lit_p "AD" ;; do id <- aperture_id_p; lit_p "P," ;; do d <- num_p;
              lit_p "X" ;; do v <- double_p; do r <- opt x_num; do h <- opt x_num;
              ret (id, d, v, r, h));
    let '(id, d, v, r, h) := x in
    do v <- validate (int_of_text v); ret (CAD (MkAD id (TPolygon d v r h))).
  Definition admacro_p (n : nat) : parser (cmd K T) :=
    extended (lit_p "AD" ;; do id <- aperture_id_p; do name <- name_p;
              do ps <- opt (comma ;; do p <- num_p; do l <- many n x_num; ret (p :: l));
              ret (CAD (MkAD id (TMacro name ps)))).
  Definition add_aperture (n : nat) : parser (cmd K T) :=
    first_of [adc_p; adr_p "R," TRect; adr_p "O," TObround; adp_p; admacro_p n].

  (** ** Attributes 592-1118 *)
  Definition fields (n : nat) : parser (list str) := many n (comma ;; field_p).
  Definition one_field : parser str := comma ;; field_p.
  Definition ta_user_p (n : nat) : parser (ta K) :=
    extended (lit_p "TA" ;; do u <- user_name_p; do f <- fields n; ret (TAUser u f)).
  Definition ta_aper_function_p (n : nat) : parser (ta K) :=
    extended (lit_p "TA" ;; lit_p ".AperFunction" ;;
              do g <- opt (comma ;; one_of aper_functions); do f <- fields n;
              ret (TAAperFunction g f)).
  Definition ta_drill_tolerance_p : parser (ta K) :=
    extended (lit_p "TA" ;; lit_p ".DrillTolerance" ;;
              do x <- opt (comma ;; do p <- num_p; do m <- opt (comma ;; num_p); ret (p, m));
              ret match x with
                  | Some (p, m) => TADrillTolerance (Some p) m
                  | None => TADrillTolerance None None
                  end).
  (** [mirroring] defaults to ["R"]; [Opt(self.field)] always matches. *)
  Definition ta_flash_text_p (n : nat) : parser (ta K) :=
    extended (lit_p "TA" ;; lit_p ".FlashText" ;; do s <- one_field;
              comma ;; do mode <- one_of ["B"; "C"]%string;
              comma ;; do mir <- opt (one_of ["R"; "M"]%string);
              do font <- one_field; do size <- one_field; do comments <- fields n;
              ret (TAFlashText s mode match mir with Some m => m | None => lit "R" end
                     (Some font) (Some size) comments)).
  Definition ta_p (n : nat) : parser (cmd K T) :=
    do a <- first_of [ta_user_p n; ta_aper_function_p n; ta_drill_tolerance_p; ta_flash_text_p n];
    ret (CTA a).
  Definition td_p : parser (cmd K T) :=
    extended (lit_p "TD" ;; do s <- opt_raw string_p; ret (CTD s)).

  Definition tf_user_p (n : nat) : parser (tf T) :=
    extended (lit_p "TF" ;; do u <- user_name_p; do f <- fields n; ret (TFUser u f)).
  (** Attributes whose fields are validated after the whole command matched. *)
  Definition tf_enum_p (n : nat) (tag : string) (ms : list string)
    (mk : str -> list str -> tf T) : parser (tf T) :=
    do x <- extended (lit_p "TF" ;; caseless_p tag ;; do p <- one_field; do f <- fields n;
                      ret (p, f));
    do p <- validate (member ms (fst x)); ret (mk p (snd x)).
  Definition tf_one_p {A} (tag : string) (v : str -> option A) (mk : A -> tf T) : parser (tf T) :=
    do x <- extended (lit_p "TF" ;; caseless_p tag ;; one_field);
    do p <- validate (v x); ret (mk p).
  Definition tf_same_p : parser (tf T) :=
    extended (lit_p "TF" ;; caseless_p ".SameCoordinates" ;; do i <- opt one_field;
              ret (TFSameCoordinates i)).
  Definition tf_three_p (tag : string) (mk : option str -> option str -> option str -> tf T) :
    parser (tf T) :=
    extended (lit_p "TF" ;; caseless_p tag ;;
              do x <- opt (do a <- one_field;
                           do y <- opt (do b <- one_field; do c <- opt one_field; ret (b, c));
                           ret (a, y));
              ret match x with
                  | None => mk None None None
                  | Some (a, None) => mk (Some a) None None
                  | Some (a, Some (b, c)) => mk (Some a) (Some b) c
                  end).
  Definition tf_p (n : nat) : parser (cmd K T) :=
    do a <- first_of [
      tf_user_p n;
      tf_enum_p n ".Part" parts TFPart;
      tf_enum_p n ".FileFunction" file_functions TFFileFunction;
      tf_one_p ".FilePolarity" (member polarities) TFFilePolarity;
      tf_same_p;
      tf_one_p ".CreationDate" (r_date rd) TFCreationDate;
      tf_three_p ".GenerationSoftware" TFGenerationSoftware;
      tf_three_p ".ProjectId" TFProjectId;
      tf_one_p ".MD5" md5_text TFMD5 ];
    ret (CTF a).

  Definition to_user_p (n : nat) : parser (to K) :=
    extended (lit_p "TO" ;; do u <- user_name_p; do f <- fields n; ret (TOUser u f)).
  Definition to_n_p (n : nat) : parser (to K) :=
    extended (lit_p "TO" ;; caseless_p ".N" ;; do f <- fields n; ret (TON f)).
  Definition to_p_p : parser (to K) :=
    extended (lit_p "TO" ;; caseless_p ".P" ;; do r <- one_field; do m <- one_field;
              do f <- opt one_field; ret (TOP r m f)).
  Definition to_one_p {A} (tag : string) (v : str -> option A) (mk : A -> to K) : parser (to K) :=
    do x <- extended (lit_p "TO" ;; caseless_p tag ;; one_field);
    do p <- validate (v x); ret (mk p).
  Definition to_csup_p (n : nat) : parser (to K) :=
    extended (lit_p "TO" ;; caseless_p ".CSup" ;; do s <- one_field; do p <- one_field;
              do f <- fields n; ret (TOCSup s p f)).
  Definition to_p (n : nat) : parser (cmd K T) :=
    do a <- first_of [
      to_user_p n; to_n_p n; to_p_p;
      to_one_p ".C" Some TOC;
      to_one_p ".CRot" (r_float rd) TOCRot;
      to_one_p ".CMfr" Some (TOText CMfr);
      to_one_p ".CMPN" Some (TOText CMPN);
      to_one_p ".CVal" Some (TOText CVal);
      to_one_p ".CMnt" (member mounts) TOCMnt;
      to_one_p ".CFtp" Some (TOText CFtp);
      to_one_p ".CPgN" Some (TOText CPgN);
      to_one_p ".CPgD" Some (TOText CPgD);
      to_one_p ".CHgt" (r_float rd) TOCHgt;
      to_one_p ".CLbn" Some (TOText CLbN);
      to_one_p ".CLbD" Some (TOText CLbD);
      to_csup_p n ];
    ret (CTO a).
  Definition attribute (n : nat) : parser (cmd K T) := first_of [ta_p n; td_p; tf_p n; to_p n].

  (** ** D codes 1126-1204, coordinates 1516-1546 *)
  Definition coord (l : string) : parser str := caseless_p l ;; integer_p.
  Definition dnn_p (sa : bool) : parser (cmd K T) :=
    command (do id <- aperture_id_p; ret (CDnn sa id)).
  Definition d01_p (sa : bool) : parser (cmd K T) :=
    command (do x <- opt (coord "X"); do y <- opt (coord "Y"); do i <- opt (coord "I");
             do j <- opt (coord "J"); do _ <- opt (token (re_code "D" "1")); ret (CD01 sa x y i j)).
  Definition d02_p (sa : bool) : parser (cmd K T) :=
    command (do x <- opt (coord "X"); do y <- opt (coord "Y"); token (re_code "D" "2") ;;
             ret (CD02 sa x y)).
  Definition d03_p (sa : bool) : parser (cmd K T) :=
    command (do x <- opt (coord "X"); do y <- opt (coord "Y"); token (re_code "D" "3") ;;
             ret (CD03 sa x y)).
  Definition d_codes (sa : bool) : parser (cmd K T) :=
    first_of [dnn_p sa; d01_p sa; d02_p sa; d03_p sa].

  (** ** G codes 1212-1294 *)
  Definition g04_p : parser (list (lnode K T)) :=
    do x <- leaf (command (token (re_code "G" "4") ;; do s <- opt_raw string_p; ret (CG04 s))); ret [x].
  Definition g_standalone (g : gcode) : parser (list (lnode K T)) :=
    do x <- leaf (command (token (re_code "G" (g_text g)) ;; ret (CG true g))); ret [x].
  Definition g_non_standalone (g : gcode) : parser (list (lnode K T)) :=
    do x <- leaf (token (re_code "G" (g_text g)) ;;
                  followed_by (one_of ["D"; "X"; "Y"; "I"; "J"]%string) ;; ret (CG false g));
    do d <- leaf (d_codes false); ret [x; d].
  Definition g_codes : parser (list (lnode K T)) :=
    first_of (g04_p :: map g_standalone g_order ++ map g_non_standalone g_order).

  (** ** Load commands 1302-1356 *)
  Definition load : parser (cmd K T) :=
    first_of [
      extended (lit_p "LN" ;; do s <- string_p; ret (CLN s));
      extended (lit_p "LP" ;; do s <- one_of ["C"; "D"]%string;
                ret (CLP (if str_eqb s (lit "C") then Clear else Dark)));
      extended (lit_p "LR" ;; do k <- num_p; ret (CLR k));
      extended (lit_p "LS" ;; do k <- num_p; ret (CLS k));
      extended (lit_p "LM" ;; do s <- one_of ["N"; "XY"; "X"; "Y"]%string; ret (CLM (as_lm s))) ].

  (** ** M codes 1364-1387 *)
  Definition m_codes : parser (cmd K T) :=
    first_of [ command (token (re_code "M" "2") ;; ret CM02);
               command (token (re_code "M" "1") ;; ret CM01);
               command (token (re_code_zero "M") ;; ret CM00) ].

  (** ** Properties 1743-1864 *)
  Definition fs_p : parser (cmd K T) :=
    extended (lit_p "FS" ;; do z <- one_of ["L"; "T"; ""]%string; do m <- one_of ["I"; "A"]%string;
      caseless_p "X" ;; do xi <- token re_digit; do xd <- token re_digit;
      caseless_p "Y" ;; do yi <- token re_digit; do yd <- token re_digit;
      ret (CFS (MkFS
        (if str_eqb z (lit "L") then SkipLeading
         else if str_eqb z (lit "T") then SkipTrailing else SkipLeadingImplied)
        (if str_eqb m (lit "I") then Incremental else Absolute)
        (digit_nat xi) (digit_nat xd) (digit_nat yi) (digit_nat yd)))).
  Definition mo_p : parser (cmd K T) :=
    extended (lit_p "MO" ;; do s <- one_of ["IN"; "MM"]%string;
              ret (CMO (if str_eqb s (lit "IN") then Imperial else Metric))).
  Definition ip_p : parser (cmd K T) :=
    extended (lit_p "IP" ;; do s <- one_of ["POS"; "NEG"]%string;
              ret (CIP (if str_eqb s (lit "POS") then ImgPositive else ImgNegative))).
  Definition ir_p : parser (cmd K T) :=
    do s <- extended (lit_p "IR" ;; double_p); do z <- validate (int_of_text s); ret (CIR z).
  Definition of_p : parser (cmd K T) :=
    extended (lit_p "OF" ;; do a <- opt (lit_p "A" ;; num_p); do b <- opt (lit_p "B" ;; num_p);
              ret (COF a b)).
  Definition as_p : parser (cmd K T) :=
    extended (lit_p "AS" ;; do s <- one_of ["AXBY"; "AYBX"]%string;
              ret (CAS (if str_eqb s (lit "AXBY") then AXBY else AYBX))).
  Definition mi_p : parser (cmd K T) :=
    extended (lit_p "MI" ;; do a <- opt (lit_p "A" ;; one_of ["0"; "1"]%string);
              do b <- opt (lit_p "B" ;; one_of ["0"; "1"]%string); ret (CMI (flag a) (flag b))).
  Definition in_p : parser (cmd K T) :=
    extended (lit_p "IN" ;; do s <- string_p; ret (CIN s)).
  (** Defaults of [nodes/properties/SF.py] 21-22. *)
  Definition sf_p : parser (cmd K T) :=
    extended (lit_p "SF" ;; do a <- opt (lit_p "A" ;; num_p); do b <- opt (lit_p "B" ;; num_p);
              let d o := match o with Some k => k | None => r_num rd (lit "1.0") end in
              ret (CSF (d a) (d b))).
  Definition properties : parser (cmd K T) :=
    first_of [fs_p; mo_p; ip_p; ir_p; of_p; as_p; mi_p; in_p; sf_p].

  (** ** Blocks 360-497 *)
  Definition single (p : parser (cmd K T)) : parser (list (lnode K T)) := do c <- leaf p; ret [c].
  Definition alone (p : parser (lnode K T)) : parser (list (lnode K T)) := do c <- p; ret [c].
  Definition command_of (x : lnode K T) : list (cmd K T) :=
    let 'LN k _ _ _ := x in match k with KCmd c => [c] | _ => [] end.
  Definition body_item (n : nat) (block : parser (lnode K T)) : parser (list (lnode K T)) :=
    first_of [ single (d_codes true); g_codes; single load; single properties;
               single (attribute n); single (add_aperture n); alone block;
               alone (macro_p n); single m_codes ].
  Fixpoint block_p (n m : nat) : parser (lnode K T) := fun s =>
    match m with
    | O => PErr EFuel
    | S m' =>
        block (do o <- node (extended (lit_p "AB" ;; do id <- aperture_id_p; ret (KOpen, id)));
               do b <- many n (body_item n (block_p n m'));
               do c <- node (extended (lit_p "AB" ;; ret (KClose, tt)));
               ret (CAB (snd o) (flat_map command_of (concat b)), fst o :: concat b ++ [fst c])) s
    end.
  Definition sr_open_p : parser sropen :=
    extended (lit_p "SR" ;; do x <- opt (lit_p "X" ;; double_p); do y <- opt (lit_p "Y" ;; double_p);
              do i <- opt (lit_p "I" ;; double_p); do j <- opt (lit_p "J" ;; double_p);
              ret (MkSR x y i j)).
  Definition sr_p (n m : nat) : parser (lnode K T) :=
    block (do o <- node (do h <- sr_open_p; ret (KOpen, h));
           do b <- many n (body_item n (block_p n m));
           do c <- node (extended (lit_p "SR" ;; ret (KClose, tt)));
           ret (CSR (snd o) (flat_map command_of (concat b)), fst o :: concat b ++ [fst c])).

  (** ** [build] 189-222 and [build_resilient] 224-258 *)
  Definition root_item (n : nat) : parser (list (lnode K T)) :=
    first_of [ single (d_codes true); g_codes; single load;
               first_of [alone (block_p n n); alone (macro_p n); alone (sr_p n n); single (add_aperture n)];
               single (attribute n); single properties; single m_codes ].
  Definition invalid_p : parser (list (lnode K T)) :=
    do x <- node (do t <- token (fun s => nonempty (span in_line s)); ret (KInvalid t, tt)); ret [fst x].
  Definition resilient_item (n : nat) : parser (list (lnode K T)) := first_of [root_item n; invalid_p].
End Gram.

Section Parse.
  Context {K T : Type} (rd : reader K T).
  (** The nodes of a text, and [location] and [length] of the file node.  [parse_string] expands
      tabs first, so [SourceInfo.source] is the expanded text. *)
  Definition read_nodes (item : nat -> nat -> parser (list (lnode K T))) (text : str)
    : result parse_error (list (lnode K T) * (nat * nat)) :=
    let s := expandtabs text in
    let n := S (length s) in
    match many1 n (item (length s) n) s with
    | POk (l, _) r =>
        match skip r with
        | [] => let loc := length s - length (skip s) in Ok (concat l, (loc, length s - loc))
        | _ => Err ESyntax
        end
    | PFail => Err ESyntax
    | PErr e => Err (EOther e)
    end.
  Definition parse_located := read_nodes (root_item rd).
  Definition parse_located_resilient := read_nodes (resilient_item rd).
End Parse.

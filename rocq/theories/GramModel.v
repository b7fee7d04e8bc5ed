(** Model of [Grammar], [gerber/parser/pyparsing/grammar.py], and of [Parser.parse],
    [gerber/parser/pyparsing/parser.py] 31-35.  Default syntax switches (136-162: both on), no
    optimisation flags, no resilient mode.  Named results become arguments of the node built by
    [make_unpack_callback] 325-341; [source_info] is left out. *)
From Verif Require Import Base Num CoordModel Ast GramAst PegModel.

(** How pydantic turns the matched texts into numbers and dates: [r_num] reads what the [double]
    regular expression matched, [r_float] and [r_date] read a free text field and may reject it. *)
Record reader (K T : Type) := MkReader {
  r_num : str -> K; r_float : str -> option K; r_date : str -> option T }.
Arguments r_num {K T}. Arguments r_float {K T}. Arguments r_date {K T}.

(** pydantic [int] from a text matched by [double]: digits with an optional zero fraction. *)
Definition int_of_text (s : str) : option Z :=
  let '(sg, s1) := opt_sign s in
  let '(d, s2) := span is_digit s1 in
  match d with
  | [] => None
  | _ => let v := digits_value d in
         let v := match sg with [c] => if Ascii.eqb c "-" then (- v)%Z else v | _ => v end in
         match s2 with
         | [] => Some v
         | _ :: f => if forallb (Ascii.eqb "0") f then Some v else None
         end
  end.

(** Tokens. *)
Definition string_p : parser str := chars_not_in ["%"%char; "*"%char].          (* 278-281 *)
Definition asterisk : parser unit := lit_p "*".                                 (* 260-262 *)
Definition percent : parser unit := lit_p "%".                                  (* 264-266 *)
Definition comma : parser unit := lit_p ",".                                    (* 283-286 *)
Definition name_p : parser str := token re_name.
Definition user_name_p : parser str := token re_user_name.
Definition field_p : parser str := token re_field.
Definition double_p : parser str := token re_double.
Definition integer_p : parser str := token re_integer.
Definition aperture_id_p : parser str := token re_aperture_id.

(** [_command] 268-269 and [_extended_command] 271-272. *)
Definition command {A} (p : parser A) : parser A := do a <- p; asterisk ;; ret a.
Definition extended {A} (p : parser A) : parser A :=
  percent ;; do a <- p; asterisk ;; percent ;; ret a.

Section Gram.
  Context {K T : Type} (rd : reader K T).
  Definition num_p : parser K := do s <- double_p; ret (r_num rd s).

  (** ** Macro expressions, [expression] 1398-1483 *)
  Definition variable_p : parser (expr K) := do v <- token re_variable; ret (EVar v).
  Definition constant_p : parser (expr K) := do k <- num_p; ret (EConst k).

  (** A unary level 1409-1427: [match_expr | last_expr], recursive on itself. *)
  Fixpoint unary (n : nat) (op : string) (mk : expr K -> expr K) (last : parser (expr K)) :
    parser (expr K) := fun s =>
    match n with
    | O => PErr EFuel
    | S m =>
        let this := unary m op mk last in
        first_of [ (followed_by (lit_p op ;; this) ;; do e <- (lit_p op ;; this); ret (mk e));
                   last ] s
    end.
  (** A binary level 1429-1479. *)
  Definition binary {O} (n : nat) (op : parser O) (mk : expr K -> list (expr K) -> expr K)
    (last : parser (expr K)) : parser (expr K) :=
    first_of [ (followed_by (last ;; op ;; last) ;;
                do h <- last; do t <- many1 n (op ;; last); ret (mk h t));
               last ].
  Fixpoint expr_p (n : nat) : parser (expr K) := fun s =>
    match n with
    | O => PErr EFuel
    | S m =>
        let factor := first_of
          [ variable_p; constant_p;
            (lit_p "(" ;; do e <- expr_p m; lit_p ")" ;; ret (EParen e)) ] in
        let neg := unary n "-" ENeg factor in
        let pos := unary n "+" EPos neg in
        let div := binary n (lit_p "/") EDiv pos in
        let mul := binary n (one_of ["x"; "X"]%string) EMul div in
        let sub := binary n (lit_p "-") ESub mul in
        let add := binary n (lit_p "+") EAdd sub in
        add s
    end.

  (** ** Macro primitives 1554-1735 *)
  Definition arg (n : nat) : parser (expr K) := comma ;; expr_p n.   (* [cs + self.expression] *)
  (** [assignment] 1501-1508 *)
  Definition assignment_p (n : nat) : parser (prim K) :=
    command (do v <- token re_variable; lit_p "=" ;; do e <- expr_p n; ret (PAssign v e)).
  (** [primitive] 1727-1735 *)
  Definition primitive (code : string) (fields : parser (prim K)) : parser (prim K) :=
    command (lit_p code ;; fields).
  Definition prim_p (n : nat) : parser (prim K) :=
    let a := arg n in
    first_of [
      assignment_p n;
      primitive "0" (do s <- string_p; ret (PCode0 s));
      primitive "1" (do x1 <- a; do x2 <- a; do x3 <- a; do x4 <- a; do r <- opt a;
                     ret (PCode1 x1 x2 x3 x4 r));
      primitive "2" (do x1 <- a; do x2 <- a; do x3 <- a; do x4 <- a; do x5 <- a; do x6 <- a;
                     do x7 <- a; ret (PCode2 x1 x2 x3 x4 x5 x6 x7));
      primitive "4" (do x1 <- a; do x2 <- a; do x3 <- a; do x4 <- a;
                     do pts <- many1 n (do x <- a; do y <- a; ret (x, y));
                     do r <- a; ret (PCode4 x1 x2 x3 x4 pts r));
      primitive "5" (do x1 <- a; do x2 <- a; do x3 <- a; do x4 <- a; do x5 <- a; do x6 <- a;
                     ret (PCode5 x1 x2 x3 x4 x5 x6));
      primitive "6" (do x1 <- a; do x2 <- a; do x3 <- a; do x4 <- a; do x5 <- a; do x6 <- a;
                     do x7 <- a; do x8 <- a; do x9 <- a; ret (PCode6 x1 x2 x3 x4 x5 x6 x7 x8 x9));
      primitive "7" (do x1 <- a; do x2 <- a; do x3 <- a; do x4 <- a; do x5 <- a; do x6 <- a;
                     ret (PCode7 0 x1 x2 x3 x4 x5 x6));
      primitive "20" (do x1 <- a; do x2 <- a; do x3 <- a; do x4 <- a; do x5 <- a; do x6 <- a;
                      do x7 <- a; ret (PCode20 x1 x2 x3 x4 x5 x6 x7));
      primitive "21" (do x1 <- a; do x2 <- a; do x3 <- a; do x4 <- a; do x5 <- a; do x6 <- a;
                      ret (PCode21 x1 x2 x3 x4 x5 x6));
      primitive "22" (do x1 <- a; do x2 <- a; do x3 <- a; do x4 <- a; do x5 <- a; do x6 <- a;
                      ret (PCode22 x1 x2 x3 x4 x5 x6)) ].
  (** [macro] 411-440 *)
  Definition macro_p (n : nat) : parser (cmd K T) :=
    percent ;; lit_p "AM" ;; do name <- name_p; asterisk ;;
    do ps <- many n (prim_p n); percent ;; ret (CAM name ps).

  (** ** Aperture definitions 499-580 *)
  Definition x_num : parser K := lit_p "X" ;; num_p.
  Definition adc_p : parser (cmd K T) :=
    extended (lit_p "AD" ;; do id <- aperture_id_p; lit_p "C," ;; do d <- num_p;
              do h <- opt x_num; ret (CAD (MkAD id (TCircle d h)))).
  Definition adr_p (symbol : string) (mk : K -> K -> option K -> template K) : parser (cmd K T) :=
    extended (lit_p "AD" ;; do id <- aperture_id_p; lit_p symbol ;; do w <- num_p;
              do h <- x_num; do hole <- opt x_num; ret (CAD (MkAD id (mk w h hole)))).
  Definition adp_p : parser (cmd K T) :=
    do x <- extended (lit_p "AD" ;; do id <- aperture_id_p; lit_p "P," ;; do d <- num_p;
              lit_p "X" ;; do v <- double_p; do r <- opt x_num; do h <- opt x_num;
              ret (id, d, v, r, h));
    let '(id, d, v, r, h) := x in
    do v <- validate (int_of_text v); ret (CAD (MkAD id (TPolygon d v r h))).
  Definition admacro_p (n : nat) : parser (cmd K T) :=
    extended (lit_p "AD" ;; do id <- aperture_id_p; do name <- name_p;
              do ps <- opt (comma ;; do p <- num_p; do l <- many n x_num; ret (p :: l));
              ret (CAD (MkAD id (TMacro name ps)))).
  Definition add_aperture (n : nat) : parser (cmd K T) :=
    first_of [adc_p; adr_p "R," TRect; adr_p "O," TObround; adp_p; admacro_p n].

  (** ** Attributes 592-1118 *)
  Definition fields (n : nat) : parser (list str) := many n (comma ;; field_p).
  Definition one_field : parser str := comma ;; field_p.
  (** [AperFunction], [nodes/enums.py] 40-76, in the order left by [one_of]. *)
  Definition aper_functions : list string :=
    ["ViaDrill"; "BackDrill"; "ComponentDrill"; "MechanicalDrill"; "CastellatedDrill";
     "OtherDrill"; "ComponentPad"; "SMDPad"; "BGAPad"; "ConnectorPad"; "HeatsinkPad"; "ViaPad";
     "TestPad"; "CastellatedPad"; "FiducialPad"; "ThermalReliefPad"; "WasherPad"; "AntiPad";
     "OtherPad"; "Conductor"; "EtchedComponent"; "NonConductor"; "CopperBalancing"; "Border";
     "OtherCopper"; "ComponentMain"; "ComponentOutline"; "ComponentPin"; "Profile"; "Material";
     "NonMaterial"; "Other"]%string.
  (** [Part], [FileFunction], [Mount], [nodes/enums.py] 79-136; literals of [TF_FilePolarity]. *)
  Definition parts : list string :=
    ["Single"; "Array"; "FabricationPanel"; "Coupon"; "Other"]%string.
  Definition file_functions : list string :=
    ["Copper"; "Plated"; "NonPlated"; "Profile"; "Soldermask"; "Legend"; "Component"; "Paste";
     "Glue"; "Carbonmask"; "Goldmask"; "Heatsinkmask"; "Peelablemask"; "Silvermask"; "Tinmask";
     "Depthrout"; "Vcut"; "Viafill"; "Pads"; "Other"; "Drillmap"; "FabricationDrawing";
     "Vcutmap"; "AssemblyDrawing"; "ArrayDrawing"; "OtherDrawing"]%string.
  Definition mounts : list string := ["SMD"; "TH"; "Pressfit"; "Fiducial"; "Other"]%string.
  Definition polarities : list string := ["Positive"; "Negative"]%string.
  Definition member (ls : list string) (s : str) : option str :=
    if existsb (fun l => str_eqb (lit l) s) ls then Some s else None.
  (** [TF_MD5.md5], [nodes/attribute/TF.py]: [min_length = max_length = 32]. *)
  Definition md5_text (s : str) : option str :=
    if Nat.eqb (length s) 32 then Some s else None.

  Definition ta_user_p (n : nat) : parser (ta K) :=
    extended (lit_p "TA" ;; do u <- user_name_p; do f <- fields n; ret (TAUser u f)).
  Definition ta_aper_function_p (n : nat) : parser (ta K) :=
    extended (lit_p "TA" ;; lit_p ".AperFunction" ;;
              do g <- opt (comma ;; one_of aper_functions); do f <- fields n;
              ret (TAAperFunction g f)).
  Definition ta_drill_tolerance_p : parser (ta K) :=
    extended (lit_p "TA" ;; lit_p ".DrillTolerance" ;;
              do x <- opt (comma ;; do p <- num_p; do m <- opt (comma ;; num_p); ret (p, m));
              ret match x with
                  | Some (p, m) => TADrillTolerance (Some p) m
                  | None => TADrillTolerance None None
                  end).
  (** [mirroring] defaults to ["R"]; [Opt(self.field)] always matches. *)
  Definition ta_flash_text_p (n : nat) : parser (ta K) :=
    extended (lit_p "TA" ;; lit_p ".FlashText" ;; do s <- one_field;
              comma ;; do mode <- one_of ["B"; "C"]%string;
              comma ;; do mir <- opt (one_of ["R"; "M"]%string);
              do font <- one_field; do size <- one_field; do comments <- fields n;
              ret (TAFlashText s mode match mir with Some m => m | None => lit "R" end
                     (Some font) (Some size) comments)).
  Definition ta_p (n : nat) : parser (cmd K T) :=
    do a <- first_of [ta_user_p n; ta_aper_function_p n; ta_drill_tolerance_p; ta_flash_text_p n];
    ret (CTA a).
  Definition td_p : parser (cmd K T) :=
    extended (lit_p "TD" ;; do s <- opt_raw string_p; ret (CTD s)).

  Definition tf_user_p (n : nat) : parser (tf T) :=
    extended (lit_p "TF" ;; do u <- user_name_p; do f <- fields n; ret (TFUser u f)).
  (** Attributes whose fields are validated after the whole command matched. *)
  Definition tf_enum_p (n : nat) (tag : string) (ms : list string)
    (mk : str -> list str -> tf T) : parser (tf T) :=
    do x <- extended (lit_p "TF" ;; caseless_p tag ;; do p <- one_field; do f <- fields n;
                      ret (p, f));
    do p <- validate (member ms (fst x)); ret (mk p (snd x)).
  Definition tf_one_p {A} (tag : string) (v : str -> option A) (mk : A -> tf T) : parser (tf T) :=
    do x <- extended (lit_p "TF" ;; caseless_p tag ;; one_field);
    do p <- validate (v x); ret (mk p).
  Definition tf_same_p : parser (tf T) :=
    extended (lit_p "TF" ;; caseless_p ".SameCoordinates" ;; do i <- opt one_field;
              ret (TFSameCoordinates i)).
  Definition tf_three_p (tag : string) (mk : option str -> option str -> option str -> tf T) :
    parser (tf T) :=
    extended (lit_p "TF" ;; caseless_p tag ;;
              do x <- opt (do a <- one_field;
                           do y <- opt (do b <- one_field; do c <- opt one_field; ret (b, c));
                           ret (a, y));
              ret match x with
                  | None => mk None None None
                  | Some (a, None) => mk (Some a) None None
                  | Some (a, Some (b, c)) => mk (Some a) (Some b) c
                  end).
  Definition tf_p (n : nat) : parser (cmd K T) :=
    do a <- first_of [
      tf_user_p n;
      tf_enum_p n ".Part" parts TFPart;
      tf_enum_p n ".FileFunction" file_functions TFFileFunction;
      tf_one_p ".FilePolarity" (member polarities) TFFilePolarity;
      tf_same_p;
      tf_one_p ".CreationDate" (r_date rd) TFCreationDate;
      tf_three_p ".GenerationSoftware" TFGenerationSoftware;
      tf_three_p ".ProjectId" TFProjectId;
      tf_one_p ".MD5" md5_text TFMD5 ];
    ret (CTF a).

  Definition to_user_p (n : nat) : parser (to K) :=
    extended (lit_p "TO" ;; do u <- user_name_p; do f <- fields n; ret (TOUser u f)).
  Definition to_n_p (n : nat) : parser (to K) :=
    extended (lit_p "TO" ;; caseless_p ".N" ;; do f <- fields n; ret (TON f)).
  Definition to_p_p : parser (to K) :=
    extended (lit_p "TO" ;; caseless_p ".P" ;; do r <- one_field; do m <- one_field;
              do f <- opt one_field; ret (TOP r m f)).
  Definition to_one_p {A} (tag : string) (v : str -> option A) (mk : A -> to K) : parser (to K) :=
    do x <- extended (lit_p "TO" ;; caseless_p tag ;; one_field);
    do p <- validate (v x); ret (mk p).
  Definition to_csup_p (n : nat) : parser (to K) :=
    extended (lit_p "TO" ;; caseless_p ".CSup" ;; do s <- one_field; do p <- one_field;
              do f <- fields n; ret (TOCSup s p f)).
  Definition to_p (n : nat) : parser (cmd K T) :=
    do a <- first_of [
      to_user_p n; to_n_p n; to_p_p;
      to_one_p ".C" Some TOC;
      to_one_p ".CRot" (r_float rd) TOCRot;
      to_one_p ".CMfr" Some (TOText CMfr);
      to_one_p ".CMPN" Some (TOText CMPN);
      to_one_p ".CVal" Some (TOText CVal);
      to_one_p ".CMnt" (member mounts) TOCMnt;
      to_one_p ".CFtp" Some (TOText CFtp);
      to_one_p ".CPgN" Some (TOText CPgN);
      to_one_p ".CPgD" Some (TOText CPgD);
      to_one_p ".CHgt" (r_float rd) TOCHgt;
      to_one_p ".CLbn" Some (TOText CLbN);
      to_one_p ".CLbD" Some (TOText CLbD);
      to_csup_p n ];
    ret (CTO a).
  Definition attribute (n : nat) : parser (cmd K T) := first_of [ta_p n; td_p; tf_p n; to_p n].

  (** ** D codes 1126-1204, coordinates 1516-1546 *)
  Definition coord (l : string) : parser str := caseless_p l ;; integer_p.
  Definition dnn_p (sa : bool) : parser (cmd K T) :=
    command (do id <- aperture_id_p; ret (CDnn sa id)).
  Definition d01_p (sa : bool) : parser (cmd K T) :=
    command (do x <- opt (coord "X"); do y <- opt (coord "Y"); do i <- opt (coord "I");
             do j <- opt (coord "J"); do _ <- opt (token (re_code "D" "1")); ret (CD01 sa x y i j)).
  Definition d02_p (sa : bool) : parser (cmd K T) :=
    command (do x <- opt (coord "X"); do y <- opt (coord "Y"); token (re_code "D" "2") ;;
             ret (CD02 sa x y)).
  Definition d03_p (sa : bool) : parser (cmd K T) :=
    command (do x <- opt (coord "X"); do y <- opt (coord "Y"); token (re_code "D" "3") ;;
             ret (CD03 sa x y)).
  Definition d_codes (sa : bool) : parser (cmd K T) :=
    first_of [dnn_p sa; d01_p sa; d02_p sa; d03_p sa].

  (** ** G codes 1212-1294 *)
  Definition g_text (g : gcode) : string :=
    match g with
    | G01 => "1" | G02 => "2" | G03 => "3" | G36 => "36" | G37 => "37" | G54 => "54"
    | G55 => "55" | G70 => "70" | G71 => "71" | G74 => "74" | G75 => "75" | G90 => "90"
    | G91 => "91"
    end%string.
  Definition g_order : list gcode :=
    [G91; G90; G75; G74; G71; G70; G55; G54; G37; G36; G03; G02; G01].
  Definition g04_p : parser (list (cmd K T)) :=
    command (token (re_code "G" "4") ;; do s <- opt_raw string_p; ret [CG04 s]).
  Definition g_standalone (g : gcode) : parser (list (cmd K T)) :=
    command (token (re_code "G" (g_text g)) ;; ret [CG true g]).
  Definition g_non_standalone (g : gcode) : parser (list (cmd K T)) :=
    token (re_code "G" (g_text g)) ;;
    followed_by (one_of ["D"; "X"; "Y"; "I"; "J"]%string) ;;
    do d <- d_codes false; ret [CG false g; d].
  Definition g_codes : parser (list (cmd K T)) :=
    first_of (g04_p :: map g_standalone g_order ++ map g_non_standalone g_order).

  (** ** Load commands 1302-1356 *)
  Definition as_lm (s : str) : mirroring :=
    if str_eqb s (lit "XY") then MirXY else if str_eqb s (lit "X") then MirX
    else if str_eqb s (lit "Y") then MirY else MirNone.
  Definition load : parser (cmd K T) :=
    first_of [
      extended (lit_p "LN" ;; do s <- string_p; ret (CLN s));
      extended (lit_p "LP" ;; do s <- one_of ["C"; "D"]%string;
                ret (CLP (if str_eqb s (lit "C") then Clear else Dark)));
      extended (lit_p "LR" ;; do k <- num_p; ret (CLR k));
      extended (lit_p "LS" ;; do k <- num_p; ret (CLS k));
      extended (lit_p "LM" ;; do s <- one_of ["N"; "XY"; "X"; "Y"]%string; ret (CLM (as_lm s))) ].

  (** ** M codes 1364-1387 *)
  Definition m_codes : parser (cmd K T) :=
    first_of [ command (token (re_code "M" "2") ;; ret CM02);
               command (token (re_code "M" "1") ;; ret CM01);
               command (token (re_code_zero "M") ;; ret CM00) ].

  (** ** Properties 1743-1864 *)
  Definition digit_nat (c : ascii) : nat := Z.to_nat (digit_val c).
  Definition fs_p : parser (cmd K T) :=
    extended (lit_p "FS" ;; do z <- one_of ["L"; "T"; ""]%string; do m <- one_of ["I"; "A"]%string;
      caseless_p "X" ;; do xi <- token re_digit; do xd <- token re_digit;
      caseless_p "Y" ;; do yi <- token re_digit; do yd <- token re_digit;
      ret (CFS (MkFS
        (if str_eqb z (lit "L") then SkipLeading
         else if str_eqb z (lit "T") then SkipTrailing else SkipLeadingImplied)
        (if str_eqb m (lit "I") then Incremental else Absolute)
        (digit_nat xi) (digit_nat xd) (digit_nat yi) (digit_nat yd)))).
  Definition mo_p : parser (cmd K T) :=
    extended (lit_p "MO" ;; do s <- one_of ["IN"; "MM"]%string;
              ret (CMO (if str_eqb s (lit "IN") then Imperial else Metric))).
  Definition ip_p : parser (cmd K T) :=
    extended (lit_p "IP" ;; do s <- one_of ["POS"; "NEG"]%string;
              ret (CIP (if str_eqb s (lit "POS") then ImgPositive else ImgNegative))).
  Definition ir_p : parser (cmd K T) :=
    do s <- extended (lit_p "IR" ;; double_p); do z <- validate (int_of_text s); ret (CIR z).
  Definition of_p : parser (cmd K T) :=
    extended (lit_p "OF" ;; do a <- opt (lit_p "A" ;; num_p); do b <- opt (lit_p "B" ;; num_p);
              ret (COF a b)).
  Definition as_p : parser (cmd K T) :=
    extended (lit_p "AS" ;; do s <- one_of ["AXBY"; "AYBX"]%string;
              ret (CAS (if str_eqb s (lit "AXBY") then AXBY else AYBX))).
  Definition flag (s : option str) : Z :=
    match s with Some s => if str_eqb s (lit "1") then 1 else 0 | None => 0 end%Z.
  Definition mi_p : parser (cmd K T) :=
    extended (lit_p "MI" ;; do a <- opt (lit_p "A" ;; one_of ["0"; "1"]%string);
              do b <- opt (lit_p "B" ;; one_of ["0"; "1"]%string); ret (CMI (flag a) (flag b))).
  Definition in_p : parser (cmd K T) :=
    extended (lit_p "IN" ;; do s <- string_p; ret (CIN s)).
  (** Defaults of [nodes/properties/SF.py] 21-22. *)
  Definition sf_p : parser (cmd K T) :=
    extended (lit_p "SF" ;; do a <- opt (lit_p "A" ;; num_p); do b <- opt (lit_p "B" ;; num_p);
              let d o := match o with Some k => k | None => r_num rd (lit "1.0") end in
              ret (CSF (d a) (d b))).
  Definition properties : parser (cmd K T) :=
    first_of [fs_p; mo_p; ip_p; ir_p; of_p; as_p; mi_p; in_p; sf_p].

  (** ** Blocks 360-497.  [step_repeat_forward] 186 is never given an expression ([step_repeat]
      defines [step_and_repeat_block_forward] instead), so it never matches; the block forward is
      the recursive element itself, in [step_repeat] too because [aperture] 349-358 builds the
      block first. *)
  Definition single (p : parser (cmd K T)) : parser (list (cmd K T)) := do c <- p; ret [c].
  Definition body_item (n : nat) (block : parser (cmd K T)) : parser (list (cmd K T)) :=
    first_of [ single (d_codes true); g_codes; single load; single properties;
               single (attribute n); single (add_aperture n); single block;
               single (macro_p n); single m_codes ].
  Fixpoint block_p (n m : nat) : parser (cmd K T) := fun s =>
    match m with
    | O => PErr EFuel
    | S m' =>
        (do id <- extended (lit_p "AB" ;; aperture_id_p);
         do b <- many n (body_item n (block_p n m'));
         extended (lit_p "AB") ;; ret (CAB id (concat b))) s
    end.
  Definition sr_open_p : parser sropen :=
    extended (lit_p "SR" ;; do x <- opt (lit_p "X" ;; double_p); do y <- opt (lit_p "Y" ;; double_p);
              do i <- opt (lit_p "I" ;; double_p); do j <- opt (lit_p "J" ;; double_p);
              ret (MkSR x y i j)).
  Definition sr_p (n m : nat) : parser (cmd K T) :=
    do h <- sr_open_p; do b <- many n (body_item n (block_p n m));
    extended (lit_p "SR") ;; ret (CSR h (concat b)).

  (** ** [build] 189-222 *)
  Definition root_item (n : nat) : parser (list (cmd K T)) :=
    first_of [ single (d_codes true); g_codes; single load;
               single (first_of [block_p n n; macro_p n; sr_p n n; add_aperture n]);
               single (attribute n); single properties; single m_codes ].

  (** [Parser.parse]: [parse_string] with [parse_all].  The fuel is the length of the text. *)
  Inductive parse_error := ESyntax | EOther (e : perr).
  Definition parse (text : str) : result parse_error (list (cmd K T)) :=
    let s := expandtabs text in
    let n := S (length s) in
    match many1 n (root_item n) s with
    | POk l r => match skip r with [] => Ok (concat l) | _ => Err ESyntax end
    | PFail => Err ESyntax
    | PErr e => Err (EOther e)
    end.
End Gram.

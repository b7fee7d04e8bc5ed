(** Vocabulary for C87: the numbers of a file, changed one by one, and the codes in it. *)
From Verif Require Import Base Num CoordModel Ast GramAst.

Section Re.
  Context {K T : Type} (r : K -> K).
  (** The file with [r k] for every number [k] whose decimals the options of the formatter decide.
      Parameters of macros and the offsets of OF are not among them. *)
  Fixpoint re_expr (e : expr K) : expr K :=
    match e with
    | EConst k => EConst (r k)
    | EVar v => EVar v
    | EParen e => EParen (re_expr e)
    | ENeg e => ENeg (re_expr e)
    | EPos e => EPos (re_expr e)
    | EAdd h t => EAdd (re_expr h) (map re_expr t)
    | ESub h t => ESub (re_expr h) (map re_expr t)
    | EMul h t => EMul (re_expr h) (map re_expr t)
    | EDiv h t => EDiv (re_expr h) (map re_expr t)
    end.
  Definition re_prim (p : prim K) : prim K :=
    let x := re_expr in
    match p with
    | PCode0 s => PCode0 s
    | PCode1 a b c d r => PCode1 (x a) (x b) (x c) (x d) (option_map x r)
    | PCode2 a b c d e f g => PCode2 (x a) (x b) (x c) (x d) (x e) (x f) (x g)
    | PCode4 a b c d pts r => PCode4 (x a) (x b) (x c) (x d) (map (fun q => (x (fst q), x (snd q))) pts) (x r)
    | PCode5 a b c d e f => PCode5 (x a) (x b) (x c) (x d) (x e) (x f)
    | PCode6 a b c d e f g h i => PCode6 (x a) (x b) (x c) (x d) (x e) (x f) (x g) (x h) (x i)
    | PCode7 u a b c d e f => PCode7 u (x a) (x b) (x c) (x d) (x e) (x f)
    | PCode20 a b c d e f g => PCode20 (x a) (x b) (x c) (x d) (x e) (x f) (x g)
    | PCode21 a b c d e f => PCode21 (x a) (x b) (x c) (x d) (x e) (x f)
    | PCode22 a b c d e f => PCode22 (x a) (x b) (x c) (x d) (x e) (x f)
    | PAssign v e => PAssign v (x e)
    end.
  Definition re_template (t : template K) : template K :=
    match t with
    | TCircle d h => TCircle (r d) (option_map r h)
    | TRect x y h => TRect (r x) (r y) (option_map r h)
    | TObround x y h => TObround (r x) (r y) (option_map r h)
    | TPolygon d v a h => TPolygon (r d) v (option_map r a) (option_map r h)
    | TMacro n ps => TMacro n ps
    end.
  Fixpoint re_cmd (c : cmd K T) : cmd K T :=
    match c with
    | CAB id b => CAB id (map re_cmd b)
    | CSR h b => CSR h (map re_cmd b)
    | CAD a => CAD (MkAD (ad_id a) (re_template (ad_template a)))
    | CAM n ps => CAM n (map re_prim ps)
    | CTA (TADrillTolerance p m) => CTA (TADrillTolerance (option_map r p) (option_map r m))
    | CTO (TOCRot k) => CTO (TOCRot (r k))
    | CTO (TOCHgt k) => CTO (TOCHgt (r k))
    | CLR k => CLR (r k)
    | CLS k => CLS (r k)
    | CSF a b => CSF (r a) (r b)
    | c => c
    end.
End Re.

Section Codes.
  Context {K T : Type}.
  (** The G codes of a command, and those in the body of a block. *)
  Fixpoint codes_in (c : cmd K T) : list gcode :=
    match c with
    | CAB _ b | CSR _ b => flat_map codes_in b
    | CG _ g => [g]
    | _ => []
    end.
  Definition codes_inside (c : cmd K T) : list gcode :=
    match c with CG _ _ => [] | c => codes_in c end.
End Codes.

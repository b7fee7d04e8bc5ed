(** Which commands of a file keep their values when written and read back. *)
From Verif Require Import Base Num CoordModel Ast GramAst PegModel GramModel FmtModel GramText GramExpr GramExprRt
  GramExprSpec GramTok.

Section Clean.
  Context {K T : Type} (rd : reader K T) (w : writer K T).
  (** The text written for a number is one the grammar takes for a number, and is read as it. *)
  Definition kept (k : K) : Prop := double_text (w_num w k) /\ r_num rd (w_num w k) = k.
  Definition kept_str (k : K) : Prop := double_text (w_str w k) /\ r_num rd (w_str w k) = k.
  Definition kept_field (k : K) : Prop := field_text (w_num w k) /\ r_float rd (w_num w k) = Some k.
  Definition kept_expr (e : expr K) : Prop := forall k, number_in k e -> survives rd w k.
  Definition kept_opt {A} (P : A -> Prop) (x : option A) : Prop := forall a, x = Some a -> P a.

  Definition prim_exprs (p : prim K) : list (expr K) :=
    match p with
    | PAssign _ e => [e]
    | PCode0 _ => []
    | PCode1 a b c d r => [a; b; c; d] ++ match r with Some r => [r] | None => [] end
    | PCode2 a b c d e f g => [a; b; c; d; e; f; g]
    | PCode4 a b c d pts r => [a; b; c; d] ++ flat_map (fun q => [fst q; snd q]) pts ++ [r]
    | PCode5 a b c d e f => [a; b; c; d; e; f]
    | PCode6 a b c d e f g h i => [a; b; c; d; e; f; g; h; i]
    | PCode7 _ a b c d e f => [a; b; c; d; e; f]
    | PCode20 a b c d e f g => [a; b; c; d; e; f; g]
    | PCode21 a b c d e f => [a; b; c; d; e; f]
    | PCode22 a b c d e f => [a; b; c; d; e; f]
    end.
  (** A macro with one of the names C, R, O and P cannot be told from a standard aperture. *)
  Definition clean_template (t : template K) : Prop :=
    match t with
    | TCircle d h => kept d /\ kept_opt kept h
    | TRect x y h | TObround x y h => kept x /\ kept y /\ kept_opt kept h
    | TPolygon d v r h => kept d /\ kept_opt kept r /\ kept_opt kept h
    | TMacro n ps => kept_opt (Forall kept_str) ps /\
                     (In n [lit "C"; lit "R"; lit "O"; lit "P"] -> ps = None)
    end.
  (** The formatter writes the fields of a step and repeat only together. *)
  Definition clean_sr (h : sropen) : Prop :=
    h = MkSR None None None None \/
    exists x y i j, h = MkSR (Some x) (Some y) (Some i) (Some j).
  Definition clean_leaf (c : cmd K T) : Prop :=
    match c with
    | CAD a => clean_template (ad_template a)
    | CAM _ ps => Forall (fun p => Forall kept_expr (prim_exprs p)) ps
    | CTA (TADrillTolerance p m) => kept_opt kept p /\ kept_opt kept m
    | CTF (TFCreationDate d) => field_text (w_date w d) /\ r_date rd (w_date w d) = Some d
    | CTF (TFGenerationSoftware a b c) | CTF (TFProjectId a b c) => a <> None /\ b <> None /\ c <> None
    | CTO (TOCRot k) | CTO (TOCHgt k) => kept_field k
    | CLR k | CLS k => kept k
    | CIR z => double_text (w_int w z) /\ int_of_text (w_int w z) = Some z
    | COF a b => kept_opt kept_str a /\ kept_opt kept_str b
    | CSF a b => kept a /\ kept b
    | _ => True
    end.
  Fixpoint clean (c : cmd K T) : Prop :=
    let all := fix all (l : list (cmd K T)) : Prop :=
      match l with [] => True | x :: r => clean x /\ all r end in
    match c with
    | CAB _ b => all b
    | CSR h b => clean_sr h /\ all b
    | c => clean_leaf c
    end.
End Clean.

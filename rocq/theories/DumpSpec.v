(** Specification for C76: which calls of a builder leave a text that can be read, and what
    becomes of a file when it is read. *)
From Verif Require Import Base Num CoordModel Ast GbModel.
From Verif Require Import GramAst GramModel GramTok NumTextProofs.
Local Open Scope Q_scope.

(** A float that Python writes without an exponent: 0, or at least 0.0001 and less than 10^16 in
    size; a decimal fraction in lowest terms. *)
Definition good (q : Q) : Prop := Qred q = q /\ is_decimal q /\ repr_range q.

Definition figure_numbers (f : figure) : list Q :=
  match f with
  | FgCircle _ d c r => [d; fst c; snd c; r]
  | FgVectorLine _ w a b r => [w; fst a; snd a; fst b; snd b; r]
  | FgCenterLine _ w h c r => [w; h; fst c; snd c; r]
  | FgOutline _ ps r => inject_Z (Z.of_nat (length ps)) :: r :: flat_map (fun p => [fst p; snd p]) ps
  | FgPolygon _ n c d r => [inject_Z n; fst c; snd c; d; r]
  | FgThermal c o i g r => [fst c; snd c; o; i; g; r]
  end.
Definition hole_numbers (h : option Q) : list Q := match h with Some h => [h] | None => [] end.
(** Numbers that are written as they are.  The coordinates of draws are written with six decimals
    and may be anything. *)
Definition numbers (c : bcall) : list Q :=
  match c with
  | NewCircle d h => d :: hole_numbers h
  | NewRectangle x y h | NewRounded x y h => x :: y :: hole_numbers h
  | NewPolygon d _ r h => d :: r :: hole_numbers h
  | AddFigure _ f => figure_numbers f
  | SetDrill _ a b => [a; b]
  | AddPad _ _ _ r _ _ s => [r; s]
  | AddLine w _ _ | AddArc _ w _ _ _ => [w]
  | _ => []
  end.
(** Aperture functions are the members of an enumeration; the texts of a custom attribute must
    not contain the characters that end them. *)
Definition legal (c : bcall) : Prop :=
  Forall good (numbers c) /\
  match c with
  | SetFunction _ v => In v (map lit aper_functions)
  | SetCustom _ name values => user_text name /\ Forall field_text values
  | _ => True
  end.

(** A negative constant of a macro is read as the negation of a positive one. *)
Definition sign_expr (e : expr Q) : expr Q :=
  match e with EConst q => if Qle_bool 0 q then e else ENeg (EConst (- q)) | e => e end.
Definition on_exprs {K} (f : expr K -> expr K) (p : prim K) : prim K :=
  match p with
  | PAssign v e => PAssign v (f e)
  | PCode0 s => PCode0 s
  | PCode1 a b c d r => PCode1 (f a) (f b) (f c) (f d) (option_map f r)
  | PCode2 a b c d e g h => PCode2 (f a) (f b) (f c) (f d) (f e) (f g) (f h)
  | PCode4 a b c d pts r => PCode4 (f a) (f b) (f c) (f d) (map (fun q => (f (fst q), f (snd q))) pts) (f r)
  | PCode5 a b c d e g => PCode5 (f a) (f b) (f c) (f d) (f e) (f g)
  | PCode6 a b c d e g h i j => PCode6 (f a) (f b) (f c) (f d) (f e) (f g) (f h) (f i) (f j)
  | PCode7 u a b c d e g => PCode7 u (f a) (f b) (f c) (f d) (f e) (f g)
  | PCode20 a b c d e g h => PCode20 (f a) (f b) (f c) (f d) (f e) (f g) (f h)
  | PCode21 a b c d e g => PCode21 (f a) (f b) (f c) (f d) (f e) (f g)
  | PCode22 a b c d e g => PCode22 (f a) (f b) (f c) (f d) (f e) (f g)
  end.
Definition sign_cmd (c : cmd Q str) : cmd Q str :=
  match c with CAM n ps => CAM n (map (on_exprs sign_expr) ps) | c => c end.

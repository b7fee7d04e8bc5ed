(** Specification vocabulary for C72: where the expressions in macros are. *)
From Verif Require Import Base Num CoordModel Ast GramAst LocModel LocSpec TermModel.
Local Open Scope nat_scope.

Definition gap (w : str) : Prop := Forall (fun c => blank c = true) w.
Definition digits (d : str) : Prop := d <> [] /\ Forall (fun c => is_digit c = true) d.
(** Variables and numbers as they are written. *)
Definition variable_text (v : str) : Prop := exists d, v = "$"%char :: d /\ digits d.
Definition number_text (v : str) : Prop :=
  exists sg d, v = sg ++ d /\ In sg [[]; ["+"]; ["-"]]%char /\
    (digits d \/ exists a b, d = a ++ "."%char :: b /\ (a = [] \/ digits a) /\ digits b).

Section Spec.
  Context {K : Type} (num : str -> K).
  (** The expression with the operator [c]. *)
  Definition joined (c : ascii) (h : expr K) (t : list (expr K)) : option (expr K) :=
    if Ascii.eqb c "+" then Some (EAdd h t) else if Ascii.eqb c "-" then Some (ESub h t)
    else if Ascii.eqb c "/" then Some (EDiv h t) else if (Ascii.eqb c "x" || Ascii.eqb c "X")%bool then Some (EMul h t) else None.
  Definition len_of (x : term K) : nat := let 'TM _ _ n _ := x in n.
  Definition loc_of (x : term K) : nat := let 'TM _ l _ _ := x in l.

  (** [spelled from u x]: the text [u], which begins at offset [from], is the expression [x]; it
      is located where its text begins, its length is that of the text without white space
      between its parts. *)
  Inductive spelled : nat -> str -> term K -> Prop :=
  | sp_variable from v : variable_text v -> spelled from v (TM (EVar v) from (length v) [])
  | sp_number from v : number_text v -> spelled from v (TM (EConst (num v)) from (length v) [])
  | sp_paren from w u w' x : gap w -> spelled (from + 1 + length w) u x -> gap w' ->
      spelled from ("("%char :: w ++ u ++ w' ++ [")"%char]) (TM (EParen (bare x)) from (1 + len_of x + 1) [x])
  | sp_minus from w u x : gap w -> spelled (from + 1 + length w) u x ->
      spelled from ("-"%char :: w ++ u) (TM (ENeg (bare x)) from (1 + len_of x) [x])
  | sp_plus from w u x : gap w -> spelled (from + 1 + length w) u x ->
      spelled from ("+"%char :: w ++ u) (TM (EPos (bare x)) from (1 + len_of x) [x])
  | sp_operation from u h rest t c e : spelled from u h -> t <> [] -> operands (from + length u) rest c t ->
      joined c (bare h) (map bare t) = Some e ->
      spelled from (u ++ rest) (TM e from (len_of h + list_sum (map (fun x => 1 + len_of x) t)) (h :: t))
  (** Operands that follow, each after the operator; [x] and [X] may be mixed. *)
  with operands : nat -> str -> ascii -> list (term K) -> Prop :=
  | op_end from c : operands from [] c []
  | op_next from w d w' u rest c x t : gap w -> (d = c \/ In c ["x"; "X"]%char /\ In d ["x"; "X"]%char) -> gap w' ->
      spelled (from + length w + 1 + length w') u x -> operands (from + length w + 1 + length w' + length u) rest c t ->
      operands from (w ++ d :: w' ++ u ++ rest) c (x :: t).

  (** Expressions after commas. *)
  Inductive listed : nat -> str -> list (term K) -> Prop :=
  | li_end from w : gap w -> listed from w []
  | li_next from w w' u rest x l : gap w -> gap w' -> spelled (from + length w + 1 + length w') u x ->
      listed (from + length w + 1 + length w' + length u) rest l ->
      listed from (w ++ ","%char :: w' ++ u ++ rest) (x :: l).
  (** The code at the beginning of a primitive. *)
  Definition code_of (p : prim K) : str :=
    match p with
    | PAssign _ _ => [] | PCode0 _ => lit "0" | PCode1 _ _ _ _ _ => lit "1" | PCode2 _ _ _ _ _ _ _ => lit "2"
    | PCode4 _ _ _ _ _ _ => lit "4" | PCode5 _ _ _ _ _ _ => lit "5" | PCode6 _ _ _ _ _ _ _ _ _ => lit "6"
    | PCode7 _ _ _ _ _ _ _ => lit "7" | PCode20 _ _ _ _ _ _ _ => lit "20" | PCode21 _ _ _ _ _ _ => lit "21" | PCode22 _ _ _ _ _ _ => lit "22"
    end.
  (** The expressions of a primitive, in the order in which they are written. *)
  Definition args_of (p : prim K) : list (expr K) :=
    match p with
    | PAssign v e => [EVar v; e]
    | PCode0 _ => []
    | PCode1 a b c d r => [a; b; c; d] ++ match r with Some e => [e] | None => [] end
    | PCode2 a b c d e f g | PCode20 a b c d e f g => [a; b; c; d; e; f; g]
    | PCode4 a b c d pts r => [a; b; c; d] ++ flat_map (fun q => [fst q; snd q]) pts ++ [r]
    | PCode5 a b c d e f | PCode7 _ a b c d e f | PCode21 a b c d e f | PCode22 a b c d e f => [a; b; c; d; e; f]
    | PCode6 a b c d e f g h i => [a; b; c; d; e; f; g; h; i]
    end.
  (** [u], which begins at [from], is the text of primitive [p], and [l] are its expressions. *)
  Definition laid_out (from : nat) (u : str) (p : prim K) (l : list (term K)) : Prop :=
    match p with
    | PAssign v _ => exists w w' t w2 y x, u = v ++ w ++ "="%char :: w' ++ t ++ w2 ++ ["*"%char] /\ gap w /\ gap w' /\ gap w2 /\
        spelled (from + length v + length w + 1 + length w') t x /\ spelled from v y /\ l = [y; x]
    | PCode0 s => exists w, u = "0"%char :: s ++ w ++ ["*"%char] /\ gap w /\ l = []
    | _ => exists t, u = code_of p ++ t ++ ["*"%char] /\ listed (from + length (code_of p)) t l
    end.
  (** An expression and everything inside of it. *)
  Fixpoint pieces (x : term K) : list (term K) := let 'TM _ _ _ l := x in x :: flat_map pieces l.
End Spec.
Scheme spelled_mut := Induction for spelled Sort Prop with operands_mut := Induction for operands Sort Prop.

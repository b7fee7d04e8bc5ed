(** Specification for C20: arithmetic on binary trees, as mathematics writes it.  The flat
    operator lists of the syntax denote left associative chains. *)
From Verif Require Import Base Num Ast StateModel.

Section Spec.
  Context {K : Type} {NK : Num K}.

  Inductive arith :=
  | ANum (k : K)
  | AVar (v : str)
  | ANeg (a : arith)
  | APlus (a b : arith) | AMinus (a b : arith) | ATimes (a b : arith) | AOver (a b : arith).

  Fixpoint meaning (e : expr K) : arith :=
    match e with
    | EConst c => ANum c
    | EVar v => AVar v
    | EParen e | EPos e => meaning e
    | ENeg e => ANeg (meaning e)
    | EAdd h t => fold_left APlus (map meaning t) (meaning h)
    | ESub h t => fold_left AMinus (map meaning t) (meaning h)
    | EMul h t => fold_left ATimes (map meaning t) (meaning h)
    | EDiv h t => fold_left AOver (map meaning t) (meaning h)
    end.

  (** The value of a tree in an environment; division needs a divisor other than zero. *)
  Inductive value (env : str -> option K) : arith -> K -> Prop :=
  | v_num k : value env (ANum k) k
  | v_var v k : env v = Some k -> value env (AVar v) k
  | v_negate a x : value env a x -> value env (ANeg a) (n_opp x)
  | v_plus a b x y : value env a x -> value env b y -> value env (APlus a b) (n_add x y)
  | v_minus a b x y : value env a x -> value env b y -> value env (AMinus a b) (n_sub x y)
  | v_times a b x y : value env a x -> value env b y -> value env (ATimes a b) (n_mul x y)
  | v_over a b x y : value env a x -> value env b y -> n_eqb y (n_of_Q 0) = false ->
      value env (AOver a b) (n_div x y).

  (** The leftmost failing operation. *)
  Inductive operator : (arith -> arith -> arith) -> Prop :=
  | op_plus : operator APlus | op_minus : operator AMinus
  | op_times : operator ATimes | op_over : operator AOver.
  Inductive fails (env : str -> option K) : arith -> exc -> Prop :=
  | f_var v : env v = None -> fails env (AVar v) EKeyError
  | f_neg a e : fails env a e -> fails env (ANeg a) e
  | f_left op a b e : operator op -> fails env a e -> fails env (op a b) e
  | f_right op a b x e : operator op -> value env a x -> fails env b e -> fails env (op a b) e
  | f_zero a b x y : value env a x -> value env b y -> n_eqb y (n_of_Q 0) = true ->
      fails env (AOver a b) EZeroDivision.
End Spec.
Arguments arith K : clear implicits.

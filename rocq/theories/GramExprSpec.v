(** Vocabulary for C41 and C42.  The value of an expression is that of [ExprSpec.meaning]. *)
From Verif Require Import Base Num Ast.

Section Spec.
  Context {K : Type}.
  (** The numbers in an expression. *)
  Inductive number_in (k : K) : expr K -> Prop :=
  | ni_const : number_in k (EConst k)
  | ni_paren e : number_in k e -> number_in k (EParen e)
  | ni_neg e : number_in k e -> number_in k (ENeg e)
  | ni_pos e : number_in k e -> number_in k (EPos e)
  | ni_add h t e : In e (h :: t) -> number_in k e -> number_in k (EAdd h t)
  | ni_sub h t e : In e (h :: t) -> number_in k e -> number_in k (ESub h t)
  | ni_mul h t e : In e (h :: t) -> number_in k e -> number_in k (EMul h t)
  | ni_div h t e : In e (h :: t) -> number_in k e -> number_in k (EDiv h t).

  (** A unary plus, possibly in parentheses. *)
  Inductive plus_sign : expr K -> Prop :=
  | ps_pos e : plus_sign (EPos e)
  | ps_paren e : plus_sign e -> plus_sign (EParen e).
  (** No minus sign is applied to a (parenthesised) plus sign. *)
  Inductive signs_apart : expr K -> Prop :=
  | sa_const k : signs_apart (EConst k)
  | sa_var v : signs_apart (EVar v)
  | sa_paren e : signs_apart e -> signs_apart (EParen e)
  | sa_neg e : signs_apart e -> ~ plus_sign e -> signs_apart (ENeg e)
  | sa_pos e : signs_apart e -> signs_apart (EPos e)
  | sa_add h t : (forall e, In e (h :: t) -> signs_apart e) -> signs_apart (EAdd h t)
  | sa_sub h t : (forall e, In e (h :: t) -> signs_apart e) -> signs_apart (ESub h t)
  | sa_mul h t : (forall e, In e (h :: t) -> signs_apart e) -> signs_apart (EMul h t)
  | sa_div h t : (forall e, In e (h :: t) -> signs_apart e) -> signs_apart (EDiv h t).
End Spec.

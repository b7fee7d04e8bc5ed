(** Property theorem C20: macro expressions evaluate to their arithmetic value. *)
From Verif Require Import Base Num Dict Ast StateModel ExprModel ExprSpec ExprProofs.

Section Theorems.
  Context {K : Type} {NK : Num K}.
  Theorem C20_expression_value :
    forall (scope : dict K) (e : expr K) (k : K),
      eval scope e = Ok k <-> value (fun v => d_get v scope) (meaning e) k.
  Proof. intros scope e k. exact (eval_value scope e k). Qed.
  Theorem C20_expression_errors :
    forall (scope : dict K) (e : expr K) (x : exc),
      eval scope e = Err x <-> fails (fun v => d_get v scope) (meaning e) x.
  Proof. intros scope e x. exact (eval_fails scope e x). Qed.
End Theorems.

Local Existing Instance NumQ.
(** 20 - $1 - 2 x (3 / 4) / -$2 with $1 = 5 and $2 = 3 *)
Example C20_case :
  eval [(lit "$1", 5%Q); (lit "$2", 3%Q)]
    (ESub (EConst 20%Q) [EVar (lit "$1");
       EMul (EConst 2%Q) [EDiv (EParen (EDiv (EConst 3%Q) [EConst 4%Q])) [ENeg (EVar (lit "$2"))]]])
  = Ok (31 # 2)%Q.
Proof. vm_compute. reflexivity. Qed.
Example C20_case_errors :
  eval [] (EAdd (EConst 1%Q) [EVar (lit "$1")]) = Err EKeyError /\
  eval [(lit "$1", 0%Q)] (EDiv (EConst 1%Q) [EVar (lit "$1"); EVar (lit "$2")]) = Err EZeroDivision.
Proof. vm_compute. auto. Qed.

Print Assumptions C20_expression_value.
Print Assumptions C20_expression_errors.

(** Model of [ExpressionEvalVisitor], [gerber/ast/expression_eval_visitor.py]. *)
From Verif Require Import Base Num Dict Ast StateModel.

Section Eval.
  Context {K : Type} {NK : Num K}.

  (** [evaluate] 36-40 and the node callbacks 42-112.  [self.return_value] is the returned
      value; a failing operand raises at once.  [Parenthesis] only visits its content
      (ast_visitor.py).  [+x] is [x]. *)
  Fixpoint eval (scope : dict K) (e : expr K) {struct e} : result exc K :=
    let loop := fun (op : K -> K -> result exc K) =>
      fix loop (total : K) (tail : list (expr K)) : result exc K :=
        match tail with
        | [] => Ok total
        | o :: r => let* x := eval scope o in let* total := op total x in loop total r
        end in
    match e with
    | EConst c => Ok c
    | EVar v => match d_get v scope with Some k => Ok k | None => Err EKeyError end
    | EParen e => eval scope e
    | ENeg e => let* x := eval scope e in Ok (n_opp x)
    | EPos e => eval scope e
    | EAdd h t => let* x := eval scope h in loop (fun a b => Ok (n_add a b)) x t
    | ESub h t => let* x := eval scope h in loop (fun a b => Ok (n_sub a b)) x t
    | EMul h t => let* x := eval scope h in loop (fun a b => Ok (n_mul a b)) x t
    | EDiv h t => let* x := eval scope h in
        loop (fun a b => if n_eqb b n0 then Err EZeroDivision else Ok (n_div a b)) x t
    end.
End Eval.

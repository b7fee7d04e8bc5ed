(** Proofs about expression evaluation. *)
From Verif Require Import Base Num Dict Ast StateModel ExprModel ExprSpec.

Section Proofs.
  Context {K : Type} {NK : Num K} (scope : dict K).
  Let env := fun v => d_get v scope.

  Definition agrees (r : result exc K) (a : arith K) : Prop :=
    match r with Ok k => value env a k | Err e => fails env a e end.

  Definition chain_eval (op : K -> K -> result exc K) :=
    fix loop (total : K) (tail : list (expr K)) : result exc K :=
      match tail with
      | [] => Ok total
      | o :: r => let* x := eval scope o in let* total := op total x in loop total r
      end.

  Lemma fails_fold op l : operator op -> forall a e, fails env a e -> fails env (fold_left op l a) e.
  Proof.
    intros Hop. induction l as [|b l IH]; intros a e Ha; [exact Ha|].
    cbn [fold_left]. apply IH. apply f_left; auto.
  Qed.

  Lemma chain_agrees (opk : K -> K -> result exc K) (op : arith K -> arith K -> arith K) :
    operator op ->
    (forall a b x y, value env a x -> value env b y -> agrees (opk x y) (op a b)) ->
    forall t, Forall (fun e => agrees (eval scope e) (meaning e)) t ->
    forall a x, value env a x -> agrees (chain_eval opk x t) (fold_left op (map meaning t) a).
  Proof.
    intros Hop Hk t Ht. induction Ht as [|e t He Ht IH]; intros a x Ha; cbn [chain_eval map fold_left].
    - exact Ha.
    - destruct (eval scope e) as [y|er]; cbn [bind agrees] in *.
      + specialize (Hk _ _ _ _ Ha He). destruct (opk x y) as [z|er]; cbn [bind agrees] in *.
        * apply IH; exact Hk.
        * apply fails_fold; auto.
      + apply fails_fold; auto. eapply f_right; eauto.
  Qed.

  Lemma chain_all h t (opk : K -> K -> result exc K) op :
    operator op ->
    (forall a b x y, value env a x -> value env b y -> agrees (opk x y) (op a b)) ->
    agrees (eval scope h) (meaning h) -> Forall (fun e => agrees (eval scope e) (meaning e)) t ->
    agrees (let* x := eval scope h in chain_eval opk x t) (fold_left op (map meaning t) (meaning h)).
  Proof.
    intros Hop Hk Hh Ht. destruct (eval scope h) as [x|e]; cbn [bind].
    - apply chain_agrees; auto.
    - apply fails_fold; auto.
  Qed.

  Lemma eval_agrees (e : expr K) : agrees (eval scope e) (meaning e).
  Proof.
    induction e as [c|v|e IH|e IH|e IH|h t IH IHt|h t IH IHt|h t IH IHt|h t IH IHt] using expr_ind'.
    - constructor.
    - cbn [eval meaning]. destruct (d_get v scope) as [k|] eqn:E; constructor; exact E.
    - exact IH.
    - cbn [eval meaning]. destruct (eval scope e); cbn [bind agrees] in *; constructor; exact IH.
    - exact IH.
    - apply (chain_all h t (fun a b => Ok (n_add a b)) APlus); auto; [constructor|].
      intros; constructor; auto.
    - apply (chain_all h t (fun a b => Ok (n_sub a b)) AMinus); auto; [constructor|].
      intros; constructor; auto.
    - apply (chain_all h t (fun a b => Ok (n_mul a b)) ATimes); auto; [constructor|].
      intros; constructor; auto.
    - apply (chain_all h t (fun a b => if n_eqb b n0 then Err EZeroDivision else Ok (n_div a b)) AOver);
        auto; [constructor|].
      intros a b x y Ha Hb. unfold n0. destruct (n_eqb y (n_of_Q 0)) eqn:E; [eapply f_zero; eauto|].
      constructor; auto.
  Qed.

  Lemma value_fun a x : value env a x -> forall y, value env a y -> x = y.
  Proof.
    induction 1; intros z Hz; inversion Hz; subst; clear Hz; try congruence;
      repeat match goal with
             | IH : forall y, value env ?a y -> _ = y, H : value env ?a _ |- _ =>
                 rewrite (IH _ H) in *; clear IH
             end; try reflexivity.
  Qed.
  Lemma value_not_fails a e : fails env a e -> forall x, value env a x -> False.
  Proof.
    induction 1; intros z Hz.
    - inversion Hz; congruence.
    - inversion Hz; subst; eauto.
    - destruct H; inversion Hz; subst; eauto.
    - destruct H; inversion Hz; subst; eauto.
    - inversion Hz; subst.
      assert (y = y0) by (eapply value_fun; eauto). congruence.
  Qed.
  Lemma fails_op op a b e : operator op -> fails env (op a b) e ->
    fails env a e \/ (exists x, value env a x /\ fails env b e) \/
    (op = AOver /\ e = EZeroDivision /\ exists x y, value env a x /\ value env b y).
  Proof.
    intros Hop H. remember (op a b) as t eqn:Et.
    destruct H as [v Hv|a0 e Ha|op' a0 b0 e Hop' Ha|op' a0 b0 x e Hop' Hv Hb|a0 b0 x y Hx Hy Hz].
    - destruct Hop; discriminate.
    - destruct Hop; discriminate.
    - destruct Hop, Hop'; try discriminate; injection Et as <- <-; auto.
    - destruct Hop, Hop'; try discriminate; injection Et as <- <-; right; left; eauto.
    - destruct Hop; try discriminate; injection Et as <- <-; right; right; eauto 6.
  Qed.
  Lemma fails_fun a e : fails env a e -> forall e', fails env a e' -> e = e'.
  Proof.
    induction 1 as [v Hv|a e Ha IH|op a b e Hop Ha IH|op a b x e Hop Hv Hb IH|a b x y Hx Hy Hz];
      intros e' H'.
    - remember (AVar v) as t eqn:Et. destruct H' as [| |? ? ? ? Ho|? ? ? ? ? Ho|]; try discriminate;
        try (destruct Ho; discriminate). reflexivity.
    - remember (ANeg a) as t eqn:Et. destruct H' as [| |? ? ? ? Ho|? ? ? ? ? Ho|]; try discriminate;
        try (destruct Ho; discriminate). injection Et as ->. auto.
    - destruct (fails_op op a b e' Hop H') as [H1|[[x [H1 H2]]|[_ [_ [x [y [H1 _]]]]]]]; auto;
        exfalso; exact (value_not_fails a e Ha _ H1).
    - destruct (fails_op op a b e' Hop H') as [H1|[[x' [H1 H2]]|[_ [_ [x' [y [_ H2]]]]]]]; auto; exfalso;
        [exact (value_not_fails a e' H1 _ Hv)|exact (value_not_fails b e Hb _ H2)].
    - destruct (fails_op AOver a b e' op_over H') as [H1|[[x' [H1 H2]]|[_ [-> _]]]]; auto; exfalso;
        [exact (value_not_fails a e' H1 _ Hx)|exact (value_not_fails b e' H2 _ Hy)].
  Qed.

  Lemma eval_value e k : eval scope e = Ok k <-> value env (meaning e) k.
  Proof.
    pose proof (eval_agrees e) as A. split; intros H.
    - rewrite H in A. exact A.
    - destruct (eval scope e) as [k'|er]; cbn [agrees] in A.
      + f_equal. eapply value_fun; eauto.
      + exfalso. eapply value_not_fails; eauto.
  Qed.
  Lemma eval_fails e x : eval scope e = Err x <-> fails env (meaning e) x.
  Proof.
    pose proof (eval_agrees e) as A. split; intros H.
    - rewrite H in A. exact A.
    - destruct (eval scope e) as [k'|er]; cbn [agrees] in A.
      + exfalso. eapply value_not_fails; eauto.
      + f_equal. eapply fails_fun; eauto.
  Qed.
End Proofs.

(** The option [explicit_parenthesis]: what is written is the plain form of another expression. *)
From Verif Require Import Base Num CoordModel Ast GramAst PegModel GramModel FmtModel GramText GramExpr
  GramExprRt GramExprSpec StateModel ExprSpec ExprModel ExprProofs.
Local Open Scope nat_scope.

Section Explicit.
  Context {K : Type}.
  Fixpoint expl (e : expr K) : expr K :=
    match e with
    | EConst k => EConst k
    | EVar v => EVar v
    | EParen e => expl e
    | ENeg e => ENeg (expl e)
    | EPos e => EPos (expl e)
    | EAdd h t => EParen (EAdd (expl h) (map expl t))
    | ESub h t => EParen (ESub (expl h) (map expl t))
    | EMul h t => EParen (EMul (expl h) (map expl t))
    | EDiv h t => EParen (EDiv (expl h) (map expl t))
    end.

  Lemma meaning_expl e : meaning (expl e) = meaning e.
  Proof.
    induction e as [k|v|e IH|e IH|e IH|h t IHh IHt|h t IHh IHt|h t IHh IHt|h t IHh IHt] using expr_ind';
      cbn [expl meaning]; auto; try (f_equal; exact IH);
      rewrite map_map, IHh; f_equal; apply map_ext_in; intros x Hx; rewrite Forall_forall in IHt; auto.
  Qed.

  Lemma expl_shape (P : K -> Prop) e : forall L, shape P L e -> signs_apart e ->
    shape P 2 (expl e) /\ (~ plus_sign e -> shape P 1 (expl e)).
  Proof.
    induction e as [k|v|e IH|e IH|e IH|h t IHh IHt|h t IHh IHt|h t IHh IHt|h t IHh IHt] using expr_ind';
      intros L Hs Ha; cbn [expl].
    - inversion Hs; subst. split; intros; constructor; assumption.
    - inversion Hs; subst. split; intros; constructor; assumption.
    - inversion Hs; subst. inversion Ha; subst. destruct (IH 6) as [H1' H2']; auto. split; [exact H1'|].
      intros Hn. apply H2'. intros Hp. apply Hn. constructor. exact Hp.
    - inversion Hs; subst. inversion Ha; subst. destruct (IH 1) as [_ H2']; auto.
      split; intros; constructor; auto.
    - inversion Hs; subst. inversion Ha; subst. destruct (IH 2) as [H1' _]; auto.
      split; [constructor; auto|]. intros Hn. exfalso. apply Hn. constructor.
    - assert (shape P 0 (EParen (EAdd (expl h) (map expl t)))) as HP; [|split; intros; (eapply shape_mono; [|exact HP]); lia].
      inversion Hs as [| | | | | | | |L' h' t' Hl Hh Hne Ht]; subst. inversion Ha as [| | | | |h' t' Hall| | |]; subst.
      constructor. constructor; [lia| | |].
      + eapply shape_mono; [|exact (proj1 (IHh 5 Hh (Hall _ (or_introl eq_refl))))]. lia.
      + destruct t; [congruence|discriminate].
      + apply Forall_map. rewrite Forall_forall in *. intros x Hx.
        eapply shape_mono; [|exact (proj1 (IHt x Hx 5 (Ht x Hx) (Hall _ (or_intror Hx))))]. lia.
    - assert (shape P 0 (EParen (ESub (expl h) (map expl t)))) as HP; [|split; intros; (eapply shape_mono; [|exact HP]); lia].
      inversion Hs as [| | | | | | |L' h' t' Hl Hh Hne Ht|]; subst. inversion Ha as [| | | | | |h' t' Hall| |]; subst.
      constructor. constructor; [lia| | |].
      + eapply shape_mono; [|exact (proj1 (IHh 4 Hh (Hall _ (or_introl eq_refl))))]. lia.
      + destruct t; [congruence|discriminate].
      + apply Forall_map. rewrite Forall_forall in *. intros x Hx.
        eapply shape_mono; [|exact (proj1 (IHt x Hx 4 (Ht x Hx) (Hall _ (or_intror Hx))))]. lia.
    - assert (shape P 0 (EParen (EMul (expl h) (map expl t)))) as HP; [|split; intros; (eapply shape_mono; [|exact HP]); lia].
      inversion Hs as [| | | | | |L' h' t' Hl Hh Hne Ht| |]; subst. inversion Ha as [| | | | | | |h' t' Hall|]; subst.
      constructor. constructor; [lia| | |].
      + eapply shape_mono; [|exact (proj1 (IHh 3 Hh (Hall _ (or_introl eq_refl))))]. lia.
      + destruct t; [congruence|discriminate].
      + apply Forall_map. rewrite Forall_forall in *. intros x Hx.
        eapply shape_mono; [|exact (proj1 (IHt x Hx 3 (Ht x Hx) (Hall _ (or_intror Hx))))]. lia.
    - assert (shape P 0 (EParen (EDiv (expl h) (map expl t)))) as HP; [|split; intros; (eapply shape_mono; [|exact HP]); lia].
      inversion Hs as [| | | | |L' h' t' Hl Hh Hne Ht| | |]; subst. inversion Ha as [| | | | | | | |h' t' Hall]; subst.
      constructor. constructor; [lia| | |].
      + eapply shape_mono; [|exact (proj1 (IHh 2 Hh (Hall _ (or_introl eq_refl))))]. lia.
      + destruct t; [congruence|discriminate].
      + apply Forall_map. rewrite Forall_forall in *. intros x Hx.
        eapply shape_mono; [|exact (proj1 (IHt x Hx 2 (Ht x Hx) (Hall _ (or_intror Hx))))]. lia.
  Qed.

  Context {T : Type} (w : writer K T).
  Definition plainly (o : settings) : settings :=
    MkSettings (f_macro_body o) (f_macro_param o) (f_split o) (f_macro_end o) (f_block o) (f_sr o)
      (f_d01 o) (f_d02 o) (f_d03 o) (f_lf o) (f_polarity o) (f_keep o) (f_remove_g54 o) (f_remove_g55 o) false.
  Lemma tails_ext o o' op (t t' : list (expr K)) :
    Forall2 (fun x y => fmt_expr w o x = fmt_expr w o' y) t t' -> tails w o op t = tails w o' op t'.
  Proof. unfold tails. induction 1 as [|x y l l' E _ IH]; [reflexivity|]. cbn. rewrite E, IH. reflexivity. Qed.
  Lemma expl_text o e : f_explicit o = true -> fmt_expr w o e = fmt_expr w (plainly o) (expl e).
  Proof.
    intros Ho.
    assert (Hm : forall t, Forall (fun e => fmt_expr w o e = fmt_expr w (plainly o) (expl e)) t ->
              Forall2 (fun x y => fmt_expr w o x = fmt_expr w (plainly o) y) t (map expl t)).
    { induction 1; constructor; auto. }
    induction e as [k|v|e IH|e IH|e IH|h t IHh IHt|h t IHh IHt|h t IHh IHt|h t IHh IHt] using expr_ind'.
    - reflexivity.
    - reflexivity.
    - cbn. rewrite Ho. exact IH.
    - cbn [expl fmt_expr]. rewrite IH. reflexivity.
    - cbn [expl fmt_expr]. rewrite IH. reflexivity.
    - cbn [expl fmt_expr]. rewrite Ho. cbn [plainly f_explicit]. rewrite !tails_eq, IHh, (tails_ext _ (plainly o) _ _ _ (Hm _ IHt)). reflexivity.
    - cbn [expl fmt_expr]. rewrite Ho. cbn [plainly f_explicit]. rewrite !tails_eq, IHh, (tails_ext _ (plainly o) _ _ _ (Hm _ IHt)). reflexivity.
    - cbn [expl fmt_expr]. rewrite Ho. cbn [plainly f_explicit]. rewrite !tails_eq, IHh, (tails_ext _ (plainly o) _ _ _ (Hm _ IHt)). reflexivity.
    - cbn [expl fmt_expr]. rewrite Ho. cbn [plainly f_explicit]. rewrite !tails_eq, IHh, (tails_ext _ (plainly o) _ _ _ (Hm _ IHt)). reflexivity.
  Qed.

  Lemma shape_numbers (P Q : K -> Prop) e : forall L, shape P L e -> (forall k, number_in k e -> Q k) -> shape Q L e.
  Proof.
    induction e as [k|v|e IH|e IH|e IH|h t IHh IHt|h t IHh IHt|h t IHh IHt|h t IHh IHt] using expr_ind';
      intros L Hs HQ; inversion Hs; subst; constructor; auto.
    all: try (apply HQ; constructor).
    all: try (apply IH; auto; intros k Hk; apply HQ; constructor; exact Hk).
    all: try (apply IHh; auto; intros k Hk; apply HQ; econstructor; [left; reflexivity|exact Hk]).
    all: rewrite Forall_forall in *; intros x Hx; apply IHt; auto; intros k Hk; apply HQ; econstructor; [right; exact Hx|exact Hk].
  Qed.

  Lemma shape_number (P : K -> Prop) e : forall L, shape P L e -> forall k, number_in k e -> P k.
  Proof.
    induction e as [k|v|e IH|e IH|e IH|h t IHh IHt|h t IHh IHt|h t IHh IHt|h t IHh IHt] using expr_ind';
      intros L Hs k' Hk; inversion Hk; subst; inversion Hs; subst; eauto;
      match goal with H : In _ (_ :: _) |- _ => destruct H as [<-|Hi] end; eauto;
      rewrite Forall_forall in *; eauto.
  Qed.

  Context (rd : reader K T).
  Lemma parsed_shape n s e r : notab s -> length s < n -> expr_p rd n s = POk e r -> shape (const_ok rd) 6 e.
  Proof. intros H1 H2 H3. pose proof (yields_expr rd n s H2 H1) as H. rewrite H3 in H. tauto. Qed.

  Lemma written_reads o e m rest :
    shape (survives rd w) 6 e -> (f_explicit o = true -> signs_apart e) ->
    length (fmt_expr w o e) < m -> follow 6 rest ->
    exists e', expr_p rd m (fmt_expr w o e ++ rest) = POk e' rest /\ meaning e' = meaning e /\
      (f_explicit o = false -> e' = e).
  Proof.
    intros Hs Ha Hm Hf. destruct (f_explicit o) eqn:Eo.
    - rewrite (expl_text o e Eo) in *. exists (expl e). split; [|split; [apply meaning_expl|discriminate]].
      apply expr_reads_back; auto. eapply shape_mono; [|exact (proj1 (expl_shape _ e 6 Hs (Ha eq_refl)))]. lia.
    - exists e. split; [apply expr_reads_back; auto|auto].
  Qed.

  Lemma meaning_eval {NK : Num K} scope (e e' : expr K) : meaning e' = meaning e -> eval scope e' = eval scope e.
  Proof.
    intros H. destruct (eval scope e) as [k|x] eqn:E.
    - apply eval_value. rewrite H. apply eval_value. exact E.
    - apply eval_fails. rewrite H. apply eval_fails. exact E.
  Qed.
End Explicit.

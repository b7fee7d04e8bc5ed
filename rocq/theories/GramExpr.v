(** Macro expressions: what the parser builds, and that it reads back what the formatter wrote. *)
From Verif Require Import Base Num CoordModel Ast GramAst PegModel GramModel FmtModel GramText.
Local Open Scope nat_scope.

Section Shape.
  Context {K : Type} (P : K -> Prop).
  (** [shape L e]: [e] can be built by precedence level [L] of the grammar (0 operands, 1 unary
      minus, 2 unary plus, 3 division, 4 multiplication, 5 subtraction, 6 addition). *)
  Inductive shape : nat -> expr K -> Prop :=
  | sh_const L k : P k -> shape L (EConst k)
  | sh_var L d : digits1 d -> shape L (EVar ("$"%char :: d))
  | sh_paren L e : shape 6 e -> shape L (EParen e)
  | sh_neg L e : 1 <= L -> shape 1 e -> shape L (ENeg e)
  | sh_pos L e : 2 <= L -> shape 2 e -> shape L (EPos e)
  | sh_div L h t : 3 <= L -> shape 2 h -> t <> [] -> Forall (shape 2) t -> shape L (EDiv h t)
  | sh_mul L h t : 4 <= L -> shape 3 h -> t <> [] -> Forall (shape 3) t -> shape L (EMul h t)
  | sh_sub L h t : 5 <= L -> shape 4 h -> t <> [] -> Forall (shape 4) t -> shape L (ESub h t)
  | sh_add L h t : 6 <= L -> shape 5 h -> t <> [] -> Forall (shape 5) t -> shape L (EAdd h t).
  Lemma shape_mono L L' e : L <= L' -> shape L e -> shape L' e.
  Proof. intros Hl H; inversion H; subst; constructor; auto; lia. Qed.
End Shape.

Section ExprParse.
  Context {K T : Type} (rd : reader K T).

  Definition factor_p (n : nat) : parser (expr K) :=
    first_of [ variable_p; constant_p rd;
               (lit_p "(" ;; do e <- expr_p rd n; lit_p ")" ;; ret (EParen e)) ].
  Definition neg_p (kn n : nat) := unary kn "-" ENeg (factor_p n).
  Definition pos_p (kp kn n : nat) := unary kp "+" EPos (neg_p kn n).
  Definition div_p (kb kp kn n : nat) := binary kb (lit_p "/") EDiv (pos_p kp kn n).
  Definition mul_p kb kp kn n := binary kb (one_of ["x"; "X"]%string) EMul (div_p kb kp kn n).
  Definition sub_p kb kp kn n := binary kb (lit_p "-") ESub (mul_p kb kp kn n).
  Definition add_p kb kp kn n := binary kb (lit_p "+") EAdd (sub_p kb kp kn n).
  Lemma expr_p_S m : expr_p rd (S m) = add_p (S m) (S m) (S m) m.
  Proof. reflexivity. Qed.

  (** ** What the parser builds *)
  Definition const_ok (k : K) : Prop :=
    exists t, double_text t /\ head_is (Ascii.eqb "-") t = false /\ k = r_num rd t.

  Lemma unary_S m op mk (last : parser (expr K)) :
    unary (S m) op mk last =
    first_of [ (followed_by (lit_p op ;; unary m op mk last) ;;
                do e <- (lit_p op ;; unary m op mk last); ret (mk e)); last ].
  Proof. reflexivity. Qed.
  Lemma yields_unary n m op0 op mk (last : parser (expr K)) (Q : expr K -> Prop) :
    (forall e, Q e -> Q (mk e)) -> n <= m ->
    yields n true last Q -> yields n true (unary m (String op0 op) mk last) Q.
  Proof.
    intros Hmk. revert n. induction m as [|m IH]; intros n Hnm Hl.
    { intros s Hs. lia. }
    destruct n as [|n]; [intros s Hs; lia|].
    assert (Ht : yields n true (unary m (String op0 op) mk last) Q).
    { apply IH; [lia|]. eapply yields_weaken; [exact Hl|lia|auto|auto]. }
    rewrite unary_S. apply yields_first_of. constructor; [|constructor; [exact Hl|constructor]].
    unfold pthen. eapply (yields_bind (S n) false true).
    { eapply yields_followed_by. eapply yields_bind_less; [apply yields_lit|]. intros _ _; exact Ht. }
    intros _ _. eapply (yields_bind (S n) true false).
    { eapply yields_bind_less; [apply yields_lit|]. intros _ _; exact Ht. }
    intros e He. apply yields_ret. auto.
  Qed.
  Lemma yields_binary {O} n (op : parser O) mk (last : parser (expr K)) (Q Q' : expr K -> Prop) :
    yields n true op (fun _ => True) ->
    (forall e, Q e -> Q' e) -> (forall h t, Q h -> t <> [] -> Forall Q t -> Q' (mk h t)) ->
    yields n true last Q -> yields n true (binary n op mk last) Q'.
  Proof.
    intros Ho H1 H2 Hl. unfold binary. apply yields_first_of.
    assert (Hol : yields n true (op ;; last) Q) by (apply (yields_then n true true _ _ _ _ Ho Hl)).
    constructor; [|constructor; [|constructor]].
    - apply (yields_then n false true _ _ (fun _ => True)).
      + eapply yields_followed_by. apply (yields_then n true true _ _ _ _ Hl Hol).
      + eapply (yields_bind n true true); [exact Hl|]. intros h Hh.
        eapply (yields_bind n true false); [apply yields_many1; exact Hol|]. intros t [Ht1 Ht2].
        apply yields_ret. auto.
    - eapply yields_weaken; [exact Hl|lia|auto|auto].
  Qed.
  Lemma yields_variable n L : yields n true (@variable_p K) (shape const_ok L).
  Proof.
    unfold variable_p. eapply (yields_bind n true false) with (Q1 := fun v => exists d, v = "$"%char :: d /\ digits1 d).
    - apply yields_token. intros s a r _ _ H. destruct s as [|c s]; [discriminate|].
      cbn in H. destruct (Ascii.eqb c "$") eqn:E; [|discriminate]. apply Ascii.eqb_eq in E as ->.
      destruct (re_digits s) as [[d r']|] eqn:Ed; [|discriminate]. injection H as <- <-.
      apply re_digits_some in Ed as (Hd & -> & _). split; [eauto|].
      exists ("$"%char :: d). split; [reflexivity|discriminate].
    - intros a (d & -> & Hd). apply yields_ret. constructor; exact Hd.
  Qed.
  Lemma yields_num n : yields n true double_p double_text.
  Proof.
    apply yields_token. intros s a r _ _ H. apply re_double_some in H as [H ->]. split; [exact H|].
    exists a. split; [reflexivity|]. intros _ ->. destruct H as (sg & u & E & Hs & d & f & -> & H).
    destruct sg; [|discriminate]. destruct d; [|discriminate]. destruct f; [|discriminate].
    destruct H as [[[H _] _]|[_ (g & H & _)]]; congruence.
  Qed.
  (** Operands, before it is known that a constant carries no minus sign. *)
  Lemma yields_paren n :
    yields n true (expr_p rd n) (shape const_ok 6) ->
    yields (S n) true (lit_p "(" ;; do e <- expr_p rd n; lit_p ")" ;; ret (EParen e))
      (shape const_ok 0).
  Proof.
    intros He. unfold pthen at 1. eapply yields_bind_less; [apply yields_lit|]. intros _ _.
    eapply (yields_bind n true true); [exact He|]. intros e He'.
    apply (yields_then n true false _ _ (fun _ => True)); [apply yields_lit|].
    apply yields_ret. constructor; exact He'.
  Qed.

  Lemma constant_p_ok s e r : constant_p rd s = POk e r ->
    exists t, double_text t /\ e = EConst (r_num rd t) /\ skip s = t ++ r.
  Proof.
    unfold constant_p, num_p, double_p, token, pbind, ret. intros H.
    destruct (re_double (skip s)) as [[t r']|] eqn:E; [|discriminate]. injection H as <- <-.
    apply re_double_some in E as [E1 E2]. eauto.
  Qed.
  Lemma constant_p_no_err s e : constant_p rd s <> PErr e.
  Proof.
    unfold constant_p, num_p, double_p, token, pbind, ret.
    destruct (re_double (skip s)) as [[t r']|]; discriminate.
  Qed.
  Lemma variable_p_no_err s e : @variable_p K s <> PErr e.
  Proof.
    unfold variable_p, token, pbind, ret.
    destruct (re_variable (skip s)) as [[t r']|]; discriminate.
  Qed.

  Lemma lit_p_head l c s : lit l = [c] ->
    lit_p l s = match skip s with
                | d :: r => if Ascii.eqb c d then POk tt r else PFail
                | [] => PFail
                end.
  Proof.
    intros Hl. unfold lit_p, token. rewrite Hl. destruct (skip s) as [|d r]; [reflexivity|]. cbn.
    destruct (Ascii.eqb c d); reflexivity.
  Qed.

  (** A number is an operand of the unary minus level. *)
  Lemma neg_p_number k n t r : unsigned t -> exists x, neg_p (S k) n (t ++ r) = x /\ x <> PFail.
  Proof.
    intros Hu. eexists. split; [reflexivity|]. unfold neg_p. cbn [unary first_of].
    assert (Hk : skip (t ++ r) = t ++ r) by (apply skip_id, (unsigned_head t r Hu)).
    assert (Hf : lit_p "-" (t ++ r) = PFail).
    { rewrite (lit_p_head _ "-"%char) by reflexivity. rewrite Hk.
      pose proof (proj1 (unsigned_head t r Hu)) as H. destruct (t ++ r) as [|c u]; [reflexivity|].
      cbn in H. destruct (Ascii.eqb "-" c) eqn:E; [|reflexivity]. apply Ascii.eqb_eq in E as <-. discriminate. }
    unfold pthen at 1, pbind at 1, followed_by, pthen at 1, pbind at 1. rewrite Hf.
    unfold factor_p. cbn [first_of].
    destruct (@variable_p K (t ++ r)) as [a q| |e] eqn:Ev; try discriminate.
    assert (Hc : exists e q, constant_p rd (t ++ r) = POk e q).
    { unfold constant_p, num_p, double_p, token, pbind, ret. rewrite Hk.
      pose proof (re_double_sign [] (t ++ r) (or_introl eq_refl) (proj1 (unsigned_head t r Hu))) as Hrd.
      cbn [app] in Hrd. rewrite Hrd. clear Hrd.
      assert (Hx : exists a b, unsigned_re (t ++ r) = Some (a, b)).
      { unfold unsigned_re. destruct Hu as (d & f & -> & [[Hd Hf']|[-> (g & -> & Hg)]]).
        - destruct (re_digits ((d ++ f) ++ r)) as [[d' s2]|] eqn:Ed.
          + destruct (opt_fraction s2). eauto.
          + exfalso. unfold re_digits in Ed. destruct Hd as [Hn Hd]. destruct d as [|c d]; [congruence|].
            apply all_cons in Hd as [Hd _]. cbn in Ed. rewrite Hd in Ed.
            destruct (span is_digit ((d ++ f) ++ r)); discriminate.
        - cbn [app]. rewrite re_digits_none by reflexivity. cbn [opt_fraction].
          change (Ascii.eqb "." ".") with true. cbn iota.
          destruct (re_digits (g ++ r)) as [[d' s2]|] eqn:Ed; [cbn; eauto|].
          exfalso. unfold re_digits in Ed. destruct Hg as [Hn Hd]. destruct g as [|c d]; [congruence|].
          apply all_cons in Hd as [Hd _]. cbn in Ed. rewrite Hd in Ed.
          destruct (span is_digit (d ++ r)); discriminate. }
      destruct Hx as (a & b & ->). eauto. }
    destruct Hc as (e & q & ->). discriminate.
  Qed.

  Lemma yields_neg n :
    yields n true (expr_p rd n) (shape const_ok 6) ->
    yields (S n) true (neg_p (S n) n) (shape const_ok 1).
  Proof.
    intros He. pose proof (yields_paren n He) as Hp.
    assert (G : forall k N, N <= k -> N <= S n -> yields N true (neg_p k n) (shape const_ok 1)).
    { induction k as [|k IH]; intros N Hk HN; [intros s Hs; lia|].
      destruct N as [|N]; [intros s Hs; lia|].
      assert (Ht : yields N true (neg_p k n) (shape const_ok 1)) by (apply IH; lia).
      assert (Hu : yields (S N) true (lit_p "-" ;; neg_p k n) (shape const_ok 1)).
      { eapply yields_bind_less; [apply yields_lit|]. intros _ _; exact Ht. }
      intros s Hs Hb. unfold neg_p at 1. cbn [unary first_of]. fold (neg_p k n).
      pose proof (Hu s Hs Hb) as Hu'.
      unfold pthen at 1, pbind at 1, followed_by. 
      destruct ((lit_p "-" ;; neg_p k n) s) as [a r| |e] eqn:Eu.
      - unfold pbind. rewrite Eu. cbn. destruct Hu' as (H1 & H2 & H3). repeat split; auto.
        constructor; auto.
      - clear Hu'. unfold factor_p. cbn [first_of].
        pose proof (yields_variable (S N) 1 s Hs Hb) as Hv.
        destruct (@variable_p K s) as [a r| |e]; [exact Hv| |exact Hv]. clear Hv.
        destruct (constant_p rd s) as [a r| |e] eqn:Ec.
        + pose proof (constant_p_ok _ _ _ Ec) as (t & Ht1 & -> & Ht2).
          assert (Hm : head_is (Ascii.eqb "-") t = false).
          { destruct t as [|c t]; [reflexivity|]. cbn [head_is]. destruct (Ascii.eqb "-" c) eqn:E; [|reflexivity].
            exfalso. apply Ascii.eqb_eq in E as <-.
            unfold pthen, pbind in Eu. rewrite (lit_p_head _ "-"%char) in Eu by reflexivity.
            rewrite Ht2 in Eu. cbn [app] in Eu. rewrite Ascii.eqb_refl in Eu.
            destruct Ht1 as (sg & u & Ht1 & Hsg & Huu).
            assert (sg = ["-"%char] /\ u = t) as [-> ->].
            { destruct Hsg as [->|[->| ->]]; [|discriminate|injection Ht1 as <-; auto].
              exfalso. cbn in Ht1. rewrite <- Ht1 in Huu.
              pose proof (proj1 (unsigned_head _ [] Huu)). discriminate. }
            destruct k as [|k].
            - pose proof (skip_length s) as Hl. rewrite Ht2 in Hl. cbn in Hl. lia.
            - destruct (neg_p_number k n t r Huu) as (x & Hx1 & Hx2). rewrite Hx1 in Eu.
              destruct x; congruence. }
          split; [constructor; exists t; auto|].
          pose proof (skip_all _ s Hb) as Hb'. pose proof (skip_length s) as Hl.
          rewrite Ht2 in Hb', Hl. apply all_app in Hb'. split; [tauto|].
          rewrite app_length in Hl. destruct t; [|cbn in Hl; lia].
          destruct Ht1 as (sg & u & E & Hs' & d & f & -> & H).
          destruct sg; [|discriminate]. destruct d; [|discriminate]. destruct f; [|discriminate].
          destruct H as [[[H _] _]|[_ (g & H & _)]]; congruence.
        + specialize (Hp s ltac:(lia) Hb).
          destruct ((lit_p "(" ;; do e0 <- expr_p rd n; lit_p ")" ;; ret (EParen e0)) s)
            as [a r| |e]; [|exact I|exact Hp].
          destruct Hp as (H1 & H2 & H3). repeat split; auto.
          eapply shape_mono; [|exact H1]. lia.
        + exfalso. exact (constant_p_no_err _ _ Ec).
      - exact Hu'. }
    apply G; lia.
  Qed.

  Lemma yields_expr n : yields n true (expr_p rd n) (shape const_ok 6).
  Proof.
    induction n as [|n IH]; [intros s Hs; lia|]. rewrite expr_p_S.
    pose proof (yields_neg n IH) as Hn. 
    assert (Hpos : yields (S n) true (pos_p (S n) (S n) n) (shape const_ok 2)).
    { apply yields_unary; [intros e He; constructor; [lia|exact He]|lia|].
      eapply yields_weaken; [exact Hn|lia|auto|]. intros e. apply shape_mono. lia. }
    assert (Hdiv : yields (S n) true (div_p (S n) (S n) (S n) n) (shape const_ok 3)).
    { eapply yields_binary; [apply yields_lit| | |exact Hpos].
      - intros e. apply shape_mono; lia.
      - intros h t. constructor; auto. }
    assert (Hmul : yields (S n) true (mul_p (S n) (S n) (S n) n) (shape const_ok 4)).
    { eapply yields_binary; [eapply yields_weaken; [apply yields_one_of|apply le_n| |]| | |exact Hdiv]; auto.
      - cbn. intros [H|[H|[]]]; discriminate.
      - intros e. apply shape_mono; lia.
      - intros h t. constructor; auto. }
    assert (Hsub : yields (S n) true (sub_p (S n) (S n) (S n) n) (shape const_ok 5)).
    { eapply yields_binary; [apply yields_lit| | |exact Hmul].
      - intros e. apply shape_mono; lia.
      - intros h t. constructor; auto. }
    eapply yields_binary; [apply yields_lit| | |exact Hsub].
    - intros e. apply shape_mono; lia.
    - intros h t. constructor; auto.
  Qed.
End ExprParse.

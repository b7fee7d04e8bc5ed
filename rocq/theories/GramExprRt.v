(** The parser reads back the expressions the formatter writes. *)
From Verif Require Import Base Num CoordModel Ast GramAst PegModel GramModel FmtModel GramText GramExpr.
Local Open Scope nat_scope.

(** Characters that may come after an expression of level [L]: those closing it and the operators
    of higher levels. *)
Definition follow_char (L : nat) (c : ascii) : bool :=
  existsb (Ascii.eqb c) [")"; ","; "*"]%char
  || ((L <? 6) && Ascii.eqb c "+") || ((L <? 5) && Ascii.eqb c "-")
  || ((L <? 4) && (Ascii.eqb c "x" || Ascii.eqb c "X")) || ((L <? 3) && Ascii.eqb c "/").
Definition follow (L : nat) (s : str) : Prop :=
  match s with [] => True | c :: _ => follow_char L c = true end.

Lemma follow_char_0 L c : follow_char L c = true -> follow_char 0 c = true.
Proof.
  unfold follow_char. rewrite !orb_true_iff, !andb_true_iff. cbn [Nat.ltb Nat.leb]. intuition.
Qed.
Lemma follow_le L L' s : L <= L' -> follow L' s -> follow L s.
Proof.
  intros Hl. destruct s as [|c s]; [auto|]. cbn. unfold follow_char.
  rewrite !orb_true_iff, !andb_true_iff, !Nat.ltb_lt. intuition lia.
Qed.
Lemma follow_num L s : follow L s -> num_end s.
Proof.
  destruct s as [|c s]; [reflexivity|]. cbn. intros H. apply follow_char_0 in H. unfold num_end. cbn.
  revert H. by_char c.
Qed.
Lemma follow_ws L s : follow L s -> head_is is_ws s = false.
Proof.
  destruct s as [|c s]; [reflexivity|]. cbn. intros H. apply follow_char_0 in H.
  revert H. by_char c.
Qed.
Lemma lit_fail l c s : lit l = [c] -> head_is is_ws s = false ->
  head_is (Ascii.eqb c) s = false -> lit_p l s = PFail.
Proof.
  intros Hl H1 H2. rewrite (lit_p_head _ c) by exact Hl. rewrite (skip_id _ H1).
  destruct s as [|d s]; [reflexivity|]. cbn in H2. rewrite H2. reflexivity.
Qed.
Lemma lit_ok l c s : lit l = [c] -> is_ws c = false -> lit_p l (c :: s) = POk tt s.
Proof.
  intros Hl H1. rewrite (lit_p_head _ c) by exact Hl. rewrite skip_id by exact H1.
  rewrite Ascii.eqb_refl. reflexivity.
Qed.

Section Rt.
  Context {K T : Type} (rd : reader K T) (w : writer K T) (o : settings).
  Hypothesis Hexp : f_explicit o = false.
  Definition survives (k : K) : Prop := unsigned (w_num w k) /\ r_num rd (w_num w k) = k.
  Notation text := (fmt_expr w o).
  Definition tails (op : string) (t : list (expr K)) : str := concat (map (fun x => lit op ++ text x) t).

  Lemma tails_eq op t :
    (fix tail (l : list (expr K)) : str :=
       match l with [] => [] | x :: r => lit op ++ text x ++ tail r end) t = tails op t.
  Proof. induction t as [|x t IH]; [reflexivity|]. unfold tails. cbn. rewrite IH, app_assoc. reflexivity. Qed.
  Lemma text_paren e : text (EParen e) = lit "(" ++ text e ++ lit ")".
  Proof. cbn. rewrite Hexp. reflexivity. Qed.
  Lemma text_bin h t :
    text (EAdd h t) = text h ++ tails "+" t /\ text (ESub h t) = text h ++ tails "-" t /\
    text (EMul h t) = text h ++ tails "x" t /\ text (EDiv h t) = text h ++ tails "/" t.
  Proof. rewrite <- !tails_eq. cbn. rewrite Hexp. auto. Qed.

  (** Fall through a level whose operator does not follow. *)
  Lemma binary_lift {O} n (op : parser O) mk last s (e : expr K) rest :
    last s = POk e rest -> op rest = PFail -> binary n op mk last s = POk e rest.
  Proof.
    intros H1 H2. unfold binary. cbn [first_of]. unfold pthen, pbind, followed_by. rewrite H1, H2. reflexivity.
  Qed.
  Lemma unary_lift n op c mk last s (e : expr K) rest :
    lit op = [c] -> head_is is_ws s = false -> head_is (Ascii.eqb c) s = false ->
    last s = POk e rest -> unary (S n) op mk last s = POk e rest.
  Proof.
    intros Ho H1 H2 H3. rewrite unary_S. cbn [first_of]. unfold pthen, pbind, followed_by.
    rewrite (lit_fail _ c); auto. rewrite H3. reflexivity.
  Qed.
  Lemma unary_ok n op c mk last s (e : expr K) rest :
    lit op = [c] -> is_ws c = false -> unary n op mk last s = POk e rest ->
    unary (S n) op mk last (c :: s) = POk (mk e) rest.
  Proof.
    intros Ho H1 H2. rewrite unary_S. cbn [first_of]. unfold pthen, pbind, followed_by.
    rewrite (lit_ok _ c) by auto. rewrite H2. rewrite (lit_ok _ c) by auto. rewrite H2. reflexivity.
  Qed.
  (** A whole binary level. *)
  Lemma binary_ok {O} n (op : parser O) ops mk last L (h : expr K) t rest :
    (forall s, exists y, op (lit ops ++ s) = POk y s) ->
    (forall s, follow L (lit ops ++ s)) ->
    follow L rest -> op rest = PFail ->
    (forall s, follow L s -> last (text h ++ s) = POk h s) ->
    (forall x s, In x t -> follow L s -> last (text x ++ s) = POk x s) ->
    t <> [] -> length t <= n ->
    binary n op mk last (text h ++ tails ops t ++ rest) = POk (mk h t) rest.
  Proof.
    intros Hop Hf Hrest Hno Hh Ht Hne Hn.
    assert (Hol : forall x s, In x t -> follow L s ->
              (op ;; last) ((lit ops ++ text x) ++ s) = POk x s /\ follow L ((lit ops ++ text x) ++ s)).
    { intros x s Hx Hs. rewrite <- app_assoc. split; [|apply Hf]. unfold pthen, pbind.
      destruct (Hop (text x ++ s)) as [y ->]. apply Ht; auto. }
    assert (Hno' : (op ;; last) rest = PFail) by (unfold pthen, pbind; rewrite Hno; reflexivity).
    destruct t as [|x t]; [congruence|].
    assert (Hm : many n (op ;; last) (tails ops t ++ rest) = POk t rest /\ follow L (tails ops t ++ rest)).
    { apply (many_ok (op ;; last) (fun x => lit ops ++ text x) (follow L) rest Hrest Hno').
      - intros y s Hy. apply Hol. right; exact Hy.
      - cbn in Hn. lia. }
    destruct Hm as [Hm1 Hm2].
    assert (E : tails ops (x :: t) ++ rest = (lit ops ++ text x) ++ tails ops t ++ rest).
    { unfold tails. cbn. rewrite <- !app_assoc. reflexivity. }
    rewrite E. destruct (Hol x _ (or_introl eq_refl) Hm2) as [H1 H2].
    pose proof (Hh _ H2) as H3.
    unfold binary. cbn [first_of]. unfold pthen at 1, pbind at 1, followed_by, pthen at 1, pbind at 1.
    rewrite H3, H1. unfold many1, pbind, ret. rewrite H3, H1, Hm1. reflexivity.
  Qed.

  (** First characters. *)
  Definition operand_head (s : str) : Prop :=
    head_is (fun c => is_digit c || existsb (Ascii.eqb c) ["."; "$"; "("]%char) s = true.
  Lemma operand_head_facts s : operand_head s ->
    head_is is_ws s = false /\ head_is (Ascii.eqb "-") s = false /\ head_is (Ascii.eqb "+") s = false.
  Proof.
    destruct s as [|c s]; [discriminate|]. unfold operand_head. cbn [head_is]. by_char c; auto.
  Qed.
  Lemma unsigned_operand u s : unsigned u -> operand_head (u ++ s).
  Proof.
    intros (d & f & -> & [[[Hn Hd] _]|[-> (g & -> & _)]]); [|reflexivity].
    destruct d as [|c d]; [congruence|]. apply all_cons in Hd as [Hd _]. unfold operand_head. cbn. rewrite Hd.
    reflexivity.
  Qed.

  Definition lev kb kp kn n (L : nat) : parser (expr K) :=
    match L with
    | 0 => factor_p rd n | 1 => neg_p rd kn n | 2 => pos_p rd kp kn n
    | 3 => div_p rd kb kp kn n | 4 => mul_p rd kb kp kn n
    | 5 => sub_p rd kb kp kn n | _ => add_p rd kb kp kn n
    end.

  Lemma one_of_x_fail s : head_is is_ws s = false ->
    head_is (fun c => Ascii.eqb c "x" || Ascii.eqb c "X") s = false -> one_of ["x"; "X"]%string s = PFail.
  Proof.
    intros H1 H2. unfold one_of, token. rewrite (skip_id _ H1). destruct s as [|c s]; [reflexivity|].
    cbn [head_is] in H2. cbn [map lit list_ascii_of_string first_prefix strip_prefix]. apply orb_false_iff in H2 as [H2 H3].
    rewrite (Ascii.eqb_sym "x" c), (Ascii.eqb_sym "X" c), H2, H3. reflexivity.
  Qed.
  Lemma follow_not L s c : follow L s -> follow_char L c = false -> head_is (Ascii.eqb c) s = false.
  Proof.
    destruct s as [|d s]; [reflexivity|]. cbn. intros H1 H2. destruct (Ascii.eqb c d) eqn:E; [|reflexivity].
    apply Ascii.eqb_eq in E as ->. congruence.
  Qed.

  (** From level [M] to a higher level [L]. *)
  Lemma lift kb kp kn n M L e s rest :
    M <= L -> L <= 6 -> 0 < kp -> 0 < kn ->
    (M <= 1 -> head_is is_ws s = false) ->
    (M <= 0 -> head_is (Ascii.eqb "-") s = false) ->
    (M <= 1 -> head_is (Ascii.eqb "+") s = false) ->
    lev kb kp kn n M s = POk e rest -> follow L rest -> lev kb kp kn n L s = POk e rest.
  Proof.
    intros HML HL Hkp Hkn H1 H2 H3 HM. revert HL. induction HML as [|L HML IH]; intros HL HF; [exact HM|].
    assert (HF' : follow L rest) by (eapply follow_le; [|exact HF]; lia).
    specialize (IH ltac:(lia) HF'). pose proof (follow_ws _ _ HF) as Hws.
    destruct L as [|[|[|[|[|[|L]]]]]]; [| | | | | |lia]; cbn [lev] in *.
    - destruct kn; [lia|]. apply (unary_lift _ _ "-"%char); [reflexivity|apply H1; lia|apply H2; lia|exact IH].
    - destruct kp; [lia|]. apply (unary_lift _ _ "+"%char); [reflexivity|apply H1; lia|apply H3; lia|exact IH].
    - apply binary_lift; [exact IH|]. apply (lit_fail _ "/"%char); auto. apply (follow_not _ _ _ HF). reflexivity.
    - apply binary_lift; [exact IH|]. apply one_of_x_fail; auto.
      pose proof (follow_not _ _ "x"%char HF eq_refl) as Hx. pose proof (follow_not _ _ "X"%char HF eq_refl) as HX.
      destruct rest as [|d r]; [reflexivity|]. cbn [head_is] in *.
      rewrite (Ascii.eqb_sym d "x"), (Ascii.eqb_sym d "X"), Hx, HX. reflexivity.
    - apply binary_lift; [exact IH|]. apply (lit_fail _ "-"%char); auto. apply (follow_not _ _ _ HF). reflexivity.
    - apply binary_lift; [exact IH|]. apply (lit_fail _ "+"%char); auto. apply (follow_not _ _ _ HF). reflexivity.
  Qed.

  Lemma tails_length op c t : lit op = [c] -> length t <= length (tails op t).
  Proof.
    intros H. induction t as [|x t IH]; [apply le_n|]. unfold tails in *. cbn [map concat].
    rewrite !app_length. apply (f_equal (@length ascii)) in H. cbn [length] in *. lia.
  Qed.
  Lemma tails_in op t x : In x t -> length (text x) <= length (tails op t).
  Proof.
    induction t as [|y t IH]; [contradiction|]. unfold tails in *. cbn [map concat].
    rewrite !app_length. intros [->|H]; [lia|]. specialize (IH H). lia.
  Qed.

  Theorem reads_back e : forall kb kp kn n L rest,
    shape survives L e -> L <= 6 -> length (text e) < kb -> length (text e) < kp ->
    length (text e) < kn -> length (text e) <= n -> follow L rest ->
    lev kb kp kn n L (text e ++ rest) = POk e rest.
  Proof.
    induction e as [k|v|e IH|e IH|e IH|h t IHh IHt|h t IHh IHt|h t IHh IHt|h t IHh IHt] using expr_ind';
      intros kb kp kn n L rest Hsh HL Hb Hp Hn Hm HF.
    - (* constant *)
      assert (Hu : unsigned (w_num w k) /\ r_num rd (w_num w k) = k) by (inversion Hsh; assumption).
      destruct Hu as [Hu Hk].
      pose proof (operand_head_facts _ (unsigned_operand _ rest Hu)) as (F1 & F2 & F3).
      apply (lift kb kp kn n 0); auto; try lia. cbn [lev text].
      unfold factor_p. cbn [first_of]. 
      assert (Hd : double_text (w_num w k)) by (exists [], (w_num w k); repeat split; auto; left; auto).
      assert (Hv : @variable_p K (w_num w k ++ rest) = PFail).
      { unfold variable_p, pbind, token. rewrite (skip_id _ F1).
        destruct Hu as (d & f & E & [[[Hne Hdd] _]|[-> (g & -> & _)]]); rewrite E; [|reflexivity].
        destruct d as [|c d]; [congruence|]. apply all_cons in Hdd as [Hdd _]. cbn [app re_variable].
        assert (Ascii.eqb c "$" = false) as ->; [|reflexivity]. revert Hdd. by_char c. }
      rewrite Hv. unfold constant_p, num_p, double_p, pbind, token. rewrite (skip_id _ F1).
      rewrite (re_double_app _ _ Hd (follow_num _ _ HF)). cbn. rewrite Hk. reflexivity.
    - (* variable *)
      assert (Hv : exists d, v = "$"%char :: d /\ digits1 d) by (inversion Hsh; eauto).
      destruct Hv as (d & -> & Hd).
      apply (lift kb kp kn n 0); auto; try lia. cbn [lev fmt_expr].
      unfold factor_p. cbn [first_of].
      assert (Hv : @variable_p K (("$"%char :: d) ++ rest) = POk (EVar ("$"%char :: d)) rest).
      { unfold variable_p, pbind, token. rewrite skip_id by reflexivity.
        cbn [app re_variable]. change (Ascii.eqb "$" "$") with true. cbn iota.
        rewrite (re_digits_app _ _ Hd (num_end_digit _ (follow_num _ _ HF))). reflexivity. }
      rewrite Hv. reflexivity.
    - (* parenthesis *)
      assert (He : shape survives 6 e) by (inversion Hsh; assumption).
      rewrite text_paren in *. rewrite !app_length in *. cbn [length lit list_ascii_of_string app] in *.
      apply (lift kb kp kn n 0); auto; try lia. cbn [lev].
      unfold factor_p. cbn [first_of].
      assert (Hv : forall s, @variable_p K ("("%char :: s) = PFail) by reflexivity.
      assert (Hc : forall s, constant_p rd ("("%char :: s) = PFail) by reflexivity.
      rewrite <- app_assoc. cbn [app]. rewrite Hv, Hc. unfold pthen at 1, pbind at 1.
      rewrite (lit_ok _ "("%char) by reflexivity. unfold pbind at 1.
      destruct n as [|n]; [lia|]. rewrite expr_p_S.
      pose proof (IH (S n) (S n) (S n) n 6 (")"%char :: rest) He) as H. cbn [lev] in H.
      rewrite H; [|lia..|reflexivity]. unfold pthen, pbind. rewrite (lit_ok _ ")"%char) by reflexivity. reflexivity.
    - (* minus *)
      assert (He : 1 <= L /\ shape survives 1 e) by (inversion Hsh; auto). destruct He as [HL1 He].
      cbn [fmt_expr] in *. rewrite !app_length in *. cbn [length lit list_ascii_of_string app] in *.
      apply (lift kb kp kn n 1); auto; try lia. cbn [lev].
      destruct kn as [|kn]; [lia|]. apply (unary_ok _ _ "-"%char); [reflexivity|reflexivity|].
      apply (IH kb kp kn n 1); auto; try lia. eapply follow_le; [|exact HF]. lia.
    - (* plus *)
      assert (He : 2 <= L /\ shape survives 2 e) by (inversion Hsh; auto). destruct He as [HL1 He].
      cbn [fmt_expr] in *. rewrite !app_length in *. cbn [length lit list_ascii_of_string app] in *.
      apply (lift kb kp kn n 2); auto; try lia. cbn [lev].
      destruct kp as [|kp]; [lia|]. apply (unary_ok _ _ "+"%char); [reflexivity|reflexivity|].
      apply (IH kb kp kn n 2); auto; try lia. eapply follow_le; [|exact HF]. lia.
    - (* addition *)
      assert (He : 6 <= L /\ shape survives 5 h /\ t <> [] /\ Forall (shape survives 5) t)
        by (inversion Hsh; auto).
      destruct He as (HL1 & Hh & Hne & Ht).
      pose proof (proj1 (text_bin h t)) as E. rewrite E in *. rewrite !app_length in *.
      pose proof (tails_length "+" "+"%char t eq_refl) as Hl.
      apply (lift kb kp kn n 6); auto; try lia. cbn [lev]. rewrite <- app_assoc.
      apply (binary_ok kb (lit_p "+") "+"%string EAdd _ 5); auto; try lia.
      + intros s. exists tt. apply (lit_ok _ "+"%char); reflexivity.
      + intros s. reflexivity.
      + eapply follow_le; [|exact HF]. lia.
      + apply (lit_fail _ "+"%char); [reflexivity|apply (follow_ws _ _ HF)|].
        apply (follow_not 6 _ _); [|reflexivity]. eapply follow_le; [|exact HF]. lia.
      + intros s Hs. apply (IHh kb kp kn n 5); auto; lia.
      + intros x s Hx Hs. rewrite Forall_forall in IHt, Ht. pose proof (tails_in "+" t x Hx).
        apply (IHt x Hx kb kp kn n 5); auto; lia.
    - (* subtraction *)
      assert (He : 5 <= L /\ shape survives 4 h /\ t <> [] /\ Forall (shape survives 4) t)
        by (inversion Hsh; auto).
      destruct He as (HL1 & Hh & Hne & Ht).
      pose proof (proj1 (proj2 (text_bin h t))) as E. rewrite E in *. rewrite !app_length in *.
      pose proof (tails_length "-" "-"%char t eq_refl) as Hl.
      apply (lift kb kp kn n 5); auto; try lia. cbn [lev]. rewrite <- app_assoc.
      apply (binary_ok kb (lit_p "-") "-"%string ESub _ 4); auto; try lia.
      + intros s. exists tt. apply (lit_ok _ "-"%char); reflexivity.
      + intros s. reflexivity.
      + eapply follow_le; [|exact HF]. lia.
      + apply (lit_fail _ "-"%char); [reflexivity|apply (follow_ws _ _ HF)|].
        apply (follow_not 5 _ _); [|reflexivity]. eapply follow_le; [|exact HF]. lia.
      + intros s Hs. apply (IHh kb kp kn n 4); auto; lia.
      + intros x s Hx Hs. rewrite Forall_forall in IHt, Ht. pose proof (tails_in "-" t x Hx).
        apply (IHt x Hx kb kp kn n 4); auto; lia.
    - (* multiplication *)
      assert (He : 4 <= L /\ shape survives 3 h /\ t <> [] /\ Forall (shape survives 3) t)
        by (inversion Hsh; auto).
      destruct He as (HL1 & Hh & Hne & Ht).
      pose proof (proj1 (proj2 (proj2 (text_bin h t)))) as E. rewrite E in *. rewrite !app_length in *.
      pose proof (tails_length "x" "x"%char t eq_refl) as Hl.
      apply (lift kb kp kn n 4); auto; try lia. cbn [lev]. rewrite <- app_assoc.
      apply (binary_ok kb (one_of ["x"; "X"]%string) "x"%string EMul _ 3); auto; try lia.
      + intros s. exists (lit "x"). unfold one_of, token. rewrite skip_id by reflexivity. destruct s; reflexivity.
      + intros s. reflexivity.
      + eapply follow_le; [|exact HF]. lia.
      + apply one_of_x_fail; [apply (follow_ws _ _ HF)|].
        assert (HF4 : follow 4 rest) by (eapply follow_le; [|exact HF]; lia).
        pose proof (follow_not _ _ "x"%char HF4 eq_refl) as Hx. pose proof (follow_not _ _ "X"%char HF4 eq_refl) as HX.
        destruct rest as [|d r]; [reflexivity|]. cbn [head_is] in *.
        rewrite (Ascii.eqb_sym d "x"), (Ascii.eqb_sym d "X"), Hx, HX. reflexivity.
      + intros s Hs. apply (IHh kb kp kn n 3); auto; lia.
      + intros x s Hx Hs. rewrite Forall_forall in IHt, Ht. pose proof (tails_in "x" t x Hx).
        apply (IHt x Hx kb kp kn n 3); auto; lia.
    - (* division *)
      assert (He : 3 <= L /\ shape survives 2 h /\ t <> [] /\ Forall (shape survives 2) t)
        by (inversion Hsh; auto).
      destruct He as (HL1 & Hh & Hne & Ht).
      pose proof (proj2 (proj2 (proj2 (text_bin h t)))) as E. rewrite E in *. rewrite !app_length in *.
      pose proof (tails_length "/" "/"%char t eq_refl) as Hl.
      apply (lift kb kp kn n 3); auto; try lia. cbn [lev]. rewrite <- app_assoc.
      apply (binary_ok kb (lit_p "/") "/"%string EDiv _ 2); auto; try lia.
      + intros s. exists tt. apply (lit_ok _ "/"%char); reflexivity.
      + intros s. reflexivity.
      + eapply follow_le; [|exact HF]. lia.
      + apply (lit_fail _ "/"%char); [reflexivity|apply (follow_ws _ _ HF)|].
        apply (follow_not 3 _ _); [|reflexivity]. eapply follow_le; [|exact HF]. lia.
      + intros s Hs. apply (IHh kb kp kn n 2); auto; lia.
      + intros x s Hx Hs. rewrite Forall_forall in IHt, Ht. pose proof (tails_in "/" t x Hx).
        apply (IHt x Hx kb kp kn n 2); auto; lia.
  Qed.

  Corollary expr_reads_back e n rest :
    shape survives 6 e -> length (text e) < n -> follow 6 rest ->
    expr_p rd n (text e ++ rest) = POk e rest.
  Proof.
    intros Hs Hn Hf. destruct n as [|n]; [lia|]. rewrite expr_p_S.
    apply (reads_back e (S n) (S n) (S n) n 6 rest Hs); auto; lia.
  Qed.
End Rt.

(** The option [explicit_parenthesis] for whole files: what is written is the plain form of the
    file with other expressions in its macros. *)
From Verif Require Import Base Num CoordModel Ast GramAst PegModel GramModel FmtModel GramText GramExpr
  GramExprRt GramExprSpec GramTok GramWf GramFileSpec GramExplicit.
Local Open Scope nat_scope.

Section File.
  Context {K T : Type}.
  Definition expl_prim (p : prim K) : prim K :=
    let x := @expl K in
    match p with
    | PCode0 s => PCode0 s
    | PCode1 a b c d r => PCode1 (x a) (x b) (x c) (x d) (option_map x r)
    | PCode2 a b c d e f g => PCode2 (x a) (x b) (x c) (x d) (x e) (x f) (x g)
    | PCode4 a b c d pts r => PCode4 (x a) (x b) (x c) (x d) (map (fun q => (x (fst q), x (snd q))) pts) (x r)
    | PCode5 a b c d e f => PCode5 (x a) (x b) (x c) (x d) (x e) (x f)
    | PCode6 a b c d e f g h i => PCode6 (x a) (x b) (x c) (x d) (x e) (x f) (x g) (x h) (x i)
    | PCode7 u a b c d e f => PCode7 u (x a) (x b) (x c) (x d) (x e) (x f)
    | PCode20 a b c d e f g => PCode20 (x a) (x b) (x c) (x d) (x e) (x f) (x g)
    | PCode21 a b c d e f => PCode21 (x a) (x b) (x c) (x d) (x e) (x f)
    | PCode22 a b c d e f => PCode22 (x a) (x b) (x c) (x d) (x e) (x f)
    | PAssign v e => PAssign v (x e)
    end.
  Fixpoint expl_cmd (c : cmd K T) : cmd K T :=
    match c with
    | CAB id b => CAB id (map expl_cmd b)
    | CSR h b => CSR h (map expl_cmd b)
    | CAM n ps => CAM n (map expl_prim ps)
    | c => c
    end.
  (** The expressions of a file. *)
  Fixpoint exprs_in (c : cmd K T) : list (expr K) :=
    match c with
    | CAB _ b | CSR _ b => flat_map exprs_in b
    | CAM _ ps => flat_map prim_exprs ps
    | _ => []
    end.

  Variable rd : reader K T.
  Variable w : writer K T.
  Notation P := (const_ok rd).
  Notation ex := (shape P 6).
  Lemma expl_ex e : ex e -> signs_apart e -> ex (expl e).
  Proof. intros H A. eapply shape_mono; [|exact (proj1 (expl_shape P e 6 H A))]. lia. Qed.
  Lemma wf_expl_prim p : wf_prim rd p -> Forall signs_apart (prim_exprs p) -> wf_prim rd (expl_prim p).
  Proof.
    assert (L : forall l, Forall ex l -> Forall signs_apart l -> Forall ex (map expl l)).
    { induction 1; intros A; constructor; inversion A; subst; [apply expl_ex; auto|auto]. }
    destruct p; cbn [wf_prim expl_prim prim_exprs]; intros H A; auto.
    - destruct H as [H Hr]. apply Forall_app in A. destruct A as [A Ar].
      split; [exact (L _ H A)|]. destruct rotation; [|exact I]. cbn in *. apply expl_ex; [exact Hr|]. inversion Ar; auto.
    - exact (L _ H A).
    - destruct H as (H & Hn & Hp & Hr). apply Forall_app in A. destruct A as [A Ar]. apply Forall_app in Ar. destruct Ar as [Ap Ar].
      split; [exact (L _ H A)|]. split; [destruct points; [congruence|discriminate]|]. split.
      + clear Hn. induction Hp as [|[a b] l [Ha Hb] Hl IH]; [constructor|]. cbn in Ap. inversion Ap as [|? ? A1 Ap1]; subst. inversion Ap1; subst.
        constructor; [split; cbn; apply expl_ex; auto|]. apply IH. assumption.
      + apply expl_ex; [exact Hr|]. inversion Ar; auto.
    - exact (L _ H A).
    - exact (L _ H A).
    - destruct H as [Hu H]. split; [exact Hu|]. exact (L _ H A).
    - exact (L _ H A).
    - exact (L _ H A).
    - exact (L _ H A).
    - destruct H as [Hv H]. split; [exact Hv|]. apply expl_ex; [exact H|]. inversion A; auto.
  Qed.
  Notation apart := (fun c => Forall signs_apart (exprs_in c)).
  Lemma wf_expl_leaf c : wf_leaf rd c -> apart c -> wf_leaf rd (expl_cmd c).
  Proof.
    destruct c; cbn [expl_cmd wf_leaf]; try tauto. cbn [exprs_in]. intros [Hn H] A. split; [exact Hn|].
    induction H as [|p l Hp _ IH]; [constructor|]. cbn in A. apply Forall_app in A. destruct A.
    constructor; [apply wf_expl_prim; auto|auto].
  Qed.
  Lemma expl_d sa c : @wf_d K T sa c -> expl_cmd c = c.
  Proof. destruct c; try contradiction; reflexivity. Qed.
  Lemma expl_concat (b : list (list (cmd K T))) : map expl_cmd (concat b) = concat (map (map expl_cmd) b).
  Proof. apply concat_map. Qed.
  Lemma apart_flat (b : list (cmd K T)) : Forall signs_apart (flat_map exprs_in b) -> Forall apart b.
  Proof. induction b; cbn; intros H; [constructor|]. apply Forall_app in H. destruct H. constructor; auto. Qed.
  Lemma apart_concat (b : list (list (cmd K T))) : Forall apart (concat b) -> Forall (Forall apart) b.
  Proof. induction b; cbn; intros H; [constructor|]. apply Forall_app in H. destruct H. constructor; auto. Qed.
  Lemma map_items (Q R : list (cmd K T) -> Prop) (H : forall l, Q l -> Forall apart l -> R (map expl_cmd l)) b :
    Forall Q b -> Forall (Forall apart) b -> Forall R (map (map expl_cmd) b).
  Proof. induction 1; intros A; constructor; inversion A; subst; auto. Qed.
  Lemma expl_item m : forall l, item rd m l -> Forall apart l -> item rd m (map expl_cmd l).
  Proof.
    assert (Leaf : forall m l, (exists c, l = [c] /\ wf_leaf rd c) -> Forall apart l -> item rd m (map expl_cmd l)).
    { intros m' l (c & -> & H) A. assert (exists c', map expl_cmd [c] = [c'] /\ wf_leaf rd c').
      { exists (expl_cmd c). split; [reflexivity|]. apply wf_expl_leaf; [exact H|]. inversion A; auto. }
      destruct m'; left; assumption. }
    assert (Pair : forall m l, (exists g d, l = [CG false g; d] /\ wf_d false d) -> item rd m (map expl_cmd l)).
    { intros m' l (g & d & -> & H). cbn [map expl_cmd]. rewrite (expl_d _ _ H).
      destruct m'; right; left; eauto. }
    induction m as [|m IH]; intros l [H|[H|H]] A; auto.
    - contradiction.
    - destruct H as (id & b & -> & Hi & Hb). cbn [map expl_cmd]. rewrite expl_concat. right. right.
      exists id, (map (map expl_cmd) b). split; [reflexivity|]. split; [exact Hi|].
      eapply map_items; [exact IH|exact Hb|]. apply apart_concat. inversion A as [|? ? A1 _]; subst. apply apart_flat, A1.
  Qed.
  Lemma expl_root m l : root rd m l -> Forall apart l -> root rd m (map expl_cmd l).
  Proof.
    intros [H|(h & b & -> & Hh & Hb)] A; [left; apply expl_item; auto|]. right.
    cbn [map expl_cmd]. rewrite expl_concat. exists h, (map (map expl_cmd) b). split; [reflexivity|]. split; [exact Hh|].
    eapply map_items; [apply expl_item|exact Hb|]. apply apart_concat. inversion A as [|? ? A1 _]; subst. apply apart_flat, A1.
  Qed.

  (** *** The numbers are the same ones *)
  Lemma number_expl k (e : expr K) : number_in k (expl e) -> number_in k e.
  Proof.
    assert (L : forall (t : list (expr K)) x, Forall (fun e => number_in k (expl e) -> number_in k e) t -> In x (map expl t) -> number_in k x ->
      exists y, In y t /\ number_in k y).
    { intros t x F Hi Hn. apply in_map_iff in Hi. destruct Hi as (y & <- & Hy). rewrite Forall_forall in F. eauto. }
    induction e as [c|v|e IH|e IH|e IH|h t IHh IHt|h t IHh IHt|h t IHh IHt|h t IHh IHt] using expr_ind'; cbn [expl]; intros H; auto.
    - constructor. auto.
    - inversion H; subst. constructor. auto.
    - inversion H; subst. constructor. auto.
    - inversion H as [|? Hp| | | | | |]; subst. inversion Hp; subst. destruct (L (h :: t) e) as (y & Hy & Hn); auto. econstructor; eauto.
    - inversion H as [|? Hp| | | | | |]; subst. inversion Hp; subst. destruct (L (h :: t) e) as (y & Hy & Hn); auto. econstructor; eauto.
    - inversion H as [|? Hp| | | | | |]; subst. inversion Hp; subst. destruct (L (h :: t) e) as (y & Hy & Hn); auto. econstructor; eauto.
    - inversion H as [|? Hp| | | | | |]; subst. inversion Hp; subst. destruct (L (h :: t) e) as (y & Hy & Hn); auto. econstructor; eauto.
  Qed.
  Lemma expl_exprs p : prim_exprs (expl_prim p) = map expl (prim_exprs p).
  Proof.
    destruct p; cbn [expl_prim prim_exprs]; try reflexivity.
    - destruct rotation; reflexivity.
    - cbn [app map]. do 4 f_equal. rewrite map_app. f_equal. induction points as [|[a b] l IH]; [reflexivity|].
      cbn [map flat_map fst snd app]. f_equal. f_equal. exact IH.
  Qed.
  Lemma kept_expl e : kept_expr rd w e -> kept_expr rd w (expl e).
  Proof. intros H k Hk. apply H. apply number_expl. exact Hk. Qed.
  Lemma clean_expl c : clean rd w c -> clean rd w (expl_cmd c).
  Proof.
    set (all := fix all (l : list (cmd K T)) : Prop := match l with [] => True | x :: r => clean rd w x /\ all r end).
    induction c as [id b Hb|h b Hb|c Hc] using cmd_ind'.
    - change (all b -> all (map expl_cmd b)). induction Hb; cbn; [tauto|]. intros [H1 H2]. split; auto.
    - change (clean_sr h /\ all b -> clean_sr h /\ all (map expl_cmd b)). intros [Hs H]. split; [exact Hs|].
      revert H. induction Hb; cbn; [tauto|]. intros [H1 H2]. split; auto.
    - destruct c; try contradiction; try exact (fun H => H). cbn [clean expl_cmd clean_leaf]. intros H.
      apply Forall_map. eapply Forall_impl; [|exact H]. intros p Hp. cbn beta. rewrite expl_exprs. apply Forall_map.
      eapply Forall_impl; [|exact Hp]. apply kept_expl.
  Qed.

  (** *** The text is the same one *)
  Variable o : settings.
  Hypothesis Ho : f_explicit o = true.
  Lemma expl_texts l : map (fmt_expr w o) l = map (fmt_expr w (plainly o)) (map expl l).
  Proof. rewrite map_map. apply map_ext. intros e. apply expl_text. exact Ho. Qed.
  Lemma expl_prim_fmt p : fmt_prim w o p = fmt_prim w (plainly o) (expl_prim p).
  Proof.
    assert (Q : forall code l, prim_text w o code l = prim_text w (plainly o) code (map expl l)).
    { intros code l. unfold prim_text. rewrite expl_texts. reflexivity. }
    destruct p; cbn [fmt_prim expl_prim]; try apply Q.
    - reflexivity.
    - rewrite Q, map_app. destruct rotation; reflexivity.
    - rewrite (expl_texts [exposure; npoints; sx; sy]). cbn [map]. rewrite (expl_text w o rotation Ho).
      rewrite (map_map (fun q => (expl (fst q), expl (snd q)))). cbn [fst snd].
      replace (map (fun p => fmt_expr w o (fst p) ++ lit "," ++ fmt_expr w o (snd p)) points)
        with (map (fun x => fmt_expr w (plainly o) (expl (fst x)) ++ lit "," ++ fmt_expr w (plainly o) (expl (snd x))) points); [reflexivity|].
      apply map_ext. intros [a b]. cbn [fst snd]. rewrite !(expl_text w o _ Ho). reflexivity.
    - rewrite (expl_text w o e Ho). reflexivity.
  Qed.
  Lemma expl_macro_fmt base n ps : fmt_macro w o base n ps = fmt_macro w (plainly o) base n (map expl_prim ps).
  Proof.
    unfold fmt_macro. rewrite map_map.
    replace (map (fun p => base ++ fmt_prim w o p) ps) with (map (fun p => base ++ fmt_prim w (plainly o) (expl_prim p)) ps); [reflexivity|].
    apply map_ext. intros p. rewrite expl_prim_fmt. reflexivity.
  Qed.
  Lemma expl_cmd_fmt c : forall base, fmt_cmd w o base c = fmt_cmd w (plainly o) base (expl_cmd c).
  Proof.
    set (body := fun o => fix body (base : str) (l : list (cmd K T)) : str * str :=
      match l with
      | [] => ([], base)
      | x :: r => let '(t, b) := fmt_cmd w o base x in let '(t', b') := body b r in (t ++ t', b')
      end).
    assert (B : forall b, Forall (fun c => forall base, fmt_cmd w o base c = fmt_cmd w (plainly o) base (expl_cmd c)) b ->
      forall base, body o base b = body (plainly o) base (map expl_cmd b)).
    { induction 1 as [|x l Hx _ IH]; intros base; [reflexivity|]. cbn. rewrite Hx. destruct (fmt_cmd w (plainly o) base (expl_cmd x)).
      rewrite IH. reflexivity. }
    induction c as [id b Hb|h b Hb|c Hc] using cmd_ind'; intros base.
    - change (fmt_cmd w o base (CAB id b)) with (let '(t, bb) := body o (base ++ f_block o) b in
        let b' := decrease bb (f_block o) in (base ++ ext o (lit "AB") id ++ t ++ b' ++ ext o (lit "AB") [], b')).
      change (fmt_cmd w (plainly o) base (expl_cmd (CAB id b))) with (let '(t, bb) := body (plainly o) (base ++ f_block o) (map expl_cmd b) in
        let b' := decrease bb (f_block o) in (base ++ ext o (lit "AB") id ++ t ++ b' ++ ext o (lit "AB") [], b')).
      rewrite B by exact Hb. reflexivity.
    - change (fmt_cmd w o base (CSR h b)) with (let '(t, bb) := body o (base ++ f_sr o) b in
        let b' := decrease bb (f_sr o) in (base ++ ext o (lit "SR") (fmt_sr h) ++ t ++ b' ++ ext o (lit "SR") [], b')).
      change (fmt_cmd w (plainly o) base (expl_cmd (CSR h b))) with (let '(t, bb) := body (plainly o) (base ++ f_sr o) (map expl_cmd b) in
        let b' := decrease bb (f_sr o) in (base ++ ext o (lit "SR") (fmt_sr h) ++ t ++ b' ++ ext o (lit "SR") [], b')).
      rewrite B by exact Hb. reflexivity.
    - destruct c; try contradiction; try reflexivity. cbn [fmt_cmd expl_cmd fmt_leaf]. rewrite expl_macro_fmt. reflexivity.
  Qed.
  Lemma expl_cmds_fmt l : forall base, fmt_cmds w o base l = fmt_cmds w (plainly o) base (map expl_cmd l).
  Proof.
    induction l as [|c l IH]; intros base; [reflexivity|]. cbn [fmt_cmds map]. rewrite expl_cmd_fmt.
    destruct (fmt_cmd w (plainly o) base (expl_cmd c)). rewrite IH. reflexivity.
  Qed.
End File.

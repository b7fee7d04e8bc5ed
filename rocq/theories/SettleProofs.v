(** Proofs for C87. *)
From Verif Require Import Base Num CoordModel CoordProofs Ast GramAst PegModel GramModel FmtModel GramText GramExpr
  GramExprRt GramExprSpec GramExplicit NumTextModel NumTextSpec NumTextProofs GramNum GramTok GramWf GramFileSpec GramPieces
  GramRead GramReadAttr GramMacroRt GramTidy GramRt GramExact GramExplFile GramProps SettleSpec.
From Coq Require Import Qabs Lqa.
Local Open Scope nat_scope.

(** ** One number *)
Lemma scaled_grid q d n : (q == inject_Z n / inject_Z (10 ^ Z.of_nat d))%Q -> scaled q d = Z.abs n.
Proof.
  intros H. unfold scaled. rewrite <- (round_half_even_integer (Z.abs n)). apply round_half_even_morph.
  rewrite H. unfold Qdiv. rewrite Qabs_Qmult, Qabs_Qinv. change (inject_Z (Z.abs n)) with (Qabs (inject_Z n)).
  rewrite (Qabs_pos (inject_Z (10 ^ Z.of_nat d))).
  - field. apply pow10_nz.
  - change 0%Q with (inject_Z 0). rewrite <- Zle_Qle. apply Z.lt_le_incl, pow10_pos.
Qed.
Lemma rounded_unique d q a b : RoundedTo d q a -> RoundedTo d q b -> (a == b)%Q.
Proof.
  intros (m & Ha & [La Ua] & Ta) (n & Hb & [Lb Ub] & Tb). cbv zeta in *. rewrite Ha, Hb.
  set (x := (q * inject_Z (10 ^ Z.of_nat d))%Q) in *. clearbody x. clear Ha Hb.
  assert (D : (m - 1 <= n <= m + 1)%Z).
  { rewrite !Zle_Qle. rewrite <- Z.add_opp_r, !inject_Z_plus. change (inject_Z 1) with 1%Q. change (inject_Z (- (1))) with (-1)%Q. split; lra. }
  assert (m = n) as ->; [|reflexivity].
  destruct (Z.eq_dec m n) as [E|E]; [exact E|exfalso].
  assert (Em : Z.even m = true /\ Z.even n = true).
  { destruct (Z.eq_dec n (m + 1)) as [->|E']; [|assert (n = m - 1)%Z as -> by lia].
    - rewrite inject_Z_plus in *. change (inject_Z 1) with 1%Q in *. split; [apply Ta; right; lra|apply Tb; left; lra].
    - rewrite <- Z.add_opp_r in *. rewrite inject_Z_plus in *. change (inject_Z (-(1))) with (-1)%Q in *. split; [apply Ta; left; lra|apply Tb; right; lra]. }
  destruct Em as [E1 E2]. apply Z.even_spec in E1, E2. destruct E1, E2. lia.
Qed.

Section Places.
  Variables (d : nat) (tr : trim_mode) (r : Q -> Q).
  Hypothesis Hd : 1 <= d.
  Hypothesis Hr : forall q, RoundedTo d q (r q) /\ Qred (r q) = r q.
  Notation w := (q_writer (Z.of_nat d) tr).
  Lemma r_grid q : (r q == on_grid q d)%Q.
  Proof. exact (rounded_unique _ _ _ _ (proj1 (Hr q)) (on_grid_rounded q d)). Qed.
  Lemma r_read q : r q = read_decimal (w_num w q).
  Proof.
    destruct (fixed_parts d tr q Hd) as (i & f & Hp & Hv). cbn [q_writer w_num]. rewrite (parts_read _ _ _ _ Hp), (Qred_complete _ _ Hv), <- (Qred_complete _ _ (r_grid q)).
    symmetry. apply Hr.
  Qed.
  Lemma r_double q : double_text (w_num w q).
  Proof. destruct (fixed_parts d tr q Hd) as (i & f & Hp & _). exact (parts_double _ _ _ _ Hp). Qed.
  Lemma r_num_ok q : num_ok q_reader (r q).
  Proof. exists (w_num w q). split; [apply r_double|apply r_read]. Qed.
  Lemma r_float_ok q : float_ok q_reader (r q).
  Proof.
    exists (w_num w q). split; [apply field_of_double, r_double|]. cbn [q_reader r_float].
    pose proof (re_double_app _ [] (r_double q) eq_refl) as E. rewrite app_nil_r in E. rewrite E, r_read. reflexivity.
  Qed.
  Lemma r_const_ok q : const_ok q_reader q -> const_ok q_reader (r q).
  Proof.
    intros (t & Ht & Hm & ->). destruct (read_facts t Ht) as (_ & _ & F). specialize (F Hm).
    change (r_num q_reader t) with (read_decimal t). set (q := read_decimal t) in *.
    exists (w_num w q). split; [apply r_double|]. split; [|apply r_read].
    destruct (fixed_parts d tr q Hd) as (i & f & Hp & _).
    assert (E : q_neg q = false) by (unfold q_neg; apply Qle_bool_iff in F; rewrite F; reflexivity).
    rewrite E in Hp. cbn [q_writer w_num]. destruct Hp as (-> & Hi & _ & Hn). destruct i as [|c i]; [congruence|].
    apply all_digits_cons in Hi as [Hc _]. cbn. revert Hc. clear. by_char c.
  Qed.
  Lemma r_fits q : fits (Z.of_nat d) (r q).
  Proof. left. split; [lia|]. destruct (Hr q) as [(m & H & _) _]. exists m. exact H. Qed.
  Definition settled (q : Q) : Prop := (0 <= q)%Q \/ ~ (r q == 0)%Q.
  Lemma r_same q : settled q -> w_num w (r q) = w_num w q.
  Proof.
    intros H. cbn [q_writer w_num]. unfold fmt_double. rewrite (proj2 (Z.ltb_ge _ _)) by lia. rewrite Nat2Z.id.
    enough (E : fmt_fixed (r q) d = fmt_fixed q d) by (rewrite E; reflexivity).
    pose proof (r_grid q) as G. unfold on_grid in G. rewrite mk_div in G. pose proof (scaled_nonneg q d) as Hs.
    assert (S : scaled (r q) d = scaled q d).
    { rewrite (scaled_grid _ _ _ G). unfold apply_sign. destruct (q_neg q); [rewrite Z.abs_opp|]; apply Z.abs_eq, Hs. }
    assert (Hp : (0 < inject_Z (10 ^ Z.of_nat d))%Q) by (change 0%Q with (inject_Z 0); rewrite <- Zlt_Qlt; apply pow10_pos).
    assert (N : q_neg (r q) = q_neg q).
    { unfold q_neg. f_equal. destruct (Qle_bool 0 q) eqn:E.
      - apply Qle_bool_iff. rewrite G. unfold q_neg. rewrite E. cbn [negb apply_sign]. apply Qle_shift_div_l; [exact Hp|].
        rewrite Qmult_0_l. change 0%Q with (inject_Z 0). rewrite <- Zle_Qle. exact Hs.
      - destruct (Qle_bool 0 (r q)) eqn:E'; [|reflexivity]. apply Qle_bool_iff in E'. exfalso.
        destruct H as [H|H]; [apply Qle_bool_iff in H; congruence|]. apply H.
        unfold q_neg in G. rewrite E in G. cbn [negb apply_sign] in G.
        assert (L : (r q <= 0)%Q).
        { rewrite G. apply Qle_shift_div_r; [exact Hp|]. rewrite Qmult_0_l. change 0%Q with (inject_Z 0). rewrite <- Zle_Qle. lia. }
        lra. }
    unfold fmt_fixed. fold (scaled (r q) d) (scaled q d) (q_neg (r q)) (q_neg q). rewrite S, N. reflexivity.
  Qed.
End Places.

(** ** Whole files *)
Lemma body_cmds K T (w : writer K T) (o : settings) : forall l base,
  (fix body (base : str) (l : list (cmd K T)) : str * str :=
    match l with
    | [] => ([], base)
    | x :: r => let '(t, b) := fmt_cmd w o base x in let '(t', b') := body b r in (t ++ t', b')
    end) base l = fmt_cmds w o base l.
Proof. induction l as [|x l IH]; intros base; [reflexivity|]. cbn [fmt_cmds]. destruct (fmt_cmd w o base x). rewrite IH. reflexivity. Qed.
Section Re.
  Variables (r : Q -> Q) (w : writer Q str) (S : Q -> Prop).
  Notation rd := q_reader.
  Hypothesis Hn : forall q, num_ok rd (r q).
  Hypothesis Hf : forall q, float_ok rd (r q).
  Hypothesis Hc : forall q, const_ok rd q -> const_ok rd (r q).
  Hypothesis Hs : forall q, S q -> w_num w (r q) = w_num w q.
  Notation re := (@re_cmd Q str r).

  Lemma re_shape L e : shape (const_ok rd) L e -> shape (const_ok rd) L (re_expr r e).
  Proof.
    revert L. induction e as [k|v|e IH|e IH|e IH|h t IHh IHt|h t IHh IHt|h t IHh IHt|h t IHh IHt] using expr_ind'; intros L H;
      inversion H; subst; cbn [re_expr]; constructor; auto; try (destruct t; [congruence|discriminate]);
      apply Forall_map; rewrite Forall_forall in *; auto.
  Qed.
  Lemma re_prim_wf p : wf_prim rd p -> wf_prim rd (re_prim r p).
  Proof.
    assert (L : forall l, Forall (shape (const_ok rd) 6) l -> Forall (shape (const_ok rd) 6) (map (re_expr r) l)).
    { intros l H. apply Forall_map. eapply Forall_impl; [|exact H]. intros e. apply re_shape. }
    destruct p; cbn [wf_prim re_prim]; intros H; auto; try exact (L _ H).
    - destruct H as [H Hr]. split; [exact (L _ H)|]. destruct rotation; [|exact I]. apply re_shape. exact Hr.
    - destruct H as (H & Hne & Hp & Hr). split; [exact (L _ H)|]. split; [destruct points; [congruence|discriminate]|]. split; [|apply re_shape, Hr].
      apply Forall_map. eapply Forall_impl; [|exact Hp]. intros [a b] [Ha Hb]. split; cbn; apply re_shape; assumption.
    - destruct H as [Hu H]. split; [exact Hu|]. exact (L _ H).
    - destruct H as [Hv H]. split; [exact Hv|]. apply re_shape, H.
  Qed.
  Lemma re_opt (P : Q -> Prop) x : (forall q, P (r q)) -> opt_ok P (option_map r x).
  Proof. intros H. destruct x; [apply H|exact I]. Qed.
  Lemma re_leaf c : wf_leaf rd c -> wf_leaf rd (re c).
  Proof.
    destruct c; cbn [re_cmd wf_leaf]; try tauto.
    - intros [Hi H]. split; [exact Hi|]. cbn [ad_template]. destruct (ad_template a); cbn [re_template wf_template] in *.
      + split; [apply Hn|apply re_opt, Hn].
      + split; [apply Hn|split; [apply Hn|apply re_opt, Hn]].
      + split; [apply Hn|split; [apply Hn|apply re_opt, Hn]].
      + destruct H as (_ & _ & _ & H). split; [apply Hn|split; [apply re_opt, Hn|split; [apply re_opt, Hn|]]].
        destruct rotation; [discriminate|]. rewrite (H eq_refl). reflexivity.
      + exact H.
    - intros [Hi H]. split; [exact Hi|]. apply Forall_map. eapply Forall_impl; [|exact H]. intros p. apply re_prim_wf.
    - intros H. destruct a; cbn [wf_leaf]; auto. cbn [wf_ta] in *. destruct H as (_ & _ & H).
      split; [apply re_opt, Hn|split; [apply re_opt, Hn|]]. destruct plus; [discriminate|]. rewrite (H eq_refl). reflexivity.
    - intros H. destruct a; cbn [wf_leaf]; auto; apply Hf.
    - intros H. apply Hn.
    - intros H. apply Hn.
    - intros H. split; apply Hn.
  Qed.
  Lemma re_d sa c : @wf_d Q str sa c -> re c = c.
  Proof. destruct c; try contradiction; reflexivity. Qed.
  Lemma re_item m : forall l, item rd m l -> item rd m (map re l).
  Proof.
    assert (Leaf : forall m l, (exists c, l = [c] /\ wf_leaf rd c) -> item rd m (map re l)).
    { intros m' l (c & -> & H). assert (exists c', map re [c] = [c'] /\ wf_leaf rd c').
      { exists (re c). split; [reflexivity|]. apply re_leaf, H. }
      destruct m'; left; assumption. }
    assert (Pair : forall m l, (exists g d, l = [CG false g; d] /\ wf_d false d) -> item rd m (map re l)).
    { intros m' l (g & x & -> & H). cbn [map re_cmd]. rewrite (re_d _ _ H). destruct m'; right; left; eauto. }
    induction m as [|m IH]; intros l [H|[H|H]]; auto.
    - contradiction.
    - destruct H as (id & b & -> & Hi & Hb). cbn [map re_cmd]. rewrite concat_map. right. right.
      exists id, (map (map re) b). split; [reflexivity|]. split; [exact Hi|]. apply Forall_map.
      eapply Forall_impl; [|exact Hb]. exact IH.
  Qed.
  Lemma re_root m l : root rd m l -> root rd m (map re l).
  Proof.
    intros [H|(h & b & -> & Hh & Hb)]; [left; apply re_item; auto|]. right.
    cbn [map re_cmd]. rewrite concat_map. exists h, (map (map re) b). split; [reflexivity|]. split; [exact Hh|].
    apply Forall_map. eapply Forall_impl; [|exact Hb]. apply re_item.
  Qed.

  (** *** Conditions on the numbers *)
  Lemma re_number q e : number_in q (re_expr r e) -> exists k, q = r k /\ number_in k e.
  Proof.
    assert (L : forall (t : list (expr Q)) x, Forall (fun e => number_in q (re_expr r e) -> exists k, q = r k /\ number_in k e) t ->
      In x (map (re_expr r) t) -> number_in q x -> exists k y, q = r k /\ In y t /\ number_in k y).
    { intros t x F Hi Hx. apply in_map_iff in Hi. destruct Hi as (y & <- & Hy). rewrite Forall_forall in F.
      destruct (F y Hy Hx) as (k & E & Hk). eauto. }
    induction e as [k|v|e IH|e IH|e IH|h t IHh IHt|h t IHh IHt|h t IHh IHt|h t IHh IHt] using expr_ind'; cbn [re_expr]; intros H.
    - inversion H; subst. exists k. split; [reflexivity|constructor].
    - inversion H.
    - inversion H; subst. destruct IH as (k & E & Hk); auto. exists k. split; [exact E|constructor; exact Hk].
    - inversion H; subst. destruct IH as (k & E & Hk); auto. exists k. split; [exact E|constructor; exact Hk].
    - inversion H; subst. destruct IH as (k & E & Hk); auto. exists k. split; [exact E|constructor; exact Hk].
    - inversion H; subst. destruct (L (h :: t) e) as (k & y & E & Hy & Hk); auto. exists k. split; [exact E|econstructor; eauto].
    - inversion H; subst. destruct (L (h :: t) e) as (k & y & E & Hy & Hk); auto. exists k. split; [exact E|econstructor; eauto].
    - inversion H; subst. destruct (L (h :: t) e) as (k & y & E & Hy & Hk); auto. exists k. split; [exact E|econstructor; eauto].
    - inversion H; subst. destruct (L (h :: t) e) as (k & y & E & Hy & Hk); auto. exists k. split; [exact E|econstructor; eauto].
  Qed.
  Lemma re_exprs p : prim_exprs (re_prim r p) = map (re_expr r) (prim_exprs p).
  Proof.
    destruct p; cbn [re_prim prim_exprs]; try reflexivity.
    - destruct rotation; reflexivity.
    - cbn [app map]. do 4 f_equal. rewrite map_app. f_equal. induction points as [|[a b] l IH]; [reflexivity|].
      cbn [map flat_map fst snd app]. f_equal. f_equal. exact IH.
  Qed.
  Variables (F F' : Q -> Prop) (I' : Z -> Prop).
  Hypothesis Ht : forall q, F (r q).
  Lemma re_values c : values_cmd S F' I' c -> values_cmd F F' I' (re c).
  Proof.
    assert (O : forall x : option Q, kept_opt F (option_map r x)) by (intros [x|] a Ha; [injection Ha as <-; apply Ht|discriminate]).
    set (all := fun P : Q -> Prop => fix all (l : list (cmd Q str)) : Prop := match l with [] => True | x :: l' => values_cmd P F' I' x /\ all l' end).
    induction c as [id b Hb|h b Hb|c Hl] using cmd_ind'.
    - change (all S b -> all F (map re b)). induction Hb; cbn; [tauto|]. intros [H1 H2]. split; auto.
    - change (clean_sr h /\ all S b -> clean_sr h /\ all F (map re b)). intros [Hh H]. split; [exact Hh|].
      revert H. induction Hb; cbn; [tauto|]. intros [H1 H2]. split; auto.
    - destruct c; try contradiction; try exact (fun H => H); cbn [values_cmd re_cmd values_leaf].
      + intros H. cbn [ad_template]. destruct (ad_template a); cbn [re_template values_template] in *; repeat split; auto; apply H.
      + intros H. apply Forall_map. eapply Forall_impl; [|exact H]. intros p _. cbn beta. rewrite re_exprs. apply Forall_map.
        apply Forall_forall. intros e _ q Hq. apply re_number in Hq. destruct Hq as (k & -> & _). apply Ht.
      + destruct a; auto. intros _. split; apply O.
      + destruct a; auto; intros _; apply Ht.
      + intros _. apply Ht.
      + intros _. apply Ht.
      + intros _. split; apply Ht.
  Qed.

  (** *** The text *)
  Variable o : settings.
  Lemma re_expr_fmt e : (forall q, number_in q e -> S q) -> fmt_expr w o (re_expr r e) = fmt_expr w o e.
  Proof.
    assert (L : forall op (t : list (expr Q)), Forall (fun e => (forall q, number_in q e -> S q) -> fmt_expr w o (re_expr r e) = fmt_expr w o e) t ->
      (forall e, In e t -> forall q, number_in q e -> S q) ->
      (fix tail (l : list (expr Q)) : str := match l with [] => [] | x :: r => lit op ++ fmt_expr w o x ++ tail r end) (map (re_expr r) t) =
      (fix tail (l : list (expr Q)) : str := match l with [] => [] | x :: r => lit op ++ fmt_expr w o x ++ tail r end) t).
    { intros op t F0. induction F0 as [|x t Hx _ IH]; intros H; [reflexivity|]. cbn [map]. rewrite Hx, IH; [reflexivity| |].
      - intros e0 He. apply H. right. exact He.
      - apply H. left. reflexivity. }
    induction e as [k|v|e IH|e IH|e IH|h t IHh IHt|h t IHh IHt|h t IHh IHt|h t IHh IHt] using expr_ind'; intros H; cbn [re_expr fmt_expr].
    - apply Hs, H. constructor.
    - reflexivity.
    - rewrite IH; [reflexivity|]. intros q Hq. apply H. constructor. exact Hq.
    - rewrite IH; [reflexivity|]. intros q Hq. apply H. constructor. exact Hq.
    - rewrite IH; [reflexivity|]. intros q Hq. apply H. constructor. exact Hq.
    - rewrite IHh by (intros q Hq; apply H; econstructor; [left; reflexivity|exact Hq]).
      rewrite (L _ t IHt) by (intros e0 He q Hq; apply H; econstructor; [right; exact He|exact Hq]). reflexivity.
    - rewrite IHh by (intros q Hq; apply H; econstructor; [left; reflexivity|exact Hq]).
      rewrite (L _ t IHt) by (intros e0 He q Hq; apply H; econstructor; [right; exact He|exact Hq]). reflexivity.
    - rewrite IHh by (intros q Hq; apply H; econstructor; [left; reflexivity|exact Hq]).
      rewrite (L _ t IHt) by (intros e0 He q Hq; apply H; econstructor; [right; exact He|exact Hq]). reflexivity.
    - rewrite IHh by (intros q Hq; apply H; econstructor; [left; reflexivity|exact Hq]).
      rewrite (L _ t IHt) by (intros e0 He q Hq; apply H; econstructor; [right; exact He|exact Hq]). reflexivity.
  Qed.
  Notation good := (fun e : expr Q => forall q, number_in q e -> S q).
  Lemma re_texts l : Forall good l -> map (fmt_expr w o) (map (re_expr r) l) = map (fmt_expr w o) l.
  Proof. induction 1; [reflexivity|]. cbn [map]. rewrite re_expr_fmt by assumption. f_equal. assumption. Qed.
  Lemma re_prim_fmt p : Forall good (prim_exprs p) -> fmt_prim w o (re_prim r p) = fmt_prim w o p.
  Proof.
    assert (Q0 : forall code l, Forall good l -> prim_text w o code (map (re_expr r) l) = prim_text w o code l).
    { intros code l Hl. unfold prim_text. rewrite re_texts by exact Hl. reflexivity. }
    destruct p; cbn [fmt_prim re_prim prim_exprs]; intros H; try exact (Q0 _ _ H).
    - reflexivity.
    - rewrite <- (Q0 _ _ H), map_app. destruct rotation; reflexivity.
    - apply Forall_app in H. destruct H as [H1 H]. apply Forall_app in H. destruct H as [H2 H3].
      pose proof (re_texts _ H1) as E. cbn [map] in E |- *. injection E as -> -> -> ->.
      rewrite (re_expr_fmt rotation) by (inversion H3; assumption).
      rewrite map_map. cbn [fst snd].
      replace (map (fun x => fmt_expr w o (re_expr r (fst x)) ++ lit "," ++ fmt_expr w o (re_expr r (snd x))) points)
        with (map (fun p => fmt_expr w o (fst p) ++ lit "," ++ fmt_expr w o (snd p)) points); [reflexivity|].
      clear - H2 Hs. induction points as [|[a b] l IH]; [reflexivity|]. cbn [flat_map app fst snd] in H2.
      inversion H2 as [|? ? Ha H2']; subst. inversion H2' as [|? ? Hb H3]; subst. cbn [map fst snd].
      rewrite !re_expr_fmt by assumption. rewrite IH by exact H3. reflexivity.
    - inversion H; subst. rewrite re_expr_fmt by assumption. reflexivity.
  Qed.
  Lemma re_opt_num p x : kept_opt S x -> opt_num w p (option_map r x) = opt_num w p x.
  Proof. intros H. destruct x; [|reflexivity]. unfold opt_num. cbn. rewrite Hs by (apply H; reflexivity). reflexivity. Qed.
  Lemma re_leaf_fmt base c : match c with CAB _ _ | CSR _ _ => False | _ => True end -> values_leaf S F' I' c ->
    fmt_leaf w o base (re c) = fmt_leaf w o base c.
  Proof.
    destruct c; try contradiction; intros _; cbn [values_leaf re_cmd]; intros H; try reflexivity.
    - cbn [fmt_leaf ad_template ad_id]. destruct (ad_template a); cbn [re_template fmt_template values_template] in *.
      + destruct H. rewrite Hs, re_opt_num by assumption. reflexivity.
      + destruct H as (? & ? & ?). rewrite !Hs, re_opt_num by assumption. reflexivity.
      + destruct H as (? & ? & ?). rewrite !Hs, re_opt_num by assumption. reflexivity.
      + destruct H as (? & ? & ?). rewrite Hs, !re_opt_num by assumption. reflexivity.
      + reflexivity.
    - cbn [fmt_leaf]. unfold fmt_macro.
      replace (map (fun p => base ++ fmt_prim w o p) (map (re_prim r) prims)) with (map (fun p => base ++ fmt_prim w o p) prims); [reflexivity|].
      clear - H Hs. induction H as [|p ps Hp _ IH]; [reflexivity|]. cbn [map]. rewrite re_prim_fmt by exact Hp. rewrite IH. reflexivity.
    - destruct a; try reflexivity. destruct H. cbn [fmt_leaf fmt_ta]. rewrite !re_opt_num by assumption. reflexivity.
    - destruct a; try reflexivity; cbn [fmt_leaf fmt_to]; rewrite Hs by assumption; reflexivity.
    - cbn [fmt_leaf]. rewrite Hs by assumption. reflexivity.
    - cbn [fmt_leaf]. rewrite Hs by assumption. reflexivity.
    - destruct H. cbn [fmt_leaf]. rewrite !Hs by assumption. reflexivity.
  Qed.
  Lemma re_cmd_fmt c : values_cmd S F' I' c -> forall base, fmt_cmd w o base (re c) = fmt_cmd w o base c.
  Proof.
    assert (B : forall b, Forall (fun c => values_cmd S F' I' c -> forall base, fmt_cmd w o base (re c) = fmt_cmd w o base c) b ->
      Forall (values_cmd S F' I') b -> forall base, fmt_cmds w o base (map re b) = fmt_cmds w o base b).
    { intros b Hb. induction Hb as [|x l Hx _ IH]; intros H base; [reflexivity|]. apply Forall_cons_iff in H. destruct H as [H1 H2].
      cbn [map fmt_cmds]. rewrite Hx by exact H1. destruct (fmt_cmd w o base x). rewrite IH by exact H2. reflexivity. }
    induction c as [id b Hb|h b Hb|c Hl] using cmd_ind'; intros H base.
    - apply (values_body S F' I') in H. cbn [re_cmd fmt_cmd]. rewrite !body_cmds, B by assumption. reflexivity.
    - destruct H as [_ H]. apply (values_body S F' I') in H. cbn [re_cmd fmt_cmd]. rewrite !body_cmds, B by assumption. reflexivity.
    - pose proof (re_leaf_fmt base c Hl) as E. destruct c; try contradiction; try reflexivity; cbn [values_cmd re_cmd fmt_cmd] in *; rewrite <- (E H); try reflexivity;
      destruct a; reflexivity.
  Qed.
  Lemma re_cmds_fmt l : Forall (values_cmd S F' I') l -> forall base, fmt_cmds w o base (map re l) = fmt_cmds w o base l.
  Proof.
    induction 1 as [|x l Hx _ IH]; intros base; [reflexivity|]. cbn [map fmt_cmds]. rewrite re_cmd_fmt by exact Hx.
    destruct (fmt_cmd w o base x). rewrite IH. reflexivity.
  Qed.
End Re.

(** ** The tidy file *)
Section Tidy.
  Context {K T : Type}.
  Notation kept_codes drop := (fun c : cmd K T => forall g, In g (codes_in c) -> drop g = false).
  Lemma codes_flat (drop : gcode -> bool) (b : list (cmd K T)) :
    (forall g, In g (flat_map codes_in b) -> drop g = false) -> Forall (kept_codes drop) b.
  Proof. intros H. apply Forall_forall. intros c Hc g Hg. apply H. apply in_flat_map. eauto. Qed.
  Lemma tidy_nothing k drop c : kept_codes drop c -> forall g, tidy_cmd k drop g c = tidy_cmd k (fun _ => false) g c.
  Proof.
    assert (B : forall b, Forall (fun c => kept_codes drop c -> forall g, tidy_cmd k drop g c = tidy_cmd k (fun _ => false) g c) b ->
      Forall (kept_codes drop) b -> forall g, tidy k drop g b = tidy k (fun _ => false) g b).
    { intros b Hb. induction Hb as [|x l Hx _ IH]; intros H g; [reflexivity|]. apply Forall_cons_iff in H. destruct H as [H1 H2].
      cbn [tidy]. rewrite (Hx H1). destruct (tidy_cmd k (fun _ => false) g x). rewrite (IH H2). reflexivity. }
    induction c as [id b Hb|h b Hb|c Hl] using cmd_ind'.
    - intros H g. cbn [codes_in] in H. apply codes_flat in H. rewrite !tidy_ab, B by assumption. reflexivity.
    - intros H g. cbn [codes_in] in H. apply codes_flat in H. rewrite !tidy_sr, B by assumption. reflexivity.
    - intros H g. destruct c; try contradiction; try reflexivity. cbn [tidy_cmd]. rewrite (H g0) by (left; reflexivity). reflexivity.
  Qed.
  Lemma tidy_nothings k drop l : Forall (kept_codes drop) l -> forall g, tidy k drop g l = tidy k (fun _ => false) g l.
  Proof.
    induction 1 as [|x l H _ IH]; intros g; [reflexivity|]. cbn [tidy]. rewrite (tidy_nothing k drop x H).
    destruct (tidy_cmd k (fun _ => false) g x). rewrite IH. reflexivity.
  Qed.

  Variables (w : writer K T) (o : settings).
  Notation fmt := (fmt_cmd w o).
  Notation fmts := (fmt_cmds w o).
  Lemma fmts_app a b base : fmts base (a ++ b) = (fst (fmts base a) ++ fst (fmts (snd (fmts base a)) b), snd (fmts (snd (fmts base a)) b)).
  Proof.
    revert base. induction a as [|x a IH]; intros base; [cbn; destruct (fmts base b); reflexivity|]. cbn [app fmt_cmds].
    destruct (fmt base x) as [t b1]. rewrite IH. destruct (fmts b1 a) as [t2 b2]. cbn [fst snd]. rewrite app_assoc. reflexivity.
  Qed.
  Lemma fmts_one base c : fmts base [c] = fmt base c.
  Proof. cbn [fmt_cmds]. destruct (fmt base c). rewrite app_nil_r. reflexivity. Qed.
  Lemma decrease_nil d : decrease [] d = [].
  Proof. unfold decrease. destruct d; reflexivity. Qed.
  Lemma ends_app b d : ends_with (b ++ d) d = true.
  Proof.
    induction b as [|x b IH].
    - cbn [app]. destruct d; cbn [ends_with]; rewrite str_eqb_refl; reflexivity.
    - cbn [app ends_with]. rewrite IH. destruct (str_eqb (x :: b ++ d) d); reflexivity.
  Qed.
  Lemma decrease_app b d : decrease (b ++ d) d = b \/ decrease (b ++ d) d = [].
  Proof.
    unfold decrease. rewrite ends_app. destruct d as [|x d]; [right; reflexivity|left].
    rewrite app_length. replace (length b + length (x :: d) - length (x :: d)) with (length b) by lia.
    rewrite firstn_app, Nat.sub_diag, firstn_all. cbn [firstn]. apply app_nil_r.
  Qed.
  (** The indent is the same behind a command as in front of it, or lost. *)
  Lemma fmt_base c : forall base, snd (fmt base c) = base \/ snd (fmt base c) = [].
  Proof.
    assert (B : forall b, Forall (fun c => forall base, snd (fmt base c) = base \/ snd (fmt base c) = []) b ->
      forall base, snd (fmts base b) = base \/ snd (fmts base b) = []).
    { induction 1 as [|x l Hx _ IH]; intros base; [left; reflexivity|]. cbn [fmt_cmds]. specialize (Hx base).
      destruct (fmt base x) as [t b1]. specialize (IH b1). destruct (fmts b1 l) as [t2 b2]. cbn [snd] in *.
      destruct Hx as [->| ->]; destruct IH as [->| ->]; auto. }
    assert (D : forall base d b, b = base ++ d \/ b = [] -> decrease b d = base \/ decrease b d = []).
    { intros base d b [->| ->]; [apply decrease_app|right; apply decrease_nil]. }
    induction c as [id b Hb|h b Hb|c Hl] using cmd_ind'; intros base.
    - cbn [fmt_cmd]. rewrite body_cmds. pose proof (B b Hb (base ++ f_block o)) as H. destruct (fmts (base ++ f_block o) b) as [t b1].
      cbn [snd] in *. apply D, H.
    - cbn [fmt_cmd]. rewrite body_cmds. pose proof (B b Hb (base ++ f_sr o)) as H. destruct (fmts (base ++ f_sr o) b) as [t b1].
      cbn [snd] in *. apply D, H.
    - left. destruct c; try contradiction; reflexivity.
  Qed.

  Hypothesis Hk : f_keep o = false.
  Notation drop := (removed o).
  Notation td := (@tidy_cmd K T false drop).
  Lemma tidy_cmd_fmt c : kept_codes drop c -> forall g base, fmts base (fst (td g c)) = fmt base c.
  Proof.
    assert (L : forall a b c0 sa sa', line_start o a b sa = line_start o a b sa' /\ fmt_g o sa c0 = fmt_g o sa' c0).
    { intros. unfold line_start, fmt_g. rewrite Hk. cbn [negb]. rewrite !Bool.orb_true_r. auto. }
    assert (B : forall b, Forall (fun c => kept_codes drop c -> forall g base, fmts base (fst (td g c)) = fmt base c) b ->
      Forall (kept_codes drop) b -> forall g base, fmts base (tidy false drop g b) = fmts base b).
    { intros b Hb. induction Hb as [|x l Hx _ IH]; intros H g base; [reflexivity|]. apply Forall_cons_iff in H. destruct H as [H1 H2].
      cbn [tidy]. specialize (Hx H1 g base). destruct (td g x) as [y g']. cbn [fst] in Hx. rewrite fmts_app, Hx, (IH H2).
      cbn [fmt_cmds]. destruct (fmt base x) as [t b1]. cbn [fst snd]. destruct (fmts b1 l). reflexivity. }
    induction c as [id b Hb|h b Hb|c Hl] using cmd_ind'; intros H g base.
    - rewrite tidy_ab. cbn [fst]. rewrite fmts_one. cbn [codes_in] in H. apply codes_flat in H. cbn [fmt_cmd].
      rewrite !body_cmds, B by assumption. reflexivity.
    - rewrite tidy_sr. cbn [fst]. rewrite fmts_one. cbn [codes_in] in H. apply codes_flat in H. cbn [fmt_cmd].
      rewrite !body_cmds, B by assumption. reflexivity.
    - destruct c; try contradiction; cbn [tidy_cmd fst]; try apply fmts_one.
      1-4: rewrite fmts_one; cbn [fmt_cmd fmt_leaf]; rewrite (proj1 (L _ _ G01 (negb g) standalone)); reflexivity.
      rewrite (H g0) by (left; reflexivity). cbn [andb fst]. rewrite fmts_one. cbn [fmt_cmd fmt_leaf].
      rewrite (proj2 (L [] [] g0 true standalone)). reflexivity.
  Qed.
  Lemma tidy_fmt l : (forall g, In g (flat_map codes_inside l) -> drop g = false) ->
    forall g, fmts [] (tidy false drop g l) = fmts [] l.
  Proof.
    induction l as [|c l IH]; intros H g; [reflexivity|]. cbn [flat_map] in H.
    assert (H1 : forall x, In x (codes_inside c) -> drop x = false) by (intros; apply H, in_or_app; auto).
    assert (H2 : forall x, In x (flat_map codes_inside l) -> drop x = false) by (intros; apply H, in_or_app; auto).
    assert (E : fmts [] (fst (td g c)) = fmt [] c).
    { destruct c; try (apply tidy_cmd_fmt; exact H1). cbn [tidy_cmd]. destruct (drop g0) eqn:Eg.
      - cbn [fst fmt_cmds fmt_cmd fmt_leaf app]. unfold fmt_g. rewrite Eg. reflexivity.
      - cbn [andb fst]. rewrite fmts_one. cbn [fmt_cmd fmt_leaf]. unfold fmt_g. rewrite Hk. cbn [negb]. rewrite !Bool.orb_true_r. reflexivity. }
    cbn [tidy]. destruct (td g c) as [y g'] eqn:Et. cbn [fst] in E. rewrite fmts_app, E.
    pose proof (fmt_base c []) as Hb. cbn [fmt_cmds]. destruct (fmt [] c) as [t b1]. cbn [fst snd] in *.
    assert (b1 = []) as -> by (destruct Hb; assumption). rewrite (IH H2). destruct (fmts [] l). reflexivity.
  Qed.
End Tidy.

(** ** Explicit parentheses *)
Section Expl.
  Context {K T : Type}.
  Lemma expl_twice (e : expr K) : expl (expl e) = expl e.
  Proof.
    induction e as [k|v|e IH|e IH|e IH|h t IHh IHt|h t IHh IHt|h t IHh IHt|h t IHh IHt] using expr_ind'; cbn [expl]; auto;
      try (f_equal; exact IH);
      (do 2 f_equal; [exact IHh|]; rewrite map_map; apply map_ext_in; intros x Hx; rewrite Forall_forall in IHt; auto).
  Qed.
  Lemma expl_prim_twice (p : prim K) : expl_prim (expl_prim p) = expl_prim p.
  Proof.
    destruct p; cbn [expl_prim]; rewrite ?expl_twice; try reflexivity.
    - f_equal. destruct rotation; [|reflexivity]. cbn. rewrite expl_twice. reflexivity.
    - f_equal. rewrite map_map. apply map_ext. intros [a b]. cbn. rewrite !expl_twice. reflexivity.
  Qed.
  Lemma expl_cmd_twice (c : cmd K T) : expl_cmd (expl_cmd c) = expl_cmd c.
  Proof.
    induction c as [id b Hb|h b Hb|c Hl] using cmd_ind'.
    - cbn [expl_cmd]. f_equal. rewrite map_map. apply map_ext_in. rewrite Forall_forall in Hb. exact Hb.
    - cbn [expl_cmd]. f_equal. rewrite map_map. apply map_ext_in. rewrite Forall_forall in Hb. exact Hb.
    - destruct c; try contradiction; try reflexivity. cbn [expl_cmd]. f_equal. rewrite map_map. apply map_ext. apply expl_prim_twice.
  Qed.
  Lemma expl_codes (c : cmd K T) : codes_in (expl_cmd c) = codes_in c.
  Proof.
    assert (L : forall b : list (cmd K T), Forall (fun c => codes_in (expl_cmd c) = codes_in c) b -> flat_map codes_in (map expl_cmd b) = flat_map codes_in b).
    { induction 1 as [|x l Hx _ IH]; [reflexivity|]. cbn [map flat_map]. rewrite Hx, IH. reflexivity. }
    induction c as [id b Hb|h b Hb|c Hl] using cmd_ind'; [exact (L b Hb)|exact (L b Hb)|]. destruct c; try contradiction; reflexivity.
  Qed.
  Lemma expl_fmts (w : writer K T) o l base : f_explicit o = true -> fmt_cmds w o base (map expl_cmd l) = fmt_cmds w o base l.
  Proof.
    intros H. rewrite (expl_cmds_fmt w o H (map expl_cmd l)), (expl_cmds_fmt w o H l), map_map.
    f_equal. apply map_ext. apply expl_cmd_twice.
  Qed.
End Expl.

(** A weaker condition on the integers. *)
Lemma values_int (S F : Q -> Prop) (I1 I2 : Z -> Prop) c : (forall z, I1 z -> I2 z) ->
  values_cmd S F I1 c -> values_cmd S F I2 c.
Proof.
  intros Hi. set (all := fun P : Z -> Prop => fix all (l : list (cmd Q str)) : Prop := match l with [] => True | x :: l' => values_cmd S F P x /\ all l' end).
  induction c as [id b Hb|h b Hb|c Hl] using cmd_ind'.
  - change (all I1 b -> all I2 b). induction Hb; cbn; [tauto|]. intros [H1 H2]. split; auto.
  - change (clean_sr h /\ all I1 b -> clean_sr h /\ all I2 b). intros [Hh H]. split; [exact Hh|].
    revert H. induction Hb; cbn; [tauto|]. intros [H1 H2]. split; auto.
  - destruct c; try contradiction; try exact (fun H => H). apply Hi.
Qed.

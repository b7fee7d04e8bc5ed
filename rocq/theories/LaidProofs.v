(** Proofs for C81. *)
From Verif Require Import Base Num Ast GramAst GramModel FmtModel GramRead GramRt LaidSpec.
Local Open Scope nat_scope.

Lemma ends_with_app a d : ends_with (a ++ d) d = true.
Proof.
  induction a as [|c a IH]; cbn [app].
  - destruct d; cbn [ends_with]; [reflexivity|]. rewrite str_eqb_refl. reflexivity.
  - cbn [ends_with]. rewrite IH. destruct (str_eqb _ _); reflexivity.
Qed.
Lemma decrease_app a d : (d = [] -> a = []) -> decrease (a ++ d) d = a.
Proof.
  intros H. unfold decrease. rewrite ends_with_app. destruct d as [|c d]; [rewrite (H eq_refl); reflexivity|].
  rewrite app_length, Nat.add_sub, firstn_app, Nat.sub_diag, firstn_all. cbn. apply app_nil_r.
Qed.

Section Laid.
  Context {K T : Type} (w : writer K T) (op : options).
  Notation o := (init op).
  Notation ind_is := (indent_is op).
  Notation lf_is := (line_end_is op).

  Lemma indent_text_is i : ind_is i (indent_text op i).
  Proof.
    unfold indent_text. destruct (op_strip_whitespace op) eqn:E; [apply II_strip, E|].
    destruct i as [n|s]; [|apply II_text, E]. apply II_count; [exact E|apply repeat_length|].
    apply Forall_forall. intros x Hx. symmetry. exact (repeat_spec _ _ _ Hx).
  Qed.
  Lemma indent_only i s : ind_is i s -> s = indent_text op i.
  Proof.
    intros H. unfold indent_text. destruct H as [i E|n s E L F|s E]; rewrite E; [reflexivity| |reflexivity].
    subst n. induction F as [|x s <- F IH]; [reflexivity|]. cbn. f_equal. exact IH.
  Qed.
  Lemma lf_text : lf_is (f_lf o).
  Proof. cbn. destruct (op_strip_whitespace op) eqn:E; [apply LE_strip, E|apply LE_text, E]. Qed.

  Lemma removed_is sa g : removed o g = true -> left_out op (CG sa g : cmd K T).
  Proof. unfold left_out. destruct g; try discriminate; cbn; intros E; [left|right]; split; eauto. Qed.
  Lemma removed_not sa g : removed o g = false -> ~ left_out op (CG sa g : cmd K T).
  Proof. intros E [[[x X] H]|[[x X] H]]; injection X as -> ->; cbn in E; congruence. Qed.
  Lemma shares_is sa : (sa || negb (f_keep o))%bool = false -> shares_line op sa.
  Proof. intros E. apply orb_false_iff in E as [-> E]. cbn in E. apply negb_false_iff in E. split; auto. Qed.
  Lemma shares_not sa : (sa || negb (f_keep o))%bool = true -> ~ shares_line op sa.
  Proof. intros E [-> H]. cbn in E. rewrite H in E. discriminate E. Qed.

  Lemma param_text bi (l : list str) : concat (map (fun p => lit "," ++ bi ++ p) l) = concat (map (fun i => lit "," ++ bi ++ i) l).
  Proof. reflexivity. Qed.
  Lemma params_app l l' : params o (l ++ l') = params o l ++ params o l'.
  Proof. unfold params. rewrite map_app, concat_app. reflexivity. Qed.
  Lemma prim_is p : fmt_prim w o p =
    prim_lf o ++ fst (prim_items w op p) ++ params o (snd (prim_items w op p)) ++ lit "*".
  Proof.
    destruct p; cbn [fmt_prim prim_items fst snd];
      unfold prim_text; rewrite ?params_app, <- ?app_assoc; try reflexivity.
  Qed.

  Lemma line_bare sa : line_start bare [] [] sa = [].
  Proof. apply line_start_bare. reflexivity. Qed.
  Lemma leaf_laid ind c :
    match c with CAB _ _ | CSR _ _ => False | CAM _ _ => ind = [] | _ => left_out op c -> ind = [] end ->
    laid w op ind c (fmt_leaf w o ind c).
  Proof.
    intros H.
    assert (L : forall own, one_line op c -> fmt_leaf w o ind c = ind ++ own ++ cmd_text w c ++ f_lf o ->
      ind_is (own_indent op c) own -> laid w op ind c (fmt_leaf w o ind c)).
    { intros own H1 -> H2. apply L_line; [exact H1|exact H2|exact lf_text]. }
    assert (Z : ind_is (ICount 0) []).
    { pose proof (indent_text_is (ICount 0)) as X. unfold indent_text in X. destruct (op_strip_whitespace op); exact X. }
    destruct c; try contradiction.
    all: try (apply (L []); [exact I|cbn [app]; cbn [fmt_leaf]; unfold cmd_text; cbn [fmt_leaf app]; rewrite ?(ext_bare o), ?(com_bare o); reflexivity|exact Z]).
    - apply (L []); [exact I| |exact Z]. cbn [app fmt_leaf]. unfold cmd_text. cbn [fmt_leaf app].
      destruct (fmt_template w (ad_template a)). rewrite (ext_bare o). reflexivity.
    - clear L. subst ind.
      assert (E : fmt_leaf w o [] (CAM name prims) =
        [] ++ lit "%AM" ++ name ++ lit "*" ++
         concat (map (fun p => prim_lf o ++ fst (prim_items w op p) ++ concat (map (fun i => lit "," ++ param_lf o ++ i) (snd (prim_items w op p))) ++ lit "*") prims) ++
         (if op_macro_end_in_new_line op then f_lf o else []) ++ lit "%" ++ f_lf o).
      { cbn [fmt_leaf]. unfold fmt_macro. cbn [app]. rewrite (map_ext _ _ prim_is). reflexivity. }
      rewrite E. apply (L_macro w op []); [| |exact lf_text|].
      + unfold prim_lf. change (f_split o) with (op_macro_split_mode op). destruct (op_macro_split_mode op) eqn:S; [apply BP_no, S| |];
          apply (BP_yes op []); try (rewrite S; discriminate); try exact lf_text; apply indent_text_is.
      + unfold param_lf. change (f_split o) with (op_macro_split_mode op). destruct (op_macro_split_mode op) eqn:S;
          [apply BI_no; rewrite S; discriminate|apply BI_no; rewrite S; discriminate|].
        apply (BI_yes op []); [exact S|exact lf_text|apply indent_text_is|apply indent_text_is].
      + destruct (op_macro_end_in_new_line op); [symmetry; apply app_nil_r|reflexivity].
    - apply (L []); [exact I| |exact Z]. cbn [app fmt_leaf]. unfold cmd_text. cbn [fmt_leaf app]. f_equal.
      destruct a; cbn [fmt_ta]; apply ext_bare.
    - apply (L []); [exact I| |exact Z]. cbn [app fmt_leaf]. unfold cmd_text. cbn [fmt_leaf app]. f_equal.
      destruct a; cbn [fmt_tf]; apply ext_bare.
    - apply (L []); [exact I| |exact Z]. cbn [app fmt_leaf]. unfold cmd_text. cbn [fmt_leaf app]. f_equal.
      destruct a; cbn [fmt_to]; apply ext_bare.
    - destruct (standalone || negb (f_keep o))%bool eqn:S.
      + apply (L (f_d01 o)); [exact (shares_not _ S)| |apply indent_text_is]. unfold cmd_text. cbn [fmt_leaf]. rewrite line_bare.
        unfold line_start. rewrite S, (com_bare o), <- !app_assoc. reflexivity.
      + clear L. assert (E : fmt_leaf w o ind (CD01 standalone x y i j) = cmd_text w (CD01 standalone x y i j) ++ f_lf o).
        { unfold cmd_text. cbn [fmt_leaf]. rewrite line_bare. unfold line_start. rewrite S, (com_bare o), <- !app_assoc. reflexivity. }
        rewrite E. apply L_shared; [exact (shares_is _ S)|exact lf_text].
    - destruct (standalone || negb (f_keep o))%bool eqn:S.
      + apply (L (f_d02 o)); [exact (shares_not _ S)| |apply indent_text_is]. unfold cmd_text. cbn [fmt_leaf]. rewrite line_bare.
        unfold line_start. rewrite S, (com_bare o), <- !app_assoc. reflexivity.
      + clear L. assert (E : fmt_leaf w o ind (CD02 standalone x y) = cmd_text w (CD02 standalone x y) ++ f_lf o).
        { unfold cmd_text. cbn [fmt_leaf]. rewrite line_bare. unfold line_start. rewrite S, (com_bare o), <- !app_assoc. reflexivity. }
        rewrite E. apply L_shared; [exact (shares_is _ S)|exact lf_text].
    - destruct (standalone || negb (f_keep o))%bool eqn:S.
      + apply (L (f_d03 o)); [exact (shares_not _ S)| |apply indent_text_is]. unfold cmd_text. cbn [fmt_leaf]. rewrite line_bare.
        unfold line_start. rewrite S, (com_bare o), <- !app_assoc. reflexivity.
      + clear L. assert (E : fmt_leaf w o ind (CD03 standalone x y) = cmd_text w (CD03 standalone x y) ++ f_lf o).
        { unfold cmd_text. cbn [fmt_leaf]. rewrite line_bare. unfold line_start. rewrite S, (com_bare o), <- !app_assoc. reflexivity. }
        rewrite E. apply L_shared; [exact (shares_is _ S)|exact lf_text].
    - destruct (standalone || negb (f_keep o))%bool eqn:S.
      + apply (L []); [exact (shares_not _ S)| |exact Z]. unfold cmd_text. cbn [fmt_leaf]. rewrite line_bare.
        unfold line_start. rewrite S, (com_bare o), <- !app_assoc. reflexivity.
      + clear L. assert (E : fmt_leaf w o ind (CDnn standalone id) = cmd_text w (CDnn standalone id) ++ f_lf o).
        { unfold cmd_text. cbn [fmt_leaf]. rewrite line_bare. unfold line_start. rewrite S, (com_bare o), <- !app_assoc. reflexivity. }
        rewrite E. apply L_shared; [exact (shares_is _ S)|exact lf_text].
    - clear L. cbn [fmt_leaf]. unfold fmt_g. destruct (removed o g) eqn:R.
      + rewrite (H (removed_is _ _ R)). apply L_left_out. exact (removed_is _ _ R).
      + destruct (standalone || negb (f_keep o))%bool eqn:S.
        * apply L_code; [exact (removed_not _ _ R)|exact (shares_not _ S)|exact lf_text].
        * apply L_code_shared; [exact (removed_not _ _ R)|exact (shares_is _ S)].
    - clear L. assert (E : fmt_leaf w o ind (CLP p) = f_polarity o ++ ind ++ cmd_text w (CLP p) ++ f_lf o).
      { unfold cmd_text. cbn [fmt_leaf]. rewrite (ext_bare o). reflexivity. }
      rewrite E. cbn [f_polarity init]. destruct (op_empty_line_before_polarity_switch op) eqn:P.
      + apply L_polarity_apart; [exact P|exact lf_text].
      + apply L_polarity; [exact P|exact lf_text].
  Qed.

  Lemma cmds_laid l : forall ind, Forall (simple op ind) l ->
    Forall (fun c => forall ind, simple op ind c -> laid w op ind c (fst (fmt_cmd w o ind c)) /\ snd (fmt_cmd w o ind c) = ind) l ->
    laid_all w op ind l (fst (fmt_cmds w o ind l)) /\ snd (fmt_cmds w o ind l) = ind.
  Proof.
    induction l as [|c l IH]; intros ind H1 H2; cbn [fmt_cmds]; [split; [constructor|reflexivity]|].
    inversion H1 as [|? ? A1 B1]; subst. inversion H2 as [|? ? A2 B2]; subst.
    destruct (A2 ind A1) as [C D]. destruct (fmt_cmd w o ind c) as [t b]. cbn [fst snd] in C, D. subst b.
    destruct (IH ind B1 B2) as [E F]. destruct (fmt_cmds w o ind l) as [ts b]. cbn [fst snd] in *. subst b.
    split; [constructor; assumption|reflexivity].
  Qed.
  Lemma cmd_laid c : forall ind, simple op ind c ->
    laid w op ind c (fst (fmt_cmd w o ind c)) /\ snd (fmt_cmd w o ind c) = ind.
  Proof.
    induction c as [id l Hl|h l Hl|c Hc] using cmd_ind'; intros ind S.
    - inversion S as [? ? X|? ? ? bi B1 B2 B3|]; subst; [destruct X|].
      rewrite fmt_block. destruct (cmds_laid l _ B3 Hl) as [L1 L2].
      rewrite (indent_only _ _ B1) in *. change (indent_text op (op_block_indent op)) with (f_block o) in *.
      destruct (fmt_cmds w o (ind ++ f_block o) l) as [t b]. cbn [fst snd] in *. subst b. rewrite (decrease_app _ _ B2). cbn [fst snd].
      split; [|reflexivity]. pose proof (L_block w op ind id l _ t (f_lf o) (indent_text_is _) lf_text L1) as X.
      unfold ext. rewrite <- !app_assoc in X |- *. exact X.
    - inversion S as [? ? X| |? ? ? bi B1 B2 B3]; subst; [destruct X|].
      rewrite fmt_steprep. destruct (cmds_laid l _ B3 Hl) as [L1 L2].
      rewrite (indent_only _ _ B1) in *. change (indent_text op (op_sr_indent op)) with (f_sr o) in *.
      destruct (fmt_cmds w o (ind ++ f_sr o) l) as [t b]. cbn [fst snd] in *. subst b. rewrite (decrease_app _ _ B2). cbn [fst snd].
      split; [|reflexivity]. pose proof (L_repeat w op ind h l _ t (f_lf o) (indent_text_is _) lf_text L1) as X.
      unfold ext. rewrite <- !app_assoc in X |- *. exact X.
    - assert (E : fmt_cmd w o ind c = (fmt_leaf w o ind c, ind)) by (destruct c; try contradiction; reflexivity).
      rewrite E. cbn [fst snd]. split; [|reflexivity]. apply leaf_laid.
      inversion S as [? ? X| |]; subst; [exact X|destruct Hc|destruct Hc].
  Qed.

  (** The layout is determined. *)
  Definition lay_leaf (ind : str) (c : cmd K T) : str :=
    match c with
    | CAB _ _ | CSR _ _ => []
    | CG sa g => if removed o g then [] else
                 if (sa || negb (f_keep o))%bool then ind ++ lit (g_name g) ++ lit "*" ++ f_lf o else ind ++ lit (g_name g)
    | CLP p => (if op_empty_line_before_polarity_switch op then f_lf o else []) ++ ind ++ cmd_text w (CLP p) ++ f_lf o
    | CAM name ps =>
        let bp := match op_macro_split_mode op with NoSplit => [] | _ => f_lf o ++ ind ++ f_macro_body o end in
        let bi := match op_macro_split_mode op with SplitOnParameters => f_lf o ++ ind ++ f_macro_param o ++ f_macro_body o | _ => [] end in
        ind ++ lit "%AM" ++ name ++ lit "*" ++
         concat (map (fun p => bp ++ fst (prim_items w op p) ++ concat (map (fun i => lit "," ++ bi ++ i) (snd (prim_items w op p))) ++ lit "*") ps) ++
         (if op_macro_end_in_new_line op then f_lf o ++ ind else []) ++ lit "%" ++ f_lf o
    | CD01 sa _ _ _ _ | CD02 sa _ _ | CD03 sa _ _ | CDnn sa _ =>
        if (sa || negb (f_keep o))%bool then ind ++ indent_text op (own_indent op c) ++ cmd_text w c ++ f_lf o
        else cmd_text w c ++ f_lf o
    | _ => ind ++ indent_text op (own_indent op c) ++ cmd_text w c ++ f_lf o
    end.
  Fixpoint lay (ind : str) (c : cmd K T) : str :=
    match c with
    | CAB id l => (ind ++ lit "%AB" ++ id ++ lit "*%" ++ f_lf o) ++ concat (map (lay (ind ++ f_block o)) l) ++ (ind ++ lit "%AB*%" ++ f_lf o)
    | CSR h l => (ind ++ lit "%SR" ++ fmt_sr h ++ lit "*%" ++ f_lf o) ++ concat (map (lay (ind ++ f_sr o)) l) ++ (ind ++ lit "%SR*%" ++ f_lf o)
    | c => lay_leaf ind c
    end.
  Lemma lf_only s : lf_is s -> s = f_lf o.
  Proof. intros H. cbn. destruct H as [E|E]; rewrite E; reflexivity. Qed.
  Lemma share_false sa : shares_line op sa -> (sa || negb (f_keep o))%bool = false.
  Proof. intros [-> E]. cbn. rewrite E. reflexivity. Qed.
  Lemma share_true sa : ~ shares_line op sa -> (sa || negb (f_keep o))%bool = true.
  Proof. intros H. destruct (sa || negb (f_keep o))%bool eqn:E; [reflexivity|]. destruct H. apply shares_is, E. Qed.
  Scheme laid_mut := Minimality for laid Sort Prop with laid_all_mut := Minimality for laid_all Sort Prop.
  Lemma laid_lay ind c t : laid w op ind c t -> t = lay ind c.
  Proof.
    revert ind c t. apply (laid_mut K T w op (fun ind c t => t = lay ind c) (fun ind l ts => ts = concat (map (lay ind) l))).
    - intros ind c own lf H1 H2 H3. rewrite (lf_only _ H3), (indent_only _ _ H2).
      destruct c; try contradiction; try reflexivity; cbn [lay lay_leaf]; rewrite (share_true _ H1); reflexivity.
    - intros ind c lf H1 H2. rewrite (lf_only _ H2).
      destruct c; try contradiction; cbn [lay lay_leaf]; rewrite (share_false _ H1); reflexivity.
    - intros ind c [[[x ->] E]|[[x ->] E]]; cbn; rewrite E; reflexivity.
    - intros ind sa g lf H1 H2 H3. rewrite (lf_only _ H3). cbn [lay lay_leaf]. destruct (removed o g) eqn:R; [destruct H1; apply removed_is, R|].
      rewrite (share_true _ H2). reflexivity.
    - intros ind sa g H1 H2. cbn [lay lay_leaf]. destruct (removed o g) eqn:R; [destruct H1; apply removed_is, R|].
      rewrite (share_false _ H2). reflexivity.
    - intros ind p lf H1 H2. rewrite (lf_only _ H2). cbn [lay lay_leaf]. rewrite H1. reflexivity.
    - intros ind p lf H1 H2. rewrite (lf_only _ H2). cbn [lay lay_leaf]. rewrite H1. reflexivity.
    - intros ind name ps bp bi be lf H1 H2 H3 H4. rewrite (lf_only _ H3) in *. cbn [lay lay_leaf].
      assert (E1 : bp = match op_macro_split_mode op with NoSplit => [] | _ => f_lf o ++ ind ++ f_macro_body o end).
      { destruct H1 as [E|lf' b E A B]; [rewrite E; reflexivity|]. rewrite (lf_only _ A), (indent_only _ _ B).
        destruct (op_macro_split_mode op); [destruct (E eq_refl)| |]; reflexivity. }
      assert (E2 : bi = match op_macro_split_mode op with SplitOnParameters => f_lf o ++ ind ++ f_macro_param o ++ f_macro_body o | _ => [] end).
      { destruct H2 as [E|lf' b q E A B C]; [destruct (op_macro_split_mode op); [| |destruct (E eq_refl)]; reflexivity|].
        rewrite E, (lf_only _ A), (indent_only _ _ B), (indent_only _ _ C). reflexivity. }
      rewrite E1, E2. destruct (op_macro_end_in_new_line op); rewrite H4; reflexivity.
    - intros ind id l bi ts lf H1 H2 _ ->. rewrite (lf_only _ H2), (indent_only _ _ H1). reflexivity.
    - intros ind h l si ts lf H1 H2 _ ->. rewrite (lf_only _ H2), (indent_only _ _ H1). reflexivity.
    - reflexivity.
    - intros ind c l t ts _ -> _ ->. reflexivity.
  Qed.
  Lemma laid_all_lay ind l ts : laid_all w op ind l ts -> ts = concat (map (lay ind) l).
  Proof. intros H. induction H as [|ind c l t ts H1 _ ->]; [reflexivity|]. rewrite (laid_lay _ _ _ H1). reflexivity. Qed.
End Laid.

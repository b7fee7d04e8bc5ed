(** The text of an attribute is read as that attribute. *)
From Verif Require Import Base Num CoordModel CoordProofs Ast GramAst PegModel GramModel FmtModel GramText GramExpr GramExprRt
  GramExprSpec GramTok GramWf GramFileSpec GramRead.
Local Open Scope nat_scope.

Lemma fields_head f s : head_is field_char (fields_text f ++ "*"%char :: s) = false.
Proof. destruct f; reflexivity. Qed.
Lemma fields_name f s : head_is name_char (fields_text f ++ "*"%char :: s) = false.
Proof. destruct f; reflexivity. Qed.
Lemma strip_prefix_none l x r : strip_prefix l x = None -> all is_letter l -> head_is is_letter r = false ->
  strip_prefix l (x ++ r) = None.
Proof.
  revert x. induction l as [|a l IH]; intros x H Hl Hr; [destruct x; discriminate|].
  apply all_cons in Hl as [Ha Hl]. destruct x as [|b x]; cbn [app strip_prefix] in *.
  - destruct r as [|c r]; [reflexivity|]. cbn [head_is] in Hr. destruct (Ascii.eqb a c) eqn:E; [|reflexivity].
    apply Ascii.eqb_eq in E as ->. congruence.
  - destruct (Ascii.eqb a b); [|reflexivity]. apply IH; assumption.
Qed.
Lemma no_function_app x r : first_prefix (map lit aper_functions) x = None -> head_is is_letter r = false ->
  first_prefix (map lit aper_functions) (x ++ r) = None.
Proof.
  assert (H : Forall (all is_letter) (map lit aper_functions)) by (unfold aper_functions; repeat constructor).
  induction H as [|l ls Hl H IH]; intros H1 H2; [reflexivity|]. cbn [first_prefix] in *.
  destruct (strip_prefix l x) eqn:E; [discriminate|]. rewrite (strip_prefix_none l x r E Hl H2). apply IH; assumption.
Qed.
Lemma function_app g f s : In g (map lit aper_functions) ->
  one_of aper_functions (g ++ fields_text f ++ "*"%char :: s) = POk g (fields_text f ++ "*"%char :: s).
Proof.
  intros H. unfold aper_functions in H. cbn [map In] in H.
  destruct f as [|x f]; cbn [fields_text map concat app lit list_ascii_of_string].
  - repeat (destruct H as [<-|H]; [reflexivity|]). contradiction.
  - rewrite <- app_assoc. repeat (destruct H as [<-|H]; [reflexivity|]). contradiction.
Qed.

(** The fields of a text are fewer than its characters. *)
Definition inside (a s : str) : Prop := exists p q, s = p ++ a ++ q.
Lemma inside_refl a : inside a a.
Proof. exists [], []. rewrite app_nil_r. reflexivity. Qed.
Lemma inside_l a p s : inside a s -> inside a (p ++ s).
Proof. intros (x & y & ->). exists (p ++ x), y. rewrite <- app_assoc. reflexivity. Qed.
Lemma inside_r a p s : inside a s -> inside a (s ++ p).
Proof. intros (x & y & ->). exists x, (y ++ p). rewrite <- !app_assoc. reflexivity. Qed.
Lemma inside_fields f s n : inside (fields_text f) s -> length s < n -> length f < n.
Proof.
  intros (p & q & ->). rewrite !app_length.
  pose proof (concat_length (fun t : str => lit "," ++ t) f ltac:(discriminate)) as H. change (concat _) with (fields_text f) in H.
  intros H2. clear -H H2. lia.
Qed.

Ltac ftext := cbn [bare f_lf lit list_ascii_of_string app opt_text opt_num option_map]; flat_app.
Ltac fstep Hn := match goal with
  | |- pbind (fields _) _ _ = _ => eapply bind_ok; [apply fields_app; [eassumption|exact Hn]|]
  | |- pbind one_field _ _ = _ =>
      eapply bind_ok; [apply one_field_app; [eassumption|first [reflexivity|apply fields_head]]|]
  | |- pbind user_name_p _ _ = _ => eapply bind_ok; [apply user_app; [eassumption|apply fields_name]|]
  | |- (caseless_p _ ;; _) _ = _ => eapply then_ok; [reflexivity|]
  | _ => rstep
  end.

Section Read.
  Context {K T : Type} (rd : reader K T) (w : writer K T).
  (** The list of fields in an attribute. *)
  Definition ta_fields (a : ta K) : list str :=
    match a with TAUser _ f | TAAperFunction _ f | TAFlashText _ _ _ _ _ f => f | _ => [] end.
  Lemma read_ta n a s : wf_ta rd a -> clean_leaf rd w (CTA a) -> length (ta_fields a) < n ->
    @ta_p K T rd n (cmd_text w (CTA a) ++ s) = POk (CTA a) s.
  Proof.
    intros Hw Hc Hf. unfold ta_p. eapply bind_ok; [|reflexivity].
    unfold cmd_text; cbn [fmt_leaf app].
    destruct a as [u f|g f|p m|t mode mir font size c]; cbn [wf_ta fmt_ta ta_fields] in *; unfold ext in *.
    - destruct Hw as [H1 H2]. ftext. apply first_hit, ext_read. repeat fstep Hf.
    - destruct Hw as [H1 H2].
      apply first_skip; [reflexivity|]. destruct g as [g|]; ftext; apply first_hit, ext_read; rstep; rstep.
      + eapply bind_ok; [apply opt_some; [reflexivity|rstep; apply function_app, H1]|]. repeat fstep Hf.
      + destruct f as [|x f].
        * eapply bind_ok; [apply opt_none; reflexivity|]. eapply bind_ok; [apply (fields_app n [] _ H2 Hf)|]. reflexivity.
        * eapply bind_ok; [apply opt_none; [reflexivity|]|].
          -- cbn [fields_text map concat lit list_ascii_of_string app]. rewrite <- app_assoc. rstep.
             unfold one_of, token. inversion H2 as [|? ? (_ & _ & Hx) _]; subst. fold (fields_text f).
             assert (Hr : head_is is_ws (x ++ fields_text f ++ "*"%char :: "%"%char :: s) = false)
               by (destruct x; [destruct f; reflexivity|exact Hx]).
             change (concat (map (fun f0 : list ascii => ","%char :: f0) f)) with (fields_text f).
             rewrite skip_id by exact Hr.
             rewrite no_function_app; [reflexivity|exact H1|destruct f; reflexivity].
          -- repeat fstep Hf.
    - destruct Hw as (_ & _ & Hm). destruct Hc as [H1 H2]. do 2 (apply first_skip; [reflexivity|]).
      destruct p as [p|], m as [m|]; try (discriminate (Hm eq_refl)); ftext; apply first_hit, ext_read; rstep; rstep.
      + eapply bind_ok; [apply opt_some; [reflexivity|]|].
        * rstep. eapply bind_ok; [apply num_app; [eauto|reflexivity]|].
          eapply bind_ok; [apply opt_some; [reflexivity|rstep; apply num_app; [eauto|reflexivity]]|]. reflexivity.
        * reflexivity.
      + eapply bind_ok; [apply opt_some; [reflexivity|]|].
        * rstep. eapply bind_ok; [apply num_app; [eauto|reflexivity]|].
          eapply bind_ok; [apply opt_none; reflexivity|]. reflexivity.
        * reflexivity.
      + reflexivity.
    - destruct Hw as (H1 & H2 & H3 & (x & -> & H4) & (y & -> & H5) & H6). clear Hc.
      do 3 (apply first_skip; [reflexivity|]).
      assert (E : match c with [] => opt_text "," (Some x) ++ opt_text "," (Some y)
                  | _ => lit "," ++ opt_text "" (Some x) ++ lit "," ++ opt_text "" (Some y) ++ fields_text c end =
                ","%char :: x ++ ","%char :: y ++ fields_text c).
      { destruct c; cbn [opt_text fields_text map concat lit list_ascii_of_string app]; flat_app; [rewrite app_nil_r|]; reflexivity. }
      rewrite E. ftext. cbn [map In] in H2, H3.
      assert (E2 : mode = ["B"%char] \/ mode = ["C"%char]) by (destruct H2 as [H2|[H2|[]]]; auto).
      assert (E3 : mir = ["R"%char] \/ mir = ["M"%char]) by (destruct H3 as [H3|[H3|[]]]; auto).
      clear H2 H3.
      destruct E2 as [-> | ->], E3 as [-> | ->]; ftext; apply first_hit, ext_read; rstep; rstep; fstep Hf; rstep;
        (eapply bind_ok; [reflexivity|]); rstep; (eapply bind_ok; [reflexivity|]); repeat fstep Hf.
  Qed.
  Lemma read_td t s : opt_ok raw_text t -> @td_p K T (cmd_text w (CTD t) ++ s) = POk (CTD t) s.
  Proof.
    intros H. unfold cmd_text; cbn [fmt_leaf app]. unfold ext. destruct t as [t|]; ftext; apply ext_read; rstep.
    - eapply bind_ok; [apply raw_some, string_app; [exact H|reflexivity]|]. reflexivity.
    - reflexivity.
  Qed.

  Definition tf_fields (a : tf T) : list str :=
    match a with TFUser _ f | TFPart _ f | TFFileFunction _ f => f | _ => [] end.
  Tactic Notation "nskip" integer(n) := do n (apply first_skip; [reflexivity|]).
  Ltac valid H := cbn [fst snd]; eapply bind_ok; [unfold validate; rewrite H; reflexivity|reflexivity].
  Ltac onef := apply one_field_app; [assumption|reflexivity].
  Lemma read_three tag mk a b c s :
    field_text a -> field_text b -> field_text c ->
    (forall x, (lit_p "TF" ;; caseless_p tag) ("T"%char :: "F"%char :: lit tag ++ x) = POk tt x) ->
    tf_three_p tag mk ("%"%char :: "T"%char :: "F"%char :: lit tag ++ (","%char :: a ++ ","%char :: b ++ ","%char :: c ++ "*"%char :: "%"%char :: s))
    = POk (mk (Some a) (Some b) (Some c) : tf T) s.
  Proof.
    intros H1 H2 H3 Ht. unfold tf_three_p. apply ext_read. specialize (Ht (","%char :: a ++ ","%char :: b ++ ","%char :: c ++ "*"%char :: "%"%char :: s)).
    unfold pthen at 1. unfold pthen in Ht. unfold pbind at 1. unfold pbind in Ht.
    destruct (lit_p "TF" _) as [[] r| |] eqn:E; try discriminate. eapply then_ok; [exact Ht|].
    eapply bind_ok; [apply opt_some; [reflexivity|]|].
    - fstep I. eapply bind_ok; [apply opt_some; [reflexivity|]|].
      + fstep I. eapply bind_ok; [apply opt_some; [reflexivity|onef]|]. reflexivity.
      + reflexivity.
    - reflexivity.
  Qed.
  Lemma read_tf n a s : wf_tf rd a -> clean_leaf rd w (CTF a) -> length (tf_fields a) < n ->
    @tf_p K T rd n (cmd_text w (CTF a) ++ s) = POk (CTF a) s.
  Proof.
    intros Hw Hc Hf. unfold tf_p. eapply bind_ok; [|reflexivity].
    unfold cmd_text; cbn [fmt_leaf app].
    destruct a as [u f|p f|p f|p|i|d|a b c|a b c|m]; cbn [wf_tf fmt_tf tf_fields clean_leaf] in *; unfold ext in *.
    - destruct Hw as [H1 H2]. ftext. apply first_hit, ext_read. repeat fstep Hf.
    - destruct Hw as (H1 & H2 & H3). ftext. nskip 1. apply first_hit. unfold tf_enum_p.
      eapply bind_ok; [apply ext_read; rstep; fstep Hf; fstep Hf; repeat fstep Hf|]. valid H2.
    - destruct Hw as (H1 & H2 & H3). ftext. nskip 2. apply first_hit. unfold tf_enum_p.
      eapply bind_ok; [apply ext_read; rstep; fstep Hf; fstep Hf; repeat fstep Hf|]. valid H2.
    - destruct Hw as (H1 & H2). ftext. nskip 3. apply first_hit. unfold tf_one_p.
      eapply bind_ok; [apply ext_read; rstep; fstep Hf; onef|]. valid H2.
    - nskip 4. apply first_hit. unfold tf_same_p. destruct i as [i|]; ftext; apply ext_read; rstep; fstep Hf.
      + eapply bind_ok; [apply opt_some; [reflexivity|onef]|]. reflexivity.
      + reflexivity.
    - destruct Hc as (H1 & H2). ftext. nskip 5. apply first_hit. unfold tf_one_p.
      eapply bind_ok; [apply ext_read; rstep; fstep Hf; onef|]. valid H2.
    - destruct Hw as (H1 & H2 & H3), Hc as (C1 & C2 & C3). destruct a as [a|], b as [b|], c as [c|]; try congruence.
      ftext. nskip 6. apply first_hit. apply (read_three ".GenerationSoftware" TFGenerationSoftware a b c); auto.
    - destruct Hw as (H1 & H2 & H3), Hc as (C1 & C2 & C3). destruct a as [a|], b as [b|], c as [c|]; try congruence.
      ftext. nskip 7. apply first_hit. apply (read_three ".ProjectId" TFProjectId a b c); auto.
    - destruct Hw as (H1 & H2). ftext. nskip 8. apply first_hit. unfold tf_one_p.
      eapply bind_ok; [apply ext_read; rstep; fstep Hf; onef|]. valid H2.
  Qed.

  Definition to_fields (a : to K) : list str :=
    match a with TOUser _ f | TON f | TOCSup _ _ f => f | _ => [] end.
  Ltac onet Hf := unfold to_one_p; eapply bind_ok; [apply ext_read; rstep; fstep Hf; onef|].
  Lemma read_to n a s : wf_to rd a -> clean_leaf rd w (CTO a) -> length (to_fields a) < n ->
    @to_p K T rd n (cmd_text w (CTO a) ++ s) = POk (CTO a) s.
  Proof.
    intros Hw Hc Hf. unfold to_p. eapply bind_ok; [|reflexivity].
    unfold cmd_text; cbn [fmt_leaf app].
    destruct a as [u f|f|r m f|r|k|t x|m|k|x p f]; cbn [wf_to fmt_to to_fields clean_leaf] in *; unfold ext in *.
    - destruct Hw as [H1 H2]. ftext. apply first_hit, ext_read. repeat fstep Hf.
    - ftext. nskip 1. apply first_hit, ext_read. rstep. repeat fstep Hf.
    - destruct Hw as (H1 & H2 & H3). nskip 2. apply first_hit. destruct f as [f|]; ftext; apply ext_read; rstep; fstep Hf; fstep Hf; fstep Hf.
      + eapply bind_ok; [apply opt_some; [reflexivity|onef]|]. reflexivity.
      + reflexivity.
    - ftext. nskip 3. apply first_hit. onet Hf. reflexivity.
    - destruct Hc as [H1 H2]. ftext. nskip 4. apply first_hit. onet Hf. valid H2.
    - destruct t; cbn [tag_text]; ftext.
      + nskip 5. apply first_hit. onet Hf. reflexivity.
      + nskip 6. apply first_hit. onet Hf. reflexivity.
      + nskip 7. apply first_hit. onet Hf. reflexivity.
      + nskip 9. apply first_hit. onet Hf. reflexivity.
      + nskip 10. apply first_hit. onet Hf. reflexivity.
      + nskip 11. apply first_hit. onet Hf. reflexivity.
      + nskip 13. apply first_hit. onet Hf. reflexivity.
      + nskip 14. apply first_hit. onet Hf. reflexivity.
    - destruct Hw as (H1 & H2). ftext. nskip 8. apply first_hit. onet Hf. valid H2.
    - destruct Hc as [H1 H2]. ftext. nskip 12. apply first_hit. onet Hf. valid H2.
    - destruct Hw as (H1 & H2 & H3). ftext. nskip 15. apply first_hit, ext_read. rstep. fstep Hf. repeat fstep Hf.
  Qed.


  (** ** Any command without a body, except macros *)
  Lemma few_fields n c l : length (cmd_text w c) < n ->
    match c with
    | CTA a => l = ta_fields a /\ (match a with TAFlashText _ _ _ font size _ => font <> None /\ size <> None | _ => True end)
    | CTF a => l = tf_fields a | CTO a => l = to_fields a | _ => False
    end -> length l < n.
  Proof.
    intros Hn H. assert (H0 : length (@nil str) < n) by (cbn; lia). 
    destruct c; try contradiction; unfold cmd_text in Hn; cbn [fmt_leaf app] in Hn.
    - destruct H as [-> H]. destruct a; cbn [ta_fields fmt_ta] in *; unfold ext in Hn; try exact H0.
      + eapply inside_fields; [|exact Hn]. apply inside_l, inside_l, inside_r, inside_refl.
      + eapply inside_fields; [|exact Hn]. apply inside_l, inside_l, inside_r, inside_l, inside_refl.
      + destruct comments as [|x l]; [exact H0|]. eapply inside_fields; [|exact Hn].
        apply inside_l, inside_l, inside_r. do 10 apply inside_l. apply inside_refl.
    - subst. destruct a; cbn [tf_fields fmt_tf] in *; unfold ext in Hn; try exact H0.
      + eapply inside_fields; [|exact Hn]. apply inside_l, inside_l, inside_r, inside_refl.
      + eapply inside_fields; [|exact Hn]. apply inside_l, inside_l, inside_r, inside_l, inside_refl.
      + eapply inside_fields; [|exact Hn]. apply inside_l, inside_l, inside_r, inside_l, inside_refl.
    - subst. destruct a; cbn [to_fields fmt_to] in *; unfold ext in Hn; try exact H0.
      + eapply inside_fields; [|exact Hn]. apply inside_l, inside_l, inside_r, inside_refl.
      + eapply inside_fields; [|exact Hn]. apply inside_l, inside_l, inside_r, inside_refl.
      + eapply inside_fields; [|exact Hn]. apply inside_l, inside_l, inside_r, inside_l, inside_l, inside_l, inside_l, inside_refl.
  Qed.
  Lemma single_ok (p : parser (cmd K T)) c s r : p s = POk c r -> single p s = POk [c] r.
  Proof. intros H. unfold single. eapply bind_ok; [exact H|reflexivity]. Qed.
  Definition is_macro (c : cmd K T) : bool := match c with CAM _ _ => true | _ => false end.
  Lemma leaf_reads n m c s : wf_leaf rd c -> clean_leaf rd w c -> is_macro c = false -> length (cmd_text w c) < n ->
    body_item rd n (block_p rd n (S m)) (cmd_text w c ++ s) = POk [c] s /\
    root_item rd n (cmd_text w c ++ s) = POk [c] s.
  Proof.
    intros Hw Hc Hm Hn. destruct n as [|n]; [lia|]. unfold body_item, root_item.
    assert (D : wf_d true c -> body_item rd (S n) (block_p rd (S n) (S m)) (cmd_text w c ++ s) = POk [c] s /\
                                root_item rd (S n) (cmd_text w c ++ s) = POk [c] s).
    { intros H. pose proof (single_ok _ _ _ _ (read_d w true c s H)) as H1. split; apply first_hit, H1. }
    assert (G : match c with CG _ _ | CG04 _ => True | _ => False end ->
      body_item rd (S n) (block_p rd (S n) (S m)) (cmd_text w c ++ s) = POk [c] s /\
      root_item rd (S n) (cmd_text w c ++ s) = POk [c] s).
    { intros H. pose proof (read_g rd w c s Hw H) as H1.
      split; (apply first_skip; [destruct c; try contradiction; [destruct g; subst; cbn; cbn in Hw; subst; reflexivity|destruct s0; reflexivity]|apply first_hit, H1]). }
    assert (L : match c with CLN _ | CLP _ | CLR _ | CLS _ | CLM _ => True | _ => False end ->
      body_item rd (S n) (block_p rd (S n) (S m)) (cmd_text w c ++ s) = POk [c] s /\
      root_item rd (S n) (cmd_text w c ++ s) = POk [c] s).
    { intros H. pose proof (single_ok _ _ _ _ (read_load rd w c s Hw Hc H)) as H1.
      split; (do 2 (apply first_skip; [destruct c; try contradiction; reflexivity|]); apply first_hit, H1). }
    assert (P : match c with CFS _ | CMO _ | CIP _ | CIR _ | COF _ _ | CAS _ | CMI _ _ | CIN _ | CSF _ _ => True | _ => False end ->
      body_item rd (S n) (block_p rd (S n) (S m)) (cmd_text w c ++ s) = POk [c] s /\
      root_item rd (S n) (cmd_text w c ++ s) = POk [c] s).
    { intros H. pose proof (single_ok _ _ _ _ (read_properties rd w c s Hw Hc H)) as H1.
      split.
      - do 3 (apply first_skip; [destruct c; try contradiction; reflexivity|]); apply first_hit, H1.
      - do 5 (apply first_skip; [destruct c; try contradiction; reflexivity|]); apply first_hit, H1. }
    assert (M : match c with CM00 | CM01 | CM02 => True | _ => False end ->
      body_item rd (S n) (block_p rd (S n) (S m)) (cmd_text w c ++ s) = POk [c] s /\
      root_item rd (S n) (cmd_text w c ++ s) = POk [c] s).
    { intros H. pose proof (single_ok _ _ _ _ (read_m w c s H)) as H1.
      split.
      - do 8 (apply first_skip; [destruct c; try contradiction; reflexivity|]); apply first_hit, H1.
      - do 6 (apply first_skip; [destruct c; try contradiction; reflexivity|]); apply first_hit, H1. }
    assert (A : match c with CTA _ | CTD _ | CTF _ | CTO _ => True | _ => False end ->
      attribute rd (S n) (cmd_text w c ++ s) = POk c s ->
      body_item rd (S n) (block_p rd (S n) (S m)) (cmd_text w c ++ s) = POk [c] s /\
      root_item rd (S n) (cmd_text w c ++ s) = POk [c] s).
    { intros Hk H. pose proof (single_ok _ _ _ _ H) as H1.
      split; (do 4 (apply first_skip; [destruct c; try contradiction; [destruct a|destruct a|destruct a as [| | | | |[]| | |]|]; reflexivity|]); apply first_hit, H1). }
    destruct c; try contradiction; try discriminate; try (apply G; exact I); try (apply L; exact I); try (apply P; exact I);
      try (apply M; exact I); try (apply D; exact Hw).
    - pose proof (single_ok _ _ _ _ (read_ad rd w (S n) a s Hw Hc Hn)) as H1. split.
      + do 5 (apply first_skip; [destruct a as [id [| | | |nm [[|]|]]]; reflexivity|]). apply first_hit, H1.
      + do 3 (apply first_skip; [destruct a as [id [| | | |nm [[|]|]]]; reflexivity|]). apply first_hit, single_ok.
        do 3 (apply first_skip; [destruct a as [id [| | | |nm [[|]|]]]; reflexivity|]). apply first_hit.
        exact (read_ad rd w (S n) a s Hw Hc Hn).
    - apply A; [exact I|]. apply first_hit, read_ta; auto. eapply few_fields; [exact Hn|]. split; [reflexivity|].
      destruct a; auto. cbn in Hw. destruct Hw as (_ & _ & _ & (x & -> & _) & (y & -> & _) & _). split; discriminate.
    - apply A; [exact I|]. do 2 (apply first_skip; [destruct a; reflexivity|]). apply first_hit, read_tf; auto.
      eapply few_fields; [exact Hn|]. reflexivity.
    - apply A; [exact I|]. do 3 (apply first_skip; [destruct a as [| | | | |[]| | |]; reflexivity|]). apply first_hit, read_to; auto.
      eapply few_fields; [exact Hn|]. reflexivity.
    - apply A; [exact I|]. do 1 (apply first_skip; [reflexivity|]). apply first_hit, read_td. exact Hw.
  Qed.
End Read.

(** Proofs about the resilient parser. *)
From Verif Require Import Base Num Ast GramAst PegModel GramModel GramText GramTok GramWf GramPieces ResModel ResSpec.
Local Open Scope nat_scope.

(** Parsers leave a tail of the text. *)
Definition tails {A} (p : parser A) : Prop := forall s a r, p s = POk a r -> exists c, s = c ++ r.
Lemma skip_tail s : exists w, ws w /\ s = w ++ skip s.
Proof.
  induction s as [|c s (w & Hw & E)]; [exists []; split; reflexivity|]. cbn. destruct (is_ws c) eqn:Ec.
  - exists (c :: w). split; [apply all_cons; auto|cbn; f_equal; exact E].
  - exists []. split; reflexivity.
Qed.
Lemma tails_token {A} (f : str -> option (A * str)) : (forall s a r, f s = Some (a, r) -> exists c, s = c ++ r) -> tails (token f).
Proof.
  intros H s a r. unfold token. destruct (f (skip s)) as [[b q]|] eqn:E; [|discriminate]. intros X. injection X as <- <-.
  destruct (H _ _ _ E) as (c & Ec). destruct (skip_tail s) as (w & _ & Es). exists (w ++ c). rewrite Es, Ec at 1. apply app_assoc.
Qed.
Lemma tails_ret {A} (a : A) : tails (ret a).
Proof. intros s b r X. injection X as <- <-. exists []. reflexivity. Qed.
Lemma tails_bind {A B} (p : parser A) (f : A -> parser B) : tails p -> (forall a, tails (f a)) -> tails (pbind p f).
Proof.
  intros Hp Hf s b r. unfold pbind. destruct (p s) as [a q| |e] eqn:E; try discriminate. intros X.
  destruct (Hp _ _ _ E) as (c & ->). destruct (Hf _ _ _ _ X) as (d & ->). exists (c ++ d). apply app_assoc.
Qed.
Lemma tails_then {A B} (p : parser A) (q : parser B) : tails p -> tails q -> tails (p ;; q).
Proof. intros Hp Hq. apply tails_bind; auto. Qed.
Lemma tails_validate {A} (o : option A) : tails (validate o).
Proof. intros s a r. unfold validate. destruct o; [|discriminate]. intros X. injection X as <- <-. exists []. reflexivity. Qed.
Lemma tails_first_of {A} (ps : list (parser A)) : Forall tails ps -> tails (first_of ps).
Proof.
  intros H s a r. induction H as [|p ps Hp _ IH]; [discriminate|]. cbn. destruct (p s) as [b q| |e] eqn:E; try discriminate; [|exact IH].
  intros X. injection X as <- <-. exact (Hp _ _ _ E).
Qed.
Lemma tails_opt {A} (p : parser A) : tails p -> tails (opt p).
Proof.
  intros Hp s a r. unfold opt. destruct (skip_tail s) as (w & _ & Es). destruct (p (skip s)) as [b q| |e] eqn:E; try discriminate; intros X; injection X as <- <-.
  - destruct (Hp _ _ _ E) as (c & Ec). exists (w ++ c). rewrite Es, Ec at 1. apply app_assoc.
  - eauto.
Qed.
Lemma tails_opt_raw {A} (p : parser A) : tails p -> tails (opt_raw p).
Proof.
  intros Hp s a r. unfold opt_raw. destruct (p s) as [b q| |e] eqn:E; try discriminate; intros X; injection X as <- <-.
  - exact (Hp _ _ _ E).
  - exists []. reflexivity.
Qed.
Lemma tails_followed_by {A} (p : parser A) : tails (followed_by p).
Proof. intros s a r. unfold followed_by. destruct (p s); try discriminate. intros X. injection X as <- <-. exists []. reflexivity. Qed.
Lemma tails_many {A} (p : parser A) : tails p -> forall n, tails (many n p).
Proof.
  intros Hp n. induction n as [|n IH]; intros s l r; [discriminate|]. cbn. destruct (p s) as [b q| |e] eqn:E; try discriminate.
  - destruct (many n p q) as [l' q'| |e] eqn:E'; try discriminate. intros X. injection X as <- <-.
    destruct (Hp _ _ _ E) as (c & ->). destruct (IH _ _ _ E') as (d & ->). exists (c ++ d). apply app_assoc.
  - intros X. injection X as <- <-. exists []. reflexivity.
Qed.
Lemma tails_many1 {A} n (p : parser A) : tails p -> tails (many1 n p).
Proof. intros Hp. apply tails_bind; [exact Hp|]. intros a. apply tails_bind; [apply tails_many; exact Hp|]. intros l. apply tails_ret. Qed.

Lemma tails_lit l : tails (lit_p l).
Proof. apply tails_token. intros s a r H. destruct (strip_prefix _ s) eqn:E; [|discriminate]. injection H as <- <-. apply strip_prefix_some in E. eauto. Qed.
Lemma tails_caseless l : tails (caseless_p l).
Proof. apply tails_token. intros s a r H. destruct (strip_upper _ s) eqn:E; [|discriminate]. injection H as <- <-. apply strip_upper_some in E as (p & E & _). eauto. Qed.
Lemma tails_one_of l : tails (one_of l).
Proof. apply tails_token. intros s a r H. apply first_prefix_some in H as [_ H]. eauto. Qed.
Lemma tails_chars cs : tails (chars_not_in cs).
Proof.
  intros s a r. unfold chars_not_in. match goal with |- context[span ?f s] => pose proof (span_spec f s) as (_ & H & _); destruct (span f s) as [x y] end.
  cbn in H. destruct x; [discriminate|]. intros X. injection X as <- <-. eauto.
Qed.
Lemma tails_double : tails (token re_double). Proof. apply tails_token. intros s a r H. apply re_double_some in H as [_ H]. eauto. Qed.
Lemma tails_integer : tails (token re_integer). Proof. apply tails_token. intros s a r H. apply re_integer_some in H as [_ H]. eauto. Qed.
Lemma span_tail f s : exists c, s = c ++ snd (span f s).
Proof. pose proof (span_spec f s) as (_ & H & _). eauto. Qed.
Lemma tails_word st ch : tails (token (re_word st ch)).
Proof.
  apply tails_token. intros s a r. unfold re_word. destruct s as [|c s]; [discriminate|]. destruct (st c); [|discriminate].
  destruct (span_tail ch s) as (d & Ed). destruct (span ch s) as [x y]. cbn in Ed. intros X. injection X as <- <-. exists (c :: d). cbn. f_equal. exact Ed.
Qed.
Lemma tails_field : tails (token re_field).
Proof. apply tails_token. intros s a r. unfold re_field. intros X. injection X as X. destruct (span_tail field_char s) as (d & Ed). rewrite X in Ed. eauto. Qed.
Lemma digits_tail s d r : re_digits s = Some (d, r) -> exists c, s = c ++ r.
Proof. intros H. apply re_digits_some in H as (_ & H & _). eauto. Qed.
Lemma tails_id : tails (token re_aperture_id).
Proof.
  apply tails_token. intros s a r. unfold re_aperture_id. destruct s as [|c s]; [discriminate|]. destruct (Ascii.eqb c "D"); [|discriminate].
  destruct (span_tail (Ascii.eqb "0") s) as (d & Ed). destruct (span (Ascii.eqb "0") s) as [z r1]. cbn in Ed. destruct r1 as [|x r2]; [discriminate|].
  destruct (is_digit x); [|discriminate]. destruct (re_digits r2) as [[e r3]|] eqn:E; [|discriminate]. intros X. injection X as <- <-.
  apply digits_tail in E as (g & ->). exists (c :: d ++ x :: g). rewrite Ed. cbn. rewrite <- app_assoc. reflexivity.
Qed.
Lemma tails_variable : tails (token re_variable).
Proof.
  apply tails_token. intros s a r. unfold re_variable. destruct s as [|c s]; [discriminate|]. destruct (Ascii.eqb c "$"); [|discriminate].
  destruct (re_digits s) as [[e r3]|] eqn:E; [|discriminate]. intros X. injection X as <- <-. apply digits_tail in E as (g & ->). exists (c :: g). reflexivity.
Qed.
Lemma tails_code l c : tails (token (re_code l c)).
Proof.
  apply tails_token. intros s a r. unfold re_code. destruct s as [|x s]; [discriminate|]. destruct (Ascii.eqb x l); [|discriminate].
  destruct (span_tail (Ascii.eqb "0") s) as (d & Ed). destruct (strip_prefix _ _) as [q|] eqn:E; [|discriminate]. intros X. injection X as <- <-.
  apply strip_prefix_some in E. exists (x :: d ++ lit c). rewrite Ed, E. cbn. rewrite <- app_assoc. reflexivity.
Qed.
Lemma tails_code_zero l : tails (token (re_code_zero l)).
Proof.
  apply tails_token. intros s a r. unfold re_code_zero. destruct s as [|x s]; [discriminate|]. destruct (Ascii.eqb x l); [|discriminate].
  destruct (span_tail (Ascii.eqb "0") s) as (d & Ed). destruct (span _ _) as [y z]. cbn in Ed. destruct y; [discriminate|]. intros X. injection X as <- <-.
  exists (x :: d). rewrite Ed. reflexivity.
Qed.
Lemma tails_digit : tails (token re_digit).
Proof. apply tails_token. intros s a r. unfold re_digit. destruct s as [|x s]; [discriminate|]. destruct (is_digit x); [|discriminate]. intros X. injection X as <- <-. exists [x]. reflexivity. Qed.

Ltac tails_go :=
  repeat match goal with
  | |- tails (ret _) => apply tails_ret
  | |- tails (lit_p _) => apply tails_lit
  | |- tails (caseless_p _) => apply tails_caseless
  | |- tails (one_of _) => apply tails_one_of
  | |- tails (chars_not_in _) => apply tails_chars
  | |- tails (token re_double) => apply tails_double
  | |- tails (token re_integer) => apply tails_integer
  | |- tails (token re_field) => apply tails_field
  | |- tails (token re_aperture_id) => apply tails_id
  | |- tails (token re_variable) => apply tails_variable
  | |- tails (token re_digit) => apply tails_digit
  | |- tails (token (re_code _ _)) => apply tails_code
  | |- tails (token (re_code_zero _)) => apply tails_code_zero
  | |- tails (token re_name) => apply tails_word
  | |- tails (token re_user_name) => apply tails_word
  | |- tails (validate _) => apply tails_validate
  | |- tails (opt_raw _) => apply tails_opt_raw
  | |- tails (opt _) => apply tails_opt
  | |- tails (followed_by _) => apply tails_followed_by
  | |- tails (many _ _) => apply tails_many
  | |- tails (many1 _ _) => apply tails_many1
  | |- tails (first_of _) => apply tails_first_of
  | |- tails (pbind _ _) => apply tails_bind; [|intros]
  | |- tails (pthen _ _) => apply tails_then
  | |- Forall _ (_ :: _) => apply Forall_cons
  | |- Forall _ [] => apply Forall_nil
  | |- Forall _ (map _ _) => apply Forall_map, Forall_forall; intros
  | |- Forall _ (_ ++ _) => apply Forall_app; split
  | |- tails (match ?x with _ => _ end) => destruct x
  | |- tails (let '(_, _) := ?x in _) => destruct x
  end.

Section Grammar.
  Context {K T : Type} (rd : reader K T).
  Lemma tails_unary n op (mk : expr K -> expr K) last : tails last -> tails (unary n op mk last).
  Proof.
    intros H. induction n as [|n IH]; intros s a r; [discriminate|]. cbn [unary]. revert s a r.
    match goal with |- forall s a r, ?p s = POk a r -> _ => change (tails p) end. tails_go; auto.
  Qed.
  Lemma tails_binary {O} n (op : parser O) (mk : expr K -> list (expr K) -> expr K) last :
    tails op -> tails last -> tails (binary n op mk last).
  Proof. intros H1 H2. unfold binary. tails_go; auto. Qed.
  Lemma tails_expr n : tails (expr_p rd n).
  Proof.
    induction n as [|n IH]; intros s a r; [discriminate|]. cbn [expr_p]. revert s a r.
    match goal with |- forall s a r, ?p s = POk a r -> _ => change (tails p) end.
    repeat (apply tails_binary; [tails_go|]). repeat apply tails_unary. unfold variable_p, constant_p, num_p, double_p. tails_go; auto.
  Qed.
  Ltac unf := unfold macro_p, prim_p, assignment_p, primitive, arg, add_aperture, adc_p, adr_p, adp_p, admacro_p, x_num, num_p, fields, one_field,
    attribute, ta_p, td_p, tf_p, to_p, ta_user_p, ta_aper_function_p, ta_drill_tolerance_p, ta_flash_text_p, tf_user_p, tf_enum_p, tf_one_p, tf_same_p, tf_three_p,
    to_user_p, to_n_p, to_p_p, to_one_p, to_csup_p, d_codes, dnn_p, d01_p, d02_p, d03_p, coord, g_codes, g04_p, g_standalone, g_non_standalone,
    load, m_codes, properties, fs_p, mo_p, ip_p, ir_p, of_p, as_p, mi_p, in_p, sf_p, sr_open_p, single, command, extended,
    string_p, asterisk, percent, comma, name_p, user_name_p, field_p, double_p, integer_p, aperture_id_p.
  Lemma tails_macro n : tails (@macro_p K T rd n). Proof. unf; unf; unf; tails_go; try apply tails_expr. Qed.
  Lemma tails_adds n : tails (@add_aperture K T rd n). Proof. unf; unf; unf; tails_go; try apply tails_expr. Qed.
  Lemma tails_attribute n : tails (@attribute K T rd n). Proof. unf; unf; unf; tails_go. Qed.
  Lemma tails_d sa : tails (@d_codes K T sa). Proof. unf; unf; unf; tails_go. Qed.
  Lemma tails_g : tails (@g_codes K T). Proof. unf; unf; unf; tails_go. Qed.
  Lemma tails_load : tails (@load K T rd). Proof. unf; unf; unf; tails_go. Qed.
  Lemma tails_properties : tails (@properties K T rd). Proof. unf; unf; unf; tails_go. Qed.
  Lemma tails_m : tails (@m_codes K T). Proof. unf; unf; unf; tails_go. Qed.
  Lemma tails_body n block : tails block -> tails (body_item rd n block).
  Proof.
    intros H. unfold body_item, single. tails_go; auto using tails_d, tails_g, tails_load, tails_properties, tails_attribute, tails_adds, tails_macro, tails_m.
  Qed.
  Lemma tails_block n m : tails (block_p rd n m).
  Proof.
    induction m as [|m IH]; intros s a r; [discriminate|]. cbn [block_p]. revert s a r.
    match goal with |- forall s a r, ?p s = POk a r -> _ => change (tails p) end. unf; unf; unf; tails_go. apply tails_body, IH.
  Qed.
  Lemma tails_sr n m : tails (sr_p rd n m).
  Proof. unfold sr_p. unf; unf; unf; tails_go. apply tails_body, tails_block. Qed.
  Lemma tails_root n : tails (root_item rd n).
  Proof.
    unfold root_item, single. tails_go; auto using tails_d, tails_g, tails_load, tails_properties, tails_attribute, tails_adds, tails_macro, tails_m, tails_block, tails_sr.
  Qed.
End Grammar.

Section Resilient.
  Context {K T : Type} (rd : reader K T).
  Lemma in_line_all t : all in_line t -> ~ In "010"%char t.
  Proof. unfold all. rewrite forallb_forall. intros H Hi. specialize (H _ Hi). discriminate H. Qed.
  Lemma invalid_cases s :
    (skip s = [] /\ invalid_p s = PFail) \/
    (exists t r, invalid_p s = POk t r /\ skip s = t ++ r /\ t <> [] /\ rest_of_line t r).
  Proof.
    unfold invalid_p, token. destruct (skip s) as [|c u] eqn:E; [left; split; reflexivity|]. right.
    pose proof (skip_head s) as Hh. rewrite E in Hh. cbn [head_is] in Hh.
    pose proof (span_spec in_line (c :: u)) as (H1 & H2 & H3). assert (Hc : in_line c = true).
    { unfold in_line. destruct (Ascii.eqb c "010") eqn:Ec; [|reflexivity]. apply Ascii.eqb_eq in Ec as ->. discriminate Hh. }
    destruct (span in_line (c :: u)) as [t r] eqn:Es. cbn [fst snd] in *.
    assert (Ht : t <> []). { intros ->. cbn in Es. rewrite Hc in Es. destruct (span in_line u); discriminate Es. }
    exists t, r. unfold nonempty. destruct t as [|x t]; [congruence|]. repeat split; auto.
    - apply in_line_all, H1.
    - destruct r as [|y r]; [left; reflexivity|]. right. exists r. f_equal. cbn in H3. unfold in_line in H3.
      apply Bool.negb_false_iff, Ascii.eqb_eq in H3. exact H3.
  Qed.
  Lemma item_cases n s :
    (exists cs r, root_item rd n s = POk cs r /\ resilient_item rd n s = POk (map Parsed cs) r) \/
    (exists e, root_item rd n s = PErr e /\ resilient_item rd n s = PErr e) \/
    (root_item rd n s = PFail /\ skip s = [] /\ resilient_item rd n s = PFail) \/
    (exists t r, root_item rd n s = PFail /\ resilient_item rd n s = POk [Invalid t] r /\ skip s = t ++ r /\ t <> [] /\ rest_of_line t r).
  Proof.
    unfold resilient_item. cbn [first_of]. unfold pbind, ret. destruct (root_item rd n s) as [cs r| |e] eqn:E.
    - left. exists cs, r. split; reflexivity.
    - right. right. destruct (invalid_cases s) as [[H1 H2]|(t & r & H1 & H2)].
      + left. rewrite H2. repeat split. exact H1.
      + right. exists t, r. rewrite H1. split; [reflexivity|]. split; [reflexivity|exact H2].
    - right. left. exists e. split; reflexivity.
  Qed.
  Lemma strict_many N n : forall s l r, many n (root_item rd N) s = POk l r -> skip r = [] ->
    many n (resilient_item rd N) s = POk (map (map Parsed) l) r.
  Proof.
    induction n as [|n IH]; intros s l r E Hr; [discriminate|]. cbn [many] in E |- *.
    destruct (item_cases N s) as [(cs & q & H1 & H2)|[(e & H1 & H2)|[(H1 & H2 & H3)|(t & q & H1 & H2 & H3 & H4 & H5)]]]; rewrite H1 in E.
    - rewrite H2. destruct (many n (root_item rd N) q) as [l' q'| |e] eqn:E'; try discriminate. injection E as <- <-.
      rewrite (IH _ _ _ E' Hr). reflexivity.
    - discriminate.
    - rewrite H3. injection E as <- <-. reflexivity.
    - injection E as <- <-. rewrite H3 in Hr. destruct t; [congruence|discriminate].
  Qed.
  Lemma resilient_many N n : forall s l r, many n (resilient_item rd N) s = POk l r ->
    skip r = [] /\ forall cs, concat l = map Parsed cs -> exists l', l = map (map Parsed) l' /\ many n (root_item rd N) s = POk l' r.
  Proof.
    induction n as [|n IH]; intros s l r E; [discriminate|]. cbn [many] in E |- *.
    destruct (item_cases N s) as [(cs & q & H1 & H2)|[(e & H1 & H2)|[(H1 & H2 & H3)|(t & q & H1 & H2 & H3 & H4 & H5)]]].
    - rewrite H2 in E. destruct (many n (resilient_item rd N) q) as [l' q'| |e] eqn:E'; try discriminate. injection E as <- <-.
      destruct (IH _ _ _ E') as [I1 I2]. split; [exact I1|]. intros ds Hd. cbn in Hd.
      symmetry in Hd. apply map_eq_app in Hd as (d1 & d2 & -> & D1 & D2). destruct (I2 d2 (eq_sym D2)) as (m & -> & Em).
      exists (cs :: m). split; [reflexivity|]. rewrite H1, Em. reflexivity.
    - rewrite H2 in E. discriminate.
    - rewrite H3 in E. injection E as <- <-. split; [exact H2|]. intros cs _. exists []. rewrite H1. auto.
    - rewrite H2 in E. destruct (many n (resilient_item rd N) q) as [l' q'| |e] eqn:E'; try discriminate. injection E as <- <-.
      destruct (IH _ _ _ E') as [I1 I2]. split; [exact I1|]. intros [|d ds] Hd; discriminate.
  Qed.
  Lemma concat_parsed (l : list (list (cmd K T))) : concat (map (map Parsed) l) = map (@Parsed K T) (concat l).
  Proof. induction l as [|x l IH]; [reflexivity|]. cbn. rewrite IH, map_app. reflexivity. Qed.
  Lemma parsed_inj (a b : list (cmd K T)) : map Parsed a = map (@Parsed K T) b -> a = b.
  Proof. revert b. induction a as [|x a IH]; intros [|y b] H; try discriminate; [reflexivity|]. injection H as -> H. f_equal. auto. Qed.

  Lemma many1_many {A} n (p : parser A) s : many (S n) p s = match many1 n p s with PFail => POk [] s | x => x end.
  Proof.
    unfold many1, pbind, ret. cbn. destruct (p s) as [a r| |e]; [|reflexivity|reflexivity]. destruct (many n p r) as [l r'| |e] eqn:E; try reflexivity.
    exfalso. clear -E. revert r E. induction n as [|n IH]; intros r E; [discriminate|]. cbn in E. destruct (p r); try discriminate. destruct (many n p rest) eqn:E'; try discriminate. eauto.
  Qed.
  Lemma many1_nonempty {A} n (p : parser A) s l r : many1 n p s = POk l r -> l <> [].
  Proof. unfold many1, pbind, ret. destruct (p s); try discriminate. destruct (many n p rest); try discriminate. intros E. injection E as <- _. discriminate. Qed.

  (** The strict and the resilient parser agree. *)
  Lemma strict_resilient text l : parse rd text = Ok l <-> parse_resilient rd text = Ok (map Parsed l).
  Proof.
    unfold parse, parse_resilient. set (s := expandtabs text). set (N := S (length s)).
    pose proof (many1_many N (root_item rd N) s) as M1. pose proof (many1_many N (resilient_item rd N) s) as M2. split.
    - destruct (many1 N (root_item rd N) s) as [l0 r| |e] eqn:E; try discriminate. destruct (skip r) eqn:Er; [|discriminate]. intros X. injection X as <-.
      rewrite (strict_many _ _ _ _ _ M1 Er) in M2. destruct (many1 N (resilient_item rd N) s) as [l1 r1| |e]; [| |discriminate].
      + injection M2 as <- <-. rewrite Er, concat_parsed. reflexivity.
      + injection M2 as M2 _. apply many1_nonempty in E. destruct l0; [congruence|discriminate].
    - destruct (many1 N (resilient_item rd N) s) as [l0 r| |e] eqn:E; try discriminate. destruct (skip r) eqn:Er; [|discriminate]. intros X. injection X as X.
      destruct (resilient_many _ _ _ _ _ M2) as [_ H]. destruct (H l X) as (l' & -> & H'). rewrite H' in M1.
      apply many1_nonempty in E. destruct (many1 N (root_item rd N) s) as [l1 r1| |e]; [| |discriminate].
      + injection M1 as -> ->. rewrite Er. rewrite concat_parsed in X. apply parsed_inj in X. subst. reflexivity.
      + injection M1 as -> _. cbn in E. congruence.
  Qed.

  Lemma yields_item n : yields n true (resilient_item rd n) (fun _ => True).
  Proof.
    intros s Hs Ht. pose proof (yields_root rd n s Hs Ht) as Y.
    destruct (item_cases n s) as [(cs & q & H1 & H2)|[(e & H1 & H2)|[(H1 & H2 & H3)|(t & q & H1 & H2 & H3 & H4 & H5)]]].
    - rewrite H1 in Y. rewrite H2. tauto.
    - rewrite H1 in Y. rewrite H2. exact Y.
    - rewrite H3. exact I.
    - rewrite H2. split; [exact I|]. pose proof (skip_all _ s Ht) as Ht'. pose proof (skip_length s) as L. rewrite H3 in Ht', L. apply all_app in Ht' as [_ Ht']. split; [exact Ht'|].
      rewrite app_length in L. destruct t; [congruence|]. cbn in L. lia.
  Qed.
  (** It never gives up on a text with something in it. *)
  Lemma resilient_total text :
    match parse_resilient rd text with
    | Ok _ => True
    | Err ESyntax => skip (expandtabs text) = []
    | Err (EOther e) => e = EValidation
    end.
  Proof.
    unfold parse_resilient. set (s := expandtabs text). set (N := S (length s)). assert (Ht : notab s) by apply expand_notab.
    pose proof (yields_many1 N _ _ (yields_item N) s (Nat.lt_succ_diag_r _) Ht) as Y. pose proof (many1_many N (resilient_item rd N) s) as M.
    destruct (many1 N (resilient_item rd N) s) as [l r| |e] eqn:E; [| |exact Y].
    - destruct (resilient_many _ _ _ _ _ M) as [-> _]. exact I.
    - destruct (resilient_many _ _ _ _ _ M) as [H _]. exact H.
  Qed.

  (** Every item has its own text. *)
  Definition item_ok (N : nat) (t : str) (ns : list (rnode K T)) (after : str) : Prop :=
    (exists cs, ns = map Parsed cs /\ root_item rd N (t ++ after) = POk cs after) \/
    (ns = [Invalid t] /\ root_item rd N (t ++ after) = PFail /\ rest_of_line t after).
  Lemma head_app_false f (a b : str) : a <> [] -> head_is f (a ++ b) = head_is f a.
  Proof. destruct a; [congruence|reflexivity]. Qed.
  Lemma resilient_cut N n : forall s l r, length s < N -> notab s -> many n (resilient_item rd N) s = POk l r ->
    exists ps, cut (item_ok N) s ps /\ map snd ps = l.
  Proof.
    induction n as [|n IH]; intros s l r Hs Ht E; [discriminate|]. pose proof (resilient_many _ _ _ _ _ E) as [Hr _]. cbn [many] in E.
    destruct (skip_tail s) as (w & Hw & Es).
    assert (Hl : root_item rd N s = root_item rd N (skip s)) by (rewrite Es at 1; apply (lead_root rd); exact Hw).
    pose proof (yields_item N s Hs Ht) as Y.
    destruct (item_cases N s) as [(cs & q & H1 & H2)|[(e & H1 & H2)|[(H1 & H2 & H3)|(t & q & H1 & H2 & H3 & H4 & H5)]]].
    - rewrite H2 in E, Y. destruct Y as (_ & Y1 & Y2). destruct (many n (resilient_item rd N) q) as [l' q'| |e] eqn:E'; try discriminate. injection E as <- <-.
      destruct (IH q l' q' ltac:(lia) Y1 E') as (ps & P1 & P2). rewrite Hl in H1. destruct (tails_root rd N _ _ _ H1) as (t & Et).
      assert (Hne : t <> []).
      { intros ->. cbn in Et. pose proof (yields_root rd N (skip s)) as Y. rewrite H1 in Y. pose proof (skip_length s).
        destruct Y as (_ & _ & Y); [lia|apply skip_all; exact Ht|]. rewrite Et in Y. lia. }
      exists ((t, map Parsed cs) :: ps). split; [|cbn; rewrite P2; reflexivity]. rewrite Es, Et. constructor; auto.
      + rewrite <- (head_app_false _ t q Hne), <- Et. apply skip_head.
      + left. exists cs. rewrite <- Et. auto.
    - rewrite H2 in E. discriminate.
    - rewrite H3 in E. injection E as <- <-. exists []. split; [|reflexivity]. constructor. rewrite Es, H2, app_nil_r. exact Hw.
    - rewrite H2 in E, Y. destruct Y as (_ & Y1 & Y2). destruct (many n (resilient_item rd N) q) as [l' q'| |e] eqn:E'; try discriminate. injection E as <- <-.
      destruct (IH q l' q' ltac:(lia) Y1 E') as (ps & P1 & P2). exists ((t, [Invalid t]) :: ps). split; [|cbn; rewrite P2; reflexivity].
      rewrite Es, H3. constructor; auto.
      + rewrite <- (head_app_false _ t q H4), <- H3. apply skip_head.
      + right. rewrite <- H3, <- Hl. auto.
  Qed.
  Lemma resilient_pieces text l : parse_resilient rd text = Ok l ->
    exists ps, cut (item_ok (S (length (expandtabs text)))) (expandtabs text) ps /\ concat (map snd ps) = l.
  Proof.
    unfold parse_resilient. set (s := expandtabs text). set (N := S (length s)). intros E. pose proof (many1_many N (resilient_item rd N) s) as M.
    destruct (many1 N (resilient_item rd N) s) as [l0 r| |e]; try discriminate. destruct (skip r); [|discriminate]. injection E as <-.
    destruct (resilient_cut N _ _ _ _ (Nat.lt_succ_diag_r _) (expand_notab text 0) M) as (ps & P1 & <-). eauto.
  Qed.
End Resilient.

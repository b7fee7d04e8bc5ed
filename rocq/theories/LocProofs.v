(** Proofs for C72. *)
From Verif Require ResProofs GramText.
From Verif Require Import Base Num CoordModel Ast GramAst PegModel GramModel ResModel LocModel LocSpec LocTexts.
Local Open Scope nat_scope.

(** ** Counting *)
Definition fits (k : nat) (u : str) : Prop := k <= length u <= k + blanks u.
Lemma fits_app k k' u u' : fits k u -> fits k' u' -> fits (k + k') (u ++ u').
Proof. unfold fits. rewrite app_length, blanks_app. lia. Qed.
Lemma fits_blank b : Forall (fun c => blank c = true) b -> fits 0 b.
Proof. unfold fits. intros H. rewrite (blanks_all b H). lia. Qed.
Lemma fits_all u : fits (length u) u.
Proof. unfold fits. lia. Qed.

(** Results satisfy [P], and the count fits what was read; from the first character that is not
    blank; and is not zero. *)
Definition good {A} (P : A -> Prop) (p : parser A) : Prop := forall s a k r, p s = POk (a, k) r -> P a /\ exists u, s = u ++ r /\ fits k u.
Definition lead {A} (p : parser A) : Prop := forall s a k r, p s = POk (a, k) r -> exists u, skip s = u ++ r /\ fits k u.
Definition posi {A} (p : parser A) : Prop := forall s a k r, p s = POk (a, k) r -> 0 < k.

Lemma good_of_lead {A} (p : parser A) : lead p -> good (fun _ => True) p.
Proof.
  intros H s a k r E. split; [exact I|]. destruct (H _ _ _ _ E) as (u & Eu & F). destruct (skip_split s) as (b & Eb & Hb).
  exists (b ++ u). rewrite <- app_assoc, <- Eu. split; [exact Eb|]. apply (fits_app 0 k); [apply fits_blank; exact Hb|exact F].
Qed.
Lemma good_weaken {A} (P Q : A -> Prop) p : good P p -> (forall a, P a -> Q a) -> good Q p.
Proof. intros H HQ s a k r E. destruct (H _ _ _ _ E) as [Ha Hu]. auto. Qed.

Lemma lead_token {A} (f : str -> option (A * str)) : ResProofs.tails (PegModel.token f) -> lead (token f).
Proof.
  intros H s a k r E. unfold token in E. destruct (f (skip s)) as [[a' r']|] eqn:Ef; [|discriminate]. injection E as <- <- <-.
  destruct (H (skip s) a' r') as (u & Eu); [unfold PegModel.token; rewrite skip_idem, Ef; reflexivity|].
  exists u. split; [exact Eu|]. rewrite Eu, app_length, Nat.add_sub. apply fits_all.
Qed.
Lemma good_token {A} (f : str -> option (A * str)) : ResProofs.tails (PegModel.token f) -> good (fun _ => True) (token f).
Proof. intros H. apply good_of_lead, lead_token, H. Qed.
Definition cuts1 {A} (f : str -> option (A * str)) : Prop := forall s a r, f s = Some (a, r) -> exists u, s = u ++ r /\ u <> [].
Lemma posi_token {A} (f : str -> option (A * str)) : cuts1 f -> posi (token f).
Proof.
  intros H s a k r E. unfold token in E. destruct (f (skip s)) as [[a' r']|] eqn:Ef; [|discriminate]. injection E as <- <- <-.
  destruct (H _ _ _ Ef) as (u & Eu & Hn). rewrite Eu, app_length. destruct u; [congruence|]. cbn [length]. lia.
Qed.

Lemma good_bind {A B} (Q : A -> Prop) (P : B -> Prop) (p : parser A) f : good Q p -> (forall a, Q a -> good P (f a)) -> good P (pbind p f).
Proof.
  intros Hp Hf s b k r E. unfold pbind in E. destruct (p s) as [[a k1] r1| |] eqn:E1; try discriminate.
  destruct (f a r1) as [[b2 k2] r2| |] eqn:E2; try discriminate. injection E as <- <- <-.
  destruct (Hp _ _ _ _ E1) as (Ha & u1 & -> & F1). destruct (Hf a Ha _ _ _ _ E2) as (Hb & u2 & -> & F2).
  split; [exact Hb|]. exists (u1 ++ u2). rewrite <- app_assoc. split; [reflexivity|apply fits_app; assumption].
Qed.
Lemma good_bind' {A B} (P : B -> Prop) (p : parser A) f : good (fun _ => True) p -> (forall a, good P (f a)) -> good P (pbind p f).
Proof. intros Hp Hf. apply (good_bind (fun _ => True)); auto. Qed.
Lemma lead_bind {A B} (p : parser A) (f : A -> parser B) : lead p -> (forall a, good (fun _ => True) (f a)) -> lead (pbind p f).
Proof.
  intros Hp Hf s b k r E. unfold pbind in E. destruct (p s) as [[a k1] r1| |] eqn:E1; try discriminate.
  destruct (f a r1) as [[b2 k2] r2| |] eqn:E2; try discriminate. injection E as <- <- <-.
  destruct (Hp _ _ _ _ E1) as (u1 & Eu & F1). destruct (Hf a _ _ _ _ E2) as (_ & u2 & -> & F2).
  exists (u1 ++ u2). rewrite <- app_assoc. split; [exact Eu|apply fits_app; assumption].
Qed.
Lemma posi_left {A B} (p : parser A) (f : A -> parser B) : posi p -> posi (pbind p f).
Proof.
  intros Hp s b k r E. unfold pbind in E. destruct (p s) as [[a k1] r1| |] eqn:E1; try discriminate.
  destruct (f a r1) as [[b2 k2] r2| |] eqn:E2; try discriminate. injection E as <- <- <-. specialize (Hp _ _ _ _ E1). lia.
Qed.
Lemma posi_right {A B} (p : parser A) (f : A -> parser B) : (forall a, posi (f a)) -> posi (pbind p f).
Proof.
  intros Hp s b k r E. unfold pbind in E. destruct (p s) as [[a k1] r1| |] eqn:E1; try discriminate.
  destruct (f a r1) as [[b2 k2] r2| |] eqn:E2; try discriminate. injection E as <- <- <-. specialize (Hp _ _ _ _ _ E2). lia.
Qed.
Lemma good_ret {A} (P : A -> Prop) a : P a -> good P (ret a).
Proof. intros H s b k r E. injection E as <- <- <-. split; [exact H|]. exists []. split; [reflexivity|apply (fits_all [])]. Qed.
Lemma good_validate {A} (o : option A) : good (fun _ => True) (validate o).
Proof. intros s b k r E. unfold validate in E. destruct o; [|discriminate]. injection E as <- <- <-. split; [exact I|]. exists []. split; [reflexivity|apply (fits_all [])]. Qed.
Lemma good_chars cs : good (fun _ => True) (chars_not_in cs).
Proof.
  intros s a k r E. unfold chars_not_in in E. split; [exact I|].
  assert (Hs : forall f s, s = fst (span f s) ++ snd (span f s)).
  { clear. intros f s. induction s as [|c s IH]; [reflexivity|]. cbn [span]. destruct (f c); [|reflexivity]. destruct (span f s). cbn in *. congruence. }
  specialize (Hs (fun c => negb (existsb (Ascii.eqb c) cs)) s). destruct (span _ s) as [[|x a'] r']; [discriminate|]. injection E as <- <- <-.
  exists (x :: a'). split; [exact Hs|apply (fits_all (x :: a'))].
Qed.
Lemma first_inv {A} (ps : list (parser A)) s x r : first_of ps s = POk x r -> exists p, In p ps /\ p s = POk x r.
Proof.
  induction ps as [|p ps IH]; [discriminate|]. cbn [first_of]. destruct (p s) as [x' r'| |] eqn:Ep; intros E; try discriminate.
  - exists p. split; [left; reflexivity|congruence].
  - destruct (IH E) as (q & Hq & Eq). exists q. split; [right; exact Hq|exact Eq].
Qed.
Lemma good_first {A} (P : A -> Prop) ps : Forall (good P) ps -> good P (first_of ps).
Proof. rewrite Forall_forall. intros H s a k r E. apply first_inv in E as (p & Hp & E). exact (H p Hp _ _ _ _ E). Qed.
Lemma lead_first {A} (ps : list (parser A)) : Forall lead ps -> lead (first_of ps).
Proof. rewrite Forall_forall. intros H s a k r E. apply first_inv in E as (p & Hp & E). exact (H p Hp _ _ _ _ E). Qed.
Lemma posi_first {A} (ps : list (parser A)) : Forall posi ps -> posi (first_of ps).
Proof. rewrite Forall_forall. intros H s a k r E. apply first_inv in E as (p & Hp & E). exact (H p Hp _ _ _ _ E). Qed.
Lemma lead_opt {A} (p : parser A) : good (fun _ => True) p -> lead (opt p).
Proof.
  intros H s a k r E. unfold opt in E. destruct (p (skip s)) as [[x k1] r1| |] eqn:Ep; try discriminate; injection E as <- <- <-.
  - exact (proj2 (H _ _ _ _ Ep)).
  - exists []. split; [reflexivity|apply (fits_all [])].
Qed.
Lemma good_opt {A} (p : parser A) : good (fun _ => True) p -> good (fun _ => True) (opt p).
Proof. intros H. apply good_of_lead, lead_opt, H. Qed.
Lemma good_opt_raw {A} (p : parser A) : good (fun _ => True) p -> good (fun _ => True) (opt_raw p).
Proof.
  intros H s a k r E. unfold opt_raw in E. destruct (p s) as [[x k1] r1| |] eqn:Ep; try discriminate; injection E as <- <- <-.
  - split; [exact I|exact (proj2 (H _ _ _ _ Ep))].
  - split; [exact I|]. exists []. split; [reflexivity|apply (fits_all [])].
Qed.
Lemma good_followed {A} (p : parser A) : good (fun _ => True) (followed_by p).
Proof.
  intros s a k r E. unfold followed_by in E. destruct (p s) as [[x k1] r1| |] eqn:Ep; try discriminate; injection E as <- <- <-.
  split; [exact I|]. exists []. split; [reflexivity|apply (fits_all [])].
Qed.
Lemma good_many {A} (P : A -> Prop) n p : good P p -> good (Forall P) (many n p).
Proof.
  intros H. induction n as [|n IH]; intros s l k r E; [discriminate|]. cbn [many] in E.
  destruct (p s) as [[x k1] r1| |] eqn:Ep; try discriminate.
  - destruct (many n p r1) as [[l2 k2] r2| |] eqn:E2; try discriminate. injection E as <- <- <-.
    destruct (H _ _ _ _ Ep) as (Hx & u1 & -> & F1). destruct (IH _ _ _ _ E2) as (Hl & u2 & -> & F2).
    split; [constructor; assumption|]. exists (u1 ++ u2). rewrite <- app_assoc. split; [reflexivity|apply fits_app; assumption].
  - injection E as <- <- <-. split; [constructor|]. exists []. split; [reflexivity|apply (fits_all [])].
Qed.
Lemma good_many' {A} n (p : parser A) : good (fun _ => True) p -> good (fun _ => True) (many n p).
Proof. intros H. eapply good_weaken; [apply good_many; exact H|auto]. Qed.

(** ** Regular expressions *)
Lemma posi_lit c l : posi (lit_p (String c l)).
Proof.
  apply posi_token. intros s a r E. destruct (strip_prefix _ s) as [r'|] eqn:Es; [|discriminate]. injection E as _ <-.
  exists (lit (String c l)). split; [exact (GramText.strip_prefix_some _ _ _ Es)|discriminate].
Qed.
Lemma posi_code l c : posi (token (re_code l c)).
Proof.
  apply posi_token. intros s a r. unfold re_code. destruct s as [|x s]; [discriminate|]. destruct (Ascii.eqb x l); [|discriminate].
  destruct (ResProofs.span_tail (Ascii.eqb "0") s) as (d & Ed). destruct (strip_prefix _ _) as [q|] eqn:E; [|discriminate]. intros X. injection X as <- <-.
  apply GramText.strip_prefix_some in E. exists (x :: d ++ lit c). split; [rewrite Ed, E; cbn; rewrite <- app_assoc; reflexivity|discriminate].
Qed.
Lemma posi_line : posi (token (fun s => nonempty (span in_line s))).
Proof.
  apply posi_token. intros s a r. pose proof (GramText.span_spec in_line s) as (_ & H & _). destruct (span in_line s) as [x y]. cbn in H.
  destruct x; [discriminate|]. intros X. injection X as <- <-. eexists. split; [exact H|discriminate].
Qed.
Lemma tails_line : ResProofs.tails (PegModel.token (fun s => nonempty (span in_line s))).
Proof.
  apply ResProofs.tails_token. intros s a r. pose proof (GramText.span_spec in_line s) as (_ & H & _). destruct (span in_line s) as [x y]. cbn in H.
  destruct x; [discriminate|]. intros X. injection X as <- <-. eauto.
Qed.

Ltac tok_go :=
  first [ apply ResProofs.tails_lit | apply ResProofs.tails_caseless | apply ResProofs.tails_one_of | apply ResProofs.tails_double | apply ResProofs.tails_integer
        | apply ResProofs.tails_field | apply ResProofs.tails_id | apply ResProofs.tails_variable | apply ResProofs.tails_digit | apply ResProofs.tails_code
        | apply ResProofs.tails_code_zero | apply ResProofs.tails_word | apply tails_line ].
Lemma good_command {A} (P : A -> Prop) p : good P p -> good P (command p).
Proof. intros H. unfold command. apply (good_bind P); [exact H|]. intros a Ha. apply good_bind'; [apply good_token; tok_go|]. intros _. apply good_ret, Ha. Qed.
Lemma good_extended {A} (P : A -> Prop) p : good P p -> good P (extended p).
Proof.
  intros H. unfold extended. apply good_bind'; [apply good_token; tok_go|]. intros _. apply (good_bind P); [exact H|]. intros a Ha.
  apply good_bind'; [apply good_token; tok_go|]. intros _. apply good_bind'; [apply good_token; tok_go|]. intros _. apply good_ret, Ha.
Qed.
Ltac good_go :=
  repeat match goal with
  | |- good _ (command _) => apply good_command
  | |- good _ (extended _) => apply good_extended
  | |- good _ (ret _) => apply good_ret
  | |- good (fun _ => True) (token _) => apply good_token; tok_go
  | |- good (fun _ => True) (lit_p _) => apply good_token; tok_go
  | |- good (fun _ => True) (caseless_p _) => apply good_token; tok_go
  | |- good (fun _ => True) (one_of _) => apply good_token; tok_go
  | |- good (fun _ => True) (chars_not_in _) => apply good_chars
  | |- good (fun _ => True) (validate _) => apply good_validate
  | |- good (fun _ => True) (opt_raw _) => apply good_opt_raw
  | |- good (fun _ => True) (opt _) => apply good_opt
  | |- good (fun _ => True) (followed_by _) => apply good_followed
  | |- good (fun _ => True) (many _ _) => apply good_many'
  | |- good _ (first_of _) => apply good_first
  | |- good _ (pbind _ _) => apply good_bind'; [|intros]
  | |- good _ (pthen _ _) => unfold pthen
  | |- good _ (many1 _ _) => unfold many1
  | |- Forall _ (_ :: _) => apply Forall_cons
  | |- Forall _ [] => apply Forall_nil
  | |- Forall _ (map _ _) => apply Forall_map, Forall_forall; intros
  | |- Forall _ (_ ++ _) => apply Forall_app; split
  | |- good _ (match ?x with _ => _ end) => destruct x
  | |- good _ (let '(_, _) := ?x in _) => destruct x
  end.
Ltac lead_go :=
  repeat match goal with
  | |- lead (token _) => apply lead_token; tok_go
  | |- lead (lit_p _) => apply lead_token; tok_go
  | |- lead (opt _) => apply lead_opt; good_go
  | |- lead (first_of _) => apply lead_first
  | |- lead (command _) => unfold command, asterisk
  | |- lead (extended _) => unfold extended, percent, asterisk
  | |- lead (pbind _ _) => apply lead_bind; [|intros; good_go]
  | |- lead (pthen _ _) => unfold pthen
  | |- Forall _ (_ :: _) => apply Forall_cons
  | |- Forall _ [] => apply Forall_nil
  | |- Forall _ (map _ _) => apply Forall_map, Forall_forall; intros
  | |- Forall _ (_ ++ _) => apply Forall_app; split
  end.
(** Commands end with an asterisk or begin with a percent sign. *)
Lemma posi_command {A} (p : parser A) : posi (command p).
Proof. unfold command. apply posi_right. intros a. apply posi_left. apply posi_lit. Qed.
Lemma posi_extended {A} (p : parser A) : posi (extended p).
Proof. unfold extended. apply posi_left. apply posi_lit. Qed.

Section Grammar.
  Context {K T : Type} (rd : reader K T).
  Notation any := (fun _ => True).
  Lemma good_unary n op (mk : expr K -> expr K) last : good any last -> good any (unary n op mk last).
  Proof.
    intros H. induction n as [|n IH]; [intros s a k r; discriminate|].
    change (good any (first_of [ (pthen (followed_by (pthen (lit_p op) (unary n op mk last))) (pbind (pthen (lit_p op) (unary n op mk last)) (fun e => ret (mk e)))); last ])).
    good_go; auto.
  Qed.
  Lemma good_binary {O} n (op : parser O) (mk : expr K -> list (expr K) -> expr K) last :
    good any op -> good any last -> good any (binary n op mk last).
  Proof. intros H1 H2. unfold binary. good_go; auto. Qed.
  Lemma good_expr n : good any (expr_p rd n).
  Proof.
    induction n as [|n IH]; intros s a k r; [discriminate|]. cbn [expr_p]. revert s a k r.
    match goal with |- forall s a k r, ?p s = POk (a, k) r -> _ => change (good any p) end.
    repeat (apply good_binary; [good_go|]). repeat apply good_unary. unfold variable_p, constant_p, num_p, double_p. good_go; auto.
  Qed.
  Ltac unf := unfold prim_p, assignment_p, primitive, arg, add_aperture, adc_p, adr_p, adp_p, admacro_p, x_num, num_p, fields, one_field,
    attribute, ta_p, td_p, tf_p, to_p, ta_user_p, ta_aper_function_p, ta_drill_tolerance_p, ta_flash_text_p, tf_user_p, tf_enum_p, tf_one_p, tf_same_p, tf_three_p,
    to_user_p, to_n_p, to_p_p, to_one_p, to_csup_p, d_codes, dnn_p, d01_p, d02_p, d03_p, coord, g_codes, g04_p, g_standalone, g_non_standalone,
    load, m_codes, properties, fs_p, mo_p, ip_p, ir_p, of_p, as_p, mi_p, in_p, sf_p, sr_open_p, single,
    string_p, asterisk, percent, comma, name_p, user_name_p, field_p, double_p, integer_p, aperture_id_p.
  (** Not a block or macro. *)
  Definition flat (c : cmd K T) : Prop := match c with CAB _ _ | CSR _ _ | CAM _ _ => False | _ => True end.
  (** Kinds of commands. *)
  Definition is_ext (c : cmd K T) : Prop :=
    match c with CAB _ _ | CSR _ _ | CAM _ _ | CD01 _ _ _ _ _ | CD02 _ _ _ | CD03 _ _ _ | CDnn _ _ | CG _ _ | CG04 _ | CM00 | CM01 | CM02 => False | _ => True end.
  Definition is_d (c : cmd K T) : Prop := match c with CD01 _ _ _ _ _ | CD02 _ _ _ | CD03 _ _ _ | CDnn _ _ => True | _ => False end.
  Definition is_m (c : cmd K T) : Prop := match c with CM00 | CM01 | CM02 | CG true _ | CG04 _ => True | _ => False end.
  Lemma good_prim n : good any (prim_p rd n). Proof. unf; unf; unf; good_go; try apply good_expr; exact I. Qed.
  Lemma good_adds n : good is_ext (@add_aperture K T rd n). Proof. unf; unf; unf; good_go; try exact I. Qed.
  Lemma good_attribute n : good is_ext (@attribute K T rd n). Proof. unf; unf; unf; good_go; try exact I. Qed.
  Lemma good_d sa : good is_d (@d_codes K T sa). Proof. unf; unf; unf; good_go; try exact I. Qed.
  Lemma good_load : good is_ext (@load K T rd). Proof. unf; unf; unf; good_go; try exact I. Qed.
  Lemma good_properties : good is_ext (@properties K T rd). Proof. unf; unf; unf; good_go; try exact I. Qed.
  Lemma good_m : good is_m (@m_codes K T). Proof. unf; unf; unf; good_go; try exact I. Qed.
  Lemma lead_prim n : lead (prim_p rd n). Proof. unf; unf; unf; lead_go; try apply good_expr; try exact I. Qed.
  Lemma lead_adds n : lead (@add_aperture K T rd n). Proof. unf; unf; unf; lead_go; try exact I. Qed.
  Lemma lead_attribute n : lead (@attribute K T rd n). Proof. unf; unf; unf; lead_go; try exact I. Qed.
  Lemma lead_d sa : lead (@d_codes K T sa). Proof. unf; unf; unf; lead_go; try exact I. Qed.
  Lemma lead_load : lead (@load K T rd). Proof. unf; unf; unf; lead_go; try exact I. Qed.
  Lemma lead_properties : lead (@properties K T rd). Proof. unf; unf; unf; lead_go; try exact I. Qed.
  Lemma lead_m : lead (@m_codes K T). Proof. unf; unf; unf; lead_go; try exact I. Qed.
  Ltac unf' := unfold prim_p, assignment_p, primitive, add_aperture, adc_p, adr_p, adp_p, admacro_p,
    attribute, ta_p, td_p, tf_p, to_p, ta_user_p, ta_aper_function_p, ta_drill_tolerance_p, ta_flash_text_p, tf_user_p, tf_enum_p, tf_one_p, tf_same_p, tf_three_p,
    to_user_p, to_n_p, to_p_p, to_one_p, to_csup_p, d_codes, dnn_p, d01_p, d02_p, d03_p,
    load, m_codes, properties, fs_p, mo_p, ip_p, ir_p, of_p, as_p, mi_p, in_p, sf_p.
  Ltac posi_go := repeat match goal with
    | |- posi (command _) => apply posi_command
    | |- posi (extended _) => apply posi_extended
    | |- posi (first_of _) => apply posi_first
    | |- posi (pbind _ _) => apply posi_left
    | |- Forall _ (_ :: _) => apply Forall_cons
    | |- Forall _ [] => apply Forall_nil
    end.
  Lemma posi_prim n : posi (prim_p rd n). Proof. unf'; posi_go. Qed.
  Lemma posi_adds n : posi (@add_aperture K T rd n). Proof. unf'; posi_go. Qed.
  Lemma posi_attribute n : posi (@attribute K T rd n). Proof. unf'; unf'; unf'; posi_go. Qed.
  Lemma posi_d sa : posi (@d_codes K T sa). Proof. unf'; posi_go. Qed.
  Lemma posi_load : posi (@load K T rd). Proof. unf'; posi_go. Qed.
  Lemma posi_properties : posi (@properties K T rd). Proof. unf'; posi_go. Qed.
  Lemma posi_m : posi (@m_codes K T). Proof. unf'; posi_go. Qed.

  (** ** Texts *)
  Lemma tidy_unary n op (mk : expr K -> expr K) last : forallb pure (lit op) = true -> tidy last -> tidy (unary n op mk last).
  Proof.
    intros Ho H. induction n as [|n IH]; [intros s a k r; discriminate|].
    change (tidy (first_of [ (pthen (followed_by (pthen (lit_p op) (unary n op mk last))) (pbind (pthen (lit_p op) (unary n op mk last)) (fun e => ret (mk e)))); last ])).
    tidy_go; auto.
  Qed.
  Lemma tidy_binary {O} n (op : parser O) (mk : expr K -> list (expr K) -> expr K) last : tidy op -> tidy last -> tidy (binary n op mk last).
  Proof. intros H1 H2. unfold binary. tidy_go; auto. Qed.
  Lemma tidy_expr n : tidy (expr_p rd n).
  Proof.
    induction n as [|n IH]; [intros s a k r; discriminate|]. cbn [expr_p].
    repeat (apply tidy_binary; [tidy_go|]). repeat (apply tidy_unary; [reflexivity|]). unfold variable_p, constant_p, num_p, double_p. tidy_go; exact IH.
  Qed.
  Ltac texts_go :=
    repeat match goal with
    | |- texts _ (first_of _) => apply texts_first
    | |- texts _ (command _) => apply texts_command; tidy_go
    | |- texts _ (extended _) => apply texts_extended; tidy_go
    | |- texts _ (pbind _ _) => apply texts_idle; [|intros; idle_go]
    | |- Forall _ (_ :: _) => apply Forall_cons
    | |- Forall _ [] => apply Forall_nil
    end.
  Ltac unft := unfold prim_p, assignment_p, primitive, arg, add_aperture, adc_p, adr_p, adp_p, admacro_p, x_num, num_p, fields, one_field,
    attribute, ta_p, td_p, tf_p, to_p, ta_user_p, ta_aper_function_p, ta_drill_tolerance_p, ta_flash_text_p, tf_user_p, tf_enum_p, tf_one_p, tf_same_p, tf_three_p,
    to_user_p, to_n_p, to_p_p, to_one_p, to_csup_p, load, m_codes, properties, fs_p, mo_p, ip_p, ir_p, of_p, as_p, mi_p, in_p, sf_p,
    comma, name_p, user_name_p, field_p, double_p, integer_p, aperture_id_p.
  Lemma texts_prim n : texts plain_text (prim_p rd n). Proof. unft; unft; unft; texts_go; apply tidy_expr. Qed.
  Lemma texts_adds n : texts extended_text (@add_aperture K T rd n). Proof. unft; unft; unft; texts_go. Qed.
  Lemma texts_attribute n : texts extended_text (@attribute K T rd n). Proof. unft; unft; unft; texts_go. Qed.
  Lemma texts_load : texts extended_text (@load K T rd). Proof. unft; unft; unft; texts_go. Qed.
  Lemma texts_properties : texts extended_text (@properties K T rd). Proof. unft; unft; unft; texts_go. Qed.
  Lemma texts_m : texts plain_text (@m_codes K T). Proof. unft; unft; unft; texts_go. Qed.
  Lemma texts_d sa : texts plain_text (@d_codes K T sa).
  Proof. unfold d_codes, dnn_p, d01_p, d02_p, d03_p, coord, integer_p, aperture_id_p. texts_go. Qed.
  Lemma ext_written c u : is_ext c -> extended_text u -> flat c /\ written (KCmd c) u.
  Proof. destruct c; cbn; try contradiction; auto. Qed.
  Lemma d_written c u : is_d c -> plain_text u -> flat c /\ written (KCmd c) u.
  Proof. destruct c; cbn; try contradiction; auto. Qed.
  Lemma m_written c u : is_m c -> plain_text u -> flat c /\ written (KCmd c) u.
  Proof. destruct c; cbn; try contradiction; auto. destruct standalone; [auto|contradiction]. Qed.

  (** ** Tiling *)
  Notation lnode := (lnode K T).
  Lemma tiles_app from t1 l1 : tiles (K := K) (T := T) from t1 l1 -> forall t2 l2, tiles (from + length t1) t2 l2 -> tiles from (t1 ++ t2) (l1 ++ l2).
  Proof.
    induction 1 as [from t Hb|from gap c u k len kids rest r Hg Hc Hw Hf Hk Hl Hr IH]; intros t2 l2 H2.
    - cbn [app]. inversion H2; subst.
      + constructor. apply Forall_app. auto.
      + rewrite app_assoc. replace (from + length t + length gap) with (from + length (t ++ gap)) in * by (rewrite app_length; lia).
        apply ti_cons; auto. apply Forall_app. auto.
    - cbn [app]. rewrite <- !app_assoc. cbn [app]. rewrite <- !app_assoc. apply (ti_cons from gap c u k len kids (rest ++ t2)); auto.
      apply IH. rewrite !app_length in H2. replace (from + length gap + length (c :: u) + length rest) with (from + (length gap + (length (c :: u) + length rest))) by lia. exact H2.
  Qed.
  Lemma gap_unique (b1 b2 : str) c1 c2 t1 t2 : b1 ++ c1 :: t1 = b2 ++ c2 :: t2 -> Forall (fun c => blank c = true) b1 -> Forall (fun c => blank c = true) b2 ->
    blank c1 = false -> blank c2 = false -> b1 = b2 /\ c1 :: t1 = c2 :: t2.
  Proof.
    intros E H1. revert b2 E. induction H1 as [|x b1 Hx _ IH]; intros b2 E H2 N1 N2.
    - destruct b2 as [|y b2]; [auto|]. injection E as -> _. inversion H2; congruence.
    - destruct b2 as [|y b2]; cbn [app] in E; [injection E as -> _; congruence|]. injection E as -> E. inversion H2 as [|? ? _ H4]; subst.
      destruct (IH b2 E H4 N1 N2) as [-> E']. auto.
  Qed.
  Lemma tiles_lead from b c u x l : tiles (K := K) (T := T) from (b ++ c :: u) (x :: l) -> Forall (fun c => blank c = true) b -> blank c = false ->
    tiles (from + length b) (c :: u) (x :: l).
  Proof.
    intros H Hb Hc. remember (b ++ c :: u) as t eqn:Et. remember (x :: l) as xs eqn:Ex. destruct H as [|from gap c0 u0 k len kids rest r Hg Hc0 Hw Hf Hk Hl Hr]; [discriminate|].
    injection Ex as <- <-. symmetry in Et. change (gap ++ (c0 :: u0) ++ rest) with (gap ++ c0 :: u0 ++ rest) in Et. apply gap_unique in Et as [-> Et]; auto. rewrite Et.
    pose proof (ti_cons (from + length gap) [] c0 u0 k len kids rest r) as X. cbn [length app] in X. rewrite Nat.add_0_r in X. apply X; auto.
  Qed.

  Context (total : nat).
  Definition tiling {A} (g : A -> list lnode) (P : A -> Prop) (p : parser A) : Prop := forall s a k r, length s <= total -> p s = POk (a, k) r ->
    P a /\ exists u, s = u ++ r /\ fits k u /\ tiles (total - length s) u (g a).
  Lemma one_tile s u r k (x : lkind K T) (kids : list lnode) : length s <= total -> skip s = u ++ r -> fits k u -> 0 < k -> written x u -> framed x kids ->
    (kids = [] \/ exists u0, s = u0 ++ r /\ tiles (total - length s) u0 kids) ->
    exists u0, s = u0 ++ r /\ fits k u0 /\ tiles (total - length s) u0 [LN x (total - length (skip s)) k kids].
  Proof.
    intros Hs Eu Hk Hp Hw Hf Hkids. destruct (skip_split s) as (b & Eb & Hb).
    destruct u as [|c u]; [unfold fits in Hk; cbn in Hk; lia|]. pose proof (skip_head _ _ _ Eu) as Hc.
    assert (El : length s = length b + length (c :: u) + length r) by (rewrite Eb, Eu, !app_length; lia).
    assert (Ea : total - length (skip s) = total - length s + length b) by (rewrite Eu, app_length; lia).
    exists (b ++ c :: u). split; [rewrite <- app_assoc, <- Eu; exact Eb|].
    split; [apply (fits_app 0 k); [apply fits_blank, Hb|exact Hk]|]. rewrite Ea.
    rewrite <- (app_nil_r (c :: u)). apply ti_cons; auto.
    - destruct Hkids as [->|(u0 & Eu0 & Ht)]; [left; reflexivity|]. destruct kids as [|y kids]; [left; reflexivity|]. right.
      assert (u0 = b ++ c :: u) as ->.
      { apply (app_inv_tail r). rewrite <- Eu0, <- app_assoc, <- Eu. exact Eb. }
      apply tiles_lead; auto.
    - unfold fits in Hk. unfold blanks in *. cbn [filter] in Hk. rewrite Hc in Hk. lia.
    - constructor. constructor.
  Qed.
  Lemma same_text {A} S (p : parser A) s a k r u : texts S p -> p s = POk (a, k) r -> skip s = u ++ r -> S u.
  Proof. intros H E Eu. destruct (H _ _ _ _ E) as (u' & Eu' & Hu). rewrite Eu in Eu'. apply app_inv_tail in Eu' as ->. exact Hu. Qed.
  Lemma tiling_node {A} (p : parser (lkind K T * A)) (Q : lkind K T * A -> Prop) S : good (fun x => framed (fst x) [] /\ Q x) p -> lead p -> posi p ->
    texts S p -> (forall x u, Q x -> S u -> written (fst x) u) ->
    tiling (fun x => [fst x]) (fun x => Q (kind_of (fst x), snd x)) (node total p).
  Proof.
    intros Hg Hl Hp Ht HS s [x a] k r Hs E. unfold node in E. destruct (p s) as [[[x0 a0] k0] r0| |] eqn:Ep; try discriminate. injection E as <- <- <- <-.
    destruct (Hg _ _ _ _ Ep) as ([Hf Hq] & _). destruct (Hl _ _ _ _ Ep) as (u & Eu & Fu). split; [exact Hq|].
    apply (one_tile s u); auto; [exact (Hp _ _ _ _ Ep)|]. exact (HS _ u Hq (same_text _ _ _ _ _ _ _ Ht Ep Eu)).
  Qed.
  (** Commands with contents; [c] are the commands in them. *)
  Definition is_command (x : lnode) : Prop := exists c, kind_of x = KCmd c.
  Definition is_frame (c : cmd K T) : Prop := match c with CAB _ _ | CSR _ _ | CAM _ _ => True | _ => False end.
  Lemma tiling_block (p : parser (cmd K T * list lnode)) : tiling snd (fun x => framed (KCmd (fst x)) (snd x)) p -> good (fun x => is_frame (fst x)) p -> lead p -> posi p -> ends p ->
    tiling (fun x => [x]) is_command (block total p).
  Proof.
    intros Hg Hi Hl Hp He s x k r Hs E. unfold block in E. destruct (p s) as [[[c kids] k0] r0| |] eqn:Ep; try discriminate. injection E as <- <- <-.
    destruct (Hg _ _ _ _ Hs Ep) as (Hf & u0 & Eu0 & _ & Ht). destruct (Hl _ _ _ _ Ep) as (u & Eu & Fu). split; [eexists; reflexivity|].
    pose proof (Hp _ _ _ _ Ep) as H0. apply (one_tile s u); eauto.
    destruct (He _ _ _ _ Ep) as (x & Ex). destruct (skip_split s) as (g & Eg & _). rewrite Eu, app_assoc in Eg. rewrite Eg in Ex.
    change (x ++ "%"%char :: r0) with (x ++ ["%"%char] ++ r0) in Ex. rewrite app_assoc in Ex. apply app_inv_tail in Ex.
    assert (X : exists b, u = b ++ ["%"%char]).
    { destruct u as [|d u _] using rev_ind; [unfold fits in Fu; cbn in Fu; lia|]. rewrite app_assoc in Ex. apply app_inj_tail in Ex as [_ <-]. eauto. }
    destruct (Hi _ _ _ _ Ep) as [Hc _]. cbn in Hc. destruct c; try contradiction; exact X.
  Qed.
  Lemma tiling_bind {A B} (g : A -> list lnode) g' h (Q : A -> Prop) (P : B -> Prop) (P' : A -> B -> Prop) (p : parser A) f : tiling g Q p -> (forall a, Q a -> tiling (g' a) (P' a) (f a)) ->
    (forall a b, Q a -> P' a b -> P b /\ h b = g a ++ g' a b) -> tiling h P (pbind p f).
  Proof.
    intros Hp Hf Hh s b k r Hs E. unfold pbind in E. destruct (p s) as [[a k1] r1| |] eqn:E1; try discriminate.
    destruct (f a r1) as [[b2 k2] r2| |] eqn:E2; try discriminate. injection E as <- <- <-.
    destruct (Hp _ _ _ _ Hs E1) as (Ha & u1 & Eu1 & F1 & T1).
    assert (Hr1 : length r1 <= total) by (rewrite Eu1, app_length in Hs; lia).
    destruct (Hf a Ha _ _ _ _ Hr1 E2) as (Hb & u2 & Eu2 & F2 & T2). destruct (Hh a b2 Ha Hb) as [Hb' Eh].
    split; [exact Hb'|]. exists (u1 ++ u2). rewrite <- app_assoc, <- Eu2. split; [exact Eu1|]. split; [apply fits_app; assumption|].
    rewrite Eh. apply tiles_app; [exact T1|]. replace (total - length s + length u1) with (total - length r1); [exact T2|].
    rewrite Eu1, app_length in *. lia.
  Qed.
  Lemma tiling_ret {A} (g : A -> list lnode) (P : A -> Prop) a : P a -> g a = [] -> tiling g P (ret a).
  Proof.
    intros H Hg s b k r _ E. injection E as <- <- <-. split; [exact H|]. exists []. split; [reflexivity|]. split; [apply (fits_all [])|].
    rewrite Hg. constructor. constructor.
  Qed.
  Lemma tiling_many {A} g (P : A -> Prop) n p : tiling g P p -> tiling (fun l => flat_map g l) (Forall P) (many n p).
  Proof.
    intros H. induction n as [|n IH]; intros s l k r Hs E; [discriminate|]. cbn [many] in E.
    destruct (p s) as [[x k1] r1| |] eqn:Ep; try discriminate.
    - destruct (many n p r1) as [[l2 k2] r2| |] eqn:E2; try discriminate. injection E as <- <- <-.
      destruct (H _ _ _ _ Hs Ep) as (Hx & u1 & Eu1 & F1 & T1).
      assert (Hr1 : length r1 <= total) by (rewrite Eu1, app_length in Hs; lia).
      destruct (IH _ _ _ _ Hr1 E2) as (Hl & u2 & Eu2 & F2 & T2).
      split; [constructor; assumption|]. exists (u1 ++ u2). rewrite <- app_assoc, <- Eu2. split; [exact Eu1|]. split; [apply fits_app; assumption|].
      cbn [flat_map]. apply tiles_app; [exact T1|]. replace (total - length s + length u1) with (total - length r1); [exact T2|].
      rewrite Eu1, app_length in *. lia.
    - injection E as <- <- <-. split; [constructor|]. exists []. split; [reflexivity|]. split; [apply (fits_all [])|]. constructor. constructor.
  Qed.
  Lemma tiling_first {A} g (P : A -> Prop) ps : Forall (tiling g P) ps -> tiling g P (first_of ps).
  Proof. rewrite Forall_forall. intros H s a k r Hs E. apply first_inv in E as (p & Hp & E). exact (H p Hp _ _ _ _ Hs E). Qed.
  Lemma tiling_weaken {A} g (P Q : A -> Prop) p : tiling g P p -> (forall a, P a -> Q a) -> tiling g Q p.
  Proof. intros H HQ s a k r Hs E. destruct (H _ _ _ _ Hs E) as [Ha Hu]. auto. Qed.

  Lemma good_node {A} (p : parser (lkind K T * A)) : good (fun _ => True) p -> good (fun _ => True) (node total p).
  Proof. intros H s [x a] k r E. unfold node in E. destruct (p s) as [[[x0 a0] k0] r0| |] eqn:Ep; try discriminate. injection E as <- <- <- <-. exact (H _ _ _ _ Ep). Qed.
  Lemma lead_node {A} (p : parser (lkind K T * A)) : lead p -> lead (node total p).
  Proof. intros H s [x a] k r E. unfold node in E. destruct (p s) as [[[x0 a0] k0] r0| |] eqn:Ep; try discriminate. injection E as <- <- <- <-. exact (H _ _ _ _ Ep). Qed.
  Lemma posi_node {A} (p : parser (lkind K T * A)) : posi p -> posi (node total p).
  Proof. intros H s [x a] k r E. unfold node in E. destruct (p s) as [[[x0 a0] k0] r0| |] eqn:Ep; try discriminate. injection E as <- <- <- <-. exact (H _ _ _ _ Ep). Qed.
  Lemma good_block (p : parser (cmd K T * list lnode)) : good (fun _ => True) p -> good (fun _ => True) (block total p).
  Proof. intros H s x k r E. unfold block in E. destruct (p s) as [[[x0 a0] k0] r0| |] eqn:Ep; try discriminate. injection E as <- <- <-. destruct (H _ _ _ _ Ep). auto. Qed.

  (** ** The grammar *)
  Notation items := (tiling (fun l => l) (Forall is_command)).
  Lemma tiling_leaf P S p : good P p -> lead p -> posi p -> texts S p -> (forall c u, P c -> S u -> flat c /\ written (KCmd c) u) -> tiling (fun x => [x]) is_command (leaf total p).
  Proof.
    intros Hg Hl Hp Ht HS s x k r Hs E. unfold leaf, block, pbind in E. destruct (p s) as [[c0 k0] r0| |] eqn:Ep; try discriminate. cbn in E. injection E as <- <- <-.
    destruct (Hg _ _ _ _ Ep) as (Hc & _). destruct (Hl _ _ _ _ Ep) as (u & Eu & Fu). split; [eexists; reflexivity|].
    destruct (HS _ u Hc (same_text _ _ _ _ _ _ _ Ht Ep Eu)) as [Hf Hw].
    rewrite Nat.add_0_r. apply (one_tile s u); auto; [exact (Hp _ _ _ _ Ep)|]. destruct c0; try destruct Hf; reflexivity.
  Qed.
  Lemma tiling_wrap p : tiling (fun x => [x]) is_command p -> items (pbind p (fun c => ret [c])).
  Proof.
    intros H s l k r Hs E. unfold pbind in E. destruct (p s) as [[x k0] r0| |] eqn:Ep; try discriminate. cbn in E. injection E as <- <- <-.
    destruct (H _ _ _ _ Hs Ep) as (Hx & u & Eu & Fu & Tu). rewrite Nat.add_0_r. split; [constructor; auto|eauto].
  Qed.
  Lemma tiling_single P S p : good P p -> lead p -> posi p -> texts S p -> (forall c u, P c -> S u -> flat c /\ written (KCmd c) u) -> items (single total p).
  Proof. intros H1 H2 H3 H4 H5. apply tiling_wrap, (tiling_leaf P S); assumption. Qed.
  Lemma single_d sa : items (single total (d_codes sa)).
  Proof. apply (tiling_single is_d plain_text); auto using good_d, lead_d, posi_d, texts_d, d_written. Qed.
  Lemma single_load : items (single total (load rd)).
  Proof. apply (tiling_single is_ext extended_text); auto using good_load, lead_load, posi_load, texts_load, ext_written. Qed.
  Lemma single_properties : items (single total (properties rd)).
  Proof. apply (tiling_single is_ext extended_text); auto using good_properties, lead_properties, posi_properties, texts_properties, ext_written. Qed.
  Lemma single_attribute n : items (single total (attribute rd n)).
  Proof. apply (tiling_single is_ext extended_text); auto using good_attribute, lead_attribute, posi_attribute, texts_attribute, ext_written. Qed.
  Lemma single_adds n : items (single total (add_aperture rd n)).
  Proof. apply (tiling_single is_ext extended_text); auto using good_adds, lead_adds, posi_adds, texts_adds, ext_written. Qed.
  Lemma single_m : items (single total m_codes).
  Proof. apply (tiling_single is_m plain_text); auto using good_m, lead_m, posi_m, texts_m, m_written. Qed.
  Definition g_written g (u : str) : Prop := exists n, u = "G"%char :: repeat "0"%char n ++ lit (g_number g).
  Lemma zeros_repeat z : GramText.all (Ascii.eqb "0") z -> z = repeat "0"%char (length z).
  Proof. unfold GramText.all. induction z as [|c z IH]; [reflexivity|]. cbn [forallb]. intros H. apply andb_true_iff in H as [Hc Hz]. apply Ascii.eqb_eq in Hc as <-. cbn. f_equal. exact (IH Hz). Qed.
  Lemma texts_g g : texts (g_written g) (token (re_code "G" (g_text g))).
  Proof.
    intros s a k r. unfold token, re_code. destruct (skip s) as [|c t]; [discriminate|]. destruct (Ascii.eqb c "G") eqn:E; [|discriminate]. apply Ascii.eqb_eq in E as ->.
    pose proof (GramText.span_spec (Ascii.eqb "0") t) as (Ha & Et & _). destruct (strip_prefix _ _) as [q|] eqn:Eq; [|discriminate]. intros [= <- <- <-].
    apply GramText.strip_prefix_some in Eq. exists ("G"%char :: fst (span (Ascii.eqb "0") t) ++ lit (g_text g)). split; [rewrite Et at 1; rewrite Eq; cbn; rewrite <- app_assoc; reflexivity|].
    rewrite (zeros_repeat _ Ha). eexists. destruct g; reflexivity.
  Qed.
  Lemma g_ok : items (g_codes total).
  Proof.
    unfold g_codes. apply tiling_first. constructor; [|apply Forall_app; split; apply Forall_map, Forall_forall; intros g _].
    - unfold g04_p. apply tiling_wrap, (tiling_leaf is_m plain_text); unfold string_p; [good_go; exact I|lead_go; exact I|apply posi_command| |apply m_written].
      apply texts_command. fold string_p. tidy_go.
    - unfold g_standalone. apply tiling_wrap, (tiling_leaf is_m plain_text); [good_go; exact I|lead_go; exact I|apply posi_command| |apply m_written].
      apply texts_command. destruct g; tidy_go.
    - unfold g_non_standalone. apply (tiling_bind (fun x => [x]) (fun a l => tl l) _ is_command _ (fun a l => exists d, l = [a; d] /\ is_command d));
        [apply (tiling_leaf (fun c => c = CG false g) (g_written g)); [good_go; reflexivity|lead_go; exact I|apply posi_left, posi_code|apply texts_idle; [apply texts_g|intros; unfold pthen; idle_go]|] | |].
      + intros c u -> Hu. split; [exact I|exact Hu].
      + intros a Ha s l k r Hs E. unfold pbind in E. destruct (leaf total (d_codes false) s) as [[x k0] r0| |] eqn:Ep; try discriminate. cbn in E. injection E as <- <- <-.
        destruct (tiling_leaf _ _ _ (good_d false) (lead_d false) (posi_d false) (texts_d false) d_written _ _ _ _ Hs Ep) as (Hx & u & Eu & Fu & Tu). rewrite Nat.add_0_r. split; [eauto|eauto].
      + intros a l Ha (d & -> & Hd). split; [repeat constructor; assumption|reflexivity].
  Qed.
  (** Headers and ends. *)
  Notation part x := (tiling (fun y => [fst y]) (fun y => kind_of (fst y) = x)).
  Lemma tiling_part {A} (p : parser (lkind K T * A)) x S : framed x [] -> good (fun y => fst y = x) p -> lead p -> posi p -> texts S p -> (forall u, S u -> written x u) -> part x (node total p).
  Proof.
    intros Hx Hg Hl Hp Ht HS. apply (tiling_weaken _ (fun y : lnode * A => fst (kind_of (fst y), snd y) = x)); [|auto]. apply (tiling_node _ (fun y => fst y = x) S); auto.
    - apply (good_weaken _ _ _ Hg). intros a ->. auto.
    - intros y u -> Hu. auto.
  Qed.
  Lemma tiling_framed {A B C} (o : parser (lnode * A)) n (item : parser B) (c : parser (lnode * C)) mk gi (g : list B -> list lnode) Pi ko kc :
    part ko o -> tiling gi Pi item -> part kc c -> (forall b, g b = flat_map gi b) ->
    (forall (x y : lnode) a b, kind_of x = ko -> kind_of y = kc -> Forall Pi b -> framed (KCmd (mk a b)) (x :: g b ++ [y])) ->
    tiling snd (fun x => framed (KCmd (fst x)) (snd x)) (pbind o (fun x => pbind (many n item) (fun b => pbind c (fun y => ret (mk (snd x) b, fst x :: g b ++ [fst y]))))).
  Proof.
    intros Ho Hi Hc Hg Hf.
    eapply (tiling_bind _ (fun x => fun z => tl (snd z)) _ _ _ (fun x z => exists b y, z = (mk (snd x) b, fst x :: g b ++ [y]) /\ kind_of y = kc /\ Forall Pi b)); [exact Ho| |].
    - intros x Hx. eapply (tiling_bind _ (fun b z => skipn (length (g b)) (tl (snd z))) _ _ _ (fun b z => exists y, z = (mk (snd x) b, fst x :: g b ++ [y]) /\ kind_of y = kc)); [apply (tiling_many _ _ n _ Hi)| |].
      + intros b Hb s z k r Hs E. unfold pbind in E. destruct (c s) as [[y k0] r0| |] eqn:Ec; try discriminate. cbn in E. injection E as <- <- <-.
        destruct (Hc _ _ _ _ Hs Ec) as (Hy & u & Eu & Fu & Tu). rewrite Nat.add_0_r. split; [eauto|]. exists u. split; [exact Eu|]. split; [exact Fu|].
        cbn [snd tl]. rewrite skipn_app, skipn_all, Nat.sub_diag. exact Tu.
      + intros b z Hb (y & -> & Hy). split; [eauto|]. cbn [snd tl]. rewrite <- Hg, skipn_app, skipn_all, Nat.sub_diag. reflexivity.
    - intros x z Hx (b & y & -> & Hy & Hb). cbn [fst snd tl]. split; [apply Hf; auto|reflexivity].
  Qed.
  Lemma commands_of l : Forall is_command l -> map kind_of l = map KCmd (flat_map command_of l).
  Proof. induction 1 as [|[k a b c] l (x & E) _ IH]; [reflexivity|]. cbn in E. subst k. cbn. f_equal. exact IH. Qed.
  Lemma framed_body (x y : lnode) (mk : list (cmd K T) -> cmd K T) l :
    (forall body kids, framed (KCmd (mk body)) kids <-> exists o m c, kids = o :: m ++ [c] /\ kind_of o = KOpen /\ kind_of c = KClose /\ map kind_of m = map KCmd body) ->
    kind_of x = KOpen -> kind_of y = KClose -> Forall is_command l -> framed (KCmd (mk (flat_map command_of l))) (x :: l ++ [y]).
  Proof. intros Hm Hx Hy Hl. apply Hm. exists x, l, y. repeat split; auto. apply commands_of, Hl. Qed.
  Ltac leads := unfold percent, asterisk, name_p, aperture_id_p, sr_open_p, double_p in *; lead_go; try exact I; try reflexivity.

  Lemma good_tails {A} (P : A -> Prop) (p : parser A) : good P p -> forall s a k r, p s = POk (a, k) r -> exists u, s = u ++ r.
  Proof. intros H s a k r E. destruct (H _ _ _ _ E) as (_ & u & Eu & _). eauto. Qed.
  Lemma ends_node {A} (p : parser (lkind K T * A)) : ends p -> ends (node total p).
  Proof. intros H s [x a] k r E. unfold node in E. destruct (p s) as [[[x0 a0] k0] r0| |] eqn:Ep; try discriminate. injection E as <- <- <- <-. exact (H _ _ _ _ Ep). Qed.
  Lemma ends_frame {A B C D} (o : parser A) (q : parser B) (c : parser (lkind K T * C)) (mk : A -> B -> lnode * C -> D) P Q :
    good P o -> good Q q -> ends c -> ends (pbind o (fun x => pbind q (fun b => pbind (node total c) (fun y => ret (mk x b y))))).
  Proof.
    intros Ho Hq Hc. apply ends_right; [exact (good_tails _ _ Ho)|]. intros x. apply ends_right; [exact (good_tails _ _ Hq)|]. intros b.
    apply ends_left; [apply ends_node, Hc|]. intros y. apply idle_ret.
  Qed.
  Lemma extended_end u : extended_text u -> exists b, u = b ++ ["%"%char].
  Proof. intros (b & w & -> & _). exists ("%"%char :: b ++ "*"%char :: w). cbn. rewrite <- app_assoc. reflexivity. Qed.
  Lemma ends_extended {A} (p : parser A) : tidy p -> ends (extended p).
  Proof. intros H. apply (ends_texts extended_text); [apply texts_extended, H|apply extended_end]. Qed.
  Lemma macro_ok n : tiling (fun x => [x]) is_command (macro_p rd total n).
  Proof.
    unfold macro_p. apply tiling_block.
    - apply (tiling_framed _ _ _ _ (fun name ps => CAM name (map snd ps)) (fun y => [fst y]) (map fst) (fun y : lnode * prim K => kind_of (fst y) = KPrim (snd y)) KMacroOpen KMacroClose).
      + eapply tiling_part; [reflexivity| | |apply posi_left, posi_lit| |]; [unfold percent, asterisk, name_p; good_go; reflexivity|unfold percent, asterisk, name_p; lead_go; exact I| |].
        * apply texts_macro_open; unfold name_p; tidy_go.
        * auto.
      + apply (tiling_weaken _ (fun y : lnode * prim K => fst (kind_of (fst y), snd y) = KPrim (snd (kind_of (fst y), snd y)))); [|auto].
        apply (tiling_node _ (fun y : lkind K T * prim K => fst y = KPrim (snd y)) plain_text).
        * apply good_bind'; [apply good_prim|]. intros p. apply good_ret. split; reflexivity.
        * apply lead_bind; [apply lead_prim|]. intros p. apply good_ret, I.
        * apply posi_left, posi_prim.
        * apply texts_idle; [apply texts_prim|]. intros p. apply idle_ret.
        * intros [x p] u -> Hu. exact Hu.
      + eapply tiling_part; [reflexivity| | |apply posi_left, posi_lit|apply texts_macro_close|auto]; unfold percent; [good_go; reflexivity|lead_go; exact I].
      + intros b. clear. induction b; cbn; congruence.
      + intros x y a b Hx Hy Hb. cbn. exists x, (map fst b), y. repeat split; auto. clear - Hb. induction Hb as [|p b E _ IH]; [reflexivity|]. cbn. f_equal; assumption.
    - unfold percent, asterisk, name_p. good_go; try exact I; apply good_node; good_go; try exact I. apply good_prim.
    - apply lead_bind; [apply lead_node; unfold percent, asterisk, name_p; lead_go; exact I|]. intros o. unfold percent. good_go; try exact I.
      + apply good_node. good_go; [apply good_prim|exact I].
      + apply good_node. good_go; exact I.
    - apply posi_left, posi_node, posi_left, posi_lit.
    - apply (ends_frame _ _ _ _ (fun _ => True) (fun _ => True)).
      + apply good_node. unfold percent, asterisk, name_p. good_go; exact I.
      + good_go. apply good_node. good_go; [apply good_prim|exact I].
      + eapply ends_texts; [apply texts_macro_close|]. intros u ->. exists []. reflexivity.
  Qed.
  Lemma good_macro n : good (fun _ => True) (macro_p rd total n).
  Proof.
    unfold macro_p. apply good_block. unfold percent, asterisk, name_p. good_go; try exact I; apply good_node; good_go; try exact I. apply good_prim.
  Qed.
  Lemma good_single P (p : parser (cmd K T)) : good P p -> good (fun _ => True) (single total p).
  Proof. intros H. unfold single, leaf. good_go; try exact I. apply good_block. good_go; try exact I. apply (good_weaken _ _ _ H); auto. Qed.
  Lemma good_g : good (fun _ => True) (g_codes total (K := K) (T := T)).
  Proof.
    unfold g_codes, g04_p, g_standalone, g_non_standalone, leaf, string_p. good_go; try exact I; apply good_block; good_go; try exact I.
    apply (good_weaken is_d); [apply good_d|auto].
  Qed.
  Lemma good_body n b : good (fun _ => True) b -> good (fun _ => True) (body_item rd total n b).
  Proof.
    intros Hb. unfold body_item, alone. apply good_first. repeat apply Forall_cons; try apply Forall_nil;
      try (eapply good_single; solve [apply good_d|apply good_load|apply good_properties|apply good_attribute|apply good_adds|apply good_m]); good_go; auto using good_g, good_macro.
  Qed.
  Lemma body_ok n b : tiling (fun x => [x]) is_command b -> items (body_item rd total n b).
  Proof.
    intros Hb. unfold body_item, alone. apply tiling_first. repeat apply Forall_cons; try apply Forall_nil;
      auto using single_d, single_load, single_properties, single_attribute, single_adds, single_m, g_ok, macro_ok, tiling_wrap.
  Qed.
  Lemma flat_concat {A} (l : list (list A)) : concat l = flat_map (fun x => x) l.
  Proof. induction l; cbn; congruence. Qed.
  Lemma concat_commands l : Forall (Forall is_command) l -> Forall is_command (concat l).
  Proof. induction 1; [constructor|]. cbn. apply Forall_app. auto. Qed.
  Definition block_body n m := pbind (node total (extended (pthen (lit_p "AB") (pbind aperture_id_p (fun id => ret (@KOpen K T, id))))))
    (fun o => pbind (many n (body_item rd total n (block_p rd total n m)))
    (fun b => pbind (node total (extended (pthen (lit_p "AB") (ret (@KClose K T, tt)))))
    (fun c => ret (CAB (snd o) (flat_map command_of (concat b)), fst o :: concat b ++ [fst c])))).
  Lemma block_step n m : block_p rd total n (S m) = block total (block_body n m).
  Proof. reflexivity. Qed.
  Lemma good_blocks n m : good (fun _ => True) (block_p rd total n m).
  Proof.
    induction m as [|m IH]; [intros s a k r; discriminate|]. rewrite block_step. apply good_block. unfold block_body, aperture_id_p.
    good_go; try exact I; try (apply good_node; good_go; exact I). apply good_body, IH.
  Qed.
  Lemma block_ok n m : tiling (fun x => [x]) is_command (block_p rd total n m).
  Proof.
    induction m as [|m IH]; [intros s a k r _; discriminate|]. rewrite block_step. apply tiling_block.
    - apply (tiling_framed _ _ _ _ (fun id b => CAB id (flat_map command_of (concat b))) (fun l => l) (@concat _) (Forall is_command) KOpen KClose).
      + apply (tiling_part _ _ extended_text); [reflexivity| | |apply posi_extended|apply texts_extended|auto]; unfold aperture_id_p; [good_go; reflexivity|lead_go; exact I|tidy_go].
      + apply body_ok, IH.
      + apply (tiling_part _ _ extended_text); [reflexivity| | |apply posi_extended|apply texts_extended|auto]; [good_go; reflexivity|lead_go; exact I|tidy_go].
      + apply flat_concat.
      + intros x y a b Hx Hy Hb. apply (framed_body x y (CAB a)); auto using concat_commands. reflexivity.
    - unfold block_body, aperture_id_p. good_go; try exact I; try (apply good_node; good_go; exact I). apply good_body, good_blocks.
    - unfold block_body, aperture_id_p. apply lead_bind; [apply lead_node; lead_go; exact I|]. intros o. good_go; try exact I; [apply good_body, good_blocks|apply good_node; good_go; exact I].
    - apply posi_left, posi_node, posi_extended.
    - unfold block_body, aperture_id_p. apply (ends_frame _ _ _ _ (fun _ => True) (fun _ => True)).
      + apply good_node. good_go; exact I.
      + good_go. apply good_body, good_blocks.
      + apply ends_extended. tidy_go.
  Qed.
  Lemma good_sr n m : good (fun _ => True) (sr_p rd total n m).
  Proof.
    unfold sr_p, sr_open_p, double_p. apply good_block. good_go; try exact I; try (apply good_node; good_go; exact I). apply good_body, good_blocks.
  Qed.
  Lemma sr_ok n m : tiling (fun x => [x]) is_command (sr_p rd total n m).
  Proof.
    unfold sr_p. apply tiling_block.
    - apply (tiling_framed _ _ _ _ (fun h b => CSR h (flat_map command_of (concat b))) (fun l => l) (@concat _) (Forall is_command) KOpen KClose).
      + apply (tiling_part _ _ extended_text); [reflexivity| | |apply posi_left, posi_extended| |auto]; unfold sr_open_p, double_p; [good_go; try exact I; reflexivity|lead_go; exact I|].
        apply texts_idle; [|intros; apply idle_ret]. apply texts_extended. tidy_go.
      + apply body_ok, block_ok.
      + apply (tiling_part _ _ extended_text); [reflexivity| | |apply posi_extended|apply texts_extended|auto]; [good_go; reflexivity|lead_go; exact I|tidy_go].
      + apply flat_concat.
      + intros x y a b Hx Hy Hb. apply (framed_body x y (CSR a)); auto using concat_commands. reflexivity.
    - unfold sr_open_p, double_p. good_go; try exact I; try (apply good_node; good_go; exact I). apply good_body, good_blocks.
    - unfold sr_open_p, double_p. apply lead_bind; [apply lead_node; lead_go; exact I|]. intros o. good_go; try exact I; [apply good_body, good_blocks|apply good_node; good_go; exact I].
    - apply posi_left, posi_node, posi_left, posi_extended.
    - apply (ends_frame _ _ _ _ (fun _ => True) (fun _ => True)).
      + apply good_node. unfold sr_open_p, double_p. good_go; exact I.
      + good_go. apply good_body, good_blocks.
      + apply ends_extended. tidy_go.
  Qed.
  Lemma root_ok n : items (root_item rd total n).
  Proof.
    unfold root_item, alone. apply tiling_first. repeat apply Forall_cons; try apply Forall_nil;
      auto using single_d, single_load, single_properties, single_attribute, single_m, g_ok.
    apply tiling_first. repeat apply Forall_cons; try apply Forall_nil; auto using block_ok, macro_ok, sr_ok, tiling_wrap, single_adds.
  Qed.
  Lemma invalid_ok : tiling (fun l => l) (Forall (fun x => is_command x \/ exists t, kind_of x = KInvalid t)) (invalid_p total).
  Proof.
    intros s l k r Hs E. unfold invalid_p, pbind, node, token in E. pose proof (GramText.span_spec in_line (skip s)) as (_ & Es & _).
    destruct (span in_line (skip s)) as [[|c t] q] eqn:Esp; [discriminate|]. cbn [nonempty] in E. cbn [fst snd] in Es.
    assert (El : length (skip s) - length q = length (c :: t)) by (rewrite Es, app_length; lia). rewrite El in E.
    cbn [ret fst] in E. rewrite !Nat.add_0_r in E. injection E as <- <- <-.
    split; [constructor; [right; eexists; reflexivity|constructor]|].
    apply (one_tile s (c :: t)); auto; [exact (fits_all (c :: t))|lia|reflexivity|reflexivity].
  Qed.
  Lemma resilient_ok n : tiling (fun l => l) (Forall (fun x => is_command x \/ exists t, kind_of x = KInvalid t)) (resilient_item rd total n).
  Proof.
    unfold resilient_item. apply tiling_first. constructor; [|constructor; [apply invalid_ok|constructor]].
    apply (tiling_weaken _ (Forall is_command)); [apply root_ok|]. intros l. apply Forall_impl. auto.
  Qed.
End Grammar.

Section Read.
  Context {K T : Type}.
  Lemma read_tiles (item : nat -> nat -> parser (list (lnode K T))) P text l loc len :
    (forall total n, tiling total (fun l => l) (Forall P) (item total n)) -> read_nodes item text = Ok (l, (loc, len)) ->
    Forall P l /\ tiles 0 (expandtabs text) l /\
    exists gap rest, expandtabs text = gap ++ rest /\ Forall (fun c => blank c = true) gap /\ loc = length gap /\ len = length rest /\ (forall c r, rest = c :: r -> blank c = false).
  Proof.
    intros Hi E. unfold read_nodes in E. set (s := expandtabs text) in *. set (n := S (length s)) in *.
    destruct (many1 n (item (length s) n) s) as [[ls k] r| |] eqn:Em; try discriminate. destruct (skip r) as [|] eqn:Er; [|discriminate].
    injection E as <- <- <-.
    assert (M : tiling (length s) (fun l => concat l) (fun ls => Forall P (concat ls) /\ ls <> []) (many1 n (item (length s) n))).
    { unfold many1. apply (tiling_bind (length s) (fun l => l) (fun a l => concat (tl l)) _ (Forall P) _ (fun a l => exists t, l = a :: t /\ Forall P (concat t))); [apply Hi| |].
      - intros a Ha. intros s0 l k0 r0 Hs E. unfold pbind in E. destruct (many n (item (length s) n) s0) as [[t k1] r1| |] eqn:E1; try discriminate. cbn in E. injection E as <- <- <-.
        destruct (tiling_many (length s) _ _ n _ (Hi (length s) n) _ _ _ _ Hs E1) as (Ht & u & Eu & Fu & Tu). rewrite Nat.add_0_r. split.
        + exists t. split; [reflexivity|]. clear - Ht. induction Ht; [constructor|]. cbn. apply Forall_app. auto.
        + exists u. split; [exact Eu|]. split; [exact Fu|]. cbn [tl]. rewrite flat_concat. exact Tu.
      - intros a l Ha (t & -> & Ht). cbn. split; [split; [apply Forall_app; auto|discriminate]|reflexivity]. }
    destruct (M _ _ _ _ (le_n _) Em) as ((HP & Hne) & u & Eu & Fu & Tu). split; [exact HP|]. rewrite Nat.sub_diag in Tu.
    destruct (skip_split r) as (b & Eb & Hb). rewrite Er, app_nil_r in Eb. subst b. split.
    - rewrite Eu. rewrite <- (app_nil_r (concat ls)). apply tiles_app; [exact Tu|]. constructor. exact Hb.
    - destruct (skip_split s) as (b & Eb & Hb'). exists b, (skip s). split; [exact Eb|]. split; [exact Hb'|].
      assert (length s = length b + length (skip s)) by (rewrite Eb at 1; apply app_length). split; [lia|]. split; [lia|]. intros c q. apply skip_head.
  Qed.
End Read.

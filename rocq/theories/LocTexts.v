(** Proofs for C72: what the texts of commands look like. *)
From Verif Require GramText.
From Verif Require Import Base Num CoordModel Ast GramAst PegModel GramModel ResModel LocModel LocSpec.
Local Open Scope nat_scope.

Lemma blank_ws c : blank c = is_ws c.
Proof. unfold blank, is_ws. cbn [existsb]. destruct (Ascii.eqb c " "), (Ascii.eqb c "010"), (Ascii.eqb c "009"), (Ascii.eqb c "013"); reflexivity. Qed.
Lemma skip_split s : exists b, s = b ++ skip s /\ Forall (fun c => blank c = true) b.
Proof.
  induction s as [|c s (b & E & H)]; [exists []; split; [reflexivity|constructor]|]. cbn [skip]. destruct (is_ws c) eqn:Ec.
  - exists (c :: b). split; [cbn; congruence|]. constructor; [rewrite blank_ws; exact Ec|exact H].
  - exists []. split; [reflexivity|constructor].
Qed.
Lemma skip_head s c r : skip s = c :: r -> blank c = false.
Proof. rewrite blank_ws. induction s as [|d s IH]; [discriminate|]. cbn [skip]. destruct (is_ws d) eqn:E; [exact IH|]. intros [= -> ->]. exact E. Qed.
Lemma skip_idem s : skip (skip s) = skip s.
Proof. induction s as [|d s IH]; [reflexivity|]. cbn [skip]. destruct (is_ws d) eqn:E; [exact IH|]. cbn [skip]. rewrite E. reflexivity. Qed.
Lemma blanks_app a b : blanks (a ++ b) = blanks a + blanks b.
Proof. unfold blanks. rewrite filter_app, app_length. reflexivity. Qed.
Lemma blanks_all b : Forall (fun c => blank c = true) b -> blanks b = length b.
Proof. unfold blanks. induction 1 as [|c b H _ IH]; [reflexivity|]. cbn [filter]. rewrite H. cbn [length]. congruence. Qed.


(** ** Texts without asterisks and percent signs *)
Definition pure (c : ascii) : bool := negb (Ascii.eqb c "*") && negb (Ascii.eqb c "%").
Lemma pure_ok c : pure c = true -> c <> "*"%char /\ c <> "%"%char.
Proof. unfold pure. intros H. apply andb_true_iff in H as [H1 H2]. split; intros ->; discriminate. Qed.
Lemma clean_pure u : (forall c, In c u -> pure c = true) -> clean u.
Proof. intros H. apply Forall_forall. intros c Hc. apply pure_ok, H, Hc. Qed.
Lemma clean_forallb u : forallb pure u = true -> clean u.
Proof. intros H. apply clean_pure. apply forallb_forall, H. Qed.
Lemma clean_app a b : clean a -> clean b -> clean (a ++ b).
Proof. intros Ha Hb. apply Forall_app. auto. Qed.
Lemma clean_blank b : Forall (fun c => blank c = true) b -> clean b.
Proof. apply Forall_impl. intros c H. split; intros ->; discriminate. Qed.
Lemma clean_all f u : (forall c, f c = true -> pure c = true) -> GramText.all f u -> clean u.
Proof. intros Hf H. apply clean_pure. intros c Hc. apply Hf. revert c Hc. apply forallb_forall. exact H. Qed.
Lemma eqb_pure d c : pure d = true -> Ascii.eqb d c = true -> pure c = true.
Proof. intros H E. apply Ascii.eqb_eq in E as <-. exact H. Qed.
Ltac ascii_case c := destruct c as [[] [] [] [] [] [] [] []].
Lemma digit_pure c : is_digit c = true -> pure c = true. Proof. ascii_case c; (discriminate || reflexivity). Qed.
Lemma name_pure c : name_char c = true -> pure c = true. Proof. ascii_case c; (discriminate || reflexivity). Qed.
Lemma start_pure c : name_start c = true -> pure c = true. Proof. ascii_case c; (discriminate || reflexivity). Qed.
Lemma user_pure c : user_start c = true -> pure c = true. Proof. ascii_case c; (discriminate || reflexivity). Qed.
Lemma field_pure c : field_char c = true -> pure c = true. Proof. ascii_case c; (discriminate || reflexivity). Qed.
Lemma sign_pure c : is_sign c = true -> pure c = true. Proof. ascii_case c; (discriminate || reflexivity). Qed.
Lemma upper_pure c : pure (upper c) = true -> pure c = true. Proof. ascii_case c; (discriminate || reflexivity). Qed.
Lemma upper_pure' c : pure c = true -> pure (upper c) = true. Proof. ascii_case c; (discriminate || reflexivity). Qed.

Definition reads {A} (P : str -> Prop) (f : str -> option (A * str)) : Prop := forall s a r, f s = Some (a, r) -> exists u, s = u ++ r /\ P u.
Lemma reads_lit l : forallb pure (lit l) = true -> reads clean (fun s => match strip_prefix (lit l) s with Some r => Some (tt, r) | None => None end).
Proof.
  intros H s a r E. destruct (strip_prefix _ s) eqn:Es; [|discriminate]. injection E as <- <-. apply GramText.strip_prefix_some in Es. exists (lit l). split; [exact Es|].
  apply clean_forallb, H.
Qed.
Lemma reads_caseless l : forallb pure (lit l) = true -> reads clean (fun s => match strip_upper (lit l) s with Some r => Some (tt, r) | None => None end).
Proof.
  intros H s a r E. destruct (strip_upper _ s) eqn:Es; [|discriminate]. injection E as <- <-. revert s H Es. generalize (lit l). clear l.
  intros l. induction l as [|x l IH]; intros s H Es; cbn in *.
  - injection Es as ->. exists []. split; [reflexivity|constructor].
  - destruct s as [|c s]; [discriminate|]. destruct (Ascii.eqb (upper x) (upper c)) eqn:Ec; [|discriminate]. apply andb_true_iff in H as [Hx Hl].
    destruct (IH _ Hl Es) as (u & -> & Hu). exists (c :: u). split; [reflexivity|]. constructor; [|exact Hu]. apply pure_ok, upper_pure. apply Ascii.eqb_eq in Ec. rewrite <- Ec.
    apply upper_pure', Hx.
Qed.
Lemma reads_one_of ls : forallb (fun l => forallb pure (lit l)) ls = true -> reads clean (first_prefix (map lit ls)).
Proof.
  intros H s a r E. apply GramText.first_prefix_some in E as [Hi ->]. exists a. split; [reflexivity|]. apply in_map_iff in Hi as (l & <- & Hl).
  apply clean_forallb. exact (proj1 (forallb_forall _ _) H _ Hl).
Qed.
Lemma reads_span f : (forall c, f c = true -> pure c = true) -> forall s, exists u, s = u ++ snd (span f s) /\ clean u.
Proof. intros H s. pose proof (GramText.span_spec f s) as (Ha & E & _). exists (fst (span f s)). split; [exact E|]. exact (clean_all f _ H Ha). Qed.
Lemma reads_digits : reads clean re_digits.
Proof.
  intros s a r. unfold re_digits. destruct (reads_span is_digit digit_pure s) as (u & E & Hu). destruct (span is_digit s) as [[|x y] z]; [discriminate|].
  intros [= <- <-]. eauto.
Qed.
Lemma reads_sign s : exists u, s = u ++ snd (opt_sign s) /\ clean u.
Proof.
  destruct s as [|c s]; [exists []; split; [reflexivity|constructor]|]. cbn. destruct (is_sign c) eqn:E; [exists [c]|exists []]; (split; [reflexivity|repeat constructor]).
  all: apply pure_ok, sign_pure, E.
Qed.
Lemma reads_fraction s : exists u, s = u ++ snd (opt_fraction s) /\ clean u.
Proof.
  destruct s as [|c s]; [exists []; split; [reflexivity|constructor]|]. cbn. destruct (Ascii.eqb c ".") eqn:E; [|exists []; split; [reflexivity|constructor]].
  destruct (re_digits s) as [[d r]|] eqn:Ed; [|exists []; split; [reflexivity|constructor]]. apply reads_digits in Ed as (u & -> & Hu).
  exists (c :: u). split; [reflexivity|]. constructor; [|exact Hu]. apply Ascii.eqb_eq in E as ->. split; discriminate.
Qed.
Lemma reads_double : reads clean re_double.
Proof.
  intros s a r. unfold re_double. destruct (reads_sign s) as (u1 & E1 & H1). destruct (opt_sign s) as [sg s1]. cbn in E1. subst s.
  destruct (re_digits s1) as [[d s2]|] eqn:Ed.
  - apply reads_digits in Ed as (u2 & -> & H2). destruct (reads_fraction s2) as (u3 & E3 & H3). destruct (opt_fraction s2) as [f s3]. cbn in E3. subst s2.
    intros [= <- <-]. exists (u1 ++ u2 ++ u3). rewrite <- !app_assoc. split; [reflexivity|]. repeat apply clean_app; assumption.
  - destruct (reads_fraction s1) as (u3 & E3 & H3). destruct (opt_fraction s1) as [f s3]. cbn in E3. subst s1. destruct f; [discriminate|]. cbn [nonempty].
    intros [= <- <-]. exists (u1 ++ u3). rewrite <- !app_assoc. split; [reflexivity|]. apply clean_app; assumption.
Qed.
Lemma reads_integer : reads clean re_integer.
Proof.
  intros s a r. unfold re_integer. destruct (reads_sign s) as (u1 & E1 & H1). destruct (opt_sign s) as [sg s1]. cbn in E1. subst s.
  destruct (re_digits s1) as [[d s2]|] eqn:Ed; [|discriminate]. apply reads_digits in Ed as (u2 & -> & H2).
  intros [= <- <-]. exists (u1 ++ u2). rewrite <- !app_assoc. split; [reflexivity|]. apply clean_app; assumption.
Qed.
Lemma reads_word st ch : (forall c, st c = true -> pure c = true) -> (forall c, ch c = true -> pure c = true) -> reads clean (re_word st ch).
Proof.
  intros Hs Hc s a r. unfold re_word. destruct s as [|c s]; [discriminate|]. destruct (st c) eqn:E; [|discriminate].
  destruct (reads_span ch Hc s) as (u & Eu & Hu). destruct (span ch s) as [x y]. cbn in Eu. intros [= <- <-]. exists (c :: u). split; [cbn; congruence|].
  constructor; [apply pure_ok, Hs, E|exact Hu].
Qed.
Lemma reads_field : reads clean re_field.
Proof. intros s a r. unfold re_field. destruct (reads_span field_char field_pure s) as (u & Eu & Hu). intros [= E]. rewrite E in Eu. eauto. Qed.
Lemma zeros_pure c : Ascii.eqb "0" c = true -> pure c = true. Proof. apply eqb_pure. reflexivity. Qed.
Lemma reads_id : reads clean re_aperture_id.
Proof.
  intros s a r. unfold re_aperture_id. destruct s as [|c s]; [discriminate|]. destruct (Ascii.eqb c "D") eqn:E; [|discriminate].
  destruct (reads_span (Ascii.eqb "0") zeros_pure s) as (u & Eu & Hu). destruct (span (Ascii.eqb "0") s) as [z r1]. cbn in Eu. destruct r1 as [|x r2]; [discriminate|].
  destruct (is_digit x) eqn:Ex; [|discriminate]. destruct (re_digits r2) as [[d r3]|] eqn:Ed; [|discriminate]. apply reads_digits in Ed as (w & -> & Hw).
  intros [= <- <-]. exists (c :: u ++ x :: w). split; [rewrite Eu; cbn; rewrite <- app_assoc; reflexivity|].
  apply Ascii.eqb_eq in E as ->. constructor; [split; discriminate|]. apply clean_app; [exact Hu|]. constructor; [apply pure_ok, digit_pure, Ex|exact Hw].
Qed.
Lemma reads_variable : reads clean re_variable.
Proof.
  intros s a r. unfold re_variable. destruct s as [|c s]; [discriminate|]. destruct (Ascii.eqb c "$") eqn:E; [|discriminate].
  destruct (re_digits s) as [[d r3]|] eqn:Ed; [|discriminate]. apply reads_digits in Ed as (w & -> & Hw). intros [= <- <-]. exists (c :: w). split; [reflexivity|].
  apply Ascii.eqb_eq in E as ->. constructor; [split; discriminate|exact Hw].
Qed.
Lemma reads_code l c : pure l = true -> forallb pure (lit c) = true -> reads clean (re_code l c).
Proof.
  intros Hl Hc s a r. unfold re_code. destruct s as [|x s]; [discriminate|]. destruct (Ascii.eqb x l) eqn:E; [|discriminate]. apply Ascii.eqb_eq in E as ->.
  destruct (reads_span (Ascii.eqb "0") zeros_pure s) as (u & Eu & Hu). destruct (strip_prefix _ _) as [q|] eqn:Eq; [|discriminate]. apply GramText.strip_prefix_some in Eq.
  intros [= <- <-]. exists (l :: u ++ lit c). split; [rewrite Eu, Eq; cbn; rewrite <- app_assoc; reflexivity|].
  constructor; [apply pure_ok, Hl|]. apply clean_app; [exact Hu|apply clean_forallb, Hc].
Qed.
Lemma reads_code_zero l : pure l = true -> reads clean (re_code_zero l).
Proof.
  intros Hl s a r. unfold re_code_zero. destruct s as [|x s]; [discriminate|]. destruct (Ascii.eqb x l) eqn:E; [|discriminate]. apply Ascii.eqb_eq in E as ->.
  destruct (reads_span (Ascii.eqb "0") zeros_pure s) as (u & Eu & Hu). destruct (span (Ascii.eqb "0") s) as [y z]. cbn in Eu. destruct y; [discriminate|].
  intros [= <- <-]. exists (l :: u). split; [rewrite Eu; reflexivity|]. constructor; [apply pure_ok, Hl|exact Hu].
Qed.
Lemma reads_digit : reads clean re_digit.
Proof.
  intros s a r. unfold re_digit. destruct s as [|x s]; [discriminate|]. destruct (is_digit x) eqn:E; [|discriminate]. intros [= <- <-]. exists [x]. split; [reflexivity|].
  constructor; [apply pure_ok, digit_pure, E|constructor].
Qed.

(** Parsers that read such texts. *)
Definition tidy {A} (p : parser A) : Prop := forall s a k r, p s = POk (a, k) r -> exists u, s = u ++ r /\ clean u.
Definition idle {A} (p : parser A) : Prop := forall s a k r, p s = POk (a, k) r -> r = s.
Lemma tidy_token {A} (f : str -> option (A * str)) : reads clean f -> tidy (token f).
Proof.
  intros H s a k r. unfold token. destruct (f (skip s)) as [[x y]|] eqn:E; [|discriminate]. intros [= <- <- <-]. destruct (H _ _ _ E) as (u & Eu & Hu).
  destruct (skip_split s) as (b & Eb & Hb). exists (b ++ u). split; [rewrite <- app_assoc, <- Eu; exact Eb|]. apply clean_app; [apply clean_blank, Hb|exact Hu].
Qed.
Lemma tidy_string : tidy string_p.
Proof.
  intros s a k r. unfold string_p, chars_not_in. destruct (reads_span (fun c => negb (existsb (Ascii.eqb c) ["%"%char; "*"%char]))) with (s := s) as (u & Eu & Hu).
  - intros c. ascii_case c; (discriminate || reflexivity).
  - destruct (span _ s) as [[|x y] z]; [discriminate|]. intros [= <- <- <-]. eauto.
Qed.
Lemma tidy_idle {A} (p : parser A) : idle p -> tidy p.
Proof. intros H s a k r E. apply H in E as ->. exists []. split; [reflexivity|constructor]. Qed.
Lemma idle_ret {A} (a : A) : idle (ret a). Proof. intros s b k r [= <- <- <-]. reflexivity. Qed.
Lemma idle_validate {A} (o : option A) : idle (validate o). Proof. intros s b k r. destruct o; [|discriminate]. intros [= <- <- <-]. reflexivity. Qed.
Lemma idle_followed {A} (p : parser A) : idle (followed_by p). Proof. intros s b k r. unfold followed_by. destruct (p s); try discriminate. intros [= <- <- <-]. reflexivity. Qed.
Lemma idle_bind {A B} (p : parser A) (f : A -> parser B) : idle p -> (forall a, idle (f a)) -> idle (pbind p f).
Proof.
  intros Hp Hf s b k r. unfold pbind. destruct (p s) as [[a k1] r1| |] eqn:E1; try discriminate. destruct (f a r1) as [[b2 k2] r2| |] eqn:E2; try discriminate.
  intros [= <- <- <-]. apply Hp in E1 as ->. apply Hf in E2. exact E2.
Qed.
Lemma tidy_bind {A B} (p : parser A) (f : A -> parser B) : tidy p -> (forall a, tidy (f a)) -> tidy (pbind p f).
Proof.
  intros Hp Hf s b k r. unfold pbind. destruct (p s) as [[a k1] r1| |] eqn:E1; try discriminate. destruct (f a r1) as [[b2 k2] r2| |] eqn:E2; try discriminate.
  intros [= <- <- <-]. apply Hp in E1 as (u1 & -> & H1). apply Hf in E2 as (u2 & -> & H2). exists (u1 ++ u2). rewrite <- app_assoc. split; [reflexivity|apply clean_app; assumption].
Qed.
Lemma tidy_first {A} (ps : list (parser A)) : Forall tidy ps -> tidy (first_of ps).
Proof.
  intros H s a k r. induction H as [|p ps Hp _ IH]; [discriminate|]. cbn. destruct (p s) as [[a1 k1] r1| |] eqn:E; try discriminate; [|exact IH].
  intros [= <- <- <-]. exact (Hp _ _ _ _ E).
Qed.
Lemma tidy_opt {A} (p : parser A) : tidy p -> tidy (opt p).
Proof.
  intros H s a k r. unfold opt. destruct (skip_split s) as (b & Eb & Hb). apply clean_blank in Hb. destruct (p (skip s)) as [[a1 k1] r1| |] eqn:E; try discriminate; intros [= <- <- <-]; [|eauto].
  apply H in E as (u & Eu & Hu). exists (b ++ u). rewrite <- app_assoc, <- Eu. split; [exact Eb|apply clean_app; assumption].
Qed.
Lemma tidy_opt_raw {A} (p : parser A) : tidy p -> tidy (opt_raw p).
Proof.
  intros H s a k r. unfold opt_raw. destruct (p s) as [[a1 k1] r1| |] eqn:E; try discriminate; intros [= <- <- <-]; [exact (H _ _ _ _ E)|].
  exists []. split; [reflexivity|constructor].
Qed.
Lemma tidy_many {A} n (p : parser A) : tidy p -> tidy (many n p).
Proof.
  intros H. induction n as [|n IH]; intros s l k r; [discriminate|]. cbn. destruct (p s) as [[a1 k1] r1| |] eqn:E; try discriminate.
  - destruct (many n p r1) as [[l2 k2] r2| |] eqn:E2; try discriminate. intros [= <- <- <-].
    apply H in E as (u1 & -> & H1). apply IH in E2 as (u2 & -> & H2). exists (u1 ++ u2). rewrite <- app_assoc. split; [reflexivity|apply clean_app; assumption].
  - intros [= <- <- <-]. exists []. split; [reflexivity|constructor].
Qed.
Ltac reads_go :=
  first [ apply reads_lit; (reflexivity || assumption) | apply reads_caseless; (reflexivity || assumption) | apply reads_one_of; (reflexivity || assumption) | apply reads_double | apply reads_integer
        | apply reads_field | apply reads_id | apply reads_variable | apply reads_digit | apply reads_code; (reflexivity || assumption)
        | apply reads_code_zero; reflexivity | apply reads_word; auto using name_pure, start_pure, user_pure ].
Ltac idle_go := repeat first [ apply idle_ret | apply idle_validate | apply idle_followed | apply idle_bind; [|intros]
  | match goal with |- idle (match ?x with _ => _ end) => destruct x end ].
Ltac tidy_go :=
  repeat match goal with
  | |- tidy (ret _) => apply tidy_idle, idle_ret
  | |- tidy (validate _) => apply tidy_idle, idle_validate
  | |- tidy (followed_by _) => apply tidy_idle, idle_followed
  | |- tidy string_p => apply tidy_string
  | |- tidy (token _) => apply tidy_token; reads_go
  | |- tidy (lit_p _) => apply tidy_token; reads_go
  | |- tidy (caseless_p _) => apply tidy_token; reads_go
  | |- tidy (one_of _) => apply tidy_token; reads_go
  | |- tidy (opt_raw _) => apply tidy_opt_raw
  | |- tidy (opt _) => apply tidy_opt
  | |- tidy (many _ _) => apply tidy_many
  | |- tidy (first_of _) => apply tidy_first
  | |- tidy (pbind _ _) => apply tidy_bind; [|intros]
  | |- tidy (pthen _ _) => unfold pthen
  | |- tidy (many1 _ _) => unfold many1
  | |- Forall _ (_ :: _) => apply Forall_cons
  | |- Forall _ [] => apply Forall_nil
  | |- tidy (match ?x with _ => _ end) => destruct x
  end.

(** ** The text of a command, from its first character *)
Definition texts {A} (S : str -> Prop) (p : parser A) : Prop := forall s a k r, p s = POk (a, k) r -> exists u, skip s = u ++ r /\ S u.
Lemma texts_weaken {A} (S S' : str -> Prop) (p : parser A) : texts S p -> (forall u, S u -> S' u) -> texts S' p.
Proof. intros H HS s a k r E. destruct (H _ _ _ _ E) as (u & Eu & Hu). eauto. Qed.
Lemma texts_first {A} S (ps : list (parser A)) : Forall (texts S) ps -> texts S (first_of ps).
Proof.
  intros H s a k r. induction H as [|p ps Hp _ IH]; [discriminate|]. cbn. destruct (p s) as [[a1 k1] r1| |] eqn:E; try discriminate; [|exact IH].
  intros [= <- <- <-]. exact (Hp _ _ _ _ E).
Qed.
Lemma texts_idle {A B} S (p : parser A) (f : A -> parser B) : texts S p -> (forall a, idle (f a)) -> texts S (pbind p f).
Proof.
  intros Hp Hf s b k r. unfold pbind. destruct (p s) as [[a k1] r1| |] eqn:E1; try discriminate. destruct (f a r1) as [[b2 k2] r2| |] eqn:E2; try discriminate.
  intros [= <- <- <-]. apply Hf in E2 as ->. exact (Hp _ _ _ _ E1).
Qed.
Lemma lit_inv l s a k r : lit_p l s = POk (a, k) r -> skip s = lit l ++ r.
Proof.
  unfold lit_p, token. destruct (strip_prefix (lit l) (skip s)) as [q|] eqn:E; [|discriminate]. intros [= <- <- <-]. exact (GramText.strip_prefix_some _ _ _ E).
Qed.
(** White space in front goes, the first other character stays. *)
Lemma skip_upto x c r : blank c = false -> exists x', skip (x ++ c :: r) = x' ++ c :: r /\ exists b, x = b ++ x' /\ Forall (fun c => blank c = true) b.
Proof.
  intros Hc. induction x as [|d x (x' & E & b & -> & Hb)]; cbn [app skip].
  - rewrite <- blank_ws, Hc. exists []. split; [reflexivity|]. exists []. split; [reflexivity|constructor].
  - rewrite <- blank_ws. destruct (blank d) eqn:Ed.
    + exists x'. split; [exact E|]. exists (d :: b). split; [reflexivity|]. constructor; assumption.
    + exists (d :: b ++ x'). split; [reflexivity|]. exists []. split; [reflexivity|constructor].
Qed.
Lemma texts_command {A} (p : parser A) : tidy p -> texts plain_text (command p).
Proof.
  intros Hp s a k r. unfold command, pthen, pbind, asterisk. destruct (p s) as [[a1 k1] r1| |] eqn:E1; try discriminate.
  destruct (lit_p "*" r1) as [[a2 k2] r2| |] eqn:E2; try discriminate. cbn. intros [= <- <- <-]. apply Hp in E1 as (u & -> & Hu). apply lit_inv in E2.
  destruct (skip_split r1) as (b & Eb & Hb). rewrite E2 in Eb. cbn in Eb. rewrite Eb, app_assoc.
  destruct (skip_upto (u ++ b) "*" r2 eq_refl) as (x & -> & b' & Ex & _). exists (x ++ ["*"%char]). split; [rewrite <- app_assoc; reflexivity|].
  exists x. split; [reflexivity|]. assert (H : clean (u ++ b)) by (apply clean_app; [exact Hu|apply clean_blank, Hb]). rewrite Ex in H. apply Forall_app in H. apply H.
Qed.
Lemma texts_extended {A} (p : parser A) : tidy p -> texts extended_text (extended p).
Proof.
  intros Hp s a k r. unfold extended, pthen, pbind, percent, asterisk. destruct (lit_p "%" s) as [[a0 k0] r0| |] eqn:E0; try discriminate.
  destruct (p r0) as [[a1 k1] r1| |] eqn:E1; try discriminate. destruct (lit_p "*" r1) as [[a2 k2] r2| |] eqn:E2; try discriminate.
  destruct (lit_p "%" r2) as [[a3 k3] r3| |] eqn:E3; try discriminate. cbn. intros [= <- <- <-].
  apply lit_inv in E0, E2, E3. apply Hp in E1 as (u & -> & Hu). cbn in E0, E2, E3. rewrite E0.
  destruct (skip_split r1) as (b & Eb & Hb). rewrite E2 in Eb. destruct (skip_split r2) as (w & Ew & Hw). rewrite E3 in Ew. subst r1. rewrite Ew.
  exists ("%"%char :: (u ++ b) ++ "*"%char :: w ++ ["%"%char]). split; [cbn; rewrite <- !app_assoc; cbn; rewrite <- !app_assoc; reflexivity|].
  exists (u ++ b), w. split; [reflexivity|]. split; [apply clean_app; [exact Hu|apply clean_blank, Hb]|exact Hw].
Qed.
Lemma texts_macro_open {A B C} (q : parser A) (p : parser B) (f : B -> C) : tidy q -> tidy p ->
  texts (fun u => exists b, u = "%"%char :: b ++ ["*"%char] /\ clean b) (pthen percent (pthen q (pbind p (fun a => pthen asterisk (ret (f a)))))).
Proof.
  intros Hq Hp s a k r. unfold pthen, pbind, percent, asterisk. destruct (lit_p "%" s) as [[a0 k0] r0| |] eqn:E0; try discriminate. destruct (q r0) as [[a3 k3] r3| |] eqn:E3; try discriminate.
  destruct (p r3) as [[a1 k1] r1| |] eqn:E1; try discriminate. destruct (lit_p "*" r1) as [[a2 k2] r2| |] eqn:E2; try discriminate. cbn. intros [= <- <- <-].
  apply lit_inv in E0, E2. apply Hq in E3 as (v & -> & Hv). apply Hp in E1 as (u & -> & Hu). cbn in E0, E2. rewrite E0. destruct (skip_split r1) as (b & Eb & Hb). rewrite E2 in Eb. subst r1.
  exists ("%"%char :: (v ++ u ++ b) ++ ["*"%char]). split; [cbn; rewrite <- !app_assoc; reflexivity|]. exists (v ++ u ++ b). split; [reflexivity|].
  repeat apply clean_app; [exact Hv|exact Hu|apply clean_blank, Hb].
Qed.
Lemma texts_macro_close {C} (x : C) : texts (fun u => u = ["%"%char]) (pthen percent (ret x)).
Proof.
  intros s a k r. unfold pthen, pbind, percent. destruct (lit_p "%" s) as [[a0 k0] r0| |] eqn:E0; try discriminate. cbn. intros [= <- <- <-]. apply lit_inv in E0.
  exists ["%"%char]. auto.
Qed.
(** Texts that end with a percent sign. *)
Definition ends {A} (p : parser A) : Prop := forall s a k r, p s = POk (a, k) r -> exists x, s = x ++ "%"%char :: r.
Lemma ends_right {A B} (p : parser A) (f : A -> parser B) : (forall s a k r, p s = POk (a, k) r -> exists u, s = u ++ r) -> (forall a, ends (f a)) -> ends (pbind p f).
Proof.
  intros Hp Hf s b k r. unfold pbind. destruct (p s) as [[a k1] r1| |] eqn:E1; try discriminate. destruct (f a r1) as [[b2 k2] r2| |] eqn:E2; try discriminate.
  intros [= <- <- <-]. apply Hp in E1 as (u & ->). apply Hf in E2 as (x & ->). exists (u ++ x). apply app_assoc.
Qed.
Lemma ends_left {A B} (p : parser A) (f : A -> parser B) : ends p -> (forall a, idle (f a)) -> ends (pbind p f).
Proof.
  intros Hp Hf s b k r. unfold pbind. destruct (p s) as [[a k1] r1| |] eqn:E1; try discriminate. destruct (f a r1) as [[b2 k2] r2| |] eqn:E2; try discriminate.
  intros [= <- <- <-]. apply Hf in E2 as ->. exact (Hp _ _ _ _ E1).
Qed.
Lemma ends_texts {A} S (p : parser A) : texts S p -> (forall u, S u -> exists b, u = b ++ ["%"%char]) -> ends p.
Proof.
  intros H HS s a k r E. destruct (H _ _ _ _ E) as (u & Eu & Hu). destruct (HS u Hu) as (b & ->). destruct (skip_split s) as (g & Eg & _). exists (g ++ b).
  rewrite Eg, Eu, <- !app_assoc. reflexivity.
Qed.


(** Tokens of the grammar: which texts they yield, and that they read such a text back. *)
From Verif Require Import Base Num CoordModel Ast GramAst PegModel GramModel GramText GramExpr GramExprRt.
Local Open Scope nat_scope.

Definition tabless (c : ascii) : bool := negb (Ascii.eqb c "009").
Definition raw_char (c : ascii) : bool := negb (existsb (Ascii.eqb c) ["%"%char; "*"%char]).

Definition name_text (t : str) : Prop :=
  exists c a, t = c :: a /\ name_start c = true /\ all name_char a.
Definition user_text (t : str) : Prop :=
  exists c a, t = c :: a /\ user_start c = true /\ all name_char a.
Definition field_text (t : str) : Prop := all field_char t /\ notab t /\ head_is is_ws t = false.
Definition raw_text (t : str) : Prop := t <> [] /\ all raw_char t /\ notab t.
Definition id_text (t : str) : Prop :=
  exists z a d, t = "D"%char :: z ++ a :: d /\ all (Ascii.eqb "0") z /\
    is_digit a = true /\ Ascii.eqb "0" a = false /\ digits1 d.

(** ** Reading back *)
Lemma token_app {A} (f : str -> option (A * str)) t s a :
  head_is is_ws (t ++ s) = false -> f (t ++ s) = Some (a, s) -> token f (t ++ s) = POk a s.
Proof. intros H1 H2. unfold token. rewrite skip_id by exact H1. rewrite H2. reflexivity. Qed.
Lemma double_app t s : double_text t -> num_end s -> double_p (t ++ s) = POk t s.
Proof. intros H1 H2. apply token_app; [apply double_head, H1|apply re_double_app; auto]. Qed.
Lemma integer_app t s : integer_text t -> head_is is_digit s = false -> integer_p (t ++ s) = POk t s.
Proof. intros H1 H2. apply token_app; [apply integer_head, H1|apply re_integer_app; auto]. Qed.
Lemma name_start_ws c : name_start c = true -> is_ws c = false.
Proof. by_char c. Qed.
Lemma user_name c : user_start c = true -> name_start c = true.
Proof. unfold name_start. intros ->. apply orb_true_r. Qed.
Lemma re_word_app st ch c a s : st c = true -> all ch a -> head_is ch s = false ->
  re_word st ch ((c :: a) ++ s) = Some (c :: a, s).
Proof. intros H1 H2 H3. cbn. rewrite H1. rewrite (span_app _ _ _ H2 H3). reflexivity. Qed.
Lemma name_app t s : name_text t -> head_is name_char s = false -> name_p (t ++ s) = POk t s.
Proof.
  intros (c & a & -> & H1 & H2) H3. apply token_app; [exact (name_start_ws c H1)|].
  apply re_word_app; assumption.
Qed.
Lemma user_app t s : user_text t -> head_is name_char s = false -> user_name_p (t ++ s) = POk t s.
Proof.
  intros (c & a & -> & H1 & H2) H3. apply token_app; [exact (name_start_ws c (user_name c H1))|].
  apply re_word_app; assumption.
Qed.
Lemma field_end_ws s : head_is field_char s = false -> head_is is_ws s = false.
Proof. destruct s as [|c s]; [reflexivity|]. cbn [head_is]. by_char c. Qed.
Lemma field_app t s : field_text t -> head_is field_char s = false -> field_p (t ++ s) = POk t s.
Proof.
  intros (H1 & _ & H2) H3. apply token_app.
  - destruct t; [apply field_end_ws, H3|exact H2].
  - unfold re_field. rewrite (span_app _ _ _ H1 H3). reflexivity.
Qed.
Lemma string_app t s : raw_text t -> head_is raw_char s = false -> string_p (t ++ s) = POk t s.
Proof.
  intros (H1 & H2 & _) H3. unfold string_p, chars_not_in. fold raw_char.
  change (fun c : ascii => negb (existsb (Ascii.eqb c) ["%"%char; "*"%char])) with raw_char.
  rewrite (span_app _ _ _ H2 H3). destruct t; [congruence|reflexivity].
Qed.
Lemma string_none s : head_is raw_char s = false -> string_p s = PFail.
Proof.
  intros H. unfold string_p, chars_not_in.
  change (fun c : ascii => negb (existsb (Ascii.eqb c) ["%"%char; "*"%char])) with raw_char.
  rewrite (span_none _ _ H). reflexivity.
Qed.
Lemma id_app t s : id_text t -> head_is is_digit s = false -> aperture_id_p (t ++ s) = POk t s.
Proof.
  intros (z & a & d & -> & H1 & H2 & H3 & H4) H5. apply token_app; [reflexivity|].
  cbn [app re_aperture_id]. change (Ascii.eqb "D" "D") with true. cbn iota. rewrite <- app_assoc. cbn [app].
  rewrite (span_app (Ascii.eqb "0") z); [|exact H1|exact H3].
  rewrite H2, (re_digits_app _ _ H4 H5). reflexivity.
Qed.
Lemma variable_app d s : digits1 d -> head_is is_digit s = false ->
  token re_variable (("$"%char :: d) ++ s) = POk ("$"%char :: d) s.
Proof.
  intros H1 H2. apply token_app; [reflexivity|]. cbn [app re_variable].
  change (Ascii.eqb "$" "$") with true. cbn iota. rewrite (re_digits_app _ _ H1 H2). reflexivity.
Qed.

(** Comma separated fields up to the closing asterisk. *)
Lemma field_star s : head_is field_char ("*"%char :: s) = false. Proof. reflexivity. Qed.
Lemma field_comma s : head_is field_char (","%char :: s) = false. Proof. reflexivity. Qed.
Definition comma_texts (l : list str) : str := concat (map (fun f => lit "," ++ f) l).
Lemma one_field_app f s : field_text f -> head_is field_char s = false ->
  one_field (","%char :: f ++ s) = POk f s.
Proof.
  intros H1 H2. unfold one_field, pthen, pbind, comma. rewrite (lit_ok "," ","%char) by reflexivity. 
  apply field_app; assumption.
Qed.
Lemma fields_app n l s : Forall field_text l -> length l < n ->
  fields n (comma_texts l ++ "*"%char :: s) = POk l ("*"%char :: s).
Proof.
  intros Hl Hn. unfold fields, comma_texts.
  destruct (many_ok (comma ;; field_p) (fun f => lit "," ++ f) (fun s => head_is field_char s = false)
              ("*"%char :: s) eq_refl eq_refl l) with (k := n) as [H _]; auto.
  intros f r Hf Hr. split; [|reflexivity]. rewrite Forall_forall in Hl. exact (one_field_app f r (Hl f Hf) Hr).
Qed.

(** ** What the tokens yield *)
Lemma yields_integer n : yields n true integer_p integer_text.
Proof.
  apply yields_token. intros s a r _ _ H. apply re_integer_some in H as [H ->]. split; [exact H|].
  exists a. split; [reflexivity|]. intros _ ->. destruct H as (sg & d & E & _ & [Hd _]).
  destruct sg; [|discriminate]. destruct d; [congruence|discriminate].
Qed.
Lemma re_word_some st ch s t r : re_word st ch s = Some (t, r) ->
  exists c a, t = c :: a /\ st c = true /\ all ch a /\ s = t ++ r.
Proof.
  destruct s as [|c s]; [discriminate|]. cbn. destruct (st c) eqn:E; [|discriminate].
  pose proof (span_spec ch s) as (H1 & H2 & _). destruct (span ch s) as [a b] eqn:Es. cbn in *.
  intros H. injection H as <- <-. exists c, a. rewrite H2. auto.
Qed.
Lemma yields_name n : yields n true name_p name_text.
Proof.
  apply yields_token. intros s a r _ _ H. apply re_word_some in H as (c & x & -> & H1 & H2 & ->).
  split; [exists c, x; auto|]. eexists. split; [reflexivity|]. discriminate.
Qed.
Lemma yields_user n : yields n true user_name_p user_text.
Proof.
  apply yields_token. intros s a r _ _ H. apply re_word_some in H as (c & x & -> & H1 & H2 & ->).
  split; [exists c, x; auto|]. eexists. split; [reflexivity|]. discriminate.
Qed.
Lemma yields_field n : yields n false field_p field_text.
Proof.
  apply yields_token. intros s a r Ht Hw H. unfold re_field in H.
  pose proof (span_spec field_char s) as (H1 & H2 & _). destruct (span field_char s) as [x y]. cbn in *.
  injection H as -> ->. rewrite H2 in Ht, Hw. apply all_app in Ht as [Ht _]. split.
  - split; [exact H1|]. split; [exact Ht|]. destruct a; [reflexivity|exact Hw].
  - exists a. split; [exact H2|discriminate].
Qed.
Lemma yields_string n : yields n true string_p raw_text.
Proof.
  intros s Hs Ht. unfold string_p, chars_not_in.
  change (fun c : ascii => negb (existsb (Ascii.eqb c) ["%"%char; "*"%char])) with raw_char.
  pose proof (span_spec raw_char s) as (H1 & H2 & _). destruct (span raw_char s) as [x y]. cbn in *.
  destruct x as [|c x]; [exact I|]. rewrite H2 in Ht. apply all_app in Ht as [Ht Ht'].
  split; [split; [discriminate|auto]|]. split; [exact Ht'|]. rewrite H2, app_length. cbn. lia.
Qed.
Lemma yields_id n : yields n true aperture_id_p id_text.
Proof.
  apply yields_token. intros s a r _ _ H. destruct s as [|c s]; [discriminate|]. cbn in H.
  destruct (Ascii.eqb c "D") eqn:E; [|discriminate]. apply Ascii.eqb_eq in E as ->.
  pose proof (span_spec (Ascii.eqb "0") s) as (H1 & H2 & H3).
  destruct (span (Ascii.eqb "0") s) as [z r1] eqn:Es. cbn in *.
  destruct r1 as [|b r2]; [discriminate|]. destruct (is_digit b) eqn:Eb; [|discriminate].
  destruct (re_digits r2) as [[d r3]|] eqn:Ed; [|discriminate]. injection H as <- <-.
  apply re_digits_some in Ed as (Hd & -> & _). split.
  - exists z, b, d. cbn in H3. auto.
  - exists ("D"%char :: z ++ b :: d). split; [|discriminate]. rewrite H2. cbn. rewrite <- app_assoc. reflexivity.
Qed.
Lemma yields_re_variable n : yields n true (token re_variable) (fun v => exists d, v = "$"%char :: d /\ digits1 d).
Proof.
  apply yields_token. intros s a r _ _ H. destruct s as [|c s]; [discriminate|].
  cbn in H. destruct (Ascii.eqb c "$") eqn:E; [|discriminate]. apply Ascii.eqb_eq in E as ->.
  destruct (re_digits s) as [[d r']|] eqn:Ed; [|discriminate]. injection H as <- <-.
  apply re_digits_some in Ed as (Hd & -> & _). split; [eauto|].
  exists ("$"%char :: d). split; [reflexivity|discriminate].
Qed.
Lemma yields_code n l c : yields n true (token (re_code l c)) (fun _ => True).
Proof.
  apply yields_token. intros s a r _ _ H. split; [exact I|]. destruct s as [|x s]; [discriminate|]. cbn in H.
  destruct (Ascii.eqb x l); [|discriminate].
  pose proof (span_spec (Ascii.eqb "0") s) as (_ & H2 & _). destruct (span (Ascii.eqb "0") s) as [z r1]. cbn in *.
  destruct (strip_prefix (lit c) r1) eqn:E; [|discriminate]. injection H as <- <-.
  apply strip_prefix_some in E as ->. exists (x :: z ++ lit c). split; [|discriminate].
  rewrite H2. cbn. rewrite <- app_assoc. reflexivity.
Qed.
Lemma yields_code_zero n l : yields n true (token (re_code_zero l)) (fun _ => True).
Proof.
  apply yields_token. intros s a r _ _ H. split; [exact I|]. destruct s as [|x s]; [discriminate|]. cbn in H.
  destruct (Ascii.eqb x l); [|discriminate].
  pose proof (span_spec (Ascii.eqb "0") s) as (_ & H2 & _). destruct (span (Ascii.eqb "0") s) as [z r1]. cbn in *.
  destruct z as [|y z]; [discriminate|]. injection H as <- <-. exists (x :: y :: z). split; [|discriminate].
  rewrite H2. reflexivity.
Qed.
Lemma yields_digit n : yields n true (token re_digit) (fun c => is_digit c = true).
Proof.
  apply yields_token. intros s a r _ _ H. destruct s as [|c s]; [discriminate|]. cbn in H.
  destruct (is_digit c) eqn:E; [|discriminate]. injection H as <- <-. split; [exact E|].
  exists [c]. split; [reflexivity|discriminate].
Qed.
Lemma yields_one_of_empty n (ls : list string) :
  yields n false (one_of ls) (fun a => In a (map lit ls)).
Proof.
  apply yields_token. intros s a r _ _ H. apply first_prefix_some in H as [H1 H2].
  split; [exact H1|]. exists a. split; [exact H2|discriminate].
Qed.
Lemma yields_fields n : yields n false (fields n) (Forall field_text).
Proof.
  apply yields_many. eapply (yields_then n true false); [apply yields_lit|apply yields_field].
Qed.
Lemma yields_one_field n : yields n true one_field field_text.
Proof. eapply (yields_then n true false); [apply yields_lit|apply yields_field]. Qed.

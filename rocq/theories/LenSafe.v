(** Parsers do not look behind the end of what they read: the outcome of a command is settled by
    the text up to its asterisk, that of an extended command by the text up to its percent sign. *)
From Verif Require Import Base Num Ast GramAst PegModel GramModel GramText ResProofs.
Local Open Scope nat_scope.

(** A text that ends with its first asterisk. *)
Inductive upto : str -> Prop :=
| up_star : upto ["*"%char]
| up_cons c v : Ascii.eqb c "*" = false -> upto v -> upto (c :: v).
Lemma upto_split s : In "*"%char s -> exists v r, upto v /\ s = v ++ r.
Proof.
  induction s as [|c s IH]; [intros []|]. intros H. destruct (Ascii.eqb c "*") eqn:E.
  - apply Ascii.eqb_eq in E as ->. exists ["*"%char], s. split; [constructor|reflexivity].
  - destruct H as [->|H]; [discriminate|]. destruct (IH H) as (v & r & Hv & ->). exists (c :: v), r. split; [constructor; auto|reflexivity].
Qed.
Definition nostar (s : str) : bool := forallb (fun c => negb (Ascii.eqb (upper c) "*")) s.

Lemma upper_star c : Ascii.eqb (upper c) "*" = Ascii.eqb c "*".
Proof. destruct c as [[] [] [] [] [] [] [] []]; vm_compute; reflexivity. Qed.

(** Outcomes that do not depend on what follows the asterisk. *)
Definition safe {A} (p : parser A) : Prop := forall v, upto v ->
  (forall r, p (v ++ r) = PFail) \/ (exists e, forall r, p (v ++ r) = PErr e) \/
  (exists a w, upto w /\ forall r, p (v ++ r) = POk a (w ++ r)).
Definition stops {A} (p : parser A) : Prop := forall v, upto v ->
  (forall r, p (v ++ r) = PFail) \/ (exists e, forall r, p (v ++ r) = PErr e) \/
  (exists a, forall r, p (v ++ r) = POk a r).
Definition safe_tok {A} (f : str -> option (A * str)) : Prop := forall v, upto v ->
  (forall r, f (v ++ r) = None) \/ (exists a w, upto w /\ forall r, f (v ++ r) = Some (a, w ++ r)).
Definition safe_all {A} (f : str -> A * str) : Prop := forall v, upto v ->
  exists a w, upto w /\ forall r, f (v ++ r) = (a, w ++ r).

Lemma skip_upto v : upto v -> exists w, upto w /\ forall r, skip (v ++ r) = w ++ r.
Proof.
  induction 1 as [|c v Hc Hv (w & Hw & E)].
  - exists ["*"%char]. split; [constructor|reflexivity].
  - destruct (is_ws c) eqn:Ew.
    + exists w. split; [exact Hw|]. intros r. cbn. rewrite Ew. apply E.
    + exists (c :: v). split; [constructor; auto|]. intros r. cbn. rewrite Ew. reflexivity.
Qed.
Lemma span_upto f : f "*"%char = false -> safe_all (span f).
Proof.
  intros Hf v. induction 1 as [|c v Hc Hv (a & w & Hw & E)].
  - exists [], ["*"%char]. split; [constructor|]. intros r. cbn. rewrite Hf. reflexivity.
  - destruct (f c) eqn:Ec.
    + exists (c :: a), w. split; [exact Hw|]. intros r. cbn. rewrite Ec, E. reflexivity.
    + exists [], (c :: v). split; [constructor; auto|]. intros r. cbn. rewrite Ec. reflexivity.
Qed.
Lemma strip_upto l : nostar l = true -> forall v, upto v ->
  (forall r, strip_prefix l (v ++ r) = None) \/ (exists w, upto w /\ forall r, strip_prefix l (v ++ r) = Some (w ++ r)).
Proof.
  induction l as [|a l IH]; intros Hl v Hv; [right; exists v; split; [exact Hv|reflexivity]|].
  cbn in Hl. apply andb_prop in Hl as [H1 H2]. rewrite upper_star in H1. destruct Hv as [|c v Hc Hv].
  - left. intros r. cbn. apply Bool.negb_true_iff in H1. rewrite H1. reflexivity.
  - destruct (Ascii.eqb a c) eqn:E.
    + destruct (IH H2 v Hv) as [H|(w & Hw & H)]; [left|right; exists w; split; [exact Hw|]]; intros r; cbn; rewrite E; apply H.
    + left. intros r. cbn. rewrite E. reflexivity.
Qed.
Lemma strip_upper_upto l : nostar l = true -> forall v, upto v ->
  (forall r, strip_upper l (v ++ r) = None) \/ (exists w, upto w /\ forall r, strip_upper l (v ++ r) = Some (w ++ r)).
Proof.
  induction l as [|a l IH]; intros Hl v Hv; [right; exists v; split; [exact Hv|reflexivity]|].
  cbn [nostar forallb] in Hl. apply andb_prop in Hl as [H1 H2]. destruct Hv as [|c v Hc Hv].
  - left. intros r. cbn [strip_upper app]. apply Bool.negb_true_iff in H1. change (upper "*") with "*"%char. rewrite H1. reflexivity.
  - destruct (Ascii.eqb (upper a) (upper c)) eqn:E.
    + destruct (IH H2 v Hv) as [H|(w & Hw & H)]; [left|right; exists w; split; [exact Hw|]]; intros r; cbn [strip_upper app]; rewrite E; apply H.
    + left. intros r. cbn [strip_upper app]. rewrite E. reflexivity.
Qed.
Lemma safe_token {A} (f : str -> option (A * str)) : safe_tok f -> safe (token f).
Proof.
  intros Hf v Hv. destruct (skip_upto v Hv) as (u & Hu & E). destruct (Hf u Hu) as [H|(a & w & Hw & H)].
  - left. intros r. unfold token. rewrite E, H. reflexivity.
  - right. right. exists a, w. split; [exact Hw|]. intros r. unfold token. rewrite E, H. reflexivity.
Qed.
Lemma safe_lit l : nostar (lit l) = true -> safe (lit_p l).
Proof.
  intros Hl. apply safe_token. intros v Hv. destruct (strip_upto _ Hl v Hv) as [H|(w & Hw & H)].
  - left. intros r. rewrite H. reflexivity.
  - right. exists tt, w. split; [exact Hw|]. intros r. rewrite H. reflexivity.
Qed.
Lemma safe_caseless l : nostar (lit l) = true -> safe (caseless_p l).
Proof.
  intros Hl. apply safe_token. intros v Hv. destruct (strip_upper_upto _ Hl v Hv) as [H|(w & Hw & H)].
  - left. intros r. rewrite H. reflexivity.
  - right. exists tt, w. split; [exact Hw|]. intros r. rewrite H. reflexivity.
Qed.
Lemma safe_one_of ls : forallb (fun l => nostar (lit l)) ls = true -> safe (one_of ls).
Proof.
  intros Hl. apply safe_token. intros v Hv. induction ls as [|l ls IH]; [left; reflexivity|].
  cbn in Hl. apply andb_prop in Hl as [H1 H2]. destruct (strip_upto _ H1 v Hv) as [H|(w & Hw & H)].
  - destruct (IH H2) as [I|(a & w & Hw & I)]; [left|right; exists a, w; split; [exact Hw|]]; intros r; cbn; rewrite H; apply I.
  - right. exists (lit l), w. split; [exact Hw|]. intros r. cbn. rewrite H. reflexivity.
Qed.
Lemma safe_chars cs : existsb (Ascii.eqb "*") cs = true -> safe (chars_not_in cs).
Proof.
  intros H v Hv. destruct (span_upto (fun c => negb (existsb (Ascii.eqb c) cs)) ltac:(cbn; rewrite H; reflexivity) v Hv) as (a & w & Hw & E).
  destruct a as [|x a].
  - left. intros r. unfold chars_not_in. rewrite E. reflexivity.
  - right. right. exists (x :: a), w. split; [exact Hw|]. intros r. unfold chars_not_in. rewrite E. reflexivity.
Qed.
Lemma tok_digits : safe_tok re_digits.
Proof.
  intros v Hv. destruct (span_upto is_digit eq_refl v Hv) as (a & w & Hw & E). destruct a as [|x a].
  - left. intros r. unfold re_digits. rewrite E. reflexivity.
  - right. exists (x :: a), w. split; [exact Hw|]. intros r. unfold re_digits. rewrite E. reflexivity.
Qed.
Lemma all_sign : safe_all opt_sign.
Proof.
  intros v Hv. destruct Hv as [|c v Hc Hv].
  - exists [], ["*"%char]. split; [constructor|reflexivity].
  - destruct (is_sign c) eqn:E.
    + exists [c], v. split; [exact Hv|]. intros r. cbn. rewrite E. reflexivity.
    + exists [], (c :: v). split; [constructor; auto|]. intros r. cbn. rewrite E. reflexivity.
Qed.
Lemma all_fraction : safe_all opt_fraction.
Proof.
  intros v Hv. destruct Hv as [|c v Hc Hv].
  - exists [], ["*"%char]. split; [constructor|reflexivity].
  - destruct (Ascii.eqb c ".") eqn:E.
    + destruct (tok_digits v Hv) as [H|(a & w & Hw & H)].
      * exists [], (c :: v). split; [constructor; auto|]. intros r. cbn. rewrite E, H. reflexivity.
      * exists ("."%char :: a), w. split; [exact Hw|]. intros r. cbn. rewrite E, H. reflexivity.
    + exists [], (c :: v). split; [constructor; auto|]. intros r. cbn. rewrite E. reflexivity.
Qed.
Lemma tok_double : safe_tok re_double.
Proof.
  intros v Hv. destruct (all_sign v Hv) as (sg & w1 & Hw1 & E1). destruct (tok_digits w1 Hw1) as [H|(a & w & Hw & H)].
  - destruct (all_fraction w1 Hw1) as (f & w2 & Hw2 & E2). destruct f as [|x f].
    + left. intros r. unfold re_double. rewrite E1, H, E2. reflexivity.
    + right. exists (sg ++ x :: f), w2. split; [exact Hw2|]. intros r. unfold re_double. rewrite E1, H, E2. reflexivity.
  - destruct (all_fraction w Hw) as (f & w2 & Hw2 & E2). right. exists (sg ++ a ++ f), w2. split; [exact Hw2|].
    intros r. unfold re_double. rewrite E1, H, E2. reflexivity.
Qed.
Lemma tok_integer : safe_tok re_integer.
Proof.
  intros v Hv. destruct (all_sign v Hv) as (sg & w1 & Hw1 & E1). destruct (tok_digits w1 Hw1) as [H|(a & w & Hw & H)].
  - left. intros r. unfold re_integer. rewrite E1, H. reflexivity.
  - right. exists (sg ++ a), w. split; [exact Hw|]. intros r. unfold re_integer. rewrite E1, H. reflexivity.
Qed.
Lemma tok_word st ch : st "*"%char = false -> ch "*"%char = false -> safe_tok (re_word st ch).
Proof.
  intros H1 H2 v Hv. destruct Hv as [|c v Hc Hv].
  - left. intros r. cbn. rewrite H1. reflexivity.
  - destruct (st c) eqn:E.
    + destruct (span_upto ch H2 v Hv) as (a & w & Hw & H). right. exists (c :: a), w. split; [exact Hw|]. intros r. cbn. rewrite E, H. reflexivity.
    + left. intros r. cbn. rewrite E. reflexivity.
Qed.
Lemma tok_field : safe_tok re_field.
Proof.
  intros v Hv. destruct (span_upto field_char eq_refl v Hv) as (a & w & Hw & E). right. exists a, w. split; [exact Hw|].
  intros r. unfold re_field. rewrite E. reflexivity.
Qed.
Lemma tok_id : safe_tok re_aperture_id.
Proof.
  intros v Hv. destruct Hv as [|c v Hc Hv]; [left; reflexivity|]. destruct (Ascii.eqb c "D") eqn:E.
  - destruct (span_upto (Ascii.eqb "0") eq_refl v Hv) as (z & w & Hw & H). destruct Hw as [|d w Hd Hw].
    + left. intros r. cbn. rewrite E, H. reflexivity.
    + destruct (is_digit d) eqn:Ed.
      * destruct (tok_digits w Hw) as [I|(a & w' & Hw' & I)].
        -- left. intros r. cbn [re_aperture_id app]. rewrite E, H. cbn [app]. rewrite Ed, I. reflexivity.
        -- right. exists (c :: z ++ d :: a), w'. split; [exact Hw'|]. intros r. cbn [re_aperture_id app]. rewrite E, H. cbn [app]. rewrite Ed, I. reflexivity.
      * left. intros r. cbn [re_aperture_id app]. rewrite E, H. cbn [app]. rewrite Ed. reflexivity.
  - left. intros r. cbn. rewrite E. reflexivity.
Qed.
Lemma tok_variable : safe_tok re_variable.
Proof.
  intros v Hv. destruct Hv as [|c v Hc Hv]; [left; reflexivity|]. destruct (Ascii.eqb c "$") eqn:E.
  - destruct (tok_digits v Hv) as [H|(a & w & Hw & H)].
    + left. intros r. cbn. rewrite E, H. reflexivity.
    + right. exists (c :: a), w. split; [exact Hw|]. intros r. cbn. rewrite E, H. reflexivity.
  - left. intros r. cbn. rewrite E. reflexivity.
Qed.
Lemma tok_digit : safe_tok re_digit.
Proof.
  intros v Hv. destruct Hv as [|c v Hc Hv]; [left; reflexivity|]. destruct (is_digit c) eqn:E.
  - right. exists c, v. split; [exact Hv|]. intros r. cbn. rewrite E. reflexivity.
  - left. intros r. cbn. rewrite E. reflexivity.
Qed.
Lemma tok_code l c : Ascii.eqb "*" l = false -> nostar (lit c) = true -> safe_tok (re_code l c).
Proof.
  intros H1 H2 v Hv. destruct Hv as [|x v Hc Hv]; [left; intros r; cbn [re_code app]; rewrite H1; reflexivity|]. destruct (Ascii.eqb x l) eqn:E.
  - destruct (span_upto (Ascii.eqb "0") eq_refl v Hv) as (z & w & Hw & H). destruct (strip_upto _ H2 w Hw) as [I|(w' & Hw' & I)].
    + left. intros r. cbn [re_code app]. rewrite E, H. cbn [snd]. rewrite I. reflexivity.
    + right. exists tt, w'. split; [exact Hw'|]. intros r. cbn [re_code app]. rewrite E, H. cbn [snd]. rewrite I. reflexivity.
  - left. intros r. cbn. rewrite E. reflexivity.
Qed.
Lemma tok_code_zero l : Ascii.eqb "*" l = false -> safe_tok (re_code_zero l).
Proof.
  intros H1 v Hv. destruct Hv as [|x v Hc Hv]; [left; intros r; cbn [re_code_zero app]; rewrite H1; reflexivity|]. destruct (Ascii.eqb x l) eqn:E.
  - destruct (span_upto (Ascii.eqb "0") eq_refl v Hv) as (z & w & Hw & H). destruct z as [|y z].
    + left. intros r. cbn [re_code_zero app]. rewrite E, H. reflexivity.
    + right. exists tt, w. split; [exact Hw|]. intros r. cbn [re_code_zero app]. rewrite E, H. reflexivity.
  - left. intros r. cbn. rewrite E. reflexivity.
Qed.

Lemma safe_ret {A} (a : A) : safe (ret a).
Proof. intros v Hv. right. right. exists a, v. split; [exact Hv|reflexivity]. Qed.
Lemma safe_validate {A} (o : option A) : safe (validate o).
Proof. intros v Hv. destruct o as [a|]; right; [right; exists a, v; split; [exact Hv|reflexivity]|left; exists EValidation; reflexivity]. Qed.
Lemma safe_bind {A B} (p : parser A) (f : A -> parser B) : safe p -> (forall a, safe (f a)) -> safe (pbind p f).
Proof.
  intros Hp Hf v Hv. destruct (Hp v Hv) as [H|[(e & H)|(a & w & Hw & H)]].
  - left. intros r. unfold pbind. rewrite H. reflexivity.
  - right. left. exists e. intros r. unfold pbind. rewrite H. reflexivity.
  - destruct (Hf a w Hw) as [I|[(e & I)|(b & w' & Hw' & I)]]; [left|right; left; exists e|right; right; exists b, w'; split; [exact Hw'|]];
      intros r; unfold pbind; rewrite H; apply I.
Qed.
Lemma safe_then {A B} (p : parser A) (q : parser B) : safe p -> safe q -> safe (p ;; q).
Proof. intros Hp Hq. apply safe_bind; auto. Qed.
Lemma safe_first_of {A} (ps : list (parser A)) : Forall safe ps -> safe (first_of ps).
Proof.
  intros H v Hv. induction H as [|p ps Hp _ IH]; [left; reflexivity|]. destruct (Hp v Hv) as [H|[(e & H)|(a & w & Hw & H)]].
  - destruct IH as [I|[(e & I)|(b & w' & Hw' & I)]]; [left|right; left; exists e|right; right; exists b, w'; split; [exact Hw'|]];
      intros r; cbn; rewrite H; apply I.
  - right. left. exists e. intros r. cbn. rewrite H. reflexivity.
  - right. right. exists a, w. split; [exact Hw|]. intros r. cbn. rewrite H. reflexivity.
Qed.
Lemma safe_opt {A} (p : parser A) : safe p -> safe (opt p).
Proof.
  intros Hp v Hv. destruct (skip_upto v Hv) as (u & Hu & E). destruct (Hp u Hu) as [H|[(e & H)|(a & w & Hw & H)]].
  - right. right. exists None, u. split; [exact Hu|]. intros r. unfold opt. rewrite E, H. reflexivity.
  - right. left. exists e. intros r. unfold opt. rewrite E, H. reflexivity.
  - right. right. exists (Some a), w. split; [exact Hw|]. intros r. unfold opt. rewrite E, H. reflexivity.
Qed.
Lemma safe_opt_raw {A} (p : parser A) : safe p -> safe (opt_raw p).
Proof.
  intros Hp v Hv. destruct (Hp v Hv) as [H|[(e & H)|(a & w & Hw & H)]].
  - right. right. exists None, v. split; [exact Hv|]. intros r. unfold opt_raw. rewrite H. reflexivity.
  - right. left. exists e. intros r. unfold opt_raw. rewrite H. reflexivity.
  - right. right. exists (Some a), w. split; [exact Hw|]. intros r. unfold opt_raw. rewrite H. reflexivity.
Qed.
Lemma safe_followed_by {A} (p : parser A) : safe p -> safe (followed_by p).
Proof.
  intros Hp v Hv. destruct (Hp v Hv) as [H|[(e & H)|(a & w & Hw & H)]].
  - left. intros r. unfold followed_by. rewrite H. reflexivity.
  - right. left. exists e. intros r. unfold followed_by. rewrite H. reflexivity.
  - right. right. exists tt, v. split; [exact Hv|]. intros r. unfold followed_by. rewrite H. reflexivity.
Qed.
Lemma safe_many {A} (p : parser A) : safe p -> forall n, safe (many n p).
Proof.
  intros Hp n. induction n as [|n IH]; intros v Hv; [right; left; exists EFuel; reflexivity|]. destruct (Hp v Hv) as [H|[(e & H)|(a & w & Hw & H)]].
  - right. right. exists [], v. split; [exact Hv|]. intros r. cbn. rewrite H. reflexivity.
  - right. left. exists e. intros r. cbn. rewrite H. reflexivity.
  - destruct (IH w Hw) as [I|[(e & I)|(b & w' & Hw' & I)]]; [left|right; left; exists e|right; right; exists (a :: b), w'; split; [exact Hw'|]];
      intros r; cbn; rewrite H, I; reflexivity.
Qed.
Lemma safe_many1 {A} n (p : parser A) : safe p -> safe (many1 n p).
Proof. intros Hp. apply safe_bind; [exact Hp|]. intros a. apply safe_bind; [apply safe_many; exact Hp|]. intros l. apply safe_ret. Qed.

Ltac safe_go :=
  repeat match goal with
  | |- safe (ret _) => apply safe_ret
  | |- safe (lit_p _) => apply safe_lit; reflexivity
  | |- safe (caseless_p _) => apply safe_caseless; reflexivity
  | |- safe (one_of _) => apply safe_one_of; reflexivity
  | |- safe (chars_not_in _) => apply safe_chars; reflexivity
  | |- safe (token re_double) => apply safe_token, tok_double
  | |- safe (token re_integer) => apply safe_token, tok_integer
  | |- safe (token re_field) => apply safe_token, tok_field
  | |- safe (token re_aperture_id) => apply safe_token, tok_id
  | |- safe (token re_variable) => apply safe_token, tok_variable
  | |- safe (token re_digit) => apply safe_token, tok_digit
  | |- safe (token (re_code _ (g_text ?g))) => apply safe_token, tok_code; [reflexivity|destruct g; reflexivity]
  | |- safe (token (re_code _ _)) => apply safe_token, tok_code; reflexivity
  | |- safe (token (re_code_zero _)) => apply safe_token, tok_code_zero; reflexivity
  | |- safe (token re_name) => apply safe_token, tok_word; reflexivity
  | |- safe (token re_user_name) => apply safe_token, tok_word; reflexivity
  | |- safe (validate _) => apply safe_validate
  | |- safe (opt_raw _) => apply safe_opt_raw
  | |- safe (opt _) => apply safe_opt
  | |- safe (followed_by _) => apply safe_followed_by
  | |- safe (many _ _) => apply safe_many
  | |- safe (many1 _ _) => apply safe_many1
  | |- safe (first_of _) => apply safe_first_of
  | |- safe (pbind _ _) => apply safe_bind; [|intros]
  | |- safe (pthen _ _) => apply safe_then
  | |- Forall _ (_ :: _) => apply Forall_cons
  | |- Forall _ [] => apply Forall_nil
  | |- Forall _ (map _ _) => apply Forall_map, Forall_forall; intros
  | |- Forall _ (_ ++ _) => apply Forall_app; split
  | |- safe (match ?x with _ => _ end) => destruct x
  | |- safe (let '(_, _) := ?x in _) => destruct x
  end.

(** What follows a match decides nothing but whether a percent sign comes next. *)
Definition out {A} (o : pres A) (r : str) : pres A := match o with POk a _ => POk a r | x => x end.
Definition quick {A B} (f : A -> parser B) : Prop := forall a, exists o, forall s, f a s = out o s.
Lemma quick_ret {A B} (g : A -> B) : quick (fun a => ret (g a)).
Proof. intros a. exists (POk (g a) []). reflexivity. Qed.
Lemma stops_asterisk : stops asterisk.
Proof.
  intros v Hv. destruct (skip_upto v Hv) as (w & Hw & E). unfold asterisk, lit_p, token. destruct Hw as [|c w Hc Hw].
  - right. right. exists tt. intros r. rewrite E. reflexivity.
  - left. intros r. rewrite E. cbn [strip_prefix lit app list_ascii_of_string]. rewrite Ascii.eqb_sym, Hc. reflexivity.
Qed.
Lemma stops_bind {A B} (p : parser A) (f : A -> parser B) : safe p -> (forall a, stops (f a)) -> stops (pbind p f).
Proof.
  intros Hp Hf v Hv. destruct (Hp v Hv) as [H|[(e & H)|(a & w & Hw & H)]].
  - left. intros r. unfold pbind. rewrite H. reflexivity.
  - right. left. exists e. intros r. unfold pbind. rewrite H. reflexivity.
  - destruct (Hf a w Hw) as [I|[(e & I)|(b & I)]]; [left|right; left; exists e|right; right; exists b]; intros r; unfold pbind; rewrite H; apply I.
Qed.
Lemma stops_quick {A B} (p : parser A) (f : A -> parser B) : stops p -> quick f -> stops (pbind p f).
Proof.
  intros Hp Hf v Hv. destruct (Hp v Hv) as [H|[(e & H)|(a & H)]].
  - left. intros r. unfold pbind. rewrite H. reflexivity.
  - right. left. exists e. intros r. unfold pbind. rewrite H. reflexivity.
  - destruct (Hf a) as ([b q| |e] & I); [right; right; exists b|left|right; left; exists e]; intros r; unfold pbind; rewrite H; apply I.
Qed.
Lemma stops_first_of {A} (ps : list (parser A)) : Forall stops ps -> stops (first_of ps).
Proof.
  intros H v Hv. induction H as [|p ps Hp _ IH]; [left; reflexivity|]. destruct (Hp v Hv) as [H|[(e & H)|(a & H)]].
  - destruct IH as [I|[(e & I)|(b & I)]]; [left|right; left; exists e|right; right; exists b]; intros r; cbn; rewrite H; apply I.
  - right. left. exists e. intros r. cbn. rewrite H. reflexivity.
  - right. right. exists a. intros r. cbn. rewrite H. reflexivity.
Qed.
Lemma stops_command {A} (p : parser A) : safe p -> stops (command p).
Proof. intros Hp. apply stops_bind; [exact Hp|]. intros a. apply stops_quick; [apply stops_asterisk|]. intros []. exists (POk a []). reflexivity. Qed.

Definition stopsx {A} (p : parser A) : Prop := forall v, upto v -> exists o1 o2, (forall a q, o1 <> POk a q) /\
  forall r, p (v ++ r) = match percent r with POk _ r' => out o2 r' | _ => o1 end.
Lemma percent_cases r : (exists b r', ws b /\ r = b ++ "%"%char :: r' /\ percent r = POk tt r') \/ percent r = PFail.
Proof.
  unfold percent, lit_p, token. destruct (skip_tail r) as (w & Hw & E). destruct (skip r) as [|c t].
  - right. reflexivity.
  - cbn [strip_prefix lit list_ascii_of_string]. destruct (Ascii.eqb "%" c) eqn:Ec.
    + apply Ascii.eqb_eq in Ec as <-. left. exists w, t. auto.
    + right. reflexivity.
Qed.
Lemma percent_at b r : ws b -> percent (b ++ "%"%char :: r) = POk tt r.
Proof. intros Hb. unfold percent, lit_p, token. rewrite (skip_ws b _ Hb). reflexivity. Qed.
Lemma sx_bind {A B} (p : parser A) (f : A -> parser B) : safe p -> (forall a, stopsx (f a)) -> stopsx (pbind p f).
Proof.
  intros Hp Hf v Hv. destruct (Hp v Hv) as [H|[(e & H)|(a & w & Hw & H)]].
  - exists PFail, PFail. split; [discriminate|]. intros r. unfold pbind. rewrite H. destruct (percent r); reflexivity.
  - exists (PErr e), (PErr e). split; [discriminate|]. intros r. unfold pbind. rewrite H. destruct (percent r); reflexivity.
  - destruct (Hf a w Hw) as (o1 & o2 & H1 & H2). exists o1, o2. split; [exact H1|]. intros r. unfold pbind. rewrite H. apply H2.
Qed.
Lemma sx_quick {A B} (p : parser A) (f : A -> parser B) : stopsx p -> quick f -> stopsx (pbind p f).
Proof.
  intros Hp Hf v Hv. destruct (Hp v Hv) as (o1 & o2 & H1 & H2).
  assert (X : exists o1' : pres B, (forall a q, o1' <> POk a q) /\ match o1 with POk a r => f a r | PFail => PFail | PErr e => PErr e end = o1').
  { destruct o1 as [a q| |e]; [destruct (H1 a q eq_refl)|exists PFail|exists (PErr e)]; split; (discriminate || reflexivity). }
  destruct X as (o1' & N & X).
  assert (Y : exists o2', forall r, match out o2 r with POk a r => f a r | PFail => PFail | PErr e => PErr e end = out o2' r).
  { destruct o2 as [a q| |e]; [|exists PFail; reflexivity|exists (PErr e); reflexivity]. destruct (Hf a) as (o & Ho). exists o. intros r. apply Ho. }
  destruct Y as (o2' & Y). exists o1', o2'. split; [exact N|]. intros r. unfold pbind. rewrite H2. destruct (percent r); [apply Y|apply X|apply X].
Qed.
Lemma sx_first_of {A} (ps : list (parser A)) : Forall stopsx ps -> stopsx (first_of ps).
Proof.
  intros H v Hv. induction H as [|p ps Hp _ IH].
  - exists PFail, PFail. split; [discriminate|]. intros r. cbn. destruct (percent r); reflexivity.
  - destruct IH as (i1 & i2 & I1 & I2). destruct (Hp v Hv) as (o1 & o2 & H1 & H2).
    exists (match o1 with PFail => i1 | x => x end), (match o2 with PFail => i2 | x => x end). split.
    + intros a q. destruct o1; [exfalso; eapply H1; reflexivity|apply I1|discriminate].
    + intros r. cbn. rewrite H2, I2. destruct (percent r); [destruct o2; reflexivity|destruct o1; reflexivity|destruct o1; reflexivity].
Qed.
Lemma sx_close {A} (a : A) : stopsx (asterisk ;; percent ;; ret a).
Proof.
  intros v Hv. destruct (stops_asterisk v Hv) as [H|[(e & H)|([] & H)]].
  - exists PFail, PFail. split; [discriminate|]. intros r. unfold pthen, pbind. rewrite H. destruct (percent r); reflexivity.
  - exists (PErr e), (PErr e). split; [discriminate|]. intros r. unfold pthen, pbind. rewrite H. destruct (percent r); reflexivity.
  - exists PFail, (POk a []). split; [discriminate|]. intros r. unfold pthen, pbind. rewrite H.
    destruct (percent_cases r) as [(b & r' & _ & _ & ->)| ->]; reflexivity.
Qed.
Lemma sx_extended {A} (p : parser A) : safe p -> stopsx (extended p).
Proof. intros Hp. apply sx_bind; [apply safe_lit; reflexivity|]. intros _. apply sx_bind; [exact Hp|]. intros a. apply sx_close. Qed.

(** ** Parsers that read no further than the text they take *)
Definition local {A} (p : parser A) : Prop := forall s a r, p s = POk a r -> exists u, s = u ++ r /\ forall q, p (u ++ q) = POk a q.
Definition stars {A} (p : parser A) : Prop := forall s a r, p s = POk a r -> In "*"%char s.
Lemma stars_left {A B} (p : parser A) (f : A -> parser B) : stars p -> stars (pbind p f).
Proof. intros Hp s b r. unfold pbind. destruct (p s) eqn:E; try discriminate. intros _. exact (Hp _ _ _ E). Qed.
Lemma stars_right {A B} (p : parser A) (f : A -> parser B) : tails p -> (forall a, stars (f a)) -> stars (pbind p f).
Proof.
  intros Hp Hf s b r. unfold pbind. destruct (p s) eqn:E; try discriminate. intros H. destruct (Hp _ _ _ E) as (c & ->).
  apply in_or_app. right. exact (Hf _ _ _ _ H).
Qed.
Lemma stars_first_of {A} (ps : list (parser A)) : Forall stars ps -> stars (first_of ps).
Proof.
  intros H s a r. induction H as [|p ps Hp _ IH]; [discriminate|]. cbn. destruct (p s) as [b q| |e] eqn:E; try discriminate; [|exact IH].
  intros _. exact (Hp _ _ _ E).
Qed.
Lemma stars_asterisk : stars asterisk.
Proof.
  intros s a r. unfold asterisk, lit_p, token. destruct (skip_tail s) as (w & _ & E). destruct (strip_prefix _ (skip s)) as [t|] eqn:Es; [|discriminate].
  intros _. rewrite E. apply in_or_app. right. apply strip_prefix_some in Es. rewrite Es. left. reflexivity.
Qed.
Lemma stars_command {A} (p : parser A) : tails p -> stars (command p).
Proof. intros Hp. apply stars_right; [exact Hp|]. intros a. apply stars_left, stars_asterisk. Qed.
Lemma stars_extended {A} (p : parser A) : tails p -> stars (extended p).
Proof. intros Hp. apply stars_right; [apply tails_lit|]. intros _. apply stars_right; [exact Hp|]. intros a. apply stars_left, stars_asterisk. Qed.
Lemma local_stops {A} (p : parser A) : stops p -> stars p -> local p.
Proof.
  intros H1 H2 s a r E. destruct (upto_split s (H2 _ _ _ E)) as (v & q & Hv & ->). destruct (H1 v Hv) as [H|[(e & H)|(b & H)]];
    rewrite H in E; try discriminate. injection E as -> ->. exists v. auto.
Qed.
Lemma local_stopsx {A} (p : parser A) : stopsx p -> stars p -> local p.
Proof.
  intros H1 H2 s a r E. destruct (upto_split s (H2 _ _ _ E)) as (v & q & Hv & ->). destruct (H1 v Hv) as (o1 & o2 & N & H).
  rewrite H in E. destruct (percent_cases q) as [(b & r' & Hb & Eq & Ep)|Ep]; rewrite Ep in E; [|destruct (N _ _ E)].
  destruct o2 as [a' q'| |e]; try discriminate. injection E as -> ->. exists (v ++ b ++ ["%"%char]). split.
  - rewrite Eq, <- !app_assoc. reflexivity.
  - intros q0. rewrite <- !app_assoc, H. cbn [app]. rewrite (percent_at b q0 Hb). reflexivity.
Qed.
Lemma local_bind {A B} (p : parser A) (f : A -> parser B) : local p -> (forall a, local (f a)) -> local (pbind p f).
Proof.
  intros Hp Hf s b r. unfold pbind. destruct (p s) as [a q| |e] eqn:E; try discriminate. intros E'.
  destruct (Hp _ _ _ E) as (u & -> & H1). destruct (Hf a _ _ _ E') as (w & -> & H2). exists (u ++ w). split; [apply app_assoc|].
  intros q0. rewrite <- app_assoc, H1. apply H2.
Qed.
Lemma local_ret {A} (a : A) : local (ret a).
Proof. intros s b r E. injection E as <- <-. exists []. split; reflexivity. Qed.
Lemma local_percent : local percent.
Proof.
  intros s a r E. destruct (percent_cases s) as [(b & r' & Hb & -> & Ep)|Ep]; rewrite Ep in E; [|discriminate]. injection E as <- <-.
  exists (b ++ ["%"%char]). split; [rewrite <- app_assoc; reflexivity|]. intros q. rewrite <- app_assoc. apply percent_at, Hb.
Qed.
(** A repetition closed by something its element does not match. *)
Lemma local_close {A B C} (p : parser A) (q : parser B) (f : list A -> C) n :
  local p -> local q -> (forall s b r, q s = POk b r -> p s = PFail) -> local (do l <- many n p; q ;; ret (f l)).
Proof.
  intros Hp Hq Hx s c r0. unfold pthen, pbind. destruct (many n p s) as [l s1| |e] eqn:Em; try discriminate.
  destruct (q s1) as [b r| |e] eqn:Eq; try discriminate. intros X. injection X as <- <-.
  enough (H : exists u, s = u ++ r /\ forall t, exists s2, many n p (u ++ t) = POk l s2 /\ q s2 = POk b t).
  { destruct H as (u & H1 & H2). exists u. split; [exact H1|]. intros t. destruct (H2 t) as (s2 & -> & ->). reflexivity. }
  revert s l s1 Em Eq. induction n as [|n IH]; intros s l s1 Em Eq; [discriminate|]. cbn [many] in Em. destruct (p s) as [a s'| |e] eqn:Ep; try discriminate.
  - destruct (many n p s') as [l' s2| |e] eqn:Em'; try discriminate. injection Em as <- <-. destruct (IH _ _ _ Em' Eq) as (u & -> & H).
    destruct (Hp _ _ _ Ep) as (w & -> & Hw). exists (w ++ u). split; [apply app_assoc|]. intros t. destruct (H t) as (s3 & H3 & H4).
    exists s3. split; [|exact H4]. cbn [many]. rewrite <- app_assoc, Hw, H3. reflexivity.
  - injection Em as <- <-. destruct (Hq _ _ _ Eq) as (u & -> & H). exists u. split; [reflexivity|]. intros t. exists (u ++ t).
    split; [|apply H]. cbn [many]. rewrite (Hx _ _ _ (H t)). reflexivity.
Qed.

(** ** What a command starts with *)
Inductive key := KN | KC (c : ascii) | KX (a b : ascii).
Definition keyof (s : str) : key :=
  match skip s with
  | [] => KN
  | c :: t => if Ascii.eqb c "%" then match skip t with a :: b :: _ => KX a b | _ => KN end else KC c
  end.
Definition keyed {A} (L : key -> bool) (p : parser A) : Prop :=
  (forall s, p s = PErr EFuel) \/ forall s, p s <> PFail -> L (keyof s) = true.
Lemma local_first_of {A} (ps : list ((key -> bool) * parser A)) :
  Forall (fun x => local (snd x) /\ keyed (fst x) (snd x)) ps ->
  ForallOrdPairs (fun x y => forall k, fst x k = true -> fst y k = true -> False) ps -> local (first_of (map snd ps)).
Proof.
  intros H HO.
  enough (X : local (first_of (map snd ps)) /\ forall s a r, first_of (map snd ps) s = POk a r -> exists x, In x ps /\ fst x (keyof s) = true) by apply X.
  induction HO as [|[L p] ps HF HO IH]; [split; discriminate|]. inversion H as [|? ? [H1 H2] H3]; subst. cbn [fst snd] in H1, H2. destruct (IH H3) as [I1 I2]. clear IH.
  cbn [map snd first_of]. split.
  - intros s a r. destruct (p s) as [b q| |e] eqn:E; try discriminate.
    + intros X. injection X as -> ->. destruct (H1 _ _ _ E) as (u & -> & Hu). exists u. split; [reflexivity|]. intros t. rewrite Hu. reflexivity.
    + intros X. destruct (I1 _ _ _ X) as (u & -> & Hu). exists u. split; [reflexivity|]. intros t.
      destruct (p (u ++ t)) as [b q| |e] eqn:Et; [exfalso|apply Hu|exfalso]; (destruct H2 as [H2|H2]; [rewrite H2 in E; discriminate|]);
        (destruct (I2 _ _ _ (Hu t)) as (x & Hx & Kx); rewrite Forall_forall in HF; apply (HF x Hx (keyof (u ++ t))); [apply H2; rewrite Et; discriminate|exact Kx]).
  - intros s a r. destruct (p s) as [b q| |e] eqn:E; try discriminate.
    + intros _. exists (L, p). split; [left; reflexivity|]. destruct H2 as [H2|H2]; [rewrite H2 in E; discriminate|]. apply H2. rewrite E. discriminate.
    + intros X. destruct (I2 _ _ _ X) as (x & Hx & Kx). exists x. split; [right; exact Hx|exact Kx].
Qed.

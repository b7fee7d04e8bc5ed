(** Facts about tokens and combinators of [PegModel]: what a token reads from a text that starts
    with it, and what every parser guarantees about its result ([yields]). *)
From Verif Require Import Base PegModel.

(** ** Texts *)
Definition all (f : ascii -> bool) (s : str) : Prop := forallb f s = true.
Definition ws (s : str) : Prop := all is_ws s.
Definition notab (s : str) : Prop := all (fun c => negb (Ascii.eqb c "009")) s.
Definition head_is (f : ascii -> bool) (s : str) : bool :=
  match s with c :: _ => f c | [] => false end.

Lemma all_app f a b : all f (a ++ b) <-> all f a /\ all f b.
Proof. unfold all. rewrite forallb_app. apply andb_true_iff. Qed.
Lemma all_cons f c s : all f (c :: s) <-> f c = true /\ all f s.
Proof. unfold all. cbn. apply andb_true_iff. Qed.
Lemma all_nil f : all f [].
Proof. reflexivity. Qed.
Lemma all_imp (f g : ascii -> bool) s :
  (forall c, f c = true -> g c = true) -> all f s -> all g s.
Proof.
  intros H; induction s as [|c s IH]; [reflexivity|]. rewrite !all_cons. intuition.
Qed.
Lemma all_repeat f c n : f c = true -> all f (repeat c n).
Proof. intros H; induction n; [reflexivity|]. apply all_cons; auto. Qed.

Lemma skip_ws w s : ws w -> skip (w ++ s) = skip s.
Proof.
  induction w as [|c w IH]; [reflexivity|]. intros H. apply all_cons in H as [H1 H2].
  cbn. rewrite H1. auto.
Qed.
Lemma skip_id s : head_is is_ws s = false -> skip s = s.
Proof. destruct s as [|c s]; [reflexivity|]. cbn. intros ->; reflexivity. Qed.
Lemma skip_head s : head_is is_ws (skip s) = false.
Proof.
  induction s as [|c s IH]; [reflexivity|]. cbn. destruct (is_ws c) eqn:E; [auto|]. cbn. auto.
Qed.
Lemma skip_skip s : skip (skip s) = skip s.
Proof. apply skip_id, skip_head. Qed.
Lemma skip_length s : length (skip s) <= length s.
Proof. induction s as [|c s IH]; [apply le_n|]. cbn. destruct (is_ws c); cbn in *; lia. Qed.
Lemma skip_all f s : all f s -> all f (skip s).
Proof.
  induction s as [|c s IH]; [auto|]. intros H. cbn. destruct (is_ws c); [|exact H].
  apply all_cons in H as [_ H]. auto.
Qed.

Lemma span_app f a s : all f a -> head_is f s = false -> span f (a ++ s) = (a, s).
Proof.
  intros Ha Hs. induction a as [|c a IH]; cbn.
  - destruct s as [|c s]; [reflexivity|]. cbn in Hs. cbn. rewrite Hs. reflexivity.
  - apply all_cons in Ha as [H1 H2]. rewrite H1, (IH H2). reflexivity.
Qed.
Lemma span_none f s : head_is f s = false -> span f s = ([], s).
Proof. intros H. apply (span_app f [] s); [reflexivity|exact H]. Qed.
Lemma span_spec f s : all f (fst (span f s)) /\ s = fst (span f s) ++ snd (span f s) /\
  head_is f (snd (span f s)) = false.
Proof.
  induction s as [|c s IH]; [cbn; auto using all_nil|]. cbn. destruct (f c) eqn:E.
  - destruct (span f s) as [a b]. cbn in *. destruct IH as (H1 & H2 & H3).
    split; [apply all_cons; auto|]. split; [congruence|exact H3].
  - cbn. auto using all_nil.
Qed.

Lemma strip_prefix_app p s : strip_prefix p (p ++ s) = Some s.
Proof. induction p as [|c p IH]; cbn; [destruct s; reflexivity|]. rewrite Ascii.eqb_refl. auto. Qed.
Lemma strip_prefix_some p s r : strip_prefix p s = Some r -> s = p ++ r.
Proof.
  revert s; induction p as [|c p IH]; intros [|d s]; cbn; try congruence.
  destruct (Ascii.eqb c d) eqn:E; [|discriminate]. apply Ascii.eqb_eq in E as ->.
  intros H. f_equal. auto.
Qed.
Lemma strip_upper_some p s r : strip_upper p s = Some r -> exists p', s = p' ++ r /\ length p' = length p.
Proof.
  revert s; induction p as [|c p IH]; intros [|d s]; cbn; try congruence.
  - intros H; injection H as <-. exists []; auto.
  - intros H; injection H as <-. exists []; auto.
  - destruct (Ascii.eqb _ _); [|discriminate]. intros H. destruct (IH _ H) as (p' & -> & Hl).
    exists (d :: p'). cbn. auto.
Qed.
Lemma first_prefix_some ls s a r :
  first_prefix ls s = Some (a, r) -> In a ls /\ s = a ++ r.
Proof.
  induction ls as [|l ls IH]; cbn; [discriminate|].
  destruct (strip_prefix l s) eqn:E; [|intros H; destruct (IH H); auto].
  intros H; injection H as <- <-. apply strip_prefix_some in E. auto.
Qed.

(** ** Numbers: shape of the texts matched by the regular expressions *)
Definition digits1 (s : str) : Prop := s <> [] /\ all is_digit s.
Definition unsigned (s : str) : Prop :=
  exists d f, s = d ++ f /\
    ((digits1 d /\ (f = [] \/ exists g, f = "."%char :: g /\ digits1 g)) \/
     (d = [] /\ exists g, f = "."%char :: g /\ digits1 g)).
Definition sign (s : str) : Prop := s = [] \/ s = ["+"%char] \/ s = ["-"%char].
Definition double_text (s : str) : Prop := exists sg u, s = sg ++ u /\ sign sg /\ unsigned u.
Definition integer_text (s : str) : Prop := exists sg d, s = sg ++ d /\ sign sg /\ digits1 d.

(** What may follow a number without being taken for a part of it. *)
Definition num_end (s : str) : Prop :=
  head_is (fun c => is_digit c || Ascii.eqb c ".") s = false.

Lemma num_end_digit s : num_end s -> head_is is_digit s = false.
Proof. destruct s; [reflexivity|]. unfold num_end; cbn. intros H. apply orb_false_iff in H. tauto. Qed.
Lemma num_end_dot s : num_end s -> head_is (fun c => Ascii.eqb c ".") s = false.
Proof. destruct s; [reflexivity|]. unfold num_end; cbn. intros H. apply orb_false_iff in H. tauto. Qed.

(** Facts about single characters, by trying all 256. *)
Ltac by_char c := destruct c as [[] [] [] [] [] [] [] []]; cbn; intros; try reflexivity; try discriminate.
Lemma digit_not_ws c : is_digit c = true -> is_ws c = false.
Proof. by_char c. Qed.
Lemma digit_not_sign c : is_digit c = true -> is_sign c = false.
Proof.
  unfold is_digit, is_sign. intros H.
  destruct (Ascii.eqb c "+") eqn:E; [apply Ascii.eqb_eq in E as ->; discriminate|].
  destruct (Ascii.eqb c "-") eqn:E2; [apply Ascii.eqb_eq in E2 as ->; discriminate|reflexivity].
Qed.
Lemma re_digits_app d s : digits1 d -> head_is is_digit s = false -> re_digits (d ++ s) = Some (d, s).
Proof.
  intros [H1 H2] Hs. unfold re_digits. rewrite (span_app _ _ _ H2 Hs). cbn.
  destruct d; [congruence|reflexivity].
Qed.
Lemma re_digits_none s : head_is is_digit s = false -> re_digits s = None.
Proof. intros H. unfold re_digits. rewrite (span_none _ _ H). reflexivity. Qed.
Lemma opt_fraction_some g s : digits1 g -> head_is is_digit s = false ->
  opt_fraction ("."%char :: g ++ s) = ("."%char :: g, s).
Proof. intros Hg Hs. cbn. rewrite (re_digits_app _ _ Hg Hs). reflexivity. Qed.
Lemma opt_fraction_none s : head_is (fun c => Ascii.eqb c ".") s = false -> opt_fraction s = ([], s).
Proof. destruct s as [|c s]; [reflexivity|]. cbn. intros ->. reflexivity. Qed.

Definition unsigned_re (s : str) : option (str * str) :=
  match re_digits s with
  | Some (d, s2) => let '(f, s3) := opt_fraction s2 in Some (d ++ f, s3)
  | None => nonempty (opt_fraction s)
  end.
Lemma re_double_sign sg u : sign sg -> (head_is is_sign u = false) ->
  re_double (sg ++ u) =
    match unsigned_re u with Some (t, r) => Some (sg ++ t, r) | None => None end.
Proof.
  intros Hs Hu. unfold re_double, unsigned_re.
  assert (E : opt_sign (sg ++ u) = (sg, u)).
  { destruct Hs as [->|[->| ->]]; [|reflexivity|reflexivity].
    destruct u as [|c u]; [reflexivity|]. cbn in Hu. cbn. rewrite Hu. reflexivity. }
  rewrite E. destruct (re_digits u) as [[d s2]|].
  - destruct (opt_fraction s2); reflexivity.
  - destruct (opt_fraction u) as [[|c f] s3]; reflexivity.
Qed.
Lemma unsigned_head u s : unsigned u -> head_is is_sign (u ++ s) = false /\ head_is is_ws (u ++ s) = false.
Proof.
  intros (d & f & -> & H).
  assert (Hd : forall g t, digits1 g -> head_is is_sign (g ++ t) = false /\ head_is is_ws (g ++ t) = false).
  { intros [|c g] t [Hn Ha]; [congruence|]. apply all_cons in Ha as [Ha _]. cbn.
    split; [apply digit_not_sign|apply digit_not_ws]; exact Ha. }
  destruct H as [[Hd1 _]|[-> (g & -> & _)]].
  - rewrite <- app_assoc. apply Hd; exact Hd1.
  - split; reflexivity.
Qed.
Lemma unsigned_re_app u s : unsigned u -> num_end s -> unsigned_re (u ++ s) = Some (u, s).
Proof.
  intros (d & f & -> & H) Hs. unfold unsigned_re. rewrite <- app_assoc.
  pose proof (num_end_digit _ Hs) as Hd. pose proof (num_end_dot _ Hs) as Hp.
  destruct H as [[Hd1 Hf]|[-> (g & -> & Hg)]].
  - destruct Hf as [->|(g & -> & Hg)].
    + cbn [app]. rewrite (re_digits_app d s Hd1 Hd), (opt_fraction_none _ Hp), app_nil_r. reflexivity.
    + rewrite (re_digits_app d (("."%char :: g) ++ s) Hd1 eq_refl).
      change (("."%char :: g) ++ s) with ("."%char :: g ++ s).
      rewrite (opt_fraction_some g s Hg Hd). reflexivity.
  - change ([] ++ ("."%char :: g) ++ s) with ("."%char :: g ++ s).
    rewrite re_digits_none by reflexivity. rewrite (opt_fraction_some g s Hg Hd). reflexivity.
Qed.
Lemma re_double_app t s : double_text t -> num_end s -> re_double (t ++ s) = Some (t, s).
Proof.
  intros (sg & u & -> & Hsg & Hu) Hs. rewrite <- app_assoc.
  rewrite (re_double_sign _ _ Hsg (proj1 (unsigned_head u s Hu))), (unsigned_re_app _ _ Hu Hs).
  reflexivity.
Qed.
Lemma sign_cases c : is_sign c = true -> sign [c].
Proof.
  unfold is_sign. intros H. apply orb_true_iff in H as [H|H]; apply Ascii.eqb_eq in H as ->;
    [right; left|right; right]; reflexivity.
Qed.
Lemma re_digits_some s d r : re_digits s = Some (d, r) -> digits1 d /\ s = d ++ r /\ head_is is_digit r = false.
Proof.
  unfold re_digits. pose proof (span_spec is_digit s) as (H1 & H2 & H3).
  destruct (span is_digit s) as [a b]. cbn in *. destruct a; [discriminate|].
  intros H; injection H as <- <-. split; [split; [discriminate|exact H1]|auto].
Qed.
Lemma opt_fraction_spec s : let '(f, r) := opt_fraction s in
  s = f ++ r /\ (f = [] \/ exists g, f = "."%char :: g /\ digits1 g).
Proof.
  destruct s as [|c s]; [cbn; auto|]. cbn. destruct (Ascii.eqb c ".") eqn:E; [|cbn; auto].
  apply Ascii.eqb_eq in E as ->. destruct (re_digits s) as [[d r]|] eqn:Ed; [|cbn; auto].
  apply re_digits_some in Ed as (Hd & -> & _). cbn. split; [reflexivity|]. right. eauto.
Qed.
Lemma opt_sign_spec s : let '(sg, r) := opt_sign s in s = sg ++ r /\ sign sg.
Proof.
  destruct s as [|c s]; cbn; [split; [reflexivity|left; reflexivity]|].
  destruct (is_sign c) eqn:E; cbn; (split; [reflexivity|]); [apply sign_cases; exact E|left; reflexivity].
Qed.
Lemma re_double_some s t r : re_double s = Some (t, r) -> double_text t /\ s = t ++ r.
Proof.
  unfold re_double. pose proof (opt_sign_spec s) as Hs. destruct (opt_sign s) as [sg s1].
  destruct Hs as [-> Hsg]. destruct (re_digits s1) as [[d s2]|] eqn:Ed.
  - apply re_digits_some in Ed as (Hd & -> & _). pose proof (opt_fraction_spec s2) as Hf.
    destruct (opt_fraction s2) as [f s3]. destruct Hf as [-> Hf]. intros H; injection H as <- <-.
    split; [|rewrite <- !app_assoc; reflexivity]. exists sg, (d ++ f). repeat split; auto.
    exists d, f. auto.
  - pose proof (opt_fraction_spec s1) as Hf. destruct (opt_fraction s1) as [f s3].
    destruct Hf as [-> Hf]. destruct f as [|c f]; [discriminate|]. cbn [nonempty].
    intros H; injection H as <- <-. split; [|rewrite <- !app_assoc; reflexivity].
    exists sg, (c :: f). repeat split; auto. exists [], (c :: f). split; [reflexivity|].
    right. destruct Hf as [Hf|Hf]; [discriminate|auto].
Qed.
Lemma re_integer_some s t r : re_integer s = Some (t, r) -> integer_text t /\ s = t ++ r.
Proof.
  unfold re_integer. pose proof (opt_sign_spec s) as Hs. destruct (opt_sign s) as [sg s1].
  destruct Hs as [-> Hsg]. destruct (re_digits s1) as [[d s2]|] eqn:Ed; [|discriminate].
  apply re_digits_some in Ed as (Hd & -> & _). intros H; injection H as <- <-.
  split; [exists sg, d; auto|rewrite <- app_assoc; reflexivity].
Qed.
Lemma digits_head d s : digits1 d -> head_is is_sign (d ++ s) = false /\ head_is is_ws (d ++ s) = false.
Proof.
  intros Hd. apply (unsigned_head d s). exists d, []. rewrite app_nil_r. auto.
Qed.
Lemma re_integer_app t s : integer_text t -> head_is is_digit s = false -> re_integer (t ++ s) = Some (t, s).
Proof.
  intros (sg & d & -> & Hsg & Hd) Hs. unfold re_integer. rewrite <- app_assoc.
  assert (E : opt_sign (sg ++ d ++ s) = (sg, d ++ s)).
  { destruct Hsg as [->|[->| ->]]; [|reflexivity|reflexivity].
    pose proof (proj1 (digits_head d s Hd)) as H. cbn [app].
    destruct (d ++ s) as [|c u]; [reflexivity|]. cbn in H. cbn. rewrite H. reflexivity. }
  rewrite E, (re_digits_app d s Hd Hs). reflexivity.
Qed.
Lemma double_head t s : double_text t -> head_is is_ws (t ++ s) = false.
Proof.
  intros (sg & u & -> & Hsg & Hu). rewrite <- app_assoc.
  destruct Hsg as [->|[->| ->]]; [|reflexivity|reflexivity]. apply (unsigned_head u s Hu).
Qed.
Lemma integer_head t s : integer_text t -> head_is is_ws (t ++ s) = false.
Proof.
  intros (sg & u & -> & Hsg & Hu). rewrite <- app_assoc.
  destruct Hsg as [->|[->| ->]]; [|reflexivity|reflexivity]. apply (digits_head u s Hu).
Qed.

(** ** Guarantees of a parser: what it yields, that it never lengthens the text (and shortens it
    when [strict]), that it keeps the text free of tabs, and that it does not run out of fuel as
    long as the text is shorter than [n]. *)
Definition yields {A} (n : nat) (strict : bool) (p : parser A) (Q : A -> Prop) : Prop :=
  forall s, length s < n -> notab s ->
    match p s with
    | POk a r => Q a /\ notab r /\
        (if strict then length r < length s else length r <= length s)
    | PFail => True
    | PErr e => e = EValidation
    end.

Lemma yields_weaken {A} n n' b b' (p : parser A) (Q Q' : A -> Prop) :
  yields n b p Q -> n' <= n -> (b' = true -> b = true) -> (forall a, Q a -> Q' a) -> yields n' b' p Q'.
Proof.
  intros H Hn Hb HQ s Hs Ht. specialize (H s ltac:(lia) Ht).
  destruct (p s) as [a r| |e]; [|exact I|exact H]. destruct H as (H1 & H2 & H3).
  split; [auto|]. split; [exact H2|]. destruct b'; [rewrite (Hb eq_refl) in H3; exact H3|].
  destruct b; lia.
Qed.
Lemma yields_ret {A} n (a : A) (Q : A -> Prop) : Q a -> yields n false (ret a) Q.
Proof. intros H s _ Ht. cbn. auto. Qed.
Lemma yields_bind {A B} n b1 b2 (p : parser A) (f : A -> parser B) Q1 Q2 :
  yields n b1 p Q1 -> (forall a, Q1 a -> yields n b2 (f a) Q2) -> yields n (b1 || b2) (pbind p f) Q2.
Proof.
  intros Hp Hf s Hs Ht. unfold pbind. specialize (Hp s Hs Ht).
  destruct (p s) as [a r| |e]; [|exact I|exact Hp]. destruct Hp as (H1 & H2 & H3).
  assert (Hl : length r <= length s) by (destruct b1; lia).
  specialize (Hf a H1 r ltac:(lia) H2). destruct (f a r) as [b r'| |e]; [|exact I|exact Hf].
  destruct Hf as (H4 & H5 & H6). split; [exact H4|]. split; [exact H5|].
  destruct b1, b2; cbn; lia.
Qed.
(** After a strict step one unit of fuel less is enough. *)
Lemma yields_bind_less {A B} n b2 (p : parser A) (f : A -> parser B) Q1 Q2 :
  yields (S n) true p Q1 -> (forall a, Q1 a -> yields n b2 (f a) Q2) ->
  yields (S n) true (pbind p f) Q2.
Proof.
  intros Hp Hf s Hs Ht. unfold pbind. specialize (Hp s Hs Ht).
  destruct (p s) as [a r| |e]; [|exact I|exact Hp]. destruct Hp as (H1 & H2 & H3).
  specialize (Hf a H1 r ltac:(lia) H2). destruct (f a r) as [b r'| |e]; [|exact I|exact Hf].
  destruct Hf as (H4 & H5 & H6). split; [exact H4|]. split; [exact H5|].
  destruct b2; lia.
Qed.
Lemma yields_then {A B} n b1 b2 (p : parser A) (q : parser B) Q1 Q2 :
  yields n b1 p Q1 -> yields n b2 q Q2 -> yields n (b1 || b2) (p ;; q) Q2.
Proof. intros Hp Hq. unfold pthen. eapply yields_bind; [exact Hp|auto]. Qed.
Lemma yields_validate {A} n (o : option A) (Q : A -> Prop) :
  (forall a, o = Some a -> Q a) -> yields n false (validate o) Q.
Proof. intros H s _ Ht. unfold validate. destruct o; [|reflexivity]. auto. Qed.
Lemma yields_first_of {A} n b (ps : list (parser A)) Q :
  Forall (fun p => yields n b p Q) ps -> yields n b (first_of ps) Q.
Proof.
  intros H s Hs Ht. induction H as [|p ps Hp _ IH]; [exact I|]. cbn. specialize (Hp s Hs Ht).
  destruct (p s); [exact Hp|exact IH|exact Hp].
Qed.
Lemma yields_opt {A} n b (p : parser A) Q :
  yields n b p Q -> yields n false (opt p) (fun o => match o with Some a => Q a | None => True end).
Proof.
  intros Hp s Hs Ht. unfold opt. pose proof (skip_length s) as Hl. pose proof (skip_all _ s Ht) as Ht'.
  specialize (Hp (skip s) ltac:(lia) Ht'). destruct (p (skip s)) as [a r| |e]; [| |exact Hp].
  - destruct Hp as (H1 & H2 & H3). repeat split; auto. destruct b; lia.
  - auto.
Qed.
Lemma yields_opt_raw {A} n b (p : parser A) Q :
  yields n b p Q -> yields n false (opt_raw p) (fun o => match o with Some a => Q a | None => True end).
Proof.
  intros Hp s Hs Ht. unfold opt_raw. specialize (Hp s Hs Ht).
  destruct (p s) as [a r| |e]; [| |exact Hp].
  - destruct Hp as (H1 & H2 & H3). repeat split; auto. destruct b; lia.
  - auto.
Qed.
Lemma yields_followed_by {A} n b (p : parser A) Q :
  yields n b p Q -> yields n false (followed_by p) (fun _ => True).
Proof.
  intros Hp s Hs Ht. unfold followed_by. specialize (Hp s Hs Ht).
  destruct (p s) as [a r| |e]; auto.
Qed.
Lemma yields_many_gen {A} n (p : parser A) Q :
  yields n true p Q -> forall m, forall s, length s < n -> length s < m -> notab s ->
    match many m p s with
    | POk l r => Forall Q l /\ notab r /\ length r <= length s
    | PFail => False
    | PErr e => e = EValidation
    end.
Proof.
  intros Hp m; induction m as [|m IH]; intros s Hs Hm Ht; [lia|]. cbn.
  specialize (Hp s Hs Ht). destruct (p s) as [a r| |e]; [|auto|exact Hp].
  destruct Hp as (H1 & H2 & H3). specialize (IH r ltac:(lia) ltac:(lia) H2).
  destruct (many m p r) as [l r'| |e]; [|exact IH|exact IH].
  destruct IH as (H4 & H5 & H6). repeat split; auto. lia.
Qed.
Lemma yields_many {A} n (p : parser A) Q :
  yields n true p Q -> yields n false (many n p) (Forall Q).
Proof.
  intros Hp s Hs Ht. pose proof (yields_many_gen n p Q Hp n s Hs Hs Ht) as H.
  destruct (many n p s); [exact H|exact I|exact H].
Qed.
Lemma yields_many1 {A} n (p : parser A) Q :
  yields n true p Q -> yields n true (many1 n p) (fun l => l <> [] /\ Forall Q l).
Proof.
  intros Hp. unfold many1. eapply (yields_bind n true false); [exact Hp|]. intros a Ha.
  eapply (yields_bind n false false); [apply yields_many; exact Hp|]. intros l Hl.
  apply yields_ret. split; [discriminate|auto].
Qed.
(** Tokens. *)
Lemma yields_token {A} n b (f : str -> option (A * str)) (Q : A -> Prop) :
  (forall s a r, notab s -> head_is is_ws s = false -> f s = Some (a, r) ->
     Q a /\ exists p, s = p ++ r /\ (b = true -> p <> [])) ->
  yields n b (token f) Q.
Proof.
  intros H s Hs Ht. unfold token. pose proof (skip_length s) as Hl.
  pose proof (skip_all _ s Ht) as Ht'. specialize (H (skip s)).
  destruct (f (skip s)) as [[a r]|]; [|exact I].
  destruct (H a r Ht' (skip_head s) eq_refl) as (H1 & p & Hp & Hb).
  rewrite Hp in Ht'. apply all_app in Ht' as [_ Ht']. apply (f_equal (@length ascii)) in Hp.
  rewrite app_length in Hp. repeat split; auto. destruct b; [|lia].
  specialize (Hb eq_refl). destruct p; [congruence|]. cbn in Hp. lia.
Qed.
Lemma yields_lit n c l : yields n true (lit_p (String c l)) (fun _ => True).
Proof.
  apply yields_token. intros s a r _ _ H. split; [exact I|].
  destruct (strip_prefix (lit (String c l)) s) eqn:E; [|discriminate]. injection H as <- <-.
  apply strip_prefix_some in E. eexists. split; [exact E|]. intros _; discriminate.
Qed.
Lemma yields_caseless n c l : yields n true (caseless_p (String c l)) (fun _ => True).
Proof.
  apply yields_token. intros s a r _ _ H. split; [exact I|].
  destruct (strip_upper (lit (String c l)) s) eqn:E; [|discriminate]. injection H as <- <-.
  apply strip_upper_some in E as (p & E & Hl). exists p. split; [exact E|]. intros _ ->. discriminate.
Qed.
Lemma yields_one_of n (ls : list string) :
  ~ In EmptyString ls -> yields n true (one_of ls) (fun a => In a (map lit ls)).
Proof.
  intros Hn. apply yields_token. intros s a r _ _ H. apply first_prefix_some in H as [H1 H2].
  split; [exact H1|]. exists a. split; [exact H2|]. intros _ ->. apply in_map_iff in H1 as (x & Hx & Hi).
  destruct x; [contradiction|discriminate].
Qed.

(** ** Repetitions over a written list *)
Lemma many_ok {A} (p : parser A) (txt : A -> str) (G : str -> Prop) rest :
  G rest -> p rest = PFail ->
  forall t, (forall x s, In x t -> G s -> p (txt x ++ s) = POk x s /\ G (txt x ++ s)) ->
  forall k, length t < k ->
  many k p (concat (map txt t) ++ rest) = POk t rest /\ G (concat (map txt t) ++ rest).
Proof.
  intros HG Hf. induction t as [|x t IH]; intros H k Hk.
  - destruct k; [lia|]. cbn. rewrite Hf. auto.
  - destruct k as [|k]; [cbn in Hk; lia|]. cbn [map concat]. rewrite <- app_assoc.
    destruct (IH (fun y s Hy => H y s (or_intror Hy)) k) as [H1 H2]; [cbn in Hk; lia|].
    destruct (H x (concat (map txt t) ++ rest) (or_introl eq_refl) H2) as [H3 H4].
    cbn [many]. rewrite H3, H1. auto.
Qed.

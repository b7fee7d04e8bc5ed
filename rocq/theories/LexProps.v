(** C78: the lexer for syntax highlighting. *)
From Verif Require Import Base LexModel.
Local Open Scope nat_scope.

(** ** Every matcher takes a part of the text *)
Definition takes (m : matcher) : Prop := forall before after n, m before after = Some n -> 0 < n <= length after.
Lemma span_le f s : span f s <= length s.
Proof. induction s as [|c s IH]; cbn; [lia|]. destruct (f c); lia. Qed.
Lemma prefix_le p s : prefix p s = true -> length p <= length s.
Proof. revert s. induction p as [|a p IH]; intros [|b s]; cbn; intros H; try lia; try discriminate. apply andb_prop in H as [_ H]. apply IH in H. lia. Qed.
Lemma lit_length w : length (lit w) = String.length w.
Proof. unfold lit. induction w; cbn; auto. Qed.
Lemma takes_axis x : takes (axis x).
Proof. intros b [|a [|c r]] n; cbn [axis]; try discriminate. destruct (_ && _)%bool; [|discriminate]. intros H. injection H as <-. cbn. lia. Qed.
Lemma takes_word l w : 0 < String.length w -> takes (word l w).
Proof.
  intros Hw b a n. unfold word. destruct (behind _ _); [|discriminate]. destruct (prefix (lit w) a) eqn:E; [|discriminate]. cbn [andb]. intros H. injection H as <-.
  apply prefix_le in E. rewrite lit_length in E. lia.
Qed.
Lemma takes_format : takes format_modes.
Proof. intros b [|a [|c r]] n; cbn [format_modes]; try discriminate. destruct (_ && _)%bool; [|discriminate]. intros H. injection H as <-. cbn. lia. Qed.
Lemma takes_unit_word : takes unit_word.
Proof.
  intros b a n. unfold unit_word. destruct (behind _ _); [|discriminate]. cbn [andb].
  destruct (prefix (lit "MOMM") a) eqn:E; [apply prefix_le in E|destruct (prefix (lit "MOIN") a) eqn:F; [apply prefix_le in F|discriminate]]; cbn [orb]; intros H; injection H as <-; cbn in *; lia.
Qed.
Lemma takes_unit_name : takes unit_name.
Proof.
  intros b a n. unfold unit_name. destruct (behind _ _); [|discriminate]. cbn [andb].
  destruct (prefix (lit "MM") a) eqn:E; [apply prefix_le in E|destruct (prefix (lit "IN") a) eqn:F; [apply prefix_le in F|discriminate]]; cbn [orb]; intros H; injection H as <-; cbn in *; lia.
Qed.
Lemma takes_name l : takes (name_after l).
Proof.
  intros b [|c r] n; cbn [name_after]; [discriminate|]. destruct (_ && _)%bool; [|discriminate]. intros H. injection H as <-. pose proof (span_le name_rest r). cbn. lia.
Qed.
Lemma takes_operation x : takes (operation x).
Proof.
  intros b [|d r] n; cbn [operation]; [discriminate|]. cbv zeta. pose proof (span_le (Ascii.eqb "0") r) as L.
  destruct (skipn (span (Ascii.eqb "0") r) r) as [|a [|e t]] eqn:E; try discriminate. destruct (_ && _)%bool; [|discriminate]. intros H. injection H as <-.
  apply (f_equal (@length _)) in E. rewrite skipn_length in E. cbn [length] in *. lia.
Qed.
Lemma takes_code l : takes (code l).
Proof.
  intros b [|d r] n; cbn [code]; [discriminate|]. cbv zeta. pose proof (span_le is_digit r) as L. destruct (_ && _)%bool; [|discriminate]. intros H. injection H as <-. cbn. lia.
Qed.
Lemma takes_decimal : takes decimal.
Proof.
  intros b a n. unfold decimal. cbv zeta. set (s := span _ a). set (i := span is_digit (skipn s a)).
  destruct (skipn (s + i) a) as [|c r] eqn:E; [discriminate|]. destruct (0 <? i) eqn:Hi; [|discriminate]. apply Nat.ltb_lt in Hi. destruct (_ && _)%bool; [|discriminate].
  intros H. injection H as <-. pose proof (span_le is_digit r). apply (f_equal (@length _)) in E. rewrite skipn_length in E. cbn [length] in E. lia.
Qed.
Lemma takes_integer : takes integer.
Proof.
  intros b a n. unfold integer. cbv zeta. set (s := span _ a). set (i := span is_digit (skipn s a)).
  destruct (0 <? i) eqn:Hi; [|discriminate]. apply Nat.ltb_lt in Hi. intros H. injection H as <-.
  pose proof (span_le is_digit (skipn s a)) as L. fold i in L. rewrite skipn_length in L. lia.
Qed.
Lemma takes_rules : Forall (fun r => takes (fst r)) rules.
Proof.
  unfold rules. repeat (apply Forall_cons; [cbn [fst]; first [apply takes_axis|apply takes_word; cbn; lia|apply takes_format|apply takes_unit_word|apply takes_unit_name
    |apply takes_name|apply takes_operation|apply takes_code|apply takes_decimal|apply takes_integer]|]). apply Forall_nil.
Qed.
Lemma step_takes before c r n t : step before c r = (n, t) -> 0 < n <= S (length r).
Proof.
  unfold step. assert (H : forall rs, Forall (fun r => takes (fst r)) rs -> forall n t, first_match rs before (c :: r) = Some (n, t) -> 0 < n <= S (length r)).
  { induction 1 as [|[m k] rs Hm _ IH]; cbn [first_match]; [discriminate|]. intros n' t'. destruct (m before (c :: r)) eqn:E; [|apply IH].
    intros X. injection X as <- <-. exact (Hm _ _ _ E). }
  specialize (H rules takes_rules). destruct (first_match rules before (c :: r)) as [[k k']|].
  - intros X. injection X as -> ->. exact (H _ _ eq_refl).
  - intros X. injection X as <- _. lia.
Qed.

(** ** Nothing is lost *)
(** The tokens are the text, in order, each at its place, none empty. *)
Definition tiles (pos : nat) (ts : list (nat * token * str)) (text : str) : Prop :=
  concat (map snd ts) = text /\
  (forall l p t v r, ts = l ++ (p, t, v) :: r -> v <> [] /\ p = pos + length (concat (map snd l))).
Lemma lex_tiles fuel : forall pos before after, length after <= fuel -> tiles pos (lex_from fuel pos before after) after.
Proof.
  induction fuel as [|fuel IH]; intros pos before after L.
  - destruct after; [|cbn in L; lia]. split; [reflexivity|]. intros [|? ?]; discriminate.
  - destruct after as [|c r]; [split; [reflexivity|]; intros [|? ?]; discriminate|]. cbn [lex_from].
    destruct (step before c r) as [n t] eqn:E. pose proof (step_takes _ _ _ _ _ E) as Hn.
    destruct (IH (pos + n) (rev (firstn n (c :: r)) ++ before) (skipn n (c :: r))) as [H1 H2]; [rewrite skipn_length; cbn [length] in *; lia|]. split.
    + cbn [map concat snd]. rewrite H1. apply firstn_skipn.
    + intros [|x l] p t' v rest Ex.
      * cbn [app] in Ex. injection Ex as <- <- <- <-. cbn [map concat]. split; [|cbn; lia]. destruct n; [lia|]. cbn. discriminate.
      * cbn [app] in Ex. injection Ex as <- Ex. destruct (H2 _ _ _ _ _ Ex) as [A B]. split; [exact A|]. rewrite B. cbn [map concat snd].
        rewrite app_length, firstn_length. cbn [length] in *. lia.
Qed.
Theorem C78_lossless :
  forall text, concat (map snd (lex text)) = text /\
    forall l p t v r, lex text = l ++ (p, t, v) :: r -> v <> [] /\ p = length (concat (map snd l)).
Proof. intros text. exact (lex_tiles _ 0 [] text (le_n _)). Qed.
Print Assumptions C78_lossless.

(** ** Codes *)
Definition digits (s : str) : Prop := s <> [] /\ Forall (fun c => is_digit c = true) s.
Definition no_digit (s : str) : Prop := match s with c :: _ => is_digit c = false | [] => True end.
(** The text ends like the beginning of a definition, where a name is expected. *)
Definition name_expected (before : str) : Prop :=
  exists l, rev before = l ++ lit "%AM" \/ exists ds, digits ds /\ length ds <= 3 /\ rev before = l ++ lit "%ADD" ++ ds.
(** D01, D02, D03 with any number of zeros. *)
Definition operation_code (ds : str) : Prop := exists k n, ds = repeat "0"%char k ++ [n] /\ In n (lit "123").
Definition starred (s : str) : Prop := exists r, s = "*"%char :: r.

Lemma behind_rev cls : forall before, behind cls before = true -> exists w l, before = w ++ l /\ Forall2 (fun f c => f c = true) cls w.
Proof.
  induction cls as [|f cls IH]; intros before H; [exists [], before; auto|]. destruct before as [|c before]; [discriminate|]. cbn in H. apply andb_prop in H as [H1 H2].
  destruct (IH _ H2) as (w & l & -> & F). exists (c :: w), l. auto.
Qed.
Lemma chars_word s w : Forall2 (fun f c => f c = true) (chars s) w -> rev w = lit s.
Proof.
  unfold chars. intros H. assert (R : Forall2 (fun f c => f c = true) (map Ascii.eqb (lit s)) (rev w)).
  { rewrite <- (rev_involutive (map Ascii.eqb (lit s))). revert H. generalize (rev (map Ascii.eqb (lit s))). intros l H. induction H; cbn; [constructor|]. apply Forall2_app; auto. }
  clear H. revert R. generalize (rev w) (lit s). intros v t. revert v. induction t as [|c t IH]; intros v R; inversion R; subst; [reflexivity|].
  match goal with H : Ascii.eqb _ _ = true |- _ => apply Ascii.eqb_eq in H end. f_equal; auto.
Qed.
Lemma forall2_length {A B} (R : A -> B -> Prop) l m : Forall2 R l m -> length l = length m.
Proof. induction 1; cbn; auto. Qed.
Lemma not_named before k : ~ name_expected before -> k <= 2 -> behind (repeat dig (S k) ++ chars "%ADD") before = false.
Proof.
  intros H Hk. destruct (behind _ before) eqn:E; [|reflexivity]. exfalso. apply H. apply behind_rev in E as (w & l & -> & F).
  apply Forall2_app_inv_l in F as (w1 & w2 & F1 & F2 & ->). apply chars_word in F2. exists (rev l). right. exists (rev w1).
  assert (D : Forall (fun c => is_digit c = true) w1).
  { clear -F1. revert F1. generalize (repeat_spec (S k) dig). generalize (repeat dig (S k)). intros fs Hf F. induction F; constructor; [|apply IHF; intros; apply Hf; right; assumption].
    rewrite <- H. rewrite (Hf x (or_introl eq_refl)). reflexivity. }
  apply forall2_length in F1. rewrite repeat_length in F1. split; [split|split].
  - destruct w1; [discriminate|]. cbn. destruct (rev w1); discriminate.
  - apply Forall_rev, D.
  - rewrite rev_length. lia.
  - rewrite !rev_app_distr, F2. reflexivity.
Qed.
Lemma not_macro before : ~ name_expected before -> behind (chars "%AM") before = false.
Proof.
  intros H. destruct (behind _ before) eqn:E; [|reflexivity]. exfalso. apply H. apply behind_rev in E as (w & l & -> & F). apply chars_word in F.
  exists (rev l). left. rewrite rev_app_distr, F. reflexivity.
Qed.
Lemma span_all f s r : Forall (fun c => f c = true) s -> match r with c :: _ => f c = false | [] => True end -> span f (s ++ r) = length s.
Proof. intros H Hr. induction H as [|c s Hc _ IH]; cbn [app span length]; [destruct r as [|c r]; cbn; [|rewrite Hr]; reflexivity|]. rewrite Hc, IH. reflexivity. Qed.
(** Rules before those for codes do not match. *)
Lemma skip_rule m t rs before after : m before after = None -> first_match ((m, t) :: rs) before after = first_match rs before after.
Proof. intros H. cbn [first_match]. rewrite H. reflexivity. Qed.
Lemma axis_none x before c r : Ascii.eqb c x = false -> axis x before (c :: r) = None.
Proof. intros H. unfold axis. rewrite H. destruct r; reflexivity. Qed.
Lemma prefix_digit a b w c d r : is_digit b = false -> is_digit d = true -> prefix (a :: b :: w) (c :: d :: r) = false.
Proof.
  intros Hb Hd. cbn [prefix]. destruct (Ascii.eqb b d) eqn:E; [apply Ascii.eqb_eq in E; congruence|]. apply Bool.andb_false_r.
Qed.
Lemma word_digit look a b w before c d r : is_digit b = false -> is_digit d = true -> word look (String a (String b w)) before (c :: d :: r) = None.
Proof.
  intros Hb Hd. unfold word. change (lit (String a (String b w))) with (a :: b :: lit w). rewrite (prefix_digit _ _ _ _ _ _ Hb Hd), Bool.andb_false_r. reflexivity.
Qed.
Lemma word_first look a w before c r : Ascii.eqb a c = false -> word look (String a w) before (c :: r) = None.
Proof. intros H. unfold word. change (lit (String a w)) with (a :: lit w). cbn [prefix]. rewrite H, Bool.andb_false_r. reflexivity. Qed.
Lemma format_none before c r : is_one_of "LT" c = false -> format_modes before (c :: r) = None.
Proof. intros H. unfold format_modes. destruct r; [reflexivity|]. rewrite H, Bool.andb_false_r. reflexivity. Qed.
Lemma units_digit before c d r : is_digit d = true -> unit_word before (c :: d :: r) = None /\ unit_name before (c :: d :: r) = None.
Proof.
  intros Hd. unfold unit_word, unit_name. cbn [lit list_ascii_of_string]. rewrite !prefix_digit by (reflexivity || assumption). rewrite !Bool.andb_false_r. auto.
Qed.
Lemma units_first before c r : is_one_of "MI" c = false -> unit_word before (c :: r) = None /\ unit_name before (c :: r) = None.
Proof.
  intros H. cbn in H. apply Bool.orb_false_iff in H as [H1 H]. apply Bool.orb_false_iff in H as [H2 _]. rewrite Ascii.eqb_sym in H1, H2.
  unfold unit_word, unit_name. cbn [lit list_ascii_of_string prefix]. rewrite H1, H2. cbn [andb orb]. rewrite !Bool.andb_false_r. auto.
Qed.
Lemma name_none look before c r : behind look before = false -> name_after look before (c :: r) = None.
Proof. intros H. unfold name_after. rewrite H. reflexivity. Qed.
Lemma name_first look before c r : name_start c = false -> name_after look before (c :: r) = None.
Proof. intros H. unfold name_after. rewrite H, Bool.andb_false_r. reflexivity. Qed.
Definition code_rules : list (matcher * token) :=
  [(operation "1", Keyword); (operation "2", Keyword); (operation "3", Keyword); (code "D", NameVariable);
   (code "G", Keyword); (code "M", Keyword); (code "$", NameVariable); (decimal, Number); (integer, Number)].
Lemma first_code before l d r : ~ name_expected before -> In l (lit "DGM") -> is_digit d = true ->
  first_match rules before (l :: d :: r) = first_match code_rules before (l :: d :: r).
Proof.
  intros Hn Hl Hd. pose proof (not_named before 0 Hn ltac:(lia)) as N1. pose proof (not_named before 1 Hn ltac:(lia)) as N2. pose proof (not_named before 2 Hn ltac:(lia)) as N3.
  pose proof (not_macro before Hn) as N4. cbn [repeat app] in N1, N2, N3.
  destruct Hl as [<-|[<-|[<-|[]]]]; unfold rules;
  repeat (rewrite skip_rule by first [apply axis_none; reflexivity|apply word_digit; [reflexivity|assumption]|apply format_none; reflexivity|apply units_digit; assumption|apply name_none; assumption]);
  reflexivity.
Qed.
Lemma code_digits l before ds r : digits ds -> no_digit r -> code l before (l :: ds ++ r) = Some (S (length ds)).
Proof.
  intros [Hne H] Hr. unfold code. rewrite (span_all _ _ _ H) by exact Hr. rewrite Ascii.eqb_refl. destruct ds; [congruence|]. reflexivity.
Qed.
Lemma code_other l c before r : Ascii.eqb c l = false -> code l before (c :: r) = None.
Proof. intros H. unfold code. rewrite H. reflexivity. Qed.
Lemma operation_other n c before r : Ascii.eqb c "D" = false -> operation n before (c :: r) = None.
Proof. intros H. unfold operation. rewrite H. destruct (skipn _ r) as [|? [|? ?]]; reflexivity. Qed.
Lemma span_split f s : s = firstn (span f s) s ++ skipn (span f s) s /\ Forall (fun c => f c = true) (firstn (span f s) s).
Proof.
  split; [symmetry; apply firstn_skipn|]. induction s as [|c s IH]; [constructor|]. cbn [span]. destruct (f c) eqn:E; [|constructor]. cbn [firstn]. constructor; assumption.
Qed.
Lemma operation_some n before r k : In n (lit "123") -> operation n before ("D"%char :: r) = Some k ->
  exists z rest, r = repeat "0"%char z ++ [n] ++ "*"%char :: rest /\ k = S (S z).
Proof.
  intros Hn. unfold operation. destruct (span_split (Ascii.eqb "0") r) as [Hr Hz]. set (z := span (Ascii.eqb "0") r) in *.
  destruct (skipn z r) as [|a [|b rest]] eqn:E; try discriminate. rewrite Ascii.eqb_refl. cbn [andb].
  destruct (Ascii.eqb a n) eqn:Ea; [|discriminate]. destruct (Ascii.eqb b "*") eqn:Eb; [|discriminate]. apply Ascii.eqb_eq in Ea as ->. apply Ascii.eqb_eq in Eb as ->.
  intros X. injection X as <-. exists z, rest. split; [|reflexivity]. rewrite Hr at 1. f_equal.
  assert (L : length (firstn z r) = z). { apply firstn_length_le. destruct (Nat.le_gt_cases z (length r)) as [L|L]; [exact L|]. rewrite skipn_all2 in E by lia. discriminate. }
  rewrite <- L at 2. clear -Hz. induction Hz as [|c l H _ IH]; [reflexivity|]. cbn [length repeat]. apply Ascii.eqb_eq in H as <-. rewrite <- IH. reflexivity.
Qed.
Lemma operation_is n before z rest : In n (lit "123") -> operation n before ("D"%char :: repeat "0"%char z ++ n :: "*"%char :: rest) = Some (S (S z)).
Proof.
  intros Hn. unfold operation. rewrite span_all; [| |destruct Hn as [<-|[<-|[<-|[]]]]; reflexivity].
  - rewrite repeat_length. replace (skipn z _) with (n :: "*"%char :: rest); [rewrite !Ascii.eqb_refl; reflexivity|].
    rewrite <- (repeat_length "0"%char z) at 1. rewrite skipn_app, skipn_all, Nat.sub_diag. reflexivity.
  - apply Forall_forall. intros x Hx. apply repeat_spec in Hx as ->. reflexivity.
Qed.
Lemma split_digits a b r s : Forall (fun c => is_digit c = true) a -> Forall (fun c => is_digit c = true) b -> no_digit r -> no_digit s -> a ++ r = b ++ s -> a = b /\ r = s.
Proof.
  intros Ha. revert b. induction Ha as [|c a Hc _ IH]; intros b Hb Hr Hs E.
  - destruct Hb as [|x b Hx _]; [auto|]. cbn in E. subst r. cbn in Hr. congruence.
  - destruct Hb as [|x b Hx Hb]; cbn in E.
    + subst s. cbn in Hs. congruence.
    + injection E as -> E. destruct (IH _ Hb Hr Hs E) as [-> ->]. auto.
Qed.
Lemma operation_digits z n : In n (lit "123") -> Forall (fun c => is_digit c = true) (repeat "0"%char z ++ [n]).
Proof.
  intros Hn. apply Forall_app. split; [apply Forall_forall; intros x Hx; apply repeat_spec in Hx as ->; reflexivity|]. constructor; [|constructor].
  destruct Hn as [<-|[<-|[<-|[]]]]; reflexivity.
Qed.
Lemma operation_code_of n before ds rest k : In n (lit "123") -> digits ds -> no_digit rest -> operation n before ("D"%char :: ds ++ rest) = Some k ->
  operation_code ds /\ starred rest /\ k = S (length ds).
Proof.
  intros Hn [_ Hd] Hr H. destruct (operation_some _ _ _ _ Hn H) as (z & s & E & ->). rewrite app_assoc in E.
  destruct (split_digits _ _ _ _ Hd (operation_digits z n Hn) Hr (eq_refl : no_digit ("*"%char :: s)) E) as [-> ->]. rewrite app_length, repeat_length. cbn. split; [exists z, n; auto|]. split; [exists s; reflexivity|lia].
Qed.
Theorem C78_codes :
  forall before ds rest, ~ name_expected before -> digits ds -> no_digit rest ->
  (forall n t, step before "D" (ds ++ rest) = (n, t) ->
     n = S (length ds) /\ (operation_code ds /\ starred rest -> t = Keyword) /\ (~ (operation_code ds /\ starred rest) -> t = NameVariable)) /\
  step before "G" (ds ++ rest) = (S (length ds), Keyword) /\ step before "M" (ds ++ rest) = (S (length ds), Keyword).
Proof.
  intros before ds rest Hb Hd Hr.
  assert (F : forall l, In l (lit "DGM") -> first_match rules before (l :: ds ++ rest) = first_match code_rules before (l :: ds ++ rest)).
  { intros l Hl. destruct Hd as [Hne Hd]. destruct Hd as [|d ds Hd1 Hd]; [congruence|]. cbn [app]. apply first_code; assumption. }
  split; [|split].
  - intros n t. unfold step. rewrite F by (cbn; auto). unfold code_rules. cbn [first_match].
    destruct (operation "1" before ("D"%char :: ds ++ rest)) eqn:E1; [|destruct (operation "2" before ("D"%char :: ds ++ rest)) eqn:E2; [|destruct (operation "3" before ("D"%char :: ds ++ rest)) eqn:E3]].
    + apply operation_code_of in E1 as (A & B & ->); [|cbn; auto|assumption|assumption]. intros X. injection X as <- <-. split; [reflexivity|split; [reflexivity|tauto]].
    + apply operation_code_of in E2 as (A & B & ->); [|cbn; auto|assumption|assumption]. intros X. injection X as <- <-. split; [reflexivity|split; [reflexivity|tauto]].
    + apply operation_code_of in E3 as (A & B & ->); [|cbn; auto|assumption|assumption]. intros X. injection X as <- <-. split; [reflexivity|split; [reflexivity|tauto]].
    + rewrite code_digits by assumption. intros X. injection X as <- <-. split; [reflexivity|split; [|reflexivity]].
      intros [(z & k & -> & Hk) (s & ->)]. exfalso. rewrite <- app_assoc in E1, E2, E3. cbn [app] in E1, E2, E3.
      pose proof (operation_is k before z s Hk) as O. destruct Hk as [<-|[<-|[<-|[]]]]; congruence.
  - unfold step. rewrite F by (cbn; auto). unfold code_rules. rewrite !skip_rule by first [apply operation_other; reflexivity|apply code_other; reflexivity].
    cbn [first_match]. rewrite code_digits by assumption. reflexivity.
  - unfold step. rewrite F by (cbn; auto). unfold code_rules. rewrite !skip_rule by first [apply operation_other; reflexivity|apply code_other; reflexivity].
    cbn [first_match]. rewrite code_digits by assumption. reflexivity.
Qed.
Print Assumptions C78_codes.

(** ** Axes *)
(** The rules ask for a digit after an axis, so an axis before a sign is an error. *)
Theorem C78_signed_refuted :
  forall before a s rest, ~ name_expected before -> In a (lit "XYIJ") -> In s (lit "+-") -> step before a (s :: rest) = (1, Error).
Proof.
  intros before a s rest Hn Ha Hs. pose proof (not_named before 0 Hn ltac:(lia)) as N1. pose proof (not_named before 1 Hn ltac:(lia)) as N2. pose proof (not_named before 2 Hn ltac:(lia)) as N3.
  pose proof (not_macro before Hn) as N4. cbn [repeat app] in N1, N2, N3. unfold step.
  assert (F : first_match rules before (a :: s :: rest) = None).
  { destruct Ha as [<-|[<-|[<-|[<-|[]]]]]; destruct Hs as [<-|[<-|[]]]; unfold rules;
    repeat (rewrite skip_rule by first [apply axis_none; reflexivity|apply word_first; reflexivity|apply format_none; reflexivity|apply units_first; reflexivity
     |apply name_none; assumption|apply operation_other; reflexivity|apply code_other; reflexivity|reflexivity|unfold word, unit_word, unit_name; cbn; rewrite ?Bool.andb_false_r; reflexivity]);
    reflexivity. }
  rewrite F. destruct Ha as [<-|[<-|[<-|[<-|[]]]]]; reflexivity.
Qed.
Print Assumptions C78_signed_refuted.

(** ** Drawings *)
(** The body of a drawing: operations with coordinates after any number of G codes, codes and
    line ends. *)
Definition sign (v : str) : Prop := In v [[]; ["+"]; ["-"]]%char.
Definition number (v : str) : Prop := exists sg ds, v = sg ++ ds /\ sign sg /\ digits ds.
Inductive line :=
| Operation (gs : list str) (coordinates : list (ascii * str)) (zeros : nat) (n : ascii)
| Code (letter : ascii) (ds : str)
| LineEnd.
Definition well (l : line) : Prop :=
  match l with
  | Operation gs cs _ n => Forall digits gs /\ Forall (fun c => In (fst c) (lit "XYIJ") /\ number (snd c)) cs /\ In n (lit "123")
  | Code l ds => In l (lit "DGM") /\ digits ds /\ (l = "D"%char -> ~ operation_code ds)
  | LineEnd => True
  end.
Definition line_text (l : line) : str :=
  match l with
  | Operation gs cs z n => concat (map (cons "G"%char) gs) ++ concat (map (fun c => fst c :: snd c) cs) ++ "D"%char :: repeat "0"%char z ++ [n; "*"%char]
  | Code l ds => l :: ds ++ lit "*"
  | LineEnd => ["010"%char]
  end.
(** What a reader wants to see: axes and codes as keywords, numbers as numbers, names of tools as
    names; but an axis before a sign is an error to the lexer. *)
Definition axis_token (v : str) : token := match v with c :: _ => if (Ascii.eqb c "+" || Ascii.eqb c "-")%bool then Error else Keyword | [] => Keyword end.
Definition line_tokens (l : line) : list (token * str) :=
  match l with
  | Operation gs cs z n => map (fun g => (Keyword, "G"%char :: g)) gs ++ concat (map (fun c => [(axis_token (snd c), [fst c]); (Number, snd c)]) cs) ++ [(Keyword, "D"%char :: repeat "0"%char z ++ [n]); (Error, lit "*")]
  | Code l ds => [(if Ascii.eqb l "D" then NameVariable else Keyword, l :: ds); (Error, lit "*")]
  | LineEnd => [(Whitespace, ["010"%char])]
  end.
Definition kinds (ts : list (nat * token * str)) : list (token * str) := map (fun t => (snd (fst t), snd t)) ts.

Lemma lex_any fuel : forall pos before after fuel' pos', length after <= fuel -> length after <= fuel' ->
  kinds (lex_from fuel pos before after) = kinds (lex_from fuel' pos' before after).
Proof.
  induction fuel as [|fuel IH]; intros pos before after fuel' pos' L L'.
  - destruct after; [|cbn in L; lia]. destruct fuel'; reflexivity.
  - destruct after as [|c r]; [destruct fuel'; reflexivity|]. destruct fuel' as [|fuel']; [cbn in L'; lia|]. cbn [lex_from].
    destruct (step before c r) as [n t] eqn:E. pose proof (step_takes _ _ _ _ _ E) as Hn. cbn [kinds map fst snd]. f_equal.
    apply IH; rewrite skipn_length; cbn [length] in *; lia.
Qed.
Definition rest_of (before after : str) := kinds (lex_from (length after) 0 before after).
Lemma rest_step before c w rest t : step before c (w ++ rest) = (S (length w), t) ->
  rest_of before ((c :: w) ++ rest) = (t, c :: w) :: rest_of (rev (c :: w) ++ before) rest.
Proof.
  intros H. unfold rest_of. cbn [app length lex_from]. rewrite H. cbn [firstn skipn].
  rewrite firstn_app, firstn_all, Nat.sub_diag, skipn_app, skipn_all, Nat.sub_diag, firstn_O, app_nil_r. cbn [skipn app kinds map fst snd]. f_equal.
  apply lex_any; [rewrite app_length|]; lia.
Qed.
Ltac skips := repeat (rewrite skip_rule by first [apply axis_none; reflexivity|apply word_first; reflexivity|apply format_none; reflexivity|apply units_first; reflexivity
   |apply name_first; reflexivity|apply operation_other; reflexivity|apply code_other; reflexivity]).
Lemma step_axis before a ds rest : In a (lit "XYIJ") -> digits ds -> step before a (ds ++ rest) = (1, Keyword).
Proof.
  intros Ha [Hne Hd]. destruct Hd as [|d ds Hd _]; [congruence|]. unfold step, rules. cbn [first_match axis app]. rewrite Hd, !Bool.andb_true_r.
  destruct Ha as [<-|[<-|[<-|[<-|[]]]]]; reflexivity.
Qed.
Lemma step_star before rest : step before "*" rest = (1, Error).
Proof. unfold step, rules. skips. reflexivity. Qed.
Lemma step_end before rest : step before "010" rest = (1, Whitespace).
Proof. unfold step, rules. skips. reflexivity. Qed.
Definition no_point (s : str) : Prop := match s with c :: _ => c <> "."%char | [] => True end.
Lemma digit_cases (P : ascii -> Prop) : Forall P (lit "0123456789") -> forall d, is_digit d = true -> P d.
Proof.
  intros F d Hd. rewrite Forall_forall in F. apply F. clear F. revert d Hd. intros [[] [] [] [] [] [] [] []]; try discriminate; intros _; cbn; tauto.
Qed.
Lemma step_number before d ds rest : is_digit d = true -> Forall (fun c => is_digit c = true) ds -> no_digit rest -> no_point rest ->
  step before d (ds ++ rest) = (S (length ds), Number).
Proof.
  intros Hd Hds Hr Hp. assert (S0 : span (is_one_of "+-") (d :: ds ++ rest) = 0).
  { cbn [span]. replace (is_one_of "+-" d) with false; [reflexivity|]. symmetry. revert d Hd. apply digit_cases. repeat constructor. }
  assert (S1 : span is_digit (d :: ds ++ rest) = S (length ds)) by (apply (span_all is_digit (d :: ds) rest); [constructor; assumption|exact Hr]).
  assert (D : decimal before (d :: ds ++ rest) = None).
  { unfold decimal. rewrite S0. cbn [skipn]. rewrite S1. cbn [Nat.add skipn]. rewrite skipn_app, skipn_all, Nat.sub_diag. cbn [skipn app].
    destruct rest as [|c r]; [reflexivity|]. cbn in Hp. rewrite <- Ascii.eqb_neq in Hp. rewrite Hp. reflexivity. }
  assert (I : integer before (d :: ds ++ rest) = Some (S (length ds))) by (unfold integer; rewrite S0; cbn [skipn]; rewrite S1; reflexivity).
  assert (F : first_match rules before (d :: ds ++ rest) = Some (S (length ds), Number)).
  { transitivity (first_match [(decimal, Number); (integer, Number)] before (d :: ds ++ rest)); [|cbn [first_match]; rewrite D, I; reflexivity].
    clear S0 S1 D I. revert d Hd. apply (digit_cases (fun d => first_match rules before (d :: ds ++ rest) = first_match [(decimal, Number); (integer, Number)] before (d :: ds ++ rest))).
    repeat constructor; unfold rules; skips; reflexivity. }
  unfold step. rewrite F. reflexivity.
Qed.
Definition plain (s : str) : Prop := ~ In "%"%char s.
Lemma plain_app a b : plain a -> plain b -> plain (a ++ b).
Proof. unfold plain. intros A B H. apply in_app_or in H. tauto. Qed.
Lemma plain_rev a : plain a -> plain (rev a).
Proof. unfold plain. intros A H. apply in_rev in H. tauto. Qed.
Lemma plain_cons c a : c <> "%"%char -> plain a -> plain (c :: a).
Proof. unfold plain. intros A B [H|H]; auto. Qed.
Lemma plain_digits ds : Forall (fun c => is_digit c = true) ds -> plain ds.
Proof. intros H X. rewrite Forall_forall in H. specialize (H _ X). discriminate. Qed.
Lemma plain_not_named before : plain before -> ~ name_expected before.
Proof.
  intros H (l & [E|(ds & _ & _ & E)]); apply plain_rev in H; rewrite E in H; apply H, in_or_app; right; left; reflexivity.
Qed.
Lemma rest_code before l ds rest t : step before l (ds ++ "*"%char :: rest) = (S (length ds), t) ->
  rest_of before (l :: ds ++ "*"%char :: rest) = (t, l :: ds) :: (Error, lit "*") :: rest_of (rev (l :: ds ++ lit "*") ++ before) rest.
Proof.
  intros H. change (l :: ds ++ "*"%char :: rest) with ((l :: ds) ++ "*"%char :: rest). rewrite (rest_step _ _ _ _ _ H). f_equal.
  rewrite (rest_step _ _ [] _ _ (step_star _ _) : rest_of _ ("*"%char :: rest) = _). f_equal. f_equal. cbn [rev app]. rewrite rev_app_distr. reflexivity.
Qed.
Lemma step_signed before g d ds rest : In g (lit "+-") -> is_digit d = true -> Forall (fun c => is_digit c = true) ds -> no_digit rest -> no_point rest ->
  step before g ((d :: ds) ++ rest) = (S (length (d :: ds)), Number).
Proof.
  intros Hg Hd Hds Hr Hp.
  assert (Z : is_one_of "+-" d = false) by (revert d Hd; apply digit_cases; repeat constructor).
  assert (O : is_one_of "+-" g = true) by (destruct Hg as [<-|[<-|[]]]; reflexivity).
  assert (S0 : span (is_one_of "+-") (g :: (d :: ds) ++ rest) = 1) by (cbn [span app]; rewrite O, Z; reflexivity).
  assert (S1 : span is_digit ((d :: ds) ++ rest) = S (length ds)) by (apply (span_all is_digit (d :: ds) rest); [constructor; assumption|exact Hr]).
  assert (D : decimal before (g :: (d :: ds) ++ rest) = None).
  { unfold decimal. rewrite S0. cbn [skipn]. rewrite S1. change (skipn (1 + S (length ds)) (g :: (d :: ds) ++ rest)) with (skipn (length ds) (ds ++ rest)). rewrite skipn_app, skipn_all, Nat.sub_diag. cbn [skipn app].
    destruct rest as [|c r]; [reflexivity|]. cbn in Hp. rewrite <- Ascii.eqb_neq in Hp. rewrite Hp. reflexivity. }
  assert (I : integer before (g :: (d :: ds) ++ rest) = Some (S (length (d :: ds)))) by (unfold integer; rewrite S0; cbn [skipn]; rewrite S1; reflexivity).
  assert (F : first_match rules before (g :: (d :: ds) ++ rest) = Some (S (length (d :: ds)), Number)).
  { transitivity (first_match [(decimal, Number); (integer, Number)] before (g :: (d :: ds) ++ rest)); [|cbn [first_match]; rewrite D, I; reflexivity].
    destruct Hg as [<-|[<-|[]]]; unfold rules; skips; reflexivity. }
  unfold step. rewrite F. reflexivity.
Qed.
Lemma axis_digit d ds : is_digit d = true -> axis_token (d :: ds) = Keyword.
Proof. intros H. unfold axis_token. replace (Ascii.eqb d "+" || Ascii.eqb d "-")%bool with false; [reflexivity|]. symmetry. revert d H. apply digit_cases. repeat constructor. Qed.
Lemma rest_number before v next : number v -> no_digit next -> no_point next -> rest_of before (v ++ next) = (Number, v) :: rest_of (rev v ++ before) next.
Proof.
  intros (sg & ds & -> & Hs & [Hne Hd]) N P. destruct Hd as [|d ds Hd1 Hd]; [congruence|]. destruct Hs as [<-|Hs]; [exact (rest_step _ d ds next Number (step_number before d ds next Hd1 Hd N P))|].
  assert (G : exists g, sg = [g] /\ In g (lit "+-")) by (destruct Hs as [<-|[<-|[]]]; eexists; (split; [reflexivity|cbn; auto])).
  destruct G as (g & -> & Hg). exact (rest_step _ g (d :: ds) next Number (step_signed before g d ds next Hg Hd1 Hd N P)).
Qed.
Lemma step_letter before a v next : ~ name_expected before -> In a (lit "XYIJ") -> number v -> step before a (v ++ next) = (1, axis_token v).
Proof.
  intros Hb Ha (sg & ds & -> & Hs & Hd). destruct Hs as [<-|Hs].
  - cbn [app]. rewrite (step_axis before a ds next Ha Hd). destruct Hd as [Hne Hd]. destruct Hd as [|d ds' H _]; [congruence|]. rewrite axis_digit by exact H. reflexivity.
  - destruct Hs as [<-|[<-|[]]]; (cbn [app]; rewrite (C78_signed_refuted before a _ (ds ++ next) Hb Ha); [reflexivity|cbn; auto]).
Qed.
Lemma plain_number v : number v -> plain v.
Proof.
  intros (sg & ds & -> & Hs & [_ Hd]). apply plain_app; [|apply plain_digits, Hd]. destruct Hs as [<-|[<-|[<-|[]]]]; [intros []|..]; (apply plain_cons; [discriminate|intros []]).
Qed.
Lemma coordinates_end cs rest : Forall (fun c => In (fst c) (lit "XYIJ") /\ number (snd c)) cs ->
  no_digit (concat (map (fun c => fst c :: snd c) cs) ++ "D"%char :: rest) /\ no_point (concat (map (fun c => fst c :: snd c) cs) ++ "D"%char :: rest).
Proof.
  intros [|[b es] cs' [Hb _] _]; [split; [reflexivity|discriminate]|]. cbn [map concat fst snd app] in *. destruct Hb as [<-|[<-|[<-|[<-|[]]]]]; split; (reflexivity || discriminate).
Qed.
Lemma rest_coordinates cs : Forall (fun c => In (fst c) (lit "XYIJ") /\ number (snd c)) cs -> forall before rest, plain before ->
  rest_of before (concat (map (fun c => fst c :: snd c) cs) ++ "D"%char :: rest) =
  concat (map (fun c => [(axis_token (snd c), [fst c]); (Number, snd c)]) cs) ++ rest_of (rev (concat (map (fun c => fst c :: snd c) cs)) ++ before) ("D"%char :: rest).
Proof.
  induction 1 as [|[a v] cs [Ha Hv] Hcs IH]; intros before rest Hb; [reflexivity|]. cbn [map concat fst snd]. cbn [fst snd] in Ha, Hv. cbn [app]. rewrite <- app_assoc.
  destruct (coordinates_end cs rest Hcs) as [N P]. set (next := concat (map (fun c => fst c :: snd c) cs) ++ "D"%char :: rest) in *.
  change (a :: v ++ next) with ((a :: []) ++ v ++ next). rewrite (rest_step before a [] (v ++ next) (axis_token v) (step_letter _ _ _ _ (plain_not_named _ Hb) Ha Hv)). f_equal.
  rewrite (rest_number _ v next Hv N P). f_equal. unfold next. rewrite IH.
  - f_equal. f_equal. cbn [rev app]. rewrite !rev_app_distr. cbn [rev app]. rewrite <- !app_assoc. reflexivity.
  - apply plain_app; [apply plain_rev, plain_number, Hv|]. apply plain_cons; [|exact Hb]. intros ->. cbn in Ha. intuition discriminate.
Qed.
Lemma rest_gs gs : Forall digits gs -> forall before rest, plain before -> no_digit rest ->
  rest_of before (concat (map (cons "G"%char) gs) ++ rest) = map (fun g => (Keyword, "G"%char :: g)) gs ++ rest_of (rev (concat (map (cons "G"%char) gs)) ++ before) rest.
Proof.
  induction 1 as [|g gs Hg Hgs IH]; intros before rest Hb Hr; [reflexivity|]. cbn [map concat app]. rewrite <- app_assoc.
  assert (N : no_digit (concat (map (cons "G"%char) gs) ++ rest)) by (destruct gs; [exact Hr|reflexivity]).
  destruct (C78_codes before g _ (plain_not_named _ Hb) Hg N) as (_ & H & _). change ("G"%char :: g ++ concat (map (cons "G"%char) gs) ++ rest) with (("G"%char :: g) ++ concat (map (cons "G"%char) gs) ++ rest).
  rewrite (rest_step _ _ _ _ _ H). f_equal. rewrite IH; [|apply plain_app; [apply plain_rev, plain_cons; [discriminate|apply plain_digits, (proj2 Hg)]|exact Hb]|exact Hr].
  f_equal. f_equal. change ("G"%char :: g ++ concat (map (cons "G"%char) gs)) with (("G"%char :: g) ++ concat (map (cons "G"%char) gs)). rewrite rev_app_distr, <- app_assoc. reflexivity.
Qed.
Lemma rest_line l : well l -> forall before rest, plain before ->
  rest_of before (line_text l ++ rest) = line_tokens l ++ rest_of (rev (line_text l) ++ before) rest /\ plain (rev (line_text l) ++ before).
Proof.
  destruct l as [gs cs z n|l ds|]; cbn [well line_text line_tokens]; intros W before rest Hb.
  - destruct W as (Hgs & Hcs & Hn).
    assert (Pg : plain (concat (map (cons "G"%char) gs))).
    { clear -Hgs. induction Hgs as [|g gs [_ Hg] _ IH]; [intros []|]. cbn [map concat]. apply (plain_app ("G"%char :: g)); [apply plain_cons; [discriminate|apply plain_digits, Hg]|exact IH]. }
    pose proof (coordinates_end cs (repeat "0"%char z ++ [n; "*"%char] ++ rest) Hcs) as [Nd _].
    assert (Pc : plain (concat (map (fun c => fst c :: snd c) cs))).
    { clear -Hcs. induction Hcs as [|[a v] cs [Ha Hv] _ IH]; [intros []|]. cbn [map concat fst snd] in *. apply (plain_app (a :: v)); [|exact IH].
      apply plain_cons; [|apply plain_number, Hv]. intros ->. cbn in Ha. intuition discriminate. }
    assert (Hb' : plain (rev (concat (map (cons "G"%char) gs)) ++ before)) by (apply plain_app; [apply plain_rev, Pg|exact Hb]).
    assert (Hp : plain (rev (concat (map (fun c => fst c :: snd c) cs)) ++ rev (concat (map (cons "G"%char) gs)) ++ before)) by (apply plain_app; [apply plain_rev, Pc|exact Hb']).
    pose proof (operation_digits z n Hn) as Ho. split.
    + rewrite <- !app_assoc. cbn [app]. rewrite <- !(app_assoc (repeat _ _)). cbn [app]. rewrite (rest_gs _ Hgs) by (exact Hb || exact Nd). f_equal.
      rewrite (rest_coordinates _ Hcs) by exact Hb'. f_equal. cbn [app].
      set (b := rev _ ++ rev _ ++ before) in *. replace (repeat "0"%char z ++ n :: "*"%char :: rest) with ((repeat "0"%char z ++ [n]) ++ "*"%char :: rest) by (rewrite <- app_assoc; reflexivity).
      rewrite (rest_code b "D" _ rest Keyword).
      * f_equal. f_equal. f_equal. unfold b. rewrite !rev_app_distr, <- !app_assoc. cbn [app rev]. rewrite !rev_app_distr. cbn [rev app]. rewrite <- !app_assoc. reflexivity.
      * assert (Dg : digits (repeat "0"%char z ++ [n])) by (split; [destruct z; discriminate|exact Ho]).
        destruct (C78_codes b (repeat "0"%char z ++ [n]) ("*"%char :: rest) (plain_not_named _ Hp) Dg eq_refl) as [H _].
        destruct (step b "D" ((repeat "0"%char z ++ [n]) ++ "*"%char :: rest)) as [k t]. destruct (H k t eq_refl) as (-> & T & _). rewrite T; [reflexivity|].
        split; [exists z, n; auto|exists rest; reflexivity].
    + apply plain_app; [|exact Hb]. apply plain_rev, plain_app; [exact Pg|]. apply plain_app; [exact Pc|]. apply plain_cons; [discriminate|].
      change [n; "*"%char] with ([n] ++ ["*"%char]). rewrite app_assoc. apply plain_app; [apply plain_digits, Ho|]. apply plain_cons; [discriminate|intros []].
  - destruct W as (Hl & Hd & Hn). split.
    + cbn [app lit list_ascii_of_string]. rewrite <- app_assoc. cbn [app]. destruct (C78_codes before ds ("*"%char :: rest) (plain_not_named _ Hb) Hd eq_refl) as (HD & HG & HM).
      destruct Hl as [<-|[<-|[<-|[]]]].
      * apply rest_code. destruct (step before "D" (ds ++ "*"%char :: rest)) as [k t]. destruct (HD k t eq_refl) as (-> & _ & T). rewrite T; [reflexivity|].
        intros [X _]. exact (Hn eq_refl X).
      * apply rest_code, HG.
      * apply rest_code, HM.
    + apply plain_app; [|exact Hb]. apply plain_rev, plain_cons; [intros ->; cbn in Hl; intuition discriminate|]. apply plain_app; [apply plain_digits, Hd|].
      apply plain_cons; [discriminate|intros []].
  - split; [|apply plain_cons; [discriminate|exact Hb]]. exact (rest_step _ _ [] _ _ (step_end _ _)).
Qed.
(** Full statement: every command of a file is highlighted for what it is.  Proved for drawings,
    except that stars are errors to the lexer wherever they stand, and axes before a sign. *)
Theorem C78_drawing_partial :
  forall ls, Forall well ls -> kinds (lex (concat (map line_text ls))) = concat (map line_tokens ls).
Proof.
  intros ls H. change (rest_of [] (concat (map line_text ls)) = concat (map line_tokens ls)).
  assert (G : forall before, plain before -> rest_of before (concat (map line_text ls)) = concat (map line_tokens ls)); [|apply G; intros []].
  induction H as [|l ls Hl _ IH]; intros before Hb; [reflexivity|]. cbn [map concat]. destruct (rest_line l Hl before (concat (map line_text ls)) Hb) as [E P].
  rewrite E, IH by exact P. reflexivity.
Qed.
Print Assumptions C78_drawing_partial.

(** Every text with a star or a percent sign, that is every file, has an error token. *)
Theorem C78_star_refuted :
  forall before rest, step before "*" rest = (1, Error) /\ step before "%" rest = (1, Error).
Proof. intros before rest. split; [apply step_star|]. unfold step, rules. skips. reflexivity. Qed.
(** A name after a code with more than three digits is not recognised. *)
Theorem C78_long_code_refuted :
  let text := lit "%ADD1234C*%" in
  kinds (lex text) = [(Error, lit "%"); (Keyword, lit "AD"); (NameVariable, lit "D1234"); (Error, lit "C"); (Error, lit "*"); (Error, lit "%")] /\
  kinds (lex (lit "%ADD123C*%")) = [(Error, lit "%"); (Keyword, lit "AD"); (NameVariable, lit "D123"); (NameClass, lit "C"); (Error, lit "*"); (Error, lit "%")].
Proof. vm_compute. auto. Qed.
Print Assumptions C78_long_code_refuted.

(** ** Keywords and names of extended commands *)
Definition letters : string := "ABCDEFGHIJKLMNOPQRSTUVWXYZabcdefghijklmnopqrstuvwxyz".
Definition name_first_char (c : ascii) : Prop := In c (lit (letters ++ "._$")).
Definition name_char (c : ascii) : Prop := In c (lit (letters ++ "0123456789._")).
(** The text after which a name stands: [%AM], or [%ADD] with up to three digits. *)
Definition name_place (look : str) : Prop :=
  look = lit "%AM" \/ exists ds, look = lit "%ADD" ++ ds /\ digits ds /\ length ds <= 3.
Lemma name_start_in c : name_first_char c <-> name_start c = true.
Proof.
  unfold name_first_char. split; intros H.
  - assert (A : forallb name_start (lit (letters ++ "._$")) = true) by (vm_compute; reflexivity). rewrite forallb_forall in A. auto.
  - destruct c as [[] [] [] [] [] [] [] []]; vm_compute in H; try discriminate H; vm_compute; tauto.
Qed.
Lemma name_rest_in c : name_char c <-> name_rest c = true.
Proof.
  unfold name_char. split; intros H.
  - assert (A : forallb name_rest (lit (letters ++ "0123456789._")) = true) by (vm_compute; reflexivity). rewrite forallb_forall in A. auto.
  - destruct c as [[] [] [] [] [] [] [] []]; vm_compute in H; try discriminate H; vm_compute; tauto.
Qed.
Lemma name_is look before c n rest : behind look before = true -> name_first_char c -> Forall name_char n ->
  match rest with d :: _ => ~ name_char d | [] => True end -> name_after look before (c :: n ++ rest) = Some (S (length n)).
Proof.
  intros Hb Hc Hn Hr. apply name_start_in in Hc. unfold name_after. rewrite Hb, Hc. cbn [andb]. rewrite span_all; [reflexivity| |].
  - eapply Forall_impl; [|exact Hn]. intros a. apply name_rest_in.
  - destruct rest as [|d r]; [exact I|]. destruct (name_rest d) eqn:E; [|reflexivity]. apply name_rest_in in E. contradiction.
Qed.
Lemma word_behind w p before after : Ascii.eqb "%" p = false -> word "%" w (p :: before) after = None.
Proof. intros H. unfold word. change (behind (chars "%") (p :: before)) with (Ascii.eqb "%" p && true)%bool. rewrite H. reflexivity. Qed.
Lemma format_behind p before after : Ascii.eqb "S" p = false -> format_modes (p :: before) after = None.
Proof.
  intros H. unfold format_modes. destruct after as [|a [|b r]]; try reflexivity.
  change (behind (chars "%FS") (p :: before)) with (Ascii.eqb "S" p && behind (tl (chars "%FS")) before)%bool. rewrite H. reflexivity.
Qed.
Lemma units_behind p before after : Ascii.eqb "%" p = false -> Ascii.eqb "O" p = false -> unit_word (p :: before) after = None /\ unit_name (p :: before) after = None.
Proof.
  intros H1 H2. unfold unit_word, unit_name. change (behind (chars "%") (p :: before)) with (Ascii.eqb "%" p && true)%bool.
  change (behind (chars "%MO") (p :: before)) with (Ascii.eqb "O" p && behind (tl (chars "%MO")) before)%bool. rewrite H1, H2. auto.
Qed.
Lemma axis_letter x before c r : (Ascii.eqb c x = true -> no_digit r) -> axis x before (c :: r) = None.
Proof.
  intros H. unfold axis. destruct r as [|d r]; [reflexivity|]. destruct (Ascii.eqb c x); [|reflexivity]. rewrite (H eq_refl). reflexivity.
Qed.

(** A name after [%AM] or an aperture code of up to three digits is one token, unless it looks like a
    coordinate. *)
Theorem C78_names_partial :
  forall look before c n rest, name_place look -> name_first_char c -> Forall name_char n ->
    match rest with d :: _ => ~ name_char d | [] => True end ->
    (In c (lit "XYIJ") -> no_digit (n ++ rest)) ->
    step (rev look ++ before) c (n ++ rest) = (S (length n), NameClass).
Proof.
  intros look before c n rest Hl Hc Hn Hr Hx.
  assert (A : forall x b, In x (lit "XYIJ") -> axis x b (c :: n ++ rest) = None).
  { intros x b Hin. apply axis_letter. intros E. apply Ascii.eqb_eq in E as ->. auto. }
  assert (Ax := fun b => (A "X"%char b ltac:(cbn; tauto), A "Y"%char b ltac:(cbn; tauto), A "I"%char b ltac:(cbn; tauto), A "J"%char b ltac:(cbn; tauto))).
  clear A. unfold step.
  assert (F : first_match rules (rev look ++ before) (c :: n ++ rest) = Some (S (length n), NameClass)); [|rewrite F; reflexivity].
  destruct Hl as [->|(ds & -> & [Hne Hd] & Hlen)].
  - change (rev (lit "%AM") ++ before) with ("M"%char :: "A"%char :: "%"%char :: before). unfold rules.
    destruct (Ax ("M"%char :: "A"%char :: "%"%char :: before)) as [[[? ?] ?] ?].
    repeat (rewrite skip_rule by first [assumption|apply word_behind; reflexivity|apply format_behind; reflexivity|apply units_behind; reflexivity|apply name_none; reflexivity]).
    cbn [first_match]. rewrite name_is; [reflexivity| | | |]; auto.
  - destruct ds as [|d1 ds]; [congruence|]. inversion_clear Hd as [|? ? D1 Hd']. rename Hd' into Hd.
    assert (Hp : forall d, is_digit d = true -> Ascii.eqb "%" d = false /\ Ascii.eqb "S" d = false /\ Ascii.eqb "O" d = false /\ Ascii.eqb "D" d = false).
    { apply digit_cases. cbn [lit list_ascii_of_string]. repeat (apply Forall_cons; [repeat split; reflexivity|]). apply Forall_nil. }
    assert (E1 := proj2 (proj2 (proj2 (Hp d1 D1)))). rewrite rev_app_distr, <- app_assoc.
    destruct ds as [|d2 ds]; [|inversion_clear Hd as [|? ? D2 Hd'']; rename Hd'' into Hd2; destruct ds as [|d3 ds]; [|inversion_clear Hd2 as [|? ? D3 Hd3]; destruct ds; [|cbn in Hlen; lia]; assert (E2 := proj2 (proj2 (proj2 (Hp d2 D2))))]];
      cbn [rev app lit list_ascii_of_string];
      [destruct (Hp d1 D1) as (P1 & P2 & P3 & _)|destruct (Hp d2 D2) as (P1 & P2 & P3 & _)|destruct (Hp d3 D3) as (P1 & P2 & P3 & _)];
      match goal with |- first_match rules ?b _ = _ => destruct (Ax b) as [[[? ?] ?] ?] end; unfold rules;
      repeat (rewrite skip_rule by first [assumption|apply word_behind; assumption|apply format_behind; assumption|apply units_behind; assumption
        |apply name_none; cbn [behind chars rev map lit list_ascii_of_string app]; unfold dig; rewrite ?D1, ?D2, ?D3, ?E1, ?E2; reflexivity]);
      cbn [first_match]; (rewrite name_is; [reflexivity| | | |]; auto; cbn [behind chars rev map lit list_ascii_of_string app]; unfold dig; rewrite ?D1, ?D2, ?D3, ?E1, ?E2; reflexivity).
Qed.
Print Assumptions C78_names_partial.
(** A macro named X1 is split. *)
Theorem C78_axis_name_refuted :
  kinds (lex (lit "%AMX1*")) = [(Error, lit "%"); (Keyword, lit "AM"); (Keyword, lit "X"); (Number, lit "1"); (Error, lit "*")] /\
  kinds (lex (lit "%AMXA*")) = [(Error, lit "%"); (Keyword, lit "AM"); (NameClass, lit "XA"); (Error, lit "*")].
Proof. vm_compute. auto. Qed.

(** The first two letters of extended commands. *)
Definition two (w : string) : ascii * ascii := match w with String a (String b _) => (a, b) | _ => ("0"%char, "0"%char) end.
Theorem C78_keywords_partial :
  (forall w before rest, In w ["FS"; "IP"; "IR"; "OF"; "AS"; "MI"; "IN"; "SF"; "TA"; "TO"; "TF"; "TD"; "AD"; "AM"; "AB"; "SR"]%string ->
     step ("%"%char :: before) (fst (two w)) (snd (two w) :: rest) = (2, Keyword)) /\
  (forall u before rest, In u ["MM"; "IN"]%string ->
     step ("%"%char :: before) "M" ("O"%char :: lit u ++ rest) = (2, Keyword) /\
     step (rev (lit "%MO") ++ before) (fst (two u)) (snd (two u) :: rest) = (2, KeywordConstant)) /\
  (forall a b before rest, In a (lit "LT") -> In b (lit "AI") ->
     step (rev (lit "%FS") ++ before) a (b :: rest) = (2, KeywordConstant)).
Proof.
  split; [|split].
  - intros w before rest H. cbn [In] in H. repeat (destruct H as [<-|H]; [reflexivity|]). destruct H.
  - intros u before rest H. cbn [In] in H. repeat (destruct H as [<-|H]; [split; reflexivity|]). destruct H.
  - intros a b before rest Ha Hb. cbn in Ha, Hb.
    repeat (destruct Ha as [<-|Ha]; [repeat (destruct Hb as [<-|Hb]; [reflexivity|]); destruct Hb|]). destruct Ha.
Qed.
Print Assumptions C78_keywords_partial.
(** The commands that set the polarity, mirroring, rotation and scaling are errors. *)
Theorem C78_load_refuted :
  forall k before rest, In k (lit "PMRSN") -> step ("%"%char :: before) "L" (k :: rest) = (1, Error).
Proof. intros k before rest H. cbn in H. repeat (destruct H as [<-|H]; [destruct rest; reflexivity|]). destruct H. Qed.
Print Assumptions C78_load_refuted.

(** ** Cases *)
Example drawing_case :
  map line_text [Operation [lit "01"] [("X"%char, lit "100"); ("Y"%char, lit "-20")] 1 "1"; LineEnd; Code "D" (lit "10"); Code "M" (lit "02")] =
    [lit "G01X100Y-20D01*"; ["010"%char]; lit "D10*"; lit "M02*"] /\
  concat (map line_tokens [Operation [lit "01"] [("X"%char, lit "100"); ("Y"%char, lit "-20")] 1 "1"; LineEnd; Code "D" (lit "10"); Code "M" (lit "02")]) =
    [(Keyword, lit "G01"); (Keyword, lit "X"); (Number, lit "100"); (Error, lit "Y"); (Number, lit "-20"); (Keyword, lit "D01"); (Error, lit "*"); (Whitespace, ["010"%char]);
     (NameVariable, lit "D10"); (Error, lit "*"); (Keyword, lit "M02"); (Error, lit "*")].
Proof. vm_compute. auto. Qed.
Example signed_case : kinds (lex (lit "X-1D01*")) = [(Error, lit "X"); (Number, lit "-1"); (Keyword, lit "D01"); (Error, lit "*")].
Proof. vm_compute. reflexivity. Qed.
(** A code where a name is expected is read as the name. *)
Example named_case : kinds (lex (lit "%AMD10*%")) = [(Error, lit "%"); (Keyword, lit "AM"); (NameClass, lit "D10"); (Error, lit "*"); (Error, lit "%")].
Proof. vm_compute. reflexivity. Qed.

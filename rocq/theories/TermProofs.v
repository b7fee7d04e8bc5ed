(** Proofs about locations of expressions. *)
From Verif Require Import Base Num CoordModel Ast GramAst PegModel GramModel ResModel LocModel LocSpec LocTexts LocProofs SpotModel SpotSpec SpotProofs TermModel TermSpec.
Local Open Scope nat_scope.

(** ** The same expressions *)
Lemma same_followed {A B} (R : A -> B -> Prop) p q : same R p q -> same eq (followed_by p) (followed_by q).
Proof. intros H s. specialize (H s). unfold followed_by. destruct (p s) as [[a k] r| |], (q s) as [[b k'] r'| |]; try contradiction; auto. Qed.
Lemma same_many {A B} (R : A -> B -> Prop) n p q : same R p q -> same (Forall2 R) (many n p) (many n q).
Proof.
  intros H. induction n as [|n IH]; intros s; [reflexivity|]. cbn [many]. specialize (H s). destruct (p s) as [[a k] r| |], (q s) as [[b k'] r'| |]; try contradiction; auto.
  destruct H as (H & <- & <-). specialize (IH r). destruct (many n p r) as [[l k1] r1| |], (many n q r) as [[l' k2] r2| |]; try contradiction; auto.
  destruct IH as (IH & <- & <-). auto.
Qed.
Lemma same_many1 {A B} (R : A -> B -> Prop) n p q : same R p q -> same (Forall2 R) (many1 n p) (many1 n q).
Proof. intros H. unfold many1. apply (same_bind R); [exact H|]. intros a b Hab. apply (same_bind (Forall2 R)); [apply same_many, H|]. intros l l' Hl. apply same_ret. auto. Qed.

Section Same.
  Context {K T : Type} (rd : reader K T) (total : nat).
  Notation is_bare := (fun (x : term K) e => bare x = e).
  Lemma same_mark p q : same (fun x e => fst x = e) p q -> same is_bare (mark total p) q.
  Proof. intros H s. specialize (H s). unfold mark. destruct (p s) as [[[e l] k] r| |], (q s) as [[b k'] r'| |]; try contradiction; auto. Qed.
  Lemma same_unary n op mk last last' : same is_bare last last' -> same is_bare (unary_t total n op mk last) (unary n op mk last').
  Proof.
    intros H. induction n as [|n IH]; intros s; [reflexivity|]. cbn [unary_t unary]. revert s. apply same_first. repeat apply Forall2_cons; [|exact H|constructor].
    assert (L : same is_bare (pthen (lit_p op) (unary_t total n op mk last)) (pthen (lit_p op) (unary n op mk last'))).
    { apply (same_bind eq); [apply same_refl|]. intros _ _ _. exact IH. }
    apply (same_bind eq); [apply (same_followed _ _ _ L)|]. intros _ _ _. apply same_mark. apply (same_bind is_bare); [exact L|]. intros x e <-. apply same_ret. reflexivity.
  Qed.
  Lemma map_bare l l' : Forall2 is_bare l l' -> map bare l = l'.
  Proof. induction 1 as [|x e l l' <- _ IH]; cbn; congruence. Qed.
  Lemma same_binary {O} n (op : parser O) mk last last' : same is_bare last last' -> same is_bare (binary_t total n op mk last) (binary n op mk last').
  Proof.
    intros H. unfold binary_t, binary. apply same_first. repeat apply Forall2_cons; [|exact H|constructor].
    apply (same_bind eq).
    { apply (same_followed is_bare). apply (same_bind is_bare); [exact H|]. intros _ _ _. apply (same_bind eq); [apply same_refl|]. intros _ _ _. exact H. }
    intros _ _ _. apply same_mark. apply (same_bind is_bare); [exact H|]. intros h h' <-. apply (same_bind (Forall2 is_bare)).
    { apply same_many1, (same_bind eq); [apply same_refl|]. intros _ _ _. exact H. }
    intros t t' Ht%map_bare. apply same_ret. cbn. congruence.
  Qed.
  Lemma same_term n : same is_bare (term_p rd total n) (expr_p rd n).
  Proof.
    induction n as [|n IH]; intros s; [reflexivity|]. cbn [term_p expr_p]. revert s. do 4 apply same_binary. do 2 apply same_unary.
    apply same_first. repeat apply Forall2_cons; [| | |constructor].
    - apply same_mark, (same_bind eq); [apply same_refl|]. intros v ? <-. apply same_ret. reflexivity.
    - apply same_mark, (same_bind eq); [apply same_refl|]. intros v ? <-. apply same_ret. reflexivity.
    - apply same_mark, (same_bind eq); [apply same_refl|]. intros _ _ _. apply (same_bind is_bare); [exact IH|]. intros x e <-.
      apply (same_bind eq); [apply same_refl|]. intros _ _ _. apply same_ret. reflexivity.
  Qed.
  Lemma same_arg n : same is_bare (arg_t rd total n) (arg rd n).
  Proof. apply (same_bind eq); [apply same_refl|]. intros _ _ _. apply same_term. Qed.
  Lemma same_prim n : same (fun x p => fst x = p) (prim_t rd total n) (prim_p rd n).
  Proof.
    unfold prim_t, prim_p. cbv zeta. apply same_first. repeat apply Forall2_cons; [..|constructor]; apply same_command.
    { apply (same_bind (fun (y : term K) v => bare y = EVar v)).
      { intros s. unfold variable_t, mark, pbind, token. destruct (re_variable (skip s)) as [[v r]|]; [|exact I]. cbn. rewrite Nat.add_0_r. auto. }
      intros y v Ey. replace v with (name_of y) by (unfold name_of; rewrite Ey; reflexivity). apply (same_bind eq); [apply same_refl|]. intros _ _ _. apply (same_bind is_bare); [apply same_term|]. intros x e <-. apply same_ret. reflexivity. }
    all: (apply (same_bind eq); [apply same_refl|]; intros a0 ? <-).
    { apply (same_bind eq); [apply same_refl|]. intros v ? <-. apply same_ret. reflexivity. }
    all: do 4 (apply (same_bind is_bare); [apply same_arg|]; intros ? ? <-).
    { eapply same_bind; [apply same_opt, same_arg|]. intros [x|] [y|] Hx; try contradiction; apply same_ret; cbn; congruence. }
    2: { apply (same_bind (Forall2 (fun q p => (bare (fst q), bare (snd q)) = p))).
      { apply same_many1. do 2 (apply (same_bind is_bare); [apply same_arg|]; intros ? ? <-). apply same_ret. reflexivity. }
      intros pts pts' Hp. apply (same_bind is_bare); [apply same_arg|]. intros r ? <-. apply same_ret. cbn. f_equal.
      induction Hp as [|q p l l' <- _ IH]; cbn; congruence. }
    all: repeat (apply (same_bind is_bare); [apply same_arg|]; intros ? ? <-); apply same_ret; reflexivity.
  Qed.
End Same.

(** ** Where they are *)
Lemma lit_reads c s x k r : lit_p (String c "") s = POk (x, k) r -> skip s = c :: r /\ k = 1.
Proof.
  unfold lit_p, token. destruct (skip s) as [|d t]; [discriminate|]. cbn [lit list_ascii_of_string strip_prefix].
  destruct (Ascii.eqb c d) eqn:E; [|discriminate]. apply Ascii.eqb_eq in E as ->. intros [= _ Ek <-]. split; [reflexivity|]. rewrite <- Ek. change (S (length t) - length t = 1). lia.
Qed.
Definition op_reads {O} (c : ascii) (p : parser O) : Prop := forall s x k r, p s = POk (x, k) r ->
  exists d, (d = c \/ In c ["x"; "X"]%char /\ In d ["x"; "X"]%char) /\ skip s = d :: r /\ k = 1.
Lemma op_lit c : op_reads c (lit_p (String c "")).
Proof. intros s x k r E. apply lit_reads in E as [E ->]. eauto. Qed.
Lemma op_x : op_reads "x" (one_of ["x"; "X"]%string).
Proof.
  intros s x k r E. unfold one_of, token in E. destruct (first_prefix (map lit ["x"; "X"]%string) (skip s)) as [[a q]|] eqn:Ef; [|discriminate].
  apply GramText.first_prefix_some in Ef as [Hi Es]. injection E as <- Ek <-.
  assert (X : exists d, In d ["x"; "X"]%char /\ a = [d]) by (destruct Hi as [<-|[<-|[]]]; [exists "x"%char|exists "X"%char]; cbn; auto).
  destruct X as (d & Hd & ->). exists d. split; [right; cbn; auto|]. split; [exact Es|]. rewrite <- Ek, Es. change (S (length q) - length q = 1). lia.
Qed.

Lemma digits_reads s d r : re_digits s = Some (d, r) -> s = d ++ r /\ digits d.
Proof.
  unfold re_digits. pose proof (GramText.span_spec is_digit s) as (Hd & E & _). destruct (span is_digit s) as [[|c d'] q]; [discriminate|]. cbn [nonempty fst snd] in *.
  intros [= <- <-]. split; [exact E|]. split; [discriminate|]. apply Forall_forall. intros x Hx. exact (proj1 (forallb_forall _ _) Hd _ Hx).
Qed.
Lemma variable_reads s v r : re_variable s = Some (v, r) -> s = v ++ r /\ variable_text v.
Proof.
  unfold re_variable. destruct s as [|c t]; [discriminate|]. destruct (Ascii.eqb c "$") eqn:E; [|discriminate]. apply Ascii.eqb_eq in E as ->.
  destruct (re_digits t) as [[d q]|] eqn:Ed; [|discriminate]. intros [= <- <-]. apply digits_reads in Ed as [-> Hd]. split; [reflexivity|]. exists d. auto.
Qed.
Lemma sign_reads s : s = fst (opt_sign s) ++ snd (opt_sign s) /\ In (fst (opt_sign s)) [[]; ["+"]; ["-"]]%char.
Proof.
  destruct s as [|c s]; [split; [reflexivity|left; reflexivity]|]. cbn. destruct (is_sign c) eqn:E; [|split; [reflexivity|left; reflexivity]]. split; [reflexivity|].
  unfold is_sign in E. apply orb_true_iff in E as [E|E]; apply Ascii.eqb_eq in E as ->; cbn; auto.
Qed.
Lemma fraction_reads s : s = fst (opt_fraction s) ++ snd (opt_fraction s) /\ (fst (opt_fraction s) = [] \/ exists b, fst (opt_fraction s) = "."%char :: b /\ digits b).
Proof.
  destruct s as [|c s]; [auto|]. cbn. destruct (Ascii.eqb c ".") eqn:E; [|auto]. apply Ascii.eqb_eq in E as ->. destruct (re_digits s) as [[d q]|] eqn:Ed; [|auto].
  apply digits_reads in Ed as [-> Hd]. cbn. split; [reflexivity|]. eauto.
Qed.
Lemma double_reads s v r : re_double s = Some (v, r) -> s = v ++ r /\ number_text v.
Proof.
  unfold re_double. destruct (sign_reads s) as [Es Hs]. destruct (opt_sign s) as [sg s1]. cbn in Es, Hs. subst s.
  destruct (re_digits s1) as [[d s2]|] eqn:Ed.
  - apply digits_reads in Ed as [-> Hd]. destruct (fraction_reads s2) as [E2 Hf]. destruct (opt_fraction s2) as [f s3]. cbn in E2, Hf. subst s2. intros [= <- <-].
    rewrite <- !app_assoc. split; [reflexivity|]. exists sg, (d ++ f). split; [reflexivity|]. split; [exact Hs|].
    destruct Hf as [->|(b & -> & Hb)]; [left; rewrite app_nil_r; exact Hd|right; eauto 6].
  - destruct (fraction_reads s1) as [E2 Hf]. destruct (opt_fraction s1) as [f s3]. cbn in E2, Hf. subst s1. destruct f as [|c f]; [discriminate|]. cbn [nonempty]. intros [= <- <-].
    rewrite <- app_assoc. split; [reflexivity|]. exists sg, (c :: f). split; [reflexivity|]. split; [exact Hs|]. right.
    destruct Hf as [Q|(b & [= -> ->] & Hb)]; [discriminate|]. exists [], b. auto.
Qed.

Section Where.
  Context {K T : Type} (rd : reader K T) (total : nat).
  Notation spelled := (spelled (r_num rd)).
  Notation operands := (operands (r_num rd)).
  Notation listed := (listed (r_num rd)).
  Definition termed (p : parser (term K)) : Prop := forall s x k r, length s <= total -> p s = POk (x, k) r ->
    exists u, skip s = u ++ r /\ spelled (total - length (skip s)) u x /\ k = len_of x.
  Lemma skip_le s : length (skip s) <= length s.
  Proof. destruct (skip_split s) as (b & E & _). rewrite E at 2. rewrite app_length. lia. Qed.
  Lemma termed_first ps : Forall termed ps -> termed (first_of ps).
  Proof. rewrite Forall_forall. intros H s a k r Hs E. apply first_inv in E as (p & Hp & E). exact (H p Hp _ _ _ _ Hs E). Qed.
  Lemma followed_inv {A B} (p : parser A) (q : parser B) s x r : pthen (followed_by p) q s = POk x r -> q s = POk x r.
  Proof.
    unfold pthen, pbind, followed_by. destruct (p s) as [[a k] r0| |]; try discriminate. destruct (q s) as [[b k'] r'| |]; try discriminate. auto.
  Qed.
  Lemma mark_inv p s x k r : mark (K := K) total p s = POk (x, k) r -> exists e l, p s = POk ((e, l), k) r /\ x = TM e (total - length (skip s)) k l.
  Proof. unfold mark. destruct (p s) as [[[e l] k'] r'| |]; try discriminate. intros [= <- <- <-]. eauto. Qed.
  Lemma bind_inv {A B} (p : parser A) (f : A -> parser B) s y k r : pbind p f s = POk (y, k) r ->
    exists a k1 r1 k2, p s = POk (a, k1) r1 /\ f a r1 = POk (y, k2) r /\ k = k1 + k2.
  Proof.
    unfold pbind. destruct (p s) as [[a k1] r1| |]; try discriminate. destruct (f a r1) as [[b k2] r2| |] eqn:E; try discriminate. intros [= <- <- <-]. eauto 8.
  Qed.
  Lemma ret_inv {A} (a : A) s y k r : ret a s = POk (y, k) r -> y = a /\ k = 0 /\ r = s.
  Proof. intros [= <- <- <-]. auto. Qed.
  (** An operator, then an expression. *)
  Lemma after_op c s t s1 u r (x : term K) : length s <= total -> skip s = c :: s1 -> skip s1 = u ++ r -> spelled (total - length (skip s1)) u x ->
    t = s1 -> exists w, skip s = c :: w ++ u ++ r /\ gap w /\ spelled (total - length (skip s) + 1 + length w) u x.
  Proof.
    intros Hs Es Eu Hx ->. destruct (skip_split s1) as (w & Ew & Hw). exists w. rewrite Es. split; [rewrite Ew at 1; rewrite Eu; reflexivity|]. split; [exact Hw|].
    pose proof (skip_le s) as L. rewrite Es in L. cbn [length] in L |- *. rewrite Ew in L |- *. rewrite app_length in L |- *.
    replace (total - S (length w + length (skip s1)) + 1 + length w) with (total - length (skip s1)) by lia. exact Hx.
  Qed.
  Lemma rest_le s c s1 : length s <= total -> skip s = c :: s1 -> length s1 <= total.
  Proof. intros Hs E. pose proof (skip_le s) as L. rewrite E in L. cbn in L. lia. Qed.
  Lemma termed_unary n c mk last : In (c, mk) [("-"%char, ENeg); ("+"%char, EPos)] -> termed last -> termed (unary_t total n (String c "") mk last).
  Proof.
    intros Hc Hl. induction n as [|n IH]; intros s x k r Hs E; [discriminate|]. cbn [unary_t] in E. apply first_inv in E as (p & [<-|[<-|[]]] & E); [|exact (Hl _ _ _ _ Hs E)].
    apply followed_inv in E. apply mark_inv in E as (e & l & E & ->). apply bind_inv in E as (y & k1 & r1 & k2 & E & E' & ->). apply ret_inv in E' as ([= -> ->] & -> & ->).
    unfold pthen in E. apply bind_inv in E as (u0 & k3 & s1 & k4 & E & E' & ->). apply lit_reads in E as [Es ->].
    destruct (IH _ _ _ _ (rest_le _ _ _ Hs Es) E') as (u & Eu & Hu & ->). destruct (after_op c s s1 s1 u r1 y Hs Es Eu Hu eq_refl) as (w & Ew & Hw & Hx).
    exists (c :: w ++ u). split; [rewrite Ew; cbn; rewrite <- app_assoc; reflexivity|]. cbn [len_of]. rewrite Nat.add_0_r. split; [|reflexivity].
    destruct Hc as [[= <- <-]|[[= <- <-]|[]]]; constructor; assumption.
  Qed.
  Lemma many_operands {O} n c (op : parser O) last : op_reads c op -> termed last -> forall s t k r, length s <= total ->
    many n (pthen op last) s = POk (t, k) r -> exists u, s = u ++ r /\ operands (total - length s) u c t /\ k = list_sum (map (fun x => 1 + len_of x) t).
  Proof.
    intros Ho Hl. induction n as [|n IH]; intros s t k r Hs E; [discriminate|]. cbn [many] in E. destruct (pthen op last s) as [[x k1] r1| |] eqn:Ep; try discriminate.
    2: { injection E as <- <- <-. exists []. split; [reflexivity|]. split; [constructor|reflexivity]. }
    destruct (many n (pthen op last) r1) as [[t' k2] r2| |] eqn:Em; try discriminate. injection E as <- <- <-.
    unfold pthen in Ep. apply bind_inv in Ep as (o & k3 & s1 & k4 & E & E' & ->). destruct (Ho _ _ _ _ E) as (d & Hd & Es & ->).
    destruct (Hl _ _ _ _ (rest_le _ _ _ Hs Es) E') as (u & Eu & Hu & ->). destruct (after_op d s s1 s1 u r1 x Hs Es Eu Hu eq_refl) as (w' & Ew & Hw & Hx).
    destruct (skip_split s) as (w & Es' & Hw0). rewrite Ew in Es'.
    assert (L : length s = length w + S (length w' + (length u + length r1))) by (rewrite Es'; rewrite !app_length; cbn; rewrite !app_length; reflexivity).
    destruct (IH r1 _ _ _ ltac:(lia) Em) as (u2 & Eu2 & H2 & ->). exists (w ++ d :: w' ++ u ++ u2).
    split; [rewrite Es', Eu2 at 1; rewrite <- !app_assoc; cbn; rewrite <- !app_assoc; reflexivity|]. split; [|reflexivity].
    rewrite Ew in Hx. cbn [length] in Hx. rewrite !app_length in Hx. constructor; auto.
    - replace (total - length s + length w + 1 + length w') with (total - S (length w' + (length u + length r1)) + 1 + length w') by lia. exact Hx.
    - replace (total - length s + length w + 1 + length w' + length u) with (total - length r1) by lia. exact H2.
  Qed.
  Lemma termed_binary {O} n c (op : parser O) mk last : op_reads c op -> (forall h t, joined c h t = Some (mk h t)) -> termed last -> termed (binary_t total n op mk last).
  Proof.
    intros Ho Hm Hl. unfold binary_t. apply termed_first. constructor; [|constructor; [exact Hl|constructor]]. intros s x k r Hs E.
    apply followed_inv in E. apply mark_inv in E as (e & l & E & ->). apply bind_inv in E as (h & k1 & r1 & k2 & E & E' & ->).
    apply bind_inv in E' as (t & k3 & r2 & k4 & E1 & E' & ->). apply ret_inv in E' as ([= -> ->] & -> & ->).
    destruct (Hl _ _ _ _ Hs E) as (u & Eu & Hu & ->). pose proof (skip_le s) as L. rewrite Eu, app_length in L.
    assert (M : many (S n) (pthen op last) r1 = POk (t, k3) r2 /\ t <> []).
    { unfold many1 in E1. apply bind_inv in E1 as (a & k5 & r3 & k6 & E1 & E2 & ->). apply bind_inv in E2 as (b & k7 & r4 & k8 & E2 & E3 & ->).
      apply ret_inv in E3 as (-> & -> & ->). split; [|discriminate]. cbn [many]. rewrite E1, E2. do 3 f_equal. lia. }
    destruct M as [M Ht]. destruct (many_operands (S n) c op last Ho Hl r1 t k3 r2 ltac:(lia) M) as (u2 & Eu2 & H2 & ->).
    exists (u ++ u2). split; [rewrite Eu, Eu2 at 1; rewrite app_assoc; reflexivity|]. cbn [len_of]. rewrite Nat.add_0_r. split; [|reflexivity].
    apply (sp_operation _ _ _ _ _ _ c); auto. replace (total - length (skip s) + length u) with (total - length r1); [exact H2|]. rewrite Eu, app_length. lia.
  Qed.
  Lemma termed_term n : termed (term_p rd total n).
  Proof.
    induction n as [|n IH]; [intros s x k r Hs; discriminate|]. intros s x k r Hs E. cbn [term_p] in E. revert s x k r Hs E.
    match goal with |- forall s x k r, _ -> ?p s = _ -> _ => change (termed p) end.
    apply (termed_binary _ "+"); [apply op_lit|reflexivity|]. apply (termed_binary _ "-"); [apply op_lit|reflexivity|].
    apply (termed_binary _ "x"); [apply op_x|reflexivity|]. apply (termed_binary _ "/"); [apply op_lit|reflexivity|].
    apply termed_unary; [cbn; auto|]. apply termed_unary; [cbn; auto|]. apply termed_first. repeat apply Forall_cons; [| | |constructor].
    - intros s x k r Hs E. apply mark_inv in E as (e & l & E & ->). apply bind_inv in E as (v & k1 & r1 & k2 & E & E' & ->). apply ret_inv in E' as ([= -> ->] & -> & ->).
      unfold token in E. destruct (re_variable (skip s)) as [[v' r']|] eqn:Ev; [|discriminate]. injection E as -> <- ->. apply variable_reads in Ev as [Ev Hv].
      exists v. split; [exact Ev|]. cbn [len_of]. rewrite Nat.add_0_r. replace (length (skip s) - length r1) with (length v) by (rewrite Ev, app_length; lia). split; [constructor; exact Hv|reflexivity].
    - intros s x k r Hs E. apply mark_inv in E as (e & l & E & ->). apply bind_inv in E as (v & k1 & r1 & k2 & E & E' & ->). apply ret_inv in E' as ([= -> ->] & -> & ->).
      unfold num_p in E. apply bind_inv in E as (v' & k3 & r2 & k4 & E & E' & ->). apply ret_inv in E' as (-> & -> & ->).
      unfold double_p, token in E. destruct (re_double (skip s)) as [[d r']|] eqn:Ev; [|discriminate]. injection E as -> <- ->. apply double_reads in Ev as [Ev Hv].
      exists v'. split; [exact Ev|]. cbn [len_of]. rewrite !Nat.add_0_r. replace (length (skip s) - length r2) with (length v') by (rewrite Ev, app_length; lia). split; [constructor; exact Hv|reflexivity].
    - intros s x k r Hs E. apply mark_inv in E as (e & l & E & ->). unfold pthen in E. apply bind_inv in E as (u0 & k3 & s1 & k4 & E & E' & ->). apply lit_reads in E as [Es ->].
      apply bind_inv in E' as (y & k1 & r1 & k2 & E & E' & ->). apply bind_inv in E' as (u1 & k5 & s2 & k6 & E' & E2 & ->). apply lit_reads in E' as [Es2 ->].
      apply ret_inv in E2 as ([= -> ->] & -> & ->). destruct (IH _ _ _ _ (rest_le _ _ _ Hs Es) E) as (u & Eu & Hu & ->).
      destruct (after_op _ s s1 s1 u r1 y Hs Es Eu Hu eq_refl) as (w & Ew & Hw & Hx). destruct (skip_split r1) as (w' & Ew' & Hw').
      exists ("("%char :: w ++ u ++ w' ++ [")"%char]). split; [rewrite Ew, Ew', Es2; cbn; rewrite <- !app_assoc; reflexivity|].
      cbn [len_of]. replace (1 + (len_of y + (1 + 0))) with (1 + len_of y + 1) by lia. split; [|reflexivity]. constructor; assumption.
  Qed.

  (** ** Lists of expressions *)
  Lemma listed_gap g from t l : gap g -> listed (from + length g) t l -> listed from (g ++ t) l.
  Proof.
    intros Hg H. inversion H as [? w Hw|? w w' u rest x l' H1 H2 H3 H4]; subst.
    - constructor. apply Forall_app. auto.
    - rewrite app_assoc. replace (from + length g + length w) with (from + length (g ++ w)) in * by (rewrite app_length; lia).
      constructor; auto. apply Forall_app. auto.
  Qed.
  Lemma listed_app from u l : listed from u l -> forall u' l', listed (from + length u) u' l' -> listed from (u ++ u') (l ++ l').
  Proof.
    induction 1 as [from w Hw|from w w' u rest x l H1 H2 H3 _ IH]; intros u' l' H'; [apply listed_gap; assumption|].
    rewrite <- app_assoc. cbn [app]. rewrite <- !app_assoc. constructor; auto. apply IH.
    rewrite !app_length in H'. cbn [length] in H'. rewrite !app_length in H'. replace (from + length w + 1 + length w' + length u + length rest) with (from + (length w + S (length w' + (length u + length rest)))) by lia. exact H'.
  Qed.
  Definition lists {A} (R : A -> list (term K) -> Prop) (p : parser A) : Prop := forall s a k r, length s <= total -> p s = POk (a, k) r ->
    exists u l, s = u ++ r /\ R a l /\ listed (total - length s) u l.
  Lemma lists_bind {A B} (R1 : A -> list (term K) -> Prop) R (p : parser A) (f : A -> parser B) : lists R1 p ->
    (forall a l1, R1 a l1 -> lists (fun b l => R b (l1 ++ l)) (f a)) -> lists R (pbind p f).
  Proof.
    intros Hp Hf s b k r Hs E. apply bind_inv in E as (a & k1 & r1 & k2 & E & E' & ->). destruct (Hp _ _ _ _ Hs E) as (u & l1 & Eu & H1 & Hl).
    assert (L : length r1 <= total) by (rewrite Eu, app_length in Hs; lia). destruct (Hf a l1 H1 _ _ _ _ L E') as (u' & l2 & Eu' & H2 & Hl').
    exists (u ++ u'), (l1 ++ l2). rewrite <- app_assoc, <- Eu'. split; [exact Eu|]. split; [exact H2|]. apply listed_app; [exact Hl|].
    replace (total - length s + length u) with (total - length r1); [exact Hl'|]. rewrite Eu, app_length in *. lia.
  Qed.
  Lemma lists_ret {A} (R : A -> list (term K) -> Prop) a : R a [] -> lists R (ret a).
  Proof. intros H s b k r Hs E. apply ret_inv in E as (-> & -> & ->). exists [], []. split; [reflexivity|]. split; [exact H|]. constructor. constructor. Qed.
  Lemma lists_weaken {A} (R R' : A -> list (term K) -> Prop) p : lists R p -> (forall a l, R a l -> R' a l) -> lists R' p.
  Proof. intros H HR s a k r Hs E. destruct (H _ _ _ _ Hs E) as (u & l & Eu & Hr & Hl). eauto 6. Qed.
  Lemma lists_arg n : lists (fun x l => l = [x]) (arg_t rd total n).
  Proof.
    intros s x k r Hs E. unfold arg_t, pthen in E. apply bind_inv in E as (u0 & k3 & s1 & k4 & E & E' & ->). apply lit_reads in E as [Es ->].
    destruct (termed_term n _ _ _ _ (rest_le _ _ _ Hs Es) E') as (u & Eu & Hu & ->). destruct (after_op _ s s1 s1 u r x Hs Es Eu Hu eq_refl) as (w' & Ew & Hw & Hx).
    destruct (skip_split s) as (w & Es' & Hw0). rewrite Ew in Es'.
    assert (L : length s = length w + S (length w' + (length u + length r))) by (rewrite Es'; rewrite !app_length; cbn; rewrite !app_length; reflexivity).
    exists (w ++ ","%char :: w' ++ u ++ []), [x]. split; [rewrite Es' at 1; rewrite <- !app_assoc; cbn; rewrite <- !app_assoc; reflexivity|]. split; [reflexivity|].
    rewrite Ew in Hx. cbn [length] in Hx. rewrite !app_length in Hx. constructor; auto; [|constructor; constructor].
    replace (total - length s + length w + 1 + length w') with (total - S (length w' + (length u + length r)) + 1 + length w') by lia. exact Hx.
  Qed.
  Lemma lists_opt n : lists (fun o l => l = match o with Some x => [x] | None => [] end) (opt (arg_t rd total n)).
  Proof.
    intros s o k r Hs E. unfold opt in E. destruct (skip_split s) as (w & Es & Hw). pose proof (skip_le s) as L.
    destruct (arg_t rd total n (skip s)) as [[x k1] r1| |] eqn:Ea; try discriminate; injection E as <- <- <-.
    - destruct (lists_arg n _ _ _ _ (Nat.le_trans _ _ _ L Hs) Ea) as (u & l & Eu & -> & Hl). exists (w ++ u), [x].
      split; [rewrite <- app_assoc, <- Eu; exact Es|]. split; [reflexivity|]. apply listed_gap; [exact Hw|].
      replace (total - length s + length w) with (total - length (skip s)); [exact Hl|]. apply (f_equal (@length _)) in Es. rewrite app_length in Es. lia.
    - exists w, []. split; [exact Es|]. split; [reflexivity|]. constructor. exact Hw.
  Qed.
  Lemma lists_many {A} (R : A -> list (term K) -> Prop) n p : lists R p -> lists (fun l t => exists ts, Forall2 R l ts /\ t = concat ts) (many n p).
  Proof.
    intros H. induction n as [|n IH]; intros s l k r Hs E; [discriminate|]. cbn [many] in E. destruct (p s) as [[x k1] r1| |] eqn:Ep; try discriminate.
    2: { injection E as <- <- <-. exists [], []. split; [reflexivity|]. split; [exists []; auto|]. constructor. constructor. }
    destruct (many n p r1) as [[l2 k2] r2| |] eqn:E2; try discriminate. injection E as <- <- <-. destruct (H _ _ _ _ Hs Ep) as (u & t & Eu & Hr & Hl).
    assert (L : length r1 <= total) by (rewrite Eu, app_length in Hs; lia). destruct (IH _ _ _ _ L E2) as (u' & t' & Eu' & (ts & Hts & ->) & Hl').
    exists (u ++ u'), (t ++ concat ts). rewrite <- app_assoc, <- Eu'. split; [exact Eu|]. split; [exists (t :: ts); auto|]. apply listed_app; [exact Hl|].
    replace (total - length s + length u) with (total - length r1); [exact Hl'|]. rewrite Eu, app_length in *. lia.
  Qed.
  (** The end of a command. *)
  Lemma star_reads s x k r : asterisk s = POk (x, k) r -> exists w, s = w ++ "*"%char :: r /\ gap w.
  Proof. intros E. apply lit_reads in E as [E _]. destruct (skip_split s) as (w & Ew & Hw). rewrite E in Ew. eauto. Qed.
  Lemma listed_end from u l w : listed from u l -> gap w -> listed from (u ++ w) l.
  Proof. intros H Hw. rewrite <- (app_nil_r l). apply listed_app; [exact H|]. constructor. exact Hw. Qed.
  Lemma code_reads c : forall s x k r, lit_p c s = POk (x, k) r -> skip s = lit c ++ r /\ length r <= length s.
  Proof.
    intros s x k r E. unfold lit_p, token in E. destruct (strip_prefix (lit c) (skip s)) as [q|] eqn:Eq; [|discriminate]. injection E as _ _ <-.
    apply GramText.strip_prefix_some in Eq. split; [exact Eq|]. pose proof (skip_le s) as L. rewrite Eq, app_length in L. lia.
  Qed.
  Definition coded (p : prim K) : Prop := match p with PAssign _ _ | PCode0 _ => False | _ => True end.
  Lemma coded_out from u p l t : coded p -> u = code_of p ++ t ++ ["*"%char] -> listed (from + length (code_of p)) t l -> laid_out (r_num rd) from u p l.
  Proof. intros Hp -> Hl. destruct p; try contradiction; exists t; auto. Qed.
  Definition outs (p : parser (prim K * list (term K))) : Prop := forall s a k r, length s <= total -> p s = POk (a, k) r ->
    exists u, skip s = u ++ r /\ laid_out (r_num rd) (total - length (skip s)) u (fst a) (snd a) /\ map bare (snd a) = args_of (fst a).
  Lemma outs_primitive c p : lists (fun a l => l = snd a /\ (coded (fst a) /\ code_of (fst a) = lit c) /\ map bare l = args_of (fst a)) p -> outs (primitive_t c p).
  Proof.
    intros Hp s a k r Hs E. unfold primitive_t, command, pthen in E. apply bind_inv in E as (a1 & k1 & r1 & k2 & E & E' & ->).
    apply bind_inv in E' as (x & k3 & r2 & k4 & E' & E2 & ->). apply ret_inv in E2 as (-> & -> & ->). destruct (star_reads _ _ _ _ E') as (w & Ew & Hw).
    apply bind_inv in E as (y & k5 & r3 & k6 & E & E3 & ->). destruct (code_reads c _ _ _ _ E) as [Es L].
    destruct (Hp _ _ _ _ (Nat.le_trans _ _ _ L Hs) E3) as (u & l & Eu & (-> & (Hk & Hc) & Ha) & Hl).
    exists (lit c ++ (u ++ w) ++ ["*"%char]). split; [rewrite Es, Eu, Ew; rewrite <- !app_assoc; reflexivity|]. split; [|exact Ha].
    apply (coded_out _ _ _ _ (u ++ w)); [exact Hk|rewrite Hc; reflexivity|]. rewrite Hc. apply listed_end; [|exact Hw].
    replace (total - length (skip s) + length (lit c)) with (total - length r3); [exact Hl|]. pose proof (skip_le s) as L'. rewrite Es, app_length in *. lia.
  Qed.
  Ltac take := eapply lists_bind; [apply lists_arg|intros ? ? ->; cbn [app]].
  Ltac done_args := apply lists_ret; cbn; auto.
  Lemma outs_prim n : outs (prim_t rd total n).
  Proof.
    intros s a k r Hs E. unfold prim_t in E. cbv zeta in E. apply first_inv in E as (p & Hp & E). revert s a k r Hs E. change (outs p).
    cbn [In] in Hp. destruct Hp as [<-|[<-|[<-|[<-|[<-|[<-|[<-|[<-|[<-|[<-|[<-|[]]]]]]]]]]]]; only 3-11: apply outs_primitive.
    - intros s a k r Hs E. unfold assignment_t, command, pthen in E. apply bind_inv in E as (a1 & k1 & r1 & k2 & E & E' & ->).
      apply bind_inv in E' as (x & k3 & r2 & k4 & E' & E2 & ->). apply ret_inv in E2 as (-> & -> & ->). destruct (star_reads _ _ _ _ E') as (w2 & Ew2 & Hw2).
      apply bind_inv in E as (y0 & k5 & r3 & k6 & E & E3 & ->). apply bind_inv in E3 as (y & k7 & r4 & k8 & E4 & E3 & ->). apply lit_reads in E4 as [E4 _].
      apply bind_inv in E3 as (t & k9 & r5 & k10 & E5 & E3 & ->). apply ret_inv in E3 as (-> & -> & ->).
      apply mark_inv in E as (e0 & l0 & E & ->). apply bind_inv in E as (v & k11 & r6 & k12 & E & E7 & ->). apply ret_inv in E7 as ([= -> ->] & -> & <-).
      unfold token in E. destruct (re_variable (skip s)) as [[v' r']|] eqn:Ev; [|discriminate]. injection E as -> <- ->. apply variable_reads in Ev as [Ev Hv].
      assert (Ek : length (skip s) - length r3 = length v) by (rewrite Ev, app_length; lia). rewrite Ek, Nat.add_0_r. change (name_of (TM (EVar v) _ _ [])) with v.
      pose proof (skip_le s) as L. rewrite Ev, app_length in L.
      destruct (termed_term n _ _ _ _ (rest_le r3 _ _ ltac:(lia) E4) E5) as (u & Eu & Hu & _).
      destruct (after_op _ r3 r4 r4 u r5 t ltac:(lia) E4 Eu Hu eq_refl) as (w' & Ew & Hw & Hx). destruct (skip_split r3) as (w & E3 & Hw0). rewrite Ew in E3.
      exists (v ++ w ++ "="%char :: w' ++ u ++ w2 ++ ["*"%char]). cbn [fst snd]. split; [|split; [|reflexivity]].
      + rewrite Ev, E3, Ew2. rewrite <- !app_assoc. cbn. rewrite <- !app_assoc. reflexivity.
      + exists w, w', u, w2, (TM (EVar v) (total - length (skip s)) (length v) []), t. repeat (split; [reflexivity || assumption|]). split; [|split; [constructor; exact Hv|reflexivity]].
        assert (L3 : length r3 = length w + length (skip r3)) by (rewrite E3 at 1; rewrite <- Ew; apply app_length).
        replace (total - length (skip s) + length v + length w + 1 + length w') with (total - length (skip r3) + 1 + length w'); [exact Hx|]. rewrite Ev, app_length. lia.
    - intros s a k r Hs E. unfold primitive_t, command, pthen in E. apply bind_inv in E as (a1 & k1 & r1 & k2 & E & E' & ->).
      apply bind_inv in E' as (x & k3 & r2 & k4 & E' & E2 & ->). apply ret_inv in E2 as (-> & -> & ->). destruct (star_reads _ _ _ _ E') as (w & Ew & Hw).
      apply bind_inv in E as (y & k5 & r3 & k6 & E & E3 & ->). apply lit_reads in E as [Es _]. apply bind_inv in E3 as (v & k7 & r4 & k8 & E & E3 & ->). apply ret_inv in E3 as (-> & -> & ->).
      assert (X : r3 = v ++ r4).
      { unfold string_p, chars_not_in in E. match type of E with context [span ?f r3] => pose proof (GramText.span_spec f r3) as (_ & X & _); destruct (span f r3) as [[|c q] q'] end; [discriminate|].
        injection E as <- _ <-. exact X. }
      exists ("0"%char :: v ++ w ++ ["*"%char]). split; [rewrite Es, X, Ew; cbn; rewrite <- !app_assoc; reflexivity|]. split; [|reflexivity]. exists w. auto.
    - do 4 take. eapply lists_bind; [apply lists_opt|]. intros o l ->. apply lists_ret. destruct o; cbn; auto.
    - do 7 take. done_args.
    - do 4 take. eapply (lists_bind (fun pts l => l = flat_map (fun q => [fst q; snd q]) pts)).
      + apply (lists_weaken (fun pts l => exists ts, Forall2 (fun (q : term K * term K) t => t = [fst q; snd q]) pts ts /\ l = concat ts)).
        * unfold many1. eapply (lists_bind (fun (q : term K * term K) t => t = [fst q; snd q])); [do 2 take; done_args|]. intros q l1 ->.
          eapply lists_bind; [apply lists_many with (R := fun (q : term K * term K) t => t = [fst q; snd q]); do 2 take; done_args|].
          intros qs l (ts & Hts & ->). apply lists_ret. exists ([fst q; snd q] :: ts). rewrite app_nil_r. auto.
        * intros pts l (ts & Hts & ->). induction Hts as [|q t qs ts -> _ IH]; cbn; congruence.
      + intros pts l ->. take. apply lists_ret. cbn. rewrite !map_app. cbn. split; [reflexivity|]. split; [split; [exact I|reflexivity]|]. do 4 f_equal. f_equal.
        clear. induction pts as [|q pts IH]; cbn; congruence.
    - do 6 take. done_args.
    - do 9 take. done_args.
    - do 6 take. done_args.
    - do 7 take. done_args.
    - do 6 take. done_args.
    - do 6 take. done_args.
  Qed.
End Where.

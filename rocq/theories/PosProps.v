(** * C69: lines and columns *)
From Verif Require Import Base HashModel HashProps PosModel.
Open Scope Z_scope.

(** The place of an offset: [above] are whole lines, [left] is what precedes it in its line. *)
Definition whole_lines (t : str) : Prop := t = [] \/ exists u, t = u ++ [lf].
Definition placed_at (s : str) (loc : nat) (above left : str) : Prop :=
  (exists right, s = above ++ left ++ right) /\ loc = length (above ++ left) /\ whole_lines above /\ ~ In lf left.
(** Reading order. *)
Definition before (a b : position) : Prop := ps_line a < ps_line b \/ ps_line a = ps_line b /\ ps_column a < ps_column b.

Lemma is_lf_spec c : is_lf c = true <-> c = lf.
Proof. unfold is_lf. destruct (ascii_dec c lf); split; congruence. Qed.
Lemma count_app a b : count_lf (a ++ b) = count_lf a + count_lf b.
Proof. unfold count_lf. rewrite filter_app, app_length. lia. Qed.
Lemma count_none t : ~ In lf t -> count_lf t = 0.
Proof.
  intros H. unfold count_lf. induction t as [|c t IH]; [reflexivity|]. cbn [filter]. destruct (is_lf c) eqn:E.
  - apply is_lf_spec in E. subst. exfalso. apply H. left. reflexivity.
  - apply IH. intros Hi. apply H. right. exact Hi.
Qed.
Lemma count_nonneg t : 0 <= count_lf t.
Proof. unfold count_lf. lia. Qed.
Lemma rfind_none t : ~ In lf t -> forall i f, rfind_lf t i f = f.
Proof.
  induction t as [|c t IH]; intros H i f; [reflexivity|]. cbn [rfind_lf]. destruct (is_lf c) eqn:E.
  - apply is_lf_spec in E. subst. exfalso. apply H. left. reflexivity.
  - apply IH. intros Hi. apply H. right. exact Hi.
Qed.
Lemma rfind_app a : forall b i f, rfind_lf (a ++ b) i f = rfind_lf b (i + Z.of_nat (length a)) (rfind_lf a i f).
Proof.
  induction a as [|c a IH]; intros b i f; cbn [app rfind_lf length]; [f_equal; lia|]. rewrite IH. f_equal; lia.
Qed.
Lemma split_lines t : exists above left, t = above ++ left /\ whole_lines above /\ ~ In lf left.
Proof.
  induction t as [|c t IH] using rev_ind; [exists [], []; repeat split; [left; reflexivity|intros []]|].
  destruct IH as (a & l & -> & Ha & Hl). destruct (ascii_dec c lf) as [->|N].
  - exists ((a ++ l) ++ [lf]), []. rewrite app_nil_r. repeat split; [right; eexists; reflexivity|intros []].
  - exists a, (l ++ [c]). rewrite app_assoc. repeat split; [exact Ha|]. intros Hi. apply in_app_iff in Hi as [Hi|[Hi|[]]]; [auto|congruence].
Qed.

(** Every offset has a place; its line is one more than the number of lines above, its column one
    more than the length of what is to the left. *)
Theorem C69_place :
  forall (s : str) (loc : nat), (loc <= length s)%nat ->
    (exists above left, placed_at s loc above left) /\
    forall above left, placed_at s loc above left ->
      source_position s loc = MkPosition (count_lf above + 1) (Z.of_nat (length left) + 1).
Proof.
  intros s loc Hl. split.
  - destruct (split_lines (firstn loc s)) as (above & left & E & Ha & Hn).
    assert (Hlen : loc = length (above ++ left)) by (rewrite <- E, firstn_length; lia).
    exists above, left. split; [exists (skipn loc s); rewrite app_assoc, <- E; symmetry; apply firstn_skipn|]. split; [exact Hlen|]. split; assumption.
  - intros above left ((right & ->) & Hlen & Ha & Hn). rewrite app_assoc in *.
    assert (E : firstn loc ((above ++ left) ++ right) = above ++ left) by (rewrite firstn_app, Hlen, Nat.sub_diag, firstn_all; apply app_nil_r).
    unfold source_position, lineno, col. rewrite E, count_app, (count_none left Hn). rewrite rfind_app, (rfind_none left Hn). f_equal; [lia|].
    assert (R : rfind_lf above 0 (-1) = Z.of_nat (length above) - 1).
    { destruct Ha as [->|(u & ->)]; [reflexivity|]. rewrite rfind_app. cbn [rfind_lf]. unfold is_lf. destruct (ascii_dec lf lf); [|congruence]. rewrite app_length. cbn [length]. lia. }
    rewrite R. destruct (_ && _ && _) eqn:Eb; [|rewrite Hlen, app_length; lia].
    apply andb_prop in Eb as [Eb1 Eb2]. apply andb_prop in Eb1 as [Eb0 Eb1]. apply Nat.ltb_lt in Eb0, Eb1.
    destruct (nth_error _ (loc - 1)) as [c|] eqn:En; [|discriminate]. apply is_lf_spec in Eb2. subst c.
    rewrite nth_error_app1 in En by (rewrite <- Hlen; lia).
    destruct left as [|x left] using rev_ind; [reflexivity|]. exfalso. apply Hn. clear IHleft.
    rewrite app_assoc in En. rewrite nth_error_app2 in En by (rewrite Hlen, !app_length; cbn; lia).
    replace (loc - 1 - length (above ++ left))%nat with 0%nat in En by (rewrite Hlen, !app_length; cbn; lia).
    cbn in En. injection En as ->. apply in_or_app. right. left. reflexivity.
Qed.
(** Positions are in the order of offsets: different offsets have different positions. *)
Theorem C69_order :
  forall (s : str) (a b : nat), (a <= length s)%nat -> (b <= length s)%nat ->
    (before (source_position s a) (source_position s b) <-> (a < b)%nat) /\
    (source_position s a = source_position s b <-> a = b).
Proof.
  intros s.
  assert (M : forall a b : nat, (b <= length s)%nat -> (a < b)%nat -> before (source_position s a) (source_position s b)).
  { intros a b Hb Hlt. destruct (C69_place s a ltac:(lia)) as ((a1 & l1 & P1) & Q1). rewrite (Q1 _ _ P1). destruct P1 as ((r1 & E1) & Ha & Hw1 & Hn1).
    destruct (C69_place s b Hb) as ((a2 & l2 & P2) & Q2). pose proof P2 as ((r2 & E2) & Hb2 & Hw2 & Hn2).
    rewrite app_assoc in E1. set (d := firstn (b - a) r1).
    assert (E : a2 ++ l2 = (a1 ++ l1) ++ d).
    { transitivity (firstn b s); [rewrite E2, app_assoc, firstn_app, Hb2, Nat.sub_diag, firstn_all; symmetry; apply app_nil_r|].
      rewrite E1, firstn_app, <- Ha, firstn_all2 by lia. reflexivity. }
    assert (Hd : d <> []).
    { intros Hd. rewrite Hd, app_nil_r in E. rewrite E in Hb2. lia. }
    destruct (in_dec ascii_dec lf d) as [Hi|Hi].
    - left. rewrite (Q2 _ _ P2). cbn [ps_line]. apply (f_equal count_lf) in E. rewrite !count_app, (count_none l2 Hn2), (count_none l1 Hn1) in E.
      enough (0 < count_lf d) by lia. apply in_split in Hi as (u & w & ->). rewrite count_app. pose proof (count_nonneg u).
      unfold count_lf at 2. cbn [filter]. unfold is_lf at 1. destruct (ascii_dec lf lf); [|congruence]. cbn [length]. lia.
    - right. rewrite (Q2 a1 (l1 ++ d)).
      + cbn [ps_line ps_column]. split; [reflexivity|]. rewrite app_length. destruct d; [congruence|]. cbn [length]. lia.
      + split; [exists r2; rewrite E2, app_assoc, E, <- !app_assoc; reflexivity|]. split; [rewrite Hb2, E, app_assoc; reflexivity|]. split; [exact Hw1|].
        intros H. apply in_app_iff in H as [H|H]; auto. }
  intros a b Ha Hb. assert (I : forall p, ~ before p p) by (intros p [H|[_ H]]; lia).
  assert (A : forall p q, before p q -> before q p -> False) by (intros p q [H|[H H']] [G|[G G']]; lia).
  split; split.
  - intros H. destruct (Nat.lt_trichotomy a b) as [H'|[->|H']]; [exact H'|destruct (I _ H)|destruct (A _ _ H (M _ _ Ha H'))].
  - intros H. apply M; assumption.
  - intros E. destruct (Nat.lt_trichotomy a b) as [H'|[->|H']]; [|reflexivity|]; [pose proof (M _ _ Hb H') as H|pose proof (M _ _ Ha H') as H]; rewrite E in H; destruct (I _ H).
  - intros ->. reflexivity.
Qed.

(** Editor positions and back; [==], [<] and [>] are equality and reading order. *)
Theorem C69_editor :
  (forall l c, to_lspt (from_vscode l c) = (l, c)) /\
  (forall p, from_vscode (fst (to_lspt p)) (snd (to_lspt p)) = p) /\
  (forall p l c, offset (offset p l c) (- l) (- c) = p).
Proof.
  unfold to_lspt, from_vscode, offset. split; [|split].
  - intros l c. cbn [ps_line ps_column]. f_equal; lia.
  - intros [l c]. cbn [ps_line ps_column fst snd]. f_equal; lia.
  - intros [l c] dl dc. cbn [ps_line ps_column]. f_equal; lia.
Qed.
Theorem C69_comparisons :
  forall a b : position,
    (p_eq a b = true <-> a = b) /\ (p_lt a b = true <-> before a b) /\ (p_gt a b = true <-> before b a) /\
    (p_le a b = true <-> before a b \/ ps_line a = ps_line b) /\ (p_ge a b = true <-> before b a \/ ps_line a = ps_line b).
Proof.
  intros [l c] [l' c']. unfold p_eq, p_lt, p_gt, p_le, p_ge, before. cbn [ps_line ps_column].
  assert (E : forall l c l' c', MkPosition l c = MkPosition l' c' <-> l = l' /\ c = c') by (intros; split; [intros [= -> ->]; auto|intros [-> ->]; reflexivity]).
  rewrite E, !orb_true_iff, !andb_true_iff, !Z.eqb_eq, !Z.ltb_lt, !Z.leb_le. repeat split; lia.
Qed.
(** [<=], [>=] look at the line only, [!=] wants both parts to differ. *)
Theorem C69_le_refuted : ~ forall a b, p_le a b = true <-> before a b \/ a = b.
Proof. intros H. destruct (proj1 (H (MkPosition 1 2) (MkPosition 1 1)) eq_refl) as [[E|[_ E]]|E]; cbn in E; try lia; discriminate. Qed.
Theorem C69_ge_refuted : ~ forall a b, p_ge a b = negb (p_lt a b).
Proof. intros H. discriminate (H (MkPosition 1 1) (MkPosition 1 2)). Qed.
Theorem C69_ne_refuted : ~ forall a b, p_ne a b = negb (p_eq a b).
Proof. intros H. discriminate (H (MkPosition 1 1) (MkPosition 1 2)). Qed.

(** Columns are those of the text with tabs expanded, an editor counts a tab as one character. *)
Theorem C69_tab_refuted :
  ~ forall above left right, whole_lines above -> ~ In lf left ->
      to_lspt (source_position (kept (above ++ left ++ right)) (length (kept (above ++ left)))) = (count_lf above, Z.of_nat (length left)).
Proof. intros H. specialize (H [] [tab] (lit "D10*") (or_introl eq_refl)). revert H. vm_compute. intros H. discriminate H. intros [E|[]]; discriminate E. Qed.
Theorem C69_without_tabs :
  forall above left right, ~ In tab (above ++ left ++ right) -> whole_lines above -> ~ In lf left ->
      to_lspt (source_position (kept (above ++ left ++ right)) (length (kept (above ++ left)))) = (count_lf above, Z.of_nat (length left)).
Proof.
  intros above left right Ht Hw Hn. unfold kept. rewrite !no_tabs; [|intros H; apply Ht; apply in_app_iff in H as [H|H]; apply in_or_app; [left|right; apply in_or_app; left]; exact H|exact Ht].
  assert (P : placed_at (above ++ left ++ right) (length (above ++ left)) above left) by (split; [eexists; reflexivity|auto]).
  rewrite (proj2 (C69_place (above ++ left ++ right) (length (above ++ left)) ltac:(rewrite !app_length; lia)) _ _ P). unfold to_lspt. cbn [ps_line ps_column]. f_equal; lia.
Qed.

Example C69_case : source_position (lit "G04 a*" ++ [lf] ++ lit "D10*" ++ [lf]) 9 = MkPosition 2 3 /\
  source_position (lit "G04 a*" ++ [lf] ++ lit "D10*" ++ [lf]) 7 = MkPosition 2 1.
Proof. split; reflexivity. Qed.
Print Assumptions C69_place.
Print Assumptions C69_order.
Print Assumptions C69_editor.
Print Assumptions C69_comparisons.
Print Assumptions C69_le_refuted.
Print Assumptions C69_ge_refuted.
Print Assumptions C69_ne_refuted.
Print Assumptions C69_tab_refuted.
Print Assumptions C69_without_tabs.

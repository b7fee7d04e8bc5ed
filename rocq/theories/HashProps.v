(** * C68: the checksum attribute of a file *)
From Verif Require Import Base Num HashModel.
From Verif Require PegModel.
Open Scope Z_scope.

(** What the checksum of a file is computed from: everything before the attribute, without the
    line ends. *)
Definition line_end (c : ascii) : Prop := c = lf \/ c = cr.
Inductive signed : str -> str -> Prop :=
| sg_nil : signed [] []
| sg_end c t s : line_end c -> signed t s -> signed (c :: t) s
| sg_char c t s : ~ line_end c -> signed t s -> signed (c :: t) (c :: s).

Lemma without_signed t : signed t (without cr (without lf t)).
Proof.
  induction t as [|c t IH]; [constructor|]. unfold without in *. cbn [filter].
  destruct (ascii_dec lf c) as [<-|N]; [apply sg_end; [left; reflexivity|exact IH]|]. cbn [filter].
  destruct (ascii_dec cr c) as [<-|N']; [apply sg_end; [right; reflexivity|exact IH]|].
  apply sg_char; [intros [E|E]; congruence|exact IH].
Qed.
Lemma signed_fun t s : signed t s -> forall s', signed t s' -> s = s'.
Proof.
  induction 1 as [|c t s He _ IH|c t s He _ IH]; intros s' H'; inversion H'; subst; try contradiction; auto; try (f_equal; auto).
Qed.
Lemma signed_app t : forall s u r, signed t s -> signed u r -> signed (t ++ u) (s ++ r).
Proof.
  induction t as [|c t IH]; intros s u r H1 H2; inversion H1; subst; cbn [app]; [exact H2| |];
    [apply sg_end|apply sg_char]; auto.
Qed.
Lemma slice_at t u : slice_to (t ++ u) (Z.of_nat (length t)) = t.
Proof.
  unfold slice_to. replace (_ <? 0) with false by (symmetry; apply Z.ltb_ge; lia). rewrite Nat2Z.id.
  rewrite firstn_app, Nat.sub_diag, firstn_all. apply app_nil_r.
Qed.
Lemma no_tabs t : ~ In tab t -> forall k, expandtabs k t = t.
Proof.
  induction t as [|c t IH]; intros Hn k; [reflexivity|]. cbn [expandtabs]. destruct (ascii_dec c tab) as [->|_]; [exfalso; apply Hn; left; reflexivity|].
  assert (Ht : ~ In tab t) by (intros Hi; apply Hn; right; exact Hi). destruct (ascii_dec c lf), (ascii_dec c cr); rewrite IH by exact Ht; reflexivity.
Qed.

(** What the parser keeps of a text: every tab is replaced by at least one and at most eight
    spaces that fill its line up to a multiple of eight characters; nothing else changes. *)
Definition last_line (s l : str) : Prop :=
  (forall c, In c l -> ~ line_end c) /\ (s = l \/ exists p e, s = p ++ e :: l /\ line_end e).
Inductive untabbed : str -> str -> Prop :=
| ut_nil : untabbed [] []
| ut_char t s c : untabbed t s -> c <> tab -> untabbed (t ++ [c]) (s ++ [c])
| ut_tab t s l n : untabbed t s -> last_line s l -> (1 <= n <= 8)%nat -> Nat.divide 8 (length l + n) ->
    untabbed (t ++ [tab]) (s ++ repeat sp n).
Lemma last_line_fun s l l' : last_line s l -> last_line s l' -> l = l'.
Proof.
  assert (A : forall p e l q e' l', p ++ e :: l = q ++ e' :: l' -> line_end e -> line_end e' ->
    (forall c, In c l -> ~ line_end c) -> (forall c, In c l' -> ~ line_end c) -> l = l').
  { clear. induction p as [|x p IH]; intros e l [|y q] e' l' E He He' N N'; cbn [app] in E; injection E as E1 E2.
    - exact E2.
    - exfalso. apply (N e'); [rewrite E2; apply in_or_app; right; left; reflexivity|exact He'].
    - exfalso. apply (N' e); [rewrite <- E2; apply in_or_app; right; left; reflexivity|exact He].
    - eapply IH; eauto. }
  intros [N [->|(p & e & E & He)]] [N' [E'|(q & e' & E' & He')]]; auto.
  - exfalso. apply (N e'); [rewrite E'; apply in_or_app; right; left; reflexivity|exact He'].
  - exfalso. apply (N' e); [rewrite <- E', E; apply in_or_app; right; left; reflexivity|exact He].
  - rewrite E in E'. eapply A; eauto.
Qed.
Lemma untabbed_kept t : forall t0 s0 l0, untabbed t0 s0 -> last_line s0 l0 -> untabbed (t0 ++ t) (s0 ++ expandtabs (length l0) t).
Proof.
  induction t as [|c t IH]; intros t0 s0 l0 H0 L0; cbn [expandtabs]; [rewrite !app_nil_r; exact H0|].
  replace (t0 ++ c :: t) with ((t0 ++ [c]) ++ t) by (rewrite <- app_assoc; reflexivity).
  assert (Le : forall s l d, last_line s l -> ~ line_end d -> last_line (s ++ [d]) (l ++ [d])).
  { intros s l d [N O] Nd. split; [intros x Hx; apply in_app_or in Hx as [Hx|[<-|[]]]; auto|].
    destruct O as [->|(p & e & -> & He)]; [left; reflexivity|right; exists p, e; split; [rewrite <- app_assoc; reflexivity|exact He]]. }
  assert (Ln : forall s d, line_end d -> last_line (s ++ [d]) []) by (intros s d Hd; split; [intros x []|right; exists s, d; auto]).
  destruct (ascii_dec c tab) as [->|Nt].
  - set (n := (8 - length l0 mod 8)%nat). assert (Hm : (length l0 mod 8 < 8)%nat) by (apply Nat.mod_upper_bound; discriminate).
    assert (Hn : (1 <= n <= 8)%nat) by (unfold n; lia).
    rewrite app_assoc. replace (length l0 + n)%nat with (length (l0 ++ repeat sp n)) by (rewrite app_length, repeat_length; reflexivity).
    apply IH.
    + apply (ut_tab _ _ l0 n); auto. exists (length l0 / 8 + 1)%nat. unfold n. pose proof (Nat.div_mod (length l0) 8 ltac:(discriminate)). lia.
    + clearbody n. clear -L0 Le n. rename n into k. revert s0 l0 L0. induction k as [|k IHk]; intros s0 l0 L0; cbn [repeat]; [rewrite !app_nil_r; exact L0|].
      replace (s0 ++ sp :: repeat sp k) with ((s0 ++ [sp]) ++ repeat sp k) by (rewrite <- app_assoc; reflexivity).
      replace (l0 ++ sp :: repeat sp k) with ((l0 ++ [sp]) ++ repeat sp k) by (rewrite <- app_assoc; reflexivity).
      apply IHk. apply Le; [exact L0|]. intros [D|D]; discriminate D.
  - assert (G : forall l1, last_line (s0 ++ [c]) l1 -> untabbed ((t0 ++ [c]) ++ t) (s0 ++ c :: expandtabs (length l1) t)).
    { intros l1 L1. replace (s0 ++ c :: expandtabs (length l1) t) with ((s0 ++ [c]) ++ expandtabs (length l1) t) by (rewrite <- app_assoc; reflexivity).
      apply IH; [|exact L1]. apply ut_char; auto. }
    destruct (ascii_dec c lf) as [->|Nl]; [apply (G []), Ln; left; reflexivity|].
    destruct (ascii_dec c cr) as [->|Nr]; [apply (G []), Ln; right; reflexivity|].
    replace (S (length l0)) with (length (l0 ++ [c])) by (rewrite app_length; cbn; lia). apply G, Le; [exact L0|]. intros [D|D]; auto.
Qed.
Lemma untabbed_fun t s : untabbed t s -> forall s', untabbed t s' -> s = s'.
Proof.
  induction 1 as [|t s c _ IH Hc|t s l n _ IH Hl Hn Hd]; intros s' H'.
  - remember (@nil ascii) as e eqn:Ee. destruct H' as [|t' s' c' _ _|t' s' l' n' _ _ _ _]; [reflexivity| |]; destruct t'; discriminate Ee.
  - remember (t ++ [c]) as e eqn:Ee. destruct H' as [|t' s' c' H' _|t' s' l' n' _ _ _ _]; [destruct t; discriminate Ee| |].
    + apply app_inj_tail in Ee as [-> ->]. rewrite (IH _ H'). reflexivity.
    + apply app_inj_tail in Ee as [_ E]. exfalso. auto.
  - remember (t ++ [tab]) as e eqn:Ee. destruct H' as [|t' s' c' _ Hc'|t' s' l' n' H' Hl' Hn' Hd']; [destruct t; discriminate Ee| |].
    + apply app_inj_tail in Ee as [_ E]. exfalso. auto.
    + apply app_inj_tail in Ee as [-> _]. rewrite <- (IH _ H') in *. rewrite <- (last_line_fun _ _ _ Hl Hl') in Hd'.
      destruct Hd as [a Ha], Hd' as [b Hb]. f_equal. f_equal. nia.
Qed.
(** The text kept by the model of the parser (C30) is the same. *)
Lemma expand_same t : forall k, PegModel.expand k t = expandtabs k t.
Proof.
  induction t as [|c t IH]; intros k; [reflexivity|]. cbn [PegModel.expand expandtabs]. unfold tab, lf, cr.
  destruct (Ascii.eqb_spec c "009") as [E|E], (ascii_dec c "009") as [E'|E']; try contradiction; [rewrite IH; reflexivity|].
  destruct (Ascii.eqb_spec c "010") as [F|F], (ascii_dec c "010") as [F'|F']; try contradiction; [cbn [orb]; rewrite IH; reflexivity|]. cbn [orb].
  destruct (Ascii.eqb_spec c "013") as [G|G], (ascii_dec c "013") as [G'|G']; try contradiction; rewrite IH; reflexivity.
Qed.
Theorem C68_tabs : forall t s, (kept t = s <-> untabbed t s) /\ (PegModel.expandtabs t = s <-> untabbed t s).
Proof.
  intros t s. unfold PegModel.expandtabs. rewrite expand_same. fold (kept t).
  enough (G : kept t = s <-> untabbed t s) by (split; exact G).
  assert (Hk : untabbed t (kept t)).
  { apply (untabbed_kept t [] [] []); [constructor|]. split; [intros c []|left; reflexivity]. }
  split; [intros <-; exact Hk|]. intros H. exact (untabbed_fun _ _ Hk _ H).
Qed.
Example C68_tabs_case :
  kept (lit "ab" ++ [tab; tab] ++ lit "cdefghij" ++ [tab; lf] ++ lit "k" ++ [tab]) =
  lit "ab              cdefghij        " ++ [lf] ++ lit "k       ".
Proof. reflexivity. Qed.

(** In a text without tabs, for an attribute that starts after [before] and a character [c]: the
    text hashed is the text to be signed exactly when [c] is a line end.  The check then answers
    whether the checksum given is that of the file. *)
Theorem C68_at_line_start :
  forall (digest : str -> str) (before rest : str) (c : ascii) (s : str),
    let t := before ++ c :: rest in let at_ := Z.of_nat (length before) + 1 in
    ~ In tab t -> signed (before ++ [c]) s ->
    (hashed (kept t) at_ = s <-> line_end c) /\
    (line_end c -> forall md5, check_source_hash digest (kept t) at_ md5 = true <-> md5 = digest s).
Proof.
  intros digest before rest c s t at_ Ht Hs. unfold kept. rewrite no_tabs by exact Ht.
  assert (E : hashed t at_ = without cr (without lf before)).
  { unfold hashed, at_, t. replace (Z.of_nat (length before) + 1 - 1) with (Z.of_nat (length before)) by lia. rewrite slice_at. reflexivity. }
  pose proof (without_signed before) as Hb. rewrite <- E in Hb. clear E.
  assert (G : hashed t at_ = s <-> line_end c).
  { split.
    - intros <-. destruct (ascii_dec c lf) as [->|N]; [left; reflexivity|]. destruct (ascii_dec c cr) as [->|N']; [right; reflexivity|].
      exfalso. pose proof (signed_app _ _ _ _ Hb (sg_char c [] [] ltac:(intros [?|?]; contradiction) sg_nil)) as H2.
      pose proof (signed_fun _ _ Hs _ H2) as E. apply (f_equal (@length ascii)) in E. rewrite app_length in E. cbn in E. lia.
    - intros Hl. pose proof (signed_app _ _ _ _ Hb (sg_end c [] [] Hl sg_nil)) as H2. rewrite app_nil_r in H2. symmetry. exact (signed_fun _ _ Hs _ H2). }
  split; [exact G|]. intros Hl md5. unfold check_source_hash. rewrite (proj2 G Hl), str_eqb_eq. split; congruence.
Qed.

(** The full statement: the text hashed is everything before the attribute without line ends,
    whatever precedes the attribute. *)
Definition C68_statement : Prop :=
  forall before rest s, signed before s -> hashed (kept (before ++ rest)) (Z.of_nat (length (kept before))) = s.
Example C68_case :
  check_source_hash (fun t => t) (kept (lit "A*" ++ [cr; lf] ++ lit "B*" ++ [lf] ++ lit "%TF.MD5,1*%")) 7 (lit "A*B*") = true.
Proof. reflexivity. Qed.
(** The attribute on the same line as another command: the last character of that is missed. *)
Theorem C68_same_line_refuted :
  ~ forall before rest s, signed before s -> ~ In tab (before ++ rest) -> before <> [] ->
      hashed (kept (before ++ rest)) (Z.of_nat (length (kept before))) = s.
Proof.
  intros S. specialize (S (lit "G04*") (lit "%TF.MD5,1*%") _ (without_signed _)). revert S. vm_compute.
  intros S. enough (X : false = true) by discriminate X. discriminate S; [intros D; repeat (destruct D as [D|D]; [discriminate|]); exact D|discriminate].
Qed.
(** At the start of the file: all but the last character of the whole file is hashed. *)
Theorem C68_file_start_refuted :
  exists t, ~ In tab t /\ hashed (kept t) 0 <> [].
Proof. exists (lit "%TF.MD5,1*%"). split; [intros D; repeat (destruct D as [D|D]; [discriminate|]); exact D|discriminate]. Qed.
(** A tab before the attribute is hashed as spaces, even when the attribute has its own line. *)
Theorem C68_tab_refuted :
  ~ forall before rest s, signed (before ++ [lf]) s ->
      hashed (kept (before ++ [lf] ++ rest)) (Z.of_nat (length (kept (before ++ [lf])))) = s.
Proof.
  intros S. specialize (S [tab] (lit "%TF.MD5,1*%") _ (without_signed _)). revert S. vm_compute. discriminate.
Qed.
Theorem C68_refuted : ~ C68_statement.
Proof. intros S. apply C68_tab_refuted. intros b r s H. rewrite app_assoc. apply S. exact H. Qed.
Print Assumptions C68_tabs.
Print Assumptions C68_at_line_start.
Print Assumptions C68_same_line_refuted.
Print Assumptions C68_file_start_refuted.
Print Assumptions C68_tab_refuted.
Print Assumptions C68_refuted.

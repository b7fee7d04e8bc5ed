(** Proofs for C72: what follows from the way nodes lie in a text. *)
From Verif Require Import Base Num CoordModel Ast GramAst PegModel LocModel LocSpec LocTexts LocProofs FinderModel FinderSpec HoverModel HoverSpec.
From Verif Require PosModel PosProps.
Local Open Scope nat_scope.

Section Tiles.
  Context {K T : Type}.
  Notation lnode := (lnode K T).
  Notation tiles := (tiles (K := K) (T := T)).
  Notation white := (Forall (fun c => blank c = true)).
  (** Induction that goes into the nodes. *)
  Lemma tiles_deep (P : nat -> str -> list lnode -> Prop) :
    (forall from t, white t -> P from t []) ->
    (forall from gap c u k len kids rest r,
       white gap -> blank c = false -> written k (c :: u) -> framed k kids ->
       (kids = [] \/ (tiles (from + length gap) (c :: u) kids /\ P (from + length gap) (c :: u) kids)) ->
       len <= length (c :: u) <= len + blanks u ->
       tiles (from + length gap + length (c :: u)) rest r -> P (from + length gap + length (c :: u)) rest r ->
       P from (gap ++ (c :: u) ++ rest) (LN k (from + length gap) len kids :: r)) ->
    forall from t l, tiles from t l -> P from t l.
  Proof.
    intros Hn Hc. fix IH 4. intros from t l H. destruct H as [from t Hb|from gap c u k len kids rest r H1 H2 H3 H4 H5 H6 H7].
    - apply Hn, Hb.
    - apply Hc; auto. destruct H5 as [H5|H5]; [left; exact H5|right; split; [exact H5|apply IH, H5]].
  Qed.

  Lemma tiles_slices : forall from t l, tiles from t l -> forall x, In x (flat_map every l) ->
    exists a c u b, t = a ++ (c :: u) ++ b /\ start_of x = from + length a /\ written (kind_of x) (c :: u) /\ blank c = false /\ length_of x <= length (c :: u) <= length_of x + blanks u.
  Proof.
    apply (tiles_deep (fun from t l => forall x, In x (flat_map every l) -> exists a c u b, t = a ++ (c :: u) ++ b /\ start_of x = from + length a /\
      written (kind_of x) (c :: u) /\ blank c = false /\ length_of x <= length (c :: u) <= length_of x + blanks u)); [intros from t Hb x []|].
    intros from gap c u k len kids rest r H1 H2 H3 H4 H5 H6 H7 IH x Hx.
    cbn [flat_map every] in Hx. apply in_app_or in Hx as [[<-|Hx]|Hx].
    - exists gap, c, u, rest. cbn [start_of kind_of length_of]. auto 10.
    - destruct H5 as [->|[_ IHk]]; [destruct Hx|]. destruct (IHk x Hx) as (a & c' & u' & b & E & Es & Hw & Hb & Hl).
      exists (gap ++ a), c', u', (b ++ rest). rewrite E, app_length. split; [rewrite <- !app_assoc; reflexivity|]. repeat split; auto; lia.
    - destruct (IH x Hx) as (a & c' & u' & b & E & Es & Hw & Hb & Hl). exists (gap ++ (c :: u) ++ a), c', u', b.
      rewrite E, !app_length. split; [rewrite <- !app_assoc; reflexivity|]. repeat split; auto; lia.
  Qed.

  (** ** Places are determined by the kinds *)
  Lemma clean_first (x : ascii) b1 b2 (r1 r2 : str) : ~ In x b1 -> ~ In x b2 -> b1 ++ x :: r1 = b2 ++ x :: r2 -> b1 = b2 /\ r1 = r2.
  Proof.
    revert b2. induction b1 as [|c b1 IH]; intros [|d b2] H1 H2 E; cbn in *; injection E; intros.
    - auto.
    - subst. exfalso. auto.
    - subst. exfalso. auto.
    - subst d. destruct (IH b2) as [-> ->]; auto.
  Qed.
  Lemma clean_not x b : clean b -> x = "*"%char \/ x = "%"%char -> ~ In x b.
  Proof. intros H Hx Hi. apply (proj1 (Forall_forall _ _) H) in Hi as [H1 H2]. destruct Hx; congruence. Qed.
  Lemma white_not b : white b -> ~ In "%"%char b.
  Proof. intros H Hi. apply (proj1 (Forall_forall _ _) H) in Hi. discriminate. Qed.
  Lemma plain_unique u1 u2 (r1 r2 : str) : plain_text u1 -> plain_text u2 -> u1 ++ r1 = u2 ++ r2 -> u1 = u2.
  Proof.
    intros (b1 & -> & H1) (b2 & -> & H2) E. rewrite <- !app_assoc in E. cbn in E. apply clean_first in E as [-> _]; auto using clean_not.
  Qed.
  Lemma extended_unique u1 u2 (r1 r2 : str) : extended_text u1 -> extended_text u2 -> u1 ++ r1 = u2 ++ r2 -> u1 = u2.
  Proof.
    intros (b1 & w1 & -> & H1 & W1) (b2 & w2 & -> & H2 & W2) E. cbn in E. rewrite <- !app_assoc in E. cbn in E. rewrite <- !app_assoc in E. cbn in E. injection E as E.
    apply clean_first in E as [-> E]; auto using clean_not. apply clean_first in E as [-> _]; auto using white_not.
  Qed.
  Lemma code_unique n1 n2 g (r1 r2 : str) : repeat "0"%char n1 ++ lit (g_number g) ++ r1 = repeat "0"%char n2 ++ lit (g_number g) ++ r2 -> n1 = n2.
  Proof. revert n2. induction n1 as [|n1 IH]; intros [|n2] E; cbn in E; auto; [destruct g; discriminate|destruct g; discriminate|]. injection E as E. f_equal. exact (IH _ E). Qed.
  Definition framing (k : lkind K T) : Prop := match k with KCmd (CAB _ _) | KCmd (CSR _ _) | KCmd (CAM _ _) => True | _ => False end.
  Lemma framing_dec k : framing k \/ ~ framing k. Proof. destruct k as [[]| | | | | |]; cbn; auto. Qed.
  Lemma written_unique (k : lkind K T) u1 u2 (r1 r2 : str) : ~ framing k -> written k u1 -> written k u2 -> u1 ++ r1 = u2 ++ r2 -> u1 = u2.
  Proof.
    intros Hk. destruct k as [c|p| | | | |t]; cbn [written]; intros H1 H2 E; try (eapply plain_unique; eassumption); try (eapply extended_unique; eassumption).
    - destruct c; try (exfalso; apply Hk; exact I); try (eapply plain_unique; eassumption); try (eapply extended_unique; eassumption).
      destruct standalone; [eapply plain_unique; eassumption|]. destruct H1 as (n1 & ->), H2 as (n2 & ->). cbn in E. rewrite <- !app_assoc in E. injection E as E.
      apply code_unique in E as ->. reflexivity.
    - destruct H1 as (b1 & -> & H1), H2 as (b2 & -> & H2). cbn in E. rewrite <- !app_assoc in E. injection E as E. cbn in E. apply clean_first in E as [-> _]; auto using clean_not.
    - congruence.
    - congruence.
  Qed.
  Lemma framed_kinds (k : lkind K T) l1 l2 : framed k l1 -> framed k l2 -> map kind_of l1 = map kind_of l2.
  Proof.
    assert (X : forall ko kc ks, forall l1 l2 : list lnode, (exists o m c, l1 = o :: m ++ [c] /\ kind_of o = ko /\ kind_of c = kc /\ map kind_of m = ks) ->
      (exists o m c, l2 = o :: m ++ [c] /\ kind_of o = ko /\ kind_of c = kc /\ map kind_of m = ks) -> map kind_of l1 = map kind_of l2).
    { intros ko kc ks m1 m2 (o1 & n1 & c1 & -> & A1 & B1 & C1) (o2 & n2 & c2 & -> & A2 & B2 & C2). cbn. rewrite !map_app. cbn. congruence. }
    destruct k as [c|p| | | | |t]; cbn [framed]; try (intros -> ->; reflexivity). destruct c; try (intros -> ->; reflexivity); apply X.
  Qed.
  Lemma framed_kids (k : lkind K T) l : framing k -> framed k l -> l <> [].
  Proof. destruct k as [[]| | | | | |]; cbn; try contradiction; intros _ (o & m & c & -> & _); discriminate. Qed.
  Lemma written_end (k : lkind K T) u : framing k -> written k u -> exists b, u = b ++ ["%"%char].
  Proof. destruct k as [[]| | | | | |]; cbn; try contradiction; auto. Qed.
  Lemma tail_end (x b y : str) : white b -> x ++ b = y ++ ["%"%char] -> b = [].
  Proof.
    intros H E. destruct b as [|c b _] using rev_ind; [reflexivity|]. rewrite app_assoc in E. apply app_inj_tail in E as [_ ->]. apply Forall_app in H as [_ H].
    inversion H. discriminate.
  Qed.
  Lemma not_framing_kids (k : lkind K T) l : ~ framing k -> framed k l -> l = [].
  Proof. intros Hk. destruct k as [[]| | | | | |]; cbn in *; auto; exfalso; apply Hk; exact I. Qed.
  Lemma tiles_unique_prefix : forall from t l1, tiles from t l1 -> forall t2 l2 w w2, tiles from t2 l2 -> t ++ w = t2 ++ w2 -> map kind_of l1 = map kind_of l2 ->
    flat_map starts l1 = flat_map starts l2 /\ exists x b b2, t = x ++ b /\ t2 = x ++ b2 /\ white b /\ white b2.
  Proof.
    apply (tiles_deep (fun from t l1 => forall t2 l2 w w2, tiles from t2 l2 -> t ++ w = t2 ++ w2 -> map kind_of l1 = map kind_of l2 ->
      flat_map starts l1 = flat_map starts l2 /\ exists x b b2, t = x ++ b /\ t2 = x ++ b2 /\ white b /\ white b2)).
    - intros from t Hb t2 l2 w w2 H2 E Ek. destruct l2; [|discriminate]. inversion H2; subst. split; [reflexivity|]. exists [], t, t2. auto.
    - intros from gap c u k len kids rest r H1 H2 H3 H4 H5 H6 H7 IH t2 l2 w w2 T2 E Ek. inversion T2 as [? ? Hb2|from' gap2 c2 u2 k2 len2 kids2 rest2 r2 G1 G2 G3 G4 G5 G6 G7]; subst; [discriminate|].
      cbn [map kind_of] in Ek. injection Ek as <- Ek. rewrite <- !app_assoc in E. cbn [app] in E. apply gap_unique in E as [<- E]; auto.
      change ((c :: u) ++ rest ++ w = (c2 :: u2) ++ rest2 ++ w2) in E.
      assert (X : c :: u = c2 :: u2 /\ flat_map starts kids = flat_map starts kids2).
      { destruct (framing_dec k) as [Hk|Hk].
        - pose proof (framed_kids _ _ Hk H4) as N1. pose proof (framed_kids _ _ Hk G4) as N2. destruct H5 as [H5|[_ IHk]]; [contradiction|]. destruct G5 as [G5|G5]; [contradiction|].
          destruct (IHk _ _ _ _ G5 E (framed_kinds _ _ _ H4 G4)) as (Es & x & b & b2 & E1 & E2 & W1 & W2).
          destruct (written_end _ _ Hk H3) as (y1 & Y1). destruct (written_end _ _ Hk G3) as (y2 & Y2). rewrite E1 in Y1. rewrite E2 in Y2.
          apply tail_end in Y1; auto. apply tail_end in Y2; auto. subst b b2. rewrite app_nil_r in E1, E2. split; congruence.
        - split; [exact (written_unique _ _ _ _ _ Hk H3 G3 E)|]. rewrite (not_framing_kids _ _ Hk H4), (not_framing_kids _ _ Hk G4). reflexivity. }
      destruct X as [X Ekids]. rewrite X in E. apply app_inv_head in E. rewrite X in IH. destruct (IH _ _ _ _ G7 E Ek) as (Es & x & b & b2 & -> & -> & W1 & W2).
      split; [cbn [flat_map starts]; rewrite Ekids, Es; reflexivity|]. exists (gap ++ (c2 :: u2) ++ x), b, b2. rewrite <- X at 1. rewrite <- !app_assoc. auto.
  Qed.

  (** ** Order *)
  Lemma starts_range : forall from t l, tiles from t l -> forall n, In n (flat_map starts l) -> from <= n < from + length t.
  Proof.
    apply (tiles_deep (fun from t l => forall n, In n (flat_map starts l) -> from <= n < from + length t)); [intros from t Hb n []|].
    intros from gap c u k len kids rest r H1 H2 H3 H4 H5 H6 H7 IH n Hn. rewrite !app_length. cbn [flat_map starts] in Hn. apply in_app_or in Hn as [[<-|Hn]|Hn]; cbn [length] in *; [lia| |].
    - destruct H5 as [->|[_ IHk]]; [destruct Hn|]. specialize (IHk n Hn). cbn [length] in IHk. lia.
    - specialize (IH n Hn). lia.
  Qed.
  Lemma blanks_le u : blanks u <= length u.
  Proof. unfold blanks. induction u as [|d u IH]; cbn [filter length]; [lia|]. destruct (blank d); cbn [length]; lia. Qed.
  Definition at_place (p : lnode * Ast.node K) : placed K := MkPl (Z.of_nat (start_of (fst p))) (Z.of_nat (length_of (fst p))) (snd p).
  Lemma tiles_order : forall from t l, tiles from t l -> forall z, (z <= Z.of_nat from)%Z -> forall ns : list (Ast.node K), in_order z (map at_place (combine l ns)).
  Proof.
    induction 1 as [from t Hb|from gap c u k len kids rest r H1 H2 H3 H4 H5 H6 H7 IH]; intros z Hz ns; [exact I|].
    destruct ns as [|n ns]; [exact I|]. cbn [combine map at_place fst snd in_order pl_loc pl_len start_of length_of].
    assert (Hl : 1 <= len). { pose proof (blanks_le u) as Hbl. cbn [length] in H6. lia. }
    split; [lia|]. split; [lia|]. apply IH. cbn [length] in *. lia.
  Qed.

  Variable s : str.
  Variable nm : lkind K T -> str.
  Notation tree := (tree s nm).
  Lemma tree_start x : ft_start (tree x) = Some (as_pos (PosModel.source_position s (start_of x))).
  Proof. destruct x. reflexivity. Qed.
  Lemma before_offsets a b : a < b -> b <= length s -> before (as_pos (PosModel.source_position s a)) (as_pos (PosModel.source_position s b)).
  Proof.
    intros H Hb. destruct (PosProps.C69_order s a b ltac:(lia) Hb) as [[_ X] _]. exact (X H).
  Qed.
  Fixpoint lnode_deep (P : lnode -> Prop) (H : forall k loc len kids, Forall P kids -> P (LN k loc len kids)) (x : lnode) : P x :=
    match x with
    | LN k loc len kids => H k loc len kids ((fix all l : Forall P l := match l with [] => Forall_nil P | y :: r => Forall_cons y (lnode_deep P H y) (all r) end) kids)
    end.
  Lemma document_starts x : forall d, In d (document (tree x)) -> exists n, In n (starts x) /\ ft_start d = Some (as_pos (PosModel.source_position s n)).
  Proof.
    induction x as [k loc len kids IH] using lnode_deep. intros d Hd. cbn [LocSpec.tree document] in Hd. destruct Hd as [<-|Hd].
    - exists loc. split; [left; reflexivity|reflexivity].
    - apply in_flat_map in Hd as (y & Hy & Hd). apply in_map_iff in Hy as (z & <- & Hz). rewrite Forall_forall in IH. destruct (IH z Hz d Hd) as (n & Hn & En).
      exists n. split; [|exact En]. right. apply in_flat_map. eauto.
  Qed.
  Lemma tiles_located : forall from t l, tiles from t l -> from + length t <= length s -> located_list (map tree l).
  Proof.
    apply (tiles_deep (fun from t l => from + length t <= length s -> located_list (map tree l))); [intros from t Hb _; constructor|].
    intros from gap c u k len kids rest r H1 H2 H3 H4 H5 H6 H7 IH Hs. rewrite !app_length in Hs. cbn [map]. constructor.
    - cbn [LocSpec.tree]. destruct (framing_dec k) as [Hk|Hk].
      + pose proof (framed_kids _ _ Hk H4) as N. destruct H5 as [H5|[T5 IHk]]; [contradiction|]. specialize (IHk ltac:(lia)).
        assert (F : exists x y m, kids = x :: y :: m).
        { destruct k as [[]| | | | | |]; try contradiction; destruct H4 as (o & m & e & -> & _); destruct m as [|a m]; cbn [app]; eauto. }
        destruct F as (x & y & m & ->). cbn [map] in *. apply LocBlock; [|exact IHk].
        rewrite tree_start. do 2 f_equal. inversion T5 as [|f2 gap2 c2 u2 k2 len2 kids2 rest2 r2 G1 G2 G3 G4 G5 G6 G7 E1 E2 E3]. subst.
        change (gap2 ++ c2 :: u2 ++ rest2 = [] ++ c :: u) in E2. apply gap_unique in E2 as [-> _]; auto. cbn. rewrite Nat.add_0_r. reflexivity.
      + rewrite (not_framing_kids _ _ Hk H4). apply LocLeaf.
    - intros d m Hd Hm. apply document_starts in Hd as (n & Hn & En). apply in_map_iff in Hm as (y & <- & Hy).
      exists (as_pos (PosModel.source_position s n)), (as_pos (PosModel.source_position s (start_of y))). split; [exact En|]. split; [apply tree_start|].
      assert (R1 : n < from + length gap + length (c :: u)).
      { cbn [starts] in Hn. destruct Hn as [<-|Hn]; [cbn [length]; lia|]. destruct H5 as [->|[T5 _]]; [destruct Hn|]. exact (proj2 (starts_range _ _ _ T5 n Hn)). }
      assert (R2 : from + length gap + length (c :: u) <= start_of y < from + length gap + length (c :: u) + length rest).
      { apply (starts_range _ _ _ H7). apply in_flat_map. exists y. split; [exact Hy|]. destruct y. left. reflexivity. }
      apply before_offsets; lia.
    - apply IH. lia.
  Qed.
End Tiles.

(** C91: the attribute lists of hover texts. *)
From Verif Require Import Base Num Dict CoordModel Ast GramAst PegModel GramModel GramText GramExpr GramTok GramWf LinkModel StateModel HoverModel HoverSpec LayerProps MdModel MdSpec.
From Verif Require GramNum.
Local Open Scope nat_scope.
Local Notation span := MdModel.span.

(** ** Code spans *)
Lemma split_plain c a b : without c a -> split_on c (a ++ c :: b) = a :: split_on c b.
Proof.
  induction a as [|x a IH]; intros H; cbn; [rewrite Ascii.eqb_refl; reflexivity|]. destruct (Ascii.eqb_spec x c) as [->|_]; [exfalso; apply H; left; reflexivity|].
  rewrite IH by (intros X; apply H; right; exact X). reflexivity.
Qed.
Lemma split_whole c a : without c a -> split_on c a = [a].
Proof.
  induction a as [|x a IH]; intros H; cbn; [reflexivity|]. destruct (Ascii.eqb_spec x c) as [->|_]; [exfalso; apply H; left; reflexivity|].
  rewrite IH by (intros X; apply H; right; exact X). reflexivity.
Qed.
Lemma split_ne c s : split_on c s <> [].
Proof. destruct s as [|x s]; cbn; [discriminate|]. destruct (Ascii.eqb x c); [discriminate|]. destruct (split_on c s); discriminate. Qed.
Lemma split_tail c p s : without c p -> exists q, forall a l, split_on c s = a :: l -> split_on c (p ++ s) = (q ++ a) :: l.
Proof.
  intros H. exists p. induction p as [|x p IH]; intros a l E; [exact E|]. cbn. destruct (Ascii.eqb_spec x c) as [->|_]; [exfalso; apply H; left; reflexivity|].
  rewrite (IH (fun X => H (or_intror X)) a l E). reflexivity.
Qed.
Ltac plain := let X := fresh in intros X; vm_compute in X; intuition discriminate.
Lemma spans_skip p s : without tick p -> spans (p ++ s) = spans s.
Proof.
  intros H. unfold spans. change "`"%char with tick. destruct (split_tail tick p s H) as (q & Hq). destruct (split_on tick s) as [|a l] eqn:E; [exfalso; exact (split_ne tick s E)|].
  rewrite (Hq a l eq_refl). destruct l; reflexivity.
Qed.
Lemma spans_span t b : without tick t -> spans (span t ++ b) = t :: spans b.
Proof.
  intros H. unfold spans, span. cbn [app]. rewrite <- app_assoc. cbn [app]. change "`"%char with tick. change (split_on tick (tick :: t ++ tick :: b)) with ([] :: split_on tick (t ++ tick :: b)).
  rewrite (split_plain tick t b H). reflexivity.
Qed.
Lemma spans_none p : without tick p -> spans p = [].
Proof. intros H. unfold spans. change "`"%char with tick. rewrite (split_whole tick p H). reflexivity. Qed.
Lemma spans_ticked l b : Forall (without tick) l -> spans (ticked l ++ b) = l ++ spans b.
Proof.
  induction 1 as [|f l Hf Hl IH]; [reflexivity|]. destruct l as [|g l]; [exact (spans_span f b Hf)|].
  change (ticked (f :: g :: l)) with (span f ++ lit ", " ++ ticked (g :: l)). rewrite <- !app_assoc, spans_span by exact Hf. rewrite spans_skip by plain.
  rewrite IH. reflexivity.
Qed.
Lemma spans_end l : Forall (without tick) l -> spans (ticked l) = l.
Proof. intros H. rewrite <- (app_nil_r (ticked l)), (spans_ticked l [] H). apply app_nil_r. Qed.
Lemma spans_last t : without tick t -> spans (span t) = [t].
Proof. intros H. rewrite <- (app_nil_r (span t)). exact (spans_span t [] H). Qed.
Lemma numeric_without c t : numeric t -> ~ In c (lit "0123456789+-.e") -> without c t.
Proof. intros H Hc X. unfold numeric in H. rewrite Forall_forall in H. exact (Hc (H _ X)). Qed.
Lemma numeric_tick t : numeric t -> without tick t.
Proof. intros H. apply (numeric_without _ _ H). plain. Qed.
Lemma user_tick n : user_text n -> without tick n.
Proof.
  intros (c & a & -> & Hc & Ha) [X|X]; [subst c; discriminate|]. unfold all in Ha. rewrite forallb_forall in Ha. specialize (Ha _ X). discriminate.
Qed.

Section Md.
  Context {K T : Type} (rd : reader K T) (show : K -> str).
  Hypothesis numbers : forall k, numeric (show k).
  Notation ta_md := (ta_md show).
  Notation to_md := (to_md show).
  Ltac go := repeat first
    [ rewrite spans_span by (assumption || plain) | rewrite spans_skip by plain | rewrite spans_last by (assumption || plain)
    | rewrite spans_end by assumption | rewrite spans_ticked by assumption | rewrite <- app_assoc | rewrite spans_none by plain ].

  (** The name and all values of an attribute are shown as code spans, the values in order and
      at the end; a missing function, tolerance or pin function as a word.  Only in a text for
      flashes the rest is missing (refuted below). *)
  Definition ta_shown (a : ta K) : list str :=
    match a with
    | TAAperFunction None f => lit "<missing>" :: f
    | TADrillTolerance p m => ["+"%char :: MdModel.shown (option_map show p); MdModel.shown (option_map show m)]
    | TAFlashText s _ _ _ _ _ => [s]
    | a => ta_values show a
    end.
  Definition to_shown (a : to K) : list str :=
    match a with
    | TOP r n None => [r; n; lit "None"]
    | TOCRot k => [show k ++ degree]
    | a => to_values show a
    end.
  Definition label (a : to K) : list str :=
    match a with
    | TON _ => [lit "CAD net name"; to_name a]
    | TOP _ _ _ => [lit "Pin number"; to_name a]
    | TOC _ => [lit "Component reference designator(.C"]
    | TOText CMfr _ => [lit "Supplier"; to_name a]
    | _ => [to_name a]
    end.
  Lemma shown_number (o : option K) : without tick (MdModel.shown (option_map show o)).
  Proof. destruct o as [k|]; [exact (numeric_tick _ (numbers k))|plain]. Qed.
  Theorem C91_aperture_attributes : forall a : ta K, wf_ta rd a -> Forall (without "`"%char) (ta_values show a) -> spans (ta_md a) = ta_name a :: ta_shown a.
  Proof.
    intros a W V. destruct a as [n f|g f|p m|s mode mir font size c]; cbn [MdModel.ta_md ta_name ta_shown ta_values] in *.
    - destruct W as [W _]. apply user_tick in W. go. reflexivity.
    - destruct g as [g|]; cbn [maybe app] in V.
      + inversion V as [|? ? Vg Vf]; subst. go. destruct f as [|f l]; [reflexivity|]. go. rewrite app_nil_r. reflexivity.
      + go. destruct f as [|f l]; [reflexivity|]. go. rewrite app_nil_r. reflexivity.
    - pose proof (shown_number p) as Vp. pose proof (shown_number m) as Vm. rewrite spans_span by plain. rewrite spans_skip by plain.
      rewrite spans_span by (intros [X|X]; [discriminate|exact (Vp X)]). go. reflexivity.
    - inversion V as [|? ? Vs _]; subst. assert (E : untick s = s).
      { clear -Vs. induction s as [|x s IH]; [reflexivity|]. cbn. destruct (Ascii.eqb_spec x tick) as [->|_]; [exfalso; apply Vs; left; reflexivity|].
        f_equal. apply IH. intros X. apply Vs. right. exact X. }
      rewrite E. go. reflexivity.
  Qed.
  Theorem C91_object_attributes : forall a : to K, wf_to rd a -> Forall (without "`"%char) (to_values show a) -> spans (to_md a) = label a ++ to_shown a.
  Proof.
    intros a W V. destruct a as [n f|f|r n f|s|k|t s|s|k|s p f]; cbn [MdModel.to_md to_name label to_shown to_values] in *.
    - destruct W as [W _]. apply user_tick in W. go. reflexivity.
    - change (lit "`CAD net name` (") with (span (lit "CAD net name") ++ lit " ("). go. reflexivity.
    - inversion V as [|? ? Vr V']; subst. inversion V' as [|? ? Vn Vf]; subst. change (lit "`Pin number` (") with (span (lit "Pin number") ++ lit " ("). go.
      destruct f as [f|]; cbn [MdModel.shown maybe] in *; [inversion Vf; subst|]; go; reflexivity.
    - inversion V; subst. change (lit "`Component reference designator(" ++ lit ".C" ++ lit "`): " ++ span s) with (span (lit "Component reference designator(.C") ++ lit "): " ++ span s). go. reflexivity.
    - inversion V as [|? ? Vk _]; subst. assert (X : without tick (show k ++ degree)) by (intros X; apply in_app_or in X as [X|X]; [exact (Vk X)|revert X; plain]). go. reflexivity.
    - inversion V; subst. destruct t; try (go; reflexivity). change (lit "`Supplier` (") with (span (lit "Supplier") ++ lit " ("). go. reflexivity.
    - inversion V; subst. go. reflexivity.
    - inversion V; subst. go. reflexivity.
    - inversion V as [|? ? Vs V']; subst. inversion V' as [|? ? Vp Vf]; subst. go. destruct f as [|f l]; [reflexivity|]. go. reflexivity.
  Qed.
  (** Names of attributes are among the spans, except for components. *)
  Theorem C91_names : forall a : to K, wf_to rd a -> Forall (without "`"%char) (to_values show a) -> (forall r, a <> TOC r) -> In (to_name a) (spans (to_md a)).
  Proof.
    intros a W V N. rewrite (C91_object_attributes a W V). apply in_or_app. left. destruct a as [n f|f|r n f|s|k|t s|s|k|s p f]; cbn; auto; [exfalso; eapply N; reflexivity|destruct t; cbn; auto].
  Qed.

  (** ** Lines *)
  (** One attribute to a line, if there are no line ends in values. *)
  Lemma lines_items items b : Forall (without newline) items ->
    split_on newline (concat (map (fun t => lit "- " ++ t ++ [newline]) items) ++ b) = map (fun t => lit "- " ++ t) items ++ split_on newline b.
  Proof.
    induction 1 as [|t l Ht _ IH]; [reflexivity|]. cbn [map concat]. rewrite <- !app_assoc. cbn [app]. rewrite (app_assoc (lit "- ") t). rewrite split_plain, IH; [reflexivity|].
    intros X. apply in_app_or in X as [X|X]; [revert X; plain|exact (Ht X)].
  Qed.
  Lemma lines_section title items : without newline title -> Forall (without newline) items -> items <> [] ->
    split_on newline (section title items) = [[]; lit "---"; title] ++ map (fun t => lit "- " ++ t) items ++ [[]; []].
  Proof.
    intros Ht Hi Hne. destruct items as [|t l]; [congruence|]. unfold section, sep. set (i := t :: l) in *. rewrite <- ?app_assoc. cbn [app]. rewrite <- ?app_assoc. cbn [app].
    rewrite ((fun b => split_plain newline [] b ltac:(intros [])) : forall b, split_on newline (newline :: b) = [] :: split_on newline b). rewrite (split_plain newline (lit "---")) by plain. rewrite (split_plain newline title) by exact Ht.
    rewrite lines_items by exact Hi. reflexivity.
  Qed.
  Lemma ticked_without c l : c <> tick -> ~ In c (lit ", ") -> Forall (without c) l -> without c (ticked l).
  Proof.
    intros Hc Hs H. assert (S : forall t, without c t -> without c (span t)).
    { intros t Ht [X|X]; [congruence|]. apply in_app_or in X as [X|[X|[]]]; [exact (Ht X)|congruence]. }
    induction H as [|f l Hf Hl IH]; [intros []|]. destruct l as [|g l]; [apply S, Hf|]. change (ticked (f :: g :: l)) with (span f ++ lit ", " ++ ticked (g :: l)).
    intros X. apply in_app_or in X as [X|X]; [exact (S f Hf X)|]. apply in_app_or in X as [X|X]; [exact (Hs X)|exact (IH X)].
  Qed.
  Lemma span_line t : without newline t -> without newline (span t).
  Proof. intros Ht [X|X]; [discriminate|]. apply in_app_or in X as [X|[X|[]]]; [exact (Ht X)|discriminate]. Qed.
  Lemma app_line a b : without newline a -> without newline b -> without newline (a ++ b).
  Proof. intros A B X. apply in_app_or in X as [X|X]; [exact (A X)|exact (B X)]. Qed.
  Lemma number_line k : without newline (show k).
  Proof. apply (numeric_without _ _ (numbers k)). plain. Qed.
  Lemma shown_line (o : option K) : without newline (MdModel.shown (option_map show o)).
  Proof. destruct o; [apply number_line|plain]. Qed.
  Lemma user_line n : user_text n -> without newline n.
  Proof. intros (c & a & -> & Hc & Ha) [X|X]; [subst c; discriminate|]. unfold all in Ha. rewrite forallb_forall in Ha. specialize (Ha _ X). discriminate. Qed.
  Ltac line := repeat first [apply app_line|apply span_line|apply ticked_without; [discriminate|plain|]|assumption|apply number_line|apply shown_line|plain].
  Lemma ta_line a : wf_ta rd a -> Forall (without newline) (ta_values show a) -> without newline (ta_md a).
  Proof.
    intros W V. destruct a as [n f|g f|p m|s mode mir font size c]; cbn [MdModel.ta_md ta_name ta_values] in *.
    - destruct W as [W _]. apply user_line in W. line.
    - apply Forall_app in V as [Vg Vf]. line; [destruct g; [inversion Vg; assumption|plain]|]. destruct f; [intros []|]. line.
    - line. intros [X|X]; [discriminate|exact (shown_line p X)].
    - inversion V as [|? ? Vs _]; subst. line. intros X. apply in_map_iff in X as (x & E & X). destruct (Ascii.eqb x tick); [discriminate|]. subst x. exact (Vs X).
  Qed.
  Lemma to_line a : wf_to rd a -> Forall (without newline) (to_values show a) -> without newline (to_md a).
  Proof.
    intros W V. destruct a as [n f|f|r n f|s|k|t s|s|k|s p f]; cbn [MdModel.to_md to_name to_values] in *.
    - destruct W as [W _]. apply user_line in W. line.
    - line.
    - inversion V as [|? ? Vr V']; subst. inversion V' as [|? ? Vn Vf]; subst. line. destruct f; [inversion Vf; assumption|plain].
    - inversion V; subst. line.
    - line.
    - inversion V; subst. destruct t; line.
    - inversion V; subst. line.
    - line.
    - inversion V as [|? ? Vs V']; subst. inversion V' as [|? ? Vp Vf]; subst. line. destruct f; [intros []|]. line.
  Qed.
  (** The lists: a line, a heading and one line for every attribute, in the order of the
      dictionary. *)
  Theorem C91_lists :
    (forall id (l : list (ta K)), without newline id -> l <> [] -> Forall (wf_ta rd) l -> Forall (fun a => Forall (without newline) (ta_values show a)) l ->
       split_on newline (aperture_section show id l) = [[]; lit "---"; lit "### Aperture attributes (`" ++ id ++ lit "`)"] ++ map (fun a => lit "- " ++ ta_md a) l ++ [[]; []]) /\
    (forall l : list (to K), l <> [] -> Forall (wf_to rd) l -> Forall (fun a => Forall (without newline) (to_values show a)) l ->
       split_on newline (object_section show l) = [[]; lit "---"; lit "### Object attributes"] ++ map (fun a => lit "- " ++ to_md a) l ++ [[]; []]) /\
    (forall id, aperture_section show id [] = []) /\ object_section show [] = [].
  Proof.
    split; [|split; [|split; reflexivity]].
    - intros id l Hid Hne W V. unfold aperture_section. rewrite lines_section.
      + rewrite map_map. unfold span. cbn [app lit list_ascii_of_string]. rewrite <- !app_assoc. reflexivity.
      + line.
      + apply Forall_map. rewrite Forall_forall in *. intros a Ha. apply ta_line; auto.
      + destruct l; [congruence|discriminate].
    - intros l Hne W V. unfold object_section. rewrite lines_section.
      + rewrite map_map. reflexivity.
      + plain.
      + apply Forall_map. rewrite Forall_forall in *. intros a Ha. apply to_line; auto.
      + destruct l; [congruence|discriminate].
  Qed.

  (** ** Different attributes *)
  Lemma span_inj m n a b : without tick m -> without tick n -> span m ++ a = span n ++ b -> m = n /\ a = b.
  Proof.
    unfold span. cbn [app]. rewrite <- !app_assoc. cbn [app]. intros Hm Hn E. injection E as E. revert n Hn E. induction m as [|x m IH]; intros n Hn E; destruct n as [|y n]; cbn [app] in E; injection E.
    - intros E2. split; [reflexivity|exact E2].
    - intros _ E1. exfalso. apply Hn. left. symmetry. exact E1.
    - intros _ E1. exfalso. apply Hm. left. exact E1.
    - intros E2 E1. subst y. destruct (IH (fun X => Hm (or_intror X)) n (fun X => Hn (or_intror X)) E2) as [-> ->]. split; reflexivity.
  Qed.
  Lemma span_eq m n : span m = span n -> m = n.
  Proof. unfold span. intros E. injection E as E. exact (app_inv_tail _ _ _ E). Qed.
  Definition ended (r : str) : Prop := r = [] \/ exists x, r = ","%char :: x.
  Lemma field_head f r : without "," f -> ended r -> exists l, split_on "," (span f ++ r) = span f :: l.
  Proof.
    intros Hf He. assert (H : without "," (span f)). { intros [X|X]; [discriminate|]. apply in_app_or in X as [X|[X|[]]]; [exact (Hf X)|discriminate]. }
    destruct He as [->|(x & ->)]; [rewrite app_nil_r; exists []; exact (split_whole _ _ H)|eexists; exact (split_plain _ _ x H)].
  Qed.
  Lemma comma_inj f g r r' : without "," f -> without "," g -> ended r -> ended r' -> span f ++ r = span g ++ r' -> f = g /\ r = r'.
  Proof.
    intros Hf Hg Hr Hr' E. destruct (field_head f r Hf Hr) as (l & A). destruct (field_head g r' Hg Hr') as (l' & B). rewrite E, B in A. apply (f_equal (hd [])) in A. cbn [hd] in A. rewrite A in E. apply app_inv_head in E. split; [symmetry; exact (span_eq _ _ A)|exact E].
  Qed.
  Lemma ticked_cons f l : exists r, ticked (f :: l) = span f ++ r /\ ended r /\ (r = [] <-> l = []) /\ (l <> [] -> r = lit ", " ++ ticked l).
  Proof.
    destruct l as [|g l].
    - exists []. rewrite app_nil_r. repeat split; [left; reflexivity|congruence].
    - exists (lit ", " ++ ticked (g :: l)). split; [reflexivity|]. split; [right; eexists; reflexivity|]. split; [split; discriminate|reflexivity].
  Qed.
  Lemma ticked_inj : forall fs gs, Forall (without ",") fs -> Forall (without ",") gs -> ticked fs = ticked gs -> fs = gs.
  Proof.
    induction fs as [|f fs IH]; intros gs Hf Hg E; destruct gs as [|g gs]; [reflexivity|destruct gs; discriminate|destruct fs; discriminate|].
    inversion Hf as [|? ? F1 F2]; subst. inversion Hg as [|? ? G1 G2]; subst. destruct (ticked_cons f fs) as (r & Er & Hr & Nr & Lr). destruct (ticked_cons g gs) as (r' & Er' & Hr' & Nr' & Lr').
    rewrite Er, Er' in E. destruct (comma_inj f g r r' F1 G1 Hr Hr' E) as [-> <-]. f_equal. destruct fs as [|f' fs].
    - symmetry. apply Nr', Nr. reflexivity.
    - destruct gs as [|g' gs]; [exfalso; assert (X : r = []) by (apply Nr'; reflexivity); apply Nr in X; discriminate|]. apply IH; [assumption..|].
      specialize (Lr ltac:(discriminate)). specialize (Lr' ltac:(discriminate)). rewrite Lr in Lr'. exact (app_inv_head _ _ _ Lr').
  Qed.
  Lemma field_comma f : field_text f -> without "," f.
  Proof. intros (H & _) X. unfold all in H. rewrite forallb_forall in H. specialize (H _ X). discriminate. Qed.
  Lemma fields_comma l : Forall field_text l -> Forall (without ",") l.
  Proof. intros H. eapply Forall_impl; [exact field_comma|exact H]. Qed.
  Lemma shown_number_inj (o p : option K) : MdModel.shown (option_map show o) = MdModel.shown (option_map show p) -> option_map show o = option_map show p.
  Proof.
    destruct o as [k|], p as [j|]; cbn [option_map MdModel.shown]; intros E; [congruence| | |reflexivity]; exfalso.
    - apply (numeric_without "N"%char _ (numbers k)); [plain|]. rewrite E. left. reflexivity.
    - apply (numeric_without "N"%char _ (numbers j)); [plain|]. rewrite <- E. left. reflexivity.
  Qed.
  Lemma function_tick g : In g (map lit aper_functions) -> without tick g /\ g <> lit "<missing>".
  Proof.
    intros H. enough (X : Forall (fun g => without tick g /\ g <> lit "<missing>") (map lit aper_functions)) by (rewrite Forall_forall in X; exact (X g H)).
    repeat constructor; try discriminate; plain.
  Qed.
  Lemma dotted n x : user_text n -> n <> "."%char :: x.
  Proof. intros (c & a & -> & H & _) E. injection E as -> _. discriminate. Qed.
  Lemma spaced n : user_text n -> ~ In " "%char n.
  Proof. intros (c & a & -> & Hc & Ha) [X|X]; [subst c; discriminate|]. unfold all in Ha. rewrite forallb_forall in Ha. specialize (Ha _ X). discriminate. Qed.
  Definition flash (a : ta K) : Prop := match a with TAFlashText _ _ _ _ _ _ => True | _ => False end.
  Lemma ta_head a : exists r, ta_md a = span (ta_name a) ++ lit ": " ++ r.
  Proof. destruct a; cbn [MdModel.ta_md]; eexists; reflexivity. Qed.
  Lemma ta_name_tick a : wf_ta rd a -> without tick (ta_name a).
  Proof. intros W. destruct a; cbn [ta_name]; try plain. destruct W as [W _]. exact (user_tick _ W). Qed.

  (** Aperture attributes of a file with different contents are shown differently, with any
      characters in the fields, unless both are texts for flashes. *)
  Theorem C91_different_partial : forall a b : ta K, wf_ta rd a -> wf_ta rd b -> ~ flash a \/ ~ flash b -> ta_md a = ta_md b -> ta_texts show a = ta_texts show b.
  Proof.
    intros a b Wa Wb F E. assert (N : ta_name a = ta_name b).
    { destruct (ta_head a) as (r & Ea). destruct (ta_head b) as (r' & Eb). rewrite Ea, Eb in E. exact (proj1 (span_inj _ _ _ _ (ta_name_tick a Wa) (ta_name_tick b Wb) E)). }
    destruct a as [n f|g f|p m|s mode mir font size c], b as [n' f'|g' f'|p' m'|s' mode' mir' font' size' c']; cbn [ta_name] in N;
      try discriminate N; try (destruct Wa as [Wa _]; exfalso; revert N; apply (dotted _ _ Wa)); try (destruct Wb as [Wb _]; exfalso; symmetry in N; revert N; apply (dotted _ _ Wb));
      cbn [MdModel.ta_md ta_texts ta_name flash] in *.
    - subst n'. apply app_inv_head in E. apply app_inv_head in E. f_equal. destruct Wa as [_ Wa], Wb as [_ Wb]. exact (ticked_inj f f' (fields_comma _ Wa) (fields_comma _ Wb) E).
    - apply app_inv_head in E. apply app_inv_head in E. destruct Wa as [Ga Wa], Wb as [Gb Wb].
      assert (T1 : without tick match g with Some g => g | None => lit "<missing>" end) by (destruct g; [apply function_tick, Ga|plain]).
      assert (T2 : without tick match g' with Some g => g | None => lit "<missing>" end) by (destruct g'; [apply function_tick, Gb|plain]).
      destruct (span_inj _ _ _ _ T1 T2 E) as [G R]. assert (f = f').
      { destruct f as [|x f], f' as [|y f']; try discriminate R; [reflexivity|]. apply app_inv_head in R. apply app_inv_tail in R. exact (ticked_inj _ _ (fields_comma _ Wa) (fields_comma _ Wb) R). }
      subst f'. f_equal. destruct g as [g|], g' as [g'|]; [congruence| | |reflexivity]; exfalso; [exact (proj2 (function_tick g Ga) G)|exact (proj2 (function_tick g' Gb) (eq_sym G))].
    - apply app_inv_head in E. apply app_inv_head in E. apply span_inj in E.
      + destruct E as [E1 E2]. injection E1 as E1. apply app_inv_head in E2. apply app_inv_head in E2. apply span_eq in E2. f_equal; apply shown_number_inj; assumption.
      + intros [X|X]; [discriminate|exact (shown_number p X)].
      + intros [X|X]; [discriminate|exact (shown_number p' X)].
    - exfalso. destruct F as [F|F]; apply F; exact I.
  Qed.

  Definition first_label (a : to K) : str := hd [] (label a).
  Lemma to_head a : exists r, to_md a = span (first_label a) ++ r.
  Proof. destruct a as [n f|f|r n f|s|k|t s|s|k|s p f]; try destruct t; cbn [MdModel.to_md first_label label hd]; eexists; reflexivity. Qed.
  Lemma first_label_tick a : wf_to rd a -> without tick (first_label a).
  Proof.
    intros W. destruct a as [n f|f|r n f|s|k|t s|s|k|s p f]; try destruct t; try plain. destruct W as [W _]. exact (user_tick _ W).
  Qed.
  Lemma three_inj a b c a' b' c' : Forall (without ",") [a; b; c] -> Forall (without ",") [a'; b'; c'] ->
    span a ++ lit ", " ++ span b ++ lit ", " ++ span c = span a' ++ lit ", " ++ span b' ++ lit ", " ++ span c' -> a = a' /\ b = b' /\ c = c'.
  Proof. intros H H' E. pose proof (ticked_inj [a; b; c] [a'; b'; c'] H H' E) as X. injection X as -> -> ->. repeat split. Qed.
  Lemma csup_ticked (s p : str) f : span s ++ lit ", " ++ span p ++ match f with [] => [] | _ => lit ", " ++ ticked f end = ticked (s :: p :: f).
  Proof. destruct f; [cbn [ticked]; rewrite app_nil_r; reflexivity|reflexivity]. Qed.
  (** So are object attributes, unless one is a pin without a function and the other a pin with
      the function [None]. *)
  Theorem C91_different_objects_partial : forall a b : to K, wf_to rd a -> wf_to rd b -> (forall r n, to_texts show a <> TOP r n (Some (lit "None"))) ->
    (forall r n, to_texts show b <> TOP r n (Some (lit "None"))) -> to_md a = to_md b -> to_texts show a = to_texts show b.
  Proof.
    intros a b Wa Wb Fa Fb E. assert (N : first_label a = first_label b).
    { destruct (to_head a) as (r & Ea). destruct (to_head b) as (r' & Eb). rewrite Ea, Eb in E. exact (proj1 (span_inj _ _ _ _ (first_label_tick a Wa) (first_label_tick b Wb) E)). }
    destruct a as [n f|f|r n f|s|k|t s|s|k|s p f].
    - (* user *) destruct b as [n' f'|f'|r' n' f'|s'|k'|t' s'|s'|k'|s' p' f']; try destruct t'; cbn [MdModel.to_md first_label label hd to_texts wf_to to_name] in *; destruct Wa as [Wn Wa];
        try (exfalso; revert N; apply (dotted _ _ Wn)); try (exfalso; apply (spaced n Wn); rewrite N; cbn; tauto).
      + subst n'. apply app_inv_head in E. apply app_inv_head in E. destruct Wb as [_ Wb]. f_equal. exact (ticked_inj f f' (fields_comma _ Wa) (fields_comma _ Wb) E).
      + subst n. exfalso. discriminate E.
    - (* net *) destruct b as [n' f'|f'|r' n' f'|s'|k'|t' s'|s'|k'|s' p' f']; try destruct t'; cbn [MdModel.to_md first_label label hd to_texts wf_to to_name] in *; try discriminate N.
      + destruct Wb as [Wn _]. exfalso. apply (spaced n' Wn). rewrite <- N. cbn. tauto.
      + do 3 apply app_inv_head in E. f_equal. exact (ticked_inj f f' (fields_comma _ Wa) (fields_comma _ Wb) E).
    - (* pin *) destruct b as [n' f'|f'|r' n' f'|s'|k'|t' s'|s'|k'|s' p' f']; try destruct t'; cbn [MdModel.to_md first_label label hd to_texts wf_to to_name] in *; try discriminate N.
      + destruct Wb as [Wn _]. exfalso. apply (spaced n' Wn). rewrite <- N. cbn. tauto.
      + do 3 apply app_inv_head in E. destruct Wa as (Wr & Wn & Wf), Wb as (Wr' & Wn' & Wf'). apply three_inj in E.
        * destruct E as (-> & -> & E). destruct f as [f|], f' as [f'|]; cbn [MdModel.shown] in E; [congruence| | |reflexivity]; exfalso; subst.
          { exact (Fa r' n' eq_refl). } { exact (Fb r' n' eq_refl). }
        * repeat constructor; try (apply field_comma; assumption). destruct f; [apply field_comma, Wf|plain].
        * repeat constructor; try (apply field_comma; assumption). destruct f'; [apply field_comma, Wf'|plain].
    - (* component *) destruct b as [n' f'|f'|r' n' f'|s'|k'|t' s'|s'|k'|s' p' f']; try destruct t'; cbn [MdModel.to_md first_label label hd to_texts wf_to to_name] in *; try discriminate N.
      + destruct Wb as [Wn _]. exfalso. apply (spaced n' Wn). rewrite <- N. cbn. tauto.
      + do 3 apply app_inv_head in E. f_equal. exact (span_eq _ _ E).
    - (* rotation *) destruct b as [n' f'|f'|r' n' f'|s'|k'|t' s'|s'|k'|s' p' f']; try destruct t'; cbn [MdModel.to_md first_label label hd to_texts wf_to to_name] in *; try discriminate N.
      + destruct Wb as [Wn _]. exfalso. symmetry in N. revert N. apply (dotted _ _ Wn).
      + do 2 apply app_inv_head in E. apply span_eq in E. apply app_inv_tail in E. f_equal. exact E.
    - (* text *) destruct t; destruct b as [n' f'|f'|r' n' f'|s'|k'|t' s'|s'|k'|s' p' f']; try destruct t'; cbn [MdModel.to_md first_label label hd to_texts wf_to to_name] in *; try discriminate N;
        try (destruct Wb as [Wn _]; exfalso; symmetry in N; revert N; apply (dotted _ _ Wn)); try (subst n'; discriminate E); repeat apply app_inv_head in E; apply span_eq in E; subst; reflexivity.
    - (* mount *) destruct b as [n' f'|f'|r' n' f'|s'|k'|t' s'|s'|k'|s' p' f']; try destruct t'; cbn [MdModel.to_md first_label label hd to_texts wf_to to_name] in *; try discriminate N.
      + destruct Wb as [Wn _]. exfalso. symmetry in N. revert N. apply (dotted _ _ Wn).
      + do 2 apply app_inv_head in E. apply span_eq in E. f_equal. exact E.
    - (* height *) destruct b as [n' f'|f'|r' n' f'|s'|k'|t' s'|s'|k'|s' p' f']; try destruct t'; cbn [MdModel.to_md first_label label hd to_texts wf_to to_name] in *; try discriminate N.
      + destruct Wb as [Wn _]. exfalso. symmetry in N. revert N. apply (dotted _ _ Wn).
      + do 2 apply app_inv_head in E. apply span_eq in E. f_equal. exact E.
    - (* supplier *) destruct b as [n' f'|f'|r' n' f'|s'|k'|t' s'|s'|k'|s' p' f']; try destruct t'; cbn [MdModel.to_md first_label label hd to_texts wf_to to_name] in *; try discriminate N.
      + destruct Wb as [Wn _]. exfalso. symmetry in N. revert N. apply (dotted _ _ Wn).
      + do 2 apply app_inv_head in E. rewrite !csup_ticked in E. destruct Wa as (W1 & W2 & W3), Wb as (W1' & W2' & W3'). apply ticked_inj in E.
        * injection E as -> -> ->. reflexivity.
        * repeat constructor; try (apply field_comma; assumption). apply fields_comma, W3.
        * repeat constructor; try (apply field_comma; assumption). apply fields_comma, W3'.
  Qed.

  (** ** Apertures *)
  Context (zero : K) (is_zero : K -> bool) (count : Z -> str).
  Hypothesis counts : forall z, numeric (count z).
  (** What a definition says: the template, then its numbers in order. *)
  Definition hole_text (h : option K) : str := match h with Some h => show h | None => lit "None" end.
  Fixpoint numbered (i : Z) (l : list K) : list str := match l with [] => [] | k :: r => ("$"%char :: count i) :: show k :: numbered (i + 1) r end.
  Definition ad_texts (t : template K) : list str :=
    match t with
    | TCircle d h => [lit "Circle"; show d; hole_text h]
    | TRect w e h => [lit "Rectangle"; show w; show e; hole_text h]
    | TObround w e h => [lit "Obround"; show w; show e; hole_text h]
    | TPolygon d n r h => [lit "Polygon"; show d; count n; show match r with Some r => if is_zero r then zero else r | None => zero end ++ degree; hole_text h]
    | TMacro n p => n :: match p with Some l => numbered 1 l | None => [] end
    end.
  Lemma spans_item lbl v b : without tick lbl -> without tick v -> spans (item lbl v ++ b) = v :: spans b.
  Proof.
    intros Hl Hv. unfold item. change (newline :: ?x) with ([newline] ++ x). rewrite <- !app_assoc. rewrite spans_skip by plain. cbn [app].
    change (newline :: lit " - " ++ ?x) with ((newline :: lit " - ") ++ x). rewrite spans_skip by plain. rewrite spans_skip by exact Hl. rewrite spans_skip by plain.
    rewrite spans_span by exact Hv. rewrite spans_skip by plain. reflexivity.
  Qed.
  Lemma spans_item_end lbl v : without tick lbl -> without tick v -> spans (item lbl v) = [v].
  Proof. intros Hl Hv. rewrite <- (app_nil_r (item lbl v)). exact (spans_item lbl v [] Hl Hv). Qed.
  Theorem C91_definitions : forall t : template K, (forall n p, t = TMacro n p -> without "`"%char n) -> spans (ad_md show zero is_zero count t) = ad_texts t.
  Proof.
    intros t Hn. assert (S : forall k, without tick (show k)) by (intros k; exact (numeric_tick _ (numbers k))). assert (C : forall z, without tick (count z)) by (intros z; exact (numeric_tick _ (counts z))).
    assert (Hh : forall h : option K, without tick (MdModel.shown (option_map show h))) by exact shown_number.
    assert (Eh : forall h : option K, MdModel.shown (option_map show h) = hole_text h) by (intros [h|]; reflexivity).
    destruct t as [d h|w e h|w e h|d n r h|n p]; cbn [ad_md ad_texts].
    - rewrite !spans_item by (plain || auto). rewrite spans_item_end by (plain || auto). rewrite Eh. reflexivity.
    - rewrite !spans_item by (plain || auto). rewrite spans_item_end by (plain || auto). rewrite Eh. reflexivity.
    - rewrite !spans_item by (plain || auto). rewrite spans_item_end by (plain || auto). rewrite Eh. reflexivity.
    - assert (D : forall k, without tick (show k ++ degree)) by (intros k X; apply in_app_or in X as [X|X]; [exact (S k X)|revert X; plain]).
      rewrite !spans_item by (plain || auto). rewrite spans_item_end by (plain || auto). rewrite Eh. reflexivity.
    - rewrite spans_item; [|plain|exact (Hn n p eq_refl)]. f_equal. destruct p as [l|]; [|reflexivity]. clear Hn. generalize 1%Z. induction l as [|k l IH]; intros i; [reflexivity|]. cbn [params_md numbered]. unfold item.
      change (newline :: ?x) with ([newline] ++ x). rewrite <- !app_assoc. rewrite !spans_skip by plain. rewrite spans_span by (intros [X|X]; [discriminate|exact (C i X)]). rewrite spans_skip by plain.
      rewrite spans_span by apply S. rewrite spans_skip by plain. rewrite IH. reflexivity.
  Qed.
End Md.

(** ** Departures *)
Definition ta_case (a : ta str) := MdModel.ta_md (fun s : str => s) a.
Definition to_case (a : to str) := MdModel.to_md (fun s : str => s) a.
(** The manufacturer is labelled as a supplier. *)
Theorem C91_manufacturer_refuted : ~ forall (t : totag) (s : str), without "`"%char s -> hd_error (spans (to_case (TOText t s))) = Some (to_name (TOText (K:=str) t s)).
Proof. intros S. specialize (S CMfr (lit "NXP") ltac:(plain)). vm_compute in S. discriminate. Qed.
(** The name of a component attribute is not a code span of its own. *)
Theorem C91_component_refuted : ~ forall r : str, without "`"%char r -> In (lit ".C") (spans (to_case (TOC r))).
Proof. intros S. specialize (S (lit "R1") ltac:(plain)). vm_compute in S. intuition discriminate. Qed.
(** Values with backquotes are shown as other values. *)
Theorem C91_backquote_refuted : ~ forall f : list str, Forall field_text f -> spans (to_case (TON f)) = [lit "CAD net name"; lit ".N"] ++ f.
Proof. intros S. specialize (S [lit "a`b"] ltac:(repeat constructor)). vm_compute in S. discriminate. Qed.
(** Values with line ends leave the list. *)
Theorem C91_line_refuted : ~ forall l : list (to str), l <> [] ->
  Forall (fun a => match a with TON f => Forall field_text f | _ => False end) l ->
  length (split_on newline (object_section (fun s => s) l)) = 5 + length l.
Proof.
  intros S. specialize (S [TON [lit "a" ++ [newline] ++ lit "b"]] ltac:(discriminate) ltac:(repeat constructor)). vm_compute in S. discriminate.
Qed.
(** Texts for flashes that differ in mode, font, size and comments, or by a backquote, look alike. *)
Theorem C91_flash_refuted :
  ~ (forall s mode mir font size c mode' mir' font' size' c', ta_case (TAFlashText s mode mir font size c) = ta_case (TAFlashText s mode' mir' font' size' c') -> mode = mode') /\
  ~ (forall s s' mode mir font size c, field_text s -> field_text s' -> ta_case (TAFlashText s mode mir font size c) = ta_case (TAFlashText s' mode mir font size c) -> s = s').
Proof.
  split; intros S.
  - specialize (S (lit "REV") (lit "B") (lit "R") None None [] (lit "C") (lit "M") None None [] eq_refl). discriminate.
  - specialize (S (lit "it`s") (lit "it's") (lit "B") (lit "R") None None [] ltac:(repeat constructor) ltac:(repeat constructor) eq_refl). discriminate.
Qed.
(** A pin without a function looks like one whose function is called None. *)
Theorem C91_pin_refuted : ~ forall r n f f', to_case (TOP r n f) = to_case (TOP r n f') -> f = f'.
Proof. intros S. specialize (S (lit "U1") (lit "4") None (Some (lit "None")) eq_refl). discriminate. Qed.
(** The attributes listed for a definition are those of an earlier one with its code, or none:
    the state is the one before the definition. *)
Local Existing Instance NumQ.
Theorem C91_own_attributes_refuted :
  ~ forall (pre post : list (placed Q)) p a s s', in_order 0 (pre ++ p :: post) -> pl_node p = NAD a ->
      hover_state (pre ++ p :: post) (pl_loc p) = Ok s -> state_after (map pl_node (pre ++ [p])) = Ok s' ->
      d_get (ad_id a) (s_per_ap_attrs s) = d_get (ad_id a) (s_per_ap_attrs s').
Proof.
  intros S. pose proof (S [MkPl 0 15 fs26; MkPl 16 20 (NTA (MkAttr (lit "k") [lit "v"]))] [] (MkPl 40 13 (adc "D10" (1#2))) (MkAD (lit "D10") (TCircle (1#2) None))) as X.
  eassert (X1 := X _ _ ltac:(cbn; lia) eq_refl eq_refl eq_refl). vm_compute in X1. discriminate.
Qed.

(** ** Cases *)
Example C91_aperture_case :
  spans (ta_case (TAAperFunction (Some (lit "SMDPad")) [lit "CuDef"; lit "x"])) = map lit [".AperFunction"; "SMDPad"; "CuDef"; "x"]%string /\
  ta_case (TADrillTolerance (Some (lit "0.1")) None) = lit "`.DrillTolerance`: `+0.1` / -`None`".
Proof. vm_compute. repeat split. Qed.
Example C91_object_case :
  to_case (TOP (lit "U1") (lit "4") (Some (lit "CLK"))) = lit "`Pin number` (`.P`): `U1`, `4`, `CLK`" /\
  spans (to_case (TOCSup (lit "Mouser") (lit "1-2") [lit "Farnell"; lit "7"])) = map lit [".CSup"; "Mouser"; "1-2"; "Farnell"; "7"]%string.
Proof. vm_compute. repeat split. Qed.
Example C91_list_case :
  split_on newline (object_section (fun s : str => s) [TOC (lit "R1"); TON [lit "GND"]]) =
  map lit [""; "---"; "### Object attributes"; "- `Component reference designator(.C`): `R1`"; "- `CAD net name` (`.N`): `GND`"; ""; ""]%string.
Proof. vm_compute. reflexivity. Qed.
(** Fields with backquotes, as in the theorem on different attributes: shown alike only if alike. *)
Example C91_different_case :
  wf_to GramNum.q_reader (TON [lit "a` `b"]) /\ wf_to GramNum.q_reader (TON [lit "a"; lit "b"]) /\
  to_case (TON [lit "a` `b"]) <> to_case (TON [lit "a"; lit "b"]).
Proof. repeat split; try (repeat constructor; fail); repeat constructor. discriminate. Qed.
Example C91_definition_case :
  spans (ad_md (fun s : str => s) (lit "0.0") (fun _ => false) (fun z => if Z.eqb z 1 then lit "1" else lit "2") (TMacro (lit "Ring") (Some [lit "0.5"; lit "0.2"]))) = map lit ["Ring"; "$1"; "0.5"; "$2"; "0.2"]%string.
Proof. vm_compute. reflexivity. Qed.
Print Assumptions C91_aperture_attributes.
Print Assumptions C91_object_attributes.
Print Assumptions C91_names.
Print Assumptions C91_lists.
Print Assumptions C91_different_partial.
Print Assumptions C91_different_objects_partial.
Print Assumptions C91_definitions.
Print Assumptions C91_own_attributes_refuted.

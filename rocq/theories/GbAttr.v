(** Proofs for C39: ids, names and attributes, for all sequences of calls (also those that
    raise). *)
From Verif Require Import Base Num Dict CoordModel CoordProofs Ast StateModel StateProofs GbModel GbSpec GbProofs GbInv GbStep GbRead.
Local Open Scope Q_scope.
Local Existing Instance NumQ.
Local Notation vis := (visitor Q (list (@call Q))).

(** Commands among the draws: none defines anything. *)
Definition drawing (n : node Q) : Prop :=
  match n with NDnn _ | NLP _ | NLR _ | NLM _ | NLS _ | NG _ | ND01 _ _ _ _ | ND02 _ _ | ND03 _ _ => True | _ => False end.
(** The change from [g] to [g'] adds pads without attributes and leaves the pads there are. *)
Record calm (g g' : gb) (extra : list pad) : Prop := {
  c_defs : defs_ok g -> defs_ok g';
  c_len : length (g_objs g') = length (g_objs g);
  c_obj : forall n i, object n g' = OPad i <-> object n g = OPad i;
  c_pads : g_pads g' = g_pads g ++ extra;
  c_bare : Forall (fun p => own_attrs p = []) extra;
  c_draws : Forall drawing (concat (g_draws g)) -> Forall drawing (concat (g_draws g')) }.
Lemma calm_refl g : calm g g [].
Proof. constructor; [intros H; exact H|reflexivity|reflexivity|symmetry; apply app_nil_r|constructor|intros H; exact H]. Qed.
Lemma calm_trans g1 g2 g3 a b : calm g1 g2 a -> calm g2 g3 b -> calm g1 g3 (a ++ b).
Proof.
  intros [] []. constructor; auto; [congruence| | |apply Forall_app; auto].
  - intros n i. rewrite c_obj1. apply c_obj0.
  - rewrite c_pads1, c_pads0. symmetry. apply app_assoc.
Qed.
Lemma calm_new_pad t g : exists p, calm g (snd (new_pad t g)) [p] /\ fst (new_pad t g) = length (g_pads g).
Proof.
  unfold new_pad. eexists. split; [|reflexivity]. constructor; [|reflexivity|reflexivity|reflexivity|constructor; [reflexivity|constructor]|intros H; exact H].
  intros D. destruct (new_pad_ok t g _ _ eq_refl D) as (D' & _). exact D'.
Qed.
Lemma calm_trace_pad w g i g' : trace_pad w g = (i, g') -> exists l, calm g g' l.
Proof.
  unfold trace_pad. intros E. destruct (find_width w (g_trace_pads g)) as [j|] eqn:F; [injection E as <- <-; exists []; apply calm_refl|].
  destruct (calm_new_pad (TCircle w None) g) as (p & C & _). destruct (new_pad (TCircle w None) g) as [j g1] eqn:N. injection E as <- <-.
  exists [p]. destruct C. cbn [snd] in *. constructor; auto.
  intros D. refine (proj1 (trace_pad_ok w g j _ _ D)). unfold trace_pad. rewrite F, N. reflexivity.
Qed.
Lemma let_drawing (b : bool) x g1 g (k : list (node Q) -> gb -> list (node Q) * gb) : drawing x ->
  (forall n g, Forall drawing n -> Forall drawing (fst (k n g))) ->
  Forall drawing (fst (let '(n, g) := if b then ([x], g1) else ([], g) in k n g)).
Proof. intros Hx Hk. destruct b; apply Hk; repeat constructor. exact Hx. Qed.
Lemma state_updates_drawing ap pol rot mx my sc m g ups g' : state_updates ap pol rot mx my sc m g = (ups, g') -> Forall drawing ups.
Proof.
  intros E. apply (f_equal fst) in E. cbn [fst] in E. rewrite <- E. clear. unfold state_updates.
  apply let_drawing; [exact Logic.I|]. intros n1 g1 H1. apply let_drawing; [exact Logic.I|]. intros n2 g2 H2.
  apply let_drawing; [exact Logic.I|]. intros n3 g3 H3. cbv zeta. apply let_drawing; [exact Logic.I|]. intros n4 g4 H4.
  apply let_drawing; [exact Logic.I|]. intros n5 g5 H5. destruct m as [m|]; [apply let_drawing; [exact Logic.I|]; intros n6 g6 H6|];
  cbn [fst]; repeat (apply Forall_app; split); try assumption. constructor.
Qed.
Lemma calm_updates ap pol rot mx my sc m g ups g' : state_updates ap pol rot mx my sc m g = (ups, g') -> calm g g' [].
Proof.
  intros E. destruct (state_updates_gb _ _ _ _ _ _ _ _ _ _ E) as (_ & _ & _ & _ & _ & _ & U7 & U8 & U9 & U10 & U11 & U12 & _ & U14).
  constructor; auto.
  - intros D. exact (defs_ok_same g g' D U8 U9 U10 U11 U14).
  - rewrite U7. reflexivity.
  - intros n i. unfold object. rewrite U7. reflexivity.
  - rewrite U8. symmetry. apply app_nil_r.
  - rewrite U12. auto.
Qed.
Lemma calm_draw l ns g : Forall drawing ns -> calm g (add_draw l ns g) [].
Proof.
  intros H. constructor; [destruct 1; constructor; assumption|reflexivity|reflexivity|symmetry; apply app_nil_r|constructor|].
  intros HF. cbn [add_draw g_draws]. rewrite concat_app. apply Forall_app. split; [exact HF|]. cbn. rewrite app_nil_r. exact H.
Qed.
Lemma calm_object n o g : (forall i, o <> OPad i) -> (forall i, object n g <> OPad i) -> calm g (set_object n o g) [].
Proof.
  intros H1 H2. constructor; [destruct 1; constructor; assumption|apply length_replace| |symmetry; apply app_nil_r|constructor|intros H; exact H].
  intros m i. unfold object, set_object, set_objs. cbn [g_objs]. rewrite nth_replace.
  destruct (m =? n)%nat eqn:E; cbn [andb]; [|reflexivity]. apply Nat.eqb_eq in E as ->.
  destruct (n <? length (g_objs g))%nat; [|reflexivity]. split; intros E; [destruct (H1 _ E)|destruct (H2 _ E)].
Qed.

Definition sets (c : bcall) : Prop := match c with SetFunction _ _ | SetDrill _ _ _ | SetCustom _ _ _ => True | _ => False end.
Lemma region_ops_drawing segs : forall m ops, region_ops m segs = Ok ops -> Forall drawing ops.
Proof.
  induction segs as [|s r IH]; intros m ops; cbn [region_ops]; [intros H; injection H as <-; constructor|].
  destruct (pack2 (o_end s)); cbn [bind]; [|discriminate].
  destruct (opt_pack _); cbn [bind]; [|discriminate].
  destruct (region_ops (Some _) r) as [t|] eqn:E; cbn [bind]; [|discriminate].
  intros H. injection H as <-. pose proof (IH _ _ E) as HF. apply Forall_app. split; [|repeat constructor; exact HF].
  match goal with |- Forall _ (if ?b then _ else _) => destruct b end; repeat constructor.
Qed.
Definition answered (g : gb) (a : answer) : Prop :=
  exists extra, calm g (fst a) extra /\ forall i, snd a = Ok (OPad i) -> i = length (g_pads g) /\ length extra = 1%nat.
Lemma answered_raise g g' l e : calm g g' l -> answered g (raise g' e).
Proof. intros C. exists l. split; [exact C|discriminate]. Qed.
Lemma answered_quiet g g' l o : calm g g' l -> (forall i, o <> OPad i) -> answered g (g', Ok o).
Proof. intros C Ho. exists l. split; [exact C|]. intros i E. injection E as E. destruct (Ho _ E). Qed.
Lemma add_trace_calm m w b e ct g : answered g (add_trace m w b e ct g).
Proof.
  unfold add_trace. destruct (trace_pad w g) as [i ga] eqn:Et. destruct (calm_trace_pad _ _ _ _ Et) as [l Ct].
  destruct (begin_place b ga) as [bl|x]; [|exact (answered_raise _ _ _ _ Ct)].
  destruct (end_place e ga) as [el|x]; [|exact (answered_raise _ _ _ _ Ct)].
  destruct (state_updates _ _ _ _ _ _ _ ga) as [ups g2] eqn:Eu. pose proof (calm_trans _ _ _ _ _ Ct (calm_updates _ _ _ _ _ _ _ _ _ _ Eu)) as Cu.
  set (mv := match g_loc g2 with Some l => negb (loc_eqb l bl) | None => true end).
  destruct (if mv then let* xy := pack2 bl in Ok [ND02 (Some (fst xy)) (Some (snd xy))] else Ok []) as [d02|x] eqn:E02; cbn [bind];
    [|exact (answered_raise _ _ _ _ Cu)].
  assert (H02 : Forall drawing d02).
  { destruct mv; [destruct (pack2 bl); [|discriminate]; cbn in E02|]; injection E02 as <-; repeat constructor. }
  destruct (pack2 el) as [xy|x]; cbn [bind]; [|exact (answered_raise _ _ _ _ Cu)].
  destruct (opt_pack _) as [ij|x]; cbn [bind]; [|exact (answered_raise _ _ _ _ Cu)].
  eapply answered_quiet; [|discriminate]. eapply calm_trans; [exact Cu|]. apply calm_draw.
  apply Forall_app. split; [exact (state_updates_drawing _ _ _ _ _ _ _ _ _ _ Eu)|]. apply Forall_app. split; [exact H02|repeat constructor].
Qed.
Lemma perform_calm c g : ~ sets c -> answered g (perform c g).
Proof.
  intros Hs. destruct c; try (destruct (Hs Logic.I)); cbn [perform].
  1-4: (match goal with |- answered _ (returns_pad (new_pad ?t _)) => destruct (calm_new_pad t g) as (p & C & E) end;
        exists [p]; split; [exact C|]; intros i Ei; injection Ei as <-; auto).
  - apply (answered_quiet g g []); [apply calm_refl|discriminate].
  - unfold add_figure. destruct (object custom g) eqn:Eo; try (apply (answered_raise g g []); apply calm_refl).
    destruct (match f with FgOutline _ pts _ => _ | _ => _ end); [apply (answered_raise g g []); apply calm_refl|].
    destruct finalized; [apply (answered_raise g g []); apply calm_refl|].
    apply (answered_quiet g _ []); [|discriminate]. apply calm_object; [discriminate|]. intros i. rewrite Eo. discriminate.
  - unfold create_custom. destruct (object custom g) eqn:Eo; try (apply (answered_raise g g []); apply calm_refl).
    destruct finalized; [apply (answered_raise g g []); apply calm_refl|].
    set (gm := set_macros _ _ g).
    assert (Cm : calm g gm []).
    { constructor; [|reflexivity|reflexivity|symmetry; apply app_nil_r|constructor|intros H; exact H].
      intros []. constructor; try assumption; cbn [gm set_macros g_macro_id g_macros].
      - rewrite app_length, Nat2Z.inj_add. cbn [length]. lia.
      - intros i m H. apply nth_error_snoc in H as [[H _]|[-> ->]]; [auto|]. cbn [fst]. do 2 f_equal. lia. }
    destruct (calm_new_pad (TMacro (lit "M" ++ z_repr (g_macro_id g + 1)) None) gm) as (p & C & E).
    destruct (new_pad _ gm) as [i gp]. cbn [fst snd] in *.
    exists (([] ++ [p]) ++ []). split.
    + apply (calm_trans _ gp); [apply (calm_trans _ gm); assumption|]. apply calm_object; [discriminate|].
      intros j Ej. apply (c_obj _ _ _ C) in Ej. change (object custom g = OPad j) in Ej. congruence.
    + intros j Ej. injection Ej as <-. split; [exact E|reflexivity].
  - unfold add_pad. destruct (object pad g) eqn:Eo; try (apply (answered_raise g g []); apply calm_refl).
    destruct (state_updates _ _ _ _ _ _ _ g) as [ups g2] eqn:Eu. pose proof (calm_updates _ _ _ _ _ _ _ _ _ _ Eu) as Cu.
    destruct (pad_place _ g2) as [l|e]; [|exact (answered_raise _ _ _ _ Cu)].
    destruct (pack2 l) as [[x y]|e]; [|exact (answered_raise _ _ _ _ Cu)].
    apply (answered_quiet g _ ([] ++ [])); [|discriminate]. apply (calm_trans _ g2); [exact Cu|]. apply calm_draw.
    apply Forall_app. split; [exact (state_updates_drawing _ _ _ _ _ _ _ _ _ _ Eu)|repeat constructor].
  - apply add_trace_calm.
  - apply add_trace_calm.
  - apply (answered_quiet g g []); [apply calm_refl|discriminate].
  - unfold add_segment. destruct (object region g) eqn:Eo; try (apply (answered_raise g g []); apply calm_refl).
    apply (answered_quiet g _ []); [|discriminate]. apply calm_object; [discriminate|]. intros i. rewrite Eo. discriminate.
  - unfold create_region. destruct (object region g) eqn:Eo; try (apply (answered_raise g g []); apply calm_refl).
    destruct (length (r_outline _) <? 3)%nat; [apply (answered_raise g g []); apply calm_refl|].
    destruct (trace_pad 1 g) as [i ga] eqn:Et. destruct (calm_trace_pad _ _ _ _ Et) as [l Ct].
    destruct (state_updates _ _ _ _ _ _ _ ga) as [ups g2] eqn:Eu. pose proof (calm_trans _ _ _ _ _ Ct (calm_updates _ _ _ _ _ _ _ _ _ _ Eu)) as Cu.
    destruct (pack2 _) as [[x y]|e]; [|exact (answered_raise _ _ _ _ Cu)].
    match goal with |- context [set_object region ?o g2] => assert (Co : calm g (set_object region o g2) ((l ++ []) ++ [])) end.
    { apply (calm_trans _ g2); [exact Cu|]. apply calm_object; [discriminate|]. intros j Ej. apply (c_obj _ _ _ Cu) in Ej. congruence. }
    destruct (region_ops None _) as [ops|e] eqn:Er; [|exact (answered_raise _ _ _ _ Co)].
    eapply answered_quiet; [|discriminate]. eapply calm_trans; [exact Co|]. apply calm_draw.
    apply Forall_app. split; [exact (state_updates_drawing _ _ _ _ _ _ _ _ _ _ Eu)|]. repeat constructor.
    apply Forall_app. split; [exact (region_ops_drawing _ _ _ Er)|repeat constructor].
Qed.

(** *** Attributes *)
Local Notation aper := (lit ".AperFunction").
Local Notation drill := (lit ".DrillTolerance").
Definition by_name (l : list attr) (k : str) : option attr := d_get k (fold_left add_attr l []).
Lemma fold_attr_get l : forall d k, d_get k (fold_left add_attr l d) = match by_name l k with Some a => Some a | None => d_get k d end.
Proof.
  unfold by_name. induction l as [|a l IH]; intros d k; [reflexivity|]. cbn [fold_left]. rewrite IH, (IH (add_attr [] a)).
  destruct (d_get k (fold_left add_attr l [])); [reflexivity|]. unfold add_attr. rewrite !d_get_set. destruct (str_eqb k (at_name a)); reflexivity.
Qed.
Lemma by_name_app l l' k : by_name (l ++ l') k = match by_name l' k with Some a => Some a | None => by_name l k end.
Proof. unfold by_name at 1. rewrite fold_left_app. apply fold_attr_get. Qed.
Lemma by_name_one a k : by_name [a] k = if str_eqb k (at_name a) then Some a else None.
Proof. unfold by_name. cbn [fold_left]. unfold add_attr. rewrite d_get_set. reflexivity. Qed.
Lemma by_name_out l k : Forall (fun a => at_name a <> k) l -> by_name l k = None.
Proof.
  induction l as [|a l IH] using rev_ind; intros H; [reflexivity|]. apply Forall_app in H as [H1 H2].
  rewrite by_name_app, by_name_one. destruct (str_eqb k (at_name a)) eqn:E; [|auto]. apply str_eqb_eq in E. inversion H2. congruence.
Qed.

(** The fields of pad [p] are what the history says about pad number [n]. *)
Record has (h : history) (n : nat) (p : pad) : Prop := {
  has_function : p_function p = attribute h n aper;
  has_drill : p_drill p = attribute h n drill;
  has_user : forall k, k <> aper -> k <> drill -> by_name (p_user p) k = attribute h n k;
  has_names : Forall (fun a => at_name a <> aper /\ at_name a <> drill) (p_user p) }.
Lemma attribute_name h n k a : attribute h n k = Some a -> at_name a = k.
Proof.
  induction h as [|[c ok] h IH]; [discriminate|]. destruct c, ok; try exact IH; cbn [attribute]; destruct (_ && _)%bool; try exact IH;
  intros E; injection E as <-; reflexivity.
Qed.
Lemma has_all h n p : has h n p -> forall k, by_name (own_attrs p) k = attribute h n k.
Proof.
  intros [Hf Hd Hu Hn] k. unfold own_attrs. rewrite !by_name_app.
  assert (HA : aper <> drill) by discriminate.
  assert (Hf' : by_name (match p_function p with Some a => [a] | None => [] end) k = if str_eqb k aper then p_function p else None).
  { destruct (p_function p) as [a|] eqn:E; [|destruct (str_eqb k aper); reflexivity]. rewrite by_name_one.
    rewrite (attribute_name h n aper a) by congruence. reflexivity. }
  assert (Hd' : by_name (match p_drill p with Some a => [a] | None => [] end) k = if str_eqb k drill then p_drill p else None).
  { destruct (p_drill p) as [a|] eqn:E; [|destruct (str_eqb k drill); reflexivity]. rewrite by_name_one.
    rewrite (attribute_name h n drill a) by congruence. reflexivity. }
  rewrite Hf', Hd'. destruct (str_eqb k aper) eqn:E1; [apply str_eqb_eq in E1 as ->|destruct (str_eqb k drill) eqn:E2; [apply str_eqb_eq in E2 as ->|]].
  - rewrite (by_name_out (p_user p) aper) by (eapply Forall_impl; [|exact Hn]; cbn; tauto).
    change (str_eqb aper drill) with false. cbv iota. exact Hf.
  - rewrite (by_name_out (p_user p) drill) by (eapply Forall_impl; [|exact Hn]; cbn; tauto).
    rewrite Hd. destruct (attribute h n drill); reflexivity.
  - rewrite Hu; [destruct (attribute h n k); reflexivity| |]; intros ->; rewrite str_eqb_refl in *; discriminate.
Qed.

Record inva (h : history) (g : gb) : Prop := {
  ia_defs : defs_ok g;
  ia_len : length (g_objs g) = length h;
  ia_has : forall n i, object n g = OPad i -> exists p, nth_error (g_pads g) i = Some p /\ has h n p;
  ia_one : forall n m i, object n g = OPad i -> object m g = OPad i -> n = m;
  ia_rest : forall i p, nth_error (g_pads g) i = Some p -> (exists n, object n g = OPad i) \/ own_attrs p = [];
  ia_draws : Forall drawing (concat (g_draws g));
  ia_later : forall n k, (length h <= n)%nat -> attribute h n k = None }.
Lemma object_in h g n i : inva h g -> object n g = OPad i -> (n < length h)%nat.
Proof.
  intros I E. rewrite <- (ia_len _ _ I). destruct (Nat.lt_ge_cases n (length (g_objs g))) as [L|L]; [exact L|].
  unfold object in E. rewrite nth_overflow in E by exact L. discriminate.
Qed.
Lemma object_snoc g o n : object n (set_objs (g_objs g ++ [o]) g) =
  if (n <? length (g_objs g))%nat then object n g else if (n =? length (g_objs g))%nat then o else ONothing.
Proof.
  unfold object, set_objs. cbn [g_objs]. destruct (Nat.ltb_spec n (length (g_objs g))); [apply app_nth1; assumption|].
  rewrite app_nth2 by assumption. destruct (Nat.eqb_spec n (length (g_objs g))) as [->|N]; [rewrite Nat.sub_diag; reflexivity|].
  apply nth_overflow. cbn. lia.
Qed.
Lemma has_same h h' n p : (forall k, attribute h' n k = attribute h n k) -> has h n p -> has h' n p.
Proof. intros E []. constructor; intros; rewrite ?E; auto. Qed.

Lemma inva_calm c ok h g g1 extra o : inva h g -> calm g g1 extra ->
  (forall n k, attribute ((c, ok) :: h) n k = attribute h n k) ->
  (forall i, o = OPad i -> i = length (g_pads g) /\ length extra = 1%nat) ->
  inva ((c, ok) :: h) (set_objs (g_objs g1 ++ [o]) g1).
Proof.
  intros I C EA Ho. pose proof (ia_len _ _ I) as L. pose proof (c_len _ _ _ C) as L1.
  assert (HO : forall n i, object n (set_objs (g_objs g1 ++ [o]) g1) = OPad i -> (object n g = OPad i /\ (n < length h)%nat) \/ (n = length h /\ o = OPad i)).
  { intros n i. rewrite object_snoc, L1, L. destruct (Nat.ltb_spec n (length h)); [intros E; left; split; [apply (c_obj _ _ _ C); exact E|assumption]|].
    destruct (Nat.eqb_spec n (length h)); [auto|discriminate]. }
  assert (HI : forall n i, object n g = OPad i -> (i < length (g_pads g))%nat).
  { intros n i E. destruct (ia_has _ _ I _ _ E) as (p & Hp & _). apply nth_error_Some. congruence. }
  constructor.
  - destruct (c_defs _ _ _ C (ia_defs _ _ I)). constructor; assumption.
  - cbn [set_objs g_objs length]. rewrite app_length. cbn. lia.
  - intros n i E. cbn [set_objs g_pads]. rewrite (c_pads _ _ _ C). destruct (HO _ _ E) as [[E' Hn]|[-> E']].
    + destruct (ia_has _ _ I _ _ E') as (p & Hp & Hh). exists p. split; [rewrite nth_error_app1; [exact Hp|exact (HI _ _ E')]|].
      exact (has_same _ _ _ _ (EA n) Hh).
    + destruct (Ho _ E') as [-> Hl]. destruct extra as [|p [|q r]]; try discriminate. exists p.
      split; [rewrite nth_error_app2, Nat.sub_diag by lia; reflexivity|].
      apply (has_same h); [intros k; apply EA|]. pose proof (c_bare _ _ _ C) as Hb. inversion Hb as [|? ? Hp _]; subst.
      unfold own_attrs in Hp. destruct (p_function p) eqn:E1, (p_drill p) eqn:E2, (p_user p) eqn:E3; try discriminate.
      constructor; intros; rewrite ?(ia_later _ _ I) by lia; rewrite ?E1, ?E2, ?E3; auto.
  - intros n m i En Em. destruct (HO _ _ En) as [[En' Hn]|[-> En']], (HO _ _ Em) as [[Em' Hm]|[-> Em']].
    + exact (ia_one _ _ I _ _ _ En' Em').
    + destruct (Ho _ Em') as [-> _]. pose proof (HI _ _ En'). lia.
    + destruct (Ho _ En') as [-> _]. pose proof (HI _ _ Em'). lia.
    + reflexivity.
  - intros i p. cbn [set_objs g_pads]. rewrite (c_pads _ _ _ C). intros Hp. destruct (Nat.lt_ge_cases i (length (g_pads g))) as [Li|Li].
    + rewrite nth_error_app1 in Hp by exact Li. destruct (ia_rest _ _ I _ _ Hp) as [[n Hn]|Hb]; [left|auto]. exists n.
      pose proof (object_in _ _ _ _ I Hn) as Ln. rewrite object_snoc, L1, L. destruct (Nat.ltb_spec n (length h)); [apply (c_obj _ _ _ C); exact Hn|lia].
    + rewrite nth_error_app2 in Hp by exact Li. right. apply nth_error_In in Hp. exact (proj1 (Forall_forall _ _) (c_bare _ _ _ C) _ Hp).
  - exact (c_draws _ _ _ C (ia_draws _ _ I)).
  - intros n k Hn. cbn in Hn. rewrite EA. apply (ia_later _ _ I). lia.
Qed.

Lemma nth_error_replace {T} (l : list T) i a : forall j, nth_error (replace l i a) j = if (j =? i)%nat && (i <? length l)%nat then Some a else nth_error l j.
Proof.
  revert i. induction l as [|x l IH]; intros [|i] [|j]; cbn; try reflexivity; try (rewrite andb_false_r; reflexivity). apply IH.
Qed.
Lemma inva_set c n f h g : inva h g -> (forall p, p_ad (f p) = p_ad p) -> sets c ->
  (forall p, has h n p -> has ((c, true) :: h) n (f p)) ->
  (forall m, m <> n -> forall k, attribute ((c, true) :: h) m k = attribute h m k) ->
  inva ((c, is_ok (snd (set_attr n f g))) :: h) (let '(g1, r) := set_attr n f g in set_objs (g_objs g1 ++ [match r with Ok o => o | Err _ => ONothing end]) g1).
Proof.
  intros I Hf Hs Hh Hm. unfold set_attr.
  assert (HR : inva ((c, false) :: h) (set_objs (g_objs g ++ [ONothing]) g)).
  { apply (inva_calm _ _ h g g []); [exact I|apply calm_refl| |discriminate]. intros m k. destruct c; reflexivity. }
  destruct (object n g) as [|i|ps fin|rg|q|b e|q] eqn:Eo; try exact HR.
  destruct (nth_error (g_pads g) i) as [p|] eqn:Ep; [|exact HR]. clear HR. cbn [snd is_ok].
  pose proof (ia_len _ _ I) as L. pose proof (object_in _ _ _ _ I Eo) as Ln.
  assert (Li : (i <? length (g_pads g))%nat = true) by (apply Nat.ltb_lt, nth_error_Some; congruence).
  set (gp := set_pads _ _ g).
  assert (HO : forall m j, object m (set_objs (g_objs gp ++ [ONothing]) gp) = OPad j <-> object m g = OPad j).
  { intros m j. rewrite object_snoc. change (object m gp) with (object m g). change (g_objs gp) with (g_objs g). rewrite L.
    destruct (Nat.ltb_spec m (length h)); [reflexivity|]. destruct (Nat.eqb_spec m (length h)); split; try discriminate; intros E;
    pose proof (object_in _ _ _ _ I E); lia. }
  constructor.
  - assert (EA : ads gp = ads g).
    { unfold ads, gp. cbn [set_pads g_pads]. exact (map_replace _ _ _ _ (Hf p) Ep). }
    destruct (ia_defs _ _ I). constructor; change (ads (set_objs (g_objs gp ++ [ONothing]) gp)) with (ads gp); rewrite ?EA; assumption.
  - cbn [gp set_pads set_objs g_objs length]. rewrite app_length. cbn. lia.
  - intros m j E. apply HO in E. cbn [gp set_pads set_objs g_pads]. rewrite nth_error_replace, Li. destruct (Nat.eqb_spec j i) as [->|N]; cbn [andb].
    + assert (m = n) as -> by exact (ia_one _ _ I _ _ _ E Eo). exists (f p). split; [reflexivity|]. apply Hh.
      destruct (ia_has _ _ I _ _ Eo) as (p' & Hp' & H'). congruence.
    + destruct (ia_has _ _ I _ _ E) as (p' & Hp' & H'). exists p'. split; [exact Hp'|]. apply (has_same h); [|exact H'].
      intros k. apply Hm. intros ->. congruence.
  - intros m m' j E E'. apply HO in E. apply HO in E'. exact (ia_one _ _ I _ _ _ E E').
  - intros j q. cbn [gp set_pads set_objs g_pads]. rewrite nth_error_replace, Li. destruct (Nat.eqb_spec j i) as [->|N]; cbn [andb]; intros Hq.
    + left. exists n. apply HO. exact Eo.
    + destruct (ia_rest _ _ I _ _ Hq) as [[m Hm']|Hb]; [left; exists m; apply HO; exact Hm'|auto].
  - exact (ia_draws _ _ I).
  - intros m k Hk. cbn in Hk. rewrite Hm by lia. apply (ia_later _ _ I). lia.
Qed.

Lemma inva_step c h g : inva h g -> (match c with SetCustom _ k _ => k <> aper /\ k <> drill | _ => True end) ->
  inva ((c, is_ok (snd (perform c g))) :: h) (gstep g c).
Proof.
  intros I Hn. assert (HS : sets c \/ ~ sets c) by (destruct c; cbn; auto). destruct HS as [HS|HS].
  - assert (HA : aper <> drill) by discriminate. unfold gstep.
    destruct c; try destruct HS; cbn [perform]; apply inva_set; try exact I; try reflexivity; try exact Logic.I.
    + intros p []. constructor; cbn [p_function p_drill p_user attribute]; rewrite ?Nat.eqb_refl; cbn [andb]; auto.
      intros k H1 H2. destruct (str_eqb k aper) eqn:E; [apply str_eqb_eq in E; contradiction|]. auto.
    + intros m Hm k. cbn [attribute]. destruct (Nat.eqb_spec pad m); [congruence|reflexivity].
    + intros p []. constructor; cbn [p_function p_drill p_user attribute]; rewrite ?Nat.eqb_refl; cbn [andb]; auto.
      intros k H1 H2. destruct (str_eqb k drill) eqn:E; [apply str_eqb_eq in E; contradiction|]. auto.
    + intros m Hm k. cbn [attribute]. destruct (Nat.eqb_spec pad m); [congruence|reflexivity].
    + destruct Hn as [N1 N2].
      assert (F : forall k, k = aper \/ k = drill -> str_eqb k name = false).
      { intros k Hk. destruct (str_eqb k name) eqn:E; [|reflexivity]. apply str_eqb_eq in E. destruct Hk; congruence. }
      intros p []. constructor; cbn [p_function p_drill p_user attribute]; rewrite ?Nat.eqb_refl; cbn [andb]; rewrite ?F by auto; auto.
      * intros k H1 H2. rewrite by_name_app, by_name_one. cbn [at_name]. destruct (str_eqb k name) eqn:E; [apply str_eqb_eq in E; subst; reflexivity|]. auto.
      * apply Forall_app. split; [assumption|]. constructor; [auto|constructor].
    + intros m Hm k. cbn [attribute]. destruct (Nat.eqb_spec pad m); [congruence|reflexivity].
  - destruct (perform_calm c g HS) as (extra & C & Ho). unfold gstep. destruct (perform c g) as [g1 r]. cbn [fst snd] in *.
    apply (inva_calm c _ h g g1 extra); [exact I|exact C| |].
    + intros n k. destruct c; try reflexivity; destruct (HS Logic.I).
    + intros i E. apply Ho. destruct r; [congruence|discriminate].
Qed.
Lemma inva_run cs : forall g h, inva h g -> own_names cs -> inva (happened cs g h) (fold_left gstep cs g).
Proof.
  induction cs as [|c cs IH]; intros g h I H; [exact I|]. inversion H; subst. cbn [happened fold_left]. apply IH; [|assumption].
  apply inva_step; assumption.
Qed.
Lemma object_init n : object n gb_init = ONothing.
Proof. unfold object. destruct n; reflexivity. Qed.
Lemma inva_init : inva [] gb_init.
Proof.
  constructor; [exact defs_init|reflexivity| | | |constructor|reflexivity].
  - intros n i E. rewrite object_init in E. discriminate.
  - intros n m i E. rewrite object_init in E. discriminate.
  - intros [|i] p E; discriminate.
Qed.
Lemma inva_build cs : own_names cs -> inva (happened cs gb_init []) (build cs).
Proof. apply inva_run. exact inva_init. Qed.
(** Without the condition on names. *)
Lemma defs_build cs : defs_ok (build cs) /\ Forall drawing (concat (g_draws (build cs))).
Proof.
  unfold build. rewrite <- (rev_involutive cs). induction (rev cs) as [|c r [D F]]; [split; [exact defs_init|constructor]|].
  cbn [rev]. rewrite fold_left_app. cbn [fold_left]. set (g := fold_left gstep (rev r) gb_init) in *.
  assert (HS : sets c \/ ~ sets c) by (destruct c; cbn; auto). unfold gstep. destruct HS as [HS|HS].
  - assert (H : forall n f, (forall p, p_ad (f p) = p_ad p) -> defs_ok (fst (set_attr n f g)) /\ Forall drawing (concat (g_draws (fst (set_attr n f g))))).
    { intros n f Hf. unfold set_attr. destruct (object n g); try (split; assumption). destruct (nth_error (g_pads g) i) as [p|] eqn:Ep; [|split; assumption].
      split; [|exact F]. cbn [fst]. set (gp := set_pads _ _ g).
      assert (EA : ads gp = ads g) by exact (map_replace _ _ _ _ (Hf p) Ep). destruct D. constructor; rewrite ?EA; assumption. }
    destruct c; try destruct HS; cbn [perform];
      match goal with |- context [set_attr ?n ?f g] => specialize (H n f (fun p => eq_refl)); destruct (set_attr n f g) as [g1 x] end;
      cbn [fst] in H; destruct H as [H1 H2]; (split; [destruct H1; constructor; assumption|exact H2]).
  - destruct (perform_calm c g HS) as (extra & C & _). destruct (perform c g) as [g1 x]. cbn [fst] in C.
    split; [destruct (c_defs _ _ _ C D); constructor; assumption|exact (c_draws _ _ _ C F)].
Qed.

(** *** In the file *)
Lemma ids_of_app a b : ids_of (a ++ b) = ids_of a ++ ids_of b. Proof. apply flat_map_app. Qed.
Lemma names_of_app a b : names_of (a ++ b) = names_of a ++ names_of b. Proof. apply flat_map_app. Qed.
Lemma nothing_defined ns : Forall drawing ns -> ids_of ns = [] /\ names_of ns = [].
Proof. induction 1 as [|n r H _ [IH1 IH2]]; [split; reflexivity|]. destruct n; try destruct H; split; assumption. Qed.
Lemma code_ids g : Forall drawing (concat (g_draws g)) -> ids_of (get_code g) = map ad_id (ads g) /\ names_of (get_code g) = map fst (g_macros g).
Proof.
  intros F. destruct (nothing_defined _ F) as [F1 F2]. rewrite get_code_intro. unfold intro.
  rewrite !ids_of_app, !names_of_app, F1, F2. cbn [ids_of names_of flat_map app]. rewrite !app_nil_r.
  assert (HT : forall l, ids_of (map NTA l) = [] /\ names_of (map NTA l) = []) by (induction l as [|? ? [? ?]]; split; cbn; auto).
  split.
  - replace (ids_of (map (fun m => NAM (fst m) (snd m)) (g_macros g))) with (@nil str) by (clear; induction (g_macros g); cbn; auto).
    cbn [app]. unfold ads. clear - HT. induction (g_pads g) as [|p l IH]; [reflexivity|]. cbn [flat_map map].
    rewrite ids_of_app, IH, pad_nodes_alt, !ids_of_app, (proj1 (HT _)). destruct (own_attrs p); reflexivity.
  - replace (names_of (flat_map pad_nodes (g_pads g))) with (@nil str).
    + rewrite app_nil_r. clear. induction (g_macros g) as [|m l IH]; cbn; [reflexivity|]. f_equal. exact IH.
    + clear - HT. induction (g_pads g) as [|p l IH]; [reflexivity|]. cbn [flat_map].
      rewrite names_of_app, <- IH, pad_nodes_alt, !names_of_app, (proj2 (HT _)). destruct (own_attrs p); reflexivity.
Qed.
Lemma draws_keep b ns : Forall drawing ns -> forall v v' : vis, on_file recorder b (ns ++ [NM02]) v = Ok v' ->
  s_per_ap_attrs (v_state v') = s_per_ap_attrs (v_state v) /\ s_apertures (v_state v') = s_apertures (v_state v).
Proof.
  induction 1 as [|n r H _ IH]; intros v v' E; [cbn in E; destruct b; injection E as <-; split; reflexivity|].
  cbn [app on_file] in E. assert (EV : visit recorder n v = visit_leaf recorder n v) by (destruct n; try destruct H; reflexivity).
  rewrite EV in E. pose proof (frame_leaf recorder n v) as HF. destruct (visit_leaf recorder n v) as [w|w|e]; [| |discriminate].
  - destruct (HF w (or_introl eq_refl)) as (F1 & _ & _ & _ & F5). destruct (IH _ _ E) as [H1 H2]. rewrite H1, H2.
    destruct n; try destruct H; split; assumption.
  - destruct (HF w (or_intror eq_refl)) as (F1 & _ & _ & _ & F5). destruct b; [injection E as <-|destruct (IH _ _ E) as [H1 H2]; rewrite H1, H2];
    destruct n; try destruct H; split; assumption.
Qed.
Lemma file_stores cs b v : on_file recorder b (get_code (build cs)) (visitor_init []) = Ok v ->
  s_per_ap_attrs (v_state v) = fold_left put_attrs (g_pads (build cs)) [] /\ s_apertures (v_state v) = fold_left put_ad (g_pads (build cs)) [].
Proof.
  rewrite get_code_intro, (on_file_visits _ _ _ _ _ (read_intro _)). intros E. exact (draws_keep b _ (proj2 (defs_build cs)) _ _ E).
Qed.

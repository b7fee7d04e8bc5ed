(** Proofs for C38: invariants of the history of a builder. *)
From Verif Require Import Base Num Dict CoordModel Ast StateModel GbModel GbSpec GbProofs LayerOut.
From Coq Require Import Qabs Lqa.
Local Open Scope Q_scope.
Local Existing Instance NumQ.
Local Notation vis := (visitor Q (list (@call Q))).

(** ** Regions *)
Fixpoint trail (b : loc) (segs : list segment) : list osegment :=
  match segs with
  | [] => []
  | s :: r => (match s with SgLine e => OLine e | SgCw e c => OCw b c e | SgCcw e c => OCcw b c e end) :: trail (seg_end s) r
  end.
Fixpoint path_end (b : loc) (segs : list segment) : loc := match segs with [] => b | s :: r => path_end (seg_end s) r end.
Lemma trail_app b s s' : trail b (s ++ s') = trail b s ++ trail (path_end b s) s'.
Proof. revert b. induction s as [|a s IH]; intros b; cbn; [reflexivity|]. rewrite IH. reflexivity. Qed.
Lemma path_end_app b s a : path_end b (s ++ [a]) = seg_end a.
Proof. revert b. induction s as [|x s IH]; intros b; cbn; auto. Qed.
Lemma trail_length b s : length (trail b s) = length s.
Proof. revert b. induction s as [|x s IH]; intros b; cbn; auto. Qed.
Lemma trail_end b x s : rev (trail b (s ++ [x])) = (match x with SgLine e => OLine e | SgCw e c => OCw (path_end b s) c e | SgCcw e c => OCcw (path_end b s) c e end) :: rev (trail b s).
Proof. rewrite trail_app, rev_app_distr. reflexivity. Qed.
Lemma closed_trail b segs p : closed_outline (MkRegion b (trail b segs) p) = trail b (close b segs).
Proof.
  unfold closed_outline, close. cbn [r_outline r_begin].
  destruct segs as [|x s] using rev_ind; [reflexivity|]. clear IHs.
  rewrite trail_end, rev_app_distr. cbn [rev app].
  change (loc_eqb) with same. replace (o_end _) with (seg_end x) by (destruct x; reflexivity).
  destruct (same (seg_end x) b); [reflexivity|]. rewrite (trail_app b (s ++ [x])). reflexivity.
Qed.
Lemma same_refl b : same b b = true.
Proof. unfold same. rewrite !Qeq_bool_refl. reflexivity. Qed.
Lemma close_idem b segs : close b (close b segs) = close b segs.
Proof.
  unfold close at 2 3. destruct (rev segs) as [|x r] eqn:E; [reflexivity|].
  destruct (same (seg_end x) b) eqn:Es.
  - unfold close. rewrite E, Es. reflexivity.
  - unfold close. rewrite rev_app_distr. cbn [rev app seg_end]. rewrite same_refl. reflexivity.
Qed.
Lemma close_nonempty b segs : segs <> [] -> close b segs <> [].
Proof.
  intros H. unfold close. destruct (rev segs) eqn:E.
  - apply (f_equal (@rev _)) in E. rewrite rev_involutive in E. contradiction.
  - destruct (same _ _); [exact H|]. destruct segs; discriminate.
Qed.

Section Read.
  Context (A : dict (ad Q)) (M : dict (list (prim Q))).
  Notation sync := (sync A M).

  Definition end_mode (real : plot_mode) (segs : list segment) : plot_mode :=
    match rev segs with s :: _ => seg_mode s | [] => real end.
  Lemma end_mode_cons real s r : end_mode real (s :: r) = end_mode (seg_mode s) r.
  Proof.
    unfold end_mode. destruct r as [|x r] using rev_ind; [reflexivity|].
    change (s :: r ++ [x]) with ((s :: r) ++ [x]). rewrite !rev_app_distr. reflexivity.
  Qed.

  Lemma outline_read segs : forall b mode ops sel tr real v,
    region_ops mode (trail b segs) = Ok ops -> sync sel tr (Some b) real true v -> tr_ok tr Dark 0 false false 1 ->
    match mode with Some m => real = m | None => True end ->
    exists v' cs, visits recorder ops v = Done v' /\ sync sel tr (Some (path_end b segs)) (end_mode real segs) true v' /\
      v_ext v' = v_ext v ++ cs /\ outlined b segs cs.
  Proof.
    induction segs as [|s r IH]; intros b mode ops sel tr real v E S T Hm.
    - injection E as <-. exists v, []. split; [reflexivity|]. split; [exact S|]. split; [symmetry; apply app_nil_r|constructor].
    - cbn [trail region_ops] in E.
      set (o := match s with SgLine e => OLine e | SgCw e c => OCw b c e | SgCcw e c => OCcw b c e end) in *.
      set (m := match o with OLine _ => PmLinear | OCw _ _ _ => PmArc | OCcw _ _ _ => PmCcwArc end) in *.
      assert (Em : m = seg_mode s) by (destruct s; reflexivity).
      assert (Ee : o_end o = seg_end s) by (destruct s; reflexivity).
      rewrite Ee in E. destruct (pack2 (seg_end s)) as [[x y]|] eqn:Ep; [|discriminate E]. cbn [bind] in E.
      assert (Ec : match o with OLine _ => None | OCw b0 c _ | OCcw b0 c _ => Some ((fst c - fst b0)%Q, (snd c - snd b0)%Q) end
                   = match seg_center s with Some c => Some (offset c b) | None => None end) by (destruct s; reflexivity).
      rewrite Ec in E. destruct (opt_pack _) as [[i j]|] eqn:Ei; [|discriminate E]. cbn [bind] in E.
      destruct (region_ops (Some m) (trail (seg_end s) r)) as [rest|] eqn:Er; [|discriminate E]. cbn [bind fst snd] in E.
      injection E as <-.
      assert (H1 : exists v1, quiet (if match mode with Some b0 => mode_eqb b0 m | None => false end then [] else [NG (mode_g m)]) v v1 /\
                     sync sel tr (Some b) m true v1).
      { destruct mode as [t|]; [destruct (mode_eqb t m) eqn:Et|].
        - apply mode_eqb_eq in Et. subst. exists v. split; [apply quiet_nil|exact S].
        - exact (rd_mode A M _ _ _ _ _ m _ S).
        - exact (rd_mode A M _ _ _ _ _ m _ S). }
      destruct H1 as (v1 & [Q1 X1] & S1).
      destruct (stroke_read A M _ _ _ _ _ _ _ _ _ (seg_center s) _ _ S1 T Ep Ei) as (v2 & st & V2 & S2 & X2 & K2 & _).
      destruct (IH _ _ _ _ _ _ _ Er S2 T eq_refl) as (v3 & cs & V3 & S3 & X3 & O3).
      exists v3, (CDraw (d01_region_table m MultiQuadrant) st :: cs). split.
      + rewrite visits_app, Q1. cbn [obind].
        change (ND01 (Some x) (Some y) i j :: rest) with ([ND01 (Some x) (Some y) i j] ++ rest). rewrite visits_app, V2. exact V3.
      + split; [rewrite end_mode_cons, <- Em; exact S3|]. split; [rewrite X3, X2, X1, <- app_assoc; reflexivity|].
        replace (d01_region_table m MultiQuadrant) with
          (match seg_mode s with PmLinear => HRegionLine | PmArc => HRegionCwMq | PmCcwArc => HRegionCcwMq end)
          by (rewrite Em; destruct s; reflexivity).
        constructor; assumption.
  Qed.

  Lemma region_read b segs ops x y sel tr l real v :
    region_ops None (trail b segs) = Ok ops -> pack2 b = Ok (x, y) -> sync sel tr l real false v -> tr_ok tr Dark 0 false false 1 ->
    exists v' cs s0 s1,
      visits recorder ([NG G36; ND02 (Some x) (Some y)] ++ ops ++ [NG G37; ND02 (Some x) (Some y)]) v = Done v' /\
      sync sel tr (Some b) (end_mode real segs) false v' /\
      v_ext v' = v_ext v ++ [CStartRegion; CFlushRegion s0] ++ cs ++ [CFlushRegion s1; CEndRegion] /\
      plain s0 /\ plain s1 /\ outlined b segs cs.
  Proof.
    intros Eo Ep S T.
    assert (H1 : exists v1, visits recorder [NG G36] v = Done v1 /\ v_ext v1 = v_ext v ++ [CStartRegion] /\ sync sel tr l real true v1).
    { eexists. split; [reflexivity|]. split; [reflexivity|]. destruct S. constructor; cbn; try assumption; try reflexivity.
      rewrite y_plot, y_arc. reflexivity. }
    destruct H1 as (v1 & V1 & X1 & S1).
    destruct (move_read A M _ _ _ _ _ _ _ _ _ S1 Ep) as (v2 & s0 & V2 & S2 & X2 & U2 & T2).
    destruct (outline_read _ _ _ _ _ _ _ _ Eo S2 T I) as (v3 & cs & V3 & S3 & X3 & O3).
    assert (H4 : exists v4, visits recorder [NG G37] v3 = Done v4 /\ v_ext v4 = v_ext v3 ++ [CFlushRegion (v_state v3); CEndRegion] /\
      sync sel tr (Some (path_end b segs)) (end_mode real segs) false v4).
    { eexists. split; [reflexivity|]. split; [cbn; rewrite <- app_assoc; reflexivity|].
      destruct S3. constructor; cbn; try assumption; try reflexivity. rewrite y_plot, y_arc. reflexivity. }
    destruct H4 as (v4 & V4 & X4 & S4).
    destruct (move_read A M _ _ _ _ _ _ _ _ _ S4 Ep) as (v5 & s5 & V5 & S5 & X5 & _).
    exists v5, cs, s0, (v_state v3). split.
    - change ([NG G36; ND02 (Some x) (Some y)]) with ([NG (K:=Q) G36] ++ [ND02 (Some x) (Some y)]).
      change ([NG G37; ND02 (Some x) (Some y)]) with ([NG (K:=Q) G37] ++ [ND02 (Some x) (Some y)]).
      rewrite <- app_assoc, visits_app, V1. cbn [obind]. rewrite visits_app, V2. cbn [obind]. rewrite visits_app, V3. cbn [obind].
      rewrite visits_app, V4. exact V5.
    - split; [exact S5|]. split; [|split; [|split; [|exact O3]]].
      + rewrite X5, X4, X3, X2, X1, app_nil_r. rewrite <- !app_assoc. reflexivity.
      + eapply sync_placed; [exact S1|exact T|exact U2|exact T2].
      + eapply sync_placed; [exact S3|exact T|reflexivity|reflexivity].
  Qed.
End Read.

(** ** Definitions *)
Definition ads (g : gb) : list (ad Q) := map p_ad (g_pads g).
Record defs_ok (g : gb) : Prop := {
  do_id : g_id g = (9 + Z.of_nat (length (ads g)))%Z;
  do_ids : forall i a, nth_error (ads g) i = Some a -> ad_id a = lit "D" ++ z_repr (10 + Z.of_nat i);
  do_mac : g_macro_id g = (Z.of_nat (length (g_macros g)) - 1)%Z;
  do_macs : forall i m, nth_error (g_macros g) i = Some m -> fst m = lit "M" ++ z_repr (Z.of_nat i);
  do_trace : forall w i, In (w, i) (g_trace_pads g) -> exists a, nth_error (ads g) i = Some a /\ ad_template a = TCircle w None }.
Definition grows (g g' : gb) : Prop := (exists e, ads g' = ads g ++ e) /\ (exists e, g_macros g' = g_macros g ++ e).
Definition same_pen (g g' : gb) : Prop :=
  g_objs g' = g_objs g /\ g_draws g' = g_draws g /\ g_loc g' = g_loc g /\ g_selected g' = g_selected g /\ g_tr g' = g_tr g /\ g_mode g' = g_mode g.

Lemma grows_refl g : grows g g.
Proof. split; exists []; symmetry; apply app_nil_r. Qed.
Lemma grows_trans g1 g2 g3 : grows g1 g2 -> grows g2 g3 -> grows g1 g3.
Proof. intros [[a Ha] [b Hb]] [[c Hc] [d Hd]]. split; eexists; [rewrite Hc, Ha|rewrite Hd, Hb]; symmetry; apply app_assoc. Qed.
Lemma grows_nth g g' i a : grows g g' -> nth_error (ads g) i = Some a -> nth_error (ads g') i = Some a.
Proof. intros [[e ->] _] H. rewrite nth_error_app1; [exact H|]. apply nth_error_Some. congruence. Qed.
Lemma nth_error_snoc {T} (l : list T) x i y : nth_error (l ++ [x]) i = Some y -> (nth_error l i = Some y /\ (i < length l)%nat) \/ (i = length l /\ y = x).
Proof.
  intros H. destruct (Nat.lt_ge_cases i (length l)) as [L|L].
  - rewrite nth_error_app1 in H by exact L. auto.
  - rewrite nth_error_app2 in H by exact L. right. destruct (i - length l)%nat as [|k] eqn:E.
    + cbn in H. split; [lia|congruence].
    + cbn in H. destruct k; discriminate.
Qed.

Lemma new_pad_ok t g i g' : new_pad t g = (i, g') -> defs_ok g ->
  defs_ok g' /\ grows g g' /\ same_pen g g' /\ i = length (ads g) /\ g_macros g' = g_macros g /\
  (exists a, ads g' = ads g ++ [a] /\ ad_template a = t) /\ g_trace_pads g' = g_trace_pads g.
Proof.
  unfold new_pad. intros E D. injection E as <- <-.
  assert (EA : forall j p, ads (set_pads j (g_pads g ++ [p]) g) = ads g ++ [p_ad p]).
  { intros j p. unfold ads. cbn [set_pads g_pads]. apply map_app. }
  assert (EL : length (ads g) = length (g_pads g)) by apply map_length.
  split; [|split; [|split; [|split; [|split; [|split]]]]]; try reflexivity.
  - destruct D. constructor; try rewrite EA; cbn [set_pads g_id g_macro_id g_macros g_trace_pads p_ad]; try assumption.
    + rewrite app_length, Nat2Z.inj_add. cbn [length]. lia.
    + intros i a H. apply nth_error_snoc in H as [[H _]|[-> ->]]; [auto|]. cbn [ad_id]. rewrite do_id0. change (lit "D" ++ z_repr (9 + Z.of_nat (length (ads g)) + 1) = lit "D" ++ z_repr (10 + Z.of_nat (length (ads g)))). do 2 f_equal. lia.
    + intros w i H. destruct (do_trace0 w i H) as (a & Ha & Ht). exists a. split; [|exact Ht].
      rewrite nth_error_app1; [exact Ha|]. apply nth_error_Some. congruence.
  - split; [eexists; apply EA|exists []; symmetry; apply app_nil_r].
  - repeat split; reflexivity.
  - symmetry; exact EL.
  - eexists. split; [apply EA|reflexivity].
Qed.

Lemma find_width_in w l i : find_width w l = Some i -> exists w', In (w', i) l /\ w' == w.
Proof.
  induction l as [|[w' j] l IH]; cbn; [discriminate|]. destruct (Qeq_bool w w') eqn:E.
  - intros H. injection H as ->. exists w'. split; [auto|]. apply Qeq_bool_eq in E. symmetry. exact E.
  - intros H. destruct (IH H) as (x & Hx & Ex). exists x. auto.
Qed.
Lemma trace_pad_ok w g i g' : trace_pad w g = (i, g') -> defs_ok g ->
  defs_ok g' /\ grows g g' /\ same_pen g g' /\ exists a w', nth_error (ads g') i = Some a /\ ad_template a = TCircle w' None /\ w' == w.
Proof.
  unfold trace_pad. intros E D. destruct (find_width w (g_trace_pads g)) as [j|] eqn:F.
  - injection E as <- <-. destruct (find_width_in _ _ _ F) as (w' & Hin & Ew). destruct (do_trace _ D _ _ Hin) as (a & Ha & Ht).
    split; [exact D|]. split; [apply grows_refl|]. split; [repeat split; reflexivity|]. eauto.
  - destruct (new_pad (TCircle w None) g) as [j g1] eqn:N. injection E as <- <-.
    destruct (new_pad_ok _ _ _ _ N D) as (D1 & G1 & P1 & -> & Em & (a & Ea & Ta) & Et).
    assert (Hn : nth_error (ads g1) (length (ads g)) = Some a).
    { rewrite Ea, nth_error_app2, Nat.sub_diag by lia. reflexivity. }
    split; [|split; [|split]].
    + destruct D1. constructor; try assumption. cbn [set_trace_pads g_trace_pads]. intros w' i H. apply in_app_or in H as [H|[H|[]]].
      * exact (do_trace0 w' i H).
      * injection H as <- <-. exists a. auto.
    + exact G1.
    + destruct P1 as (H1 & H2 & H3 & H4 & H5 & H6). repeat split; assumption.
    + exists a, w. split; [exact Hn|]. split; [exact Ta|reflexivity].
Qed.
Lemma pad_id_nth g i a : nth_error (ads g) i = Some a -> pad_id i g = ad_id a.
Proof.
  unfold ads, pad_id. intros H. rewrite nth_error_map in H. destruct (nth_error (g_pads g) i); [|discriminate].
  cbn in H. congruence.
Qed.

(** ** Objects *)
Definition looks_in (ms : list (str * list (prim Q))) (a : ad Q) (lk : look) : Prop :=
  match lk with
  | Plain t => ad_template a = t
  | Custom fs => exists name prims, ad_template a = TMacro name None /\ In (name, prims) ms /\ Forall2 draws_figure fs prims
  end.
Definition obj_ok (h : history) (g : gb) (n : nat) (o : obj) : Prop :=
  match o with
  | ONothing => True
  | OPad i => exists a lk, nth_error (ads g) i = Some a /\ pad_look h n = Some lk /\ looks_in (g_macros g) a lk
  | OCustom ps _ => Forall2 draws_figure (figures h n) ps
  | ORegion r => (exists h0, nth_call h n = Some (NewRegion (r_begin r), h0)) /\
      r_outline r = trail (r_begin r) (if created h n then close (r_begin r) (segments h n) else segments h n) /\
      (created h n = false -> r_previous r = path_end (r_begin r) (segments h n))
  | OPadDraw l => spot h n = Some (l, l)
  | OTrace b e => spot h n = Some (b, e)
  | ORegionDraw _ => True
  end.
Record invo (h : history) (g : gb) : Prop := {
  io_len : length (g_objs g) = length h;
  io_defs : defs_ok g;
  io_obj : forall n, (n < length h)%nat -> obj_ok h g n (object n g);
  io_loc : forall l, g_loc g = Some l -> exists xy, pack2 l = Ok xy }.

(** The part of the history that matters for object [n] is not changed by the call. *)
Definition unmoved (x : bcall * bool) (h : history) (n : nat) (o : obj) : Prop :=
  match o with
  | OCustom _ _ => figures (x :: h) n = figures h n
  | ORegion _ => segments (x :: h) n = segments h n /\ created (x :: h) n = created h n
  | _ => True
  end.
Lemma nth_call_cons x h n : (n < length h)%nat -> nth_call (x :: h) n = nth_call h n.
Proof. intros L. destruct x as [c ok]. cbn. destruct (Nat.eqb_spec n (length h)); [lia|reflexivity]. Qed.
Lemma spot_cons x h n : (n < length h)%nat -> spot (x :: h) n = spot h n.
Proof. intros L. destruct x as [c ok]. cbn. destruct (Nat.eqb_spec n (length h)); [lia|reflexivity]. Qed.
Lemma looks_in_grows g g' a lk : grows g g' -> looks_in (g_macros g) a lk -> looks_in (g_macros g') a lk.
Proof.
  intros [_ [e ->]]. destruct lk as [t|fs]; [auto|]. cbn. intros (nm & ps & H1 & H2 & H3). exists nm, ps.
  split; [exact H1|]. split; [apply in_or_app; auto|exact H3].
Qed.
Lemma obj_ok_cons x h g g' n o : (n < length h)%nat -> grows g g' -> unmoved x h n o -> obj_ok h g n o -> obj_ok (x :: h) g' n o.
Proof.
  intros L G U. destruct o as [|i|ps fin|r|l|b e|l]; unfold obj_ok; cbn [unmoved] in U; rewrite ?spot_cons by exact L; try (intros H; exact H).
  - intros (a & lk & H1 & H2 & H3). exists a, lk. split; [exact (grows_nth _ _ _ _ G H1)|].
    split; [unfold pad_look in *; rewrite nth_call_cons by exact L; exact H2|exact (looks_in_grows _ _ _ _ G H3)].
  - rewrite U. auto.
  - destruct U as [U1 U2]. rewrite nth_call_cons by exact L. rewrite U1, U2. auto.
Qed.

Lemma object_nth n g : object n g = nth n (g_objs g) ONothing. Proof. reflexivity. Qed.
Lemma invo_step x h g g1 o : invo h g -> defs_ok g1 -> (forall l, g_loc g1 = Some l -> exists xy, pack2 l = Ok xy) ->
  length (g_objs g1) = length h ->
  (forall n, (n < length h)%nat -> obj_ok (x :: h) g1 n (object n g1)) -> obj_ok (x :: h) g1 (length h) o ->
  invo (x :: h) (set_objs (g_objs g1 ++ [o]) g1).
Proof.
  intros I D L E HO Ho. constructor.
  - cbn. rewrite app_length. cbn. lia.
  - destruct D. constructor; assumption.
  - intros n Hn. cbn [length] in Hn.
    assert (Hs : forall m q, obj_ok (x :: h) g1 m q -> obj_ok (x :: h) (set_objs (g_objs g1 ++ [o]) g1) m q) by (intros m []; auto).
    unfold object. cbn [set_objs g_objs]. destruct (Nat.lt_ge_cases n (length h)) as [Ln|Ln].
    + rewrite app_nth1 by lia. apply Hs. apply HO. exact Ln.
    + rewrite app_nth2 by lia. replace (n - length (g_objs g1))%nat with 0%nat by lia. replace n with (length h) by lia. apply Hs. exact Ho.
  - exact L.
Qed.
(** No object changed. *)
Lemma invo_keep x h g g1 o : invo h g -> defs_ok g1 -> grows g g1 -> (forall l, g_loc g1 = Some l -> exists xy, pack2 l = Ok xy) ->
  g_objs g1 = g_objs g -> (forall n, (n < length h)%nat -> unmoved x h n (object n g)) -> obj_ok (x :: h) g1 (length h) o ->
  invo (x :: h) (set_objs (g_objs g1 ++ [o]) g1).
Proof.
  intros I D G L E U Ho. eapply invo_step; eauto; [rewrite E; apply I|].
  intros n Hn. unfold object. rewrite E. apply (obj_ok_cons x h g g1); [exact Hn|exact G|exact (U n Hn)|exact (io_obj _ _ I n Hn)].
Qed.
Lemma nth_replace {T} (l : list T) n a m d : nth m (replace l n a) d = if (m =? n)%nat && (n <? length l)%nat then a else nth m l d.
Proof.
  revert n m. induction l as [|x l IH]; intros [|n] [|m]; cbn; try reflexivity; try (rewrite andb_false_r; reflexivity).
  rewrite IH. reflexivity.
Qed.
Lemma length_replace {T} (l : list T) n a : length (replace l n a) = length l.
Proof. revert n. induction l as [|x l IH]; intros [|n]; cbn; auto. Qed.
(** Object [k] changed. *)
Lemma invo_touch x h g g1 k o' o : invo h g -> defs_ok g1 -> grows g g1 -> (forall l, g_loc g1 = Some l -> exists xy, pack2 l = Ok xy) ->
  g_objs g1 = replace (g_objs g) k o' -> (forall n, (n < length h)%nat -> n <> k -> unmoved x h n (object n g)) ->
  obj_ok (x :: h) g1 k o' -> obj_ok (x :: h) g1 (length h) o ->
  invo (x :: h) (set_objs (g_objs g1 ++ [o]) g1).
Proof.
  intros I D G L E U Hk Ho. eapply invo_step; eauto; [rewrite E, length_replace; apply I|].
  intros n Hn. unfold object. rewrite E, nth_replace. destruct (Nat.eqb_spec n k) as [->|N]; cbn [andb].
  - destruct (Nat.ltb_spec k (length (g_objs g))) as [Lt|Ge]; [exact Hk|]. rewrite (io_len _ _ I) in Ge. lia.
  - apply (obj_ok_cons x h g g1); [exact Hn|exact G|exact (U n Hn N)|exact (io_obj _ _ I n Hn)].
Qed.

(** ** What has been drawn *)
Definition defines (A : dict (ad Q)) (M : dict (list (prim Q))) (g : gb) : Prop :=
  (forall a, In a (ads g) -> d_get (ad_id a) A = Some a) /\ (forall nm ps, In (nm, ps) (g_macros g) -> d_get nm M = Some ps).
Lemma defines_grows A M g g' : grows g g' -> defines A M g' -> defines A M g.
Proof. intros [[e E1] [f E2]] [H1 H2]. split; intros; [apply H1; rewrite E1|apply H2; rewrite E2]; apply in_or_app; auto. Qed.
Lemma looks_in_defines A M g a lk : defines A M g -> looks_in (g_macros g) a lk -> looks M a lk.
Proof. intros [_ H]. destruct lk; [auto|]. intros (nm & ps & H1 & H2 & H3). exists nm, ps. auto. Qed.

Fixpoint after (t : option plot_mode) (r : plot_mode) (ws : list wish) : option plot_mode * plot_mode :=
  match ws with
  | [] => (t, r)
  | WTrace m _ _ _ _ :: ws => after (Some m) (if match t with Some t => mode_eqb t m | None => false end then r else m) ws
  | WRegion _ segs :: ws => after t (end_mode r segs) ws
  | WPad _ _ _ _ _ _ _ :: ws => after t r ws
  end.
Lemma slip_app ws ws' : forall t r, slip t r (ws ++ ws') = slip t r ws ++ slip (fst (after t r ws)) (snd (after t r ws)) ws'.
Proof. induction ws as [|w ws IH]; intros t r; [reflexivity|]. destruct w; cbn; f_equal; apply IH. Qed.
Lemma after_app ws ws' : forall t r, after t r (ws ++ ws') = after (fst (after t r ws)) (snd (after t r ws)) ws'.
Proof. induction ws as [|w ws IH]; intros t r; [reflexivity|]. destruct w; cbn; apply IH. Qed.

Definition begins A M (v0 : vis) : Prop := sync A M None tr_default None PmLinear false v0 /\ v_ext v0 = [].
Definition told h := fst (after None PmLinear (wishes h)).
Definition real h := snd (after None PmLinear (wishes h)).
Record invd (h : history) (g : gb) : Prop := {
  id_mode : g_mode g = told h;
  id_draw : forall A M v0, defines A M g -> begins A M v0 ->
    exists v, visits recorder (concat (g_draws g)) v0 = Done v /\ gsync A M g (real h) false v /\
              drawn h (slip None PmLinear (wishes h)) (v_ext v) }.

Lemma pad_look_cons x h n lk : pad_look h n = Some lk -> pad_look (x :: h) n = Some lk.
Proof.
  unfold pad_look. destruct (nth_call h n) as [[c r]|] eqn:E; [|discriminate].
  assert (L : (n < length h)%nat).
  { clear - E. induction h as [|[c' ok] h IH]; [discriminate|]. cbn in *. destruct (Nat.eqb_spec n (length h)); [lia|].
    specialize (IH E). lia. }
  rewrite nth_call_cons, E by exact L. auto.
Qed.
Lemma shown_cons x h w p : shown h w p -> shown (x :: h) w p.
Proof. destruct 1; econstructor; eauto using pad_look_cons. Qed.
Lemma drawn_cons x h ws p : drawn h ws p -> drawn (x :: h) ws p.
Proof.
  intros (parts & E & H). exists parts. split; [exact E|]. clear E. induction H; constructor; auto using shown_cons.
Qed.
Lemma drawn_snoc h ws p w q : drawn h ws p -> shown h w q -> drawn h (ws ++ [w]) (p ++ q).
Proof.
  intros (parts & -> & H) Hw. exists (parts ++ [q]). split; [rewrite concat_app; cbn; rewrite app_nil_r; reflexivity|].
  apply Forall2_app; [exact H|]. constructor; [exact Hw|constructor].
Qed.

(** Nothing new was drawn. *)
Lemma invd_keep x h g g1 o : invd h g -> grows g g1 -> g_draws g1 = g_draws g -> g_loc g1 = g_loc g -> g_selected g1 = g_selected g ->
  g_tr g1 = g_tr g -> g_mode g1 = g_mode g -> wishes (x :: h) = wishes h -> invd (x :: h) (set_objs o g1).
Proof.
  intros [Hm Hd] G E1 E2 E3 E4 E5 W. unfold told, real in *. constructor.
  - cbn [set_objs g_mode]. unfold told. rewrite W, E5. exact Hm.
  - intros A M v0 HA Hb. assert (HA' : defines A M g) by (apply (defines_grows _ _ g g1 G); exact HA).
    destruct (Hd A M v0 HA' Hb) as (v & V & S & D). exists v. unfold real. rewrite W. cbn [set_objs g_draws]. rewrite E1.
    split; [exact V|]. split; [|apply drawn_cons; exact D].
    unfold gsync in *. cbn [set_objs g_selected g_loc]. change (g_tr (set_objs o g1)) with (g_tr g1). rewrite E2, E3, E4. exact S.
Qed.
(** One more item was drawn. *)
Lemma invd_draw x h g g1 o w w' ns : invd h g -> grows g g1 -> g_draws g1 = g_draws g ++ [ns] ->
  wishes (x :: h) = wishes h ++ [w] ->
  slip (told h) (real h) [w] = [w'] -> g_mode g1 = fst (after (told h) (real h) [w]) ->
  (forall A M v, defines A M g1 -> gsync A M g (real h) false v ->
     exists v' p, visits recorder ns v = Done v' /\ gsync A M g1 (snd (after (told h) (real h) [w])) false v' /\
       v_ext v' = v_ext v ++ p /\ shown (x :: h) w' p) ->
  invd (x :: h) (set_objs o g1).
Proof.
  intros [Hm Hd] G E W Es Em Hx. constructor.
  - cbn [set_objs g_mode]. unfold told. rewrite W, after_app. exact Em.
  - intros A M v0 HA Hb. assert (HA' : defines A M g) by (apply (defines_grows _ _ g g1 G); exact HA).
    destruct (Hd A M v0 HA' Hb) as (v & V & S & D). destruct (Hx A M v HA S) as (v' & p & V' & S' & X' & D').
    exists v'. cbn [set_objs g_draws]. rewrite E, concat_app, visits_app, V. cbn [obind concat]. rewrite app_nil_r.
    split; [exact V'|]. unfold real. rewrite W, after_app, slip_app. split; [exact S'|].
    fold (told h) (real h). rewrite Es, X'. apply drawn_snoc; [apply drawn_cons; exact D|exact D'].
Qed.

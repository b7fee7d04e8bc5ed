(** C38-C40: the builder of Gerber files. *)
From Verif Require Import Base Num Dict CoordModel CoordProofs Ast StateModel StateProofs GbModel GbSpec GbProofs GbInv GbStep GbRead GbAttr GbFits.
From Coq Require Import Qabs Lqa.
Local Open Scope Q_scope.
Local Existing Instance NumQ.

(** *** C38 *)
(** As stated: reading the code gives exactly what was asked for. *)
Definition C38_full : Prop := forall cs b, let h := happened cs gb_init [] in
  exists v, on_file recorder b (get_code (build cs)) (visitor_init []) = Ok v /\ drawn h (wishes h) (v_ext v).

(** What is really drawn, as long as no call raised for a coordinate or a place and no region
    was extended after [create]: everything asked for, except that a trace may be drawn in the
    mode with which the last region ended ([slip]). *)
Theorem C38_exact :
  forall cs b, let h := happened cs gb_init [] in
    clean cs gb_init -> regions_left_alone h ->
    exists v, on_file recorder b (get_code (build cs)) (visitor_init []) = Ok v /\
      drawn h (slip None PmLinear (wishes h)) (v_ext v).
Proof. intros cs b h. exact (read_back cs b). Qed.
Print Assumptions C38_exact.

(** Missing from the full statement: calls that raised for a coordinate or a place
    ([C38_after_error_refuted]), regions extended after [create] ([C38_region_reuse_refuted]),
    and traces after a region that ended in another mode ([C38_mode_refuted]). *)
Theorem C38_partial :
  forall cs b, let h := happened cs gb_init [] in
    clean cs gb_init -> regions_left_alone h -> in_step (wishes h) ->
    exists v, on_file recorder b (get_code (build cs)) (visitor_init []) = Ok v /\ drawn h (wishes h) (v_ext v).
Proof.
  intros cs b h HC HR HS. destruct (read_back cs b HC HR) as (v & E & D). exists v. split; [exact E|].
  fold h in D. unfold in_step in HS. rewrite HS in D. exact D.
Qed.
Print Assumptions C38_partial.

(** Without regions the modes are always right. *)
Lemma slip_in_step ws : (forall b s, ~ In (WRegion b s) ws) -> forall told real, (forall t, told = Some t -> real = t) -> slip told real ws = ws.
Proof.
  induction ws as [|w ws IH]; intros H told real HT; [reflexivity|].
  assert (H' : forall b s, ~ In (WRegion b s) ws) by (intros b s Hi; apply (H b s); right; exact Hi).
  destruct w as [n l pol rot mx my sc|m w b e c|b s]; cbn [slip].
  - f_equal. apply IH; assumption.
  - assert (E : (if match told with Some t => mode_eqb t m | None => false end then real else m) = m).
    { destruct told as [t|]; [|reflexivity]. destruct (mode_eqb t m) eqn:Em; [|reflexivity]. apply mode_eqb_eq in Em. rewrite (HT t eq_refl). exact Em. }
    rewrite E. f_equal. apply IH; [exact H'|congruence].
  - destruct (H b s). left. reflexivity.
Qed.
Lemma no_region_wish h : (forall n, ~ In (CreateRegion n) (map fst h)) -> forall b s, ~ In (WRegion b s) (wishes h).
Proof.
  induction h as [|[c ok] h IH]; intros H b s; [exact (fun x => x)|]. cbn [wishes]. intros Hi. apply in_app_or in Hi as [Hi|Hi].
  - revert Hi. apply IH. intros n Hn. apply (H n). right. exact Hn.
  - destruct ok; [|exact Hi]. cbn [negb] in Hi.
    destruct c; try exact Hi; try (destruct (both _ _) as [[? ?]|]; [destruct Hi as [Hi|[]]; discriminate|exact Hi]).
    + destruct (comes_from _ _); [destruct Hi as [Hi|[]]; discriminate|exact Hi].
    + apply (H region). left. reflexivity.
Qed.
Lemma happened_calls cs : forall g h, map fst (happened cs g h) = rev cs ++ map fst h.
Proof. induction cs as [|c cs IH]; intros g h; [reflexivity|]. cbn [happened rev]. rewrite IH, <- app_assoc. reflexivity. Qed.
Theorem C38_without_regions :
  forall cs b, let h := happened cs gb_init [] in
    clean cs gb_init -> (forall n, ~ In (CreateRegion n) cs) ->
    exists v, on_file recorder b (get_code (build cs)) (visitor_init []) = Ok v /\ drawn h (wishes h) (v_ext v).
Proof.
  intros cs b h HC HN.
  assert (HN' : forall n, ~ In (CreateRegion n) (map fst h)).
  { intros n Hi. unfold h in Hi. rewrite happened_calls, app_nil_r in Hi. apply in_rev in Hi. exact (HN n Hi). }
  apply (C38_partial cs b HC).
  - fold h. clear - HN'. induction h as [|[c ok] r IH]; [exact Logic.I|].
    assert (IH' : regions_left_alone r) by (apply IH; intros n Hi; apply (HN' n); right; exact Hi).
    destruct c; try exact IH'. destruct ok; [|exact IH']. split; [|exact IH'].
    assert (HR : forall n, ~ In (CreateRegion n) (map fst r)) by (intros n Hi; apply (HN' n); right; exact Hi).
    clear - HR. induction r as [|[c ok] r IH]; [reflexivity|].
    assert (IH' : created r region = false) by (apply IH; intros n Hi; apply (HR n); right; exact Hi).
    destruct c; try exact IH'. destruct (HR region0). left. reflexivity.
  - apply slip_in_step; [exact (no_region_wish _ HN')|discriminate].
Qed.
Print Assumptions C38_without_regions.

(** The sorts of calls that show an item. *)
Inductive sort_of := SDraw (h : d01_handler) | SFlash | SOther.
Definition sorts (cs : list (@call Q)) : list sort_of :=
  map (fun c => match c with CDraw h _ => SDraw h | CFlash _ _ _ => SFlash | _ => SOther end) cs.
Definition wish_sorts (w : wish) : list sort_of :=
  match w with
  | WPad _ _ _ _ _ _ _ => [SFlash]
  | WTrace m _ _ _ _ => [SDraw (match m with PmLinear => HDrawLine | PmArc => HDrawCwMq | PmCcwArc => HDrawCcwMq end)]
  | WRegion _ segs => [SOther; SOther] ++
      map (fun s => SDraw (match seg_mode s with PmLinear => HRegionLine | PmArc => HRegionCwMq | PmCcwArc => HRegionCcwMq end)) segs ++ [SOther; SOther]
  end.
Lemma outlined_sorts b segs cs : outlined b segs cs ->
  sorts cs = map (fun s => SDraw (match seg_mode s with PmLinear => HRegionLine | PmArc => HRegionCwMq | PmCcwArc => HRegionCcwMq end)) segs.
Proof. induction 1 as [|b s r st cs _ _ IH]; [reflexivity|]. cbn. f_equal. exact IH. Qed.
Lemma drawn_sorts h ws cs : drawn h ws cs -> sorts cs = flat_map wish_sorts ws.
Proof.
  intros (parts & -> & H). induction H as [|w p ws ps Hw _ IH]; [reflexivity|]. cbn [concat flat_map]. unfold sorts in *. rewrite map_app, IH. f_equal.
  destruct Hw as [| |b segs cs s0 s1 _ _ HO]; [reflexivity|reflexivity|]. apply outlined_sorts in HO. unfold sorts in HO.
  rewrite !map_app, HO. reflexivity.
Qed.

(** A line, a region that ends with a clockwise arc, another line: the second line is drawn as
    a clockwise arc, since [RegionCreator.create] writes G02 unseen by the builder. *)
Definition slipping : list bcall :=
  [AddLine 1 (At (0, 0)) (At (1, 0)); NewRegion (0, 0); AddSegment 1 (SgLine (2, 0)); AddSegment 1 (SgLine (2, 2));
   AddSegment 1 (SgCw (0, 0) (1, 1)); CreateRegion 1; AddLine 1 (At (5, 5)) (At (6, 5))].
Theorem C38_mode_refuted :
  clean slipping gb_init /\ regions_left_alone (happened slipping gb_init []) /\
  exists v, on_file recorder true (get_code (build slipping)) (visitor_init []) = Ok v /\
    last (sorts (v_ext v)) SOther = SDraw HDrawCwMq /\
    last (wishes (happened slipping gb_init [])) (WRegion (0, 0) []) = WTrace PmLinear 1 (5, 5) (6, 5) None /\
    ~ drawn (happened slipping gb_init []) (wishes (happened slipping gb_init [])) (v_ext v).
Proof.
  split; [vm_compute; repeat split|]. split; [vm_compute; repeat split|].
  eexists. split; [vm_compute; reflexivity|]. split; [reflexivity|]. split; [reflexivity|].
  intros H. apply drawn_sorts in H. vm_compute in H. discriminate.
Qed.
Print Assumptions C38_mode_refuted.

(** A coordinate that does not fit: the call raises after the builder noted the aperture as
    selected, so the next pad is flashed without selecting it, and the file cannot be read. *)
Definition erring : list bcall :=
  [NewCircle 1 None; AddPad 0 (At (20000, 0)) false 0 false false 1; AddPad 0 (At (1, 1)) false 0 false false 1].
Theorem C38_after_error_refuted :
  map snd (happened erring gb_init []) = [true; false; true] /\
  regions_left_alone (happened erring gb_init []) /\
  on_file recorder true (get_code (build erring)) (visitor_init []) = Err EApertureNotSelected.
Proof. vm_compute. auto. Qed.
Print Assumptions C38_after_error_refuted.

(** A creator used again after [create], which the documentation excludes but nothing prevents:
    the closing line of the first region stays in the outline of the second. *)
Definition reusing : list bcall :=
  [NewRegion (0, 0); AddSegment 0 (SgLine (2, 0)); AddSegment 0 (SgLine (2, 2)); AddSegment 0 (SgLine (0, 2)); CreateRegion 0;
   AddSegment 0 (SgLine (1, 1)); CreateRegion 0].
Theorem C38_region_reuse_refuted :
  clean reusing gb_init /\
  exists v, on_file recorder true (get_code (build reusing)) (visitor_init []) = Ok v /\
    ~ drawn (happened reusing gb_init []) (wishes (happened reusing gb_init [])) (v_ext v).
Proof.
  split; [vm_compute; repeat split|]. eexists. split; [vm_compute; reflexivity|].
  intros H. apply drawn_sorts in H. vm_compute in H. discriminate.
Qed.
Print Assumptions C38_region_reuse_refuted.
Theorem C38_refuted : ~ C38_full.
Proof.
  intros H. destruct (H erring true) as (v & E & _). destruct C38_after_error_refuted as (_ & _ & E'). congruence.
Qed.
Print Assumptions C38_refuted.

(** A history within the hypotheses of [C38_partial], with all kinds of draws. *)
Definition sample : list bcall :=
  [NewCircle (3#2) (Some (1#2)); NewCustom; AddFigure 1 (FgCircle true 1 (0, 0) 0); AddFigure 1 (FgOutline true [(0, 0); (1, 0); (0, 1)] 30);
   CreateCustom 1; SetFunction 0 (lit "ViaPad"); AddPad 0 (At (1, 2)) false 0 false false 1; AddPad 4 (At (3, -(5#2))) true 45 true false 2;
   AddLine (1#10) (Of 6) (At (4, 4)); AddArc true (1#10) (Of 8) (Of 7) (0, 0); AddPad 0 (Of 9) false 90 false true 1;
   NewRegion (0, 0); AddSegment 11 (SgLine (2, 0)); AddSegment 11 (SgCcw (2, 2) (2, 1)); AddSegment 11 (SgLine (0, 2)); CreateRegion 11;
   AddFigure 1 (FgCircle true 1 (0, 0) 0); AddLine (1#5) (At (0, 0)) (At (9999, 0))].
Example C38_sample : clean sample gb_init /\ regions_left_alone (happened sample gb_init []) /\
  in_step (wishes (happened sample gb_init [])) /\
  map snd (rev (happened sample gb_init [])) = [true; true; true; true; true; true; true; true; true; true; true; true; true; true; true; true; false; true] /\
  wishes (happened sample gb_init []) =
    [WPad 0 (1, 2) Dark 0 false false 1; WPad 4 (3, -(5#2)) Clear 45 true false 2; WTrace PmLinear (1#10) (1, 2) (4, 4) None;
     WTrace PmArc (1#10) (4, 4) (3, -(5#2)) (Some (0, 0)); WPad 0 (3, -(5#2)) Dark 90 false true 1;
     WRegion (0, 0) [SgLine (2, 0); SgCcw (2, 2) (2, 1); SgLine (0, 2); SgLine (0, 0)]; WTrace PmLinear (1#5) (0, 0) (9999, 0) None].
Proof. split; [vm_compute; repeat split|]. split; [vm_compute; repeat split|]. split; [reflexivity|]. split; reflexivity. Qed.
Example C38_sample_read : exists v, on_file recorder false (get_code (build sample)) (visitor_init []) = Ok v /\
  sorts (v_ext v) = [SFlash; SFlash; SDraw HDrawLine; SDraw HDrawCwMq; SFlash; SOther; SOther; SDraw HRegionLine; SDraw HRegionCcwMq;
                     SDraw HRegionLine; SDraw HRegionLine; SOther; SOther; SDraw HDrawLine].
Proof. eexists. split; [vm_compute; reflexivity|reflexivity]. Qed.
Example C38_sample_end : exists v, on_file recorder false (get_code (build sample)) (visitor_init []) = Ok v /\
  (s_cur_x (v_state v), s_cur_y (v_state v)) = (9999, 0).
Proof. eexists. split; [vm_compute; reflexivity|reflexivity]. Qed.

(** *** C39 *)
(** Aperture ids are D10, D11, ... in order and macro names M0, M1, ...; both without
    repetition, for every sequence of calls, including those that raise. *)
Theorem C39_ids :
  forall cs, let code := get_code (build cs) in
    (forall i id, nth_error (ids_of code) i = Some id -> id = lit "D" ++ z_repr (10 + Z.of_nat i)) /\
    (forall i nm, nth_error (names_of code) i = Some nm -> nm = lit "M" ++ z_repr (Z.of_nat i)) /\
    NoDup (ids_of code) /\ NoDup (names_of code).
Proof.
  intros cs code. destruct (defs_build cs) as [D F]. destruct (code_ids _ F) as [E1 E2]. unfold code. rewrite E1, E2. split; [|split; [|split]].
  - intros i id H. rewrite nth_error_map in H. destruct (nth_error (ads (build cs)) i) as [a|] eqn:Ea; [|discriminate]. cbn in H. injection H as <-.
    exact (do_ids _ D _ _ Ea).
  - intros i nm H. rewrite nth_error_map in H. destruct (nth_error (g_macros (build cs)) i) as [m|] eqn:Em; [|discriminate]. cbn in H. injection H as <-.
    exact (do_macs _ D _ _ Em).
  - unfold ads. rewrite map_map. exact (ids_nodup _ D).
  - exact (names_nodup _ D).
Qed.
Print Assumptions C39_ids.

(** Missing: custom attributes that reuse a standard name, see [C39_reserved_name_refuted].
    The aperture of the pad returned by call number [n] carries exactly the attributes set on
    that pad, different pads have different apertures, and every other aperture (those made
    for traces) carries none. *)
Theorem C39_attributes_partial :
  forall cs b v, let h := happened cs gb_init [] in let g := build cs in
    own_names cs -> on_file recorder b (get_code g) (visitor_init []) = Ok v ->
    (forall n i, object n g = OPad i -> exists snap, d_get (pad_id i g) (s_per_ap_attrs (v_state v)) = Some snap /\
       forall k, d_get k snap = attribute h n k) /\
    (forall n m i j, object n g = OPad i -> object m g = OPad j -> pad_id i g = pad_id j g -> n = m) /\
    (forall id snap, d_get id (s_per_ap_attrs (v_state v)) = Some snap ->
       (exists n i, object n g = OPad i /\ id = pad_id i g) \/ snap = []).
Proof.
  intros cs b v h g HN E. pose proof (inva_build cs HN) as I. fold h g in I. destruct (file_stores cs b v E) as [EP _]. fold g in EP. rewrite EP.
  pose proof (ids_nodup g (ia_defs _ _ I)) as ND.
  assert (HID : forall i p, nth_error (g_pads g) i = Some p -> pad_id i g = ad_id (p_ad p)).
  { intros i p Hp. apply pad_id_nth. unfold ads. rewrite nth_error_map, Hp. reflexivity. }
  split; [|split].
  - intros n i Eo. destruct (ia_has _ _ I _ _ Eo) as (p & Hp & Hh). exists (fold_left add_attr (own_attrs p) []).
    split; [rewrite (HID _ _ Hp); exact (fold_put (fun p => ad_id (p_ad p)) (fun p => fold_left add_attr (own_attrs p) []) _ [] p ND (nth_error_In _ _ Hp))|].
    exact (has_all _ _ _ Hh).
  - intros n m i j En Em Eid. destruct (ia_has _ _ I _ _ En) as (p & Hp & _). destruct (ia_has _ _ I _ _ Em) as (q & Hq & _).
    rewrite (HID _ _ Hp), (HID _ _ Hq) in Eid.
    assert (i = j) as ->.
    { apply (proj1 (NoDup_nth_error _) ND); [rewrite map_length; apply nth_error_Some; congruence|]. rewrite !nth_error_map, Hp, Hq. cbn. congruence. }
    exact (ia_one _ _ I _ _ _ En Em).
  - intros id snap Hs. destruct (fold_put_inv (fun p => ad_id (p_ad p)) (fun p => fold_left add_attr (own_attrs p) []) _ _ _ _ Hs) as [H|(p & Hp & -> & ->)]; [discriminate|].
    apply In_nth_error in Hp as [i Hp]. destruct (ia_rest _ _ I _ _ Hp) as [[n Hn]|Hb].
    + left. exists n, i. split; [exact Hn|]. symmetry. exact (HID _ _ Hp).
    + right. rewrite Hb. reflexivity.
Qed.
Print Assumptions C39_attributes_partial.

(** Custom attributes with a standard name are outside: the file says the custom one even when
    the standard one was set later. *)
Theorem C39_reserved_name_refuted :
  let cs := [NewCircle 1 None; SetCustom 0 (lit ".AperFunction") [lit "old"]; SetFunction 0 (lit "ViaPad")] in
  exists v snap, on_file recorder true (get_code (build cs)) (visitor_init []) = Ok v /\
    d_get (pad_id 0 (build cs)) (s_per_ap_attrs (v_state v)) = Some snap /\
    d_get (lit ".AperFunction") snap <> attribute (happened cs gb_init []) 0 (lit ".AperFunction").
Proof. eexists. eexists. split; [vm_compute; reflexivity|]. split; [vm_compute; reflexivity|]. vm_compute. discriminate. Qed.
Print Assumptions C39_reserved_name_refuted.

Definition tagged : list bcall :=
  [NewCircle 1 None; SetFunction 0 (lit "ViaPad"); NewRectangle 1 2 None; AddLine (1#4) (At (0, 0)) (At (1, 1)); NewPolygon 2 6 0 None;
   SetCustom 4 (lit "Who") [lit "me"]; SetCustom 4 (lit "Who") [lit "you"]; AddPad 4 (At (1, 1)) false 0 false false 1].
Example C39_tagged : own_names tagged /\ ids_of (get_code (build tagged)) = [lit "D10"; lit "D11"; lit "D12"; lit "D13"] /\
  map (fun n => object n (build tagged)) [0; 2; 4]%nat = [OPad 0; OPad 1; OPad 3] /\
  exists v, on_file recorder true (get_code (build tagged)) (visitor_init []) = Ok v /\
    s_per_ap_attrs (v_state v) =
      [(lit "D10", [(lit ".AperFunction", MkAttr (lit ".AperFunction") [lit "ViaPad"])]); (lit "D11", []); (lit "D12", []);
       (lit "D13", [(lit "Who", MkAttr (lit "Who") [lit "you"])])].
Proof.
  split; [repeat constructor; discriminate|]. split; [reflexivity|]. split; [reflexivity|]. eexists. split; [vm_compute; reflexivity|reflexivity].
Qed.

(** *** C40 *)
(** A pad can be added exactly where the rounded coordinates have at most four integer digits;
    otherwise the call raises. *)
Theorem C40_pads :
  forall n l cut rot mx my sc g i, object n g = OPad i ->
    (is_ok (snd (perform (AddPad n (At l) cut rot mx my sc) g)) = true <-> fits2 l) /\
    (~ fits2 l -> snd (perform (AddPad n (At l) cut rot mx my sc) g) = Err (GCoord TooLong)).
Proof. intros. eapply pad_fits. eassumption. Qed.
Print Assumptions C40_pads.
Theorem C40_lines :
  forall cs w b e,
    (is_ok (snd (perform (AddLine w (At b) (At e)) (build cs))) = true <-> fits2 b /\ fits2 e) /\
    (~ (fits2 b /\ fits2 e) -> snd (perform (AddLine w (At b) (At e)) (build cs)) = Err (GCoord TooLong)).
Proof.
  intros cs w b e. destruct (trace_fits cs PmLinear w b e None) as [H1 H2]. cbn [perform]. split.
  - etransitivity; [exact H1|]. tauto.
  - intros H. apply H2. tauto.
Qed.
Print Assumptions C40_lines.
Theorem C40_arcs :
  forall cs cw w b e c,
    (is_ok (snd (perform (AddArc cw w (At b) (At e) c) (build cs))) = true <-> fits2 b /\ fits2 e /\ fits2 (seen_from b c)) /\
    (~ (fits2 b /\ fits2 e /\ fits2 (seen_from b c)) -> snd (perform (AddArc cw w (At b) (At e) c) (build cs)) = Err (GCoord TooLong)).
Proof. intros cs cw w b e c. exact (trace_fits cs _ w b e (Some c)). Qed.
Print Assumptions C40_arcs.
Theorem C40_regions :
  forall n g r, object n g = ORegion r -> (3 <= length (r_outline r))%nat ->
    (is_ok (snd (perform (CreateRegion n) g)) = true <-> fits2 (r_begin r) /\ Forall segment_fits (r_outline r)) /\
    (~ (fits2 (r_begin r) /\ Forall segment_fits (r_outline r)) -> snd (perform (CreateRegion n) g) = Err (GCoord TooLong)).
Proof. intros n g r H L. exact (region_fits n g r H L). Qed.
Print Assumptions C40_regions.

(** What is accepted is written so that it is read as the value rounded to six decimals; for
    every state of the builder. *)
Theorem C40_pads_written :
  forall n l cut rot mx my sc g, is_ok (snd (perform (AddPad n (At l) cut rot mx my sc) g)) = true ->
    exists pre x y, g_draws (gstep g (AddPad n (At l) cut rot mx my sc)) = g_draws g ++ [pre ++ [ND03 x y]] /\ reads2 x y l.
Proof. exact pad_writes. Qed.
Print Assumptions C40_pads_written.
Theorem C40_lines_written :
  forall w b e g, is_ok (snd (perform (AddLine w (At b) (At e)) g)) = true ->
    exists pre x y, g_draws (gstep g (AddLine w (At b) (At e))) = g_draws g ++ [pre ++ [ND01 x y None None]] /\ reads2 x y e.
Proof.
  intros w b e g H. destruct (trace_writes PmLinear w b e None g H) as (pre & x & y & i & j & E & R & [-> ->]).
  exists pre, x, y. split; [|exact R]. unfold gstep. cbn [perform]. rewrite <- E. destruct (add_trace _ _ _ _ _ _). reflexivity.
Qed.
Print Assumptions C40_lines_written.
Theorem C40_arcs_written :
  forall cw w b e c g, is_ok (snd (perform (AddArc cw w (At b) (At e) c) g)) = true ->
    exists pre x y i j, g_draws (gstep g (AddArc cw w (At b) (At e) c)) = g_draws g ++ [pre ++ [ND01 x y i j]] /\
      reads2 x y e /\ reads2 i j (seen_from b c).
Proof.
  intros cw w b e c g H. destruct (trace_writes _ w b e (Some c) g H) as (pre & x & y & i & j & E & R & C).
  exists pre, x, y, i, j. split; [|exact (conj R C)]. unfold gstep. cbn [perform]. rewrite <- E. destruct (add_trace _ _ _ _ _ _). reflexivity.
Qed.
Print Assumptions C40_arcs_written.
Theorem C40_regions_written :
  forall n g r, object n g = ORegion r -> is_ok (snd (perform (CreateRegion n) g)) = true ->
    exists pre x y ops, g_draws (gstep g (CreateRegion n)) = g_draws g ++ [pre ++ [NG G36; ND02 x y] ++ ops ++ [NG G37; ND02 x y]] /\
      reads2 x y (r_begin r) /\
      Forall2 (fun s '(x, y, i, j) => reads2 x y (o_end s) /\ writes_center i j (fst (o_begin_center s)) (snd (o_begin_center s)))
        (closed_outline r) (d01s ops).
Proof. exact region_writes. Qed.
Print Assumptions C40_regions_written.

(** The reader finds the pad at the place given, rounded to six decimals (the same for traces
    and regions is part of C38: [stroke], [outlined]). *)
Lemma happened_snoc cs c : forall g h, happened (cs ++ [c]) g h = (c, is_ok (snd (perform c (fold_left gstep cs g)))) :: happened cs g h.
Proof. induction cs as [|x cs IH]; intros g h; [reflexivity|]. cbn [app happened fold_left]. apply IH. Qed.
Lemma clean_snoc cs c : forall g, clean cs g -> match snd (perform c (fold_left gstep cs g)) with Ok _ => True | Err e => clean_error e end -> clean (cs ++ [c]) g.
Proof. induction cs as [|x cs IH]; intros g H1 H2; cbn; [auto|]. destruct H1 as [H H1]. split; [exact H|]. apply IH; assumption. Qed.
Theorem C40_read :
  forall cs d l b, clean cs gb_init -> regions_left_alone (happened cs gb_init []) -> fits2 l ->
    let cs' := (cs ++ [NewCircle d None]) ++ [AddPad (length cs) (At l) false 0 false false 1] in
    exists v pre a s, on_file recorder b (get_code (build cs')) (visitor_init []) = Ok v /\
      v_ext v = pre ++ [CFlash FCircle (ApAD a) s] /\ ad_template a = TCircle d None /\ near2 l (coordinate_x s) (coordinate_y s).
Proof.
  intros cs d l b HC HR HF cs'. set (cs1 := cs ++ [NewCircle d None]) in *.
  assert (H1 : happened cs1 gb_init [] = (NewCircle d None, true) :: happened cs gb_init []) by (unfold cs1; rewrite happened_snoc; reflexivity).
  assert (C1 : clean cs1 gb_init) by (apply clean_snoc; [exact HC|exact Logic.I]).
  assert (HL : length (happened cs gb_init []) = length cs) by (rewrite <- (map_length fst), happened_calls, app_nil_r, rev_length; reflexivity).
  assert (R1 : regions_left_alone (happened cs1 gb_init [])) by (rewrite H1; exact HR).
  assert (HO : exists i, object (length cs) (build cs1) = OPad i).
  { destruct (inv_build cs HC HR) as [I _]. pose proof (io_len _ _ I) as L. exists (length (g_pads (build cs))).
    unfold cs1, build. rewrite fold_left_app. cbn [fold_left]. fold (build cs). unfold gstep. cbn [perform].
    unfold returns_pad, new_pad. cbn [fst snd]. rewrite object_snoc. cbn [set_pads g_objs]. rewrite L, HL, Nat.ltb_irrefl, Nat.eqb_refl. reflexivity. }
  destruct HO as [i Ho]. destruct (C40_pads (length cs) l false 0 false false 1 _ _ Ho) as [[_ HP] _]. specialize (HP HF).
  assert (H2 : happened cs' gb_init [] = (AddPad (length cs) (At l) false 0 false false 1, true) :: happened cs1 gb_init []).
  { unfold cs'. rewrite happened_snoc. fold (build cs1). rewrite HP. reflexivity. }
  destruct (C38_exact cs' b) as (v & E & parts & Ev & HD).
  - apply clean_snoc; [exact C1|]. fold (build cs1). destruct (snd (perform _ _)); [exact Logic.I|discriminate].
  - rewrite H2. exact R1.
  - rewrite H2 in HD. cbn [wishes negb] in HD. cbn [comes_from] in HD. rewrite slip_app in HD.
    apply Forall2_app_inv_l in HD as (p1 & p2 & _ & HD & ->).
    cbn [slip] in HD.
    inversion HD as [|w q ws qs Hq Hr]; subst. inversion Hr; subst.
    inversion Hq as [n0 l0 pol0 rot0 mx0 my0 sc0 lk a s Hlk Hl Hpl Hne| |]; subst.
    assert (lk = Plain (TCircle d None)) as ->.
    { unfold pad_look in Hlk. rewrite nth_call_cons in Hlk by (rewrite H1; cbn; lia). rewrite H1 in Hlk.
      rewrite <- HL, nth_call_here in Hlk. congruence. }
    exists v, (concat p1), a, s. split; [exact E|]. split; [rewrite Ev, concat_app; reflexivity|]. split; [exact Hl|exact Hne].
Qed.
Print Assumptions C40_read.
(** Values with six decimals are read back exactly. *)
Theorem C40_exact : forall (z : Z) v, near (inject_Z z / 1000000) v -> v == inject_Z z / 1000000.
Proof.
  intros z v [[y Hy] H]. rewrite Hy in *. assert (E : y = z); [|subst; reflexivity].
  assert (H' : Qabs (inject_Z (y - z)) <= 1 # 2).
  { eapply Qle_trans; [|exact H]. replace (inject_Z (y - z)) with (inject_Z y - inject_Z z) by (unfold Z.sub, Qminus; rewrite inject_Z_plus, inject_Z_opp; reflexivity).
    setoid_replace (inject_Z y / 1000000 - inject_Z z / 1000000) with ((inject_Z y - inject_Z z) * (1 # 1000000)) by field.
    rewrite Qabs_Qmult. change (Qabs (1 # 1000000)) with (1 # 1000000). lra. }
  apply Qabs_Qle_condition in H' as [H1 H2].
  assert (B : (-1 < y - z < 1)%Z); [|lia].
  split; rewrite Zlt_Qlt; [change (inject_Z (-1)) with (-1 # 1)|change (inject_Z 1) with (1 # 1)]; lra.
Qed.
Print Assumptions C40_exact.
Example C40_edge : fits (9999999999 # 1000000) /\ ~ fits (19999999999 # 2000000) /\ fits (-(19999999998 # 2000000)) /\ ~ fits (- (10000 # 1)).
Proof. unfold fits. repeat split; try reflexivity; intros H; vm_compute in H; discriminate. Qed.

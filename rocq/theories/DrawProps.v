(** Property theorems C13, C15 and C18: what drawing commands add to the image
    (specification in [DrawSpec]). *)
From Verif Require Import Base Num Dict CoordModel CoordSpec CoordProofs Ast StateModel StateSpec StateProofs GeomModel
  ExprModel CompilerModel LayerSpec LayerProofs LayerInv LayerOut LayerProps DrawSpec DrawProofs.

Section Theorems.
  Context {K : Type} {NK : Num K}.
  Notation point md clock := (at_point (compiler_hooks (K := K) md clock) compiler_init).

  (** Every state in which a walk of a file can be is a point. *)
  Theorem points_cover_files :
    forall (md : bool) (clock : nat -> Z) (ips : bool) (ns : list (node K)) (v : visitor K (cstate K)),
      on_file (compiler_hooks md clock) ips ns (visitor_init compiler_init) = Ok v ->
      point md clock (executed_file ips ns) v.
  Proof. intros md clock ips ns v E. exact (point_file _ _ ips ns [] _ _ (pt_start _ _) E). Qed.

  (** *** C13 *)
  (** The property: closing a contour (D02 or G37 in a region) draws one shape that follows
      all strokes of the contour from its start, joined end to end. *)
  Definition C13_statement : Prop :=
    forall md clock pre v n v', point md clock pre v -> drawn v <> None -> closes pre n = true ->
      visit_leaf (compiler_hooks md clock) n v = Done v' -> exists new, adds v v' new /\ outline pre new.
  (** Partial: for contours without D03 and without single quadrant arcs. *)
  Theorem C13_contour_partial :
    forall md clock pre v n v', point md clock pre v -> drawn v <> None -> closes pre n = true ->
      ct_regular (contour_of pre) = true ->
      visit_leaf (compiler_hooks md clock) n v = Done v' -> exists new, adds v v' new /\ outline pre new.
  Proof. intros md clock pre v n v' Hp Hd Hc Hr E. exact (contour_flush md clock pre v n v' Hp Hd Hc E Hr). Qed.

  (** *** C15 *)
  (** Partial: everything but flashes of block apertures, for which the property is false. *)
  Theorem C15_polarity_and_place_partial :
    forall md clock pre v n v', point md clock pre v -> drawn v <> None ->
      match n with NAB _ _ | NSR _ _ _ | NAD _ => False | ND03 _ _ => selected_AD pre | _ => True end ->
      visit_leaf (compiler_hooks md clock) n v = Done v' -> exists new, adds v v' new /\ emitted pre n new.
  Proof.
    intros md clock pre v n v' Hp Hd Hn E. apply (point_emits md clock); auto.
    - destruct n; try contradiction; exact I.
    - intros a ->. exact Hn.
    - intros x y ->. exact Hn.
  Qed.

  (** *** C18 *)
  (** Partial: the centre is start + the offset last given per axis, by this or an earlier
      D01.  Missing: that a part the D01 does not give counts as 0, which is false (below). *)
  Theorem C18_offset_partial :
    forall md clock pre v x y i j v', point md clock pre v -> drawn v <> None ->
      in_region pre = false -> plot_of pre <> PmLinear -> arc_mode pre = MultiQuadrant ->
      visit_leaf (compiler_hooks md clock) (ND01 x y i j) v = Done v' ->
      exists new, adds v v' new /\ arc_stroke (plus (pen_vec pre) (last_offset (pre ++ [ND01 x y i j]))) new.
  Proof. intros md clock pre v x y i j v' Hp Hd H1 H2 H3 E. exact (arc_outside md clock pre v x y i j v' Hp Hd H1 H2 H3 E). Qed.
  Theorem C18_region_offset_partial :
    forall md clock pre v x y i j v', point md clock pre v ->
      in_region pre = true -> plot_of pre <> PmLinear -> arc_mode pre = MultiQuadrant ->
      visit_leaf (compiler_hooks md clock) (ND01 x y i j) v = Done v' ->
      exists l segs, c_contour (v_ext v) = Some l /\ c_contour (v_ext v') = Some (l ++ segs) /\
        centred (plus (pen_vec pre) (last_offset (pre ++ [ND01 x y i j]))) segs.
  Proof. intros md clock pre v x y i j v' Hp H1 H2 H3 E. exact (arc_inside md clock pre v x y i j v' Hp H1 H2 H3 E). Qed.
  (** [last_offset] is the D01's own offset when it gives both parts, or when no earlier D01
      gave any: then the centre is the one the property asks for. *)
  Theorem C18_own_offset_partial :
    forall (pre : list (node K)) x y i j, format_of pre <> None ->
      (i <> None /\ j <> None) \/
        (forall x' y' i' j', In (ND01 x' y' i' j') pre -> i' = None /\ j' = None) ->
      (forall t, i = Some t \/ j = Some t -> forall f, format_of pre = Some f -> forall b,
         exists q, unpack (cf_zeros f) (if b : bool then cf_xi f else cf_yi f) (if b then cf_xd f else cf_yd f) t = Ok q) ->
      last_offset (pre ++ [ND01 x y i j]) = own_offset (format_of pre) i j.
  Proof.
    intros pre x y i j Hf Hc Hu. unfold last_offset. rewrite fold_left_app. cbn [fold_left].
    destruct (fold_left offset_step pre (None, MkVec n0 n0)) as [f o] eqn:E.
    pose proof (offset_fmt pre (None, MkVec n0 n0)) as Ef. rewrite E in Ef. cbn [fst] in Ef. fold (format_of pre) in Ef. subst f.
    cbn [offset_step snd]. unfold own_offset. destruct Hc as [[Hi Hj]|Hn].
    - destruct i as [i|]; [|congruence]. destruct j as [j|]; [|congruence].
      destruct (format_of pre) as [f|] eqn:Ef; [|congruence]. cbn [axis_value].
      destruct (Hu i (or_introl eq_refl) f eq_refl true) as (qi & Ei). destruct (Hu j (or_intror eq_refl) f eq_refl false) as (qj & Ej).
      rewrite Ei, Ej. reflexivity.
    - rewrite offset_pure in E.
      + cbn [fst snd] in E. assert (o = MkVec n0 n0) as -> by congruence. reflexivity.
      + intros (x' & y' & i' & j' & Hin & Hij). destruct (Hn _ _ _ _ Hin) as [-> ->]. destruct Hij; congruence.
  Qed.

  (** Whole files without blocks: the main layer is exactly what the commands draw, in
      order (all three properties together). *)
  Theorem flat_file_image :
    forall md clock iter ips (ns : list (node K)) cmds,
      Forall is_leaf ns -> (forall a, In (NAD a) ns -> ad_id a <> main_id) ->
      compile md clock iter ips ns = Ok cmds ->
      exists ls ds, layers cmds = Some (ls ++ [(main_id, ds)]) /\ run_draws (executed_file ips ns) ds.
  Proof.
    intros md clock iter ips ns cmds Hl Hid E. destruct (compile_main iter md clock ips ns cmds E) as (v & b & ls & E1 & E2 & E3).
    destruct (flat_program md clock ips ns v Hl Hid E1) as (b' & E4 & Hr). assert (b' = b) by congruence. subst b'.
    exists ls, (bf_cmds b). auto.
  Qed.

  (** An outline has at least as many segments as the contour has strokes. *)
  Lemma outline_count (pre : list (node K)) s : outline pre [DShape s] ->
    (length (ct_strokes (contour_of pre)) <= length (sh_segs s))%nat /\ chain (ct_start (contour_of pre)) (sh_segs s).
  Proof.
    intros (segss & F & C & E).
    assert (L : (length (ct_strokes (contour_of pre)) <= length (concat segss))%nat).
    { clear C E. induction F as [|k sg l segss T _ IH]; [cbn; lia|]. cbn [concat length]. rewrite app_length.
      assert (1 <= length sg)%nat; [|lia]. unfold traces in T. destruct (sk_mode k).
      - subst sg. cbn. lia.
      - cbv zeta in T. subst sg. destruct (v_eqb _ _); cbn; lia.
      - cbv zeta in T. subst sg. destruct (v_eqb _ _); cbn; lia. }
    destruct (concat segss) as [|g r] eqn:Ec; [discriminate|]. injection E as ->. cbn [sh_segs]. auto.
  Qed.
  Lemma arc_stroke_centre (c c' : vec K) new : arc_stroke c new -> arc_stroke c' new -> c = c'.
  Proof.
    intros (f & arcs & l & C1 & C2 & C3) (f' & arcs' & l' & D1 & D2 & D3). rewrite C1 in D1. injection D1 as _ D1.
    apply app_inj_tail in D1 as [D1 _].
    assert (arcs = arcs').
    { clear - D1. revert arcs' D1. induction arcs as [|a r IH]; intros [|a' r'] D1; try discriminate; [reflexivity|].
      injection D1 as -> D1. rewrite (IH _ D1). reflexivity. }
    subst arcs'. destruct arcs as [|a r]; [congruence|]. inversion C3 as [|? ? (N1 & F1) _]; subst. inversion D3 as [|? ? (_ & F2) _]; subst.
    destruct (sh_segs a) as [|s sr]; [congruence|]. inversion F1 as [|? ? (p1 & q1 & w1 & E3) _]; subst.
    inversion F2 as [|? ? (p2 & q2 & w2 & E4) _]; subst. congruence.
  Qed.
End Theorems.

(** *** Cases *)
Local Existing Instance NumQ.
Local Open Scope Q_scope.
Definition go (x y : string) : node Q := ND02 (Some (lit x)) (Some (lit y)).
Definition to (x y : string) : node Q := ND01 (Some (lit x)) (Some (lit y)) None None.
Definition arc (x y i j : string) : node Q := ND01 (Some (lit x)) (Some (lit y)) (Some (lit i)) (Some (lit j)).
Definition run (ns : list (node Q)) := on_file (compiler_hooks false running) false ns (visitor_init compiler_init).
Definition main_layer (ns : list (node Q)) : option (list (draw Q)) :=
  match run ns with Ok v => match d_get main_id (c_buffers (v_ext v)) with Some b => Some (bf_cmds b) | None => None end | Err _ => None end.
Definition U : string := "1000000".
Definition pt (x y : Q) : vec Q := MkVec x y.

(** What a file and one more command leave on the current buffer. *)
Definition probe (ns : list (node Q)) (n : node Q) (P : option (list (draw Q)) -> option (list (draw Q)) -> Prop) : Prop :=
  match run ns with
  | Ok v => match visit_leaf (compiler_hooks false running) n v with Done v' => P (drawn v) (drawn v') | _ => False end
  | Err _ => False
  end.
Lemma probe_point ns n P : executed_file false ns = ns -> probe ns n P ->
  exists v v', at_point (compiler_hooks false running) compiler_init ns v /\
    visit_leaf (compiler_hooks false running) n v = Done v' /\ P (drawn v) (drawn v').
Proof.
  unfold probe. intros Ee HP. destruct (run ns) as [v|] eqn:Ev; [|contradiction].
  destruct (visit_leaf _ n v) as [v'|v'|e] eqn:E; try contradiction. exists v, v'. split; [|auto].
  rewrite <- Ee. exact (points_cover_files false running false ns v Ev).
Qed.

(** Two contours, the second with a half circle and a full circle. *)
Definition two_contours : list (node Q) :=
  [fs26; NG G75; NG G36; go "0" "0"; to U "0"; to U U; to "0" "0"; go "5000000" "5000000";
   NLP Clear; NG G03; arc "7000000" "5000000" U "0"; arc "7000000" "5000000" U "0"; NG G01; to "5000000" "5000000"].
Example C13_case :
  ct_regular (contour_of two_contours) = true /\ closes two_contours (NG G37) = true /\
  map (fun k => (sk_from k, sk_to k)) (ct_strokes (contour_of two_contours)) =
    [(pt 5 5, pt 7 5); (pt 7 5, pt 7 5); (pt 7 5, pt 5 5)] /\
  main_layer (two_contours ++ [NG G37]) = Some [
    DShape (MkShape [SLine (pt 0 0) (pt 1 0); SLine (pt 1 0) (pt 1 1); SLine (pt 1 1) (pt 0 0)] false None);
    DShape (MkShape [SArc (pt 5 5) (pt 7 5) (pt 6 5) false;
                     SArc (pt 7 5) (pt 9 5) (pt 8 5) false; SArc (pt 9 5) (pt 7 5) (pt 8 5) false;
                     SLine (pt 7 5) (pt 5 5)] true None)].
Proof. vm_compute. repeat split. Qed.

(** Single quadrant arcs are dropped: the outline misses a stroke. *)
Definition sq_region : list (node Q) :=
  [fs26; NG G74; NG G36; go "0" "0"; to U "0"; NG G02; arc "2000000" U U "0"; NG G01; to "0" "0"].
Theorem C13_single_quadrant_refuted : ~ C13_statement (K := Q).
Proof.
  intros S. destruct (probe_point sq_region (NG G37) (fun a b => a = Some [] /\ b = Some
    [DShape (MkShape [SLine (pt 0 0) (pt 1 0); SLine (pt 2 1) (pt 0 0)] false None)])) as (v & v' & Hp & E37 & Hd & A3).
  { vm_compute. reflexivity. }
  { vm_compute. split; reflexivity. }
  destruct (S false running sq_region v (NG G37) v' Hp) as (new & (old & A1 & A2) & Ho); [congruence|reflexivity|exact E37|].
  rewrite Hd in A1. injection A1 as <-. cbn [app] in A2.
  rewrite A3 in A2. injection A2 as <-. apply outline_count in Ho as (Ho & _).
  revert Ho. vm_compute. lia.
Qed.
(** A flash inside a region moves the pen without closing the contour: the chain is broken. *)
Definition flash_region : list (node Q) :=
  [fs26; adc "D10" 1; NDnn (lit "D10"); NG G36; go "0" "0"; to U "0";
   ND03 (Some (lit "2000000")) (Some (lit "0")); to "2000000" U].
Theorem C13_flash_refuted : ~ C13_statement (K := Q).
Proof.
  intros S. destruct (probe_point flash_region (NG G37) (fun a b => exists p, a = Some [p] /\ b = Some
    [p; DShape (MkShape [SLine (pt 0 0) (pt 1 0); SLine (pt 2 0) (pt 2 1)] false None)])) as (v & v' & Hp & E37 & p & Hd & A3).
  { vm_compute. reflexivity. }
  { vm_compute. eexists. split; reflexivity. }
  destruct (S false running flash_region v (NG G37) v' Hp) as (new & (old & A1 & A2) & Ho); [congruence|reflexivity|exact E37|].
  rewrite Hd in A1. injection A1 as <-. cbn [app] in A2.
  rewrite A3 in A2. injection A2 as <-. apply outline_count in Ho as (_ & Ho). cbn [sh_segs chain seg_start seg_end] in Ho.
  destruct Ho as (_ & [E|E] & _).
  - injection E as E. discriminate E.
  - discriminate E.
Qed.
(** A second G36 in a region throws away the contour drawn so far: three strokes, no shape. *)
Theorem C13_second_G36_refuted :
  main_layer [fs26; NG G36; go "0" "0"; to U "0"; to U U; to "0" "0"; NG G36; NG G37] = Some [].
Proof. vm_compute. reflexivity. Qed.

Example C15_case :
  let ns := [fs26; adc "D10" 1; NDnn (lit "D10"); go U U; NLP Clear; to "3000000" U;
             NLP Dark; ND03 (Some (lit "4000000")) None] in
  Forall is_leaf ns /\ (forall a, In (NAD a) ns -> ad_id a <> main_id) /\
  option_map (map negative) (main_layer ns) = Some [true; true; true; false] /\
  option_map (fun l => match last l (DShape (MkShape [] false None)) with DPaste p => Some (pa_center p) | _ => None end) (main_layer ns)
    = Some (Some (pt 4 1)).
Proof.
  split; [repeat constructor|]. split.
  - intros a Ha. repeat destruct Ha as [Ha|Ha]; try discriminate Ha; try contradiction. injection Ha as <-. discriminate.
  - vm_compute. split; reflexivity.
Qed.
(** Flashing a block aperture ignores the polarity: with LPC the dark contents stay dark. *)
Theorem C15_block_flash_refuted :
  let ns := [fs26; adc "D10" 1; NAB (lit "D20") [NDnn (lit "D10"); ND03 (Some (lit U)) (Some (lit U))];
             NLP Clear; NDnn (lit "D20"); ND03 (Some (lit U)) (Some (lit "0"))] in
  clear_at (executed_file false ns) = true /\ option_map (map negative) (main_layer ns) = Some [false].
Proof. vm_compute. split; reflexivity. Qed.

(** The centre of the second arc is start + (1, 0), although the D01 gives no I. *)
Example C18_case :
  let pre := [fs26; adc "D10" (1 # 2); NDnn (lit "D10"); NG G75; NG G02; go "0" "0"] in
  plus (pen_vec pre) (last_offset (pre ++ [arc "2000000" "0" U "0"])) = pt 1 0 /\
  own_offset (format_of pre) (Some (lit U)) (Some (lit "0")) = pt 1 0.
Proof. vm_compute. split; reflexivity. Qed.
Theorem C18_offset_persists_refuted :
  exists pre x y j v v' new, at_point (compiler_hooks false running) compiler_init pre v /\
    visit_leaf (compiler_hooks false running) (ND01 x y None j) v = Done v' /\
    in_region pre = false /\ plot_of pre <> PmLinear /\ arc_mode pre = MultiQuadrant /\
    adds v v' new /\ ~ arc_stroke (plus (pen_vec pre) (own_offset (format_of pre) None j)) new.
Proof.
  pose (pre := [fs26; adc "D10" (1 # 2); NDnn (lit "D10"); NG G75; NG G02; go "0" "0"; arc "2000000" "0" U "0"]).
  destruct (probe_point pre (ND01 (Some (lit "2000000")) (Some (lit "2000000")) None (Some (lit U))) (fun a b => a <> None)) as (v & v' & Hp & E1 & Hd).
  { vm_compute. reflexivity. }
  { vm_compute. discriminate. }
  assert (HC : in_region pre = false /\ plot_of pre <> PmLinear /\ arc_mode pre = MultiQuadrant) by (vm_compute; repeat split; discriminate).
  destruct HC as (R1 & R2 & R3).
  destruct (C18_offset_partial false running pre v _ _ _ _ v' Hp Hd R1 R2 R3 E1) as (new & A & C).
  exists pre, (Some (lit "2000000")), (Some (lit "2000000")), (Some (lit U)), v, v', new.
  do 6 (split; [assumption|]). intros C'. pose proof (arc_stroke_centre _ _ _ C C') as Ec. revert Ec. vm_compute. discriminate.
Qed.

Print Assumptions points_cover_files.
Print Assumptions C13_contour_partial.
Print Assumptions C13_single_quadrant_refuted.
Print Assumptions C13_flash_refuted.
Print Assumptions C13_second_G36_refuted.
Print Assumptions C15_polarity_and_place_partial.
Print Assumptions C15_block_flash_refuted.
Print Assumptions C18_offset_partial.
Print Assumptions C18_region_offset_partial.
Print Assumptions C18_own_offset_partial.
Print Assumptions C18_offset_persists_refuted.
Print Assumptions flat_file_image.

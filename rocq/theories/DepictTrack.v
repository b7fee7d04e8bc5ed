(** Proofs for C80: the picture of a file without blocks, told from the calls a reader records. *)
From Coq Require Import Reals Qreals Lra.
From Verif Require Import Base Num NumReal Dict CoordModel CoordSpec Ast StateModel StateSpec StateProofs GeomModel CompilerModel
  LayerSpec LayerProofs DrawSpec DrawProofs FlashSpec RenderSpec.
From Verif Require Import DepictSpec DepictNodes.
Local Existing Instance NumQ.

Section Walk.
  Notation vis := (@visitor Q (list (@call Q))).
  Inductive walk : list (node Q) -> vis -> Prop :=
  | wk_start : walk [] (visitor_init [])
  | wk_leaf pre v n v' : walk pre v -> is_leaf n -> visit_leaf recorder n v = Done v' \/ visit_leaf recorder n v = Stop v' ->
      walk (pre ++ [n]) v'.
  Lemma walk_point pre v : walk pre v -> at_point recorder [] pre v.
  Proof. induction 1; [constructor|]. econstructor; eauto. Qed.
  Lemma walk_file b ns : Forall is_leaf ns -> forall pre v v', walk pre v -> on_file recorder b ns v = Ok v' ->
    walk (pre ++ executed_file b ns) v'.
  Proof.
    induction 1 as [|n r Hn _ IH]; intros pre v v' Hw E; cbn [on_file executed_file] in *.
    - injection E as <-. rewrite app_nil_r. exact Hw.
    - rewrite (visit_is_leaf recorder n v Hn) in E. rewrite (executed_leaf n Hn).
      destruct (visit_leaf recorder n v) as [v1|v1|e] eqn:E1; [| |discriminate].
      + assert (Hs : match n with NM00 | NM02 => true | _ => false end = false).
        { destruct n; try reflexivity; cbn [visit_leaf] in E1; discriminate. }
        rewrite Hs. cbn [andb]. rewrite app_assoc. apply (IH _ v1); [|exact E]. econstructor; eauto.
      + assert (Hw1 : walk (pre ++ [n]) v1) by (econstructor; eauto).
        destruct (leaf_stop _ _ _ _ E1) as [Hm _].
        assert (Hs : match n with NM00 | NM02 => true | _ => false end = true) by (destruct Hm as [-> | ->]; reflexivity).
        rewrite Hs. cbn [andb]. destruct b; [injection E as <-; exact Hw1|]. rewrite app_assoc. apply (IH _ v1); assumption.
  Qed.
End Walk.

(** ** What the state knows *)
Section Known.
  Notation vis := (@visitor Q (list (@call Q))).
  Lemma known_apid pre (v : vis) : at_point recorder [] pre v -> s_apid (v_state v) = latest_selection pre.
  Proof.
    unfold latest_selection. apply (point_last recorder [] s_apid sets_aperture); [|reflexivity].
    intros n s s' _ E. leaf_cases n s s' E; reflexivity.
  Qed.
  Lemma known_macros pre (v : vis) : at_point recorder [] pre v -> forall name, d_get name (s_macros (v_state v)) = macros_of pre name.
  Proof.
    intros Hp name. unfold macros_of.
    refine (point_inv recorder [] (fun v o => d_get name (s_macros (v_state v)) = o)
      (fun o n => match n with NAM m ps => if str_eqb name m then Some ps else o | _ => o end) None _ _ _ _ _ _ pre v Hp).
    - reflexivity.
    - intros n v1 v2 o Hl IH E. pose proof (leaf_state_spec recorder n v1 v2 E) as Es. rewrite <- IH. clear IH Hp.
      leaf_cases n (v_state v1) (v_state v2) Es; try reflexivity. all: try (cbn [set_store s_macros]; rewrite d_get_set; reflexivity).
    - auto.
    - auto.
    - intros u v1 o IH. unfold sr_enter. destruct (hk_sr_open recorder u _ _). exact IH.
    - intros tmp hdr v1 v2 o IH E. unfold sr_leave in E. apply lift_done in E as (-> & _). exact IH.
  Qed.
  Lemma known_apertures pre (v : vis) : walk pre v -> forall id a, d_get id (s_apertures (v_state v)) = Some a ->
    In (NAD a) pre /\ ad_id a = id.
  Proof.
    induction 1 as [|pre v n v' Hw IH Hl E]; intros id a Ha; [discriminate|].
    pose proof (leaf_state_spec recorder n v v' E) as Es.
    assert (Hc : d_get id (s_apertures (v_state v)) = Some a \/ (n = NAD a /\ ad_id a = id)).
    { clear IH E Hw. revert Es Ha. generalize (v_state v), (v_state v'). intros s s' Es Ha. leaf_cases n s s' Es; try (left; exact Ha).
      cbn [set_store s_apertures] in Ha. rewrite d_get_set in Ha. destruct (str_eqb id (ad_id a0)) eqn:Ei; [|left; exact Ha].
      apply str_eqb_eq in Ei. injection Ha as <-. right. auto. }
    destruct Hc as [Hc|[-> Hi]].
    - destruct (IH _ _ Hc) as [A B]. split; [apply in_or_app; left; exact A|exact B].
    - split; [apply in_or_app; right; left; reflexivity|exact Hi].
  Qed.
  Lemma modes_snoc (pre : list (node Q)) n : fold_left modes_step (pre ++ [n]) (MkModes PmLinear SingleQuadrant false []) =
    modes_step (fold_left modes_step pre (MkModes PmLinear SingleQuadrant false [])) n.
  Proof. apply fold_left_app. Qed.
  Lemma contour_modes (pre : list (node Q)) : let m := ct_modes (contour_of pre) in
    mo_plot m = plot_of pre /\ mo_arc m = arc_mode pre /\ mo_region m = in_region pre.
  Proof.
    induction pre as [|n pre IH] using rev_ind; [repeat split|]. unfold contour_of, plot_of, arc_mode, in_region, last_set in *. cbv zeta in *.
    rewrite !fold_left_app. cbn [fold_left]. rewrite ct_modes_step. destruct IH as (A & B & C).
    destruct n; cbn [modes_step sets_plot sets_arc sets_region]; auto.
    destruct g; cbn [mo_plot mo_arc mo_region]; auto.
  Qed.
End Known.

(** ** Calls and objects *)
Section Renders.
  Context (inside : shape R -> vec R -> Prop) (text : R -> str) (md : bool) (clock : nat -> Z).
  Notation NT := (with_text NumR text).
  Notation rns := (map real_node).
  Notation call := (@call Q).

  Definition to_vec (s : state Q) : vec Q := MkVec (coordinate_x s) (coordinate_y s).
  Definition off_vec (s : state Q) : vec Q := MkVec (coordinate_i s) (coordinate_j s).
  Definition mode_of (h : d01_handler) : plot_mode :=
    match h with HDrawLine | HRegionLine => PmLinear | HDrawCwSq | HDrawCwMq | HRegionCwSq | HRegionCwMq => PmArc | _ => PmCcwArc end.
  Definition quadrants (h : d01_handler) : bool :=
    match h with HDrawCwSq | HDrawCcwSq | HRegionCwSq | HRegionCcwSq => false | _ => true end.
  Definition of_region (h : d01_handler) : bool :=
    match h with HRegionLine | HRegionCwSq | HRegionCwMq | HRegionCcwSq | HRegionCcwMq => true | _ => false end.
  Definition call_stroke (h : d01_handler) (s : state Q) : DrawSpec.stroke (K := Q) :=
    MkStroke (start_point s) (to_vec s) (mode_of h) (off_vec s).
  Definition matrix_of (t : transform Q) : mat R :=
    mmul (NK := NT) (mmul (NK := NT) (mreflect (NK := NT) match tr_mirroring t with MirX | MirXY => true | _ => false end
                         match tr_mirroring t with MirY | MirXY => true | _ => false end)
               (mrotate (NK := NT) (Q2R (tr_rotation t))))
         (mscale (NK := NT) (Q2R (tr_scaling t)) (Q2R (tr_scaling t))).
  (** The figure of an aperture whose macros are among these. *)
  Definition ap_figure (ms : dict (list (prim Q))) (a : ad Q) (M : mat R) (fs : list object) : Prop :=
    exists s x0 x1 b, (forall name ps, d_get name (s_macros s) = Some ps -> exists qs, d_get name ms = Some qs /\ ps = map real_prim qs) /\
      @on_aperture R NT md clock (real_ad a) s x0 = Ok x1 /\ NoDup (c_stamps x1) /\ d_get (ad_id a) (c_buffers x1) = Some b /\ RenderSpec.figure inside (c_buffers x1) M (bf_cmds b) fs.
  Definition flash_object (a : ad Q) (s : state Q) (o : object) : Prop :=
    exists fs n, dcode (ad_id a) n /\ ap_figure (s_macros s) a (matrix_of (s_tr s)) fs /\ o = (is_negative s, moved_to (real_vec (to_vec s)) (seen fs)).
  (** As [stroked], from the points. *)
  Definition drawn_between (mode : plot_mode) (a b o : vec R) (neg : bool) (th : R) (m : meta) : list (draw R) :=
    let c := plus (NK := NT) a o in
    let disc p := DShape (new_circle (NK := NT) p th neg m) in
    let arc cw := if v_eqb (NK := NT) a b
                  then let l := MkVec (vx c - v_len (NK := NT) o)%R (vy c) in let r := MkVec (vx c + v_len (NK := NT) o)%R (vy c) in
                       [disc a; arc_of (NK := NT) cw l r c th neg m; arc_of (NK := NT) cw r l c th neg m; disc r]
                  else [disc a; arc_of (NK := NT) cw a b c th neg m; disc b] in
    match mode with PmLinear => line_stroke (NK := NT) a b th neg m | PmArc => arc true | PmCcwArc => arc false end.
  Definition stroke_objects (h : d01_handler) (s : state Q) (os : list object) : Prop :=
    quadrants h = true -> exists th m,
      (forall a d, current_aperture s = Ok (ApAD a) -> ad_template a = TCircle d None -> th = Q2R d) /\
      Forall2 (shape_object inside)
        (drawn_between (mode_of h) (real_vec (start_point s)) (real_vec (to_vec s)) (real_vec (off_vec s)) (is_negative s) th m) os.
  Definition region_objects (l : list (DrawSpec.stroke (K := Q))) (s : state Q) (os : list object) : Prop :=
    exists p q segss, strokes_chain p l q /\ Forall2 (traces (NK := NT)) (map real_stroke l) segss /\
      os = match concat segss with [] => [] | l => [(is_negative s, inside (MkShape l (is_negative s) None))] end.

  (** [pend]: strokes since the contour began, and whether nothing spoiled it. *)
  Inductive renders : list call -> option (list (DrawSpec.stroke (K := Q)) * bool) -> list object -> Prop :=
  | rn_nil : renders [] None []
  | rn_flash log p os h a s o : renders log p os -> flash_object a s o ->
      renders (log ++ [CFlash h (ApAD a) s]) (option_map (fun c => (fst c, false)) p) (os ++ [o])
  | rn_draw log os h s new : renders log None os -> of_region h = false -> stroke_objects h s new ->
      renders (log ++ [CDraw h s]) None (os ++ new)
  | rn_outline log l ok os h s : renders log (Some (l, ok)) os -> of_region h = true ->
      renders (log ++ [CDraw h s]) (Some (l ++ [call_stroke h s], ok && quadrants h)) os
  | rn_start log p os : renders log p os -> renders (log ++ [CStartRegion]) (Some ([], true)) os
  | rn_flush log p os s new : renders log p os -> (forall l, p = Some (l, true) -> region_objects l s new) ->
      renders (log ++ [CFlushRegion s]) (option_map (fun _ => ([], true)) p) (os ++ new)
  | rn_end log p os : renders log p os -> renders (log ++ [CEndRegion]) None os.

  Definition pending (pre : list (node Q)) : option (list (DrawSpec.stroke (K := Q)) * bool) :=
    if in_region pre then Some (ct_strokes (contour_of pre), ct_regular (contour_of pre)) else None.
  Lemma contour_snoc (pre : list (node Q)) n : contour_of (pre ++ [n]) = contour_step (contour_of pre) n.
  Proof. apply fold_left_app. Qed.
  Lemma region_snoc (pre : list (node Q)) n : in_region (pre ++ [n]) = match sets_region n with Some b => b | None => in_region pre end.
  Proof. unfold in_region, last_set. rewrite fold_left_app. reflexivity. Qed.
  Lemma picture_snoc pre n os : picture inside text md clock (pre ++ [n]) os ->
    exists os0 new, os = os0 ++ new /\ picture inside text md clock pre os0 /\ pictured inside text md clock pre n new.
  Proof.
    intros H. inversion H as [E|pre0 os0 n0 new H1 H2 E]; [destruct pre; discriminate|]. apply app_inj_tail in E as [-> ->]. eauto.
  Qed.
  Lemma shape_object_nil os : Forall2 (shape_object inside) [] os -> os = [].
  Proof. inversion 1. reflexivity. Qed.
  Lemma pending_quiet (pre : list (node Q)) n : match n with ND01 _ _ _ _ | ND02 _ _ | ND03 _ _ | NG G36 | NG G37 => False | _ => True end ->
    pending (pre ++ [n]) = pending pre.
  Proof.
    intros Hn. unfold pending. rewrite region_snoc, contour_snoc.
    destruct n; try contradiction; try reflexivity. destruct g; try contradiction; reflexivity.
  Qed.
  Lemma neg_state (pre : list (node Q)) v x y i j s : at_point recorder [] pre v -> read_coords x y i j (v_state v) = Ok s ->
    is_negative s = clear_at (rns pre) /\ matrix_of (s_tr s) = matrix_at (NK := NT) (rns pre) /\ s_macros s = s_macros (v_state v) /\
    s_apid s = s_apid (v_state v) /\ s_apertures s = s_apertures (v_state v) /\ s_blocks s = s_blocks (v_state v).
  Proof.
    intros Hp Hr. assert (Et : s_tr s = s_tr (v_state v) /\ s_macros s = s_macros (v_state v) /\ s_apid s = s_apid (v_state v) /\ s_apertures s = s_apertures (v_state v) /\ s_blocks s = s_blocks (v_state v)).
    { apply read_coords_inv in Hr as (x' & y' & i' & j' & _ & _ & _ & _ & ->). repeat split. }
    destruct Et as (Et & Em & Ea & Eb & Ec). split; [|split; [|auto]].
    - unfold is_negative. rewrite Et. rewrite clear_real. exact (negative_point recorder [] pre v Hp).
    - unfold matrix_of, matrix_at. rewrite Et, mirroring_real. unfold n0, n1.
      pose proof (pl_mirroring recorder [] _ _ Hp) as P1. pose proof (pl_rotation recorder [] _ _ Hp) as P2. pose proof (pl_scaling recorder [] _ _ Hp) as P3.
      unfold p_mirroring, p_rotation, p_scaling in P1, P2, P3. rewrite P1, P2, P3.
      rewrite <- (rotation_real n0 pre), <- (scaling_real n1 pre).
      assert (E0 : Q2R n0 = n_of_Q (Num := NT) 0) by (symmetry; apply zero_real).
      assert (E1 : Q2R n1 = n_of_Q (Num := NT) 1) by apply red_real.
      rewrite E0, E1. reflexivity.
  Qed.

  (** Unique codes and names. *)
  Lemma codes_app (a b : list (node Q)) : ad_codes (a ++ b) = ad_codes a ++ ad_codes b.
  Proof. unfold ad_codes. apply flat_map_app. Qed.
  Lemma names_app (a b : list (node Q)) : GbSpec.names_of (a ++ b) = GbSpec.names_of a ++ GbSpec.names_of b.
  Proof. unfold GbSpec.names_of. apply flat_map_app. Qed.
  Lemma nodup_left {A} (a b : list A) : NoDup (a ++ b) -> NoDup a.
  Proof. induction a as [|x a IH]; intros H; [constructor|]. inversion H; subst. constructor; [|auto]. intros Hx. apply H2, in_or_app. auto. Qed.
  Lemma code_in (a : ad Q) pre : In (NAD a) pre -> In (ad_id a) (ad_codes pre).
  Proof. intros H. unfold ad_codes. apply in_flat_map. exists (NAD a). split; [exact H|left; reflexivity]. Qed.
  Lemma code_unique pre : NoDup (ad_codes pre) -> forall a b : ad Q, In (NAD a) pre -> In (NAD b) pre -> ad_id a = ad_id b -> a = b.
  Proof.
    induction pre as [|n pre IH]; intros Hd a b Ha Hb E; [destruct Ha|]. change (NoDup (ad_code n ++ ad_codes pre)) in Hd.
    destruct Ha as [->|Ha], Hb as [Eb|Hb].
    - injection Eb as ->. reflexivity.
    - cbn [ad_code app] in Hd. inversion Hd as [|? ? Hn _]; subst. exfalso. apply Hn. rewrite E. apply code_in, Hb.
    - subst n. cbn [ad_code app] in Hd. inversion Hd as [|? ? Hn _]; subst. exfalso. apply Hn. rewrite <- E. apply code_in, Ha.
    - apply IH; auto. clear - Hd. induction (ad_code n) as [|x l IH]; [exact Hd|]. apply IH. inversion Hd; assumption.
  Qed.
  Lemma macros_more (p q : list (node Q)) name ps : NoDup (GbSpec.names_of (p ++ q)) -> macros_of p name = Some ps -> macros_of (p ++ q) name = Some ps.
  Proof.
    rewrite names_app. intros Hd Hp.
    assert (Hin : In name (GbSpec.names_of p)).
    { clear Hd q. revert ps Hp. induction p as [|n p IH] using rev_ind; intros ps Hp; [discriminate|]. rewrite names_app. apply in_or_app.
      unfold macros_of in Hp. rewrite fold_left_app in Hp. cbn [fold_left] in Hp. destruct n; try (left; exact (IH _ Hp)).
      destruct (str_eqb name name0) eqn:E; [|left; exact (IH _ Hp)]. apply str_eqb_eq in E. right. left. symmetry. exact E. }
    assert (Hout : ~ In name (GbSpec.names_of q)).
    { clear - Hd Hin. induction (GbSpec.names_of p) as [|x l IH]; [destruct Hin|]. cbn [app] in Hd. inversion Hd; subst. destruct Hin as [->|Hin]; [|auto].
      intros Hq. apply H1, in_or_app. auto. }
    unfold macros_of in *. rewrite fold_left_app, Hp. clear Hp Hd. induction q as [|n q IH]; [reflexivity|]. cbn [fold_left].
    change (~ In name (match n with NAM m _ => [m] | _ => [] end ++ GbSpec.names_of q)) in Hout.
    destruct n; try (apply IH; exact Hout). destruct (str_eqb name name0) eqn:E; [|apply IH; intros H; apply Hout; right; exact H].
    apply str_eqb_eq in E. exfalso. apply Hout. left. symmetry. exact E.
  Qed.
  Lemma known_blocks pre v : walk pre v -> s_blocks (v_state v) = [].
  Proof.
    induction 1 as [|pre v n v' Hw IH Hl E]; [reflexivity|]. pose proof (leaf_state_spec recorder n v v' E) as Es. clear E Hw.
    revert IH Es. generalize (v_state v), (v_state v'). intros s s' IH Es. leaf_cases n s s' Es; assumption.
  Qed.
  Lemma selected_code pre v x y i j s : walk pre v -> NoDup (ad_codes pre) -> read_coords x y i j (v_state v) = Ok s ->
    forall a a', current_aperture s = Ok a -> selected_as (rns pre) a' -> exists a0, a = ApAD a0 /\ a' = real_ad a0 /\ In (NAD a0) pre.
  Proof.
    intros Hw Hd Hr a a' Ha (Hs & p & q & Ep & _). destruct (neg_state _ _ _ _ _ _ _ (walk_point _ _ Hw) Hr) as (_ & _ & _ & Ei & Ea & Eb).
    unfold current_aperture in Ha. rewrite Ei, Ea, Eb, (known_blocks _ _ Hw), (known_apid _ _ (walk_point _ _ Hw)) in Ha.
    rewrite selection_real in Hs. rewrite Hs in Ha.
    destruct (d_get (ad_id a') (s_apertures (v_state v))) as [a0|] eqn:G; [|discriminate]. injection Ha as <-. exists a0. split; [reflexivity|].
    destruct (known_apertures _ _ Hw _ _ G) as [Hi Eid].
    assert (Hin : In (NAD a') (rns pre)) by (rewrite Ep; apply in_or_app; right; left; reflexivity).
    destruct (in_real _ _ Hin) as (a1 & -> & H1). rewrite (code_unique _ Hd a1 a0 H1 Hi); [split; [reflexivity|exact Hi]|]. symmetry. exact Eid.
  Qed.
  Lemma split_real pre p a q : rns pre = p ++ NAD a :: q -> exists p' q' a', pre = p' ++ NAD a' :: q' /\ p = rns p' /\ a = real_ad a'.
  Proof.
    intros E. apply map_eq_app in E as (p' & r & -> & <- & E). apply map_eq_cons in E as (n & q' & -> & E & <-).
    destruct n; try discriminate E. injection E as <-. eauto 10.
  Qed.

  Lemma strokes_of (pre : list (node Q)) : let c := contour_of pre in mo_region (ct_modes c) = true -> ct_regular c = true ->
    strokes_chain (ct_start c) (ct_strokes c) (vec_of (pen_at (ct_pen c))).
  Proof.
    induction pre as [|n pre IH] using rev_ind; [intros c Hc; discriminate Hc|]. rewrite contour_snoc. revert IH. generalize (contour_of pre). intros c IH.
    cbv zeta in *. rewrite ct_modes_step. unfold contour_step. destruct n; cbn [modes_step ct_strokes ct_regular ct_start ct_pen]; try (intros H1 H2; exact (IH H1 H2)).
    - destruct (mo_region (ct_modes c)) eqn:Em; intros H1 H2; [|discriminate H1]. cbn [ct_strokes ct_regular ct_start ct_pen] in *.
      apply andb_prop in H2 as [H2 _]. eapply strokes_snoc; [exact (IH eq_refl H2)|reflexivity].
    - destruct (mo_region (ct_modes c)) eqn:Em; intros H1 H2; [|discriminate H1]. reflexivity.
    - intros _ H2. discriminate H2.
    - destruct g; cbn [ct_strokes ct_regular ct_start ct_pen]; try (intros H1 H2; exact (IH H1 H2)); intros; reflexivity.
  Qed.
  Lemma closing pre s ds new : in_region pre = true -> ct_regular (contour_of pre) = true -> clear_at (rns pre) = is_negative s -> DrawSpec.outline (NK := NT) (rns pre) ds -> Forall2 (shape_object inside) ds new ->
    region_objects (ct_strokes (contour_of pre)) s new.
  Proof.
    intros Hreg Hok En (segss & Ht & _ & ->) Hf. rewrite contour_real in Ht. cbn [real_contour ct_strokes] in Ht.
    destruct (contour_modes pre) as (_ & _ & M3). pose proof (strokes_of pre (eq_trans M3 Hreg) Hok) as Hch.
    do 2 eexists. exists segss. split; [exact Hch|]. split; [exact Ht|].
    rewrite En in Hf. destruct (concat segss) as [|x l]; [exact (shape_object_nil _ Hf)|]. inversion Hf as [|? ? ? ? (s0 & E & ->) H2]; subst.
    inversion H2; subst. injection E as <-. reflexivity.
  Qed.
  Lemma walk_renders pre v : walk pre v -> (forall a : ad Q, In (NAD a) pre -> exists n, dcode (ad_id a) n) ->
    NoDup (ad_codes pre) -> NoDup (GbSpec.names_of pre) -> forall os, picture inside text md clock (rns pre) os -> renders (v_ext v) (pending pre) os.
  Proof.
    induction 1 as [|pre v n v' Hw IH Hl E]; intros Hcodes Hd Hn os Hpic.
    - inversion Hpic as [|? ? ? ? ? ? E]; [constructor|]. destruct pre; discriminate.
    - rewrite map_app in Hpic. cbn [map] in Hpic. destruct (picture_snoc _ _ _ Hpic) as (os0 & new & -> & Hp0 & Hnew). clear Hpic.
      rewrite codes_app in Hd. pose proof (nodup_left _ _ Hd) as Hd0. pose proof Hn as Hn'. rewrite names_app in Hn'. pose proof (nodup_left _ _ Hn') as Hn0.
      specialize (IH (fun a Ha => Hcodes a (in_or_app _ _ _ (or_introl Ha))) Hd0 Hn0 _ Hp0). pose proof (walk_point _ _ Hw) as Hp.
      assert (Hquiet : calls_back n = false -> renders (v_ext v') (pending (pre ++ [n])) (os0 ++ new)).
      { intros Hc. rewrite (leaf_quiet recorder n v v' Hc E).
        assert (En : new = []).
        { destruct n; try discriminate Hc; try contradiction; destruct Hnew as (ds & Hf & (He & _) & _); cbn [real_node emitted] in He;
            try (destruct g; try discriminate Hc); rewrite He in Hf; exact (shape_object_nil _ Hf). }
        rewrite En, app_nil_r. rewrite pending_quiet; [exact IH|]. destruct n; try discriminate Hc; try exact I. destruct g; try discriminate Hc; exact I. }
      assert (Hdone : calls_back n = true -> visit_leaf recorder n v = Done v').
      { intros Hc. destruct E as [E|E]; [exact E|]. destruct (leaf_stop _ _ _ _ E) as [[-> | ->] _]; discriminate Hc. }
      destruct n; try contradiction; try (apply Hquiet; reflexivity).
      + (* AD *) specialize (Hdone eq_refl). destruct (leaf_adef _ _ _ _ Hdone) as (s & Es & _). injection Es as <-.
        destruct Hnew as (ds & Hf & (He & _) & _). cbn [real_node emitted] in He. rewrite He in Hf. rewrite (shape_object_nil _ Hf), app_nil_r.
        rewrite pending_quiet; [exact IH|exact I].
      + (* D01 *) specialize (Hdone eq_refl). destruct (leaf_d01 _ _ _ _ _ _ _ Hdone) as (s & Er & Eh & _). injection Eh as <-.
        destruct (coherent_point recorder [] _ _ Hp) as [Hcb _]. rewrite (pl_plot recorder [] _ _ Hp), (pl_arc recorder [] _ _ Hp), (pl_region recorder [] _ _ Hp) in Hcb.
        change (last_set sets_plot PmLinear pre) with (plot_of pre) in Hcb. change (last_set sets_arc SingleQuadrant pre) with (arc_mode pre) in Hcb.
        change (last_set sets_region false pre) with (in_region pre) in Hcb.
        destruct (neg_state _ _ _ _ _ _ _ Hp Er) as (Eneg & _ & _ & _).
        destruct (settled_read _ _ _ _ _ _ _ (settled_point recorder [] _ _ Hp) Er) as (Hat & Hs1 & Hs2 & _).
        pose proof (offset_read _ _ _ _ _ _ _ (offset_point recorder [] _ _ Hp) Er) as (_ & Ei & Ej).
        assert (Efrom : real_vec (start_point s) = pen_vec (NK := NT) (rns pre)) by (rewrite pen_vec_real, Hs1, Hs2, pen_vec_of; reflexivity).
        assert (Eto' : to_vec s = pen_vec (pre ++ [ND01 x y i j])).
        { rewrite pen_vec_of, pen_of_snoc. unfold to_vec. change (pen_at (pen_step (pen_of pre) (ND01 x y i j))) with (pen_at (pen_step (pen_of pre) (ND02 x y))).
          rewrite Hat. reflexivity. }
        assert (Eto : real_vec (to_vec s) = pen_vec (NK := NT) (rns pre ++ [real_node (ND01 x y i j)])).
        { rewrite Eto'. change [real_node (ND01 x y i j)] with (rns [ND01 x y i j]). rewrite <- map_app, pen_vec_real. reflexivity. }
        assert (Eoff' : off_vec s = last_offset (pre ++ [ND01 x y i j])).
        { unfold off_vec, last_offset. rewrite fold_left_app. cbn [fold_left]. rewrite Ei, Ej. symmetry. apply surjective_vec. }
        assert (Eoff : real_vec (off_vec s) = last_offset (NK := NT) (rns pre ++ [real_node (ND01 x y i j)])).
        { rewrite Eoff'. change [real_node (ND01 x y i j)] with (rns [ND01 x y i j]). rewrite <- map_app, last_offset_real. reflexivity. }
        destruct Hnew as (ds & Hf & (He & _) & Hst). cbn [real_node] in He, Hst. destruct He as (_ & Hin & _).
        rewrite region_real in Hin, Hst. rewrite plot_real, arc_real in Hst.
        destruct (contour_modes pre) as (M1 & M2 & M3).
        unfold pending. rewrite region_snoc, contour_snoc. cbn [sets_region]. unfold pending in IH.
        destruct (in_region pre) eqn:Hrg.
        * rewrite (Hin eq_refl) in Hf. rewrite (shape_object_nil _ Hf), app_nil_r.
          unfold contour_step. cbn [modes_step mo_region mo_plot mo_arc]. rewrite M1, M2, M3. cbn [ct_strokes ct_regular].
          replace (MkStroke _ _ _ _) with (call_stroke (v_d01 v) s).
          2:{ unfold call_stroke. f_equal.
              - rewrite Hs1, Hs2, ct_pen_of. reflexivity.
              - rewrite Eto', pen_vec_of, pen_of_snoc, ct_pen_of. reflexivity.
              - rewrite Hcb. destruct (plot_of pre), (arc_mode pre); reflexivity.
              - rewrite Eoff'. unfold last_offset. rewrite fold_left_app, ct_offset_of. reflexivity. }
          replace (match plot_of pre with PmLinear => _ | _ => _ end) with (quadrants (v_d01 v)) by (rewrite Hcb; destruct (plot_of pre), (arc_mode pre); reflexivity).
          apply rn_outline; [exact IH|]. rewrite Hcb. destruct (plot_of pre), (arc_mode pre); reflexivity.
        * apply rn_draw; [exact IH|rewrite Hcb; destruct (plot_of pre), (arc_mode pre); reflexivity|].
          intros Hq. assert (Hmode : plot_of pre = PmLinear \/ arc_mode pre = MultiQuadrant).
          { rewrite Hcb in Hq. destruct (plot_of pre), (arc_mode pre); auto; discriminate Hq. }
          destruct (Hst eq_refl Hmode) as (a & th & m & Ha & Hwd & ->). exists th, m. split.
          -- intros a0 d Ha0 Ht. destruct (selected_code _ _ _ _ _ _ _ Hw Hd0 Er _ _ Ha0 Ha) as (a1 & E1 & -> & _). injection E1 as <-.
             unfold wide in Hwd. cbn [real_ad ad_template] in Hwd. rewrite Ht in Hwd. exact Hwd.
          -- rewrite Efrom, Eto, Eoff, Eneg. unfold stroked in Hf. rewrite plot_real, arc_real in Hf. rewrite Hcb.
             cbn [real_node] in *. destruct (plot_of pre), (arc_mode pre); cbn [mode_of callback_for]; try exact Hf; destruct Hmode; discriminate.
      + (* D02 *) specialize (Hdone eq_refl). destruct (leaf_d02 _ _ _ _ _ Hdone) as (s & Er & _ & Eh).
        rewrite (pl_region recorder [] _ _ Hp) in Eh. change (last_set sets_region false pre) with (in_region pre) in Eh.
        destruct Hnew as (ds & Hf & (He & Hclose & _) & _). cbn [real_node closes emitted] in Hclose, He. rewrite region_real in Hclose, He.
        destruct (neg_state _ _ _ _ _ _ _ Hp Er) as (Eneg & _). destruct (contour_modes pre) as (_ & _ & M3).
        unfold pending in *. rewrite region_snoc, contour_snoc. cbn [sets_region]. unfold contour_step. cbn [modes_step]. rewrite M3.
        destruct (in_region pre) eqn:Hrg.
        * injection Eh as <-. cbn [ct_strokes ct_regular]. refine (rn_flush _ _ _ _ _ IH _). intros l El. injection El as <- Ereg.
          apply (closing _ _ ds); [exact Hrg|exact Ereg|symmetry; exact Eneg| |exact Hf]. apply Hclose; [reflexivity|]. rewrite contour_real. exact Ereg.
        * rewrite (proj2 (proj2 He) eq_refl) in Hf. rewrite (shape_object_nil _ Hf), app_nil_r, Eh. exact IH.
      + (* D03 *) specialize (Hdone eq_refl). destruct (leaf_d03 _ _ _ _ _ Hdone) as (s & a & h & Er & Ha & _ & Eh & _). injection Eh as <-.
        destruct Hnew as (a' & fs & Hsel & Hfig & ->). destruct (selected_code _ _ _ _ _ _ _ Hw Hd0 Er _ _ Ha Hsel) as (a0 & -> & -> & Hin0).
        destruct (neg_state _ _ _ _ _ _ _ Hp Er) as (Eneg & Emat & Emac & _).
        destruct (settled_read _ _ _ _ _ _ _ (settled_point recorder [] _ _ Hp) Er) as (Hat & _).
        assert (Eto : real_vec (to_vec s) = pen_vec (NK := NT) (rns pre ++ [real_node (ND03 x y)])).
        { change [real_node (ND03 x y)] with (rns [ND03 x y]). rewrite <- map_app, pen_vec_real. f_equal.
          rewrite pen_vec_of, pen_of_snoc. change (pen_at (pen_step (pen_of pre) (ND03 x y))) with (pen_at (pen_step (pen_of pre) (ND02 x y))).
          rewrite Hat. reflexivity. }
        assert (Epend : pending (pre ++ [ND03 x y]) = option_map (fun c => (fst c, false)) (pending pre)).
        { unfold pending. rewrite region_snoc, contour_snoc. cbn [sets_region contour_step ct_strokes ct_regular]. destruct (in_region pre); reflexivity. }
        rewrite Epend. apply rn_flash; [exact IH|]. destruct (Hcodes a0) as (nc & Hnc); [apply in_or_app; left; exact Hin0|].
        exists fs, nc. split; [exact Hnc|]. split; [|rewrite Eto, Eneg; reflexivity].
        destruct Hfig as (p & q & s0 & x0 & x1 & b & Ep & Hm & Hon & Hst & Hb & Hfg). exists s0, x0, x1, b. rewrite Emat. split; [|split; [exact Hon|split; [exact Hst|split; [exact Hb|exact Hfg]]]].
        intros name ps Hps. rewrite Hm in Hps. destruct (split_real _ _ _ _ Ep) as (p' & q' & a1 & Epre & -> & _).
        rewrite macros_real in Hps. destruct (macros_of p' name) as [qs|] eqn:Eq; [|discriminate]. injection Hps as <-. exists qs. split; [|reflexivity].
        rewrite Emac, (known_macros _ _ Hp). rewrite Epre. apply macros_more; [rewrite <- Epre; exact Hn0|exact Eq].
      + destruct g; try (apply Hquiet; reflexivity).
        * (* G36 *) specialize (Hdone eq_refl). destruct (leaf_g36 _ _ _ Hdone) as (s & ->). destruct Hnew as (ds & Hf & (He & _) & _). cbn [real_node emitted] in He.
          rewrite He in Hf. rewrite (shape_object_nil _ Hf), app_nil_r. unfold pending. rewrite region_snoc, contour_snoc. cbn [sets_region contour_step ct_strokes ct_regular].
          eapply rn_start, IH.
        * (* G37 *) specialize (Hdone eq_refl). destruct (leaf_g37 _ _ _ Hdone) as (x & s & Ex & ->). injection Ex as <-.
          destruct Hnew as (ds & Hf & (He & Hclose & _) & _). cbn [real_node closes] in Hclose. rewrite region_real in Hclose.
          assert (Ep : pending (pre ++ [NG G37]) = None) by (unfold pending; rewrite region_snoc; reflexivity). rewrite Ep.
          eapply rn_end. refine (rn_flush _ _ _ _ _ IH _). intros l El. unfold pending in El. destruct (in_region pre) eqn:Hrg; [|discriminate].
          injection El as <- Ereg. apply (closing _ _ ds); [exact Hrg|exact Ereg|rewrite clear_real; symmetry; exact (negative_point recorder [] pre v Hp)| |exact Hf].
          apply Hclose; [reflexivity|]. rewrite contour_real. exact Ereg.
  Qed.
End Renders.

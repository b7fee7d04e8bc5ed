(** Property theorems C14, C17 and C19 (specification in [PlaceSpec]), with real numbers in
    place of floats. *)
From Coq Require Import Reals Lra.
From Verif Require Import Base Num NumReal Dict CoordModel Ast StateModel StateSpec StateProofs GeomModel CompilerModel
  LayerProofs LayerProps DrawSpec DrawProofs DrawProps PlaceSpec PlaceProofs.
Local Open Scope R_scope.

(** *** C14 *)
(** At the end of an SR block (the block's buffer on top of the stack, the receiving buffer
    below) the property asks for [copies] moved by (i dx, j dy) only, i.e. with [at0] the
    origin. *)
Definition C14_statement (at0 : list (node R) -> vec R) : Prop :=
  forall md clock pre v tmp outer st h nx ny dx dy body old,
    at_point (compiler_hooks md clock) compiler_init pre v ->
    c_stack (v_ext v) = tmp :: outer :: st -> outer <> tmp ->
    header_means h nx ny dx dy -> drawn v = Some body ->
    option_map bf_cmds (d_get outer (c_buffers (v_ext v))) = Some old ->
    exists v', sr_leave (compiler_hooks md clock) tmp h v = Done v' /\ c_stack (v_ext v') = outer :: st /\
      drawn v' = Some (old ++ copies (at0 pre) nx ny dx dy body).
(** Partial: the copies are the right ones, in the right number and order, but all of them
    are moved by the current point in addition. *)
Theorem C14_copies_partial : C14_statement pen_vec.
Proof.
  intros md clock pre v tmp outer st h nx ny dx dy body old Hp Hst Hne Hh Hd Ho.
  apply (sr_leave_copies md clock pre v tmp outer st h nx ny dx dy body old); auto.
Qed.
(** So the property holds for blocks that end with the pen at the origin. *)
Theorem C14_ends_at_origin_partial :
  forall md clock pre v tmp outer st h nx ny dx dy body old,
    at_point (compiler_hooks md clock) compiler_init pre v ->
    c_stack (v_ext v) = tmp :: outer :: st -> outer <> tmp ->
    header_means h nx ny dx dy -> drawn v = Some body ->
    option_map bf_cmds (d_get outer (c_buffers (v_ext v))) = Some old ->
    pen_vec pre = MkVec 0 0 ->
    exists v', sr_leave (compiler_hooks md clock) tmp h v = Done v' /\
      drawn v' = Some (old ++ flat_map (fun ij => map (move (MkVec (INR (fst ij) * dx) (INR (snd ij) * dy))) body)
                                       (list_prod (seq 0 nx) (seq 0 ny))).
Proof.
  intros md clock pre v tmp outer st h nx ny dx dy body old Hp Hst Hne Hh Hd Ho Hpen.
  destruct (C14_copies_partial md clock pre v tmp outer st h nx ny dx dy body old Hp Hst Hne Hh Hd Ho) as (v' & E1 & _ & E2).
  exists v'. split; [exact E1|]. rewrite E2. do 2 f_equal. unfold copies. apply flat_map_ext. intros [i j]. cbn [fst snd].
  rewrite Hpen. apply map_ext. intros d. do 2 f_equal; unfold plus; cbn [vx vy]. unfold times. rewrite !r_of_Z, <- !INR_IZR_INZ. cbn. f_equal; lra.
Qed.
Theorem C14_copy_count :
  forall (at0 : vec R) nx ny dx dy body, length (copies at0 nx ny dx dy body) = (nx * ny * length body)%nat.
Proof.
  intros. unfold copies. rewrite <- (seq_length nx 0) at 2. rewrite <- (seq_length ny 0) at 2. rewrite <- prod_length.
  induction (list_prod (seq 0 nx) (seq 0 ny)) as [|p l IH]; [reflexivity|]. cbn [flat_map length Nat.mul]. rewrite app_length, map_length, IH. reflexivity.
Qed.

(** *** C17 *)
Theorem C17_holes :
  forall md clock (a : ad R) s x x', (forall n p, ad_template a <> TMacro n p) ->
    on_aperture md clock a s x = Ok x' ->
    exists b outer holes, d_get (ad_id a) (c_buffers x') = Some b /\ bf_cmds b = DShape outer :: holes /\
      sh_neg outer = false /\
      match hole_req (ad_template a) with
      | Some h => (h <= 0 -> holes = []) /\
                  (0 < h -> exists s, holes = [DShape s] /\ sh_neg s = true /\
                     disc (MkVec 0 0) (fold_left Rmin (outer_dims (ad_template a)) h / 2) s)
      | None => holes = []
      end.
Proof.
  intros md clock [id t] s x x' Hm E. cbn [ad_template ad_id] in *.
  assert (Fin : forall ds o holes, @Ok exc _ (set_buffer (append_draws (DShape o :: ds) (empty_buffer id)) x) = Ok x' -> ds = holes ->
    exists b, d_get id (c_buffers x') = Some b /\ bf_cmds b = DShape o :: holes).
  { intros ds o holes Ex ->. apply Ok_inj in Ex. subst x'. cbn [set_buffer c_buffers]. rewrite append_draws_id.
    rewrite d_get_set. cbn [empty_buffer bf_id]. rewrite str_eqb_refl. eexists. split; [reflexivity|]. rewrite append_draws_cmds. reflexivity. }
  assert (Hole : forall hole limit m (L : R -> R), (forall h, limit h = L h) ->
    match hole with
    | Some h => (h <= 0 -> hole_of hole limit m = []) /\
                (0 < h -> exists s, hole_of hole limit m = [DShape s] /\ sh_neg s = true /\ disc (MkVec 0 0) (L h / 2) s)
    | None => hole_of hole limit m = []
    end).
  { intros [h|] limit m L HL; [|reflexivity]. cbn [hole_of]. split; intros Hh.
    - destruct (n_ltb n0 h) eqn:El; [|reflexivity]. change (r_ltb n0 h = true) in El. apply r_ltb_lt in El. rewrite r_n0 in El. lra.
    - destruct (n_ltb n0 h) eqn:El; [|change (r_ltb n0 h = false) in El; apply r_ltb_ge in El; rewrite r_n0 in El; lra].
      eexists. split; [reflexivity|]. split; [reflexivity|]. rewrite HL, r_n0. pose proof (new_circle_disc (MkVec 0 0) (L h) true m) as D.
      rewrite r_n2 in D. exact D. }
  destruct t as [d hole|w h hole|w h hole|d n rot hole|name p]; cbn [on_aperture ad_template] in E; cbn [hole_req outer_dims fold_left].
  - destruct (Fin _ _ _ E eq_refl) as (b & B1 & B2). exists b. eexists. eexists. split; [exact B1|]. split; [exact B2|]. split; [reflexivity|].
    apply (Hole hole _ _ (fun h => Rmin h d)). intros h. apply r_min.
  - destruct (Fin _ _ _ E eq_refl) as (b & B1 & B2). exists b. eexists. eexists. split; [exact B1|]. split; [exact B2|]. split; [reflexivity|].
    apply (Hole hole _ _ (fun k => Rmin (Rmin k w) h)). intros k. rewrite !r_min. reflexivity.
  - destruct (Fin _ _ _ E eq_refl) as (b & B1 & B2). exists b. eexists. eexists. split; [exact B1|]. split; [exact B2|].
    split; [unfold new_obround; destruct (n_leb w h); reflexivity|].
    apply (Hole hole _ _ (fun k => Rmin (Rmin k w) h)). intros k. rewrite !r_min. reflexivity.
  - destruct (new_polygon _ _ _ _ _ _) as [sh|] eqn:Ep; [|discriminate]. cbn [bind] in E.
    destruct (Fin _ _ _ E eq_refl) as (b & B1 & B2). exists b. eexists. eexists. split; [exact B1|]. split; [exact B2|].
    split.
    + unfold new_polygon in Ep. cbv zeta in Ep. repeat match type of Ep with
        | (if ?c then _ else _) = _ => destruct c; try discriminate
        | match ?c with Some _ => _ | None => _ end = _ => destruct c; try discriminate end.
      apply Ok_inj in Ep. subst sh. reflexivity.
    + apply (Hole hole _ _ (fun h => Rmin h d)). intros h. apply r_min.
  - exfalso. eapply Hm. reflexivity.
Qed.

(** *** C19 *)
(** The property for one D01: moving start and end moves what is drawn. *)
Definition C19_statement (ok : state R -> Prop) : Prop :=
  forall md (t : vec R) s s' h x b l, translated t s s' -> ok s ->
    current x = Some b -> c_contour x = Some l ->
    exists x1 x2 ds segs, on_draw md h s x = Ok x1 /\ on_draw md h s' x = Ok x2 /\
      effect x x1 ds segs /\ effect x x2 (map (move t) ds) (map (move_seg t) segs).
(** Partial: for round apertures (circles, polygons). Missing: rectangles and obrounds, for
    which the property is false. *)
Theorem C19_round_partial :
  C19_statement (fun s => exists a, current_aperture s = Ok (ApAD a) /\ round_template (ad_template a) = true).
Proof.
  intros md t s s' h x b l Ht (a & Ha & Hr) Eb El.
  destruct (round_thickness s a (end_point s) (end_point s') Ha Hr) as (th & T1 & _).
  assert (T2 : line_thickness (end_point s') s' = Ok th).
  { destruct (tr_rest t s s' Ht) as (_ & _ & R3). destruct (round_thickness s a (end_point s) (end_point s') Ha Hr) as (th' & T1' & T2').
    assert (th' = th) by congruence. subst th'. revert T2'. unfold line_thickness. rewrite R3. auto. }
  assert (Out : forall x1 ds, grows x x1 ds -> effect x x1 ds []).
  { intros x1 ds (G1 & G2 & G3). split; [exact G3|]. rewrite G2, El, app_nil_r. reflexivity. }
  assert (In_ : forall segs, effect x (set_contour (Some (l ++ segs)) x) [] segs).
  { intros segs. split; [|rewrite El; reflexivity]. intros b0 E0. exists b0. rewrite app_nil_r. split; [exact E0|reflexivity]. }
  destruct h; cbn [on_draw].
  - destruct (line_translate md t s s' Ht th x b T1 T2 Eb) as (ds & x1 & x2 & E1 & E2 & G1 & G2). exists x1, x2, ds, []. split; [exact E1|]. split; [exact E2|]. split; apply Out; assumption.
  - exists x, x, [], []. repeat split; apply (Out x [] (grows_refl x)).
  - destruct (arc_translate md t s s' Ht true th x b T1 T2 Eb) as (ds & x1 & x2 & E1 & E2 & G1 & G2). exists x1, x2, ds, []. split; [exact E1|]. split; [exact E2|]. split; apply Out; assumption.
  - exists x, x, [], []. repeat split; apply (Out x [] (grows_refl x)).
  - destruct (arc_translate md t s s' Ht false th x b T1 T2 Eb) as (ds & x1 & x2 & E1 & E2 & G1 & G2). exists x1, x2, ds, []. split; [exact E1|]. split; [exact E2|]. split; apply Out; assumption.
  - destruct (region_line_translate t s s' Ht x l El) as (segs & x1 & x2 & E1 & E2 & -> & ->). do 2 eexists. exists [], segs. split; [exact E1|]. split; [exact E2|]. split; apply In_.
  - exists x, x, [], []. repeat split; apply (Out x [] (grows_refl x)).
  - destruct (region_arc_translate t s s' Ht true x l El) as (segs & x1 & x2 & E1 & E2 & -> & ->). do 2 eexists. exists [], segs. split; [exact E1|]. split; [exact E2|]. split; apply In_.
  - exists x, x, [], []. repeat split; apply (Out x [] (grows_refl x)).
  - destruct (region_arc_translate t s s' Ht false x l El) as (segs & x1 & x2 & E1 & E2 & -> & ->). do 2 eexists. exists [], segs. split; [exact E1|]. split; [exact E2|]. split; apply In_.
Qed.


(** *** Cases, computed with rational numbers *)
Local Close Scope R_scope.
Local Existing Instance NumQ.
Local Open Scope Q_scope.
Definition sr (nx ny dx dy : string) (body : list (node Q)) : node Q :=
  NSR 1 (MkSR (Some (lit nx)) (Some (lit ny)) (Some (lit dx)) (Some (lit dy))) body.
Definition centers (l : option (list (draw Q))) : option (list (Q * Q)) :=
  option_map (map (fun d => match d with DPaste p => (vx (pa_center p), vy (pa_center p)) | DShape _ => (0, 0) end)) l.

(** Six copies; the block ends at the origin, so they are where they belong. *)
Example C14_case :
  header_means (MkSR (Some (lit "3")) (Some (lit "2")) (Some (lit "1.5")) (Some (lit "2"))) 3 2 (3 # 2) 2 /\
  centers (main_layer [fs26; adc "D10" 1;
    sr "3" "2" "1.5" "2" [NDnn (lit "D10"); ND03 (Some (lit U)) (Some (lit U)); go "0" "0"]]) =
  Some [(1, 1); (1, 3); (5 # 2, 1); (5 # 2, 3); (4, 1); (4, 3)].
Proof.
  split; [|vm_compute; reflexivity]. split; [split; [apply int_text_iff; reflexivity|lia]|]. split; [split; [apply int_text_iff; reflexivity|lia]|].
  split; eexists; (split; [apply dec_text_iff; reflexivity|reflexivity]).
Qed.
Example C14_texts : dec_text (lit "-1.25") (-125 # 100) /\ dec_text (lit "+.5") (5 # 10) /\ int_text (lit "-3") (-3) /\ ~ exists q, dec_text (lit "1.2.3") q.
Proof. repeat split; try (apply dec_text_iff; reflexivity); [apply int_text_iff; reflexivity|]. intros (q & H). apply dec_text_iff in H. discriminate H. Qed.
(** A 1 x 1 repetition of a flash at (1,1) puts it at (2,2). *)
Theorem C14_offset_refuted :
  centers (main_layer [fs26; adc "D10" 1;
    sr "1" "1" "0" "0" [NDnn (lit "D10"); ND03 (Some (lit U)) (Some (lit U))]]) = Some [(2, 2)].
Proof. vm_compute. reflexivity. Qed.

(** A hole of diameter 3 in a 2 x 1 rectangle is clipped to 1. *)
Example C17_case :
  match on_aperture false running (MkAD (lit "D10") (TRect 2 1 (Some 3))) state_default (compiler_init (K := Q)) with
  | Ok x => option_map bf_cmds (d_get (lit "D10") (c_buffers x))
  | Err _ => None
  end = Some [DShape (new_rectangle (MkVec 0 0) 2 1 false None);
              DShape (MkShape [SArc (pt (-1 # 2) 0) (pt (1 # 2) 0) (pt 0 0) true;
                               SArc (pt (1 # 2) 0) (pt (-1 # 2) 0) (pt 0 0) true] true None)].
Proof. vm_compute. reflexivity. Qed.

(** A rectangle 1 x 2 drawn from (0,0) to (1,0) has width 1; from (-1,1) to (0,1) width 2. *)
Definition with_rect (sx sy ex ey : Q) : state Q :=
  set_cur sx sy (set_xyij (Some ex) (Some ey) None None
    (set_apid (Some (lit "D10")) (set_store [(lit "D10", MkAD (lit "D10") (TRect 1 2 None))] [] [] [] state_default))).
Theorem C19_thickness_refuted :
  translated (pt (-1) 1) (with_rect 0 0 1 0) (with_rect (-1) 1 0 1) /\
  line_thickness (end_point (with_rect 0 0 1 0)) (with_rect 0 0 1 0) = Ok 1 /\
  line_thickness (end_point (with_rect (-1) 1 0 1)) (with_rect (-1) 1 0 1) = Ok 2.
Proof.
  split; [exists 1, 0; split; [reflexivity|]; split; [reflexivity|vm_compute; reflexivity]|].
  split; vm_compute; reflexivity.
Qed.
Example C19_case : exists s, current_aperture s = Ok (ApAD (MkAD (lit "D10") (TCircle (1 # 2) None))) /\
  translated (pt 3 4) s (set_cur 3 4 (set_xyij (Some 4) (Some 6) None None s)) /\
  line_thickness (end_point s) s = Ok (1 # 2).
Proof.
  exists (set_xyij (Some 1) (Some 2) None None (set_apid (Some (lit "D10")) (set_store [(lit "D10", MkAD (lit "D10") (TCircle (1 # 2) None))] [] [] [] state_default))).
  split; [reflexivity|]. split; [|reflexivity]. exists 1, 2. split; [reflexivity|]. split; [reflexivity|]. vm_compute. reflexivity.
Qed.

Print Assumptions C14_copies_partial.
Print Assumptions C14_ends_at_origin_partial.
Print Assumptions C17_holes.
Print Assumptions C19_round_partial.
Print Assumptions C14_copy_count.
Print Assumptions C14_offset_refuted.
Print Assumptions C19_thickness_refuted.

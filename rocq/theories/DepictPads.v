(** Proofs for C80: the layers of apertures show the pads of the builder. *)
From Coq Require Import Reals Qreals Lra Lia Psatz Permutation.
From Verif Require Import Base Num NumReal Dict CoordModel Ast StateModel StateSpec GeomModel CompilerModel GbModel GbSpec GeoSpec GeoProofs
  ShapeProofs SimilarProofs OutlineProofs OutlineMore FigSpec FigProofs PolyMore.
From Verif Require LayerProofs GeoProps FigProps FlashSpec RenderSpec.
From Verif Require Import DepictSpec DepictNodes DepictTrack.
Open Scope R_scope.

(** ** Shapes that survive every similarity *)
Definition robust (s : shape R) : Prop :=
  forall m, similarity m -> forall p, outline (shape_transform m s) (v_transform m p) <-> outline s p.
Lemma straight_robust s : straight s -> robust s.
Proof.
  intros Hs m H p. unfold outline, shape_transform, straight in *. cbn [sh_segs]. destruct (sh_segs s) as [|s0 ss]; [reflexivity|].
  cbn [map]. rewrite GeoProps.ends_transform. cbn [fst]. rewrite <- (map_cons (seg_transform m) s0 ss), GeoProps.joined_transform.
  assert (Hj : Forall (fun x => match x with SLine _ _ => True | SArc _ _ _ _ => False end) (joined (fst (ends s0)) (s0 :: ss))).
  { clear - Hs. generalize (fst (ends s0)). induction Hs as [|x l Hx _ IH]; intros f; [constructor|]. cbn [joined]. constructor; [exact Hx|]. constructor; [exact I|apply IH]. }
  rewrite Forall_forall in Hj. split.
  - intros (x & Hx & On). apply in_map_iff in Hx. destruct Hx as (y & <- & Hy). exists y. split; [exact Hy|].
    specialize (Hj y Hy). destruct y; [|contradiction]. cbn [seg_transform on_seg] in *. apply on_line_transform in On; assumption.
  - intros (y & Hy & On). exists (seg_transform m y). split; [apply in_map; exact Hy|].
    specialize (Hj y Hy). destruct y; [|contradiction]. cbn [seg_transform on_seg] in *. apply on_line_transform; assumption.
Qed.
(** A circle made of two halves. *)
Definition round (s : shape R) : Prop :=
  exists a b c cw, sh_segs s = [SArc a b c cw; SArc b a c cw] /\ minus b c = times (-1) (minus a c) /\ minus a c <> origin.
Lemma round_outline s : round s -> forall p, outline s p <-> exists a b c cw, sh_segs s = [SArc a b c cw; SArc b a c cw] /\ dist p c = dist a c.
Proof.
  intros (a & b & c & cw & Es & Hb & Ha) p.
  assert (Hd : dist b c = dist a c) by (rewrite !dist_norm, Hb; unfold norm; f_equal; cbn; ring).
  assert (Ho : outline s p <-> dist p c = dist a c).
  { unfold outline. rewrite Es. cbn [joined ends fst snd].
    assert (Ha' : minus a c = times (-1) (minus b c)) by (rewrite Hb; apply vec_eq; cbn; ring).
    assert (Hb0 : minus b c <> origin) by (intros E; apply Ha; rewrite Ha', E; apply vec_eq; cbn; ring).
    split.
    - intros (x & [<-|[<-|[<-|[<-|[]]]]] & On); cbn [on_seg] in On.
      + apply half_arc in On; try assumption. rewrite (proj1 On). reflexivity.
      + destruct On as (t & _ & ->). rewrite <- Hd. f_equal. apply vec_eq; cbn; ring.
      + apply half_arc in On; try assumption. rewrite (proj1 On). exact Hd.
      + destruct On as (t & _ & ->). f_equal. apply vec_eq; cbn; ring.
    - intros D. destruct (Rle_dec (cross (minus a c) (minus p c)) 0) as [L|L].
      + destruct cw; [exists (SArc a b c true)|exists (SArc b a c false)]; (split; [cbn; auto|]); cbn [on_seg]; apply half_arc; try assumption;
          rewrite ?Hb; (split; [rewrite D, ?dist_norm; try reflexivity|]).
        * exact L.
        * unfold norm. f_equal. cbn. ring.
        * unfold cross in *. cbn in *. lra.
      + destruct cw; [exists (SArc b a c true)|exists (SArc a b c false)]; (split; [cbn; auto|]); cbn [on_seg]; apply half_arc; try assumption;
          rewrite ?Hb; (split; [rewrite D, ?dist_norm; try reflexivity|]).
        * unfold norm. f_equal. cbn. ring.
        * unfold cross in *. cbn in *. lra.
        * lra. }
  rewrite Ho. split; [intros D; exists a, b, c, cw; auto|]. intros (a' & b' & c' & cw' & E & D). rewrite Es in E. injection E as <- <- <- <-. exact D.
Qed.
Lemma round_transform m s : similarity m -> round s -> round (shape_transform m s).
Proof.
  intros H (a & b & c & cw & Es & Hb & Ha). unfold shape_transform. cbn [sh_segs]. rewrite Es. cbn [map seg_transform].
  do 4 eexists. cbn [sh_segs]. split; [reflexivity|]. rewrite !minus_transform. split; [rewrite Hb, lin_times; reflexivity|].
  intros E. apply Ha. apply (lin_inj m); [exact H|]. rewrite E. apply vec_eq; cbn; ring.
Qed.
Lemma round_robust s : round s -> robust s.
Proof.
  intros Hs m H p. rewrite (round_outline s Hs), (round_outline _ (round_transform m s H Hs)).
  destruct H as (k & Hk & Hd). unfold shape_transform. cbn [sh_segs]. destruct Hs as (a & b & c & cw & Es & _ & _). rewrite Es. cbn [map seg_transform].
  split.
  - intros (a' & b' & c' & cw' & E & D). injection E as <- <- <- _ _ _ _. rewrite !Hd in D. exists a, b, c, cw. split; [reflexivity|]. nra.
  - intros (a' & b' & c' & cw' & E & D). injection E as <- <- <- <-. do 4 eexists. split; [reflexivity|]. rewrite !Hd. nra.
Qed.
Lemma circle_round c d neg m : 0 < d -> round (new_circle c d neg m).
Proof.
  intros Hd. unfold new_circle, at_. cbv zeta. rewrite half_n2. do 4 eexists. cbn [sh_segs]. split; [reflexivity|]. split.
  - apply vec_eq; cbn; ring.
  - intros E. apply (f_equal vx) in E. cbn in E. lra.
Qed.
Lemma straight_rot r s : straight s -> straight (rot_shape r s).
Proof.
  unfold straight, rot_shape, shape_transform. cbn [sh_segs]. intros H. induction H as [|x l Hx _ IH]; [constructor|]. constructor; [|exact IH].
  destruct x; [exact I|contradiction].
Qed.
Lemma round_rot r s : round s -> round (rot_shape r s).
Proof. apply round_transform, GeoProps.rotate_similarity. Qed.

Lemma loop_straight c m step : forall n t off segs, polygon_loop n c m step t off = Some segs ->
  Forall (fun x : seg R => match x with SLine _ _ => True | SArc _ _ _ _ => False end) segs.
Proof.
  induction n as [|n IH]; intros t off segs; cbn [polygon_loop]; (destruct (n_ltb _ _); [|intros E; injection E as <-; constructor]); [discriminate|].
  destruct (polygon_loop n _ _ _ _ _) eqn:E; [|discriminate]. intros E0. injection E0 as <-. constructor; [exact I|]. eapply IH. exact E.
Qed.
Lemma polygon_straight c d n r neg m s : new_polygon c d n r neg m = Ok s -> straight s.
Proof.
  unfold new_polygon. destruct (n <? 3)%Z; [discriminate|]. cbv zeta. destruct (negb _); [discriminate|]. destruct (polygon_loop _ _ _ _ _ _) eqn:E; [|discriminate].
  intros E0. injection E0 as <-. exact (loop_straight _ _ _ _ _ _ _ E).
Qed.

(** ** The primitives of a custom pad *)
Lemma path_again P z p : P <> [] -> (path_line (P ++ [z; z]) p <-> path_line (P ++ [z]) p).
Proof.
  intros HP. assert (HL : (0 < length P)%nat) by (destruct P; [contradiction|cbn; lia]).
  assert (Hz : nth_error (P ++ [z; z]) (length P) = Some z) by (rewrite nth_error_app2 by lia; rewrite Nat.sub_diag; reflexivity).
  assert (Hlow : forall i, (i <= length P)%nat -> nth_error (P ++ [z; z]) i = nth_error (P ++ [z]) i).
  { intros i Hi. destruct (Nat.eq_dec i (length P)) as [->|N].
    - rewrite Hz, nth_error_app2 by lia. rewrite Nat.sub_diag. reflexivity.
    - rewrite !nth_error_app1 by lia. reflexivity. }
  split.
  - intros (i & a & b & Ha & Hb & On). destruct (le_lt_dec (S i) (length P)) as [L|L].
    + exists i, a, b. rewrite <- !Hlow by lia. auto.
    + assert (i = length P).
      { assert (nth_error (P ++ [z; z]) (S i) <> None) as X by congruence. apply nth_error_Some in X. rewrite app_length in X. cbn in X. lia. }
      subst i. rewrite Hz in Ha. injection Ha as <-. rewrite nth_error_app2 in Hb by lia.
      replace (S (length P) - length P)%nat with 1%nat in Hb by lia. injection Hb as <-. destruct On as (t & _ & ->).
      destruct (nth_error P (length P - 1)) as [w|] eqn:Ew; [|apply nth_error_None in Ew; lia].
      exists (length P - 1)%nat, w, z. split; [rewrite nth_error_app1 by lia; exact Ew|]. split.
      * replace (S (length P - 1)) with (length P) by lia. rewrite nth_error_app2 by lia. rewrite Nat.sub_diag. reflexivity.
      * exists 1. split; [lra|]. apply vec_eq; cbn; ring.
  - intros (i & a & b & Ha & Hb & On). exists i, a, b.
    assert (nth_error (P ++ [z]) (S i) <> None) as X by congruence. apply nth_error_Some in X. rewrite app_length in X. cbn in X.
    rewrite !Hlow by lia. auto.
Qed.
Lemma real_one : Q2R 1 = 1. Proof. unfold Q2R. cbn. lra. Qed.
Lemma real_zero : Q2R 0 = 0. Proof. unfold Q2R. cbn. lra. Qed.
Lemma bool_real env e on : is_bool e on -> exists k, val env (real_expr e) k /\ exposed k (negb on).
Proof.
  intros H. exists (Q2R (if on then 1%Q else 0%Q)). split; [apply const_real; exact H|]. destruct on; constructor.
  - rewrite real_one. lra.
  - apply real_zero.
Qed.
Lemma real_pos q : (0 < q)%Q -> 0 < Q2R q.
Proof. intros H. rewrite <- real_zero. apply Qlt_Rlt. exact H. Qed.

Section Prims.
  Context (inside : shape R -> vec R -> Prop) (clock : nat -> Z) (md : meta).
  Notation mstate := (mstate (K := R)).
  Definition one_shape (f : GbModel.figure) (s : shape R) (g : figure) : Prop :=
    (forall p, outline s p <-> g p) /\ robust s /\
    forall place o, shaped_at inside True place g (sh_neg s) o -> added inside place f o.
  Definition adds (m m' : mstate) (d : draw R) : Prop := bf_cmds (ms_buf m') = bf_cmds (ms_buf m) ++ [d].


  Lemma draws_single m m' off g : draws m m' [(off, g)] -> ms_c m' = ms_c m /\ exists s, adds m m' (DShape s) /\ sh_neg s = off /\ forall p, outline s p <-> g p.
  Proof.
    intros (_ & Hc & _ & ds & gs & E & Hp & Hd). split; [exact Hc|]. apply Permutation_length_1_inv in Hp. subst gs.
    inversion Hd as [|d ? ds' ? (s & -> & Hn & Ho) H2]; subst. inversion H2; subst. exists s. auto.
  Qed.
  Lemma figure_shape f q (m : mstate) : draws_figure f q -> sound_figure f -> match f with FgThermal _ _ _ _ _ => False | _ => True end ->
    exists m' s g, on_prim clock md (real_prim q) m = Ok m' /\ ms_c m' = ms_c m /\ adds m m' (DShape s) /\ one_shape f s g.
  Proof.
    intros Hd Hs Ht. pose proof (const_real (fun v => d_get v (ms_scope m))) as HV.
    set (env := fun v => d_get v (ms_scope m)) in *.
    destruct f as [on d c r|on w a b r|on w h c r|on ps r|on n c d r|c ou inn ga r]; try contradiction;
      destruct q as [c0|e1 d1 x1 y1 r1|e1 w1 x1 y1 x2 y2 r1|e1 n1 x1 y1 pts r1|e1 n1 x1 y1 d1 r1|q1 q2 q3 q4 q5 q6 q7 q8 q9|u q1 q2 q3 q4 q5 q6|e1 w1 x1 y1 x2 y2 r1|e1 w1 h1 x1 y1 r1|q1 q2 q3 q4 q5 q6|v e1];
      try contradiction; cbn [draws_figure sound_figure] in Hd, Hs.
    - destruct r1 as [r1|]; [|contradiction]. destruct Hd as (He & H1 & (H2 & H3) & H4).
      destruct (bool_real env _ _ He) as (k & V & X). apply HV in H1, H2, H3, H4. apply real_pos in Hs.
      cbn [real_prim option_map on_prim]. evs. rewrite (exposed_neg _ _ X). do 2 eexists. exists (turned (Q2R r) (circle_line (spot_of c) (Q2R d))). do 3 (split; [reflexivity|]).
      split; [intros p; etransitivity; [apply rot_circle; exact Hs|]; apply (circle_outline _ _ _ _ (turn _ p)); exact Hs|].
      split; [apply round_robust, round_rot, circle_round; exact Hs|]. intros place o Ho. apply ad_circle. exact Ho.
    - destruct Hd as (He & H1 & (H2 & H3) & (H4 & H5) & H6). destruct Hs as [Hw Hab]. apply real_pos in Hw.
      destruct (bool_real env _ _ He) as (k & V & X). apply HV in H1, H2, H3, H4, H5, H6.
      cbn [real_prim option_map on_prim]. evs. rewrite (exposed_neg _ _ X). do 2 eexists. exists (turned (Q2R r) (band_line (spot_of a) (spot_of b) (Q2R w))). do 3 (split; [reflexivity|]).
      split; [intros p; etransitivity; [apply rot_straight, line_straight|]; apply (line_outline _ _ _ _ _ (turn _ p)); [exact Hab|exact Hw]|].
      split; [apply straight_robust, straight_rot, line_straight|]. intros place o Ho. apply ad_line. exact Ho.
    - destruct Hd as (He & H1 & H2 & (H3 & H4) & H5). destruct Hs as [Hw Hh]. apply real_pos in Hw, Hh.
      destruct (bool_real env _ _ He) as (k & V & X). apply HV in H1, H2, H3, H4, H5.
      cbn [real_prim option_map on_prim]. evs. rewrite (exposed_neg _ _ X). do 2 eexists. exists (turned (Q2R r) (rectangle_line (spot_of c) (Q2R w) (Q2R h))). do 3 (split; [reflexivity|]).
      split; [intros p; etransitivity; [apply rot_straight, rectangle_straight|]; apply (rectangle_outline _ _ _ _ _ (turn _ p)); assumption|].
      split; [apply straight_robust, straight_rot, rectangle_straight|]. intros place o Ho. apply ad_rect. exact Ho.
    - destruct Hd as (He & _ & H1 & H2 & (front & l & -> & (H3 & H4))).
      destruct (bool_real env _ _ He) as (k & V & X). apply HV in H1, H3, H4.
      cbn [real_prim option_map on_prim]. evs. rewrite (exposed_neg _ _ X).
      match goal with |- context [bind (?g (map _ pts)) _] => assert (g (map (fun q => (real_expr (fst q), real_expr (snd q))) pts) = Ok (map spot_of (front ++ [l]))) as -> end.
      { clear - H2 HV. induction H2 as [|p [a b] l0 l' [Ha Hb] HF IH]; [reflexivity|]. cbn [fst snd map] in *. apply HV in Ha, Hb. evs. rewrite IH. reflexivity. }
      cbn [bind]. evs. do 2 eexists. exists (turned (Q2R r) (path_line (map spot_of (l :: front ++ [l])))). do 3 (split; [reflexivity|]).
      split; [|split; [apply straight_robust, straight_rot, connect_straight|intros place o Ho; apply ad_outline; exact Ho]].
      intros p. etransitivity; [apply rot_straight, connect_straight|]. etransitivity; [apply points_outline|]. unfold turned. cbn [map]. rewrite map_app, <- app_assoc.
      apply (path_again (spot_of l :: map spot_of front)). discriminate.
    - destruct Hd as (He & H1 & (H2 & H3) & H4 & H5). destruct Hs as (Hn & Hd0 & z & Hz). apply real_pos in Hd0.
      destruct (bool_real env _ _ He) as (k & V & X). 
      assert (P : polygon env (real_prim (PCode5 e1 n1 x1 y1 d1 r1)) (spot_of c) (negb on) (Z.to_nat n) (Q2R d) (Q2R r)).
      { do 7 eexists. cbn [real_prim]. split; [reflexivity|]. split; [exact V|]. split; [exact X|]. split.
        - replace (INR (Z.to_nat n)) with (Q2R (inject_Z n)); [apply HV; exact H1|]. rewrite INR_IZR_INZ, Z2Nat.id by lia. unfold Q2R. cbn. field.
        - cbn [spot_of vx vy]. auto. }
      destruct (FigProps.C59_polygon_partial clock md _ m _ _ _ _ _ P) as (m' & E & D); [lia| |].
      { exists z. rewrite (Qeq_eqR _ _ Hz). unfold Q2R, inject_Z. cbn [Qnum Qden]. rewrite mult_IZR. field. }
      apply draws_single in D as (Hc & s & Ha & Hneg & Ho). exists m', s. eexists. split; [exact E|]. split; [exact Hc|]. split; [exact Ha|]. split; [exact Ho|]. split.
      2:{ rewrite Hneg. intros place o H. apply ad_polygon. exact H. }
      destruct P as (e2 & n2 & x2 & y2 & d2 & r2 & k2 & EP & P1 & P2 & P3 & P4 & P5 & P6 & P7). cbn [real_prim] in E, EP. injection EP as <- <- <- <- <- <-.
      cbn [on_prim] in E. LayerProofs.dbind E. injection E as <-. match goal with H : new_polygon _ _ _ _ _ _ = Ok ?sh |- _ => rename sh into ps; rename H into EP end.
      unfold adds in Ha. cbn [ms_append ms_buf append_draw bf_cmds] in Ha. apply app_inv_head in Ha. injection Ha as <-.
      apply straight_robust, straight_rot. exact (polygon_straight _ _ _ _ _ _ _ EP).
  Qed.

  (** A thermal is a layer of its own; [bars]: its gaps. *)
  Definition one_layer (f : GbModel.figure) (table : dict (buffer R)) (q : paste R) : Prop :=
    match f with
    | FgThermal c outer inner gap r => exists buf gs len, d_get (pa_src q) table = Some buf /\ pa_center q = turn (Q2R r) (spot_of c) /\ pa_neg q = false /\
        Q2R outer <= len /\ Permutation (map (shown_as (Q2R r) false) (half_rings origin (Q2R outer) (Q2R inner))) gs /\
        Forall2 drawn (bf_cmds buf) (gs ++ map (shown_as (Q2R r) true)
          [band_line (MkVec (- (len / 2)) 0) (MkVec (len / 2) 0) (Q2R gap); band_line (MkVec 0 (- (len / 2))) (MkVec 0 (len / 2)) (Q2R gap)])
    | _ => False
    end.
  Lemma figure_layer c outer inner gap r q (m : mstate) : let f := FgThermal c outer inner gap r in draws_figure f q -> sound_figure f ->
    exists m' p u, on_prim clock md (real_prim q) m = Ok m' /\ adds m m' (DPaste p) /\ one_layer f (c_buffers (ms_c m')) p /\
      pa_src p = LayerProofs.thermal_id clock u (ms_c m) /\ c_stamps (ms_c m') = pa_src p :: c_stamps (ms_c m) /\
      exists b, c_buffers (ms_c m') = d_set (pa_src p) b (c_buffers (ms_c m)).
  Proof.
    intros f Hd Hs. pose proof (const_real (fun v => d_get v (ms_scope m))) as HV. set (env := fun v => d_get v (ms_scope m)) in *.
    destruct q as [c0|e1 d1 x1 y1 r1|e1 w1 x1 y1 x2 y2 r1|e1 n1 x1 y1 pts r1|e1 n1 x1 y1 d1 r1|q1 q2 q3 q4 q5 q6 q7 q8 q9|u x1 y1 o1 i1 g1 r1|e1 w1 x1 y1 x2 y2 r1|e1 w1 h1 x1 y1 r1|q1 q2 q3 q4 q5 q6|v e1];
      try contradiction. cbn [f draws_figure sound_figure] in Hd, Hs. destruct Hd as ((H1 & H2) & H3 & H4 & H5 & H6). destruct Hs as (G1 & G2 & G3).
    apply HV in H1, H2, H3, H4, H5, H6. apply real_pos in G1. apply Qlt_Rlt in G3.
    assert (P : thermal env (real_prim (PCode7 u x1 y1 o1 i1 g1 r1)) (spot_of c) (Q2R outer) (Q2R inner) (Q2R gap) (Q2R r)).
    { do 7 eexists. cbn [real_prim]. split; [reflexivity|]. cbn [spot_of vx vy]. auto 10. }
    destruct (FigProps.C59_thermal clock md _ m _ _ _ _ _ P G1 G2 G3) as (m' & id & buf & gs & len & E & L & A & B & C & D).
    pose proof (LayerProofs.on_prim_step clock md _ m m' E) as [ds E1 E2 E3|u0 ds c0 E1 E2 E3].
    - exfalso. unfold adds in A. rewrite E2, LayerProofs.append_draws_cmds in A. apply app_inv_head in A. subst ds.
      destruct (E3 _ (or_introl eq_refl)) as (sh & X). discriminate X.
    - exists m', (MkPaste id (turn (Q2R r) (spot_of c)) false None), u0. split; [exact E|]. split; [exact A|]. split.
      { exists buf, gs, len. cbn [pa_src pa_center pa_neg]. auto 10. }
      rewrite E2 in A. cbn [append_draw bf_cmds] in A. apply app_inv_head in A. injection A as A1 A2. cbn [pa_src]. rewrite E1, <- A1.
      split; [reflexivity|]. split; [reflexivity|]. unfold LayerProofs.with_thermal, set_buffer. cbn [c_buffers].
      eexists. f_equal. apply LayerProofs.append_draws_id.
  Qed.

  Definition shows (table : dict (buffer R)) (f : GbModel.figure) (d : draw R) : Prop :=
    (exists s g, d = DShape s /\ one_shape f s g) \/ (exists p u (c : cstate R), d = DPaste p /\ one_layer f table p /\ pa_src p = LayerProofs.thermal_id clock u c).
  Lemma shows_table t t' f d : (forall p, d = DPaste p -> d_get (pa_src p) t' = d_get (pa_src p) t) -> shows t f d -> shows t' f d.
  Proof.
    intros H [Hs|(p & u & c & -> & Hl & Hp)]; [left; exact Hs|right]. exists p, u, c. split; [reflexivity|]. split; [|exact Hp].
    unfold one_layer in *. destruct f; try contradiction. rewrite (H p eq_refl). exact Hl.
  Qed.
  Lemma prims_shown fs qs : Forall2 draws_figure fs qs -> Forall sound_figure fs -> forall m m' : mstate,
    on_prims clock md (map real_prim qs) m = Ok m' -> NoDup (c_stamps (ms_c m')) ->
    exists ds, bf_cmds (ms_buf m') = bf_cmds (ms_buf m) ++ ds /\ Forall2 (shows (c_buffers (ms_c m'))) fs ds /\
      (exists l, c_stamps (ms_c m') = l ++ c_stamps (ms_c m)) /\
      (forall id, In id (c_stamps (ms_c m)) -> d_get id (c_buffers (ms_c m')) = d_get id (c_buffers (ms_c m))).
  Proof.
    induction 1 as [|f q fs qs Hd _ IH]; intros Hs m m'; cbn [map on_prims].
    - intros E _. injection E as <-. exists []. rewrite app_nil_r. split; [reflexivity|]. split; [constructor|]. split; [exists []; reflexivity|reflexivity].
    - inversion Hs as [|? ? Hf Hfs]; subst. intros E HN. destruct (on_prim clock md (real_prim q) m) as [m1|] eqn:E1; [|discriminate]. cbn [bind] in E.
      destruct (IH Hfs m1 m' E HN) as (ds & A & B & (l & C) & D).
      assert (Hc : match f with FgThermal _ _ _ _ _ => False | _ => True end \/ exists c o i g r, f = FgThermal c o i g r) by (destruct f; eauto 10).
      destruct Hc as [Hc|(c & o & i & g & r & ->)].
      + destruct (figure_shape f q m Hd Hf Hc) as (m2 & s & g & F1 & F2 & F3 & F4). rewrite F1 in E1. injection E1 as ->.
        exists (DShape s :: ds). split; [rewrite A, F3, <- app_assoc; reflexivity|]. split; [constructor; [left; eauto|exact B]|]. rewrite <- F2. split; [exists l; exact C|exact D].
      + destruct (figure_layer c o i g r q m Hd Hf) as (m2 & p & u & F1 & F2 & F3 & F4 & F5 & (b & F6)). rewrite F1 in E1. injection E1 as ->.
        assert (Hin : In (pa_src p) (c_stamps (ms_c m1))) by (rewrite F5; left; reflexivity).
        assert (Hnew : ~ In (pa_src p) (c_stamps (ms_c m))).
        { rewrite C, F5 in HN. clear - HN. induction l as [|x l IH]; cbn [app] in HN; inversion HN; auto. }
        exists (DPaste p :: ds). split; [rewrite A, F2, <- app_assoc; reflexivity|]. split; [constructor; [right; exists p, u, (ms_c m); split; [reflexivity|split; [|exact F4]]|exact B]|].
        * unfold one_layer in *. rewrite (D _ Hin). exact F3.
        * split; [exists (l ++ [pa_src p]); rewrite C, F5, <- app_assoc; reflexivity|]. intros id Hid. rewrite D by (rewrite F5; right; exact Hid).
          rewrite F6, d_get_set. destruct (str_eqb id (pa_src p)) eqn:Ei; [|reflexivity]. apply str_eqb_eq in Ei. subst id. contradiction.
  Qed.
End Prims.

(** ** Apertures *)
Section Aperture.
  Context (inside : shape R -> vec R -> Prop) (text : R -> str) (md : bool) (clock : nat -> Z).
  Notation NT := (RenderSpec.with_text NumR text).
  Definition plain_shape (ok : Prop) (f : bool * figure) (d : draw R) : Prop :=
    exists s, d = DShape s /\ sh_neg s = fst f /\ (forall p, outline s p <-> snd f p) /\ (ok -> robust s).
  Definition sound_look (lk : look) : Prop := match lk with Plain t => sound_template t | Custom fs => Forall sound_figure fs end.
  Lemma hole_shown (ok : Prop) h k (lim : R -> R) m : fits_in h k -> (forall h0, h = Some h0 -> lim (Q2R h0) = Q2R h0) ->
    Forall2 (plain_shape ok) (hole_figure h) (hole_of (option_map Q2R h) lim m).
  Proof.
    intros Hf Hl. destruct h as [h|]; cbn [option_map hole_of hole_figure]; [|constructor]. destruct Hf as [Hp _]. apply real_pos in Hp.
    assert (n_ltb n0 (Q2R h) = true) as ->.
    { rewrite r_n0. cbn [n_ltb NumR]. unfold r_ltb. destruct (Rlt_dec 0 (Q2R h)); [reflexivity|contradiction]. }
    constructor; [|constructor]. eexists. split; [reflexivity|]. split; [reflexivity|]. rewrite (Hl h eq_refl).
    split; [|intros _; apply round_robust, circle_round; exact Hp].
    intros p. cbn [snd]. replace (MkVec n0 n0) with origin by (unfold origin; rewrite r_n0; reflexivity). apply circle_outline. exact Hp.
  Qed.
  Lemma fits_real h k : fits_in (Some h) k -> Rmin (Q2R h) (Q2R k) = Q2R h.
  Proof. intros [_ H]. apply Qle_Rle in H. apply Rmin_left. exact H. Qed.

  Lemma aperture_shown (a : ad Q) lk n ms s x0 x1 b :
    (forall name ps, d_get name (s_macros s) = Some ps -> exists qs, d_get name ms = Some qs /\ ps = map real_prim qs) ->
    on_aperture md clock (real_ad a) s x0 = Ok x1 -> NoDup (c_stamps x1) -> dcode (ad_id a) n -> d_get (ad_id a) (c_buffers x1) = Some b ->
    looks ms a lk -> sound_look lk ->
    match lk with
    | Plain t => Forall2 (plain_shape (unbent lk)) (plain_figures t) (bf_cmds b)
    | Custom fs => Forall2 (shows inside clock (c_buffers x1)) fs (bf_cmds b)
    end.
  Proof.
    intros Hm E HN Hc Hb Hl Hs. unfold on_aperture in E. cbn [real_ad ad_template ad_id] in E.
    assert (Ho : MkVec n0 n0 = origin) by (unfold origin; rewrite r_n0; reflexivity). rewrite Ho in E.
    assert (Hfin : forall ds, Ok (E := exc) (set_buffer (append_draws ds (empty_buffer (ad_id a))) x0) = Ok x1 -> bf_cmds b = ds).
    { intros ds E0. injection E0 as <-. unfold set_buffer in Hb. cbn [c_buffers] in Hb. rewrite d_get_set, append_draws_id in Hb. cbn [empty_buffer bf_id] in Hb.
      rewrite str_eqb_refl in Hb. injection Hb as <-. rewrite append_draws_cmds. reflexivity. }
    destruct lk as [t|fs].
    - cbn [looks] in Hl. rewrite Hl in E. destruct t as [d h|w h0 h|w h0 h|d v r h|]; cbn [sound_look sound_template] in Hs; [| | | |contradiction]; cbn [real_template] in E.
      + destruct Hs as [H1 H2]. apply Hfin in E. rewrite E. cbn [plain_figures]. apply real_pos in H1. constructor.
        * eexists. split; [reflexivity|]. split; [reflexivity|]. split; [intros p; apply circle_outline; exact H1|intros _; apply round_robust, circle_round; exact H1].
        * apply hole_shown with (k := d); [exact H2|]. intros k ->. rewrite r_min. apply fits_real. exact H2.
      + destruct Hs as (H1 & H2 & H3 & H4). apply Hfin in E. rewrite E. cbn [plain_figures]. apply real_pos in H1, H2. constructor.
        * eexists. split; [reflexivity|]. split; [reflexivity|]. split; [intros p; apply rectangle_outline; assumption|intros _; apply straight_robust, rectangle_straight].
        * apply hole_shown with (k := w); [exact H3|]. intros k ->. rewrite !r_min, (fits_real _ _ H3). apply fits_real. exact H4.
      + destruct Hs as (H1 & H2 & H3 & H4). apply Hfin in E. rewrite E. cbn [plain_figures]. apply real_pos in H1, H2. constructor.
        * eexists. split; [reflexivity|]. split; [unfold new_obround; cbv zeta; destruct (n_leb _ _); reflexivity|]. split; [intros p; apply GeoProps.C58_obround; assumption|intros []].
        * apply hole_shown with (k := w); [exact H3|]. intros k ->. rewrite !r_min, (fits_real _ _ H3). apply fits_real. exact H4.
      + destruct Hs as (H1 & H2 & H3 & H4). cbn [plain_figures].
        set (r0 := match option_map Q2R r with Some r => if n_eqb r n0 then n0 else r | None => n0 end) in E.
        assert (Er : r0 = match r with Some r => Q2R r | None => 0 end).
        { unfold r0. destruct r as [r|]; cbn [option_map]; [|apply r_n0]. rewrite r_n0. cbn [n_eqb NumR]. unfold r_eqb. destruct (Req_EM_T (Q2R r) 0) as [e|]; [symmetry; exact e|reflexivity]. }
        rewrite Er in E. destruct (polygon_outline origin (Q2R d) v (match r with Some r => Q2R r | None => 0 end) false (meta_of md (s_ap_attrs s)) H2) as (sh & E1 & E2 & E3 & E4).
        { destruct r as [r|]; [exact H4|]. assert (Hv : 0 < IZR v) by (apply (IZR_lt 0); lia). assert (r_mod360 0 = 0) as ->.
          { unfold r_mod360. replace (0 / 360) with (IZR 0) by field. rewrite (Int_part_unique (IZR 0) 0) by lra. lra. }
          apply Rmult_lt_0_compat; [lra|]. apply Rdiv_lt_0_compat; lra. }
        rewrite E1 in E. cbn [bind] in E. apply Hfin in E. rewrite E. constructor.
        * eexists. split; [reflexivity|]. split; [exact E2|]. split; [exact E4|intros _; apply straight_robust; exact E3].
        * apply hole_shown with (k := d); [exact H3|]. intros k ->. rewrite r_min. apply fits_real. exact H3.
    - destruct Hl as (name & prims & Ht & Hg & HF). rewrite Ht in E. cbn [real_template option_map] in E.
      destruct (d_get name (s_macros s)) as [ps|] eqn:Eg; [|discriminate]. destruct (Hm _ _ Eg) as (qs & Eq & ->). rewrite Hg in Eq. injection Eq as <-.
      destruct (on_prims _ _ _ _) as [m'|] eqn:Ep; [|discriminate]. cbn [bind] in E. injection E as <-.
      pose proof (LayerProofs.on_prims_steps clock _ _ _ _ Ep) as Hst.
      assert (Hid : bf_id (ms_buf m') = ad_id a).
      { clear - Hst. remember (MkM (macro_scope None) (empty_buffer (ad_id a)) _) as m0 eqn:E0. induction Hst as [|m1 m2 _ IH [ds _ E1 _|u ds c _ E1 _]]; [subst; reflexivity|rewrite E1, append_draws_id; auto|rewrite E1; cbn [append_draw bf_id]; auto]. }
      unfold set_buffer in Hb, HN. cbn [c_buffers c_stamps] in Hb, HN. rewrite d_get_set, Hid, str_eqb_refl in Hb. injection Hb as <-.
      destruct (prims_shown inside clock (meta_of md (s_ap_attrs s)) fs prims HF Hs _ _ Ep HN) as (ds & A & B & _). cbn [ms_buf empty_buffer bf_cmds app] in A. rewrite A.
      cbn [set_buffer c_buffers]. clear - B Hc Hid. induction B as [|f d fs ds Hd _ IH]; constructor; [|exact IH]. revert Hd. 
      intros Hd. destruct Hd as [Hs|(p & u & c & -> & Hl & Hp)]; [left; exact Hs|right]. exists p, u, c. split; [reflexivity|]. split; [|exact Hp].
      unfold one_layer in *. destruct f; try contradiction. rewrite d_get_set, Hid. destruct (str_eqb (pa_src p) (ad_id a)) eqn:Ei; [|exact Hl].
      apply str_eqb_eq in Ei. destruct Hc as (l & Hc & _). rewrite Hc, Hp in Ei. discriminate Ei.
  Qed.

  (** The picture of the layer under a matrix. *)
  Lemma image_is M s s' : FlashSpec.image M s s' -> s' = shape_transform M s.
  Proof.
    destruct s as [l n m], s' as [l' n' m']. intros (E1 & E2 & HF). cbn [sh_neg sh_meta sh_segs] in *. subst n' m'. unfold shape_transform. cbn [sh_neg sh_meta sh_segs]. f_equal.
    induction HF as [|x y l l' Hx _ IH]; [reflexivity|]. cbn [map]. rewrite IH. f_equal. destruct x, y; try contradiction; cbn [FlashSpec.seg_image seg_transform] in *.
    - destruct Hx as [-> ->]. reflexivity.
    - destruct Hx as (-> & -> & -> & Hx). f_equal. destruct (n_ltb _ _); exact Hx.
  Qed.
  Definition faithful (M : mat R) (s : shape R) : Prop := forall p, outline (shape_transform M s) (v_transform M p) <-> outline s p.
  Lemma shaped_image M s g : faithful M s -> (forall p, outline s p <-> g p) ->
    forall o, o = (sh_neg s, inside (shape_transform M s)) -> shaped_at inside True (v_transform M) g (sh_neg s) o.
  Proof. intros HM Hg o ->. eexists. split; [|reflexivity]. intros _ p. etransitivity; [apply HM|apply Hg]. Qed.
  Lemma figure_shapes table M ds fs (Hs : Forall (fun d => exists s, d = DShape s) ds) : RenderSpec.figure inside table M ds fs ->
    Forall2 (fun d o => exists s, d = DShape s /\ o = (sh_neg s, inside (shape_transform M s))) ds fs.
  Proof.
    induction 1 as [|s s' ds os Hi _ IH|q b os ds os' _ _ _ _ _]; [constructor| |].
    - inversion Hs; subst. constructor; [|auto]. apply image_is in Hi. subst s'. eauto.
    - inversion Hs as [|? ? (s & E) _]. discriminate E.
  Qed.
  Lemma drawn_images M (HM : similarity M) (H0 : m00 M <> 0) ds os (P : list (bool * figure)) : Forall2 drawn ds P ->
    Forall2 (fun d o => exists s, d = DShape s /\ o = (sh_neg s, inside (shape_transform M s))) ds os ->
    Forall2 (fun f o => shaped_at inside True (v_transform M) (snd f) (fst f) o) P os.
  Proof.
    intros HF. revert os. induction HF as [|d f ds P (s & -> & Hn & Ho) _ IH]; intros os H2; inversion H2 as [|? o ? os' (s' & E & Eo) H3]; subst; constructor; [|apply IH; exact H3].
    injection E as <-. rewrite <- Hn. apply (shaped_image M s _); [|exact Ho|reflexivity]. intros p. apply GeoProps.C32_outline_partial; assumption.
  Qed.

  Lemma pad_shown M lk cmds table fs : similarity M -> unbent lk \/ m00 M <> 0 ->
    match lk with
    | Plain t => Forall2 (plain_shape (unbent lk)) (plain_figures t) cmds
    | Custom gs => Forall2 (shows inside clock table) gs cmds
    end ->
    RenderSpec.figure inside table M cmds fs -> pad_objects inside (v_transform M) lk fs.
  Proof.
    intros HM H0 Hs Hf. destruct lk as [t|gs]; cbn [pad_objects].
    - assert (Hsh : Forall (fun d => exists s, d = DShape s) cmds).
      { clear - Hs. induction Hs as [|f d fs ds (s & -> & _) _ IH]; constructor; eauto. }
      apply figure_shapes in Hf; [|exact Hsh]. clear Hsh. revert fs Hf. induction Hs as [|f d gs ds (s & -> & Hn & Ho & Hr) _ IH]; intros fs Hf;
        inversion Hf as [|? o ? os (s' & E & Eo) H3]; subst; constructor; [|apply IH; exact H3]. injection E as <-. rewrite <- Hn.
      apply (shaped_image M s _); [|exact Ho|reflexivity]. intros p. destruct H0 as [H0|H0]; [apply Hr; assumption|apply GeoProps.C32_outline_partial; assumption].
    - assert (H1 : Forall (fun f => match f with FgThermal _ _ _ _ _ => m00 M <> 0 | _ => True end) gs).
      { destruct H0 as [H0|H0].
        - cbn [unbent] in H0. clear - H0. induction H0 as [|f gs Hg _ IH]; constructor; [destruct f; try exact I; contradiction|exact IH].
        - apply Forall_forall. intros f _. destruct f; try exact I; exact H0. }
      clear H0. revert H1 Hs. intros H1 Hs. revert gs H1 Hs. induction Hf as [|s s' ds os Hi _ IH|q b os ds os' Hb Hf1 _ _ IH]; intros gs H1 Hs.
      + inversion Hs; subst. constructor.
      + inversion Hs as [|f ? gs' ? Hd Hr]; subst. inversion H1; subst. constructor; [|apply IH; assumption].
        destruct Hd as [(s0 & g & E & Ho & Hrob & Hadd)|(p & u & c & E & _)]; [|discriminate E]. injection E as <-. apply image_is in Hi. subst s'.
        apply Hadd. apply (shaped_image M s g); [|exact Ho|reflexivity]. intros p. apply Hrob. exact HM.
      + inversion Hs as [|f ? gs' ? Hd Hr]; subst. inversion H1 as [|? ? Hm Hm']; subst. constructor; [|apply IH; assumption].
        destruct Hd as [(s0 & g & E & _)|(p & u & c & E & Hl & _)]; [discriminate E|]. injection E as <-.
        destruct f as [| | | | |ce outer inner gap r]; try contradiction. destruct Hl as (buf & gs0 & len & E1 & E2 & E3 & E4 & E5 & E6).
        rewrite Hb in E1. injection E1 as <-. rewrite E2, E3.
        assert (Hsh : Forall (fun d => exists s, d = DShape s) (bf_cmds b)).
        { clear - E6. induction E6 as [|d f ds P (s & -> & _) _ IH]; constructor; eauto. }
        apply figure_shapes in Hf1; [|exact Hsh]. pose proof (drawn_images M HM Hm _ _ _ E6 Hf1) as Hall.
        apply Forall2_app_inv_l in Hall as (rs & bars & A & B & ->).
        destruct (Permutation_map_inv _ _ (Permutation_sym E5)) as (rings & -> & Hp). apply ad_thermal with (len := len) (rings := rings); [exact E4|exact Hp| |].
        * clear - A. revert rs A. induction rings as [|x l IH]; intros rs A; inversion A; subst; constructor; auto.
        * cbn [map] in B. inversion B as [|? ? ? ? B1 B2]; subst. inversion B2 as [|? ? ? ? B3 B4]; subst. inversion B4; subst. constructor; [exact B1|]. constructor; [exact B3|constructor].
  Qed.
End Aperture.

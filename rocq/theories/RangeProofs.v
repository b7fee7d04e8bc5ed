(** Boxes and the points handed to the drawing library. *)
From Coq Require Import Reals Lra Lia Psatz.
From Verif Require Import Base Num NumReal Dict Ast StateModel GeomModel BoxModel LayerProofs GeoSpec GeoProofs ShapeProofs SimilarProofs
  OutlineProofs OutlineMore ArcModel ArcProofs.
Open Scope R_scope.

Lemma ends_in_box s : in_box (seg_box s) (fst (ends s)) /\ in_box (seg_box s) (snd (ends s)).
Proof.
  destruct s as [a b|a b c cw]; cbn [ends fst snd].
  - split; apply line_in_box; [apply on_line_start|apply on_line_end].
  - cbn [seg_box]. rewrite !v_add_plus. split; apply in_b_of_vecs; intros e _.
    + exists a. split; [right; apply in_map_iff; exists (v_sub a c)|apply Rle_refl].
      split; [vring|]. unfold arc_vectors. cbv zeta. left. reflexivity.
    + exists b. split; [right; apply in_map_iff; exists (v_sub b c)|apply Rle_refl].
      split; [vring|]. unfold arc_vectors. cbv zeta. right; left. reflexivity.
Qed.
Lemma box_convex b p q x : in_box b p -> in_box b q -> on_line p q x -> in_box b x.
Proof.
  destruct b as [|x0 y0 x1 y1]; [contradiction|]. cbn [in_box]. intros A B (t & Ht & ->). cbn. split; split; nra.
Qed.
Lemma joined_in first s ss x : In x (joined first (s :: ss)) ->
  In x (s :: ss) \/ exists a b, x = SLine a b /\
    (exists y, In y (s :: ss) /\ a = snd (ends y)) /\ (b = first \/ exists y, In y (s :: ss) /\ b = fst (ends y)).
Proof.
  revert s. induction ss as [|s' ss IH]; intros s.
  - cbn [joined In]. intros [<-|[<-|[]]]; [auto|]. right. do 2 eexists. split; [reflexivity|].
    split; [exists s; auto|auto].
  - cbn [joined]. intros [<-|[<-|H]]; [left; left; reflexivity| |].
    + right. do 2 eexists. split; [reflexivity|].
      split; [exists s; cbn; auto|right; exists s'; cbn; auto].
    + destruct (IH s' H) as [Hin|(a & b & -> & (y & Hy & Ea) & Eb)].
      * left. right. exact Hin.
      * right. exists a, b. split; [reflexivity|]. split; [exists y; split; [right; exact Hy|exact Ea]|].
        destruct Eb as [Eb|(z & Hz & Eb)]; [auto|right; exists z; split; [right; exact Hz|exact Eb]].
Qed.
Lemma outline_in_box s p : (forall x, In x (sh_segs s) -> fair x /\ ~ full_ccw x) ->
  outline s p -> in_box (shape_box s) p.
Proof.
  destruct s as [ss neg m]. cbn [sh_segs]. unfold outline. cbn [sh_segs]. intros Hs.
  destruct ss as [|s0 ss]; [contradiction|]. intros (x & Hx & On). apply joined_in in Hx.
  assert (forall y, In y (s0 :: ss) -> in_box (shape_box (MkShape (s0 :: ss) neg m)) (fst (ends y)) /\
                              in_box (shape_box (MkShape (s0 :: ss) neg m)) (snd (ends y))) as E.
  { intros y Hy. destruct (ends_in_box y). split; eapply shape_in_box; eauto. }
  destruct Hx as [Hx|(a & b & -> & (y & Hy & ->) & Eb)].
  - destruct (Hs x Hx). eapply shape_in_box; [exact Hx|]. apply seg_in_box; assumption.
  - cbn [on_seg] in On. eapply box_convex; [apply (E y Hy)| |exact On].
    destruct Eb as [-> |(z & Hz & ->)]; [apply (E s0); left; reflexivity|apply (E z Hz)].
Qed.

(** *** The points of a shape *)
Lemma gen_angles_mono f : forall (up : bool) (cur stop delta : R) r,
  gen_angles f up cur stop delta = Ok r -> forall f', (f <= f')%nat -> gen_angles f' up cur stop delta = Ok r.
Proof.
  induction f as [|f IH]; intros up cur stop delta r H f' L.
  - cbn [gen_angles] in H. destruct f'; cbn [gen_angles]; destruct (if up then _ else _); try discriminate; exact H.
  - cbn [gen_angles] in H. destruct f' as [|f']; [lia|]. cbn [gen_angles].
    destruct (if up then n_ltb cur stop else n_ltb stop cur); [|exact H].
    destruct (gen_angles f up _ stop delta) as [l|] eqn:E; [|discriminate].
    rewrite (IH _ _ _ _ _ E f') by lia. exact H.
Qed.
Lemma arc_points_mono be f a b c cw r : arc_points be f a b c cw = Ok r ->
  forall f', (f <= f')%nat -> arc_points (K := R) be f' a b c cw = Ok r.
Proof.
  unfold arc_points. rewrite !arc_angles_eq. cbv zeta. intros H f' L. rewrite arc_angles_eq. cbv zeta.
  destruct (match be with Pillow _ => _ | Shapely => _ end); [discriminate|].
  destruct (gen_angles f _ _ _ _) as [l|] eqn:E; [|discriminate].
  rewrite (gen_angles_mono _ _ _ _ _ _ E f' L). exact H.
Qed.
Lemma climbs_range lim x ts T : climbs lim x ts T -> x <= T /\ forall t, In t ts -> x < t <= T.
Proof.
  revert x. induction ts as [|y ts IH]; intros x; cbn.
  - intros ->. split; [lra|contradiction].
  - intros [H C]. destruct (IH y C) as [A B]. split; [lra|]. intros t [-> |Ht]; [lra|]. specialize (B t Ht). lra.
Qed.
Lemma samples_on a b c cw lim ps p : samples a b c cw lim ps -> In p ps -> on_arc a b c cw p.
Proof.
  intros (T & ts & S & C & ->) Hp. apply in_map_iff in Hp. destruct Hp as (t & <- & Ht).
  destruct (climbs_range _ _ _ _ C) as [A B]. exists T, t. split; [exact S|]. split; [|reflexivity].
  destruct Ht as [<-|Ht]; [lra|]. specialize (B t Ht). lra.
Qed.
Lemma same_angle a b c : minus a c <> origin -> dist a c = dist b c ->
  arc_start_angle a c = arc_start_angle b c -> a = b.
Proof.
  intros Ha D E. assert (minus b c <> origin) as Hb.
  { intros X. rewrite !dist_norm, X, (proj2 (norm_0 origin) eq_refl) in D. pose proof (norm_pos _ Ha). lra. }
  rewrite <- (plus_minus a c), <- (plus_minus b c).
  rewrite (start_angle_spec a c Ha), (start_angle_spec b c Hb), E. rewrite !dist_norm in D. rewrite D. reflexivity.
Qed.
Lemma arc_points_in_box be fuel a b c cw ps p : fair (SArc a b c cw) ->
  arc_points be fuel a b c cw = Ok ps -> In p ps -> in_box (seg_box (SArc a b c cw)) p.
Proof.
  intros Hf E Hp. destruct (ends_in_box (SArc a b c cw)) as [Ba Bb]. cbn [ends fst snd] in Ba, Bb.
  destruct (Req_dec (arc_start_angle a c) (arc_start_angle b c)) as [Eq|Ne].
  - destruct be as [dpmm|].
    + rewrite arc_equal_pillow in E by exact Eq. discriminate.
    + destruct cw; [rewrite arc_equal_shapely_cw in E by exact Eq; discriminate|].
      rewrite arc_equal_shapely_ccw in E by exact Eq. apply Ok_inj in E. subst ps. destruct Hp as [<-|[]].
      destruct (Req_dec (norm (minus a c)) 0) as [Z|Z].
      * apply norm_0 in Z. apply minus_0 in Z. subst c. unfold arc_point.
        change (v_len (v_sub a a)) with (norm (minus a a)).
        replace (minus a a) with origin by vring. rewrite (proj2 (norm_0 origin) eq_refl).
        replace (v_add a _) with a; [exact Ba|]. rewrite v_add_plus. vring.
      * assert (minus a c <> origin) as Ha by (intros X; apply Z; apply norm_0; exact X).
        rewrite arc_point_spec by exact Ha. rewrite Rminus_diag_eq, turn_0, plus_minus by reflexivity. exact Ba.
  - assert (~ full_ccw (SArc a b c cw)) as Hn by (destruct cw; intros []; subst; auto).
    assert (minus a c <> origin) as Ha.
    { intros X. apply Ne. cbn [fair] in Hf. rewrite !dist_norm, X, (proj2 (norm_0 origin) eq_refl) in Hf.
      symmetry in Hf. apply norm_0 in Hf. apply minus_0 in Hf, X. congruence. }
    assert (minus b c <> origin) as Hb.
    { intros X. cbn [fair] in Hf. rewrite !dist_norm, X, (proj2 (norm_0 origin) eq_refl) in Hf.
      apply norm_0 in Hf. contradiction. }
    destruct (arc_samples be a b c cw Ha Hb Ne) as (n & core & S & F).
    pose proof (arc_points_mono _ _ _ _ _ _ _ E (Nat.max n fuel) (Nat.le_max_r _ _)) as E2.
    rewrite F in E2 by apply Nat.le_max_l. apply Ok_inj in E2. subst ps.
    assert (forall q, In q core -> in_box (seg_box (SArc a b c cw)) q) as G.
    { intros q Hq. apply seg_in_box; auto. exact (samples_on _ _ _ _ _ _ _ S Hq). }
    destruct be; [|apply G; exact Hp].
    destruct Hp as [<-|Hp]; [exact Ba|]. apply in_app_iff in Hp. destruct Hp as [Hp|[<-|[]]]; [apply G; exact Hp|exact Bb].
Qed.
Lemma append_new_in (ps : list (vec R)) p q : In q (append_new ps p) -> In q ps \/ q = p.
Proof.
  unfold append_new. destruct (last_is_not ps p); [|auto]. intros H. apply in_app_iff in H.
  destruct H as [H|[H|[]]]; auto.
Qed.
Lemma segs_points_in be fuel (P : vec R -> Prop) ss : forall ps qs,
  (forall s, In s ss -> fair s /\ forall p, in_box (seg_box s) p -> P p) ->
  (forall p, In p ps -> P p) ->
  segs_points be fuel ps ss = Ok qs -> forall p, In p qs -> P p.
Proof.
  induction ss as [|s ss IH]; intros ps qs Hs Hp E; cbn [segs_points] in E.
  - apply Ok_inj in E. subst qs. exact Hp.
  - dbind E. apply (IH a qs); auto; [intros; apply Hs; right; assumption|].
    destruct (Hs s (or_introl eq_refl)) as (Hf & HP). destruct (ends_in_box s) as [B1 B2].
    intros p Hin. destruct s as [x y|x y c cw]; cbn [seg_points ends fst snd] in *.
    + apply Ok_inj in Eb. subst a. apply in_app_iff in Hin. destruct Hin as [Hin|[<-|[]]]; [|apply HP; exact B2].
      apply append_new_in in Hin. destruct Hin as [Hin| ->]; [apply Hp; exact Hin|apply HP; exact B1].
    + dbind Eb. apply Ok_inj in Eb. subst a.
      assert (forall q, In q (append_new ps x ++ a0) -> P q) as G.
      { intros q Hq. apply in_app_iff in Hq. destruct Hq as [Hq|Hq].
        - apply append_new_in in Hq. destruct Hq as [Hq| ->]; [apply Hp; exact Hq|apply HP; exact B1].
        - apply HP. exact (arc_points_in_box _ _ _ _ _ _ _ _ Hf Eb0 Hq). }
      destruct be; [apply in_app_iff in Hin|apply append_new_in in Hin].
      * destruct Hin as [Hin|[<-|[]]]; [apply G; exact Hin|apply HP; exact B2].
      * destruct Hin as [Hin| ->]; [apply G; exact Hin|apply HP; exact B2].
Qed.
Lemma shape_points_in_box be fuel s ps p : (forall x, In x (sh_segs s) -> fair x) ->
  shape_points be fuel s = Ok ps -> In p ps -> in_box (shape_box s) p.
Proof.
  destruct s as [ss neg m]. cbn [sh_segs]. unfold shape_points. cbn [sh_segs]. intros Hs E Hp. dbind E.
  apply Ok_inj in E.
  assert (forall q, In q a -> in_box (shape_box (MkShape ss neg m)) q) as G.
  { apply (segs_points_in be fuel _ ss [] a); auto; [|contradiction].
    intros s Hin. split; [exact (Hs s Hin)|].
    intros q Hq. eapply shape_in_box; eauto. }
  apply G. subst ps. destruct be; [exact Hp|]. destruct a as [|q r]; [contradiction|].
  apply in_app_iff in Hp. destruct Hp as [Hp|[<-|[]]]; [exact Hp|left; reflexivity].
Qed.

(** *** Pixels *)
Lemma Int_part_mono x y : x <= y -> (Int_part x <= Int_part y)%Z.
Proof.
  intros H. destruct (base_Int_part x) as [A B]. apply Int_part_ge. lra.
Qed.
Lemma to_pixel_range dpmm x w : (0 <= dpmm)%Z -> 0 <= x <= w ->
  (0 <= to_pixel dpmm x <= to_pixel dpmm w)%Z.
Proof.
  intros Hd H. apply (IZR_le 0) in Hd. unfold to_pixel. cbn [n_trunc n_mul NumR]. rewrite r_of_Z.
  assert (0 <= x * IZR dpmm <= w * IZR dpmm) as L by nra. unfold r_trunc.
  destruct (Rle_dec 0 (x * IZR dpmm)); [|lra]. destruct (Rle_dec 0 (w * IZR dpmm)); [|lra].
  split; [apply Int_part_ge; cbn; lra|apply Int_part_mono; lra].
Qed.
Lemma pixels_range dpmm x0 y0 x1 y1 ps q : (0 <= dpmm)%Z ->
  (forall p, In p ps -> in_box (BoxOf x0 y0 x1 y1) p) -> In q (polygon_pixels dpmm x0 y0 x1 y1 ps) ->
  (0 <= fst q <= fst (image_size dpmm x0 y0 x1 y1))%Z /\ (0 <= snd q <= snd (image_size dpmm x0 y0 x1 y1))%Z.
Proof.
  intros Hd Hin Hq. unfold polygon_pixels in Hq. cbv zeta in Hq. apply in_map_iff in Hq.
  destruct Hq as (p & <- & Hp). apply Hin in Hp. cbn [in_box] in Hp.
  unfold image_size. cbn [fst snd]. rewrite !half_n2. cbn [n_add n_sub n_abs NumR].
  rewrite !(Rabs_right (_ - _)) by lra.
  split; apply to_pixel_range; auto; lra.
Qed.

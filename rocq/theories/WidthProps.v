(** C65: how wide strokes drawn with the standard apertures are, over the reals. *)
From Coq Require Import Reals Lra Permutation.
From Verif Require Import Base Num NumReal Ast StateModel GeomModel CompilerModel GeoSpec RenderSpec RenderProofs.
Import ListNotations.
Local Open Scope R_scope.

Theorem C65_width :
  forall (e : vec R) (s : state R) (a : ad R) (th : R),
    current_aperture s = Ok (ApAD a) -> line_thickness e s = Ok th ->
    wide e a th /\
    match ad_template a with
    | TRect w h _ | TObround w h _ => Rmin (Rabs w) (Rabs h) <= th <= Rmax (Rabs w) (Rabs h)
    | _ => True
    end.
Proof.
  intros e s a th Ha E. pose proof (thick_wide e a th (ex_intro _ s (conj E Ha))) as Hw. split; [exact Hw|]. unfold wide in Hw.
  assert (H : forall w h, 0 <= th /\ th * th * (vx e * vx e + vy e * vy e) = w * vx e * (w * vx e) + h * vy e * (h * vy e) /\ (e = MkVec 0 0 -> th = Rabs w) ->
    Rmin (Rabs w) (Rabs h) <= th <= Rmax (Rabs w) (Rabs h)).
  { clear. intros w h (H0 & H1 & H2). destruct e as [x y]. cbn [vx vy] in *.
    assert (Hz : (x = 0 /\ y = 0) \/ 0 < x * x + y * y).
    { destruct (Req_dec x 0) as [->|Hx]; [destruct (Req_dec y 0) as [->|Hy]; [auto|right; nra]|right; nra]. }
    destruct Hz as [[-> ->]|Hq]; [rewrite (H2 eq_refl); split; [apply Rmin_l|apply Rmax_l]|].
    assert (Ew : w * w = Rabs w * Rabs w) by (rewrite <- Rabs_mult; rewrite Rabs_pos_eq; nra).
    assert (Eh : h * h = Rabs h * Rabs h) by (rewrite <- Rabs_mult; rewrite Rabs_pos_eq; nra).
    pose proof (Rabs_pos w) as Pw. pose proof (Rabs_pos h) as Ph. set (u := Rabs w) in *. set (v := Rabs h) in *.
    assert (E : th * th * (x * x + y * y) = u * u * (x * x) + v * v * (y * y)) by (rewrite <- Ew, <- Eh, H1; ring).
    pose proof (Rle_0_sqr x) as X0. pose proof (Rle_0_sqr y) as Y0. unfold Rsqr in X0, Y0. set (X := x * x) in *. set (Y := y * y) in *.
    assert (G : forall p q, 0 <= p -> 0 <= q -> p * p * (X + Y) <= q * q * (X + Y) -> p <= q).
    { intros p q Pp Pq Hle. apply Rmult_le_reg_r in Hle; [|exact Hq]. nra. }
    split.
    - apply G; [unfold Rmin; destruct (Rle_dec u v); assumption|exact H0|]. rewrite E. unfold Rmin. destruct (Rle_dec u v) as [L|L].
      + assert (u * u <= v * v) by nra. nra.
      + assert (v * v <= u * u) by nra. nra.
    - apply G; [exact H0|unfold Rmax; destruct (Rle_dec u v); assumption|]. rewrite E. unfold Rmax. destruct (Rle_dec u v) as [L|L].
      + assert (u * u <= v * v) by nra. nra.
      + assert (v * v <= u * u) by nra. nra. }
  destruct (ad_template a); try exact I; apply H; exact Hw.
Qed.
(** The extent of a rectangle across the direction [d]. *)
Definition across (d : vec R) (w h th : R) : Prop := th * norm d = Rabs (w * vy d) + Rabs (h * vx d).
(** A horizontal stroke from the origin: as wide as the rectangle, not as high as it is. *)
Theorem C65_across_refuted :
  exists (s : state R) (w h th : R),
    current_aperture s = Ok (ApAD (MkAD (lit "D10") (TRect w h None))) /\ 0 < w /\ 0 < h /\
    start_point s = MkVec 0 0 /\ line_thickness (end_point s) s = Ok th /\
    ~ across (v_sub (end_point s) (start_point s)) w h th.
Proof.
  set (a := MkAD (lit "D10") (TRect 1 2 None)).
  exists (set_cur 0 0 (set_xyij (Some 1) (Some 0) None None
    (set_apid (Some (lit "D10")) (set_store [(lit "D10", a)] [] [] [] state_default)))), 1, 2.
  eexists. split; [reflexivity|]. split; [lra|]. split; [lra|]. split; [reflexivity|]. split; [reflexivity|].
  match goal with |- ~ across _ _ _ ?t => set (th := t) end.
  destruct (C65_width (MkVec 1 0) (set_cur 0 0 (set_xyij (Some 1) (Some 0) None None
    (set_apid (Some (lit "D10")) (set_store [(lit "D10", a)] [] [] [] state_default)))) a th eq_refl eq_refl) as [(H0 & H1 & _) _].
  cbn [vx vy] in H1.
  match goal with |- ~ across ?v _ _ _ => change v with (MkVec (1 - 0) (0 - 0)) end.
  clearbody th. unfold across, norm. cbn [vx vy].
  replace (sqrt _) with 1 by (symmetry; etransitivity; [|exact sqrt_1]; f_equal; ring).
  rewrite !Rabs_pos_eq by lra. intros H. nra.
Qed.
(** A square keeps its width whatever the direction. *)
Example C65_case : forall (e : vec R) (s : state R) th,
  current_aperture s = Ok (ApAD (MkAD (lit "D10") (TRect 3 3 None))) -> line_thickness e s = Ok th -> th = 3.
Proof.
  intros e s th Ha E. destruct (C65_width e s _ th Ha E) as [_ H]. cbn [ad_template] in H.
  rewrite Rabs_pos_eq in H by lra. rewrite Rmin_left, Rmax_left in H by lra. lra.
Qed.
Print Assumptions C65_width. Print Assumptions C65_across_refuted.

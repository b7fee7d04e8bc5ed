(** C58 for the drawing methods of the builder ([builder/rvmc.py] 197-350), which draw one or
    two shapes per call. *)
From Coq Require Import Reals Lra.
From Verif Require Import Base Num NumReal Dict Ast StateModel GeomModel CompilerModel RvmcModel GeoSpec GeoProofs ExprSpec FigSpec PolyProofs PolyMore GeoProps.
Open Scope R_scope.

(** *** Specification: the figures of a call. *)
Definition good_request (r : request R) : Prop :=
  match r with
  | RCircle _ d _ => 0 < d
  | RRectangle _ w h _ | RObround _ w h _ => 0 < w /\ 0 < h
  | RPolygon _ _ n rot _ => (3 <= n)%Z /\ r_mod360 rot < 2 * (360 / IZR n)
  | RLine a b th _ => a <> b /\ 0 < th
  | RCross _ w h th _ => 0 < w /\ 0 < h /\ 0 < th
  | RX _ len th _ => len <> 0 /\ 0 < th
  end.
Definition polarity_of (r : request R) : bool :=
  match r with
  | RCircle _ _ neg | RRectangle _ _ _ neg | RObround _ _ _ neg | RPolygon _ _ _ _ neg
  | RLine _ _ _ neg | RCross _ _ _ _ neg | RX _ _ _ neg => neg
  end.
(** A cross has a horizontal and a vertical bar; an X has the diagonals of a square. *)
Definition figures (r : request R) : list (vec R -> Prop) :=
  match r with
  | RCircle c d _ => [circle_line c d]
  | RRectangle c w h _ => [rectangle_line c w h]
  | RObround c w h _ => [obround_line c w h]
  | RPolygon c d n rot _ => [ngon c d (Z.to_nat n) rot]
  | RLine a b th _ => [band_line a b th]
  | RCross c w h th _ => [rectangle_line c w th; rectangle_line c th h]
  | RX c len th _ =>
      let corner x y := plus c (times (len / 2) (MkVec x y)) in
      [band_line (corner 1 1) (corner (-1) (-1)) th; band_line (corner (-1) 1) (corner 1 (-1)) th]
  end.

Local Ltac fig L := repeat first [apply Forall2_nil | apply Forall2_cons; [split; [reflexivity|intros p; apply L]|]].
(** C58.  Every drawing method of the builder adds shapes with exactly the outlines of the
    figures, all of the requested polarity. *)
Theorem C58_builder :
  forall r, good_request r ->
    exists ss, shapes_of r = Ok ss /\
      Forall2 (fun s fig => sh_neg s = polarity_of r /\ forall p, outline s p <-> fig p) ss (figures r).
Proof.
  intros [c d neg|c w h neg|c w h neg|c d n rot neg|a b th neg|c w h th neg|c len th neg] H; cbn [good_request] in H.
  - eexists. split; [reflexivity|]. fig C58_circle; exact H.
  - eexists. split; [reflexivity|]. fig C58_rectangle; apply H.
  - eexists. split; [reflexivity|]. constructor; [|constructor]. split; [unfold new_obround; repeat match goal with |- context [if ?x then _ else _] => destruct x end; reflexivity|].
    intros p. apply C58_obround; apply H.
  - destruct (polygon_outline c d n rot neg None (proj1 H) (proj2 H)) as (s & E & Hs & _ & O). exists [s].
    cbn [shapes_of]. rewrite E. split; [reflexivity|]. constructor; [|constructor]. split; [exact Hs|exact O].
  - eexists. split; [reflexivity|]. fig C58_line; apply H.
  - eexists. split; [reflexivity|]. fig C58_rectangle; apply H.
  - assert (A : MkVec (vx c + len / 2) (vy c + len / 2) = plus c (times (len / 2) (MkVec 1 1))) by (unfold plus, times; cbn; f_equal; ring).
    assert (B : MkVec (vx c - len / 2) (vy c - len / 2) = plus c (times (len / 2) (MkVec (-1) (-1)))) by (unfold plus, times; cbn; f_equal; ring).
    assert (C : MkVec (vx c - len / 2) (vy c + len / 2) = plus c (times (len / 2) (MkVec (-1) 1))) by (unfold plus, times; cbn; f_equal; ring).
    assert (D : MkVec (vx c + len / 2) (vy c - len / 2) = plus c (times (len / 2) (MkVec 1 (-1)))) by (unfold plus, times; cbn; f_equal; ring).
    eexists. split; [reflexivity|]. cbn [n_div n_add n_sub NumR figures]. rewrite !r_n2, A, B, C, D. destruct H as [Hl Ht].
    fig C58_line; try exact Ht; intros E; apply (f_equal vx) in E; cbn in E; lra.
Qed.
(** The corner of the first bar of a cross and a point of the second one. *)
Example C58_builder_case : good_request (RCross (MkVec 1 1) 6 4 2 true) /\
  match shapes_of (RCross (MkVec 1 1) 6 4 2 true) with
  | Ok [s1; s2] => outline s1 (MkVec 4 2) /\ outline s2 (MkVec 1 3) /\ ~ outline s2 (MkVec 4 2)
  | _ => False
  end.
Proof.
  cbn [shapes_of good_request]. split; [lra|]. rewrite !C58_rectangle by lra. unfold rectangle_line. cbn.
  replace (4 - 1) with 3 by ring. replace (2 - 1) with 1 by ring. replace (1 - 1) with 0 by ring. replace (3 - 1) with 2 by ring.
  rewrite Rabs_R0, !Rabs_right by lra. lra.
Qed.
Print Assumptions C58_builder.

(** Real instance of [Num]: exact real arithmetic in place of floats.  It is used for
    geometric statements; [n_repr] (layer names) has no meaning here and is not used. *)
From Coq Require Import Reals Lra Qreals.
From Verif Require Import Base Num.
Open Scope R_scope.

Definition deg (x : R) : R := x * PI / 180.          (* math.radians *)
Definition undeg (x : R) : R := x * 180 / PI.        (* math.degrees *)

(** [math.atan2], values in (-pi, pi]. *)
Definition atan2 (y x : R) : R :=
  if Rlt_dec 0 x then atan (y / x)
  else if Rlt_dec x 0 then (if Rle_dec 0 y then atan (y / x) + PI else atan (y / x) - PI)
  else if Rlt_dec 0 y then PI / 2 else if Rlt_dec y 0 then - (PI / 2) else 0.

(** [x % 360] and [int(x)] (truncation towards zero). *)
Definition r_mod360 (x : R) : R := x - 360 * IZR (Int_part (x / 360)).
Definition r_trunc (x : R) : Z := if Rle_dec 0 x then Int_part x else (- Int_part (- x))%Z.

Definition r_eqb (a b : R) : bool := if Req_EM_T a b then true else false.
Definition r_ltb (a b : R) : bool := if Rlt_dec a b then true else false.
Definition r_leb (a b : R) : bool := if Rle_dec a b then true else false.

Global Instance NumR : Num R := {|
  n_of_Q := Q2R;
  n_add := Rplus; n_sub := Rminus; n_mul := Rmult; n_div := Rdiv; n_opp := Ropp; n_abs := Rabs;
  n_eqb := r_eqb; n_ltb := r_ltb; n_leb := r_leb;
  n_sqrt := sqrt;
  n_cosd x := cos (deg x); n_sind x := sin (deg x);
  n_atan2d y x := undeg (atan2 y x);
  n_mod360 := r_mod360; n_trunc := r_trunc; n_repr _ := []
|}.

Lemma r_eqb_eq a b : r_eqb a b = true <-> a = b.
Proof. unfold r_eqb. destruct (Req_EM_T a b); split; congruence. Qed.
Lemma r_ltb_lt a b : r_ltb a b = true <-> a < b.
Proof. unfold r_ltb. destruct (Rlt_dec a b); split; try congruence; intros; contradiction. Qed.
Lemma r_leb_le a b : r_leb a b = true <-> a <= b.
Proof. unfold r_leb. destruct (Rle_dec a b); split; try congruence; intros; contradiction. Qed.
Lemma r_eqb_neq a b : r_eqb a b = false <-> a <> b.
Proof. unfold r_eqb. destruct (Req_EM_T a b); split; congruence. Qed.
Lemma r_ltb_ge a b : r_ltb a b = false <-> b <= a.
Proof. unfold r_ltb. destruct (Rlt_dec a b); split; try congruence; lra. Qed.
Lemma r_leb_gt a b : r_leb a b = false <-> b < a.
Proof. unfold r_leb. destruct (Rle_dec a b); split; try congruence; lra. Qed.

Lemma r_n0 : n0 = 0. Proof. unfold n0. cbn. unfold Q2R; cbn. lra. Qed.
Lemma r_n1 : n1 = 1. Proof. unfold n1. cbn. unfold Q2R; cbn. lra. Qed.
Lemma r_n2 : n2 = 2. Proof. unfold n2. cbn. unfold Q2R; cbn. lra. Qed.
Lemma r_n360 : n360 = 360. Proof. unfold n360. cbn. unfold Q2R; cbn. lra. Qed.
Lemma r_of_Z z : n_of_Z z = IZR z.
Proof. unfold n_of_Z. cbn. unfold Q2R, inject_Z; cbn. rewrite Rinv_1. lra. Qed.
Lemma r_min a b : n_min a b = Rmin a b.
Proof. unfold n_min. cbn. unfold r_ltb, Rmin. destruct (Rlt_dec b a), (Rle_dec a b); lra. Qed.
Lemma r_max a b : n_max a b = Rmax a b.
Proof. unfold n_max. cbn. unfold r_ltb, Rmax. destruct (Rlt_dec a b), (Rle_dec a b); lra. Qed.

Ltac rnum := rewrite ?r_n0, ?r_n1, ?r_n2, ?r_n360, ?r_of_Z, ?r_min, ?r_max in *.
Ltac rdec :=
  repeat match goal with
  | H : r_ltb _ _ = true |- _ => apply r_ltb_lt in H
  | H : r_ltb _ _ = false |- _ => apply r_ltb_ge in H
  | H : r_leb _ _ = true |- _ => apply r_leb_le in H
  | H : r_leb _ _ = false |- _ => apply r_leb_gt in H
  | H : r_eqb _ _ = true |- _ => apply r_eqb_eq in H
  | H : r_eqb _ _ = false |- _ => apply r_eqb_neq in H
  end.

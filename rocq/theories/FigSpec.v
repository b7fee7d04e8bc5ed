(** Specification for C59: the figures the Gerber specification describes for the primitives
    of an aperture macro, as outlines with a polarity. *)
From Coq Require Import Reals Permutation.
From Verif Require Import Base Num NumReal Ast StateModel ExprSpec GeomModel CompilerModel GeoSpec.
Open Scope R_scope.

Definition figure := vec R -> Prop.
(** The figure turned by [r] degrees around the origin of the macro. *)
Definition turned (r : R) (f : figure) : figure := fun p => f (turn (- r) p).

(** A path of straight lines through the points. *)
Definition path_line (l : list (vec R)) : figure := fun p =>
  exists i a b, nth_error l i = Some a /\ nth_error l (S i) = Some b /\ on_line a b p.

(** A ring as two half rings, left to right and back. *)
Definition half_rings (c : vec R) (outer inner : R) : list figure :=
  let r := (outer + inner) / 4 in
  let e := plus c (MkVec r 0) in
  let w := plus c (MkVec (- r) 0) in
  [ring_line e w c ((outer - inner) / 2); ring_line w e c ((outer - inner) / 2)].

(** Concentric rings: at most [n], starting with diameter [outer]; a ring too small for a hole
    is a disc and ends the sequence, and so does a diameter that is used up. *)
Inductive moire_rings (c : vec R) (ring gap : R) : nat -> R -> list figure -> Prop :=
| mr_done outer : moire_rings c ring gap 0 outer []
| mr_stop n outer : outer <= 0 -> moire_rings c ring gap (S n) outer []
| mr_disc n outer : 0 < outer <= 2 * ring -> moire_rings c ring gap (S n) outer [circle_line c outer]
| mr_ring n outer fs : 2 * ring < outer ->
    moire_rings c ring gap n (outer - 2 * (ring + gap)) fs ->
    moire_rings c ring gap (S n) outer (half_rings c outer (outer - 2 * ring) ++ fs).
(** No ring has a diameter that is used up, or one between one and two thicknesses. *)
Fixpoint roomy (ring gap : R) (n : nat) (outer : R) : Prop :=
  match n with
  | O => True
  | S n' => 0 < outer <= ring \/ (2 * ring < outer /\ roomy ring gap n' (outer - 2 * (ring + gap)))
  end.

(** The cross hair of a moire. *)
Definition cross_hair (c : vec R) (thick len : R) : list figure :=
  [band_line (plus c (MkVec 0 (- (len / 2)))) (plus c (MkVec 0 (len / 2))) thick;
   band_line (plus c (MkVec (- (len / 2)) 0)) (plus c (MkVec (len / 2) 0)) thick].

(** An exposure of zero clears. *)
Inductive exposed (e : R) : bool -> Prop :=
| exposed_on : e <> 0 -> exposed e false
| exposed_off : e = 0 -> exposed e true.

Section Env.
  Variable env : str -> option R.
  Definition val (e : expr R) (k : R) : Prop := value env (meaning e) k.

  (** [documented p fs]: the figures of [p], with [true] for those that clear. *)
  Inductive documented : prim R -> list (bool * figure) -> Prop :=
  | doc_comment s : documented (PCode0 s) []
  | doc_circle e d x y e' d' x' y' off : val e e' -> val d d' -> val x x' -> val y y' -> 0 < d' ->
      exposed e' off ->
      documented (PCode1 e d x y None) [(off, circle_line (MkVec x' y') d')]
  | doc_circle_rot e d x y r e' d' x' y' r' off : val e e' -> val d d' -> val x x' -> val y y' -> val r r' ->
      0 < d' -> exposed e' off ->
      documented (PCode1 e d x y (Some r)) [(off, turned r' (circle_line (MkVec x' y') d'))]
  | doc_line (old : bool) e w x y x1 y1 r e' w' x' y' x1' y1' r' off :
      val e e' -> val w w' -> val x x' -> val y y' -> val x1 x1' -> val y1 y1' -> val r r' ->
      0 < w' -> MkVec x' y' <> MkVec x1' y1' -> exposed e' off ->
      documented (if old then PCode2 e w x y x1 y1 r else PCode20 e w x y x1 y1 r)
        [(off, turned r' (band_line (MkVec x' y') (MkVec x1' y1') w'))]
  | doc_outline e n x y pts r e' x' y' ps r' off :
      val e e' -> val x x' -> val y y' -> val r r' ->
      Forall2 (fun q v => val (fst q) (vx v) /\ val (snd q) (vy v)) pts ps ->
      exposed e' off ->
      documented (PCode4 e n x y pts r)
        [(off, turned r' (path_line (MkVec x' y' :: ps ++ [MkVec x' y'])))]
  | doc_rect e w h x y r e' w' h' x' y' r' off :
      val e e' -> val w w' -> val h h' -> val x x' -> val y y' -> val r r' -> 0 < w' -> 0 < h' ->
      exposed e' off ->
      documented (PCode21 e w h x y r) [(off, turned r' (rectangle_line (MkVec x' y') w' h'))]
  | doc_rect_ll e w h x y r e' w' h' x' y' r' off :
      val e e' -> val w w' -> val h h' -> val x x' -> val y y' -> val r r' -> 0 < w' -> 0 < h' ->
      exposed e' off ->
      documented (PCode22 e w h x y r)
        [(off, turned r' (rectangle_line (MkVec (x' + w' / 2) (y' + h' / 2)) w' h'))].

  (** The parameters of a moire, a thermal and a polygon. *)
  Definition moire (p : prim R) (c : vec R) (outer ring gap : R) (n : nat) (thick len r : R) : Prop :=
    exists x y o t g k ct cl rot, p = PCode6 x y o t g k ct cl rot /\
      val x (vx c) /\ val y (vy c) /\ val o outer /\ val t ring /\ val g gap /\ val k (INR n) /\
      val ct thick /\ val cl len /\ val rot r.
  Definition thermal (p : prim R) (c : vec R) (outer inner gap r : R) : Prop :=
    exists uid x y o i g rot, p = PCode7 uid x y o i g rot /\
      val x (vx c) /\ val y (vy c) /\ val o outer /\ val i inner /\ val g gap /\ val rot r.
  Definition polygon (p : prim R) (c : vec R) (off : bool) (n : nat) (d r : R) : Prop :=
    exists e k x y w rot e', p = PCode5 e k x y w rot /\
      val e e' /\ exposed e' off /\ val k (INR n) /\ val x (vx c) /\ val y (vy c) /\ val w d /\ val rot r.
End Env.

(** The command [d] draws the figure. *)
Definition drawn (d : draw R) (f : bool * figure) : Prop :=
  exists s, d = DShape s /\ sh_neg s = fst f /\ forall p, outline s p <-> snd f p.

(** The regular polygon with [n] corners on the circle of diameter [d], the first of them in
    the direction of [a] degrees. *)
Definition corner (c : vec R) (d a : R) : vec R := plus c (turn a (MkVec (d / 2) 0)).
Definition ngon (c : vec R) (d : R) (n : nat) (a : R) : figure :=
  path_line (map (fun k => corner c d (a + INR k * (360 / INR n))) (seq 0 (S n))).

(** A figure turned, with its polarity. *)
Definition shown_as (r : R) (neg : bool) (f : figure) : bool * figure := (neg, turned r f).
(** Visiting a primitive adds commands drawing exactly these figures to the buffer, and changes
    nothing else. *)
Definition draws (m m' : mstate (K := R)) (fs : list (bool * figure)) : Prop :=
  ms_scope m' = ms_scope m /\ ms_c m' = ms_c m /\ bf_id (ms_buf m') = bf_id (ms_buf m) /\
  exists ds gs, bf_cmds (ms_buf m') = bf_cmds (ms_buf m) ++ ds /\ Permutation fs gs /\ Forall2 drawn ds gs.

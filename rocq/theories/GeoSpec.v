(** Plane geometry over the reals, independent of the model's functions.  Angles are in
    degrees, counter-clockwise. *)
From Coq Require Import Reals.
From Verif Require Import Base Num NumReal GeomModel.
Open Scope R_scope.

Definition plus (a b : vec R) : vec R := MkVec (vx a + vx b) (vy a + vy b).
Definition minus (a b : vec R) : vec R := MkVec (vx a - vx b) (vy a - vy b).
Definition times (k : R) (a : vec R) : vec R := MkVec (k * vx a) (k * vy a).
Definition origin : vec R := MkVec 0 0.
Definition norm (a : vec R) : R := sqrt (vx a * vx a + vy a * vy a).
Definition dist (a b : vec R) : R := norm (minus a b).

(** The vector turned by [t] degrees. *)
Definition turn (t : R) (a : vec R) : vec R :=
  MkVec (cos (deg t) * vx a - sin (deg t) * vy a) (sin (deg t) * vx a + cos (deg t) * vy a).

(** Turning by [t] degrees takes the direction of [a] to the direction of [b]. *)
Definition turns (t : R) (a b : vec R) : Prop := exists k, 0 < k /\ b = times k (turn t a).

(** The matrices a program can make: the constructors and [@]. *)
Inductive built : mat R -> Prop :=
| built_translate x y : built (mtranslate x y)
| built_rotate a : built (mrotate a)
| built_reflect x y : built (mreflect x y)
| built_scale x y : built (mscale x y)
| built_mul a b : built a -> built b -> built (mmul a b).

(** Points of a straight segment and of an arc.  An arc runs from [a] in its direction until
    it meets the direction of [b] for the first time; when the directions agree it is a full
    turn. *)
Definition on_line (a b p : vec R) : Prop :=
  exists t, 0 <= t <= 1 /\ p = plus a (times t (minus b a)).
Definition signed (cw : bool) (t : R) : R := if cw then - t else t.
Definition sweep (cw : bool) (u v : vec R) (T : R) : Prop :=
  0 < T <= 360 /\ turns (signed cw T) u v.
Definition on_arc (a b c : vec R) (cw : bool) (p : vec R) : Prop :=
  exists T t, sweep cw (minus a c) (minus b c) T /\ 0 <= t <= T /\
              p = plus c (turn (signed cw t) (minus a c)).
Definition on_seg (s : seg R) (p : vec R) : Prop :=
  match s with
  | SLine a b => on_line a b p
  | SArc a b c cw => on_arc a b c cw p
  end.

(** Both ends of the arc are equally far from its centre ([Arc.is_valid_arc]). *)
Definition fair (s : seg R) : Prop :=
  match s with SLine _ _ => True | SArc a b c _ => dist a c = dist b c end.
(** The arc is a full counter-clockwise turn. *)
Definition full_ccw (s : seg R) : Prop :=
  match s with SArc a b c false => a = b /\ a <> c | _ => False end.

Definition in_box (b : box R) (p : vec R) : Prop :=
  match b with
  | BoxNone => False
  | BoxOf x0 y0 x1 y1 => x0 <= vx p <= x1 /\ y0 <= vy p <= y1
  end.

(** A chain of segments from [p] to [q]. *)
Fixpoint chain {K} (p : vec K) (ss : list (seg K)) (q : vec K) : Prop :=
  match ss with
  | [] => p = q
  | s :: r => match s with SLine a _ | SArc a _ _ _ => a = p end /\
              chain (match s with SLine _ b | SArc _ b _ _ => b end) r q
  end.
Definition closed {K} (ss : list (seg K)) : Prop := ss <> [] /\ exists p, chain p ss p.

(** Distance multiplying maps. *)
Definition similarity (m : mat R) : Prop :=
  exists s, 0 < s /\ forall u v, dist (v_transform m u) (v_transform m v) = s * dist u v.
(** Orientation of a map: twice the area of the image of the unit triangle. *)
Definition mirrors (m : mat R) : Prop :=
  let o := v_transform m origin in
  let i := minus (v_transform m (MkVec 1 0)) o in
  let j := minus (v_transform m (MkVec 0 1)) o in
  vx i * vy j - vy i * vx j < 0.

(** The values rise from [x] to [T] in steps of at most [lim]. *)
Fixpoint climbs (lim x : R) (ts : list R) (T : R) : Prop :=
  match ts with
  | [] => x = T
  | t :: r => x < t <= x + lim /\ climbs lim t r T
  end.
(** [ps] are points of the arc in the order of its sweep, from its start to its end, never
    more than [lim] degrees apart. *)
Definition samples (a b c : vec R) (cw : bool) (lim : R) (ps : list (vec R)) : Prop :=
  exists T ts, sweep cw (minus a c) (minus b c) T /\ climbs lim 0 ts T /\
    ps = map (fun t => plus c (turn (signed cw t) (minus a c))) (0 :: ts).

(** The sweep passes the direction of the positive x axis. *)
Definition crosses (cw : bool) (u : vec R) (T : R) : Prop :=
  exists t, (if cw then 0 <= t < T else 0 < t <= T) /\ turns (signed cw t) u (MkVec 1 0).
(** Length of an arc of [T] degrees, with the double nearest to pi. *)
Definition arc_length (T r : R) : R := T / 360 * (r * 2 * Q2R (884279719003555 # 281474976710656)).
(** The number of steps asked for: at least 12 and two per pixel ([dpmm] given), or
    [int(0.4 * length + 24)]. *)
Definition requested (dpmm : option Z) (len : R) (n : Z) : Prop :=
  match dpmm with
  | Some d => exists px, IZR px <= len * IZR d < IZR px + 1 /\ n = Z.max 12 (2 * px)
  | None => IZR n <= 2 / 5 * len + 24 < IZR n + 1
  end.

(** The outline of a shape: its segments, each joined to the next by a straight line, and the
    last one to the first ("shapes are implicitly closed", shape.py 26-31). *)
Definition ends (s : seg R) : vec R * vec R :=
  match s with SLine a b => (a, b) | SArc a b _ _ => (a, b) end.
Fixpoint joined (first : vec R) (ss : list (seg R)) : list (seg R) :=
  match ss with
  | [] => []
  | s :: r => s :: SLine (snd (ends s)) (match r with [] => first | s' :: _ => fst (ends s') end)
                :: joined first r
  end.
Definition outline (s : shape R) (p : vec R) : Prop :=
  match sh_segs s with
  | [] => False
  | s0 :: _ => exists x, In x (joined (fst (ends s0)) (sh_segs s)) /\ on_seg x p
  end.

(** Documented figures, as boundaries of sets of points. *)
Definition circle_line (c : vec R) (d : R) (p : vec R) : Prop := dist p c = d / 2.
Definition rectangle_line (c : vec R) (w h : R) (p : vec R) : Prop :=
  Rabs (vx p - vx c) <= w / 2 /\ Rabs (vy p - vy c) <= h / 2 /\
  (Rabs (vx p - vx c) = w / 2 \/ Rabs (vy p - vy c) = h / 2).
(** The points at distance [r] from the segment [a b]. *)
Definition capsule_line (a b : vec R) (r : R) (p : vec R) : Prop :=
  (exists q, on_line a b q /\ dist p q = r) /\ forall q, on_line a b q -> r <= dist p q.
(** An obround: a capsule along its longer side. *)
Definition obround_line (c : vec R) (w h : R) (p : vec R) : Prop :=
  if Rle_dec w h
  then capsule_line (MkVec (vx c) (vy c - (h - w) / 2)) (MkVec (vx c) (vy c + (h - w) / 2)) (w / 2) p
  else capsule_line (MkVec (vx c - (w - h) / 2) (vy c)) (MkVec (vx c + (w - h) / 2) (vy c)) (h / 2) p.
(** The rectangle around the segment [a b] with the given width: coordinates along and across
    the segment. *)
Definition band_line (a b : vec R) (width : R) (p : vec R) : Prop :=
  exists s q, 0 <= s <= dist b a /\ Rabs q <= width / 2 /\
    (s = 0 \/ s = dist b a \/ Rabs q = width / 2) /\
    p = plus a (plus (times (s / dist b a) (minus b a))
                     (times (q / dist b a) (turn 90 (minus b a)))).
(** The ring segment swept clockwise from [a] to [b] around [c]: [k] is the distance from [c]
    relative to that of [a]. *)
Definition ring_line (a b c : vec R) (width : R) (p : vec R) : Prop :=
  exists T t k, sweep true (minus a c) (minus b c) T /\ 0 <= t <= T /\
    Rabs (k * dist a c - dist a c) <= width / 2 /\
    (t = 0 \/ t = T \/ Rabs (k * dist a c - dist a c) = width / 2) /\
    p = plus c (times k (turn (- t) (minus a c))).

(** Specification vocabulary for C86: pixels and the points they stand for. *)
From Coq Require Import Reals.
From Verif Require Import Base Num NumReal Ast GeomModel CompilerModel VmModel ArcModel PaintModel GeoSpec.
Open Scope R_scope.

(** [q] is at most [k] pixels away from [p], to the sides and up and down. *)
Definition close (dpmm : Z) (k : R) (p q : vec R) : Prop :=
  Rabs (vx p - vx q) * IZR dpmm <= k /\ Rabs (vy p - vy q) * IZR dpmm <= k.
(** The point at the corner of a pixel; rows are counted from below. *)
Definition point_of (dpmm : Z) (b : box R) (xy : Z * Z) : vec R :=
  match b with
  | BoxNone => MkVec 0 0
  | BoxOf x0 y0 _ _ => MkVec (x0 + IZR (fst xy) / IZR dpmm) (y0 + IZR (snd xy) / IZR dpmm)
  end.

(** *** Filling polygons
    Filled polygons lie between their corners. *)
Definition spanned (fillR : list (vec R) -> vec R -> Prop) : Prop :=
  forall pts p, fillR pts p -> forall b, (forall q, In q pts -> in_box b q) -> in_box b p.
(** Filling pixels agrees with filling the polygon wherever the edge is more than [r] pixels away: pixels with
    everything around them inside of the polygon are filled, and pixels with nothing around them are not. *)
Definition rasterizes (dpmm : Z) (r : R) (fill : list (Z * Z) -> bitmap) (fillR : list (vec R) -> vec R -> Prop) : Prop :=
  forall x0 y0 x1 y1 pts xy, (forall q, In q pts -> in_box (BoxOf x0 y0 x1 y1) q) ->
    let at_ := point_of dpmm (BoxOf x0 y0 x1 y1) xy in
    ((forall q, close dpmm r at_ q -> fillR pts q) -> fill (polygon_pixels dpmm x0 y0 x1 y1 pts) xy = true) /\
    ((forall q, close dpmm r at_ q -> ~ fillR pts q) -> fill (polygon_pixels dpmm x0 y0 x1 y1 pts) xy = false).
(** The inside of the polygon a backend makes of a shape. *)
Definition filled_in (be : ArcModel.backend) (fuel : nat) (fillR : list (vec R) -> vec R -> Prop) (s : shape R) (p : vec R) : Prop :=
  exists pts, shape_points be fuel s = Ok pts /\ fillR pts p.

(** *** Layers
    Where the shapes of pasted layers come to lie: [placed id p s q] says that at the point [p] of layer [id] one
    sees the point [q] of the shape [s], if it is there. *)
Inductive placed (ls : list (str * list (draw R))) : str -> vec R -> shape R -> vec R -> Prop :=
| placed_here id ds s p : In (id, ds) ls -> In (DShape s) ds -> placed ls id p s p
| placed_paste id ds q p s p' : In (id, ds) ls -> In (DPaste q) ds ->
    placed ls (pa_src q) (MkVec (vx p - vx (pa_center q)) (vy p - vy (pa_center q))) s p' -> placed ls id p s p'.
(** No edge is within [k] pixels of the point [p] of a layer. *)
Definition off_edges (dpmm : Z) (inside : shape R -> vec R -> Prop) (k : R) (ls : list (str * list (draw R))) (id : str) (p : vec R) : Prop :=
  forall s p', placed ls id p s p' ->
    (forall q, close dpmm k p' q -> inside s q) \/ (forall q, close dpmm k p' q -> ~ inside s q).
(** How deep layers are pasted into each other. *)
Definition ranks (ls : list (str * list (draw R))) (rank : str -> nat) : Prop :=
  forall id ds q, In (id, ds) ls -> In (DPaste q) ds -> (rank (pa_src q) < rank id)%nat.
Definition all_fair (ls : list (str * list (draw R))) : Prop :=
  forall id ds s g, In (id, ds) ls -> In (DShape s) ds -> In g (sh_segs s) -> fair g.

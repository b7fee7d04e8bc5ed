(** Specification vocabulary for C61 and C62: the image a command stream stands for, and
    where pixels belong. *)
From Coq Require Import Reals.
From Verif Require Import Base Num Dict Ast StateModel GeomModel CompilerModel VmModel VmSpec.

(** Light and dark: a point is dark when a dark object covers it that no later clear object
    takes away. *)
Definition is_clear {K} (d : draw K) : bool := match d with DShape s => sh_neg s | DPaste p => pa_neg p end.
Definition dark {K P : Type} (covers : draw K -> P -> Prop) (ds : list (draw K)) (p : P) : Prop :=
  exists before d after, ds = before ++ d :: after /\ is_clear d = false /\ covers d p /\
    Forall (fun e => is_clear e = true -> ~ covers e p) after.

(** Images: a set of points for every layer of the stream.  [covers shows id d p]: the drawing
    [d] on layer [id] covers [p], if the layers look like [shows].  [image] says that [shows]
    is right for the layers [ids]. *)
Definition image {K P : Type} (covers : (str -> P -> Prop) -> str -> draw K -> P -> Prop) (ids : str -> Prop)
  (cs : list (cmd K)) (shows : str -> P -> Prop) : Prop :=
  forall id, ids id -> forall p, shows id p <-> dark (covers shows id) (given [] id cs) p.

(** The layers a run has painted. *)
Definition painted {K} (m : vm K) (id : str) : Prop := exists b o l, d_get id (vm_layers m) = Some (LEager b o l).

(** The origin given when a layer is started. *)
Definition origin_of {K} (z : vec K) (cs : list (cmd K)) (id : str) : vec K :=
  fold_right (fun c r => match c with KStart j _ o => if str_eqb j id then o else r | _ => r end) z cs.

Open Scope R_scope.
Definition plus_v (p v : vec R) : vec R := MkVec (vx p + vx v) (vy p + vy v).
Definition less_v (p v : vec R) : vec R := MkVec (vx p - vx v) (vy p - vy v).
(** In the plane: a shape covers its inside; a pasted layer is shifted so that its origin
    comes to the given place. *)
Definition plane_covers (inside : shape R -> vec R -> Prop) (origin : str -> vec R)
  (shows : str -> vec R -> Prop) (_ : str) (d : draw R) (p : vec R) : Prop :=
  match d with
  | DShape s => inside s p
  | DPaste q => shows (pa_src q) (plus_v (less_v p (pa_center q)) (origin (pa_src q)))
  end.

(** Filling polygons does not depend on where they are. *)
Definition fills_anywhere (fill : list (vec R) -> vec R -> Prop) : Prop :=
  forall ps v p, fill (map (fun q => plus_v q v) ps) p <-> fill ps (less_v p v).

(** In pixels: a shape covers the pixels of its filling, a pasted layer those of its image
    moved by [corner].  Only pixels inside of the two images count. *)
Definition inside_image (size xy : Z * Z) : Prop :=
  (0 <= fst xy < fst size)%Z /\ (0 <= snd xy < snd size)%Z.
Definition pixel_covers {K} (size : str -> Z * Z) (filled : str -> shape K -> Z * Z -> Prop) (corner : str -> paste K -> Z * Z)
  (shows : str -> Z * Z -> Prop) (id : str) (d : draw K) (xy : Z * Z) : Prop :=
  inside_image (size id) xy /\
  match d with
  | DShape s => filled id s xy
  | DPaste q => let uv := (fst xy - fst (corner id q), snd xy - snd (corner id q))%Z in
                inside_image (size (pa_src q)) uv /\ shows (pa_src q) uv
  end.


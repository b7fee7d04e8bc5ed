(** Model of [Box], [vm/types/box.py], with the infinite default coordinates as values. *)
From Verif Require Import Base Num GeomModel.

(** A coordinate: a number or one of the two infinities. *)
Inductive ext (K : Type) := MinusInf | Fin (k : K) | PlusInf.
Arguments MinusInf {K}. Arguments Fin {K}. Arguments PlusInf {K}.

(** [Box] 18-24 *)
Record ebox (K : Type) := MkBox { b_minx : ext K; b_miny : ext K; b_maxx : ext K; b_maxy : ext K }.
Arguments MkBox {K}. Arguments b_minx {K}. Arguments b_miny {K}. Arguments b_maxx {K}. Arguments b_maxy {K}.

Section Box.
  Context {K : Type} {NK : Num K}.

  (** [<] and [+] with infinities; Python [min] and [max] of two values *)
  Definition e_ltb (a b : ext K) : bool :=
    match a, b with
    | Fin x, Fin y => n_ltb x y
    | MinusInf, MinusInf => false | MinusInf, _ => true
    | Fin _, PlusInf => true
    | _, _ => false
    end.
  Definition e_min (a b : ext K) : ext K := if e_ltb b a then b else a.
  Definition e_max (a b : ext K) : ext K := if e_ltb a b then b else a.
  Definition e_map (f : K -> K) (a : ext K) : ext K := match a with Fin x => Fin (f x) | _ => a end.

  Definition default_box : ebox K := MkBox PlusInf PlusInf MinusInf MinusInf.
  (** [from_vectors] 26-46, for a non-empty argument list *)
  Definition box_step (b : ebox K) (v : vec K) : ebox K :=
    MkBox (e_min (b_minx b) (Fin (vx v))) (e_min (b_miny b) (Fin (vy v)))
          (e_max (b_maxx b) (Fin (vx v))) (e_max (b_maxy b) (Fin (vy v))).
  Definition from_vectors (v : vec K) (vs : list (vec K)) : ebox K :=
    fold_left box_step vs (MkBox (Fin (vx v)) (Fin (vy v)) (Fin (vx v)) (Fin (vy v))).
  (** [from_center_width_height] 48-58 *)
  Definition from_center (c : vec K) (w h : K) : ebox K :=
    MkBox (Fin (n_sub (vx c) (n_div w n2))) (Fin (n_sub (vy c) (n_div h n2)))
          (Fin (n_add (vx c) (n_div w n2))) (Fin (n_add (vy c) (n_div h n2))).
  (** [__add__] 80-97 *)
  Definition box_join (a b : ebox K) : ebox K :=
    MkBox (e_min (b_minx a) (b_minx b)) (e_min (b_miny a) (b_miny b))
          (e_max (b_maxx a) (b_maxx b)) (e_max (b_maxy a) (b_maxy b)).
  Definition box_shift (a : ebox K) (v : vec K) : ebox K :=
    MkBox (e_map (fun k => n_add k (vx v)) (b_minx a)) (e_map (fun k => n_add k (vy v)) (b_miny a))
          (e_map (fun k => n_add k (vx v)) (b_maxx a)) (e_map (fun k => n_add k (vy v)) (b_maxy a)).
  (** [__sub__] 107-117 *)
  Definition box_unshift (a : ebox K) (v : vec K) : ebox K :=
    MkBox (e_map (fun k => n_sub k (vx v)) (b_minx a)) (e_map (fun k => n_sub k (vy v)) (b_miny a))
          (e_map (fun k => n_sub k (vx v)) (b_maxx a)) (e_map (fun k => n_sub k (vy v)) (b_maxy a)).

  (** The boxes of [GeomModel], where only the default box has infinite coordinates. *)
  Definition embed (b : box K) : ebox K :=
    match b with BoxNone => default_box | BoxOf a b c d => MkBox (Fin a) (Fin b) (Fin c) (Fin d) end.
End Box.

(** Model of the geometric value types of the rendering VM, over an arbitrary [Num K]:
    [vm/types/vector.py], [vm/types/matrix.py], [vm/types/box.py],
    [vm/commands/shape_segments/{line,arc}.py], [vm/commands/shape.py],
    [vm/commands/paste.py]. *)
From Verif Require Import Base Num Dict Ast StateModel.

(** [Vector], vector.py 17-21. *)
Record vec (K : Type) := MkVec { vx : K; vy : K }.
Arguments MkVec {K}. Arguments vx {K}. Arguments vy {K}.

(** [Matrix3x3], matrix.py 22-35: three rows of three. *)
Record mat (K : Type) := MkMat {
  m00 : K; m01 : K; m02 : K;
  m10 : K; m11 : K; m12 : K;
  m20 : K; m21 : K; m22 : K }.
Arguments MkMat {K}. Arguments m00 {K}. Arguments m01 {K}. Arguments m02 {K}.
Arguments m10 {K}. Arguments m11 {K}. Arguments m12 {K}.
Arguments m20 {K}. Arguments m21 {K}. Arguments m22 {K}.

(** [Box], box.py 18-24.  [BoxNone] is the default box (inf, inf, -inf, -inf). *)
Inductive box (K : Type) := BoxNone | BoxOf (minx miny maxx maxy : K).
Arguments BoxNone {K}. Arguments BoxOf {K}.

(** [Line] line.py 17-21, [Arc] arc.py 17-28. *)
Inductive seg (K : Type) :=
| SLine (start stop : vec K)
| SArc (start stop center : vec K) (clockwise : bool).
Arguments SLine {K}. Arguments SArc {K}.

(** Metadata attached to commands: [None] or the attributes (their JSON text in the code). *)
Definition meta := option (dict attr).

(** [Shape] shape.py 28-38, [PasteLayer] paste.py 18-23 (the layer id is a string). *)
Record shape (K : Type) := MkShape { sh_segs : list (seg K); sh_neg : bool; sh_meta : meta }.
Arguments MkShape {K}. Arguments sh_segs {K}. Arguments sh_neg {K}. Arguments sh_meta {K}.
Record paste (K : Type) := MkPaste { pa_src : str; pa_center : vec K; pa_neg : bool; pa_meta : meta }.
Arguments MkPaste {K}. Arguments pa_src {K}. Arguments pa_center {K}. Arguments pa_neg {K}. Arguments pa_meta {K}.

(** [DrawCmdT], vm.py 27. *)
Inductive draw (K : Type) := DShape (s : shape K) | DPaste (p : paste K).
Arguments DShape {K}. Arguments DPaste {K}.

Section Geom.
  Context {K : Type} {NK : Num K}.
  Local Infix "+" := n_add. Local Infix "-" := n_sub. Local Infix "*" := n_mul. Local Infix "/" := n_div.

  (** *** Vector *)
  Definition v_add (a b : vec K) : vec K := MkVec (vx a + vx b) (vy a + vy b).      (* 43-51 *)
  Definition v_sub (a b : vec K) : vec K := MkVec (vx a - vx b) (vy a - vy b).      (* 53-61 *)
  Definition v_scale (a : vec K) (k : K) : vec K := MkVec (vx a * k) (vy a * k).    (* 63-71 *)
  Definition v_divk (a : vec K) (k : K) : vec K := MkVec (vx a / k) (vy a / k).     (* 73-81 *)
  Definition v_neg (a : vec K) : vec K := MkVec (n_opp (vx a)) (n_opp (vy a)).      (* 113-115 *)
  Definition v_eqb (a b : vec K) : bool := n_eqb (vx a) (vx b) && n_eqb (vy a) (vy b). (* 83-87 *)
  (** [length] 160-162 *)
  Definition v_len (a : vec K) : K := n_sqrt ((vx a * vx a) + (vy a * vy a)).
  (** [normalized] 153-158 *)
  Definition v_norm (a : vec K) : vec K :=
    if n_eqb (vx a) n0 && n_eqb (vy a) n0 then MkVec n1 n0 else v_divk a (v_len a).
  Definition unit_x : vec K := MkVec n1 n0.
  Definition unit_y : vec K := MkVec n0 n1.
  (** [angle_between_cc] 137-151: [degrees + 360 * (degrees < 0)] *)
  Definition angle_cc (a b : vec K) : K :=
    let v0 := v_norm a in
    let v1 := v_norm b in
    let d := n_atan2d ((vx v0 * vy v1) - (vx v1 * vy v0)) ((vx v0 * vx v1) + (vy v0 * vy v1)) in
    d + (if n_ltb d n0 then n360 else n0).
  (** [angle_between] 117-135 *)
  Definition angle_between (a b : vec K) : K := n360 - angle_cc a b.

  (** *** Matrix *)
  Definition mtranslate (x y : K) : mat K := MkMat n1 n0 x n0 n1 y n0 n0 n1.        (* 37-45 *)
  Definition mrotate (a : K) : mat K :=                                             (* 47-72 *)
    let c := n_cosd a in let s := n_sind a in MkMat c (n_opp s) n0 s c n0 n0 n0 n1.
  Definition mreflect (x y : bool) : mat K :=                                       (* 74-83 *)
    MkMat (if x then n_opp n1 else n1) n0 n0 n0 (if y then n_opp n1 else n1) n0 n0 n0 n1.
  Definition mscale (x y : K) : mat K := MkMat x n0 n0 n0 y n0 n0 n0 n1.            (* 85-94 *)
  (** [__matmul__] with a matrix, 96-109: accumulation starts at 0.0 *)
  Definition dot3 (a b c x y z : K) : K := ((n0 + a * x) + b * y) + c * z.
  Definition mmul (a b : mat K) : mat K :=
    MkMat (dot3 (m00 a) (m01 a) (m02 a) (m00 b) (m10 b) (m20 b))
          (dot3 (m00 a) (m01 a) (m02 a) (m01 b) (m11 b) (m21 b))
          (dot3 (m00 a) (m01 a) (m02 a) (m02 b) (m12 b) (m22 b))
          (dot3 (m10 a) (m11 a) (m12 a) (m00 b) (m10 b) (m20 b))
          (dot3 (m10 a) (m11 a) (m12 a) (m01 b) (m11 b) (m21 b))
          (dot3 (m10 a) (m11 a) (m12 a) (m02 b) (m12 b) (m22 b))
          (dot3 (m20 a) (m21 a) (m22 a) (m00 b) (m10 b) (m20 b))
          (dot3 (m20 a) (m21 a) (m22 a) (m01 b) (m11 b) (m21 b))
          (dot3 (m20 a) (m21 a) (m22 a) (m02 b) (m12 b) (m22 b)).
  (** [__matmul__] with a vector 111-114, [Vector.transform] vector.py 164-166 *)
  Definition v_transform (m : mat K) (v : vec K) : vec K :=
    MkVec ((m00 m * vx v + m01 m * vy v) + m02 m) ((m10 m * vx v + m11 m * vy v) + m12 m).
  (** [tag] 118-121: the text of the nested tuple.  The final hexadecimal encoding, an
      injective re-spelling, is left out. *)
  Definition mtag (m : mat K) : str :=
    lit "((" ++ n_repr (m00 m) ++ lit ", " ++ n_repr (m01 m) ++ lit ", " ++ n_repr (m02 m)
    ++ lit "), (" ++ n_repr (m10 m) ++ lit ", " ++ n_repr (m11 m) ++ lit ", " ++ n_repr (m12 m)
    ++ lit "), (" ++ n_repr (m20 m) ++ lit ", " ++ n_repr (m21 m) ++ lit ", " ++ n_repr (m22 m)
    ++ lit "))".

  (** *** Box *)
  (** [__add__] with a box, 78-86 *)
  Definition b_join (a b : box K) : box K :=
    match a, b with
    | BoxNone, _ => b
    | _, BoxNone => a
    | BoxOf a1 a2 a3 a4, BoxOf b1 b2 b3 b4 =>
        BoxOf (n_min a1 b1) (n_min a2 b2) (n_max a3 b3) (n_max a4 b4)
    end.
  (** [__add__] and [__sub__] with a vector, 88-94 and 106-114 *)
  Definition b_shift (a : box K) (v : vec K) : box K :=
    match a with
    | BoxNone => BoxNone
    | BoxOf a1 a2 a3 a4 => BoxOf (a1 + vx v) (a2 + vy v) (a3 + vx v) (a4 + vy v)
    end.
  Definition b_unshift (a : box K) (v : vec K) : box K :=
    match a with
    | BoxNone => BoxNone
    | BoxOf a1 a2 a3 a4 => BoxOf (a1 - vx v) (a2 - vy v) (a3 - vx v) (a4 - vy v)
    end.
  (** [from_vectors] 26-46: at least one vector *)
  Definition b_extend (b : box K) (v : vec K) : box K :=
    match b with
    | BoxNone => BoxNone
    | BoxOf a1 a2 a3 a4 => BoxOf (n_min a1 (vx v)) (n_min a2 (vy v)) (n_max a3 (vx v)) (n_max a4 (vy v))
    end.
  Definition b_of_vecs (v : vec K) (vs : list (vec K)) : box K :=
    fold_left b_extend vs (BoxOf (vx v) (vy v) (vx v) (vy v)).
  (** [from_center_width_height] 48-58 *)
  Definition b_of_center (c : vec K) (w h : K) : box K :=
    BoxOf (vx c - w / n2) (vy c - h / n2) (vx c + w / n2) (vy c + h / n2).

  (** *** Segments *)
  Definition seg_start (s : seg K) : vec K := match s with SLine a _ => a | SArc a _ _ _ => a end.
  Definition seg_end (s : seg K) : vec K := match s with SLine _ b => b | SArc _ b _ _ => b end.
  (** [transform] line.py 32-37, arc.py 89-100 *)
  Definition seg_transform (m : mat K) (s : seg K) : seg K :=
    match s with
    | SLine a b => SLine (v_transform m a) (v_transform m b)
    | SArc a b c cw =>
        SArc (v_transform m a) (v_transform m b) (v_transform m c)
             (if n_ltb n0 (m00 m * m11 m) then cw else negb cw)
    end.
  (** [outer_box] line.py 27-30, arc.py 51-87 *)
  Definition arc_vectors (a b c : vec K) (cw : bool) : list (vec K) :=
    let rs := v_sub a c in
    let re := v_sub b c in
    let radius := v_len rs in
    let flip t := if cw then t else n360 - t in
    let total := flip (angle_between rs re) in
    let xp := flip (n_mod360 (angle_between rs unit_x)) in
    let ym := flip (n_mod360 (angle_between rs (v_neg unit_y))) in
    let xm := flip (n_mod360 (angle_between rs (v_neg unit_x))) in
    let yp := flip (n_mod360 (angle_between rs unit_y)) in
    [rs; re]
    ++ (if n_ltb xp total then [MkVec radius n0] else [])
    ++ (if n_ltb ym total then [MkVec n0 (n_opp radius)] else [])
    ++ (if n_ltb xm total then [MkVec (n_opp radius) n0] else [])
    ++ (if n_ltb yp total then [MkVec n0 radius] else []).
  Definition seg_box (s : seg K) : box K :=
    match s with
    | SLine a b => b_of_vecs a [b]
    | SArc a b c cw =>
        b_of_vecs (v_add (MkVec n0 n0) c) (map (fun v => v_add v c) (arc_vectors a b c cw))
    end.

  (** *** Shape *)
  (** [outer_box] shape.py 40-46 (a shape has at least one segment) *)
  Definition shape_box (s : shape K) : box K :=
    match sh_segs s with
    | [] => BoxNone
    | x :: r => fold_left (fun b s => b_join b (seg_box s)) r (seg_box x)
    end.
  (** [transform] 48-54 (the cached [outer_box] copied by [model_copy] is modelled in
      [CacheModel]) *)
  Definition shape_transform (m : mat K) (s : shape K) : shape K :=
    MkShape (map (seg_transform m) (sh_segs s)) (sh_neg s) (sh_meta s).

  Definition at_ (x y : K) : vec K := MkVec x y.
  (** [new_rectangle] 60-98 *)
  Definition new_rectangle (c : vec K) (w h : K) (neg : bool) (m : meta) : shape K :=
    let hh := h / n2 in let hw := w / n2 in
    let l := vx c - hw in let r := vx c + hw in let b := vy c - hh in let t := vy c + hh in
    MkShape [SLine (at_ l b) (at_ r b); SLine (at_ r b) (at_ r t);
             SLine (at_ r t) (at_ l t); SLine (at_ l t) (at_ l b)] neg m.
  (** [new_obround] 100-179 *)
  Definition new_obround (c : vec K) (w h : K) (neg : bool) (m : meta) : shape K :=
    let hh := h / n2 in let hw := w / n2 in
    if n_leb w h then
      let d := hw in
      let l := vx c - hw in let r := vx c + hw in
      let b := (vy c - hh) + d in let t := (vy c + hh) - d in
      MkShape [SArc (at_ l b) (at_ r b) (at_ (vx c) b) false; SLine (at_ r b) (at_ r t);
               SArc (at_ r t) (at_ l t) (at_ (vx c) t) false; SLine (at_ l t) (at_ l b)] neg m
    else
      let d := hh in
      let l := (vx c - hw) + d in let r := (vx c + hw) - d in
      let b := vy c - hh in let t := vy c + hh in
      MkShape [SLine (at_ l b) (at_ r b); SArc (at_ r b) (at_ r t) (at_ r (vy c)) false;
               SLine (at_ r t) (at_ l t); SArc (at_ l t) (at_ l b) (at_ l (vy c)) false] neg m.
  (** [new_circle] 181-209 *)
  Definition new_circle (c : vec K) (d : K) (neg : bool) (m : meta) : shape K :=
    let r := d / n2 in
    MkShape [SArc (at_ (vx c - r) (vy c)) (at_ (vx c + r) (vy c)) c true;
             SArc (at_ (vx c + r) (vy c)) (at_ (vx c - r) (vy c)) c true] neg m.
  (** [new_polygon] 211-251.  The [while] loop carries fuel; [None] when it runs out. *)
  Fixpoint polygon_loop (fuel : nat) (c : vec K) (rot : mat K) (step cur : K) (off : vec K)
    : option (list (seg K)) :=
    if n_ltb cur n360 then
      match fuel with
      | O => None
      | S f =>
          let off' := v_transform rot off in
          match polygon_loop f c rot step (cur + step) off' with
          | None => None
          | Some r => Some (SLine (v_add c off) (v_add c off') :: r)
          end
      end
    else Some [].
  Definition new_polygon (c : vec K) (d : K) (n : Z) (rotation : K) (neg : bool) (m : meta)
    : result exc (shape K) :=
    if (n <? 3)%Z then Err EAssertionError
    else
      let base := n_mod360 rotation in
      if negb (n_leb n0 base && n_ltb base n360) then Err EAssertionError
      else
        let step := n360 / n_of_Z n in
        let off := v_transform (mrotate base) (v_divk (v_scale unit_x d) n2) in
        match polygon_loop (S (Z.to_nat n)) c (mrotate step) step base off with
        | None => Err EOutOfFuel
        | Some segs => Ok (MkShape segs neg m)
        end.
  (** [new_line] 253-282 *)
  Definition new_line (a b : vec K) (th : K) (neg : bool) (m : meta) : shape K :=
    let par := v_norm (v_sub b a) in
    let perp := v_scale (MkVec (n_opp (vy par)) (vx par)) (th / n2) in
    MkShape [SLine (v_add a perp) (v_add b perp); SLine (v_sub b perp) (v_sub a perp)] neg m.
  (** [new_cw_arc] 284-323, [new_ccw_arc] 325-344 *)
  Definition new_cw_arc (a b c : vec K) (th : K) (neg : bool) (m : meta) : shape K :=
    let ea := v_scale (v_norm (v_sub a c)) (th / n2) in
    let eb := v_scale (v_norm (v_sub b c)) (th / n2) in
    MkShape [SArc (v_add a ea) (v_add b eb) c true; SArc (v_sub b eb) (v_sub a ea) c false] neg m.
  Definition new_ccw_arc (a b c : vec K) (th : K) (neg : bool) (m : meta) : shape K :=
    new_cw_arc b a c th neg m.
  (** [new_ring] 346-385 *)
  Definition new_ring (c : vec K) (outer inner : K) (neg : bool) (m : meta)
    : result exc (list (shape K)) :=
    let th := (outer - inner) / n2 in
    let ir := inner / n2 in
    if negb (n_ltb n0 th) then Err EAssertionError
    else if negb (n_ltb n0 ir) then Err EAssertionError
    else
      let half := th / n2 in
      let p0 := at_ ((vx c + ir) + half) (vy c) in
      let p1 := at_ ((vx c - ir) - half) (vy c) in
      Ok [new_cw_arc p0 p1 c th neg m; new_cw_arc p1 p0 c th neg m].
  (** [new_connected_points] 387-399 (at least one point) *)
  Fixpoint connect (first p : vec K) (r : list (vec K)) : list (seg K) :=
    match r with
    | [] => [SLine p first]
    | q :: r' => SLine p q :: connect first q r'
    end.
  Definition new_connected_points (p : vec K) (ps : list (vec K)) (neg : bool) (m : meta) : shape K :=
    MkShape (connect p p ps) neg m.
End Geom.

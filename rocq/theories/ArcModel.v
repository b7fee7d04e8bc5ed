(** Model of how the two rendering backends turn a shape into the corner points of a
    polygon: [on_shape_eager], [_calculate_arc_points], [_generate_arc_angles] and [_polygon]
    of [vm/pillow/vm.py] (334-464) and [on_shape_eager], [_calculate_arc_points],
    [_generate_arc_angles] of [vm/shapely/vm.py] (236-371).  What ImageDraw and shapely then
    do with the points is not modelled. *)
From Verif Require Import Base Num Dict Ast StateModel GeomModel BoxModel.

(** The backend: pillow with its resolution, or shapely with the default
    [angle_length_to_segment_count]. *)
Inductive backend := Pillow (dpmm : Z) | Shapely.

Section Arc.
  Context {K : Type} {NK : Num K}.
  Local Infix "+" := n_add. Local Infix "-" := n_sub. Local Infix "*" := n_mul. Local Infix "/" := n_div.

  (** [math.pi]: the double's exact value. *)
  Definition n_pi : K := n_of_Q (884279719003555 # 281474976710656).

  (** [to_pixel] pillow 506-508 *)
  Definition to_pixel (dpmm : Z) (x : K) : Z := n_trunc (x * n_of_Z dpmm).

  (** [angle_length_to_segment_count]: pillow 312-318 (applied to pixels), shapely 186-188 *)
  Definition segment_count (be : backend) (len : K) : Z :=
    match be with
    | Pillow dpmm => let c := (to_pixel dpmm len * 2)%Z in if (12 <? c)%Z then c else 12%Z
    | Shapely => n_trunc (n_abs len * n_of_Q (2 # 5) + n_of_Q 24)
    end.

  (** [_generate_arc_angles] pillow 431-443, shapely 359-371.  [up] selects
      [INCREASE_ANGLE] or [DECREASE_ANGLE]. *)
  Fixpoint gen_angles (fuel : nat) (up : bool) (cur stop delta : K) : result exc (list K) :=
    if (if up then n_ltb cur stop else n_ltb stop cur) then
      match fuel with
      | O => Err EOutOfFuel
      | S f => let* r := gen_angles f up (if up then cur + delta else cur - delta) stop delta in
               Ok (cur :: r)
      end
    else Ok [stop].

  (** [_calculate_arc_points] pillow 362-429, shapely 298-357.  [v_sub a c] and [v_sub b c] are
      the relative start and end points. *)
  Definition arc_start_angle (a c : vec K) : K := n_mod360 (angle_between (v_sub a c) unit_x).
  Definition arc_angles (be : backend) (fuel : nat) (a b c : vec K) (cw : bool) : result exc (list K) :=
    let s := arc_start_angle a c in
    let e := arc_start_angle b c in
    if negb (n_leb n0 s && n_leb n0 e && n_ltb s n360 && n_ltb e n360) then Err EAssertionError
    else
      let delta := n_abs (s - e) in
      let len := (delta / n360) * ((v_len (v_sub a c) * n2) * n_pi) in
      let count := segment_count be len in
      let step := delta / n_of_Z count in
      let ok := match be with Pillow _ => n_ltb n0 step | Shapely => n_leb n0 step end in
      if negb ok then Err EAssertionError
      else if n_leb s e then
        if cw then gen_angles fuel false s (e - n360) step
        else gen_angles fuel true s e step
      else
        if cw then gen_angles fuel false s e step
        else gen_angles fuel true s (e + n360) step.
  Definition arc_point (a c : vec K) (t : K) : vec K :=
    v_add c (MkVec (v_len (v_sub a c) * n_cosd t) (v_len (v_sub a c) * n_sind t)).
  Definition arc_points (be : backend) (fuel : nat) (a b c : vec K) (cw : bool)
    : result exc (list (vec K)) :=
    let* ts := arc_angles be fuel a b c cw in
    let ps := map (arc_point a c) ts in
    Ok (match be with Pillow _ => a :: ps ++ [b] | Shapely => ps end).

  (** [points[-1] != p] or no points yet *)
  Definition last_is_not (ps : list (vec K)) (p : vec K) : bool :=
    match ps with [] => true | q :: r => negb (v_eqb (last r q) p) end.
  Definition append_new (ps : list (vec K)) (p : vec K) : list (vec K) :=
    if last_is_not ps p then ps ++ [p] else ps.

  (** [on_shape_eager] pillow 334-360, shapely 236-265 *)
  Definition seg_points (be : backend) (fuel : nat) (ps : list (vec K)) (s : seg K)
    : result exc (list (vec K)) :=
    match s with
    | SLine a b => Ok (append_new ps a ++ [b])
    | SArc a b c cw =>
        let* qs := arc_points be fuel a b c cw in
        let ps := append_new ps a ++ qs in
        Ok (match be with Pillow _ => ps ++ [b] | Shapely => append_new ps b end)
    end.
  Fixpoint segs_points (be : backend) (fuel : nat) (ps : list (vec K)) (ss : list (seg K))
    : result exc (list (vec K)) :=
    match ss with
    | [] => Ok ps
    | s :: r => let* ps := seg_points be fuel ps s in segs_points be fuel ps r
    end.
  Definition shape_points (be : backend) (fuel : nat) (s : shape K) : result exc (list (vec K)) :=
    let* ps := segs_points be fuel [] (sh_segs s) in
    Ok (match be, ps with
        | Shapely, p :: _ => ps ++ [p]
        | _, _ => ps
        end).

  (** [_polygon] pillow 445-464: the pixels handed to [ImageDraw.polygon] for a layer with box
      [b], and the size of the layer's image, 273-283. *)
  Definition polygon_pixels (dpmm : Z) (x0 y0 x1 y1 : K) (ps : list (vec K)) : list (Z * Z) :=
    let x_offset := (x1 + x0) / n2 - n_abs (x1 - x0) / n2 in
    let y_offset := (y1 + y0) / n2 - n_abs (y1 - y0) / n2 in
    map (fun p => (to_pixel dpmm (vx p - x_offset), to_pixel dpmm (vy p - y_offset))) ps.
  Definition image_size (dpmm : Z) (x0 y0 x1 y1 : K) : Z * Z :=
    (to_pixel dpmm (n_abs (x1 - x0)), to_pixel dpmm (n_abs (y1 - y0))).
End Arc.

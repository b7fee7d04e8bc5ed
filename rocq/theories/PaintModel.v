(** Model of what the two backends paint on their layers: [_add_polygon],
    [on_paste_layer_eager] and [run] of [vm/shapely/vm.py] (267-296, 373-422) and [_polygon],
    [on_paste_layer_eager], [run] of [vm/pillow/vm.py] (445-530), with the points computed by
    [on_shape_eager] ([ArcModel]).  The geometry libraries are parameters: filling a polygon,
    and the bounding box test of the search tree. *)
From Coq Require Import Reals.
From Verif Require Import Base Num Dict Ast StateModel GeomModel CompilerModel BoxModel ArcModel VmModel.

(** The canvases of all layers, by layer id.  The handlers are called in the order of
    [vm_log]; the box and origin of a layer never change once it can be painted on
    ([step_keeps] in [VmInv]), so they are read from the final table of layers. *)
Section Canvas.
  Context {K C : Type} (ls : dict (vlayer K)).
  (** [put box origin own draw source]: the new canvas of the current layer; [source] is box,
      origin and canvas of the layer pasted. *)
  Variable put : box K -> vec K -> C -> draw K -> option (box K * vec K * C) -> C.
  Definition frame (id : str) : option (box K * vec K) :=
    match d_get id ls with Some (LEager b o _) => Some (b, o) | _ => None end.
  Definition source (st : str -> C) (d : draw K) : option (box K * vec K * C) :=
    match d with
    | DShape _ => None
    | DPaste p => match frame (pa_src p) with Some (b, o) => Some (b, o, st (pa_src p)) | None => None end
    end.
  Definition call (st : str -> C) (e : option str * draw K) : str -> C :=
    match fst e with
    | Some id => match frame id with
                 | Some (b, o) => fun j => if str_eqb j id then put b o (st id) (snd e) (source st (snd e)) else st j
                 | None => st
                 end
    | None => st
    end.
  Definition canvases (init : C) (log : list (option str * draw K)) : str -> C :=
    fold_left call log (fun _ => init).
End Canvas.

(** *** Shapely.  A geometry is the set of its points (boundaries are not told apart: the
    difference of two polygons is taken as that of the point sets); a layer is a list of
    geometries, [ShapelyEagerLayer.shape] 191. *)
Definition region (K : Type) := vec K -> Prop.
Section Shapely.
  Context {K : Type} {NK : Num K}.
  (** [sh.Polygon(points)...buffer(0)]; the boxes of two geometries meet ([STRtree.query]). *)
  Variable fill : list (vec K) -> region K.
  Variable meets : region K -> region K -> bool.
  Variable fuel : nat.
  Definition differ (g h : region K) : region K := fun p => g p /\ ~ h p.
  (** [sh.transform] with an offset *)
  Definition moved (off : vec K) (g : region K) : region K := fun p => g (v_sub p off).
  (** [_add_polygon] 267-296 *)
  Definition add_polygon (o : vec K) (pts : list (vec K)) (neg : bool) (own : list (region K)) : list (region K) :=
    let g := fill (map (fun p => v_add p (v_neg o)) pts) in
    if neg then map (fun h => if meets h g then differ h g else h) own else own ++ [g].
  (** [on_paste_layer_eager] 382-410.  The tree holds the geometries before the loop. *)
  Definition paste_regions (o c : vec K) (neg : bool) (src own : list (region K)) : list (region K) :=
    let src := map (moved (v_add (v_neg o) c)) src in
    if neg then map (fun h => fold_left (fun acc g => if meets h g then differ acc g else acc) src h) own
    else own ++ src.
  Definition shapely_put (_ : box K) (o : vec K) (own : list (region K)) (d : draw K)
    (src : option (box K * vec K * list (region K))) : list (region K) :=
    match d with
    | DShape s => match shape_points Shapely fuel s with Ok pts => add_polygon o pts (sh_neg s) own | Err _ => own end
    | DPaste p => match src with Some (_, _, src) => paste_regions o (pa_center p) (pa_neg p) src own | None => own end
    end.
  (** [run] 412-422: [unary_union] of the main layer *)
  Definition union (l : list (region K)) : region K := fun p => Exists (fun g => g p) l.
  Definition shapely_layers (m : vm K) : str -> list (region K) := canvases (vm_layers m) shapely_put [] (vm_log m).
  Definition shapely_result (m : vm K) : region K := union (shapely_layers m main_id).
End Shapely.

(** *** Pillow.  An image of mode "1" is a function on pixels; [in_image] tells which pixels
    exist. *)
Definition bitmap := Z * Z -> bool.
Definition in_image (size xy : Z * Z) : bool :=
  ((0 <=? fst xy) && (fst xy <? fst size) && (0 <=? snd xy) && (snd xy <? snd size))%Z.
Section Pillow.
  Context {K : Type} {NK : Num K}.
  (** The pixels [ImageDraw.polygon] fills for the given corners. *)
  Variable fill : list (Z * Z) -> bitmap.
  Variables (dpmm : Z) (fuel : nat).
  (** [PillowEagerLayer.pixel_size] 277-280.  The width of the default box is infinite and
      makes [int] raise; such layers have no pixels here. *)
  Definition layer_size (b : box K) : Z * Z :=
    match b with BoxNone => (0, 0)%Z | BoxOf x0 y0 x1 y1 => image_size dpmm x0 y0 x1 y1 end.
  Definition layer_pixels (b : box K) (pts : list (vec K)) : list (Z * Z) :=
    match b with BoxNone => [] | BoxOf x0 y0 x1 y1 => polygon_pixels dpmm x0 y0 x1 y1 pts end.
  (** [_polygon] 445-464, [get_color] 510-512 *)
  Definition draw_polygon (b : box K) (pts : list (vec K)) (neg : bool) (own : bitmap) : bitmap :=
    fun xy => if in_image (layer_size b) xy && fill (layer_pixels b pts) xy then negb neg else own xy.
  (** [Box.center] box.py 70-76, [Box.width] and [Box.height] 61-68 *)
  Definition half_width (b : box K) : K :=
    match b with BoxNone => n0 | BoxOf x0 _ x1 _ => n_div (n_abs (n_sub x1 x0)) n2 end.
  Definition half_height (b : box K) : K :=
    match b with BoxNone => n0 | BoxOf _ y0 _ y1 => n_div (n_abs (n_sub y1 y0)) n2 end.
  Definition middle (b : box K) : vec K :=
    match b with BoxNone => MkVec n0 n0 | BoxOf x0 y0 x1 y1 => MkVec (n_div (n_add x1 x0) n2) (n_div (n_add y1 y0) n2) end.
  (** The corner handed to [Image.paste], 480-502 *)
  Definition paste_corner (b sb : box K) (so c : vec K) : Z * Z :=
    (to_pixel dpmm (n_sub (n_sub (n_add (n_sub (vx c) (half_width sb)) (vx (middle sb))) (vx so))
                          (n_sub (vx (middle b)) (half_width b))),
     to_pixel dpmm (n_sub (n_sub (n_add (n_sub (vy c) (half_height sb)) (vy (middle sb))) (vy so))
                          (n_sub (vy (middle b)) (half_height b)))).
  (** [Image.paste(image, corner, mask)]: pixels of the mask that are set are copied *)
  Definition paste_image (size ssize corner : Z * Z) (image mask own : bitmap) : bitmap :=
    fun xy => let q := (fst xy - fst corner, snd xy - snd corner)%Z in
      if in_image size xy && in_image ssize q && mask q then image q else own xy.
  (** [on_paste_layer_eager] 466-504; [ImageOps.invert] 475-478 *)
  Definition paste_bitmap (b sb : box K) (so c : vec K) (neg : bool) (src own : bitmap) : bitmap :=
    paste_image (layer_size b) (layer_size sb) (paste_corner b sb so c)
      (if neg then fun q => negb (src q) else src) src own.
  Definition pillow_put (b : box K) (_ : vec K) (own : bitmap) (d : draw K) (src : option (box K * vec K * bitmap)) : bitmap :=
    match d with
    | DShape s => match shape_points (Pillow dpmm) fuel s with Ok pts => draw_polygon b pts (sh_neg s) own | Err _ => own end
    | DPaste p => match src with
                  | Some (sb, so, src) => paste_bitmap b sb so (pa_center p) (pa_neg p) src own
                  | None => own
                  end
    end.
  Definition pillow_layers (m : vm K) : str -> bitmap := canvases (vm_layers m) pillow_put (fun _ => false) (vm_log m).
  (** [run] 514-530: size and pixels of the result ([FLIP_TOP_BOTTOM]); without main layer an
      image of one clear pixel *)
  Definition pillow_result (m : vm K) : (Z * Z) * bitmap :=
    match frame (vm_layers m) main_id with
    | None => ((1, 1)%Z, fun _ => false)
    | Some (b, _) => (layer_size b, fun xy => pillow_layers m main_id (fst xy, (snd (layer_size b) - 1 - snd xy)%Z))
    end.
End Pillow.

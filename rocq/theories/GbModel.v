(** Model of [builder/gerber.py]: [GerberX3Builder], [PadCreator], [Pad], [CustomPadCreator],
    [RegionCreator] and the draws.

    Floats are exact rationals.  A client is a list of method calls; the object returned by
    the [n]-th call is referred to as [n].
    Left out: the [attributes] lists of draws, which no method fills (they stay empty), and
    pydantic validation of the arguments. *)
From Verif Require Import Base Num Dict CoordModel Ast StateModel.

Notation loc := (Q * Q)%type.

(** Exceptions: packing a coordinate, [InvalidRegionOutlineError] 1755, [NotAPadError] 1741,
    [RuntimeError] 998, [AssertionError] 1266, [NotImplementedError] 418, [TypeError] (a
    [PadDraw] used as a pair), and [GNoObject] for names of objects that do not exist or do
    not have the method, impossible in typed Python. *)
Inductive gb_error := GCoord (e : coord_error) | GInvalidRegion | GNotAPad | GFinalized
| GAssertion | GNotImplemented | GTypeError | GNoObject.
Notation res := (result gb_error).

(** Argument of type [Loc2D | PadDraw | TraceDraw]. *)
Inductive place := At (p : loc) | Of (n : nat).

(** Primitives of custom pads, methods 1000-1459.  [on]: [add_...] or [cut_...]. *)
Inductive figure :=
| FgCircle (on : bool) (diameter : Q) (center : loc) (rotation : Q)
| FgVectorLine (on : bool) (width : Q) (start end_ : loc) (rotation : Q)
| FgCenterLine (on : bool) (width height : Q) (center : loc) (rotation : Q)
| FgOutline (on : bool) (points : list loc) (rotation : Q)
| FgPolygon (on : bool) (vertices : Z) (center : loc) (diameter rotation : Q)
| FgThermal (center : loc) (outer inner gap rotation : Q).

Inductive segment := SgLine (to : loc) | SgCw (to center : loc) | SgCcw (to center : loc).

Inductive bcall :=
| NewCircle (diameter : Q) (hole : option Q)
| NewRectangle (width height : Q) (hole : option Q)
| NewRounded (width height : Q) (hole : option Q)
| NewPolygon (outer : Q) (vertices : Z) (rotation : Q) (hole : option Q)
| NewCustom
| AddFigure (custom : nat) (f : figure)
| CreateCustom (custom : nat)
| SetFunction (pad : nat) (value : str)
| SetDrill (pad : nat) (plus minus : Q)
| SetCustom (pad : nat) (name : str) (values : list str)
| AddPad (pad : nat) (at_ : place) (cut : bool) (rotation : Q) (mirror_x mirror_y : bool) (scale : Q)
| AddLine (width : Q) (begin end_ : place)
| AddArc (clockwise : bool) (width : Q) (begin end_ : place) (center : loc)
| NewRegion (begin : loc)
| AddSegment (region : nat) (s : segment)
| CreateRegion (region : nat).

(** [Pad] 862-873 *)
Record pad := MkPad { p_ad : ad Q; p_aper_function : option str; p_tolerance : option (Q * Q); p_user : list attr }.
(** The two standard attributes as the state tracker keeps them (see [Ast.attr]); a float is
    represented by its numerator and denominator. *)
Definition q_text (q : Q) : str := z_repr (Qnum q) ++ lit "/" ++ z_repr (Z.pos (Qden q)).
Definition p_function (p : pad) : option attr := option_map (fun v => MkAttr (lit ".AperFunction") [v]) (p_aper_function p).
Definition p_drill (p : pad) : option attr :=
  option_map (fun t => MkAttr (lit ".DrillTolerance") [q_text (fst t); q_text (snd t)]) (p_tolerance p).
(** [CustomPadCreator] 962-965, [RegionCreator] 1487-1495; outline segments 1462-1477: arcs
    keep their begin *)
Inductive osegment := OLine (to : loc) | OCw (begin center to : loc) | OCcw (begin center to : loc).
Definition o_end (s : osegment) : loc := match s with OLine e => e | OCw _ _ e => e | OCcw _ _ e => e end.
Record region := MkRegion { r_begin : loc; r_outline : list osegment; r_previous : loc }.
(** What a call returned: the [i]-th pad of the pad creator, the present contents of a creator,
    or a draw (1653-1734) with its locations. *)
Inductive obj := ONothing | OPad (i : nat) | OCustom (primitives : list (prim Q)) (finalized : bool)
| ORegion (r : region) | OPadDraw (at_ : loc) | OTrace (begin end_ : loc) | ORegionDraw (at_ : loc).

(** Attributes of the builder 100-124 and of its pad creator 677-680. *)
Record gb := MkGb {
  g_objs : list obj;
  g_id : Z; g_macro_id : Z; g_pads : list pad; g_macros : list (str * list (prim Q));
  g_draws : list (list (node Q));
  g_loc : option loc; g_selected : option str; g_rotation : Q; g_mirroring : mirroring;
  g_scale : Q; g_polarity : polarity; g_mode : option plot_mode;
  g_trace_pads : list (Q * nat) }.
Definition gb_init : gb := MkGb [] 9 (-1) [] [] [] None None 0 MirNone 1 Dark None [].

(** Field updates. *)
Definition set_objs v g := MkGb v (g_id g) (g_macro_id g) (g_pads g) (g_macros g) (g_draws g) (g_loc g) (g_selected g) (g_rotation g) (g_mirroring g) (g_scale g) (g_polarity g) (g_mode g) (g_trace_pads g).
Definition set_pads i p g := MkGb (g_objs g) i (g_macro_id g) p (g_macros g) (g_draws g) (g_loc g) (g_selected g) (g_rotation g) (g_mirroring g) (g_scale g) (g_polarity g) (g_mode g) (g_trace_pads g).
Definition set_macros i m g := MkGb (g_objs g) (g_id g) i (g_pads g) m (g_draws g) (g_loc g) (g_selected g) (g_rotation g) (g_mirroring g) (g_scale g) (g_polarity g) (g_mode g) (g_trace_pads g).
Definition set_selected v g := MkGb (g_objs g) (g_id g) (g_macro_id g) (g_pads g) (g_macros g) (g_draws g) (g_loc g) v (g_rotation g) (g_mirroring g) (g_scale g) (g_polarity g) (g_mode g) (g_trace_pads g).
Definition set_rotation v g := MkGb (g_objs g) (g_id g) (g_macro_id g) (g_pads g) (g_macros g) (g_draws g) (g_loc g) (g_selected g) v (g_mirroring g) (g_scale g) (g_polarity g) (g_mode g) (g_trace_pads g).
Definition set_mirroring v g := MkGb (g_objs g) (g_id g) (g_macro_id g) (g_pads g) (g_macros g) (g_draws g) (g_loc g) (g_selected g) (g_rotation g) v (g_scale g) (g_polarity g) (g_mode g) (g_trace_pads g).
Definition set_scale v g := MkGb (g_objs g) (g_id g) (g_macro_id g) (g_pads g) (g_macros g) (g_draws g) (g_loc g) (g_selected g) (g_rotation g) (g_mirroring g) v (g_polarity g) (g_mode g) (g_trace_pads g).
Definition set_polarity v g := MkGb (g_objs g) (g_id g) (g_macro_id g) (g_pads g) (g_macros g) (g_draws g) (g_loc g) (g_selected g) (g_rotation g) (g_mirroring g) (g_scale g) v (g_mode g) (g_trace_pads g).
Definition set_mode v g := MkGb (g_objs g) (g_id g) (g_macro_id g) (g_pads g) (g_macros g) (g_draws g) (g_loc g) (g_selected g) (g_rotation g) (g_mirroring g) (g_scale g) (g_polarity g) v (g_trace_pads g).
Definition set_trace_pads v g := MkGb (g_objs g) (g_id g) (g_macro_id g) (g_pads g) (g_macros g) (g_draws g) (g_loc g) (g_selected g) (g_rotation g) (g_mirroring g) (g_scale g) (g_polarity g) (g_mode g) v.
(** [_add_draw] 138-140 *)
Definition add_draw (l : loc) (ns : list (node Q)) (g : gb) := MkGb (g_objs g) (g_id g) (g_macro_id g) (g_pads g) (g_macros g) (g_draws g ++ [ns]) (Some l) (g_selected g) (g_rotation g) (g_mirroring g) (g_scale g) (g_polarity g) (g_mode g) (g_trace_pads g).

(** [_pack_x] 126-136; the format is 4.6, leading zeros skipped, for both axes 104-111 *)
Definition pack1 (q : Q) : res str :=
  match pack SkipLeading 4 6 q with Ok s => Ok s | Err e => Err (GCoord e) end.
Definition pack2 (p : loc) : res (str * str) :=
  let* x := pack1 (fst p) in let* y := pack1 (snd p) in Ok (x, y).
Definition loc_eqb (a b : loc) : bool := Qeq_bool (fst a) (fst b) && Qeq_bool (snd a) (snd b).

(** [PadCreator._new_id] 682-684 and the end of [circle] etc. 695-845 *)
Definition new_pad (t : template Q) (g : gb) : nat * gb :=
  let i := (g_id g + 1)%Z in
  (length (g_pads g), set_pads i (g_pads g ++ [MkPad (MkAD (lit "D" ++ z_repr i) t) None None []]) g).

(** [Mirroring.new], [gerber/ast/nodes/enums.py] 155-165 *)
Definition mirroring_new (x y : bool) : mirroring :=
  if x && y then MirXY else if x then MirX else if y then MirY else MirNone.
Definition polarity_eqb (a b : polarity) : bool := match a, b with Clear, Clear | Dark, Dark => true | _, _ => false end.
Definition mirroring_eqb (a b : mirroring) : bool :=
  match a, b with MirNone, MirNone | MirX, MirX | MirY, MirY | MirXY, MirXY => true | _, _ => false end.
Definition mode_eqb (a b : plot_mode) : bool :=
  match a, b with PmLinear, PmLinear | PmArc, PmArc | PmCcwArc, PmCcwArc => true | _, _ => false end.
Definition mode_g (m : plot_mode) : gcode := match m with PmLinear => G01 | PmArc => G02 | PmCcwArc => G03 end.

(** [_create_state_updates] 217-267: every parameter but [plot_mode] is given by all callers. *)
Definition state_updates (ap : str) (pol : polarity) (rot : Q) (mx my : bool) (scale : Q) (mode : option plot_mode) (g : gb)
  : list (node Q) * gb :=
  let '(n1, g) := if match g_selected g with Some s => negb (str_eqb s ap) | None => true end
                  then ([NDnn ap], set_selected (Some ap) g) else ([], g) in
  let '(n2, g) := if negb (polarity_eqb pol (g_polarity g)) then ([NLP pol], set_polarity pol g) else ([], g) in
  let '(n3, g) := if negb (Qeq_bool rot (g_rotation g)) then ([NLR rot], set_rotation rot g) else ([], g) in
  let m := mirroring_new mx my in
  let '(n4, g) := if negb (mirroring_eqb m (g_mirroring g)) then ([NLM m], set_mirroring m g) else ([], g) in
  let '(n5, g) := if negb (Qeq_bool scale (g_scale g)) then ([NLS scale], set_scale scale g) else ([], g) in
  let '(n6, g) :=
    match mode with
    | Some m => if match g_mode g with Some b => negb (mode_eqb b m) | None => true end
                then ([NG (mode_g m)], set_mode (Some m) g) else ([], g)
    | None => ([], g)
    end in
  (n1 ++ n2 ++ n3 ++ n4 ++ n5 ++ n6, g).

(** [_get_trace_aperture] 432-437 *)
Fixpoint find_width (w : Q) (l : list (Q * nat)) : option nat :=
  match l with [] => None | (w', i) :: r => if Qeq_bool w w' then Some i else find_width w r end.
Definition trace_pad (w : Q) (g : gb) : nat * gb :=
  match find_width w (g_trace_pads g) with
  | Some i => (i, g)
  | None => let '(i, g) := new_pad (TCircle w None) g in (i, set_trace_pads (g_trace_pads g ++ [(w, i)]) g)
  end.
Definition pad_id (i : nat) (g : gb) : str :=
  match nth_error (g_pads g) i with Some p => ad_id (p_ad p) | None => [] end.

Definition object (n : nat) (g : gb) : obj := nth n (g_objs g) ONothing.
(** Line 198: anything else is indexed as if it were a pair *)
Definition pad_place (p : place) (g : gb) : res loc :=
  match p with
  | At l => Ok l
  | Of n => match object n g with OTrace _ e => Ok e | _ => Err GTypeError end
  end.
(** [_dispatch_begin_location] 421-430, [_dispatch_end_location] 410-419 *)
Definition begin_place (p : place) (g : gb) : res loc :=
  match p with
  | At l => Ok l
  | Of n => match object n g with OPadDraw l => Ok l | OTrace _ e => Ok e | _ => Err GNotImplemented end
  end.
Definition end_place (p : place) (g : gb) : res loc :=
  match p with
  | At l => Ok l
  | Of n => match object n g with OPadDraw l => Ok l | OTrace b _ => Ok b | _ => Err GNotImplemented end
  end.

(** Every call gives the new state and what it returns or raises: the state keeps the changes
    made before the exception. *)
Definition answer := (gb * res obj)%type.
Definition raise (g : gb) (e : gb_error) : answer := (g, Err e).

(** [add_pad] 146-211 and [add_cutout_pad] 269-336 *)
Definition add_pad n at_ (cut : bool) rot mx my scale (g : gb) : answer :=
  match object n g with
  | OPad i =>
      let '(ups, g) := state_updates (pad_id i g) (if cut then Clear else Dark) rot mx my scale None g in
      match pad_place at_ g with
      | Err e => raise g e
      | Ok l => match pack2 l with
                | Err e => raise g e
                | Ok (x, y) => (add_draw l (ups ++ [ND03 (Some x) (Some y)]) g, Ok (OPadDraw l))
                end
      end
  | _ => raise g GNotAPad
  end.

(** [add_line_trace] 338-408, [add_clockwise_arc_trace] 439-516,
    [add_counter_clockwise_arc_trace] 518-595 *)
Definition opt_pack (p : option loc) : res (option str * option str) :=
  match p with None => Ok (None, None) | Some p => let* xy := pack2 p in Ok (Some (fst xy), Some (snd xy)) end.
Definition add_trace (mode : plot_mode) (w : Q) (b e : place) (center : option loc) (g : gb) : answer :=
  let '(i, g) := trace_pad w g in
  match begin_place b g with
  | Err x => raise g x
  | Ok b =>
      match end_place e g with
      | Err x => raise g x
      | Ok e =>
          let '(ups, g) := state_updates (pad_id i g) Dark 0 false false 1 (Some mode) g in
          let move := match g_loc g with Some l => negb (loc_eqb l b) | None => true end in
          match (let* d02 := if move then (let* xy := pack2 b in Ok [ND02 (Some (fst xy)) (Some (snd xy))]) else Ok [] in
                 let* xy := pack2 e in
                 let* ij := opt_pack (match center with
                                      | Some c => Some ((fst c - fst b)%Q, (snd c - snd b)%Q) | None => None end) in
                 Ok (d02 ++ [ND01 (Some (fst xy)) (Some (snd xy)) (fst ij) (snd ij)])) with
          | Err x => raise g x
          | Ok ops => (add_draw e (ups ++ ops) g, Ok (OTrace b e))
          end
      end
  end.

(** Body of the loop in [RegionCreator.create] 1596-1640; [mode] starts as [None]. *)
Fixpoint region_ops (mode : option plot_mode) (segs : list osegment) : res (list (node Q)) :=
  match segs with
  | [] => Ok []
  | s :: r =>
      let m := match s with OLine _ => PmLinear | OCw _ _ _ => PmArc | OCcw _ _ _ => PmCcwArc end in
      let g := if match mode with Some b => mode_eqb b m | None => false end then [] else [NG (mode_g m)] in
      let* xy := pack2 (o_end s) in
      let* ij := opt_pack (match s with
                           | OLine _ => None
                           | OCw b c _ | OCcw b c _ => Some ((fst c - fst b)%Q, (snd c - snd b)%Q)
                           end) in
      let* rest := region_ops (Some m) r in
      Ok (g ++ ND01 (Some (fst xy)) (Some (snd xy)) (fst ij) (snd ij) :: rest)
  end.
(** Lines 1592-1594 *)
Definition closed_outline (r : region) : list osegment :=
  match rev (r_outline r) with
  | s :: _ => if loc_eqb (o_end s) (r_begin r) then r_outline r else r_outline r ++ [OLine (r_begin r)]
  | [] => []
  end.
Fixpoint replace {A} (l : list A) (n : nat) (a : A) : list A :=
  match l, n with [], _ => [] | _ :: r, O => a :: r | x :: r, S n => x :: replace r n a end.
Definition set_object (n : nat) (o : obj) (g : gb) : gb := set_objs (replace (g_objs g) n o) g.
(** [RegionCreator.create] 1563-1650 *)
Definition create_region (n : nat) (g : gb) : answer :=
  match object n g with
  | ORegion r =>
      if (length (r_outline r) <? 3)%nat then raise g GInvalidRegion
      else
        let '(i, g) := trace_pad 1 g in
        let '(ups, g) := state_updates (pad_id i g) Dark 0 false false 1 None g in
        match pack2 (r_begin r) with
        | Err e => raise g e
        | Ok (x, y) =>
            let segs := closed_outline r in
            let g := set_object n (ORegion (MkRegion (r_begin r) segs (r_previous r))) g in
            match region_ops None segs with
            | Err e => raise g e
            | Ok ops =>
                let d02 := ND02 (Some x) (Some y) in
                (add_draw (r_begin r) (ups ++ [NG G36; d02] ++ ops ++ [NG G37; d02]) g, Ok (ORegionDraw (r_begin r)))
            end
        end
  | _ => raise g GNoObject
  end.
(** [add_line] 1497-1513, [add_clockwise_arc] 1515-1537, [add_counterclockwise_arc] 1539-1561 *)
Definition add_segment (n : nat) (s : segment) (g : gb) : answer :=
  match object n g with
  | ORegion r =>
      let o := match s with SgLine e => OLine e | SgCw e c => OCw (r_previous r) c e | SgCcw e c => OCcw (r_previous r) c e end in
      (set_object n (ORegion (MkRegion (r_begin r) (r_outline r ++ [o]) (o_end o))) g, Ok ONothing)
  | _ => raise g GNoObject
  end.

(** [CustomPadCreator] 1000-1459: the primitive appended *)
Definition const (q : Q) : expr Q := EConst q.
Definition exposure (on : bool) : expr Q := EConst (if on then 1 else 0)%Q.
Definition prim_of (uid : Z) (f : figure) : prim Q :=
  match f with
  | FgCircle on d c r => PCode1 (exposure on) (const d) (const (fst c)) (const (snd c)) (Some (const r))
  | FgVectorLine on w s e r => PCode20 (exposure on) (const w) (const (fst s)) (const (snd s)) (const (fst e)) (const (snd e)) (const r)
  | FgCenterLine on w h c r => PCode21 (exposure on) (const w) (const h) (const (fst c)) (const (snd c)) (const r)
  | FgOutline on ps r =>
      let p := last ps (0, 0)%Q in
      PCode4 (exposure on) (const (inject_Z (Z.of_nat (length ps)))) (const (fst p)) (const (snd p))
        (map (fun p => (const (fst p), const (snd p))) ps) (const r)
  | FgPolygon on n c d r => PCode5 (exposure on) (const (inject_Z n)) (const (fst c)) (const (snd c)) (const d) (const r)
  | FgThermal c o i gap r => PCode7 uid (const (fst c)) (const (snd c)) (const o) (const i) (const gap) (const r)
  end.
(** The assertions 1266, 1319 come before [_check_finalized]. *)
Definition add_figure (n : nat) (f : figure) (g : gb) : answer :=
  match object n g with
  | OCustom ps fin =>
      if match f with FgOutline _ pts _ => (length pts <? 3)%nat | _ => false end then raise g GAssertion
      else if fin then raise g GFinalized
      else (set_object n (OCustom (ps ++ [prim_of (Z.of_nat (length (g_objs g))) f]) fin) g, Ok ONothing)
  | _ => raise g GNoObject
  end.
(** [create] 967-993 *)
Definition create_custom (n : nat) (g : gb) : answer :=
  match object n g with
  | OCustom ps fin =>
      if fin then raise g GFinalized
      else
        let m := (g_macro_id g + 1)%Z in
        let name := lit "M" ++ z_repr m in
        let g := set_macros m (g_macros g ++ [(name, ps)]) g in
        let '(i, g) := new_pad (TMacro name None) g in
        (set_object n (OCustom ps true) g, Ok (OPad i))
  | _ => raise g GNoObject
  end.
(** [set_aperture_function] 875-897, [set_drill_tolerance] 899-916, [set_custom_attribute]
    918-932 *)
Definition set_attr (n : nat) (f : pad -> pad) (g : gb) : answer :=
  match object n g with
  | OPad i => match nth_error (g_pads g) i with
              | Some p => (set_pads (g_id g) (replace (g_pads g) i (f p)) g, Ok ONothing)
              | None => raise g GNoObject
              end
  | _ => raise g GNoObject
  end.

Definition returns_pad (p : nat * gb) : answer := (snd p, Ok (OPad (fst p))).
Definition perform (c : bcall) (g : gb) : answer :=
  match c with
  | NewCircle d h => returns_pad (new_pad (TCircle d h) g)
  | NewRectangle w h hole => returns_pad (new_pad (TRect w h hole) g)
  | NewRounded w h hole => returns_pad (new_pad (TObround w h hole) g)
  | NewPolygon d n r h => returns_pad (new_pad (TPolygon d n (Some r) h) g)
  | NewCustom => (g, Ok (OCustom [] false))
  | AddFigure n f => add_figure n f g
  | CreateCustom n => create_custom n g
  | SetFunction n v => set_attr n (fun p => MkPad (p_ad p) (Some v) (p_tolerance p) (p_user p)) g
  | SetDrill n a b => set_attr n (fun p => MkPad (p_ad p) (p_aper_function p) (Some (a, b)) (p_user p)) g
  | SetCustom n k vs => set_attr n (fun p => MkPad (p_ad p) (p_aper_function p) (p_tolerance p) (p_user p ++ [MkAttr k vs])) g
  | AddPad n at_ cut rot mx my scale => add_pad n at_ cut rot mx my scale g
  | AddLine w b e => add_trace PmLinear w b e None g
  | AddArc cw w b e c => add_trace (if cw then PmArc else PmCcwArc) w b e (Some c) g
  | NewRegion b => (g, Ok (ORegion (MkRegion b [] b)))
  | AddSegment n s => add_segment n s g
  | CreateRegion n => create_region n g
  end.
(** The caller catches exceptions; every call leaves an object, [ONothing] when it raised. *)
Definition gstep (g : gb) (c : bcall) : gb :=
  let '(g', r) := perform c g in
  set_objs (g_objs g' ++ [match r with Ok o => o | Err _ => ONothing end]) g'.
Definition build (cs : list bcall) : gb := fold_left gstep cs gb_init.

(** [Pad._get_nodes] 934-952, [PadCreator._get_nodes] 690-693 *)
Definition opt_attr (a : option attr) : list (node Q) := match a with Some a => [NTA a] | None => [] end.
Definition pad_nodes (p : pad) : list (node Q) :=
  opt_attr (p_function p) ++ opt_attr (p_drill p) ++ map NTA (p_user p) ++ [NAD (p_ad p)] ++
  match p_function p, p_drill p, p_user p with None, None, [] => [] | _, _, _ => [NTD None] end.
(** [get_code] 613-633 *)
Definition get_code (g : gb) : list (node Q) :=
  [NFS (MkFS SkipLeading Absolute 4 6 4 6); NMO Metric] ++
  map (fun m => NAM (fst m) (snd m)) (g_macros g) ++ flat_map pad_nodes (g_pads g) ++
  [NG G75] ++ concat (g_draws g) ++ [NM02].

(** Model of [StateTrackingVisitor], [gerber/ast/state_tracking_visitor.py] and of the
    walking order of [AstVisitor], [gerber/ast/ast_visitor.py].

    The overridable callbacks of the class are a record [hooks X] acting on an extension
    state [X]: the base class is the instance with empty callbacks, the compiler is another
    instance ([CompilerModel]).  Python mutation becomes state passing.  An outcome is
    [Done t], [Stop t] (the [ProgramStop] exception; [t] is the state reached so far, since
    processing may continue) or [Fail e] (any other exception; these always leave [on_file],
    so the state is dropped). *)
From Verif Require Import Base Num Dict CoordModel Ast.

(** Exceptions other than [ProgramStop]. *)
Inductive exc :=
| EApertureNotSelected | EApertureNotFound (id : str) | ECoordinateFormatNotSet
| ECoordinate (e : coord_error)
| EContourBufferNotSet | EMacroNotDefined (name : str) | ECyclicDependency
| EAttributeError | EKeyError | EAssertionError | EZeroDivision | EValueError
| ENotImplemented | EOutOfFuel.

Inductive outcome (T : Type) := Done (t : T) | Stop (t : T) | Fail (e : exc).
Arguments Done {T}. Arguments Stop {T}. Arguments Fail {T}.

Definition obind {T U} (o : outcome T) (k : T -> outcome U) (stop : T -> U) : outcome U :=
  match o with Done t => k t | Stop t => Stop (stop t) | Fail e => Fail e end.

(** [PlotMode] 323-333, [ArcInterpolation] 336-343. *)
Inductive plot_mode := PmLinear | PmArc | PmCcwArc.
Inductive arc_interp := SingleQuadrant | MultiQuadrant.

(** The D01 callbacks, 591-610 and 721-742. *)
Inductive d01_handler :=
| HDrawLine | HDrawCwSq | HDrawCwMq | HDrawCcwSq | HDrawCcwMq
| HRegionLine | HRegionCwSq | HRegionCwMq | HRegionCcwSq | HRegionCcwMq.
(** The D03 callbacks, 633-649. *)
Inductive d03_handler := FCircle | FRect | FObround | FPolygon | FMacro | FBlock.

(** [_plot_mode_to_d01_handler] 464-477 and [_plot_mode_to_in_region_d01_handler] 478-491. *)
Definition d01_table (m : plot_mode) (a : arc_interp) : d01_handler :=
  match m, a with
  | PmLinear, SingleQuadrant => HDrawLine | PmLinear, MultiQuadrant => HDrawLine
  | PmArc, SingleQuadrant => HDrawCwSq | PmArc, MultiQuadrant => HDrawCwMq
  | PmCcwArc, SingleQuadrant => HDrawCcwSq | PmCcwArc, MultiQuadrant => HDrawCcwMq
  end.
Definition d01_region_table (m : plot_mode) (a : arc_interp) : d01_handler :=
  match m, a with
  | PmLinear, SingleQuadrant => HRegionLine | PmLinear, MultiQuadrant => HRegionLine
  | PmArc, SingleQuadrant => HRegionCwSq | PmArc, MultiQuadrant => HRegionCwMq
  | PmCcwArc, SingleQuadrant => HRegionCcwSq | PmCcwArc, MultiQuadrant => HRegionCcwMq
  end.

(** [CoordinateFormat] 99-126: only the fields; packing is in [CoordModel]. *)
Record cfmt := MkCF {
  cf_zeros : zeros; cf_mode : notation;
  cf_xi : nat; cf_xd : nat; cf_yi : nat; cf_yd : nat }.
Definition cfmt_default : cfmt := MkCF SkipLeading Absolute 2 6 2 6.

(** [Transform] 302-315. *)
Record transform (K : Type) := MkTr {
  tr_polarity : polarity; tr_mirroring : mirroring; tr_rotation : K; tr_scaling : K }.
Arguments MkTr {K}. Arguments tr_polarity {K}. Arguments tr_mirroring {K}.
Arguments tr_rotation {K}. Arguments tr_scaling {K}.

(** [ImageAttributes] 262-299. *)
Record image_attrs (K : Type) := MkIA {
  ia_polarity : image_polarity; ia_rotation : Z;
  ia_mirror_a : Z; ia_mirror_b : Z;
  ia_offset_a : option K; ia_offset_b : option K;
  ia_scale_a : option K; ia_scale_b : option K;
  ia_image_name : option str; ia_file_name : option str; ia_axis : axis_corr }.
Arguments MkIA {K}. Arguments ia_polarity {K}. Arguments ia_rotation {K}.
Arguments ia_mirror_a {K}. Arguments ia_mirror_b {K}. Arguments ia_offset_a {K}.
Arguments ia_offset_b {K}. Arguments ia_scale_a {K}. Arguments ia_scale_b {K}.
Arguments ia_image_name {K}. Arguments ia_file_name {K}. Arguments ia_axis {K}.

(** What [current_aperture] returns: an AD node, or an AB node (its id). *)
Inductive aperture (K : Type) := ApAD (a : ad K) | ApAB (id : str).
Arguments ApAD {K}. Arguments ApAB {K}.

(** [State] 372-424 with [ApertureStorage] 346-359 and [Attributes] 249-259 inlined.
    [blocks] maps an id to the id in the header of the stored AB node. *)
Record state (K : Type) := MkState {
  s_unit : unit_mode;
  s_cf : option cfmt;
  s_plot : plot_mode;
  s_arc : arc_interp;
  s_apid : option str;
  s_cur_x : K; s_cur_y : K;
  s_x : option K; s_y : option K; s_i : option K; s_j : option K;
  s_tr : transform K;
  s_apertures : dict (ad K);
  s_blocks : dict str;
  s_macros : dict (list (prim K));
  s_per_ap_attrs : dict (dict attr);
  s_ap_attrs : dict attr; s_file_attrs : dict attr; s_obj_attrs : dict attr;
  s_img : image_attrs K;
  s_region : bool }.
Arguments MkState {K}.
Arguments s_unit {K}. Arguments s_cf {K}. Arguments s_plot {K}. Arguments s_arc {K}.
Arguments s_apid {K}. Arguments s_cur_x {K}. Arguments s_cur_y {K}. Arguments s_x {K}.
Arguments s_y {K}. Arguments s_i {K}. Arguments s_j {K}. Arguments s_tr {K}.
Arguments s_apertures {K}. Arguments s_blocks {K}. Arguments s_macros {K}.
Arguments s_per_ap_attrs {K}. Arguments s_ap_attrs {K}. Arguments s_file_attrs {K}.
Arguments s_obj_attrs {K}. Arguments s_img {K}. Arguments s_region {K}.

Section Tracker.
  Context {K : Type} {NK : Num K}.

  (** Field updates. *)
  Definition set_unit u (s : state K) := MkState u (s_cf s) (s_plot s) (s_arc s) (s_apid s) (s_cur_x s) (s_cur_y s) (s_x s) (s_y s) (s_i s) (s_j s) (s_tr s) (s_apertures s) (s_blocks s) (s_macros s) (s_per_ap_attrs s) (s_ap_attrs s) (s_file_attrs s) (s_obj_attrs s) (s_img s) (s_region s).
  Definition set_cf c (s : state K) := MkState (s_unit s) c (s_plot s) (s_arc s) (s_apid s) (s_cur_x s) (s_cur_y s) (s_x s) (s_y s) (s_i s) (s_j s) (s_tr s) (s_apertures s) (s_blocks s) (s_macros s) (s_per_ap_attrs s) (s_ap_attrs s) (s_file_attrs s) (s_obj_attrs s) (s_img s) (s_region s).
  Definition set_plot p (s : state K) := MkState (s_unit s) (s_cf s) p (s_arc s) (s_apid s) (s_cur_x s) (s_cur_y s) (s_x s) (s_y s) (s_i s) (s_j s) (s_tr s) (s_apertures s) (s_blocks s) (s_macros s) (s_per_ap_attrs s) (s_ap_attrs s) (s_file_attrs s) (s_obj_attrs s) (s_img s) (s_region s).
  Definition set_arc a (s : state K) := MkState (s_unit s) (s_cf s) (s_plot s) a (s_apid s) (s_cur_x s) (s_cur_y s) (s_x s) (s_y s) (s_i s) (s_j s) (s_tr s) (s_apertures s) (s_blocks s) (s_macros s) (s_per_ap_attrs s) (s_ap_attrs s) (s_file_attrs s) (s_obj_attrs s) (s_img s) (s_region s).
  Definition set_apid a (s : state K) := MkState (s_unit s) (s_cf s) (s_plot s) (s_arc s) a (s_cur_x s) (s_cur_y s) (s_x s) (s_y s) (s_i s) (s_j s) (s_tr s) (s_apertures s) (s_blocks s) (s_macros s) (s_per_ap_attrs s) (s_ap_attrs s) (s_file_attrs s) (s_obj_attrs s) (s_img s) (s_region s).
  Definition set_cur x y (s : state K) := MkState (s_unit s) (s_cf s) (s_plot s) (s_arc s) (s_apid s) x y (s_x s) (s_y s) (s_i s) (s_j s) (s_tr s) (s_apertures s) (s_blocks s) (s_macros s) (s_per_ap_attrs s) (s_ap_attrs s) (s_file_attrs s) (s_obj_attrs s) (s_img s) (s_region s).
  Definition set_xyij x y i j (s : state K) := MkState (s_unit s) (s_cf s) (s_plot s) (s_arc s) (s_apid s) (s_cur_x s) (s_cur_y s) x y i j (s_tr s) (s_apertures s) (s_blocks s) (s_macros s) (s_per_ap_attrs s) (s_ap_attrs s) (s_file_attrs s) (s_obj_attrs s) (s_img s) (s_region s).
  Definition set_tr t (s : state K) := MkState (s_unit s) (s_cf s) (s_plot s) (s_arc s) (s_apid s) (s_cur_x s) (s_cur_y s) (s_x s) (s_y s) (s_i s) (s_j s) t (s_apertures s) (s_blocks s) (s_macros s) (s_per_ap_attrs s) (s_ap_attrs s) (s_file_attrs s) (s_obj_attrs s) (s_img s) (s_region s).
  Definition set_store aps bl mac per (s : state K) := MkState (s_unit s) (s_cf s) (s_plot s) (s_arc s) (s_apid s) (s_cur_x s) (s_cur_y s) (s_x s) (s_y s) (s_i s) (s_j s) (s_tr s) aps bl mac per (s_ap_attrs s) (s_file_attrs s) (s_obj_attrs s) (s_img s) (s_region s).
  Definition set_attrs a f o (s : state K) := MkState (s_unit s) (s_cf s) (s_plot s) (s_arc s) (s_apid s) (s_cur_x s) (s_cur_y s) (s_x s) (s_y s) (s_i s) (s_j s) (s_tr s) (s_apertures s) (s_blocks s) (s_macros s) (s_per_ap_attrs s) a f o (s_img s) (s_region s).
  Definition set_img i (s : state K) := MkState (s_unit s) (s_cf s) (s_plot s) (s_arc s) (s_apid s) (s_cur_x s) (s_cur_y s) (s_x s) (s_y s) (s_i s) (s_j s) (s_tr s) (s_apertures s) (s_blocks s) (s_macros s) (s_per_ap_attrs s) (s_ap_attrs s) (s_file_attrs s) (s_obj_attrs s) i (s_region s).
  Definition set_region r (s : state K) := MkState (s_unit s) (s_cf s) (s_plot s) (s_arc s) (s_apid s) (s_cur_x s) (s_cur_y s) (s_x s) (s_y s) (s_i s) (s_j s) (s_tr s) (s_apertures s) (s_blocks s) (s_macros s) (s_per_ap_attrs s) (s_ap_attrs s) (s_file_attrs s) (s_obj_attrs s) (s_img s) r.

  (** Default field values of [Transform], [ImageAttributes] and [State]. *)
  Definition tr_default : transform K := MkTr Dark MirNone n0 n1.
  Definition ia_default : image_attrs K :=
    MkIA ImgPositive 0 0 0 (Some n0) (Some n0) (Some n0) (Some n0) None None AXBY.
  Definition state_default : state K :=
    MkState Metric None PmLinear SingleQuadrant None n0 n0 None None None None
      tr_default [] [] [] [] [] [] [] ia_default false.

  (** [State.current_aperture], 426-438. *)
  Definition current_aperture (s : state K) : result exc (aperture K) :=
    match s_apid s with
    | None => Err EApertureNotSelected
    | Some id =>
        match d_get id (s_apertures s) with
        | Some a => Ok (ApAD a)
        | None =>
            match d_get id (s_blocks s) with
            | Some b => Ok (ApAB b)
            | None => Err (EApertureNotFound id)
            end
        end
    end.

  (** [ApertureStorage.get_next_free_aperture_code], 361-369.  [int(s.lstrip("D"))]: the
      ids are digit strings after the leading Ds; anything else is a ValueError. [max] of an
      empty sequence is a ValueError. *)
  Definition ap_number (id : str) : result exc Z :=
    let t := lstrip "D"%char id in
    match t with
    | [] => Err EValueError
    | _ => if forallb is_digit t then Ok (digits_value t) else Err EValueError
    end.
  Fixpoint ap_numbers (ids : list str) : result exc (list Z) :=
    match ids with
    | [] => Ok []
    | i :: r => let* n := ap_number i in let* l := ap_numbers r in Ok (n :: l)
    end.
  Definition next_free_code (s : state K) : result exc Z :=
    let* ns := ap_numbers (d_keys (s_apertures s) ++ d_keys (s_blocks s)) in
    match ns with
    | [] => Err EValueError
    | n :: r => Ok (fold_left Z.max r n + 1)%Z
    end.

  (** Properties [coordinate_x/y/i/j] and [is_negative], 499-534. *)
  Definition opt_or {A} (o : option A) (d : A) : A := match o with Some a => a | None => d end.
  Definition coordinate_x (s : state K) : K := opt_or (s_x s) (s_cur_x s).
  Definition coordinate_y (s : state K) : K := opt_or (s_y s) (s_cur_y s).
  Definition coordinate_i (s : state K) : K := opt_or (s_i s) n0.
  Definition coordinate_j (s : state K) : K := opt_or (s_j s) n0.
  Definition is_negative (s : state K) : bool :=
    match tr_polarity (s_tr s) with Clear => true | Dark => false end.

  (** The visitor object: state, cached handlers (463, 492-497) and extension.
      [v_dispatch_region] tells which of the two methods [_dispatch_d01_handler] is bound to;
      [v_d03 = None] is the initial lambda raising [ApertureNotSelectedError]. *)
  Record visitor (X : Type) := MkV {
    v_state : state K;
    v_d01 : d01_handler;
    v_d03 : option d03_handler;
    v_dispatch_region : bool;
    v_ext : X }.
  Global Arguments MkV {X}. Global Arguments v_state {X}. Global Arguments v_d01 {X}.
  Global Arguments v_d03 {X}. Global Arguments v_dispatch_region {X}. Global Arguments v_ext {X}.

  (** The overridable callbacks.  Those of the base class do nothing. *)
  Record hooks (X : Type) := MkHooks {
    hk_draw : d01_handler -> state K -> X -> result exc X;
    hk_flash : d03_handler -> aperture K -> state K -> X -> result exc X;
    hk_start_region : state K -> X -> X;
    hk_flush_region : state K -> X -> result exc X;
    hk_end_region : state K -> X -> X;
    hk_ad : ad K -> state K -> X -> result exc X;
    hk_ab_open : str -> state K -> X -> X;
    hk_ab_close : str -> state K -> X -> X;
    hk_sr_open : Z -> state K -> X -> str * X;
    hk_sr_close : str -> sropen -> state K -> X -> result exc X }.
  Global Arguments MkHooks {X}.
  Global Arguments hk_draw {X}. Global Arguments hk_flash {X}. Global Arguments hk_start_region {X}.
  Global Arguments hk_flush_region {X}. Global Arguments hk_end_region {X}. Global Arguments hk_ad {X}.
  Global Arguments hk_ab_open {X}. Global Arguments hk_ab_close {X}.
  Global Arguments hk_sr_open {X}. Global Arguments hk_sr_close {X}.

  Section WithHooks.
    Context {X : Type} (H : hooks X).

    Definition with_state (f : state K -> state K) (v : visitor X) : visitor X :=
      MkV (f (v_state v)) (v_d01 v) (v_d03 v) (v_dispatch_region v) (v_ext v).
    Definition with_ext (x : X) (v : visitor X) : visitor X :=
      MkV (v_state v) (v_d01 v) (v_d03 v) (v_dispatch_region v) x.
    Definition lift (v : visitor X) (r : result exc X) : outcome (visitor X) :=
      match r with Ok x => Done (with_ext x v) | Err e => Fail e end.

    (** [__init__] 458-497. *)
    Definition visitor_init (x : X) : visitor X :=
      MkV state_default HDrawLine None false x.

    (** [_dispatch_d01_handler], 685-693. *)
    Definition dispatch (v : visitor X) : visitor X :=
      let s := v_state v in
      let h := if v_dispatch_region v then d01_region_table (s_plot s) (s_arc s)
               else d01_table (s_plot s) (s_arc s) in
      MkV s h (v_d03 v) (v_dispatch_region v) (v_ext v).
    Definition bind_dispatch (b : bool) (v : visitor X) : visitor X :=
      MkV (v_state v) (v_d01 v) (v_d03 v) b (v_ext v).

    (** [on_coordinate_x] 842-849 ... [on_coordinate_j] 869-876: one axis. *)
    Definition read_coord (s : state K) (is_x : bool) (t : str) : result exc K :=
      match s_cf s with
      | None => Err ECoordinateFormatNotSet
      | Some f =>
          let r := if is_x then unpack (cf_zeros f) (cf_xi f) (cf_xd f) t
                   else unpack (cf_zeros f) (cf_yi f) (cf_yd f) t in
          match r with Ok q => Ok (n_of_Q q) | Err e => Err (ECoordinate e) end
      end.
    Definition read_opt (s : state K) (is_x : bool) (t : option str) (old : option K)
      : result exc (option K) :=
      match t with
      | None => Ok old
      | Some t => let* k := read_coord s is_x t in Ok (Some k)
      end.
    (** [AstVisitor.on_d01] / [on_d02] / [on_d03]: visit the present coordinates in order. *)
    Definition read_coords (x y i j : option str) (s : state K) : result exc (state K) :=
      let* x' := read_opt s true x (s_x s) in
      let* y' := read_opt s false y (s_y s) in
      let* i' := read_opt s true i (s_i s) in
      let* j' := read_opt s false j (s_j s) in
      Ok (set_xyij x' y' i' j' s).

    (** [_update_coordinates], 612-616. *)
    Definition update_coordinates (s : state K) : state K :=
      set_cur (opt_or (s_x s) (s_cur_x s)) (opt_or (s_y s) (s_cur_y s)) s.

    Definition on_coords (x y i j : option str) (v : visitor X)
      (k : visitor X -> outcome (visitor X)) : outcome (visitor X) :=
      match read_coords x y i j (v_state v) with
      | Err e => Fail e
      | Ok s => k (with_state (fun _ => s) v)
      end.

    (** [on_d01] 584-589 *)
    Definition on_d01 x y i j (v : visitor X) : outcome (visitor X) :=
      on_coords x y i j v (fun v =>
        obind (lift v (hk_draw H (v_d01 v) (v_state v) (v_ext v)))
          (fun v => Done (with_state update_coordinates v)) (fun v => v)).
    (** [on_d02] 618-624 *)
    Definition on_d02 x y (v : visitor X) : outcome (visitor X) :=
      on_coords x y None None v (fun v =>
        let v := with_state update_coordinates v in
        if s_region (v_state v) then lift v (hk_flush_region H (v_state v) (v_ext v))
        else Done v).
    (** [on_d03] 626-631: the argument [self.state.current_aperture] is evaluated before the
        cached handler is called. *)
    Definition on_d03 x y (v : visitor X) : outcome (visitor X) :=
      on_coords x y None None v (fun v =>
        match current_aperture (v_state v) with
        | Err e => Fail e
        | Ok ap =>
            match v_d03 v with
            | None => Fail EApertureNotSelected
            | Some h =>
                obind (lift v (hk_flash H h ap (v_state v) (v_ext v)))
                  (fun v => Done (with_state update_coordinates v)) (fun v => v)
            end
        end).

    (** [on_dnn] 651-674.  (The bare [AD] class cannot appear in a parsed tree.) *)
    Definition handler_for (a : aperture K) : d03_handler :=
      match a with
      | ApAD a => match ad_template a with
                  | TCircle _ _ => FCircle | TRect _ _ _ => FRect | TObround _ _ _ => FObround
                  | TPolygon _ _ _ _ => FPolygon | TMacro _ _ => FMacro
                  end
      | ApAB _ => FBlock
      end.
    Definition on_dnn (id : str) (v : visitor X) : outcome (visitor X) :=
      let v := with_state (set_apid (Some id)) v in
      match current_aperture (v_state v) with
      | Err e => Fail e
      | Ok a => Done (MkV (v_state v) (v_d01 v) (Some (handler_for a)) (v_dispatch_region v) (v_ext v))
      end.

    (** [on_g01] ... [on_g91], 678-802. *)
    Definition or_default (c : option cfmt) : cfmt := opt_or c cfmt_default.
    Definition set_notation (n : notation) (c : cfmt) : cfmt :=
      MkCF (cf_zeros c) n (cf_xi c) (cf_xd c) (cf_yi c) (cf_yd c).
    Definition on_g (g : gcode) (v : visitor X) : outcome (visitor X) :=
      match g with
      | G01 => Done (dispatch (with_state (set_plot PmLinear) v))
      | G02 => Done (dispatch (with_state (set_plot PmArc) v))
      | G03 => Done (dispatch (with_state (set_plot PmCcwArc) v))
      | G36 => (* on_g36 709-713, on_start_region 715-719 *)
          let v := dispatch (bind_dispatch true (with_state (set_region true) v)) in
          Done (with_ext (hk_start_region H (v_state v) (v_ext v)) v)
      | G37 => (* on_g37 744-749, on_end_region 754-758 *)
          obind (lift v (hk_flush_region H (v_state v) (v_ext v)))
            (fun v =>
               let v := dispatch (bind_dispatch false (with_state (set_region false) v)) in
               Done (with_ext (hk_end_region H (v_state v) (v_ext v)) v))
            (fun v => v)
      | G54 | G55 => Done v
      | G70 => Done (with_state (set_unit Imperial) v)
      | G71 => Done (with_state (set_unit Metric) v)
      | G74 => Done (dispatch (with_state (set_arc SingleQuadrant) v))
      | G75 => Done (dispatch (with_state (set_arc MultiQuadrant) v))
      | G90 => Done (with_state (fun s => set_cf (Some (set_notation Absolute (or_default (s_cf s)))) s) v)
      | G91 => Done (with_state (fun s => set_cf (Some (set_notation Incremental (or_default (s_cf s)))) s) v)
      end.

    (** [on_ad] 547-552 followed by the compiler's part of [on_adc] etc. *)
    Definition on_ad (a : ad K) (v : visitor X) : outcome (visitor X) :=
      let v := with_state (fun s =>
        set_store (d_set (ad_id a) a (s_apertures s)) (s_blocks s) (s_macros s)
          (d_set (ad_id a) (s_ap_attrs s) (s_per_ap_attrs s)) s) v in
      lift v (hk_ad H a (v_state v) (v_ext v)).

    (** [on_ab] 538-545, the part after the body was visited. *)
    Definition register_block (id : str) (s : state K) : state K :=
      set_store (s_apertures s) (d_set id id (s_blocks s)) (s_macros s)
        (d_set id (s_ap_attrs s) (s_per_ap_attrs s)) s.

    (** [on_td] 573-582. *)
    Definition on_td (name : option str) (s : state K) : state K :=
      match name with
      | None => set_attrs [] (s_file_attrs s) [] s
      | Some k => set_attrs (d_del k (s_ap_attrs s)) (s_file_attrs s) (d_del k (s_obj_attrs s)) s
      end.

    Definition set_img_with (f : image_attrs K -> image_attrs K) (s : state K) : state K :=
      set_img (f (s_img s)) s.
    Definition set_tr_with (f : transform K -> transform K) (s : state K) : state K :=
      set_tr (f (s_tr s)) s.

    (** Every node other than AB and SR. *)
    Definition visit_leaf (n : node K) (v : visitor X) : outcome (visitor X) :=
      match n with
      | NAB _ _ | NSR _ _ _ => Done v           (* not a leaf, handled by [visit] *)
      | NAD a => on_ad a v
      | NAM name prims =>                        (* on_am 554-557 *)
          Done (with_state (fun s => set_store (s_apertures s) (s_blocks s)
                 (d_set name prims (s_macros s)) (s_per_ap_attrs s) s) v)
      | NTA a => Done (with_state (fun s => set_attrs (d_set (at_name a) a (s_ap_attrs s)) (s_file_attrs s) (s_obj_attrs s) s) v)
      | NTF a => Done (with_state (fun s => set_attrs (s_ap_attrs s) (d_set (at_name a) a (s_file_attrs s)) (s_obj_attrs s) s) v)
      | NTO a => Done (with_state (fun s => set_attrs (s_ap_attrs s) (s_file_attrs s) (d_set (at_name a) a (s_obj_attrs s)) s) v)
      | NTD name => Done (with_state (on_td name) v)
      | ND01 x y i j => on_d01 x y i j v
      | ND02 x y => on_d02 x y v
      | ND03 x y => on_d03 x y v
      | NDnn id => on_dnn id v
      | NG g => on_g g v
      | NG04 _ => Done v
      | NLM m => Done (with_state (set_tr_with (fun t => MkTr (tr_polarity t) m (tr_rotation t) (tr_scaling t))) v)
      | NLN name => Done (with_state (set_img_with (fun i => MkIA (ia_polarity i) (ia_rotation i) (ia_mirror_a i) (ia_mirror_b i) (ia_offset_a i) (ia_offset_b i) (ia_scale_a i) (ia_scale_b i) (ia_image_name i) (Some name) (ia_axis i))) v)
      | NLP p => Done (with_state (set_tr_with (fun t => MkTr p (tr_mirroring t) (tr_rotation t) (tr_scaling t))) v)
      | NLR r => Done (with_state (set_tr_with (fun t => MkTr (tr_polarity t) (tr_mirroring t) r (tr_scaling t))) v)
      | NLS x => Done (with_state (set_tr_with (fun t => MkTr (tr_polarity t) (tr_mirroring t) (tr_rotation t) x)) v)
      | NM00 | NM02 => Stop v
      | NM01 => Done v
      | NAS c => Done (with_state (set_img_with (fun i => MkIA (ia_polarity i) (ia_rotation i) (ia_mirror_a i) (ia_mirror_b i) (ia_offset_a i) (ia_offset_b i) (ia_scale_a i) (ia_scale_b i) (ia_image_name i) (ia_file_name i) c)) v)
      | NFS f => Done (with_state (set_cf (Some (MkCF (fs_zeros f) (fs_mode f) (fs_xi f) (fs_xd f) (fs_yi f) (fs_yd f)))) v)
      | NIN name => Done (with_state (set_img_with (fun i => MkIA (ia_polarity i) (ia_rotation i) (ia_mirror_a i) (ia_mirror_b i) (ia_offset_a i) (ia_offset_b i) (ia_scale_a i) (ia_scale_b i) (Some name) (ia_file_name i) (ia_axis i))) v)
      | NIP p => Done (with_state (set_img_with (fun i => MkIA p (ia_rotation i) (ia_mirror_a i) (ia_mirror_b i) (ia_offset_a i) (ia_offset_b i) (ia_scale_a i) (ia_scale_b i) (ia_image_name i) (ia_file_name i) (ia_axis i))) v)
      | NIR d => Done (with_state (set_img_with (fun i => MkIA (ia_polarity i) d (ia_mirror_a i) (ia_mirror_b i) (ia_offset_a i) (ia_offset_b i) (ia_scale_a i) (ia_scale_b i) (ia_image_name i) (ia_file_name i) (ia_axis i))) v)
      | NMI a b => Done (with_state (set_img_with (fun i => MkIA (ia_polarity i) (ia_rotation i) a b (ia_offset_a i) (ia_offset_b i) (ia_scale_a i) (ia_scale_b i) (ia_image_name i) (ia_file_name i) (ia_axis i))) v)
      | NMO u => Done (with_state (set_unit u) v)
      | NOF a b => Done (with_state (set_img_with (fun i => MkIA (ia_polarity i) (ia_rotation i) (ia_mirror_a i) (ia_mirror_b i) a b (ia_scale_a i) (ia_scale_b i) (ia_image_name i) (ia_file_name i) (ia_axis i))) v)
      | NSF a b => Done (with_state (set_img_with (fun i => MkIA (ia_polarity i) (ia_rotation i) (ia_mirror_a i) (ia_mirror_b i) (ia_offset_a i) (ia_offset_b i) (Some a) (Some b) (ia_image_name i) (ia_file_name i) (ia_axis i))) v)
      | NInvalid _ => Done v
      end.

    (** What happens before and after the body of AB and SR: [StateTrackingVisitor.on_ab]
        538-545, [AstVisitor.on_sr] 190-196, and the compiler's overrides through hooks. *)
    Definition ab_enter (id : str) (v : visitor X) : visitor X :=
      with_ext (hk_ab_open H id (v_state v) (v_ext v)) v.
    Definition ab_leave (id : str) (v : visitor X) : visitor X :=
      let v := with_state (register_block id) v in
      with_ext (hk_ab_close H id (v_state v) (v_ext v)) v.
    Definition sr_enter (uid : Z) (v : visitor X) : str * visitor X :=
      let '(tmp, x) := hk_sr_open H uid (v_state v) (v_ext v) in (tmp, with_ext x v).
    Definition sr_leave (tmp : str) (hdr : sropen) (v : visitor X) : outcome (visitor X) :=
      lift v (hk_sr_close H tmp hdr (v_state v) (v_ext v)).

    (** [node.visit(visitor)]. *)
    Fixpoint visit (n : node K) (v : visitor X) {struct n} : outcome (visitor X) :=
      let visits := fix visits (ns : list (node K)) (v : visitor X) : outcome (visitor X) :=
        match ns with
        | [] => Done v
        | n :: r => obind (visit n v) (visits r) (fun v => v)
        end in
      match n with
      | NAB id body => obind (visits body (ab_enter id v)) (fun v => Done (ab_leave id v)) (fun v => v)
      | NSR uid hdr body =>
          let '(tmp, v) := sr_enter uid v in
          obind (visits body v) (sr_leave tmp hdr) (fun v => v)
      | n => visit_leaf n v
      end.
    Fixpoint visits (ns : list (node K)) (v : visitor X) : outcome (visitor X) :=
      match ns with
      | [] => Done v
      | n :: r => obind (visit n v) (visits r) (fun v => v)
      end.

    (** [AstVisitor.on_file] 773-784 with [on_exception] 948-953: a [ProgramStop] is re-raised
        iff [ignore_program_stop]; re-raised [ProgramStop] is suppressed by
        [StateTrackingVisitor.on_file] 942-946.  Any other exception is re-raised. *)
    Fixpoint on_file (ignore_program_stop : bool) (ns : list (node K)) (v : visitor X)
      : result exc (visitor X) :=
      match ns with
      | [] => Ok v
      | n :: r =>
          match visit n v with
          | Done v => on_file ignore_program_stop r v
          | Stop v => if ignore_program_stop then Ok v else on_file ignore_program_stop r v
          | Fail e => Err e
          end
      end.
  End WithHooks.

  (** The base class: every callback is empty. *)
  Definition no_hooks : hooks unit := {|
    hk_draw _ _ x := Ok x; hk_flash _ _ _ x := Ok x; hk_start_region _ x := x;
    hk_flush_region _ x := Ok x; hk_end_region _ x := x; hk_ad _ _ x := Ok x;
    hk_ab_open _ _ x := x; hk_ab_close _ _ x := x; hk_sr_open _ _ x := ([], x);
    hk_sr_close _ _ _ x := Ok x |}.

  (** A subclass that records every callback with the state it saw: the observable calls. *)
  Inductive call :=
  | CDraw (h : d01_handler) (s : state K)
  | CFlash (h : d03_handler) (a : aperture K) (s : state K)
  | CStartRegion | CFlushRegion (s : state K) | CEndRegion.
  Definition recorder : hooks (list call) := {|
    hk_draw h s x := Ok (x ++ [CDraw h s]);
    hk_flash h a s x := Ok (x ++ [CFlash h a s]);
    hk_start_region _ x := x ++ [CStartRegion];
    hk_flush_region s x := Ok (x ++ [CFlushRegion s]);
    hk_end_region _ x := x ++ [CEndRegion];
    hk_ad _ _ x := Ok x; hk_ab_open _ _ x := x; hk_ab_close _ _ x := x;
    hk_sr_open _ _ x := ([], x); hk_sr_close _ _ _ x := Ok x |}.
End Tracker.
Arguments hooks K X : clear implicits.
Arguments visitor K X : clear implicits.

(** Specification vocabulary for C04-C10.  Written from the Gerber point of view (which
    command sets what), without the visitor's state record or handler machinery. *)
From Verif Require Import Base Num Dict CoordModel CoordSpec Ast StateModel.
Open Scope nat_scope.

Section Spec.
  Context {K : Type} {NK : Num K}.

  (** *** Executed commands
      The commands a file executes, in order: bodies of AB and SR blocks run where they stand,
      the definition of block [id] takes effect at its end (recorded as [NAB id []]).
      The flag tells whether an M00/M02 interrupted the walk. *)
  Definition exec_list (f : node K -> list (node K) * bool) :=
    fix go (ns : list (node K)) : list (node K) * bool :=
    match ns with
    | [] => ([], false)
    | n :: r =>
        let '(a, stop) := f n in
        if stop then (a, true) else let '(b, stop') := go r in (a ++ b, stop')
    end.
  Fixpoint executed (n : node K) : list (node K) * bool :=
    match n with
    | NAB id body =>
        let '(l, stop) := exec_list executed body in
        if stop then (l, true) else (l ++ [NAB id []], false)
    | NSR _ _ body => exec_list executed body
    | NM00 | NM02 => ([n], true)
    | n => ([n], false)
    end.
  (** Commands executed by a whole file.  [stops = true]: the walk ends at the first M00/M02
      that is reached; [stops = false]: an interrupted top-level command is abandoned and the
      walk resumes with the next one. *)
  Fixpoint executed_file (stops : bool) (ns : list (node K)) : list (node K) :=
    match ns with
    | [] => []
    | n :: r =>
        let '(a, stop) := executed n in
        if stop && stops then a else a ++ executed_file stops r
    end.

  (** *** Last write wins *)
  Definition last_set {A} (setter : node K -> option A) (default : A) (cmds : list (node K)) : A :=
    fold_left (fun a n => match setter n with Some b => b | None => a end) cmds default.

  Definition sets_unit (n : node K) : option unit_mode :=
    match n with NMO u => Some u | NG G70 => Some Imperial | NG G71 => Some Metric | _ => None end.
  Definition sets_plot (n : node K) : option plot_mode :=
    match n with NG G01 => Some PmLinear | NG G02 => Some PmArc | NG G03 => Some PmCcwArc | _ => None end.
  Definition sets_arc (n : node K) : option arc_interp :=
    match n with NG G74 => Some SingleQuadrant | NG G75 => Some MultiQuadrant | _ => None end.
  Definition sets_region (n : node K) : option bool :=
    match n with NG G36 => Some true | NG G37 => Some false | _ => None end.
  Definition sets_aperture (n : node K) : option (option str) :=
    match n with NDnn id => Some (Some id) | _ => None end.
  Definition sets_polarity (n : node K) : option polarity :=
    match n with NLP p => Some p | _ => None end.
  Definition sets_mirroring (n : node K) : option mirroring :=
    match n with NLM m => Some m | _ => None end.
  Definition sets_rotation (n : node K) : option K :=
    match n with NLR r => Some r | _ => None end.
  Definition sets_scaling (n : node K) : option K :=
    match n with NLS s => Some s | _ => None end.
  Definition sets_image_polarity (n : node K) : option image_polarity :=
    match n with NIP p => Some p | _ => None end.
  Definition sets_image_rotation (n : node K) : option Z :=
    match n with NIR d => Some d | _ => None end.
  Definition sets_image_mirror (n : node K) : option (Z * Z) :=
    match n with NMI a b => Some (a, b) | _ => None end.
  Definition sets_image_offset (n : node K) : option (option K * option K) :=
    match n with NOF a b => Some (a, b) | _ => None end.
  Definition sets_image_scale (n : node K) : option (option K * option K) :=
    match n with NSF a b => Some (Some a, Some b) | _ => None end.
  Definition sets_image_name (n : node K) : option (option str) :=
    match n with NIN s => Some (Some s) | _ => None end.
  Definition sets_load_name (n : node K) : option (option str) :=
    match n with NLN s => Some (Some s) | _ => None end.
  Definition sets_axis (n : node K) : option axis_corr :=
    match n with NAS c => Some c | _ => None end.

  (** Number format: set by FS; the coordinate notation is also set by G90/G91, which fall back
      to a 2.6 format when no FS was given. *)
  Definition format_step (f : option cfmt) (n : node K) : option cfmt :=
    let base := match f with Some f => f | None => MkCF SkipLeading Absolute 2 6 2 6 end in
    let renote m := Some (MkCF (cf_zeros base) m (cf_xi base) (cf_xd base) (cf_yi base) (cf_yd base)) in
    match n with
    | NFS x => Some (MkCF (fs_zeros x) (fs_mode x) (fs_xi x) (fs_xd x) (fs_yi x) (fs_yd x))
    | NG G90 => renote Absolute
    | NG G91 => renote Incremental
    | _ => f
    end.

  (** *** Current point (C05) *)
  Definition axis_value (f : option cfmt) (is_x : bool) (t : option str) (cur : K) : K :=
    match t, f with
    | Some t, Some f =>
        match unpack (cf_zeros f) (if is_x then cf_xi f else cf_yi f)
                     (if is_x then cf_xd f else cf_yd f) t with
        | Ok q => n_of_Q q
        | Err _ => cur
        end
    | _, _ => cur
    end.
  Record pen := MkPen { pen_fmt : option cfmt; pen_at : K * K; pen_segs : list ((K * K) * (K * K)) }.
  Definition pen_step (p : pen) (n : node K) : pen :=
    let f := pen_fmt p in
    let move x y := (axis_value f true x (fst (pen_at p)), axis_value f false y (snd (pen_at p))) in
    match n with
    | ND01 x y _ _ => MkPen f (move x y) (pen_segs p ++ [(pen_at p, move x y)])
    | ND02 x y | ND03 x y => MkPen f (move x y) (pen_segs p)
    | n => MkPen (format_step f n) (pen_at p) (pen_segs p)
    end.

  (** *** Draw callbacks (C06) *)
  Record modes := MkModes { mo_plot : plot_mode; mo_arc : arc_interp; mo_region : bool; mo_calls : list d01_handler }.
  Definition callback_for (p : plot_mode) (a : arc_interp) (region : bool) : d01_handler :=
    match region, p, a with
    | false, PmLinear, _ => HDrawLine
    | false, PmArc, SingleQuadrant => HDrawCwSq
    | false, PmArc, MultiQuadrant => HDrawCwMq
    | false, PmCcwArc, SingleQuadrant => HDrawCcwSq
    | false, PmCcwArc, MultiQuadrant => HDrawCcwMq
    | true, PmLinear, _ => HRegionLine
    | true, PmArc, SingleQuadrant => HRegionCwSq
    | true, PmArc, MultiQuadrant => HRegionCwMq
    | true, PmCcwArc, SingleQuadrant => HRegionCcwSq
    | true, PmCcwArc, MultiQuadrant => HRegionCcwMq
    end.
  Definition modes_step (m : modes) (n : node K) : modes :=
    match n with
    | NG G01 => MkModes PmLinear (mo_arc m) (mo_region m) (mo_calls m)
    | NG G02 => MkModes PmArc (mo_arc m) (mo_region m) (mo_calls m)
    | NG G03 => MkModes PmCcwArc (mo_arc m) (mo_region m) (mo_calls m)
    | NG G74 => MkModes (mo_plot m) SingleQuadrant (mo_region m) (mo_calls m)
    | NG G75 => MkModes (mo_plot m) MultiQuadrant (mo_region m) (mo_calls m)
    | NG G36 => MkModes (mo_plot m) (mo_arc m) true (mo_calls m)
    | NG G37 => MkModes (mo_plot m) (mo_arc m) false (mo_calls m)
    | ND01 _ _ _ _ =>
        MkModes (mo_plot m) (mo_arc m) (mo_region m)
          (mo_calls m ++ [callback_for (mo_plot m) (mo_arc m) (mo_region m)])
    | _ => m
    end.

  (** *** Flashes (C07): the latest definition given for a D-code *)
  Inductive def := DefAD (a : ad K) | DefAB (id : str).
  Definition kind_of (d : def) : d03_handler :=
    match d with
    | DefAB _ => FBlock
    | DefAD a => match ad_template a with
                 | TCircle _ _ => FCircle | TRect _ _ _ => FRect | TObround _ _ _ => FObround
                 | TPolygon _ _ _ _ => FPolygon | TMacro _ _ => FMacro
                 end
    end.
  Definition def_aperture (d : def) : aperture K :=
    match d with DefAD a => ApAD a | DefAB id => ApAB id end.
  Definition defines (n : node K) : option (str * def) :=
    match n with
    | NAD a => Some (ad_id a, DefAD a)
    | NAB id _ => Some (id, DefAB id)
    | _ => None
    end.
  (** Latest definition of [id] in a list of executed commands. *)
  Definition latest_def (id : str) (cmds : list (node K)) : option def :=
    fold_left (fun d n => match defines n with
                          | Some (i, x) => if str_eqb id i then Some x else d
                          | None => d end) cmds None.
  Definition latest_selection (cmds : list (node K)) : option str := last_set sets_aperture None cmds.

  (** Flash callbacks expected from a list of executed commands. *)
  Fixpoint expected_flashes (before after : list (node K)) : list (option (d03_handler * aperture K)) :=
    match after with
    | [] => []
    | n :: r =>
        let rest := expected_flashes (before ++ [n]) r in
        match n with
        | ND03 _ _ =>
            match latest_selection before with
            | Some id => match latest_def id before with
                         | Some d => Some (kind_of d, def_aperture d) :: rest
                         | None => None :: rest
                         end
            | None => None :: rest
            end
        | _ => rest
        end
    end.

  (** A program in which no definition replaces the selected D-code, and no block is defined
      under a D-code that an AD command has defined before. *)
  Definition fresh_definition (before : list (node K)) (n : node K) : Prop :=
    match defines n with
    | None => True
    | Some (id, d) =>
        latest_selection before <> Some id /\
        match d with
        | DefAD _ => True
        | DefAB _ => forall a, In (NAD a) before -> ad_id a <> id
        end
    end.
  Definition no_shadowing (cmds : list (node K)) : Prop :=
    forall before n after, cmds = before ++ n :: after -> fresh_definition before n.

  (** *** Attributes (C08): finite maps as functions *)
  Definition amap := str -> option attr.
  Definition upd {A} (k : str) (v : option A) (m : str -> option A) : str -> option A :=
    fun k' => if str_eqb k' k then v else m k'.
  Record attrs_spec := MkAS {
    as_ap : amap; as_file : amap; as_obj : amap; as_snap : str -> option amap }.
  Definition attrs_init : attrs_spec := MkAS (fun _ => None) (fun _ => None) (fun _ => None) (fun _ => None).
  Definition attrs_step (m : attrs_spec) (n : node K) : attrs_spec :=
    match n with
    | NTA a => MkAS (upd (at_name a) (Some a) (as_ap m)) (as_file m) (as_obj m) (as_snap m)
    | NTF a => MkAS (as_ap m) (upd (at_name a) (Some a) (as_file m)) (as_obj m) (as_snap m)
    | NTO a => MkAS (as_ap m) (as_file m) (upd (at_name a) (Some a) (as_obj m)) (as_snap m)
    | NTD None => MkAS (fun _ => None) (as_file m) (fun _ => None) (as_snap m)
    | NTD (Some k) => MkAS (upd k None (as_ap m)) (as_file m) (upd k None (as_obj m)) (as_snap m)
    | NAD a => MkAS (as_ap m) (as_file m) (as_obj m) (upd (ad_id a) (Some (as_ap m)) (as_snap m))
    | NAB id _ => MkAS (as_ap m) (as_file m) (as_obj m) (upd id (Some (as_ap m)) (as_snap m))
    | _ => m
    end.

  (** *** Aperture numbers (C10): [id] is the D-code with number [m] *)
  Definition dcode (id : str) (m : Z) : Prop :=
    exists ds, id = "D"%char :: ds /\ ds <> [] /\ spec_value ds = Some m.

  (** Calls of a given sort in a recorder log. *)
  Definition draws_of (l : list call) : list (d01_handler * state K) :=
    flat_map (fun c => match c with CDraw h s => [(h, s)] | _ => [] end) l.
  Definition flashes_of (l : list call) : list (d03_handler * aperture K) :=
    flat_map (fun c => match c with CFlash h a _ => [(h, a)] | _ => [] end) l.
End Spec.

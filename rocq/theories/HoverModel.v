(** Model of the hover texts of the language server,
    [gerber/language_server/_server/hover/gerber.py]: the state shown for a command and the
    small Gerber file whose picture illustrates it.  The Markdown layout is left out; the
    numbers put into it are kept.  [to_Q] is the exact value of a float. *)
From Verif Require Import Base Num Dict CoordModel Ast StateModel.
Open Scope Z_scope.

Section Hover.
  Context {K : Type} {NK : Num K} (to_Q : K -> Q).

  (** A top level node with its [source_info] ([nodes/base.py] 19-57). *)
  Record placed := MkPl { pl_loc : Z; pl_len : Z; pl_node : node K }.

  (** [LimitedStateTrackingVisitor.on_file] 90-108.  The visitor is created without
      [ignore_program_stop], so M00 and M02 do not end the walk ([on_exception] returns
      [False] for them). *)
  Fixpoint limited (max_location : Z) (ns : list placed) (v : visitor K unit) : result exc (visitor K unit) :=
    match ns with
    | [] => Ok v
    | p :: r =>
        if max_location <? pl_loc p + pl_len p then Ok v
        else match visit no_hooks (pl_node p) v with
             | Done v | Stop v => limited max_location r v
             | Fail e => Err e
             end
    end.
  (** [create_hover_markdown] 270-284 for the node starting at [loc]. *)
  Definition hover_state (ns : list placed) (loc : Z) : result exc (state K) :=
    let* v := limited loc ns (visitor_init tt) in Ok (v_state v).

  (** The points shown for a D01: [_append_current_xy] 307-312 ("Starts at:"), [_append_xy]
      314-332 for "Ends at:" (493-495) and "Arc center at:" (497-498, with the defaults 0). 
      [if x] (326-327) asks for the length of the node, which is positive for coordinates that
      were read ([C72_coordinate_texts]). *)
  Definition shown_start (s : state K) : K * K := (s_cur_x s, s_cur_y s).
  Definition shown_axis (s : state K) (is_x : bool) (t : option str) (default : K) : result exc K :=
    match t with None => Ok default | Some t => read_coord s is_x t end.
  Definition shown_xy (s : state K) (x y : option str) (dx dy : K) : result exc (option (K * K)) :=
    match s_cf s with
    | None => Ok None
    | Some _ => let* a := shown_axis s true x dx in let* b := shown_axis s false y dy in Ok (Some (a, b))
    end.
  Definition shown_end (s : state K) (x y : option str) : result exc (option (K * K)) :=
    shown_xy s x y (s_cur_x s) (s_cur_y s).
  Definition shown_center (s : state K) (i j : option str) : result exc (option (K * K)) :=
    match s_plot s with PmLinear => Ok None | _ => shown_xy s i j n0 n0 end.

  (** [_visualize_draw_op] 415-467: the commands of the illustration.  The dictionaries of
      macros and apertures hold the nodes themselves. *)
  Definition pack_axis (z : zeros) (i d : nat) (x : K) : result exc str :=
    match pack z i d (to_Q x) with Ok t => Ok t | Err e => Err (ECoordinate e) end.
  Definition shown_plot (p : plot_mode) : gcode := match p with PmLinear => G01 | PmArc => G02 | PmCcwArc => G02 end.
  Definition shown_arc (a : arc_interp) : gcode := match a with MultiQuadrant => G75 | SingleQuadrant => G74 end.
  Definition macro_nodes (s : state K) : list (node K) := map (fun m => NAM (fst m) (snd m)) (s_macros s).
  Definition aperture_nodes (s : state K) : list (node K) := map (fun a => NAD (snd a)) (s_apertures s).
  Definition select_node (s : state K) : list (node K) := match s_apid s with Some id => [NDnn id] | None => [] end.
  Definition preview (s : state K) (extra : list (node K)) : result exc (list (node K)) :=
    match s_cf s with
    | None => Err EAssertionError
    | Some f =>
        let* tx := pack_axis (cf_zeros f) (cf_xi f) (cf_xd f) (s_cur_x s) in
        let* ty := pack_axis (cf_zeros f) (cf_yi f) (cf_yd f) (s_cur_y s) in
        Ok (NFS (MkFS (cf_zeros f) (cf_mode f) (cf_xi f) (cf_xd f) (cf_yi f) (cf_yd f)) :: NMO (s_unit s)
            :: ND02 (Some tx) (Some ty) :: macro_nodes s ++ aperture_nodes s ++ macro_nodes s ++
            [NG (shown_plot (s_plot s)); NG (shown_arc (s_arc s)); NLM (tr_mirroring (s_tr s)); NLS (tr_scaling (s_tr s));
             NLR (tr_rotation (s_tr s))] ++ select_node s ++ extra)
    end.
End Hover.
Arguments placed K : clear implicits.

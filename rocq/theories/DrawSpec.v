(** Specification vocabulary for C13-C19: what the commands executed so far determine
    (polarity, pen, contour), and what a drawing list contains. *)
From Verif Require Import Base Num Dict CoordModel Ast StateModel StateSpec GeomModel CompilerModel.

(** *** Points of a walk
    [at_point H x0 pre v]: the visitor [v] is reached after executing the commands [pre],
    possibly inside blocks that are still open.  (All interleavings of entering and leaving
    blocks are allowed, so this covers every walk of every file.) *)
Section Points.
  Context {K : Type} {NK : Num K} {X : Type} (H : hooks K X) (x0 : X).
  Inductive at_point : list (node K) -> visitor K X -> Prop :=
  | pt_start : at_point [] (visitor_init x0)
  | pt_leaf pre v n v' : at_point pre v -> match n with NAB _ _ | NSR _ _ _ => False | _ => True end ->
      visit_leaf H n v = Done v' \/ visit_leaf H n v = Stop v' -> at_point (pre ++ [n]) v'
  | pt_ab_enter pre v id : at_point pre v -> at_point pre (ab_enter H id v)
  | pt_ab_leave pre v id : at_point pre v -> at_point (pre ++ [NAB id []]) (ab_leave H id v)
  | pt_sr_enter pre v uid : at_point pre v -> at_point pre (snd (sr_enter H uid v))
  | pt_sr_leave pre v tmp hdr v' : at_point pre v -> sr_leave H tmp hdr v = Done v' -> at_point pre v'.
End Points.

Section Spec.
  Context {K : Type} {NK : Num K}.

  (** The buffer drawn on, and what a step adds to it. *)
  Definition current (x : cstate K) : option (buffer K) :=
    match c_stack x with id :: _ => d_get id (c_buffers x) | [] => None end.
  Definition drawn (v : visitor K (cstate K)) : option (list (draw K)) :=
    match current (v_ext v) with Some b => Some (bf_cmds b) | None => None end.
  Definition adds (v v' : visitor K (cstate K)) (new : list (draw K)) : Prop :=
    exists old, drawn v = Some old /\ drawn v' = Some (old ++ new).

  Definition negative (d : draw K) : bool := match d with DShape s => sh_neg s | DPaste p => pa_neg p end.

  (** Polarity, pen, transformation and offsets determined by the commands executed. *)
  Definition clear_at (pre : list (node K)) : bool :=
    match last_set sets_polarity Dark pre with Clear => true | Dark => false end.
  Definition pen_of (pre : list (node K)) : pen := fold_left pen_step pre (MkPen None (n0, n0) []).
  Definition pen_vec (pre : list (node K)) : vec K := let '(x, y) := pen_at (pen_of pre) in MkVec x y.

  (** *** What one command may add (C15), given the commands executed before it
      A stroke of width [th]: its two ends (discs) and what joins them. *)
  Definition all_shapes (neg : bool) (ds : list (draw K)) : Prop :=
    Forall (fun d => exists s, d = DShape s /\ sh_neg s = neg) ds.
  Definition line_stroke (p q : vec K) (th : K) (neg : bool) (m : meta) : list (draw K) :=
    [DShape (new_circle p th neg m); DShape (new_line p q th neg m); DShape (new_circle q th neg m)].
  Definition in_region (pre : list (node K)) : bool := last_set sets_region false pre.
  Definition plot_of (pre : list (node K)) : plot_mode := last_set sets_plot PmLinear pre.
  Definition emitted (pre : list (node K)) (n : node K) (new : list (draw K)) : Prop :=
    match n with
    | ND01 _ _ _ _ =>
        all_shapes (clear_at pre) new /\
        (in_region pre = true -> new = []) /\
        (in_region pre = false -> plot_of pre = PmLinear ->
         exists th m, new = line_stroke (pen_vec pre) (pen_vec (pre ++ [n])) th (clear_at pre) m)
    | ND02 _ _ => (length new <= 1)%nat /\ all_shapes (clear_at pre) new /\ (in_region pre = false -> new = [])
    | NG G37 => (length new <= 1)%nat /\ all_shapes (clear_at pre) new
    | ND03 _ _ => exists src m, new = [DPaste (MkPaste src (pen_vec (pre ++ [n])) (clear_at pre) m)]
    | _ => new = []
    end.
  (** The selected D-code was defined by AD. *)
  Definition selected_AD (pre : list (node K)) : Prop :=
    exists a, In (NAD a) pre /\ latest_selection pre = Some (ad_id a).

  (** *** Arc offsets (C18)
      The offset given by a D01 itself ([own_offset], missing parts are 0), and the one last
      given per axis by any D01 so far ([last_offset]). *)
  Definition format_of (pre : list (node K)) : option cfmt := fold_left format_step pre None.
  Definition own_offset (f : option cfmt) (i j : option str) : vec K :=
    MkVec (axis_value f true i n0) (axis_value f false j n0).
  Definition offset_step (c : option cfmt * vec K) (n : node K) : option cfmt * vec K :=
    let '(f, o) := c in
    (format_step f n,
     match n with
     | ND01 _ _ i j => MkVec (axis_value f true i (vx o)) (axis_value f false j (vy o))
     | _ => o
     end).
  Definition last_offset (pre : list (node K)) : vec K :=
    snd (fold_left offset_step pre (None, MkVec n0 n0)).
  Definition plus (a b : vec K) : vec K := MkVec (n_add (vx a) (vx b)) (n_add (vy a) (vy b)).

  (** *** Contours (C13)
      A D01 in a region as (start, end, mode, offset of the centre from the start).
      [ct_regular]: neither a D03 nor a single quadrant arc since the contour began.
      [ct_start]: where it began. *)
  Record stroke := MkStroke { sk_from : vec K; sk_to : vec K; sk_mode : plot_mode; sk_offset : vec K }.
  Record contour := MkContour {
    ct_pen : pen (K := K); ct_modes : modes; ct_offset : option cfmt * vec K; ct_start : vec K; ct_strokes : list stroke; ct_regular : bool }.
  Definition vec_of (p : K * K) : vec K := MkVec (fst p) (snd p).
  Definition contour_step (c : contour) (n : node K) : contour :=
    let p := pen_step (ct_pen c) n in
    let m := modes_step (ct_modes c) n in
    let o := offset_step (ct_offset c) n in
    let fresh := MkContour p m o (vec_of (pen_at p)) [] true in
    let same := MkContour p m o (ct_start c) (ct_strokes c) (ct_regular c) in
    match n with
    | NG G36 | NG G37 => fresh
    | ND02 _ _ => if mo_region m then fresh else same
    | ND03 _ _ => MkContour p m o (ct_start c) (ct_strokes c) false
    | ND01 _ _ _ _ =>
        if mo_region m then
          MkContour p m o (ct_start c)
            (ct_strokes c ++ [MkStroke (vec_of (pen_at (ct_pen c))) (vec_of (pen_at p)) (mo_plot m) (snd o)])
            (ct_regular c && match mo_plot m, mo_arc m with PmLinear, _ => true | _, SingleQuadrant => false | _, _ => true end)
        else same
    | _ => same
    end.
  Definition contour_init : contour :=
    MkContour (MkPen None (n0, n0) []) (MkModes PmLinear SingleQuadrant false []) (None, MkVec n0 n0) (MkVec n0 n0) [] true.
  Definition contour_of (pre : list (node K)) : contour := fold_left contour_step pre contour_init.

  (** What a stroke contributes to an outline: a line; an arc; or, for coinciding end points, a
      full circle made of two arcs, the first of which ends opposite to the start. *)
  Definition traces (k : stroke) (segs : list (seg K)) : Prop :=
    match sk_mode k with
    | PmLinear => segs = [SLine (sk_from k) (sk_to k)]
    | m => let cw := match m with PmArc => true | _ => false end in
        let c := plus (sk_from k) (sk_offset k) in
        let e := plus c (sk_offset k) in
        segs = if v_eqb (sk_from k) (sk_to k) then [SArc (sk_from k) e c cw; SArc e (sk_from k) c cw]
               else [SArc (sk_from k) (sk_to k) c cw]
    end.
  (** Segments joined end to end (equal coordinates as compared by the program). *)
  Definition joined (p q : vec K) : Prop := p = q \/ v_eqb p q = true.
  Fixpoint chain (p : vec K) (l : list (seg K)) : Prop :=
    match l with [] => True | s :: r => joined p (seg_start s) /\ chain (seg_end s) r end.

  (** All arcs of a shape are centred at [c], and it has some. *)
  Definition centred (c : vec K) (segs : list (seg K)) : Prop :=
    segs <> [] /\ Forall (fun s => exists a b cw, s = SArc a b c cw) segs.
  (** Discs at both ends, and between them shapes made of arcs centred at [c]. *)
  Definition arc_stroke (c : vec K) (ds : list (draw K)) : Prop :=
    exists first arcs last, ds = DShape first :: map DShape arcs ++ [DShape last] /\
      arcs <> [] /\ Forall (fun s => centred c (sh_segs s)) arcs.
  (** One shape following all strokes of the contour, from its start. *)
  Definition outline (pre : list (node K)) (new : list (draw K)) : Prop :=
    exists segss, Forall2 traces (ct_strokes (contour_of pre)) segss /\
      chain (ct_start (contour_of pre)) (concat segss) /\
      new = match concat segss with [] => [] | l => [DShape (MkShape l (clear_at pre) None)] end.
  Definition closes (pre : list (node K)) (n : node K) : bool :=
    match n with ND02 _ _ | NG G37 => in_region pre | _ => false end.
  Definition arc_mode (pre : list (node K)) : arc_interp := last_set sets_arc SingleQuadrant pre.

  (** *** Whole files: what every command of a list draws *)
  Definition draws (pre : list (node K)) (n : node K) (new : list (draw K)) : Prop :=
    emitted pre n new /\
    (closes pre n = true -> ct_regular (contour_of pre) = true -> outline pre new) /\
    match n with
    | ND01 _ _ _ _ => in_region pre = false -> plot_of pre <> PmLinear ->
        match arc_mode pre with
        | MultiQuadrant => arc_stroke (plus (pen_vec pre) (last_offset (pre ++ [n]))) new
        | SingleQuadrant => new = []
        end
    | _ => True
    end.
  Inductive run_draws : list (node K) -> list (draw K) -> Prop :=
  | rd_nil : run_draws [] []
  | rd_step pre out n new : run_draws pre out -> draws pre n new -> run_draws (pre ++ [n]) (out ++ new).
End Spec.

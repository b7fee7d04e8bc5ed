(** Specification for C38-C40: what a history of builder calls asks for, told from the calls
    alone (no ids, no shadow state, no commands), and what it means for the calls recorded by
    a reader of the file to show it. *)
From Verif Require Import Base Num Dict CoordModel Ast ExprModel StateModel GbModel.
From Coq Require Import Qabs.
Local Open Scope Q_scope.
Local Existing Instance NumQ.

(** What happened: the calls with their outcome ([true] when no exception was raised), latest
    first.  Call number [n] is the one with [n] calls before it. *)
Definition history := list (bcall * bool).
Fixpoint happened (cs : list bcall) (g : gb) (h : history) : history :=
  match cs with
  | [] => h
  | c :: r => happened r (gstep g c) ((c, is_ok (snd (perform c g))) :: h)
  end.
(** No call raised one of the exceptions for which the builder is left in disorder. *)
Definition clean_error (e : gb_error) : Prop := match e with GCoord _ | GTypeError => False | _ => True end.
Fixpoint clean (cs : list bcall) (g : gb) : Prop :=
  match cs with
  | [] => True
  | c :: r => match snd (perform c g) with Ok _ => True | Err e => clean_error e end /\ clean r (gstep g c)
  end.

Fixpoint nth_call (h : history) (n : nat) : option (bcall * history) :=
  match h with
  | [] => None
  | (c, ok) :: r => if (n =? length r)%nat then (if ok then Some (c, r) else None) else nth_call r n
  end.

(** *** Where draws begin and end *)
Definition comes_from (f : nat -> option (loc * loc)) (p : place) : option loc :=
  match p with At l => Some l | Of n => option_map snd (f n) end.
Definition goes_to (f : nat -> option (loc * loc)) (p : place) : option loc :=
  match p with At l => Some l | Of n => option_map fst (f n) end.
Definition both (a b : option loc) : option (loc * loc) :=
  match a, b with Some a, Some b => Some (a, b) | _, _ => None end.
Fixpoint spot (h : history) (n : nat) : option (loc * loc) :=
  match h with
  | [] => None
  | (c, ok) :: r =>
      if (n =? length r)%nat then
        if negb ok then None else
        match c with
        | AddPad _ p _ _ _ _ _ => both (comes_from (spot r) p) (comes_from (spot r) p)
        | AddLine _ b e => both (comes_from (spot r) b) (goes_to (spot r) e)
        | AddArc _ _ b e _ => both (comes_from (spot r) b) (goes_to (spot r) e)
        | _ => None
        end
      else spot r n
  end.

(** *** Shapes of pads *)
Inductive look := Plain (t : template Q) | Custom (fs : list figure).
Fixpoint figures (h : history) (n : nat) : list figure :=
  match h with
  | [] => []
  | (AddFigure m f, true) :: r => figures r n ++ (if (m =? n)%nat then [f] else [])
  | _ :: r => figures r n
  end.
Definition pad_look (h : history) (n : nat) : option look :=
  match nth_call h n with
  | Some (NewCircle d hole, _) => Some (Plain (TCircle d hole))
  | Some (NewRectangle x y hole, _) => Some (Plain (TRect x y hole))
  | Some (NewRounded x y hole, _) => Some (Plain (TObround x y hole))
  | Some (NewPolygon d v rot hole, _) => Some (Plain (TPolygon d v (Some rot) hole))
  | Some (CreateCustom k, r) => Some (Custom (figures r k))
  | _ => None
  end.

(** *** Regions *)
Fixpoint segments (h : history) (n : nat) : list segment :=
  match h with
  | [] => []
  | (AddSegment m s, true) :: r => segments r n ++ (if (m =? n)%nat then [s] else [])
  | _ :: r => segments r n
  end.
Definition seg_end (s : segment) : loc := match s with SgLine e => e | SgCw e _ => e | SgCcw e _ => e end.
Definition seg_mode (s : segment) : plot_mode :=
  match s with SgLine _ => PmLinear | SgCw _ _ => PmArc | SgCcw _ _ => PmCcwArc end.
Definition same (a b : loc) : bool := Qeq_bool (fst a) (fst b) && Qeq_bool (snd a) (snd b).
(** The outline is closed by a line when the client did not close it. *)
Definition close (b : loc) (segs : list segment) : list segment :=
  match rev segs with
  | s :: _ => if same (seg_end s) b then segs else segs ++ [SgLine b]
  | [] => []
  end.
(** Nothing is added to a region that was created ("After calling this method, no more elements
    can be added to the region", 1567). *)
Fixpoint created (h : history) (n : nat) : bool :=
  match h with
  | [] => false
  | (CreateRegion m, true) :: r => (m =? n)%nat || created r n
  | _ :: r => created r n
  end.
Fixpoint regions_left_alone (h : history) : Prop :=
  match h with
  | [] => True
  | (AddSegment n _, true) :: r => created r n = false /\ regions_left_alone r
  | _ :: r => regions_left_alone r
  end.

(** *** The drawing that is wished for *)
Inductive wish :=
| WPad (pad : nat) (at_ : loc) (pol : polarity) (rotation : Q) (mirror_x mirror_y : bool) (scale : Q)
| WTrace (mode : plot_mode) (width : Q) (begin end_ : loc) (center : option loc)
| WRegion (begin : loc) (outline : list segment).
Fixpoint wishes (h : history) : list wish :=
  match h with
  | [] => []
  | (c, ok) :: r =>
      wishes r ++
      (if negb ok then [] else
       match c with
       | AddPad n p cut rot mx my sc =>
           match comes_from (spot r) p with
           | Some l => [WPad n l (if cut then Clear else Dark) rot mx my sc]
           | None => []
           end
       | AddLine w b e =>
           match both (comes_from (spot r) b) (goes_to (spot r) e) with
           | Some (b, e) => [WTrace PmLinear w b e None]
           | None => []
           end
       | AddArc cw w b e c =>
           match both (comes_from (spot r) b) (goes_to (spot r) e) with
           | Some (b, e) => [WTrace (if cw then PmArc else PmCcwArc) w b e (Some c)]
           | None => []
           end
       | CreateRegion n =>
           match nth_call r n with
           | Some (NewRegion b, _) => [WRegion b (close b (segments r n))]
           | _ => []
           end
       | _ => []
       end)
  end.

(** *** What a reader sees *)
(** [v] is [q] rounded to six decimals. *)
Definition near (q v : Q) : Prop :=
  (exists z, v == inject_Z z / 1000000) /\ Qabs (v - q) * 1000000 <= 1 # 2.
Definition near2 (p : loc) (x y : Q) : Prop := near (fst p) x /\ near (snd p) y.
(** [q] rounded to six decimals has at most four integer digits (9999.9999995 rounds up). *)
Definition fits (q : Q) : Prop := Qabs q < 19999999999 # 2000000.
Definition fits2 (p : loc) : Prop := fits (fst p) /\ fits (snd p).
(** Where an arc has its center, seen from its begin. *)
Definition seen_from (b c : loc) : loc := (fst c - fst b, snd c - snd b).
Definition segment_fits (s : osegment) : Prop :=
  fits2 (o_end s) /\ match s with OLine _ => True | OCw b c _ | OCcw b c _ => fits2 (seen_from b c) end.

(** With the format of the file, the text is read as [q] rounded to six decimals. *)
Definition reads (t : option str) (q : Q) : Prop :=
  exists s, t = Some s /\ forall st b, s_cf st = Some (MkCF SkipLeading Absolute 4 6 4 6) ->
    exists k, read_coord (K := Q) st b s = Ok k /\ near q k.
Definition reads2 (x y : option str) (p : loc) : Prop := reads x (fst p) /\ reads y (snd p).
(** The coordinates in the commands: D01 with the ends and centers of an outline. *)
Definition d01s (ns : list (node Q)) : list (option str * option str * option str * option str) :=
  flat_map (fun n => match n with ND01 x y i j => [(x, y, i, j)] | _ => [] end) ns.
Definition writes_center (i j : option str) (b : loc) (c : option loc) : Prop :=
  match c with Some c => reads2 i j (seen_from b c) | None => i = None /\ j = None end.
Definition o_begin_center (s : osegment) : loc * option loc :=
  match s with OLine e => (e, None) | OCw b c _ | OCcw b c _ => (b, Some c) end.

(** The expression has the value, whatever the variables are. *)
Definition is_const (e : expr Q) (q : Q) : Prop := forall scope, exists c, eval scope e = Ok c /\ c == q.
Definition is_bool (e : expr Q) (b : bool) : Prop := is_const e (if b then 1 else 0).
Definition is_point (x y : expr Q) (p : loc) : Prop := is_const x (fst p) /\ is_const y (snd p).
(** The primitive draws the figure.  An outline runs through the points of the client, starting
    and ending at the last one. *)
Definition draws_figure (f : figure) (p : prim Q) : Prop :=
  match f, p with
  | FgCircle on d c r, PCode1 e d' x y (Some r') => is_bool e on /\ is_const d' d /\ is_point x y c /\ is_const r' r
  | FgVectorLine on w a b r, PCode20 e w' ax ay bx by_ r' =>
      is_bool e on /\ is_const w' w /\ is_point ax ay a /\ is_point bx by_ b /\ is_const r' r
  | FgCenterLine on w h c r, PCode21 e w' h' x y r' =>
      is_bool e on /\ is_const w' w /\ is_const h' h /\ is_point x y c /\ is_const r' r
  | FgOutline on ps r, PCode4 e n x y pts r' =>
      is_bool e on /\ is_const n (inject_Z (Z.of_nat (length pts))) /\ is_const r' r /\
      Forall2 (fun p xy => is_point (fst xy) (snd xy) p) ps pts /\
      (exists front l, ps = front ++ [l] /\ is_point x y l)
  | FgPolygon on n c d r, PCode5 e n' x y d' r' =>
      is_bool e on /\ is_const n' (inject_Z n) /\ is_point x y c /\ is_const d' d /\ is_const r' r
  | FgThermal c o i g r, PCode7 _ x y o' i' g' r' =>
      is_point x y c /\ is_const o' o /\ is_const i' i /\ is_const g' g /\ is_const r' r
  | _, _ => False
  end.

Definition looks (macros : dict (list (prim Q))) (a : ad Q) (lk : look) : Prop :=
  match lk with
  | Plain t => ad_template a = t
  | Custom fs => exists name prims, ad_template a = TMacro name None /\ d_get name macros = Some prims /\
                   Forall2 draws_figure fs prims
  end.

Definition mirrors (m : mirroring) (x y : bool) : Prop :=
  match m with MirNone => x = false /\ y = false | MirX => x = true /\ y = false
  | MirY => x = false /\ y = true | MirXY => x = true /\ y = true end.
Definition placed (s : state Q) (pol : polarity) (rot : Q) (mx my : bool) (scale : Q) : Prop :=
  s_unit s = Metric /\ tr_polarity (s_tr s) = pol /\ tr_rotation (s_tr s) == rot /\
  mirrors (tr_mirroring (s_tr s)) mx my /\ tr_scaling (s_tr s) == scale.
Definition plain (s : state Q) : Prop := placed s Dark 0 false false 1.

(** A D01 from [b] to [e] around [c]. *)
Definition stroke (s : state Q) (b e : loc) (c : option loc) : Prop :=
  plain s /\ near2 b (s_cur_x s) (s_cur_y s) /\ near2 e (coordinate_x s) (coordinate_y s) /\
  match c with
  | Some c => near2 (fst c - fst b, snd c - snd b) (coordinate_i s) (coordinate_j s)
  | None => True
  end.
Definition seg_center (s : segment) : option loc := match s with SgLine _ => None | SgCw _ c => Some c | SgCcw _ c => Some c end.
Inductive outlined : loc -> list segment -> list (@call Q) -> Prop :=
| ol_nil b : outlined b [] []
| ol_cons b s r st cs : stroke st b (seg_end s) (seg_center s) -> outlined (seg_end s) r cs ->
    outlined b (s :: r)
      (CDraw (match seg_mode s with PmLinear => HRegionLine | PmArc => HRegionCwMq | PmCcwArc => HRegionCcwMq end) st :: cs).

(** The recorded calls are exactly this item. *)
Inductive shown (h : history) : wish -> list (@call Q) -> Prop :=
| sh_pad n l pol rot mx my sc lk a s :
    pad_look h n = Some lk -> looks (s_macros s) a lk -> placed s pol rot mx my sc ->
    near2 l (coordinate_x s) (coordinate_y s) ->
    shown h (WPad n l pol rot mx my sc)
      [CFlash (match lk with
               | Plain (TCircle _ _) => FCircle | Plain (TRect _ _ _) => FRect | Plain (TObround _ _ _) => FObround
               | Plain (TPolygon _ _ _ _) => FPolygon | _ => FMacro end) (ApAD a) s]
| sh_trace m w b e c a w' s :
    current_aperture s = Ok (ApAD a) -> ad_template a = TCircle w' None -> w' == w -> stroke s b e c ->
    shown h (WTrace m w b e c)
      [CDraw (match m with PmLinear => HDrawLine | PmArc => HDrawCwMq | PmCcwArc => HDrawCcwMq end) s]
| sh_region b segs cs s0 s1 :
    plain s0 -> plain s1 -> outlined b segs cs ->
    shown h (WRegion b segs) ([CStartRegion; CFlushRegion s0] ++ cs ++ [CFlushRegion s1; CEndRegion]).
Definition drawn (h : history) (ws : list wish) (cs : list (@call Q)) : Prop :=
  exists parts, cs = concat parts /\ Forall2 (shown h) ws parts.

(** *** Plot modes *)
(** [RegionCreator.create] writes G01/G02/G03 without telling the builder.  A trace in the
    mode of the previous trace is drawn in the mode the last region ended with.  [told]: mode
    of the last trace, [real]: mode of the last trace or region segment. *)
Fixpoint slip (told : option plot_mode) (real : plot_mode) (ws : list wish) : list wish :=
  match ws with
  | [] => []
  | WTrace m w b e c :: r =>
      let m' := if match told with Some t => mode_eqb t m | None => false end then real else m in
      WTrace m' w b e c :: slip (Some m) m' r
  | WRegion b segs :: r => WRegion b segs :: slip told (match rev segs with s :: _ => seg_mode s | [] => real end) r
  | w :: r => w :: slip told real r
  end.
Definition in_step (ws : list wish) : Prop := slip None PmLinear ws = ws.

(** *** Ids and attributes of pads (C39) *)
Definition ids_of (ns : list (node Q)) : list str := flat_map (fun n => match n with NAD a => [ad_id a] | _ => [] end) ns.
Definition names_of (ns : list (node Q)) : list str := flat_map (fun n => match n with NAM m _ => [m] | _ => [] end) ns.
(** The attribute called [k] that was last set on pad number [n]. *)
Fixpoint attribute (h : history) (n : nat) (k : str) : option attr :=
  match h with
  | [] => None
  | (SetFunction m v, true) :: r =>
      if (m =? n)%nat && str_eqb k (lit ".AperFunction") then Some (MkAttr k [v]) else attribute r n k
  | (SetDrill m a b, true) :: r =>
      if (m =? n)%nat && str_eqb k (lit ".DrillTolerance") then Some (MkAttr k [q_text a; q_text b]) else attribute r n k
  | (SetCustom m name vs, true) :: r =>
      if (m =? n)%nat && str_eqb k name then Some (MkAttr k vs) else attribute r n k
  | _ :: r => attribute r n k
  end.
(** Custom attributes do not reuse the standard names. *)
Definition own_names (cs : list bcall) : Prop :=
  Forall (fun c => match c with
                   | SetCustom _ k _ => k <> lit ".AperFunction" /\ k <> lit ".DrillTolerance"
                   | _ => True end) cs.

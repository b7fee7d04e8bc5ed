(** Specification for C80: the image that the calls of a builder ask for. *)
From Coq Require Import Reals Qreals.
From Verif Require Import Base Num NumReal Dict CoordModel Ast StateModel GbModel GbSpec GeomModel CompilerModel.
From Verif Require GeoSpec FigSpec RenderSpec.

(** ** Reading the numbers of a file as real numbers *)
Section Real.
  Local Notation r := Q2R.
  Fixpoint real_expr (e : expr Q) : expr R :=
    match e with
    | EConst c => EConst (r c)
    | EVar v => EVar v
    | EParen e => EParen (real_expr e)
    | ENeg e => ENeg (real_expr e)
    | EPos e => EPos (real_expr e)
    | EAdd h t => EAdd (real_expr h) (map real_expr t)
    | ESub h t => ESub (real_expr h) (map real_expr t)
    | EMul h t => EMul (real_expr h) (map real_expr t)
    | EDiv h t => EDiv (real_expr h) (map real_expr t)
    end.
  Definition real_prim (p : prim Q) : prim R :=
    let f := real_expr in
    match p with
    | PAssign v e => PAssign v (f e)
    | PCode0 s => PCode0 s
    | PCode1 a b c d r => PCode1 (f a) (f b) (f c) (f d) (option_map f r)
    | PCode2 a b c d e g h => PCode2 (f a) (f b) (f c) (f d) (f e) (f g) (f h)
    | PCode4 a b c d pts r => PCode4 (f a) (f b) (f c) (f d) (map (fun q => (f (fst q), f (snd q))) pts) (f r)
    | PCode5 a b c d e g => PCode5 (f a) (f b) (f c) (f d) (f e) (f g)
    | PCode6 a b c d e g h i j => PCode6 (f a) (f b) (f c) (f d) (f e) (f g) (f h) (f i) (f j)
    | PCode7 u a b c d e g => PCode7 u (f a) (f b) (f c) (f d) (f e) (f g)
    | PCode20 a b c d e g h => PCode20 (f a) (f b) (f c) (f d) (f e) (f g) (f h)
    | PCode21 a b c d e g => PCode21 (f a) (f b) (f c) (f d) (f e) (f g)
    | PCode22 a b c d e g => PCode22 (f a) (f b) (f c) (f d) (f e) (f g)
    end.
  Definition real_template (t : template Q) : template R :=
    match t with
    | TCircle d h => TCircle (r d) (option_map r h)
    | TRect a b h => TRect (r a) (r b) (option_map r h)
    | TObround a b h => TObround (r a) (r b) (option_map r h)
    | TPolygon d v a h => TPolygon (r d) v (option_map r a) (option_map r h)
    | TMacro n ps => TMacro n (option_map (map r) ps)
    end.
  Definition real_ad (a : ad Q) : ad R := MkAD (ad_id a) (real_template (ad_template a)).
  Fixpoint real_node (n : node Q) : node R :=
    match n with
    | NAB id body => NAB id (map real_node body)
    | NSR u h body => NSR u h (map real_node body)
    | NAD a => NAD (real_ad a)
    | NAM n ps => NAM n (map real_prim ps)
    | NTA a => NTA a | NTF a => NTF a | NTO a => NTO a | NTD n => NTD n
    | ND01 x y i j => ND01 x y i j | ND02 x y => ND02 x y | ND03 x y => ND03 x y
    | NDnn id => NDnn id | NG g => NG g | NG04 s => NG04 s
    | NLM m => NLM m | NLN n => NLN n | NLP p => NLP p | NLR k => NLR (r k) | NLS k => NLS (r k)
    | NM00 => NM00 | NM01 => NM01 | NM02 => NM02
    | NAS c => NAS c | NFS f => NFS f | NIN n => NIN n | NIP p => NIP p | NIR d => NIR d
    | NMI a b => NMI a b | NMO u => NMO u | NOF a b => NOF (option_map r a) (option_map r b) | NSF a b => NSF (r a) (r b)
    | NInvalid s => NInvalid s
    end.
End Real.

Import GeoSpec.
Open Scope R_scope.
Local Notation figure := FigSpec.figure.

(** The place rounded to six decimals. *)
Definition rounded (l : loc) (P : vec R) : Prop := exists x y : Q, near2 l x y /\ P = MkVec (Q2R x) (Q2R y).
Definition spot_of (l : loc) : vec R := MkVec (Q2R (fst l)) (Q2R (snd l)).

(** Scaled, turned by [rot] degrees and mirrored. *)
Definition put (rot : R) (mx my : bool) (sc : R) (p : vec R) : vec R :=
  let q := turn rot (times sc p) in MkVec (if mx then - vx q else vx q) (if my then - vy q else vy q).

Section Depict.
  (** The points inside of a shape. *)
  Context (inside : shape R -> vec R -> Prop).
  Local Notation object := RenderSpec.object.
  Local Notation seen := RenderSpec.seen.
  Local Notation moved_to := RenderSpec.moved_to.

  (** The object is the inside of a shape with this outline; [ok]: if the figure is one. *)
  Definition shaped (ok : Prop) (f : figure) (neg : bool) (o : object) : Prop :=
    exists s, (ok -> forall p, outline s p <-> f p) /\ o = (neg, inside s).
  (** The same for the figure put elsewhere. *)
  Definition shaped_at (ok : Prop) (place : vec R -> vec R) (f : figure) (neg : bool) (o : object) : Prop :=
    exists s, (ok -> forall p, outline s (place p) <-> f p) /\ o = (neg, inside s).

  (** *** Pads *)
  (** The figures of a standard aperture around the origin; [true] for a hole. *)
  Definition hole_figure (h : option Q) : list (bool * figure) :=
    match h with Some h => [(true, circle_line origin (Q2R h))] | None => [] end.
  Definition plain_figures (t : template Q) : list (bool * figure) :=
    match t with
    | TCircle d h => (false, circle_line origin (Q2R d)) :: hole_figure h
    | TRect x y h => (false, rectangle_line origin (Q2R x) (Q2R y)) :: hole_figure h
    | TObround x y h => (false, obround_line origin (Q2R x) (Q2R y)) :: hole_figure h
    | TPolygon d n r h =>
        (false, FigSpec.ngon origin (Q2R d) (Z.to_nat n) (match r with Some r => Q2R r | None => 0 end)) :: hole_figure h
    | TMacro _ _ => []
    end.
  (** The figure a client adds to a custom pad, as an object.  An outline is closed by a line
      from its last point to its first.  A thermal is a ring with a cross of gaps. *)
  Inductive added (place : vec R -> vec R) : GbModel.figure -> object -> Prop :=
  | ad_circle on d c r o :
      shaped_at True place (FigSpec.turned (Q2R r) (circle_line (spot_of c) (Q2R d))) (negb on) o ->
      added place (FgCircle on d c r) o
  | ad_line on w a b r o :
      shaped_at True place (FigSpec.turned (Q2R r) (band_line (spot_of a) (spot_of b) (Q2R w))) (negb on) o ->
      added place (FgVectorLine on w a b r) o
  | ad_rect on w h c r o :
      shaped_at True place (FigSpec.turned (Q2R r) (rectangle_line (spot_of c) (Q2R w) (Q2R h))) (negb on) o ->
      added place (FgCenterLine on w h c r) o
  | ad_outline on front l r o :
      shaped_at True place (FigSpec.turned (Q2R r) (FigSpec.path_line (map spot_of (l :: front ++ [l])))) (negb on) o ->
      added place (FgOutline on (front ++ [l]) r) o
  | ad_polygon on n c d r o :
      shaped_at True place (FigSpec.turned (Q2R r) (FigSpec.ngon (spot_of c) (Q2R d) (Z.to_nat n) 0)) (negb on) o ->
      added place (FgPolygon on n c d r) o
  | ad_thermal c outer inner gap r len rings rs bars :
      Q2R outer <= len ->
      Permutation.Permutation (FigSpec.half_rings origin (Q2R outer) (Q2R inner)) rings ->
      Forall2 (fun f o => shaped_at True place (FigSpec.turned (Q2R r) f) false o) rings rs ->
      Forall2 (fun f o => shaped_at True place (FigSpec.turned (Q2R r) f) true o)
        [band_line (MkVec (- (len / 2)) 0) (MkVec (len / 2) 0) (Q2R gap);
         band_line (MkVec 0 (- (len / 2))) (MkVec 0 (len / 2)) (Q2R gap)] bars ->
      added place (FgThermal c outer inner gap r) (false, moved_to (place (turn (Q2R r) (spot_of c))) (seen (rs ++ bars))).
  Definition pad_objects (place : vec R -> vec R) (lk : look) (os : list object) : Prop :=
    match lk with
    | Plain t => Forall2 (fun f o => shaped_at True place (snd f) (fst f) o) (plain_figures t) os
    | Custom fs => Forall2 (added place) fs os
    end.

  (** *** Traces: discs at both ends and a bar or a ring segment between them; the ring segment
      of a closed trace is made of two halves, and both discs are on it. *)
  Definition disc (P : vec R) (w : R) : object -> Prop := shaped True (circle_line P w) false.
  Inductive traced (w : R) : plot_mode -> vec R -> vec R -> vec R -> list object -> Prop :=
  | tr_line B E C d bar d' : disc B w d -> shaped (B <> E) (band_line B E w) false bar -> disc E w d' ->
      traced w PmLinear B E C [d; bar; d']
  | tr_arc m B E C d ring d' : m <> PmLinear -> B <> E -> disc B w d ->
      shaped (B <> C /\ dist B C = dist E C)
        (match m with PmArc => ring_line B E C w | _ => ring_line E B C w end) false ring -> disc E w d' ->
      traced w m B E C [d; ring; d']
  | tr_full m B C (l r : vec R) d r1 r2 d' : m <> PmLinear ->
      l = minus C (MkVec (dist B C) 0) -> r = plus C (MkVec (dist B C) 0) -> disc B w d ->
      shaped (B <> C) (match m with PmArc => ring_line l r C w | _ => ring_line r l C w end) false r1 ->
      shaped (B <> C) (match m with PmArc => ring_line r l C w | _ => ring_line l r C w end) false r2 ->
      disc r w d' ->
      traced w m B B C [d; r1; r2; d'].

  (** *** Regions: the outline through the rounded points; the centre of an arc is its start plus
      the rounded distance to the centre asked for. *)
  Inductive around : loc -> vec R -> list segment -> list (seg R) -> Prop :=
  | ar_done b B : around b B [] []
  | ar_line b B e E segs l : rounded e E -> around e E segs l -> around b B (SgLine e :: segs) (SLine B E :: l)
  | ar_arc b B s (cw : bool) e c E O segs l : s = (if cw then SgCw e c else SgCcw e c) ->
      rounded e E -> rounded (seen_from b c) O -> around e E segs l ->
      B <> E ->
      around b B (s :: segs) (SArc B E (plus B O) cw :: l)
  | ar_full b B s (cw : bool) e c O segs l : s = (if cw then SgCw e c else SgCcw e c) ->
      rounded e B -> rounded (seen_from b c) O -> around e B segs l ->
      around b B (s :: segs) (SArc B (plus (plus B O) O) (plus B O) cw :: SArc (plus (plus B O) O) B (plus B O) cw :: l).

  (** *** What becomes of a wish *)
  Inductive depicted (h : history) : wish -> list object -> Prop :=
  | dp_pad n l pol rot mx my sc lk P os : pad_look h n = Some lk -> rounded l P ->
      pad_objects (put (Q2R rot) mx my (Q2R sc)) lk os ->
      depicted h (WPad n l pol rot mx my sc) [(match pol with Clear => true | Dark => false end, moved_to P (seen os))]
  | dp_line w b e B E os : rounded b B -> rounded e E -> traced (Q2R w) PmLinear B E B os ->
      depicted h (WTrace PmLinear w b e None) os
  | dp_arc m w b e c B E O os : rounded b B -> rounded e E -> rounded (seen_from b c) O ->
      traced (Q2R w) m B E (plus B O) os -> depicted h (WTrace m w b e (Some c)) os
  | dp_none b : depicted h (WRegion b []) []
  | dp_region b B segs l : segs <> [] -> rounded b B -> around b B segs l ->
      depicted h (WRegion b segs) [(false, inside (MkShape l false None))].
  Definition depicts (h : history) (ws : list wish) (os : list object) : Prop :=
    exists parts, os = concat parts /\ Forall2 (depicted h) ws parts.
End Depict.

(** *** Calls that make sense *)
(** Holes fit into the aperture; see [C33_outline_partial] for the rotation of polygons. *)
Definition fits_in (h : option Q) (q : Q) : Prop := match h with Some h => (0 < h <= q)%Q | None => True end.
Definition sound_template (t : template Q) : Prop :=
  match t with
  | TCircle d h => (0 < d)%Q /\ fits_in h d
  | TRect x y h | TObround x y h => (0 < x)%Q /\ (0 < y)%Q /\ fits_in h x /\ fits_in h y
  | TPolygon d n r h => (0 < d)%Q /\ (3 <= n)%Z /\ fits_in h d /\
      match r with Some r => r_mod360 (Q2R r) < 2 * (360 / IZR n) | None => True end
  | TMacro _ _ => False
  end.
(** Rotated polygons of macros are not drawn as documented ([C59_polygon_refuted]). *)
Definition sound_figure (f : GbModel.figure) : Prop :=
  match f with
  | FgCircle _ d _ _ => (0 < d)%Q
  | FgVectorLine _ w a b _ => (0 < w)%Q /\ spot_of a <> spot_of b
  | FgCenterLine _ w h _ _ => (0 < w)%Q /\ (0 < h)%Q
  | FgOutline _ ps _ => ps <> []
  | FgPolygon _ n _ d r => (3 <= n)%Z /\ (0 < d)%Q /\ exists z, (r == inject_Z (z * 360))%Q
  | FgThermal _ o i g _ => (0 < g)%Q /\ Q2R g * sqrt 2 < Q2R i /\ (i < o)%Q
  end.
(** Made of straight lines and full circles. *)
Definition unbent (lk : look) : Prop :=
  match lk with
  | Plain (TObround _ _ _) => False
  | Plain _ => True
  | Custom fs => Forall (fun f => match f with FgThermal _ _ _ _ _ => False | _ => True end) fs
  end.
(** Scaled by a positive number; other figures are not turned by an odd number of right angles
    ([C32_right_angle_refuted]). *)
Definition sound_wish (h : history) (w : wish) : Prop :=
  match w with
  | WPad n _ _ rot _ _ sc =>
      (0 < sc)%Q /\
      match pad_look h n with
      | Some lk => match lk with Plain t => sound_template t | Custom fs => Forall sound_figure fs end /\
                   (unbent lk \/ cos (deg (Q2R rot)) <> 0)
      | None => True
      end
  | WTrace _ w _ _ _ => (0 < w)%Q
  | WRegion _ _ => True
  end.

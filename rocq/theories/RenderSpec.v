(** Specification vocabulary for C56 and C64: the image of a program made of layers, and the
    image of a Gerber file. *)
From Coq Require Import Reals.
From Verif Require Import Base Num NumReal Dict CoordModel Ast StateModel StateSpec GeomModel CompilerModel LayerSpec VmModel VmSpec
  DrawSpec FlashSpec PaintSpec.

Open Scope R_scope.

(** Numbers with other texts. *)
Definition with_text {K} (NK : Num K) (text : K -> str) : Num K := {|
  n_of_Q := n_of_Q; n_add := n_add; n_sub := n_sub; n_mul := n_mul; n_div := n_div; n_opp := n_opp; n_abs := n_abs;
  n_eqb := n_eqb; n_ltb := n_ltb; n_leb := n_leb; n_sqrt := n_sqrt; n_cosd := n_cosd; n_sind := n_sind;
  n_atan2d := n_atan2d; n_mod360 := n_mod360; n_trunc := n_trunc; n_repr := text |}.

Section Plane.
  (** The points inside of a shape. *)
  Context (inside : shape R -> vec R -> Prop).

  (** Every layer shows its own drawings; pasted layers are shifted to the given place. *)
  Definition layered (ls : list (str * list (draw R))) (shows : str -> vec R -> Prop) : Prop :=
    forall id ds, In (id, ds) ls -> forall p,
      shows id p <-> dark (plane_covers inside (fun _ => MkVec 0 0) shows id) ds p.

  (** Objects: a set of points, made dark ([false]) or clear ([true]).  What is [seen] of a
      list of them: points in a dark object that are in no later clear object. *)
  Definition object : Type := bool * (vec R -> Prop).
  Definition seen (os : list object) (p : vec R) : Prop :=
    exists before o after, os = before ++ o :: after /\ fst o = false /\ snd o p /\
      Forall (fun e => fst e = true -> ~ snd e p) after.
  Definition moved_to (c : vec R) (s : vec R -> Prop) (p : vec R) : Prop := s (less_v p c).

  (** The objects of drawings transformed by [M]; drawings may be layers of [table]. *)
  Inductive figure (table : dict (buffer R)) (M : mat R) : list (draw R) -> list object -> Prop :=
  | fg_nil : figure table M [] []
  | fg_shape s s' ds os : FlashSpec.image M s s' -> figure table M ds os ->
      figure table M (DShape s :: ds) ((sh_neg s, inside s') :: os)
  | fg_group q b os ds os' : d_get (pa_src q) table = Some b -> figure table M (bf_cmds b) os -> figure table M ds os' ->
      figure table M (DPaste q :: ds) ((pa_neg q, moved_to (v_transform M (pa_center q)) (seen os)) :: os').

  (** The objects of an aperture defined in [pre], transformed by [M]. *)
  Definition aperture_figure (text : R -> str) (md : bool) (clock : nat -> Z) (pre : list (node R)) (a : ad R) (M : mat R) (os : list object) : Prop :=
    exists p q s x0 x1 b, pre = p ++ NAD a :: q /\ (forall name, d_get name (s_macros s) = macros_of p name) /\
      @on_aperture R (with_text NumR text) md clock a s x0 = Ok x1 /\ NoDup (c_stamps x1) /\ d_get (ad_id a) (c_buffers x1) = Some b /\ figure (c_buffers x1) M (bf_cmds b) os.
End Plane.

Section Strokes.
  Context {K : Type} {NK : Num K}.
  (** The latest definition of the selected aperture. *)
  Definition selected_as (pre : list (node K)) (a : ad K) : Prop :=
    latest_selection pre = Some (ad_id a) /\ exists p q, pre = p ++ NAD a :: q /\ ~ In (ad_id a) (ad_codes q).
  (** What a D01 outside of regions draws: discs at both ends, and a bar or an arc around the
      centre (for coinciding end points, two half circles through the left- and rightmost point). *)
  Definition arc_of (cw : bool) (a b c : vec K) (th : K) (neg : bool) (m : meta) : draw K :=
    DShape (if cw then new_cw_arc a b c th neg m else new_ccw_arc a b c th neg m).
  Definition stroked (pre : list (node K)) (n : node K) (th : K) (m : meta) : list (draw K) :=
    let a := pen_vec pre in let b := pen_vec (pre ++ [n]) in
    let o := last_offset (pre ++ [n]) in let c := plus a o in
    let neg := clear_at pre in
    let disc p := DShape (new_circle p th neg m) in
    let arc cw := if v_eqb a b
                  then let l := MkVec (n_sub (vx c) (v_len o)) (vy c) in let r := MkVec (n_add (vx c) (v_len o)) (vy c) in
                       [disc a; arc_of cw l r c th neg m; arc_of cw r l c th neg m; disc r]
                  else [disc a; arc_of cw a b c th neg m; disc b] in
    match plot_of pre, arc_mode pre with
    | PmLinear, _ => line_stroke a b th neg m
    | _, SingleQuadrant => []
    | PmArc, _ => arc true
    | PmCcwArc, _ => arc false
    end.
End Strokes.

(** Stroke widths: the diameter of circles and polygons.  For rectangles and obrounds the end
    point [e] of the stroke, seen from the origin, decides how much of width and height
    counts; the width itself for the origin. *)
Definition wide (e : vec R) (a : ad R) (th : R) : Prop :=
  match ad_template a with
  | TCircle d _ | TPolygon d _ _ _ => th = d
  | TRect w h _ | TObround w h _ =>
      0 <= th /\ th * th * (vx e * vx e + vy e * vy e) = (w * vx e) * (w * vx e) + (h * vy e) * (h * vy e) /\
      (e = MkVec 0 0 -> th = Rabs w)
  | TMacro _ _ => False
  end.

Section Picture.
  Context (inside : shape R -> vec R -> Prop) (text : R -> str) (md : bool) (clock : nat -> Z).
  (** The numbers of the compiler; only their texts differ from [NumR]. *)
  Notation NT := (with_text NumR text).
  Definition shape_object (d : draw R) (o : object) : Prop := exists s, d = DShape s /\ o = (sh_neg s, inside s).
  (** What one command adds to the picture, given the commands before it. *)
  Definition pictured (pre : list (node R)) (n : node R) (os : list object) : Prop :=
    match n with
    | ND03 _ _ => exists a fs, selected_as pre a /\ aperture_figure inside text md clock pre a (matrix_at (NK := NT) pre) fs /\
        os = [(clear_at pre, moved_to (pen_vec (NK := NT) (pre ++ [n])) (seen fs))]
    | _ => exists ds, Forall2 shape_object ds os /\ draws (NK := NT) pre n ds /\
        match n with
        | ND01 _ _ _ _ => in_region pre = false -> plot_of pre = PmLinear \/ arc_mode pre = MultiQuadrant ->
            exists a th m, selected_as pre a /\ wide (pen_vec (NK := NT) (pre ++ [n])) a th /\ ds = stroked (NK := NT) pre n th m
        | _ => True
        end
    end.
  Inductive picture : list (node R) -> list object -> Prop :=
  | pic_nil : picture [] []
  | pic_step pre os n new : picture pre os -> pictured pre n new -> picture (pre ++ [n]) (os ++ new).
End Picture.

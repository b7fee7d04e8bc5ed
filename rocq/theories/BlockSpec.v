(** Specification vocabulary for C64 with blocks: pictures as trees, and the pictures that
    commands, block apertures (AB) and step and repeat blocks (SR) add. *)
From Coq Require Import Reals.
From Verif Require Import Base Num NumReal Dict CoordModel Ast StateModel StateSpec GeomModel CompilerModel LayerSpec
  DrawSpec FlashSpec PlaceSpec RenderSpec InkSpec.

Section Spec.
  Context {K : Type} {NK : Num K}.

  (** A shape, or a group of pictures put at [c] as a whole, dark or clear. *)
  Inductive pic := PShape (s : shape K) | PGroup (neg : bool) (c : vec K) (l : list pic).

  (** [p'] is [p] transformed; groups keep their polarity. *)
  Inductive pic_image (M : mat K) : pic -> pic -> Prop :=
  | pi_shape s s' : FlashSpec.image M s s' -> pic_image M (PShape s) (PShape s')
  | pi_group neg c l l' : Forall2 (pic_image M) l l' -> pic_image M (PGroup neg c l) (PGroup neg (v_transform M c) l').
  (** [p] moved by [t]. *)
  Definition displace (t : vec K) (p : pic) : pic :=
    match p with PShape s => PShape (move_shape t s) | PGroup neg c l => PGroup neg (plus c t) l end.
  (** Copies of [l], columns first; copy (i, j) is moved by [at0] + (i dx, j dy). *)
  Definition repeated (at0 : vec K) (nx ny : nat) (dx dy : K) (l : list pic) : list pic :=
    flat_map (fun ij => map (displace (plus at0 (MkVec (times (fst ij) dx) (times (snd ij) dy)))) l)
             (list_prod (seq 0 nx) (seq 0 ny)).

  (** The picture of a drawing whose pasted layers are in [table]. *)
  Inductive depicts (table : dict (buffer K)) : draw K -> pic -> Prop :=
  | dp_shape s : depicts table (DShape s) (PShape s)
  | dp_group q b l : d_get (pa_src q) table = Some b -> Forall2 (depicts table) (bf_cmds b) l ->
      depicts table (DPaste q) (PGroup (pa_neg q) (pa_center q) l).

  (** [width e a th]: strokes of aperture [a] that end at [e] are [th] wide. *)
  Context (width : vec K -> ad K -> K -> Prop) (md : bool) (clock : nat -> Z).
  (** The pictures of an aperture defined in [pre]. *)
  Definition aperture_pics (pre : list (node K)) (a : ad K) (l : list pic) : Prop :=
    exists p q s x0 x1 b, pre = p ++ NAD a :: q /\ (forall name, d_get name (s_macros s) = macros_of p name) /\
      on_aperture md clock a s x0 = Ok x1 /\ d_get (ad_id a) (c_buffers x1) = Some b /\
      Forall2 (depicts (c_buffers x1)) (bf_cmds b) l.
  Definition shape_pic (d : draw K) (p : pic) : Prop := exists s, d = DShape s /\ p = PShape s.

  (** What a command adds, given the commands before it and the pictures [B] of the block
      apertures defined before it.  A flash puts an aperture as one group, but the pictures of
      a block aperture one by one. *)
  Definition leaf_pics (pre : list (node K)) (B : dict (list pic)) (n : node K) (ps : list pic) : Prop :=
    match n with
    | ND03 _ _ =>
        (exists a l l', selected_as pre a /\ aperture_pics pre a l /\ Forall2 (pic_image (matrix_at pre)) l l' /\
           ps = [PGroup (clear_at pre) (pen_vec (pre ++ [n])) l']) \/
        (exists id l l', latest_selection pre = Some id /\ ~ In id (ad_codes pre) /\ d_get id B = Some l /\
           Forall2 (pic_image (matrix_at pre)) l l' /\ ps = map (displace (pen_vec (pre ++ [n]))) l')
    | _ => exists ds, Forall2 shape_pic ds ps /\ draws pre n ds /\ (ds <> [] <-> marks pre n) /\
        match n with
        | ND01 _ _ _ _ => in_region pre = false -> plot_of pre = PmLinear \/ arc_mode pre = MultiQuadrant ->
            exists a th m, selected_as pre a /\ width (pen_vec (pre ++ [n])) a th /\ ds = stroked pre n th m
        | _ => True
        end
    end.

  (** Blocks: the pictures of an AB block are kept under its code, those of an SR block are
      repeated.  [pre'] and [B'] are the commands executed and the block apertures defined
      afterwards. *)
  Inductive node_pics : list (node K) -> dict (list pic) -> node K -> list (node K) -> dict (list pic) -> list pic -> Prop :=
  | np_command pre B n ps : match n with NAB _ _ | NSR _ _ _ => False | _ => True end -> leaf_pics pre B n ps -> node_pics pre B n (pre ++ [n]) B ps
  | np_block pre B id body pre' B' l : list_pics pre B body pre' B' l ->
      node_pics pre B (NAB id body) (pre' ++ [NAB id []]) ((id, l) :: B') []
  | np_repeat pre B u h body pre' B' l nx ny dx dy : list_pics pre B body pre' B' l -> header_means h nx ny dx dy ->
      node_pics pre B (NSR u h body) pre' B' (repeated (pen_vec pre') nx ny dx dy l)
  with list_pics : list (node K) -> dict (list pic) -> list (node K) -> list (node K) -> dict (list pic) -> list pic -> Prop :=
  | lp_nil pre B : list_pics pre B [] pre B []
  | lp_cons pre B n pre1 B1 a r pre2 B2 b : node_pics pre B n pre1 B1 a -> list_pics pre1 B1 r pre2 B2 b ->
      list_pics pre B (n :: r) pre2 B2 (a ++ b).

  (** Top level nodes up to the first M00 or M02, if the walk ends there. *)
  Fixpoint reached (ips : bool) (ns : list (node K)) : list (node K) :=
    match ns with
    | [] => []
    | n :: r => n :: match n with NM00 | NM02 => if ips then [] else reached ips r | _ => reached ips r end
    end.
  Definition file_pics (ips : bool) (ns : list (node K)) (ps : list pic) : Prop :=
    exists B, list_pics [] [] (reached ips ns) (executed_file ips ns) B ps.

  (** Codes of the AB blocks left, in order. *)
  Definition ab_code (n : node K) : list str := match n with NAB id _ => [id] | _ => [] end.
  Definition ab_codes (pre : list (node K)) : list str := flat_map ab_code pre.
End Spec.
Arguments pic K : clear implicits.

(** The objects of pictures. *)
Fixpoint pic_object (inside : shape R -> vec R -> Prop) (p : pic R) : object :=
  match p with
  | PShape s => (sh_neg s, inside s)
  | PGroup neg c l => (neg, moved_to c (seen (map (pic_object inside) l)))
  end.

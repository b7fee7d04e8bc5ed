(** Specification vocabulary for C14, C17 and C19: moving drawings by a vector, step and
    repeat headers, discs. *)
From Verif Require Import Base Num Dict CoordModel CoordSpec Ast StateModel StateSpec GeomModel CompilerModel DrawSpec.

Section Spec.
  Context {K : Type} {NK : Num K}.

  (** Everything moved by [t], nothing else changed. *)
  Definition move_seg (t : vec K) (s : seg K) : seg K :=
    match s with
    | SLine a b => SLine (plus a t) (plus b t)
    | SArc a b c cw => SArc (plus a t) (plus b t) (plus c t) cw
    end.
  Definition move_shape (t : vec K) (s : shape K) : shape K :=
    MkShape (map (move_seg t) (sh_segs s)) (sh_neg s) (sh_meta s).
  Definition move (t : vec K) (d : draw K) : draw K :=
    match d with
    | DShape s => DShape (move_shape t s)
    | DPaste p => DPaste (MkPaste (pa_src p) (plus (pa_center p) t) (pa_neg p) (pa_meta p))
    end.

  (** Whole numbers, and decimal numbers as fractions: a sign, digits, and a point between them. *)
  Definition int_text (t : str) (z : Z) : Prop :=
    exists sg ds v, SignedText sg ds t /\ ds <> [] /\ spec_value ds = Some v /\ z = (sg * v)%Z.
  Definition dec_text (t : str) (q : Q) : Prop :=
    exists sg i f ds v, SignedText sg ds t /\ (ds = i ++ "."%char :: f \/ ds = i /\ f = []) /\ i ++ f <> [] /\
      spec_value (i ++ f) = Some v /\ q = Qmake (sg * v) (Z.to_pos (10 ^ Z.of_nat (length f))).
  (** A step and repeat header read as numbers: missing counts are 1, missing steps 0. *)
  Definition count_means (t : option str) (n : nat) : Prop :=
    match t with None => n = 1%nat | Some t => int_text t (Z.of_nat n) /\ (0 < n)%nat end.
  Definition step_means (t : option str) (k : K) : Prop :=
    match t with None => k = n0 | Some t => exists q, dec_text t q /\ k = n_of_Q q end.
  Definition header_means (h : sropen) (nx ny : nat) (dx dy : K) : Prop :=
    count_means (sr_x h) nx /\ count_means (sr_y h) ny /\ step_means (sr_i h) dx /\ step_means (sr_j h) dy.
  (** The copies, columns first; copy (i, j) is moved by [at0] + (i dx, j dy). *)
  Definition times (n : nat) (k : K) : K := n_mul (n_of_Z (Z.of_nat n)) k.
  Definition copies (at0 : vec K) (nx ny : nat) (dx dy : K) (body : list (draw K)) : list (draw K) :=
    flat_map (fun ij => map (move (plus at0 (MkVec (times (fst ij) dx) (times (snd ij) dy)))) body)
             (list_prod (seq 0 nx) (seq 0 ny)).

  (** A full disc: two half circles, clockwise. *)
  Definition disc (c : vec K) (r : K) (s : shape K) : Prop :=
    let w := MkVec (n_sub (vx c) r) (vy c) in let e := MkVec (n_add (vx c) r) (vy c) in
    sh_segs s = [SArc w e c true; SArc e w c true].

  (** Two states that differ by a translation of the current point and the coordinates. *)
  Definition translated (t : vec K) (s s' : state K) : Prop :=
    exists x y, s_x s = Some x /\ s_y s = Some y /\
      s' = set_cur (n_add (s_cur_x s) (vx t)) (n_add (s_cur_y s) (vy t))
             (set_xyij (Some (n_add x (vx t))) (Some (n_add y (vy t))) (s_i s) (s_j s) s).
  (** The effect of a callback: shapes added to the current buffer, segments to the contour. *)
  Definition effect (x x' : cstate K) (ds : list (draw K)) (segs : list (seg K)) : Prop :=
    (forall b, current x = Some b -> exists b', current x' = Some b' /\ bf_cmds b' = bf_cmds b ++ ds) /\
    match c_contour x with
    | Some l => c_contour x' = Some (l ++ segs)
    | None => segs = [] /\ c_contour x' = None
    end.
  Definition round_template (t : template K) : bool :=
    match t with TCircle _ _ | TPolygon _ _ _ _ => true | _ => false end.

  (** The dimensions that limit a hole, and the requested hole. *)
  Definition outer_dims (t : template K) : list K :=
    match t with
    | TCircle d _ => [d] | TRect w h _ | TObround w h _ => [w; h] | TPolygon d _ _ _ => [d] | TMacro _ _ => []
    end.
  Definition hole_req (t : template K) : option K :=
    match t with
    | TCircle _ h | TRect _ _ h | TObround _ _ h | TPolygon _ _ _ h => h
    | TMacro _ _ => None
    end.
End Spec.

(** Specification vocabulary for C16: points of walks whose blocks have known codes, copies
    of layers under a transformation, and the layer of an aperture definition. *)
From Verif Require Import Base Num Dict CoordModel Ast StateModel StateSpec GeomModel CompilerModel LayerSpec DrawSpec.

Section Spec.
  Context {K : Type} {NK : Num K}.

  (** [at_point] of [DrawSpec], with all blocks opened under codes in [ABs] and
      step-and-repeat layers named as the compiler names them. *)
  Section Points.
    Context {X : Type} (H : hooks K X) (x0 : X) (ABs : str -> Prop).
    Inductive named_point : list (node K) -> visitor K X -> Prop :=
    | np_start : named_point [] (visitor_init x0)
    | np_leaf pre v n v' : named_point pre v -> match n with NAB _ _ | NSR _ _ _ => False | _ => True end ->
        visit_leaf H n v = Done v' \/ visit_leaf H n v = Stop v' -> named_point (pre ++ [n]) v'
    | np_ab_enter pre v id : named_point pre v -> ABs id -> named_point pre (ab_enter H id v)
    | np_ab_leave pre v id : named_point pre v -> ABs id -> named_point (pre ++ [NAB id []]) (ab_leave H id v)
    | np_sr_enter pre v uid : named_point pre v -> named_point pre (snd (sr_enter H uid v))
    | np_sr_leave pre v uid t hdr v' : named_point pre v ->
        sr_leave H (lit "%%SR%" ++ z_repr uid ++ lit "%" ++ z_repr t) hdr v = Done v' -> named_point pre v'.
  End Points.

  (** The codes defined by AD, in order. *)
  Definition ad_code (n : node K) : list str := match n with NAD a => [ad_id a] | _ => [] end.
  Definition ad_codes (pre : list (node K)) : list str := flat_map ad_code pre.

  (** [s'] is made of the segments of [s] with all their points mapped.  Arcs keep their
      direction if the scale factors of both axes have the same sign, as the program sees it. *)
  Definition seg_image (m : mat K) (s s' : seg K) : Prop :=
    match s, s' with
    | SLine a b, SLine a' b' => a' = v_transform m a /\ b' = v_transform m b
    | SArc a b c cw, SArc a' b' c' cw' =>
        a' = v_transform m a /\ b' = v_transform m b /\ c' = v_transform m c /\
        (if n_ltb n0 (n_mul (m00 m) (m11 m)) then cw' = cw else cw' = negb cw)
    | _, _ => False
    end.
  Definition image (m : mat K) (s s' : shape K) : Prop :=
    sh_neg s' = sh_neg s /\ sh_meta s' = sh_meta s /\ Forall2 (seg_image m) (sh_segs s) (sh_segs s').

  (** Layer [k'] shows what layer [k] shows, transformed. *)
  Inductive copy_of (bs : dict (buffer K)) (m : mat K) : str -> str -> Prop :=
  | co_layer k k' b b' : d_get k bs = Some b -> d_get k' bs = Some b' ->
      copy_cmds bs m (bf_cmds b) (bf_cmds b') -> copy_of bs m k k'
  with copy_cmds (bs : dict (buffer K)) (m : mat K) : list (draw K) -> list (draw K) -> Prop :=
  | cc_nil : copy_cmds bs m [] []
  | cc_shape s s' r r' : image m s s' -> copy_cmds bs m r r' ->
      copy_cmds bs m (DShape s :: r) (DShape s' :: r')
  | cc_paste p p' r r' : copy_of bs m (pa_src p) (pa_src p') ->
      pa_center p' = v_transform m (pa_center p) -> pa_neg p' = pa_neg p ->
      copy_cmds bs m r r' -> copy_cmds bs m (DPaste p :: r) (DPaste p' :: r').

  (** The macros defined by AM, the latest definition of a name counts. *)
  Definition macros_of (pre : list (node K)) (name : str) : option (list (prim K)) :=
    fold_left (fun o n => match n with NAM m ps => if str_eqb name m then Some ps else o | _ => o end) pre None.
  (** The layers in [bs] under the code of [a] are those made when [a] was defined in [pre],
      with the macros defined until then. *)
  Definition defined_as (md : bool) (clock : nat -> Z) (pre : list (node K)) (a : ad K) (bs : dict (buffer K)) : Prop :=
    exists p q s x0 x1 b, pre = p ++ NAD a :: q /\ (forall name, d_get name (s_macros s) = macros_of p name) /\
      on_aperture md clock a s x0 = Ok x1 /\
      d_get (ad_id a) (c_buffers x1) = Some b /\ d_get (ad_id a) bs = Some b /\
      forall src, pastes (bf_cmds b) src ->
        exists b1, d_get src (c_buffers x1) = Some b1 /\ d_get src bs = Some b1.

  (** The transformation set by LM, LR and LS. *)
  Definition matrix_at (pre : list (node K)) : mat K :=
    let m := last_set sets_mirroring MirNone pre in
    mmul (mmul (mreflect match m with MirX | MirXY => true | _ => false end
                         match m with MirY | MirXY => true | _ => false end)
               (mrotate (last_set sets_rotation n0 pre)))
         (mscale (last_set sets_scaling n1 pre) (last_set sets_scaling n1 pre)).

  (** What the names of layers need: the texts of numbers are free of percent signs, and the
      transformations set in a file have different texts. *)
  Definition tells_apart (pre : list (node K)) : Prop :=
    (forall k : K, ~ In "%"%char (n_repr k)) /\
    forall p q p' q', pre = p ++ q -> pre = p' ++ q' -> mtag (matrix_at p) = mtag (matrix_at p') -> matrix_at p = matrix_at p'.
  (** Texts of numbers that are different for different numbers and free of the separators. *)
  Definition good_repr : Prop :=
    (forall a b : K, n_repr a = n_repr b -> a = b) /\
    (forall (a : K) c, In c (lit ",()%") -> ~ In c (n_repr a)).
End Spec.
Scheme copy_of_mind := Induction for copy_of Sort Prop
  with copy_cmds_mind := Induction for copy_cmds Sort Prop.

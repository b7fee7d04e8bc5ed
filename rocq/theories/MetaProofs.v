(** Proofs for C88. *)
From Verif Require Import Base Num Dict CoordModel Ast StateModel StateSpec StateProofs GeomModel ExprModel CompilerModel LayerSpec LayerProofs
  DrawSpec DrawProofs MetaSpec.

Definition rmap {E A B} (f : A -> B) (r : result E A) : result E B := match r with Ok a => Ok (f a) | Err e => Err e end.
Definition omap {A B} (f : A -> B) (r : outcome A) : outcome B :=
  match r with Done a => Done (f a) | Stop a => Stop (f a) | Fail e => Fail e end.

(** *** A map between the states of two subclasses of the state tracker *)
Section Morphism.
  Context {K : Type} {NK : Num K} {X Y : Type} (HX : hooks K X) (HY : hooks K Y) (f : X -> Y).
  Definition vmap (v : visitor K X) : visitor K Y := MkV (v_state v) (v_d01 v) (v_d03 v) (v_dispatch_region v) (f (v_ext v)).
  Record morphism : Prop := {
    mo_draw h s x : hk_draw HY h s (f x) = rmap f (hk_draw HX h s x);
    mo_flash h a s x : hk_flash HY h a s (f x) = rmap f (hk_flash HX h a s x);
    mo_start s x : hk_start_region HY s (f x) = f (hk_start_region HX s x);
    mo_flush s x : hk_flush_region HY s (f x) = rmap f (hk_flush_region HX s x);
    mo_end s x : hk_end_region HY s (f x) = f (hk_end_region HX s x);
    mo_ad a s x : hk_ad HY a s (f x) = rmap f (hk_ad HX a s x);
    mo_ab_open id s x : hk_ab_open HY id s (f x) = f (hk_ab_open HX id s x);
    mo_ab_close id s x : hk_ab_close HY id s (f x) = f (hk_ab_close HX id s x);
    mo_sr_open u s x : hk_sr_open HY u s (f x) = (fst (hk_sr_open HX u s x), f (snd (hk_sr_open HX u s x)));
    mo_sr_close t h s x : hk_sr_close HY t h s (f x) = rmap f (hk_sr_close HX t h s x) }.
  Hypothesis M : morphism.

  Lemma lift_map v r : lift (vmap v) (rmap f r) = omap vmap (lift v r).
  Proof. destruct r; reflexivity. Qed.
  Lemma leaf_map n v : visit_leaf HY n (vmap v) = omap vmap (visit_leaf HX n v).
  Proof.
    destruct n; try reflexivity; cbn [visit_leaf].
    - unfold on_ad. cbn [with_state vmap v_state v_ext v_d01 v_d03 v_dispatch_region]. rewrite (mo_ad M). destruct (hk_ad HX _ _ _); reflexivity.
    - unfold on_d01, on_coords. cbn [vmap v_state]. destruct (read_coords _ _ _ _ _); [|reflexivity].
      cbn [with_state vmap v_state v_ext v_d01 v_d03 v_dispatch_region]. rewrite (mo_draw M). destruct (hk_draw HX _ _ _); reflexivity.
    - unfold on_d02, on_coords. cbn [vmap v_state]. destruct (read_coords _ _ _ _ _); [|reflexivity].
      cbn [with_state vmap v_state v_ext v_d01 v_d03 v_dispatch_region]. destruct (s_region _); [|reflexivity].
      rewrite (mo_flush M). destruct (hk_flush_region HX _ _); reflexivity.
    - unfold on_d03, on_coords. cbn [vmap v_state]. destruct (read_coords _ _ _ _ _) as [s|]; [|reflexivity].
      cbn [with_state vmap v_state v_ext v_d01 v_d03 v_dispatch_region]. destruct (current_aperture s); [|reflexivity].
      destruct (v_d03 v); [|reflexivity]. rewrite (mo_flash M). destruct (hk_flash HX _ _ _ _); reflexivity.
    - unfold on_dnn. cbn [with_state vmap v_state]. destruct (current_aperture _); reflexivity.
    - destruct g; try reflexivity; cbn [on_g].
      + unfold dispatch, bind_dispatch, with_ext, with_state. cbn. unfold vmap. cbn. rewrite (mo_start M). reflexivity.
      + cbn [vmap v_state v_ext]. rewrite (mo_flush M). destruct (hk_flush_region HX _ _); [|reflexivity].
        cbn [rmap lift obind omap]. unfold dispatch, bind_dispatch, with_ext, with_state. cbn. unfold vmap. cbn. rewrite (mo_end M). reflexivity.
  Qed.
  Lemma visits_map body : Forall (fun n => forall v, visit HY n (vmap v) = omap vmap (visit HX n v)) body ->
    forall v, visits HY body (vmap v) = omap vmap (visits HX body v).
  Proof.
    induction 1 as [|n r Hn _ IH]; intros v; [reflexivity|]. cbn [visits]. rewrite Hn.
    destruct (visit HX n v); cbn [omap obind]; [apply IH|reflexivity|reflexivity].
  Qed.
  Lemma visit_map n : forall v, visit HY n (vmap v) = omap vmap (visit HX n v).
  Proof.
    induction n as [id body IH|u h body IH|n Hl] using node_ind'; intros v.
    - rewrite !visit_AB.
      assert (E : ab_enter HY id (vmap v) = vmap (ab_enter HX id v)).
      { unfold ab_enter, with_ext, vmap. cbn. rewrite (mo_ab_open M). reflexivity. }
      rewrite E, (visits_map body IH). destruct (visits HX body _) as [w|w|]; cbn [omap obind]; try reflexivity. f_equal.
      unfold ab_leave, with_ext, with_state, vmap. cbn. rewrite (mo_ab_close M). reflexivity.
    - rewrite !visit_SR.
      assert (E : sr_enter HY u (vmap v) = (fst (sr_enter HX u v), vmap (snd (sr_enter HX u v)))).
      { unfold sr_enter, vmap. cbn. rewrite (mo_sr_open M). destruct (hk_sr_open HX u _ _). reflexivity. }
      rewrite E. destruct (sr_enter HX u v) as [t w]. cbn [fst snd]. rewrite (visits_map body IH).
      destruct (visits HX body w) as [w1|w1|]; cbn [omap obind]; try reflexivity.
      unfold sr_leave. cbn [vmap v_state v_ext]. rewrite (mo_sr_close M). apply lift_map.
    - rewrite !visit_is_leaf by exact Hl. apply leaf_map.
  Qed.
  Lemma file_map b ns : forall v, on_file HY b ns (vmap v) = rmap vmap (on_file HX b ns v).
  Proof.
    induction ns as [|n r IH]; intros v; [reflexivity|]. cbn [on_file]. rewrite visit_map.
    destruct (visit HX n v); cbn [omap]; [apply IH|destruct b; [reflexivity|apply IH]|reflexivity].
  Qed.
End Morphism.

(** *** The compiler without metadata *)
Section Bare.
  Context {K : Type} {NK : Num K} (clock : nat -> Z) (iter : str -> list str -> list str).
  Definition bare_buf (b : buffer K) : buffer K := MkBuf (bf_id b) (map bare_draw (bf_cmds b)) (bf_deps b).
  Definition bare_bufs (bs : dict (buffer K)) : dict (buffer K) := map (fun kb => (fst kb, bare_buf (snd kb))) bs.
  Definition bare_c (x : cstate K) : cstate K := MkC (bare_bufs (c_buffers x)) (c_stack x) (c_contour x) (c_stamps x).
  Definition bare_m (m : mstate (K := K)) : mstate := MkM (ms_scope m) (bare_buf (ms_buf m)) (bare_c (ms_c m)).

  Lemma get_bare k bs : d_get k (bare_bufs bs) = option_map bare_buf (d_get k bs).
  Proof. induction bs as [|[k' b] bs IH]; cbn; [reflexivity|]. destruct (str_eqb k k'); [reflexivity|exact IH]. Qed.
  Lemma set_bare k b bs : d_set k (bare_buf b) (bare_bufs bs) = bare_bufs (d_set k b bs).
  Proof. induction bs as [|[k' b'] bs IH]; cbn; [reflexivity|]. destruct (str_eqb k k'); cbn; [reflexivity|]. f_equal. exact IH. Qed.
  Lemma del_bare k bs : d_del k (bare_bufs bs) = bare_bufs (d_del k bs).
  Proof. induction bs as [|[k' b'] bs IH]; cbn; [reflexivity|]. destruct (str_eqb k k'); cbn; [exact IH|]. f_equal. exact IH. Qed.
  Lemma get_buffer_bare k bs : get_buffer k (bare_bufs bs) = rmap bare_buf (get_buffer k bs).
  Proof. unfold get_buffer. rewrite get_bare. destruct (d_get k bs); reflexivity. Qed.
  Lemma append_bare d b : append_draw (bare_draw d) (bare_buf b) = bare_buf (append_draw d b).
  Proof. destruct d; unfold bare_buf; cbn; rewrite map_app; reflexivity. Qed.
  Lemma appends_bare ds : forall b, append_draws (map bare_draw ds) (bare_buf b) = bare_buf (append_draws ds b).
  Proof. induction ds as [|d r IH]; intros b; [reflexivity|]. cbn. rewrite append_bare. apply IH. Qed.
  Lemma current_bare d x : append_current (bare_draw d) (bare_c x) = rmap bare_c (append_current d x).
  Proof.
    unfold append_current. cbn [bare_c c_stack c_buffers]. destruct (c_stack x) as [|id st]; [reflexivity|].
    rewrite get_buffer_bare. destruct (get_buffer id (c_buffers x)); cbn [rmap bind]; [|reflexivity].
    rewrite append_bare, set_bare. reflexivity.
  Qed.
  Lemma all_bare ds : forall x, append_all (map bare_draw ds) (bare_c x) = rmap bare_c (append_all ds x).
  Proof.
    induction ds as [|d r IH]; intros x; [reflexivity|]. cbn [map append_all]. rewrite current_bare.
    destruct (append_current d x); cbn [rmap bind]; [apply IH|reflexivity].
  Qed.
  Lemma set_buffer_bare b x : set_buffer (bare_buf b) (bare_c x) = bare_c (set_buffer b x).
  Proof. unfold set_buffer, bare_c. cbn. rewrite set_bare. reflexivity. Qed.
  Lemma set_buffers_bare bs x : set_buffers (bare_bufs bs) (bare_c x) = bare_c (set_buffers bs x).
  Proof. reflexivity. Qed.

  Definition bare_pair (r : buffer K * dict (buffer K)) := (bare_buf (fst r), bare_bufs (snd r)).
  Lemma transformed_bare f m : forall id bs, transformed f m id (bare_bufs bs) = rmap bare_pair (transformed f m id bs).
  Proof.
    induction f as [|f IH]; intros id bs; rewrite !transformed_eq, get_bare;
      (destruct (d_get (layer_key id m) bs) as [b|]; cbn [option_map]; [reflexivity|]); [reflexivity|].
    rewrite get_buffer_bare. destruct (get_buffer id bs) as [base|]; cbn [rmap bind]; [|reflexivity].
    assert (HL : forall cs acc deps bs, copy_loop f m (map bare_draw cs) (map bare_draw acc) deps (bare_bufs bs) =
      rmap (fun r => (map bare_draw (fst (fst r)), snd (fst r), bare_bufs (snd r))) (copy_loop f m cs acc deps bs)).
    { clear bs base. induction cs as [|[sh|p] cs IHc]; intros acc deps bs; cbn [map copy_loop bare_draw].
      - reflexivity.
      - rewrite <- IHc, map_app. reflexivity.
      - cbn [pa_src pa_center pa_neg pa_meta]. rewrite IH. destruct (transformed f m (pa_src p) bs) as [[b1 bs1]|]; cbn [rmap bind bare_pair fst snd]; [|reflexivity].
        rewrite <- IHc, map_app. reflexivity. }
    cbn [bare_buf bf_cmds]. change (@nil (draw K)) with (map (@bare_draw K) []) at 1. rewrite HL.
    destruct (copy_loop f m (bf_cmds base) [] [] bs) as [[[cs deps] bs1]|]; cbn [rmap bind fst snd bare_pair]; [|reflexivity].
    change (MkBuf (layer_key id m) (map bare_draw cs) deps) with (bare_buf (MkBuf (layer_key id m) cs deps)).
    rewrite set_bare. reflexivity.
  Qed.
  Lemma aperture_bare s id x : aperture_buffer s id (bare_c x) = rmap (fun r => (bare_buf (fst r), bare_c (snd r))) (aperture_buffer s id x).
  Proof.
    unfold aperture_buffer. cbn [bare_c c_buffers]. unfold bare_bufs at 1. rewrite map_length, transformed_bare.
    destruct (transformed _ _ id _) as [[b bs]|]; reflexivity.
  Qed.

  Lemma ms_append_bare d m : ms_append (bare_draw d) (bare_m m) = bare_m (ms_append d m).
  Proof. unfold ms_append, bare_m. cbn. rewrite append_bare. reflexivity. Qed.
  Lemma ms_appends_bare ds : forall m, ms_appends (map bare_draw ds) (bare_m m) = bare_m (ms_appends ds m).
  Proof. induction ds as [|d r IH]; intros m; [reflexivity|]. unfold ms_appends in *. cbn. rewrite ms_append_bare. apply IH. Qed.
  Definition bare_shape (s : shape K) : shape K := MkShape (sh_segs s) (sh_neg s) None.
  Lemma bare_shape_draw s : bare_draw (DShape s) = DShape (bare_shape s).
  Proof. reflexivity. Qed.
  Lemma rot_bare r (s : shape K) : rot_shape r (bare_shape s) = bare_shape (rot_shape r s).
  Proof. reflexivity. Qed.
  Lemma ring_bare (c : vec K) o i neg m : new_ring c o i neg None = rmap (map bare_shape) (new_ring c o i neg m).
  Proof. unfold new_ring. cbv zeta. destruct (negb _); [reflexivity|]. destruct (negb _); reflexivity. Qed.
  Lemma polygon_bare (c : vec K) d n r neg m : new_polygon c d n r neg None = rmap bare_shape (new_polygon c d n r neg m).
  Proof. unfold new_polygon. destruct (n <? 3)%Z; [reflexivity|]. cbv zeta. destruct (negb _); [reflexivity|]. destruct (polygon_loop _ _ _ _ _ _); reflexivity. Qed.
  Lemma rings_bare n (c : vec K) ring delta : forall o i, rmap (map bare_shape) (rings n c ring delta o i) = rings n c ring delta o i.
  Proof.
    induction n as [|n IH]; intros o i; [reflexivity|]. cbn [rings]. destruct (n_leb o ring); [reflexivity|].
    rewrite (ring_bare c o i false None). destruct (new_ring c o i false None) as [l|]; cbn [rmap bind]; [|reflexivity].
    specialize (IH (n_sub o delta) (n_sub i delta)). destruct (rings n c ring delta _ _) as [r|]; cbn [rmap bind] in *; [|reflexivity].
    injection IH as IH. rewrite map_app, map_map, IH. reflexivity.
  Qed.
  Lemma shapes_bare g (l : list (shape K)) : (forall s, g (bare_shape s) = bare_shape (g s)) ->
    map (fun s => DShape (g s)) (map bare_shape l) = map bare_draw (map (fun s => DShape (g s)) l).
  Proof. intros Hg. rewrite !map_map. apply map_ext. intros s. rewrite Hg. reflexivity. Qed.

  Lemma prim_bare md p m : on_prim clock None p (bare_m m) = rmap bare_m (on_prim clock md p m).
  Proof.
    destruct p; cbn [on_prim]; cbn [bare_m ms_scope]; try reflexivity;
      repeat match goal with
        | |- context [bind (eval ?s ?e) _] => destruct (eval s e); cbn [bind rmap]; [|reflexivity]
        end.
    all: try (rewrite <- ms_append_bare; reflexivity).
    - destruct rotation as [r|]; [destruct (eval _ r); cbn [bind]; [|reflexivity]|]; cbn [rmap]; rewrite <- ms_append_bare; reflexivity.
    - match goal with |- context [bind ?g _] => destruct g; cbn [bind rmap]; [|reflexivity] end.
      destruct (eval _ rotation); cbn [bind rmap]; [|reflexivity]. rewrite <- ms_append_bare. reflexivity.
    - rewrite (polygon_bare _ _ _ _ _ md). destruct (new_polygon _ _ _ _ _ md) as [sh|]; cbn [bind rmap]; [|reflexivity].
      rewrite <- ms_append_bare. reflexivity.
    - cbv zeta. set (rs := if _ && _ && _ then rings _ _ _ _ _ _ else _).
      assert (Hr : rmap (map bare_shape) rs = rs) by (subst rs; destruct (_ && _ && _); [apply rings_bare|reflexivity]).
      destruct rs as [rs|]; cbn [bind rmap] in *; [|reflexivity]. injection Hr as Hr. f_equal. rewrite <- ms_appends_bare. f_equal.
      rewrite <- shapes_bare by reflexivity. rewrite (map_app bare_shape), Hr. do 2 f_equal. destruct (_ && _); reflexivity.
    - destruct (n_leb _ _); [reflexivity|].
      repeat match goal with
        | |- context [bind (eval ?s ?e) _] => destruct (eval s e); cbn [bind rmap]; [|reflexivity]
        end.
      cbv zeta. destruct (n_leb _ _); [reflexivity|]. destruct (n_leb _ _); [reflexivity|].
      rewrite (ring_bare _ _ _ _ md). destruct (new_ring _ _ _ _ md) as [rg|]; cbn [bind rmap]; [|reflexivity].
      f_equal. set (id := stamp clock _ _ (ms_c m)). change (stamp clock _ _ (ms_c (bare_m m))) with id.
      rewrite <- ms_append_bare. cbn [bare_draw pa_src pa_center pa_neg].
      unfold ms_append, bare_m. cbn [ms_scope ms_buf ms_c]. f_equal. rewrite <- set_buffer_bare. f_equal.
      rewrite <- appends_bare, <- shapes_bare by reflexivity. rewrite (map_app bare_shape). reflexivity.
    - reflexivity.
  Qed.
  Lemma prims_bare md ps : forall m, on_prims clock None ps (bare_m m) = rmap bare_m (on_prims clock md ps m).
  Proof.
    induction ps as [|p r IH]; intros m; [reflexivity|]. cbn [on_prims]. rewrite (prim_bare md).
    destruct (on_prim clock md p m); cbn [bind rmap]; [apply IH|reflexivity].
  Qed.
  Lemma hole_bare hole f m : hole_of (K := K) hole f None = map bare_draw (hole_of hole f m).
  Proof. unfold hole_of. destruct hole as [h|]; [|reflexivity]. destruct (n_ltb n0 h); reflexivity. Qed.
  Lemma finish_bare id ds x : set_buffer (append_draws (map bare_draw ds) (empty_buffer id)) (bare_c x) = bare_c (set_buffer (append_draws ds (empty_buffer id)) x).
  Proof. rewrite <- set_buffer_bare. f_equal. rewrite <- appends_bare. reflexivity. Qed.
  Lemma on_aperture_bare md a s x : on_aperture false clock a s (bare_c x) = rmap bare_c (on_aperture md clock a s x).
  Proof.
    unfold on_aperture. cbv zeta. change (meta_of false (s_ap_attrs s)) with (@None (dict attr)).
    destruct (ad_template a) as [d h|w h hole|w h hole|d n r hole|name params].
    - rewrite (hole_bare _ _ (meta_of md (s_ap_attrs s))). cbn [rmap]. rewrite <- finish_bare. reflexivity.
    - rewrite (hole_bare _ _ (meta_of md (s_ap_attrs s))). cbn [rmap]. rewrite <- finish_bare. reflexivity.
    - rewrite (hole_bare _ _ (meta_of md (s_ap_attrs s))). cbn [rmap]. rewrite <- finish_bare. unfold new_obround. cbv zeta. destruct (n_leb w h); reflexivity.
    - rewrite (polygon_bare _ _ _ _ _ (meta_of md (s_ap_attrs s))), (hole_bare _ _ (meta_of md (s_ap_attrs s))).
      destruct (new_polygon _ _ _ _ _ (meta_of md _)) as [sh|]; cbn [bind rmap]; [|reflexivity]. rewrite <- finish_bare. reflexivity.
    - destruct (d_get name (s_macros s)) as [ps|]; [|reflexivity].
      change (empty_buffer (ad_id a)) with (bare_buf (empty_buffer (ad_id a))) at 1 2. rewrite set_buffer_bare.
      change (MkM (macro_scope params) (bare_buf ?b) (bare_c ?y)) with (bare_m (MkM (macro_scope params) b y)).
      rewrite (prims_bare (meta_of md (s_ap_attrs s))). destruct (on_prims clock _ ps _) as [m|]; cbn [bind rmap]; [|reflexivity].
      f_equal. apply set_buffer_bare.
  Qed.
  Lemma shift_bare m d : shift_draw m (bare_draw d) = bare_draw (shift_draw (K := K) m d).
  Proof. destruct d; reflexivity. Qed.
  Lemma shifts_bare m ds : map (shift_draw m) (map bare_draw ds) = map bare_draw (map (shift_draw (K := K) m) ds).
  Proof. rewrite !map_map. apply map_ext. intros d. apply shift_bare. Qed.
  Lemma flat_map_bare {A} (g : A -> list (draw K)) l : flat_map (fun a => map bare_draw (g a)) l = map bare_draw (flat_map g l).
  Proof. induction l as [|a l IH]; [reflexivity|]. cbn [flat_map]. rewrite IH, map_app. reflexivity. Qed.

  Lemma compiler_bare md : morphism (compiler_hooks md clock) (compiler_hooks false clock) bare_c.
  Proof.
    split; cbn [compiler_hooks hk_draw hk_flash hk_start_region hk_flush_region hk_end_region hk_ad hk_ab_open hk_ab_close hk_sr_open hk_sr_close].
    - intros h s x. destruct h; cbn [on_draw]; try reflexivity.
      + unfold draw_line. destruct (line_thickness _ s); [|reflexivity]. cbn [bind]. rewrite <- all_bare. reflexivity.
      + unfold draw_arc. destruct (line_thickness _ s); [|reflexivity]. cbn [bind]. destruct (v_eqb _ _); rewrite <- all_bare; reflexivity.
      + unfold draw_arc. destruct (line_thickness _ s); [|reflexivity]. cbn [bind]. destruct (v_eqb _ _); rewrite <- all_bare; reflexivity.
      + unfold region_line. cbn [bare_c c_contour]. destruct (c_contour x); reflexivity.
      + unfold region_arc. cbn [bare_c c_contour]. destruct (c_contour x); reflexivity.
      + unfold region_arc. cbn [bare_c c_contour]. destruct (c_contour x); reflexivity.
    - intros h a s x.
      assert (HA : forall id, flash_aperture false id s (bare_c x) = rmap bare_c (flash_aperture md id s x)).
      { intros id. unfold flash_aperture. rewrite aperture_bare. destruct (aperture_buffer s id x) as [[b x1]|]; cbn [rmap bind fst snd]; [|reflexivity].
        rewrite <- current_bare. reflexivity. }
      assert (HB : forall id, flash_block id s (bare_c x) = rmap bare_c (flash_block id s x)).
      { intros id. unfold flash_block. rewrite aperture_bare. destruct (aperture_buffer s id x) as [[b x1]|]; cbn [rmap bind fst snd]; [|reflexivity].
        rewrite <- all_bare. cbn [bare_buf bf_cmds]. rewrite shifts_bare. reflexivity. }
      destruct h, a; cbn [on_flash]; auto.
    - reflexivity.
    - intros s x. unfold flush_region. cbn [bare_c c_contour]. destruct (c_contour x) as [[|g l]|]; try reflexivity.
      change (DShape (MkShape (g :: l) (is_negative s) None)) with (bare_draw (DShape (MkShape (g :: l) (is_negative s) None))) at 1.
      change (MkC (bare_bufs (c_buffers x)) (c_stack x) (c_contour x) (c_stamps x)) with (bare_c x). rewrite current_bare.
      destruct (append_current _ x); reflexivity.
    - reflexivity.
    - intros a s x. apply on_aperture_bare.
    - intros id s x. unfold ab_open. change (empty_buffer id) with (bare_buf (empty_buffer id)) at 1 2 3. rewrite set_buffer_bare. reflexivity.
    - reflexivity.
    - intros u s x. unfold sr_open. cbn [fst snd]. change (stamp clock _ u (bare_c x)) with (stamp clock (lit "%%SR%") u x).
      set (id := stamp clock _ u x). change (empty_buffer id) with (bare_buf (empty_buffer id)) at 1 2 3. rewrite set_buffer_bare. reflexivity.
    - intros t h s x. unfold sr_close. change (pop (bare_c x)) with (bare_c (pop x)). cbn [bare_c c_buffers]. rewrite get_buffer_bare.
      destruct (get_buffer t (c_buffers (pop x))) as [b|]; cbn [rmap bind]; [|reflexivity].
      destruct (sr_delta (sr_i h)) as [dx|]; cbn [rmap bind]; [|reflexivity].
      destruct (sr_delta (sr_j h)) as [dy|]; cbn [rmap bind]; [|reflexivity].
      destruct (sr_count (sr_x h)) as [nx|]; cbn [rmap bind]; [|reflexivity].
      destruct (sr_count (sr_y h)) as [ny|]; cbn [rmap bind]; [|reflexivity].
      cbv zeta. cbn [bare_buf bf_cmds].
      rewrite (flat_map_ext _ (fun ix => map bare_draw (flat_map (fun iy => map (shift_draw (mtranslate (n_add (coordinate_x s) (n_mul (n_of_Z (Z.of_nat ix)) dx))
                                  (n_add (coordinate_y s) (n_mul (n_of_Z (Z.of_nat iy)) dy)))) (bf_cmds b)) (seq 0 ny)))).
      2:{ intros ix. rewrite <- flat_map_bare. apply flat_map_ext. intros iy. apply shifts_bare. }
      rewrite flat_map_bare, all_bare. destruct (append_all _ (pop x)) as [x1|]; cbn [rmap bind]; [|reflexivity].
      f_equal. cbn [bare_c c_buffers]. rewrite del_bare. reflexivity.
  Qed.

  Lemma resolve_bare fuel bs : forall b out, resolve iter fuel (bare_bufs bs) (bare_buf b) out = resolve iter fuel bs b out.
  Proof.
    induction fuel as [|f IH]; intros b out; [reflexivity|]. cbn [resolve bare_buf bf_id bf_deps].
    set (go := fix go (deps : list str) (out : list str) := _).
    set (go' := fix go (deps : list str) (out : list str) := _) at 1.
    assert (E : forall deps out, go deps out = go' deps out).
    { induction deps as [|d r IHd]; intros o; [reflexivity|]. cbn [go go']. rewrite get_buffer_bare.
      destruct (get_buffer d bs); cbn [rmap bind]; [|reflexivity]. rewrite IH. destruct (resolve iter f bs _ o); cbn [bind]; [|reflexivity].
      destruct (existsb _ _); [reflexivity|apply IHd]. }
    rewrite ?E. reflexivity.
  Qed.
  Lemma get_buffers_bare bs ids : get_buffers (bare_bufs bs) ids = rmap (map bare_buf) (get_buffers bs ids).
  Proof.
    induction ids as [|i r IH]; [reflexivity|]. cbn [get_buffers]. rewrite get_buffer_bare. destruct (get_buffer i bs); cbn [rmap bind]; [|reflexivity].
    rewrite IH. destruct (get_buffers bs r); reflexivity.
  Qed.
  Lemma convert_bare bs : convert iter (bare_bufs bs) = rmap (map bare) (convert iter bs).
  Proof.
    unfold convert, submit_order. rewrite get_buffer_bare. destruct (get_buffer main_id bs) as [b|]; cbn [rmap bind]; [|reflexivity].
    rewrite resolve_bare. unfold bare_bufs at 1. rewrite map_length. destruct (resolve iter _ bs b []) as [ids|]; cbn [rmap bind]; [|reflexivity].
    rewrite get_buffers_bare. destruct (get_buffers bs ids) as [l|]; cbn [rmap bind]; [|reflexivity]. f_equal.
    induction l as [|c l IH]; [reflexivity|]. cbn [map flat_map]. rewrite IH, map_app. f_equal.
    unfold block_of. cbn [map bare bare_buf bf_id bf_cmds]. rewrite map_app, !map_map. reflexivity.
  Qed.
  Lemma compile_bare md ips ns : compile false clock iter ips ns = rmap (map bare) (compile md clock iter ips ns).
  Proof.
    unfold compile. change (@visitor_init K NK (cstate K) compiler_init) with (vmap bare_c (@visitor_init K NK (cstate K) compiler_init)) at 1.
    rewrite (file_map _ _ _ (compiler_bare md)). destruct (on_file (compiler_hooks md clock) ips ns _) as [v|]; cbn [rmap bind]; [|reflexivity].
    apply convert_bare.
  Qed.
End Bare.

(** *** Labels *)
Section Labels.
  Context {K : Type} {NK : Num K}.
  Lemma attributes_point {X} (H : hooks K X) x0 pre v : at_point H x0 pre v -> Rattrs v (attributes pre).
  Proof.
    intros Hp. apply (point_inv H x0 Rattrs attrs_step attrs_init) in Hp; [exact Hp|..].
    - repeat split.
    - intros n v1 v2 m Hl HR E. eapply attrs_leaf; eauto.
    - intros id v1 m HR. exact HR.
    - intros id v1 m (Ha & Hf & Ho & Hs). split; [exact Ha|]. split; [exact Hf|]. split; [exact Ho|]. apply agree_snap_set; assumption.
    - intros u v1 m HR. unfold sr_enter. destruct (hk_sr_open H u _ _). exact HR.
    - intros t h v1 v2 m HR E. unfold sr_leave in E. apply lift_done in E as (Hs & _). unfold Rattrs. rewrite Hs. exact HR.
  Qed.
  Lemma read_attrs x y i j (s s1 : state K) : read_coords x y i j s = Ok s1 -> s_obj_attrs s1 = s_obj_attrs s.
  Proof. intros E. apply read_coords_inv in E as (x' & y' & i' & j' & _ & _ & _ & _ & ->). reflexivity. Qed.

  Context (clock : nat -> Z).
  Notation H := (compiler_hooks (K := K) true clock).
  Notation point := (at_point H compiler_init).

  Definition all_meta (m : meta) (ds : list (draw K)) : Prop := Forall (fun d => draw_meta d = m) ds.
  Lemma arc_meta cw (a b c : vec K) th neg m : sh_meta (arc_factory cw a b c th neg m) = m.
  Proof. destruct cw; reflexivity. Qed.
  Lemma draw_arc_meta md cw s x x' : draw_arc md cw s x = Ok x' -> exists ds, grows x x' ds /\ all_meta (meta_of md (s_obj_attrs s)) ds.
  Proof.
    unfold draw_arc. destruct (line_thickness _ s) as [th|]; [|discriminate]. cbn [bind]. cbv zeta.
    destruct (v_eqb _ _); intros E; apply append_all_grows in E; eexists; (split; [exact E|]);
      repeat (constructor; [cbn [draw_meta]; rewrite ?arc_meta; reflexivity|]); constructor.
  Qed.
  Lemma labelled_all a d ds : agree d a -> all_meta (Some d) ds -> Forall (fun e => labelled a (draw_meta e)) ds.
  Proof. intros Ha. apply Forall_impl. intros e ->. exists d. auto. Qed.

  Lemma d01_labelled pre v x y i j v' : point pre v -> drawn v <> None -> in_region pre = false ->
    visit_leaf H (ND01 x y i j) v = Done v' ->
    exists new, adds v v' new /\ Forall (fun d => labelled (as_obj (attributes pre)) (draw_meta d)) new.
  Proof.
    intros Hp Hd Hreg E. destruct (attributes_point H _ _ _ Hp) as (_ & _ & Ho & _).
    destruct (leaf_d01 H _ _ _ _ _ _ E) as (s & Hr & Hdr & _).
    destruct (coherent_point H _ _ _ Hp) as [Hh _]. rewrite Hh in Hdr.
    rewrite (pl_region H _ _ _ Hp), (pl_plot H _ _ _ Hp) in Hdr. fold (in_region pre) in Hdr. fold (plot_of pre) in Hdr. rewrite Hreg in Hdr.
    rewrite <- (read_attrs _ _ _ _ _ _ Hr) in Ho. cbn [compiler_hooks hk_draw] in Hdr.
    enough (G : exists ds, grows (v_ext v) (v_ext v') ds /\ all_meta (Some (s_obj_attrs s)) ds).
    { destruct G as (ds & G & Hm). exists ds. split; [apply grows_adds; assumption|]. eapply labelled_all; eauto. }
    destruct (plot_of pre), (s_arc (v_state v)); cbn [callback_for on_draw] in Hdr;
      try (apply Ok_inj in Hdr; rewrite <- Hdr; exists []; split; [apply grows_refl|constructor]);
      try (apply draw_arc_meta in Hdr; exact Hdr).
    all: unfold draw_line in Hdr; destruct (line_thickness _ s) as [th|]; [|discriminate]; cbn [bind] in Hdr; cbv zeta in Hdr;
      apply append_all_grows in Hdr; eexists; (split; [exact Hdr|]); repeat constructor.
  Qed.
  Lemma d03_labelled pre v x y v' : point pre v -> drawn v <> None -> selected_AD pre ->
    visit_leaf H (ND03 x y) v = Done v' ->
    exists new, adds v v' new /\ Forall (fun d => labelled (as_obj (attributes pre)) (draw_meta d)) new.
  Proof.
    intros Hp Hd (a0 & Ha0 & Hsel) E. destruct (attributes_point H _ _ _ Hp) as (_ & _ & Ho & _).
    destruct (leaf_d03 H _ _ _ _ E) as (s & a & h & Hr & Ha & _ & Hf & _).
    destruct (read_neg _ _ _ _ _ _ Hr) as (_ & Hid & Hap & _). rewrite <- (read_attrs _ _ _ _ _ _ Hr) in Ho.
    unfold current_aperture in Ha. rewrite Hid, (pl_apid true clock _ _ Hp), Hsel, Hap in Ha.
    destruct (selected_apertures true clock pre v a0 Hp Ha0) as (a' & Ea). rewrite Ea in Ha. apply Ok_inj in Ha. subst a.
    cbn [compiler_hooks hk_flash] in Hf. apply on_flash_cases in Hf as [(ad & _ & Hf)|(id & Hx & _)]; [|discriminate].
    apply flash_aperture_inv in Hf as (b & x1 & Eb & Ea'). apply aperture_buffer_grows in Eb.
    apply append_current_grows in Ea'. eexists. split; [apply grows_adds; [exact (grows_trans _ _ _ _ _ Eb Ea')|exact Hd]|].
    constructor; [|constructor]. cbn [draw_meta pa_meta meta_of]. exists (s_obj_attrs s). auto.
  Qed.
  Lemma closes_unlabelled pre v n v' : point pre v -> drawn v <> None -> closes pre n = true ->
    visit_leaf H n v = Done v' -> exists new, adds v v' new /\ all_meta None new.
  Proof.
    intros Hp Hd Hc E.
    assert (G : forall s x', flush_region s (v_ext v) = Ok x' -> exists ds, grows (v_ext v) (set_contour (c_contour (v_ext v)) x') ds /\ all_meta None ds).
    { intros s x' Ef. apply flush_cases in Ef as (l & ds & _ & _ & Gr & ->). eexists. split; [exact Gr|]. destruct l; repeat constructor. }
    destruct n; cbn [closes] in Hc; try discriminate Hc.
    - destruct (leaf_d02 H _ _ _ _ E) as (s & Hr & _ & Hf). rewrite (pl_region H _ _ _ Hp) in Hf.
      change (last_set sets_region false pre) with (in_region pre) in Hf. rewrite Hc in Hf.
      destruct (G _ _ Hf) as (ds & Gr & Hm). exists ds. split; [eapply grows_drawn; eauto|exact Hm].
    - destruct g; try discriminate Hc. destruct (leaf_g37 H _ _ E) as (x & s & Ef & Ex).
      destruct (G _ _ Ef) as (ds & Gr & Hm). exists ds. split; [|exact Hm].
      eapply grows_drawn with (c := c_contour (v_ext v)); [|exact Hd]. rewrite Ex. exact Gr.
  Qed.

End Labels.

(** *** Where metadata come from *)
Section Sources.
  Context {K : Type} {NK : Num K} (clock : nat -> Z).
  Definition allb (P : meta -> Prop) (b : buffer K) : Prop := Forall (fun d => P (draw_meta d)) (bf_cmds b).
  Definition allc (P : meta -> Prop) (x : cstate K) : Prop := forall k b, d_get k (c_buffers x) = Some b -> allb P b.
  Definition alld (P : meta -> Prop) (bs : dict (buffer K)) : Prop := forall k b, d_get k bs = Some b -> allb P b.

  Lemma alld_set P k b bs : alld P bs -> allb P b -> alld P (d_set k b bs).
  Proof. intros Hx Hb k' b'. rewrite d_get_set. destruct (str_eqb k' k); [intros E; injection E as <-; exact Hb|apply Hx]. Qed.
  Lemma allb_append P d b : allb P b -> P (draw_meta d) -> allb P (append_draw d b).
  Proof. intros Hb Hd. unfold allb. rewrite append_draw_cmds. apply Forall_app. split; [exact Hb|repeat constructor; exact Hd]. Qed.
  Lemma allb_appends P ds b : allb P b -> Forall (fun d => P (draw_meta d)) ds -> allb P (append_draws ds b).
  Proof. intros Hb Hd. unfold allb. rewrite append_draws_cmds. apply Forall_app. auto. Qed.
  Lemma allc_current P d x x' : allc P x -> P (draw_meta d) -> append_current d x = Ok x' -> allc P x'.
  Proof.
    intros Hx Hd E. apply append_current_inv in E as (id & st & b & Es & Eb & ->). apply alld_set; [exact Hx|].
    apply allb_append; [exact (Hx _ _ Eb)|exact Hd].
  Qed.
  Lemma allc_all P ds : forall x x', allc P x -> Forall (fun d => P (draw_meta d)) ds -> append_all ds x = Ok x' -> allc P x'.
  Proof.
    induction ds as [|d r IH]; intros x x' Hx Hd; cbn [append_all].
    - intros E; injection E as <-; exact Hx.
    - inversion Hd; subst. destruct (append_current d x) as [x1|] eqn:E1; [|discriminate]. cbn [bind]. apply IH; [|assumption].
      eapply allc_current; eauto.
  Qed.
  Lemma alld_transformed P f m : forall id bs b bs', alld P bs -> transformed f m id bs = Ok (b, bs') -> allb P b /\ alld P bs'.
  Proof.
    induction f as [|f IH]; intros id bs b bs' Hx; rewrite transformed_eq;
      (destruct (d_get (layer_key id m) bs) as [b1|] eqn:Ek; [intros E; injection E as <- <-; split; [exact (Hx _ _ Ek)|exact Hx]|]); [discriminate|].
    unfold get_buffer. destruct (d_get id bs) as [base|] eqn:Eb; [|discriminate]. cbn [bind].
    assert (HL : forall cs acc deps bs r, alld P bs -> Forall (fun d => P (draw_meta d)) cs -> Forall (fun d => P (draw_meta d)) acc ->
      copy_loop f m cs acc deps bs = Ok r -> Forall (fun d => P (draw_meta d)) (fst (fst r)) /\ alld P (snd r)).
    { clear bs base Eb Hx Ek. induction cs as [|[sh|p] cs IHc]; intros acc deps bs r Hx Hcs Ha; cbn [copy_loop].
      - intros E; injection E as <-. auto.
      - inversion Hcs; subst. intros E. eapply IHc; [exact Hx|assumption| |exact E]. apply Forall_app. repeat constructor; assumption.
      - inversion Hcs; subst. destruct (transformed f m (pa_src p) bs) as [[b1 bs1]|] eqn:Et; [|discriminate]. cbn [bind].
        intros E. destruct (IH _ _ _ _ Hx Et) as (_ & Hx1). eapply IHc; [exact Hx1|assumption| |exact E]. apply Forall_app. repeat constructor; assumption. }
    destruct (copy_loop f m (bf_cmds base) [] [] bs) as [[[cs deps] bs1]|] eqn:El; [|discriminate]. cbn [bind].
    intros E; injection E as <- <-. destruct (HL _ _ _ _ _ Hx (Hx _ _ Eb) (Forall_nil _) El) as (H1 & H2). split; [exact H1|].
    apply alld_set; [exact H2|exact H1].
  Qed.
  Lemma allc_aperture P s id x b x' : allc P x -> aperture_buffer s id x = Ok (b, x') -> allb P b /\ allc P x'.
  Proof. intros Hx E. apply aperture_buffer_inv in E as (bs' & Et & ->). exact (alld_transformed P _ _ _ _ _ _ Hx Et). Qed.

  (** Macros *)
  Definition allm (P Q : meta -> Prop) (m : mstate (K := K)) : Prop := allb P (ms_buf m) /\ allc Q (ms_c m).
  Lemma rings_meta n (c : vec K) ring delta : forall o i l, rings n c ring delta o i = Ok l -> Forall (fun s => sh_meta s = None) l.
  Proof.
    induction n as [|n IH]; intros o i l; cbn [rings]; [intros E; injection E as <-; constructor|].
    destruct (n_leb o ring); [intros E; injection E as <-; repeat constructor|].
    unfold new_ring. cbv zeta. destruct (negb _); [discriminate|]. destruct (negb _); [discriminate|]. cbn [bind].
    destruct (rings n c ring delta _ _) as [r|] eqn:Er; [|discriminate]. cbn [bind]. intros E; injection E as <-.
    repeat (constructor; [reflexivity|]). exact (IH _ _ _ Er).
  Qed.
  Lemma ring_meta (c : vec K) o i neg m l : new_ring c o i neg m = Ok l -> Forall (fun s => sh_meta s = m) l.
  Proof.
    unfold new_ring. cbv zeta. destruct (negb _); [discriminate|]. destruct (negb _); [discriminate|]. intros E; injection E as <-. repeat constructor.
  Qed.
  Lemma polygon_meta (c : vec K) d n r neg m sh : new_polygon c d n r neg m = Ok sh -> sh_meta sh = m.
  Proof.
    unfold new_polygon. destruct (n <? 3)%Z; [discriminate|]. cbv zeta. destruct (negb _); [discriminate|].
    destruct (polygon_loop _ _ _ _ _ _); [|discriminate]. intros E; injection E as <-. reflexivity.
  Qed.
  Lemma ms_appends_spec ds : forall m : mstate (K := K), ms_appends ds m = MkM (ms_scope m) (append_draws ds (ms_buf m)) (ms_c m).
  Proof. induction ds as [|d r IH]; intros m; [destruct m; reflexivity|]. unfold ms_appends in *. cbn. rewrite IH. reflexivity. Qed.

  Ltac evals E := repeat match type of E with
    | context [bind (eval ?s ?e) _] => destruct (eval s e); cbn [bind] in E; [|discriminate E]
    end.
  Lemma prim_meta (P Q : meta -> Prop) md p m m' : P md -> Q md -> (ringed p = true -> P None) -> allm P Q m -> on_prim clock md p m = Ok m' -> allm P Q m'.
  Proof.
    intros HP HQ HN (Hb & Hc) E.
    destruct p; cbn [on_prim] in E; evals E;
      try (apply Ok_inj in E; subst m'; split; [apply allb_append; [exact Hb|exact HP]|exact Hc]).
    - apply Ok_inj in E; subst m'. split; assumption.
    - destruct rotation as [r|]; [evals E|]; apply Ok_inj in E; subst m'; (split; [apply allb_append; [exact Hb|exact HP]|exact Hc]).
    - match type of E with context [bind ?g _] => destruct g; cbn [bind] in E; [|discriminate E] end. evals E.
      apply Ok_inj in E; subst m'; (split; [apply allb_append; [exact Hb|exact HP]|exact Hc]).
    - destruct (new_polygon _ _ _ _ _ _) as [sh|] eqn:Es; cbn [bind] in E; [|discriminate E]. apply polygon_meta in Es.
      apply Ok_inj in E; subst m'; (split; [apply allb_append; [exact Hb|]|exact Hc]). cbn [draw_meta]. unfold rot_shape, shape_transform. cbn [sh_meta]. rewrite Es. exact HP.
    - cbv zeta in E. match type of E with context [bind ?g _] => destruct g as [rs|] eqn:Er; cbn [bind] in E; [|discriminate E] end.
      apply Ok_inj in E; subst m'. rewrite ms_appends_spec. split; [|exact Hc]. cbn [ms_buf]. apply allb_appends; [exact Hb|].
      apply Forall_map. cbn [draw_meta]. apply Forall_app. split.
      + match goal with |- Forall _ (if ?c then _ else _) => destruct c end; repeat constructor; exact HP.
      + assert (Hr : Forall (fun s : shape K => sh_meta s = None) rs).
        { match type of Er with (if ?c then _ else _) = _ => destruct c end; [eapply rings_meta; exact Er|injection Er as <-; constructor]. }
        revert Hr. apply Forall_impl. intros sh Hs. unfold rot_shape, shape_transform. cbn [sh_meta]. rewrite Hs. exact (HN eq_refl).
    - destruct (n_leb _ _) in E; [apply Ok_inj in E; subst m'; split; assumption|]. evals E. cbv zeta in E.
      destruct (n_leb _ _) in E; [apply Ok_inj in E; subst m'; split; assumption|].
      destruct (n_leb _ _) in E; [apply Ok_inj in E; subst m'; split; assumption|].
      destruct (new_ring _ _ _ _ _) as [rg|] eqn:Er; cbn [bind] in E; [|discriminate E]. apply ring_meta in Er.
      apply Ok_inj in E; subst m'. unfold ms_append. cbn [ms_buf ms_c ms_scope]. split; [apply allb_append; [exact Hb|exact (HN eq_refl)]|].
      cbn [ms_c]. apply alld_set; [exact Hc|]. apply allb_appends; [constructor|]. apply Forall_map. cbn [draw_meta]. apply Forall_app. split.
      + revert Er. apply Forall_impl. intros sh Hs. unfold rot_shape, shape_transform. cbn [sh_meta]. rewrite Hs. exact HQ.
      + repeat constructor; exact HQ.
    - apply Ok_inj in E; subst m'. split; assumption.
  Qed.
  Lemma prims_meta (P Q : meta -> Prop) md ps : P md -> Q md -> (existsb ringed ps = true -> P None) -> forall m m', allm P Q m -> on_prims clock md ps m = Ok m' -> allm P Q m'.
  Proof.
    intros HP HQ. induction ps as [|p r IH]; intros HN m m' Hm; cbn [on_prims].
    - intros E; injection E as <-. exact Hm.
    - destruct (on_prim clock md p m) as [m1|] eqn:E1; [|discriminate]. cbn [bind existsb] in *. intros E.
      eapply IH; [|eapply prim_meta; [exact HP|exact HQ| |exact Hm|exact E1]|exact E].
      + intros Hr. apply HN. rewrite Hr. apply Bool.orb_true_r.
      + intros Hr. apply HN. rewrite Hr. reflexivity.
  Qed.
  Definition aperture_ringed (a : ad K) (s : state K) : bool :=
    match ad_template a with
    | TMacro name _ => match d_get name (s_macros s) with Some ps => existsb ringed ps | None => false end
    | _ => false
    end.
  Lemma hole_meta (P : meta -> Prop) hole f m : P m -> Forall (fun d => P (draw_meta d)) (hole_of (K := K) hole f m).
  Proof. intros Hm. unfold hole_of. destruct hole as [h|]; [|constructor]. destruct (n_ltb n0 h); repeat constructor; exact Hm. Qed.
  Lemma aperture_meta md (P Q : meta -> Prop) a s x x' : let m := meta_of md (s_ap_attrs s) in
    P m -> Q m -> (aperture_ringed a s = true -> P None) -> (forall e, P e -> Q e) -> allc Q x -> on_aperture md clock a s x = Ok x' ->
    (exists b, d_get (ad_id a) (c_buffers x') = Some b /\ allb P b) /\ allc Q x'.
  Proof.
    intros m HP HQ HN HPQ Hx. unfold on_aperture, aperture_ringed in *. fold m. cbv zeta.
    assert (F : forall ds, Forall (fun d => P (draw_meta d)) ds -> Ok (E := exc) (set_buffer (append_draws ds (empty_buffer (ad_id a))) x) = Ok x' ->
      (exists b, d_get (ad_id a) (c_buffers x') = Some b /\ allb P b) /\ allc Q x').
    { intros ds Hds E. injection E as <-. cbn [set_buffer c_buffers]. rewrite append_draws_id. cbn [empty_buffer bf_id].
      assert (Hb : allb P (append_draws ds (empty_buffer (ad_id a)))) by (apply allb_appends; [constructor|exact Hds]).
      split; [eexists; rewrite d_get_set, str_eqb_refl; split; [reflexivity|exact Hb]|].
      unfold allc. cbn [set_buffer c_buffers]. apply alld_set; [exact Hx|]. revert Hb. apply Forall_impl. intros d. apply HPQ. }
    destruct (ad_template a) as [d h|w h hole|w h hole|d n r hole|name params].
    - apply F. constructor; [exact HP|apply hole_meta; exact HP].
    - apply F. constructor; [exact HP|apply hole_meta; exact HP].
    - apply F. constructor; [|apply hole_meta; exact HP]. cbn [draw_meta]. unfold new_obround. cbv zeta. destruct (n_leb w h); exact HP.
    - destruct (new_polygon _ _ _ _ _ m) as [sh|] eqn:Es; cbn [bind]; [|discriminate]. apply polygon_meta in Es.
      apply F. constructor; [cbn [draw_meta]; rewrite Es; exact HP|apply hole_meta; exact HP].
    - destruct (d_get name (s_macros s)) as [ps|]; [|discriminate].
      destruct (on_prims clock m ps _) as [ms|] eqn:Ep; cbn [bind]; [|discriminate]. intros E; injection E as <-.
      assert (Hid : bf_id (ms_buf ms) = ad_id a).
      { apply on_prims_steps in Ep. apply (prims_keep clock) in Ep as (_ & Ep). exact Ep. }
      apply (prims_meta P Q m ps HP HQ HN) in Ep as (Hb & Hc).
      + unfold allc. cbn [set_buffer c_buffers]. rewrite Hid. split; [eexists; rewrite d_get_set, str_eqb_refl; split; [reflexivity|exact Hb]|].
        apply alld_set; [exact Hc|]. revert Hb. apply Forall_impl. intros d. apply HPQ.
      + split; [constructor|]. cbn [ms_c]. unfold allc. cbn [set_buffer c_buffers]. apply alld_set; [exact Hx|constructor].
  Qed.

  Lemma flush_meta (P : meta -> Prop) s x x' : P None -> allc P x -> flush_region (K := K) s x = Ok x' -> allc P x'.
  Proof.
    intros HN Hx. unfold flush_region. destruct (c_contour x) as [[|g l]|]; [intros E; injection E as <-; exact Hx| |discriminate].
    destruct (append_current _ x) as [x1|] eqn:E1; [|discriminate]. cbn [bind]. intros E; injection E as <-.
    apply allc_current with (P := P) in E1; [exact E1|exact Hx|exact HN].
  Qed.
  Lemma draw_meta_kept md (P : meta -> Prop) h s x x' : P (meta_of md (s_obj_attrs s)) -> allc P x -> on_draw (K := K) md h s x = Ok x' -> allc P x'.
  Proof.
    intros HP Hx.
    assert (HL : draw_line md s x = Ok x' -> allc P x').
    { unfold draw_line. destruct (line_thickness _ s); [|discriminate]. cbn [bind]. cbv zeta. apply allc_all; [exact Hx|]. repeat constructor; exact HP. }
    assert (HA : forall cw, draw_arc md cw s x = Ok x' -> allc P x').
    { intros cw. unfold draw_arc. destruct (line_thickness _ s); [|discriminate]. cbn [bind]. cbv zeta.
      destruct (v_eqb _ _); (apply allc_all; [exact Hx|]); repeat (constructor; [cbn [draw_meta]; rewrite ?arc_meta; exact HP|]); constructor. }
    destruct h; cbn [on_draw]; auto; try (apply HA); try (intros E; injection E as <-; exact Hx);
      unfold region_line, region_arc; destruct (c_contour x); try discriminate; cbv zeta; intros E; try (injection E as <-; exact Hx).
  Qed.
  Lemma flash_meta md (P : meta -> Prop) h a s x x' : P (meta_of md (s_obj_attrs s)) -> allc P x -> on_flash (K := K) md h a s x = Ok x' -> allc P x'.
  Proof.
    intros HP Hx E. apply on_flash_cases in E as [(ad & -> & E)|(id & -> & E)].
    - apply flash_aperture_inv in E as (b & x1 & Ea & E). destruct (allc_aperture P _ _ _ _ _ Hx Ea) as (_ & H1).
      apply allc_current with (P := P) in E; [exact E|exact H1|exact HP].
    - apply flash_block_inv in E as (b & x1 & Ea & E). destruct (allc_aperture P _ _ _ _ _ Hx Ea) as (Hb & H1).
      apply allc_all with (P := P) in E; [exact E|exact H1|]. apply Forall_map. revert Hb. apply Forall_impl. intros [sh|q] Hd; exact Hd.
  Qed.
  Lemma sr_close_meta P t h (s : state K) x x' : allc P x -> sr_close t h s x = Ok x' -> allc P x'.
  Proof.
    intros Hx E. apply sr_close_inv in E as (b & nx & ny & dx & dy & x1 & Eb & _ & _ & _ & _ & Ea & ->).
    apply allc_all with (P := P) in Ea; [|exact Hx|].
    - intros k c. cbn [set_buffers c_buffers]. rewrite d_get_del. destruct (str_eqb k t); [discriminate|apply Ea].
    - apply Forall_flat_map, Forall_forall. intros ix _. apply Forall_flat_map, Forall_forall. intros iy _. apply Forall_map.
      generalize (Hx _ _ Eb). apply Forall_impl. intros [sh|q] Hd; exact Hd.
  Qed.

  (** [m] holds the attributes of the object or aperture dictionary at some time. *)
  Definition sourced (pre : list (node K)) (m : meta) : Prop :=
    m = None \/ exists p q, pre = p ++ q /\ (labelled (as_obj (attributes p)) m \/ labelled (as_ap (attributes p)) m).
  Lemma sourced_more pre n m : sourced pre m -> sourced (pre ++ [n]) m.
  Proof. intros [->|(p & q & -> & Hm)]; [left; reflexivity|]. right. exists p, (q ++ [n]). rewrite app_assoc. auto. Qed.
  Lemma allb_more pre n b : allb (sourced pre) b -> allb (sourced (pre ++ [n])) b.
  Proof. apply Forall_impl. intros d. apply sourced_more. Qed.
  Lemma allc_more pre n x : allc (sourced pre) x -> allc (sourced (pre ++ [n])) x.
  Proof. intros Hx k b E. apply allb_more. exact (Hx k b E). Qed.

  Notation H := (compiler_hooks (K := K) true clock).
  Lemma sourced_point pre v : at_point H compiler_init pre v -> allc (sourced pre) (v_ext v).
  Proof.
    induction 1 as [|pre v n v' Hp IH Hl E|pre v id Hp IH|pre v id Hp IH|pre v u Hp IH|pre v t h v' Hp IH E].
    - intros k b. unfold visitor_init, compiler_init; cbn [v_ext c_buffers d_get]. destruct (str_eqb _ _); [|discriminate]. intros E; injection E as <-. constructor.
    - destruct (attributes_point H _ _ _ Hp) as (Ha & _ & Ho & _).
      apply (allc_more _ n) in IH. destruct (calls_back n) eqn:Ec.
      2:{ rewrite (leaf_quiet H n v v' Ec E). exact IH. }
      destruct E as [E|E].
      2:{ destruct (leaf_stop _ _ _ _ E) as [[-> | ->] _]; discriminate Ec. }
      assert (HN : sourced (pre ++ [n]) None) by (left; reflexivity).
      destruct n; try discriminate Ec.
      + destruct (leaf_adef H _ _ _ E) as (s & Es & ->). cbn [compiler_hooks hk_ad] in Es.
        assert (Hat : s_ap_attrs (v_state v') = s_ap_attrs (v_state v)).
        { cbn [visit_leaf] in E. unfold on_ad in E. apply lift_done in E as (-> & _). reflexivity. }
        assert (HS : sourced (pre ++ [NAD a]) (meta_of true (s_ap_attrs (v_state v')))).
        { right. exists pre, [NAD a]. split; [reflexivity|]. right. rewrite Hat. exists (s_ap_attrs (v_state v)). auto. }
        apply (aperture_meta true (sourced (pre ++ [NAD a])) (sourced (pre ++ [NAD a]))) in Es as (_ & Es); auto.
      + destruct (leaf_d01 H _ _ _ _ _ _ E) as (s & Hr & Hd & _). cbn [compiler_hooks hk_draw] in Hd.
        eapply draw_meta_kept; [|exact IH|exact Hd]. rewrite (read_attrs _ _ _ _ _ _ Hr). right. eexists pre, _. split; [reflexivity|].
        left. exists (s_obj_attrs (v_state v)). auto.
      + destruct (leaf_d02 H _ _ _ _ E) as (s & _ & _ & Hf). destruct (s_region (v_state v)); [|rewrite Hf; exact IH].
        cbn [compiler_hooks hk_flush_region] in Hf. eapply flush_meta; eauto.
      + destruct (leaf_d03 H _ _ _ _ E) as (s & a & h & Hr & _ & _ & Hf & _). cbn [compiler_hooks hk_flash] in Hf.
        eapply flash_meta; [|exact IH|exact Hf]. rewrite (read_attrs _ _ _ _ _ _ Hr). right. eexists pre, _. split; [reflexivity|].
        left. exists (s_obj_attrs (v_state v)). auto.
      + destruct g; try discriminate Ec.
        * destruct (leaf_g36 H _ _ E) as (s & ->). exact IH.
        * destruct (leaf_g37 H _ _ E) as (x & s & Ef & ->). cbn [compiler_hooks hk_flush_region] in Ef.
          pose proof (flush_meta _ _ _ _ HN IH Ef) as Hx. exact Hx.
    - unfold allc. cbn. apply alld_set; [exact IH|constructor].
    - apply (allc_more _ (NAB id [])) in IH. exact IH.
    - unfold sr_enter. cbn. unfold allc. cbn. apply alld_set; [exact IH|constructor].
    - unfold sr_leave in E. apply lift_done in E as (_ & _ & _ & _ & E). cbn [compiler_hooks hk_sr_close] in E. eapply sr_close_meta; eauto.
  Qed.
End Sources.

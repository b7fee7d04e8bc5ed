(** Property theorems C04-C10: the state tracking visitor (specification in [StateSpec]).
    [H] ranges over all subclasses (callbacks), [b] over [ignore_program_stop],
    [executed_file b ns] are the commands file [ns] executes. *)
From Verif Require Import Base Num Dict CoordModel CoordSpec Ast StateModel StateSpec StateProofs.
Open Scope nat_scope.

Section Theorems.
  Context {K : Type} {NK : Num K}.

  (** *** C04 *)
  Theorem C04_modal_state_last_write :
    forall (X : Type) (H : hooks K X) (x : X) (b : bool) (ns : list (node K)) (v : visitor K X),
      on_file H b ns (visitor_init x) = Ok v ->
      let s := v_state v in
      let cmds := executed_file b ns in
      s_unit s = last_set sets_unit Metric cmds /\
      s_cf s = fold_left format_step cmds None /\
      s_plot s = last_set sets_plot PmLinear cmds /\
      s_arc s = last_set sets_arc SingleQuadrant cmds /\
      s_region s = last_set sets_region false cmds /\
      s_apid s = last_set sets_aperture None cmds /\
      tr_polarity (s_tr s) = last_set sets_polarity Dark cmds /\
      tr_mirroring (s_tr s) = last_set sets_mirroring MirNone cmds /\
      tr_rotation (s_tr s) = last_set sets_rotation (n_of_Q 0) cmds /\
      tr_scaling (s_tr s) = last_set sets_scaling (n_of_Q 1) cmds /\
      ia_polarity (s_img s) = last_set sets_image_polarity ImgPositive cmds /\
      ia_rotation (s_img s) = last_set sets_image_rotation 0%Z cmds /\
      (ia_mirror_a (s_img s), ia_mirror_b (s_img s)) = last_set sets_image_mirror (0, 0)%Z cmds /\
      (ia_offset_a (s_img s), ia_offset_b (s_img s))
        = last_set sets_image_offset (Some (n_of_Q 0), Some (n_of_Q 0)) cmds /\
      (ia_scale_a (s_img s), ia_scale_b (s_img s))
        = last_set sets_image_scale (Some (n_of_Q 0), Some (n_of_Q 0)) cmds /\
      ia_image_name (s_img s) = last_set sets_image_name None cmds /\
      ia_file_name (s_img s) = last_set sets_load_name None cmds /\
      ia_axis (s_img s) = last_set sets_axis AXBY cmds.
  Proof.
    intros X H x b ns v E. cbv zeta.
    repeat split.
    - exact (ls_unit H b ns _ v E).
    - exact (ls_format H b ns _ v E).
    - exact (ls_plot H b ns _ v E).
    - exact (ls_arc H b ns _ v E).
    - exact (ls_region H b ns _ v E).
    - exact (ls_apid H b ns _ v E).
    - exact (ls_polarity H b ns _ v E).
    - exact (ls_mirroring H b ns _ v E).
    - exact (ls_rotation H b ns _ v E).
    - exact (ls_scaling H b ns _ v E).
    - exact (ls_ipol H b ns _ v E).
    - exact (ls_irot H b ns _ v E).
    - exact (ls_imir H b ns _ v E).
    - exact (ls_ioff H b ns _ v E).
    - exact (ls_iscale H b ns _ v E).
    - exact (ls_iname H b ns _ v E).
    - exact (ls_lname H b ns _ v E).
    - exact (ls_axis H b ns _ v E).
  Qed.

  (** *** C05 *)
  Theorem C05_current_point :
    forall (b : bool) (ns : list (node K)) (v : visitor K (list call)),
      on_file recorder b ns (visitor_init []) = Ok v ->
      let p := fold_left pen_step (executed_file b ns) (MkPen None (n_of_Q 0, n_of_Q 0) []) in
      (s_cur_x (v_state v), s_cur_y (v_state v)) = pen_at p /\
      map (fun c => ((s_cur_x (snd c), s_cur_y (snd c)), (coordinate_x (snd c), coordinate_y (snd c))))
          (draws_of (v_ext v)) = pen_segs p.
  Proof.
    intros b ns v E. cbv zeta.
    assert (HR : Rpen (visitor_init []) (MkPen None (n_of_Q 0, n_of_Q 0) [])).
    { repeat split; intros k Hk; discriminate Hk. }
    destruct (pen_file b ns _ v _ HR E) as (_ & H1 & _ & _ & H2). exact (conj H1 H2).
  Qed.

  (** *** C06 *)
  Theorem C06_d01_dispatch :
    forall (b : bool) (ns : list (node K)) (v : visitor K (list call)),
      on_file recorder b ns (visitor_init []) = Ok v ->
      map fst (draws_of (v_ext v))
        = mo_calls (fold_left modes_step (executed_file b ns) (MkModes PmLinear SingleQuadrant false [])).
  Proof.
    intros b ns v E.
    assert (HR : Rmodes (visitor_init []) (MkModes PmLinear SingleQuadrant false [])) by (repeat split).
    exact (proj2 (proj2 (proj2 (proj2 (proj2 (modes_file b ns _ v _ HR E)))))).
  Qed.

  (** *** C07 *)
  (** Full statement, without side condition on redefinitions. *)
  Definition C07_full : Prop :=
    forall (b : bool) (ns : list (node K)) (v : visitor K (list call)),
      on_file recorder b ns (visitor_init []) = Ok v ->
      map Some (flashes_of (v_ext v)) = expected_flashes [] (executed_file b ns).
  (** Proved when no definition replaces the selected D-code and no AB reuses the D-code of an
      earlier AD.  Missing: exactly these two situations, see the refutations. *)
  Theorem C07_flash_latest_definition_partial :
    forall (b : bool) (ns : list (node K)) (v : visitor K (list call)),
      on_file recorder b ns (visitor_init []) = Ok v ->
      no_shadowing (executed_file b ns) ->
      map Some (flashes_of (v_ext v)) = expected_flashes [] (executed_file b ns).
  Proof. exact flash_file. Qed.

  (** *** C08 *)
  Theorem C08_attribute_maps :
    forall (X : Type) (H : hooks K X) (x : X) (b : bool) (ns : list (node K)) (v : visitor K X),
      on_file H b ns (visitor_init x) = Ok v ->
      let s := v_state v in
      let m := fold_left attrs_step (executed_file b ns) attrs_init in
      (forall k, d_get k (s_ap_attrs s) = as_ap m k) /\
      (forall k, d_get k (s_file_attrs s) = as_file m k) /\
      (forall k, d_get k (s_obj_attrs s) = as_obj m k) /\
      (forall id, d_get id (s_per_ap_attrs s) = None <-> as_snap m id = None) /\
      (forall id d f, d_get id (s_per_ap_attrs s) = Some d -> as_snap m id = Some f ->
         forall k, d_get k d = f k).
  Proof.
    intros X H x b ns v E. cbv zeta.
    assert (HR : Rattrs (visitor_init x) attrs_init) by (repeat split).
    destruct (attrs_file H b ns _ v _ HR E) as (H1 & H2 & H3 & H4).
    split; [exact H1|]. split; [exact H2|]. split; [exact H3|]. split.
    - intros id. specialize (H4 id).
      destruct (d_get id _), (as_snap _ id); try contradiction; split; congruence.
    - intros id d f Ed Ef. specialize (H4 id). rewrite Ed, Ef in H4. exact H4.
  Qed.

  (** The attributes of an aperture are those in force at its last definition. *)
  Theorem C08_snapshot_isolated :
    forall (X : Type) (H : hooks K X) (x : X) (b : bool) (ns : list (node K)) (v : visitor K X)
           (before after : list (node K)) (n : node K) (id : str) (d : def),
      on_file H b ns (visitor_init x) = Ok v ->
      executed_file b ns = before ++ n :: after ->
      defines n = Some (id, d) ->
      (forall n' d', In n' after -> defines n' = Some (id, d') -> False) ->
      exists snap, d_get id (s_per_ap_attrs (v_state v)) = Some snap /\
        forall k, d_get k snap = as_ap (fold_left attrs_step before attrs_init) k.
  Proof.
    intros X H x b ns v before after n id d E Hsplit Hd Hafter.
    assert (HR : Rattrs (visitor_init x) attrs_init) by (repeat split).
    destruct (attrs_file H b ns _ v _ HR E) as (_ & _ & _ & H4). rewrite Hsplit in H4.
    specialize (H4 id). rewrite (snap_last before after n id d attrs_init Hd Hafter) in H4.
    destruct (d_get id _) as [snap|]; [|contradiction]. exists snap. auto.
  Qed.

  (** *** C09 *)
  (** The documented behaviour: by default a stop command ends processing; when stops are
      ignored the stop command has no effect. *)
  Definition C09_full : Prop :=
    forall (X : Type) (H : hooks K X) (x : X) (pre post : list (node K)) (stop : node K),
      stop = NM00 \/ stop = NM02 ->
      on_file H false (pre ++ stop :: post) (visitor_init x) = on_file H false (pre ++ [stop]) (visitor_init x) /\
      on_file H true (pre ++ stop :: post) (visitor_init x) = on_file H true (pre ++ post) (visitor_init x).
  (** What the code does: the flag has the opposite meaning. *)
  Theorem C09_flag_is_inverted :
    forall (X : Type) (H : hooks K X) (v : visitor K X) (pre post : list (node K)) (stop : node K),
      stop = NM00 \/ stop = NM02 ->
      on_file H true (pre ++ stop :: post) v = on_file H true (pre ++ [stop]) v /\
      on_file H false (pre ++ stop :: post) v = on_file H false (pre ++ post) v.
  Proof.
    intros X H v pre post stop Hs. split.
    - rewrite !(stop_true H pre stop _ v Hs). reflexivity.
    - exact (stop_false H pre stop post v Hs).
  Qed.

  (** *** C10 *)
  Theorem C10_next_code_is_larger_partial :
    forall (X : Type) (H : hooks K X) (x : X) (b : bool) (ns : list (node K)) (v : visitor K X),
      on_file H b ns (visitor_init x) = Ok v ->
      (forall n id d, In n (executed_file b ns) -> defines n = Some (id, d) -> exists m, dcode id m) ->
      (exists n id d, In n (executed_file b ns) /\ defines n = Some (id, d)) ->
      exists c, next_free_code (v_state v) = Ok c /\
        forall n id d m, In n (executed_file b ns) -> defines n = Some (id, d) -> dcode id m -> (m < c)%Z.
  Proof. intros X H x b ns v. exact (next_code_file H b ns x v). Qed.
End Theorems.

(** *** Refutations and concrete cases, over the rationals *)
Local Existing Instance NumQ.
Definition ql (a : Z) (b : positive) : Q := Qmake a b.

Definition sample_program : list (node Q) :=
  [ NFS (MkFS SkipLeading Absolute 2 3 2 3); NMO Imperial; NG G75;
    NTA (MkAttr (lit ".AperFunction") [lit "Conductor"]);
    NAD (MkAD (lit "D10") (TCircle (ql 1 2) None));
    NTD None;
    NAB (lit "D11") [NDnn (lit "D10"); ND03 (Some (lit "1000")) None; NLP Clear];
    NDnn (lit "D11"); NG G36; ND02 None (Some (lit "500")); NG G02;
    ND01 (Some (lit "2500")) None (Some (lit "100")) None; NG G37;
    NG G01; ND01 None (Some (lit "750")) None None; ND03 None None; NM02; NLP Dark ].

Example C04_case :
  exists v, on_file recorder false sample_program (visitor_init []) = Ok v /\
    s_unit (v_state v) = Imperial /\ s_plot (v_state v) = PmLinear /\ s_arc (v_state v) = MultiQuadrant.
Proof. eexists. split; [vm_compute; reflexivity|vm_compute; auto]. Qed.
Example C05_case :
  exists v, on_file recorder false sample_program (visitor_init []) = Ok v /\
    length (draws_of (v_ext v)) = 2 /\
    pen_segs (fold_left pen_step (executed_file false sample_program) (MkPen None (n_of_Q 0, n_of_Q 0) []))
      = [((1, 1 # 2), (5 # 2, 1 # 2)); ((5 # 2, 1 # 2), (5 # 2, 3 # 4))]%Q.
Proof. eexists. split; [vm_compute; reflexivity|vm_compute; auto]. Qed.
Example C06_case :
  exists v, on_file recorder false sample_program (visitor_init []) = Ok v /\
    map fst (draws_of (v_ext v)) = [HRegionCwMq; HDrawLine].
Proof. eexists. split; [vm_compute; reflexivity|vm_compute; auto]. Qed.
Example C08_case :
  exists v snap a, on_file recorder false sample_program (visitor_init []) = Ok v /\
    d_get (lit "D10") (s_per_ap_attrs (v_state v)) = Some snap /\
    d_get (lit ".AperFunction") snap = Some a /\ s_ap_attrs (v_state v) = [].
Proof. do 3 eexists. split; [vm_compute; reflexivity|vm_compute; auto]. Qed.

(** D03 on a program that meets the condition of the partial theorem. *)
Definition flash_program : list (node Q) :=
  [ NFS (MkFS SkipLeading Absolute 2 3 2 3); NAD (MkAD (lit "D10") (TCircle (ql 1 2) None));
    NAB (lit "D11") [NDnn (lit "D10"); ND03 (Some (lit "1000")) None];
    NDnn (lit "D11"); ND03 None None ].
Example C07_case :
  (exists v, on_file recorder false flash_program (visitor_init []) = Ok v /\
     flashes_of (v_ext v) = [(FCircle, ApAD (MkAD (lit "D10") (TCircle (ql 1 2) None)));
                             (FBlock, ApAB (lit "D11"))]) /\
  no_shadowing (executed_file false flash_program).
Proof.
  split; [eexists; split; [vm_compute; reflexivity|vm_compute; reflexivity]|].
  intros before n after. apply (all_fresh_sound _ []).
  cbn. repeat split; try discriminate.
  intros a Ha. destruct Ha as [Ha|[Ha|[Ha|[Ha|[]]]]]; try discriminate Ha. injection Ha as <-. discriminate.
Qed.

(** Redefining the selected aperture: the flash still goes to the circle callback, with the
    rectangle as argument. *)
Theorem C07_redefinition_refuted : ~ C07_full (K := Q).
Proof.
  intros H.
  pose (ns := [ NFS (MkFS SkipLeading Absolute 2 3 2 3);
                NAD (MkAD (lit "D10") (TCircle (ql 1 2) None)); NDnn (lit "D10");
                NAD (MkAD (lit "D10") (TRect (ql 1 2) (ql 1 1) None)); ND03 None None ] : list (node Q)).
  destruct (on_file recorder false ns (visitor_init [])) as [v|] eqn:E; [|vm_compute in E; discriminate E].
  specialize (H false ns v E). vm_compute in E. injection E as <-. vm_compute in H. discriminate H.
Qed.
(** A block defined under the D-code of an earlier AD is never flashed. *)
Theorem C07_block_shadowed_refuted :
  exists (ns : list (node Q)) (v : visitor Q (list call)),
    on_file recorder false ns (visitor_init []) = Ok v /\
    latest_def (lit "D10") (executed_file false ns) = Some (DefAB (lit "D10")) /\
    expected_flashes [] (executed_file false ns) = [Some (FBlock, ApAB (lit "D10"))] /\
    flashes_of (v_ext v) = [(FCircle, ApAD (MkAD (lit "D10") (TCircle (ql 1 2) None)))].
Proof.
  exists [ NFS (MkFS SkipLeading Absolute 2 3 2 3);
           NAD (MkAD (lit "D10") (TCircle (ql 1 2) None)); NAB (lit "D10") [NLP Dark];
           NDnn (lit "D10"); ND03 None None ].
  eexists. split; [vm_compute; reflexivity|]. vm_compute. auto.
Qed.

Theorem C09_stop_refuted : ~ C09_full (K := Q).
Proof.
  intros H. destruct (H unit no_hooks tt [] [NMO Imperial] NM02 (or_intror eq_refl)) as [H1 _].
  vm_compute in H1. discriminate H1.
Qed.
Example C09_case :
  (exists v, on_file recorder true sample_program (visitor_init []) = Ok v /\
     tr_polarity (s_tr (v_state v)) = Clear) /\
  (exists v, on_file recorder false sample_program (visitor_init []) = Ok v /\
     tr_polarity (s_tr (v_state v)) = Dark).
Proof. split; eexists; (split; [vm_compute; reflexivity|vm_compute; reflexivity]). Qed.

(** On an empty storage there is no next code. *)
Theorem C10_empty_storage_refuted :
  forall (X : Type) (H : hooks Q X) (x : X), next_free_code (v_state (visitor_init x)) = Err EValueError.
Proof. reflexivity. Qed.
Example C10_case :
  exists v, on_file recorder false sample_program (visitor_init []) = Ok v /\
    next_free_code (v_state v) = Ok 12%Z /\ dcode (lit "D11") 11 /\
    In (NAB (lit "D11") []) (executed_file false sample_program).
Proof.
  eexists. split; [vm_compute; reflexivity|]. split; [vm_compute; reflexivity|]. split.
  - exists (lit "11"). repeat split. discriminate.
  - vm_compute. intuition.
Qed.

Print Assumptions C04_modal_state_last_write.
Print Assumptions C05_current_point.
Print Assumptions C06_d01_dispatch.
Print Assumptions C07_flash_latest_definition_partial.
Print Assumptions C07_redefinition_refuted.
Print Assumptions C07_block_shadowed_refuted.
Print Assumptions C08_attribute_maps.
Print Assumptions C08_snapshot_isolated.
Print Assumptions C09_flag_is_inverted.
Print Assumptions C09_stop_refuted.
Print Assumptions C10_next_code_is_larger_partial.
Print Assumptions C10_empty_storage_refuted.

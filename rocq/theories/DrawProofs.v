(** Proofs about what drawing commands emit. *)
From Verif Require Import Base Num Dict CoordModel CoordSpec CoordProofs Ast StateModel StateSpec
  StateProofs GeomModel ExprModel CompilerModel LayerSpec LayerProofs DrawSpec.

(** ** Invariants of points *)
Section PointInv.
  Context {K : Type} {NK : Num K} {X S : Type} (H : hooks K X) (x0 : X).
  Context (R : visitor K X -> S -> Prop) (step : S -> node K -> S) (s0 : S).
  Hypothesis R0 : R (visitor_init x0) s0.
  Hypothesis Rleaf : forall n v v' s, is_leaf n -> R v s ->
    visit_leaf H n v = Done v' \/ visit_leaf H n v = Stop v' -> R v' (step s n).
  Hypothesis Rab_enter : forall id v s, R v s -> R (ab_enter H id v) s.
  Hypothesis Rab_leave : forall id v s, R v s -> R (ab_leave H id v) (step s (NAB id [])).
  Hypothesis Rsr_enter : forall uid v s, R v s -> R (snd (sr_enter H uid v)) s.
  Hypothesis Rsr_leave : forall tmp hdr v v' s, R v s -> sr_leave H tmp hdr v = Done v' -> R v' s.

  Lemma point_inv pre v : at_point H x0 pre v -> R v (fold_left step pre s0).
  Proof.
    induction 1; auto; try (rewrite fold_left_app; cbn [fold_left]); eauto.
  Qed.
End PointInv.

(** Every visitor met in a walk is a point. *)
Section Walks.
  Context {K : Type} {NK : Num K} {X : Type} (H : hooks K X) (x0 : X).

  Lemma point_visits body : Forall (fun n => forall pre v v', at_point H x0 pre v ->
      visit H n v = Done v' \/ visit H n v = Stop v' -> at_point H x0 (pre ++ fst (executed n)) v' /\
      (snd (executed n) = true <-> visit H n v = Stop v')) body ->
    forall pre v v', at_point H x0 pre v -> visits H body v = Done v' \/ visits H body v = Stop v' ->
    at_point H x0 (pre ++ fst (exec_list executed body)) v' /\
    (snd (exec_list executed body) = true <-> visits H body v = Stop v').
  Proof.
    induction 1 as [|n r Hn _ IH]; intros pre v v' Hp; cbn [visits exec_list].
    - rewrite app_nil_r. cbn [snd]. intros [E|E]; [|discriminate]. injection E as <-.
      split; [exact Hp|]. split; discriminate.
    - destruct (visit H n v) as [v1|v1|e] eqn:Ev; cbn [obind].
      + destruct (Hn pre v v1 Hp (or_introl Ev)) as [Hp1 Hs].
        destruct (executed n) as [a st]. cbn [fst snd] in *.
        destruct st; [destruct Hs as [Hs _]; specialize (Hs eq_refl); rewrite Ev in Hs; discriminate Hs|].
        intros E. destruct (IH _ _ _ Hp1 E) as [Hp2 Hs2].
        destruct (exec_list executed r) as [b st']. cbn [fst snd] in *. rewrite app_assoc. auto.
      + intros [E|E]; [discriminate|]. injection E as <-.
        destruct (Hn pre v v1 Hp (or_intror Ev)) as [Hp1 Hs].
        destruct (executed n) as [a st]. cbn [fst snd] in *. rewrite (proj2 Hs Ev). cbn [fst snd].
        split; [exact Hp1|]. tauto.
      + intros [E|E]; discriminate.
  Qed.

  Lemma point_visit n : forall pre v v', at_point H x0 pre v ->
    visit H n v = Done v' \/ visit H n v = Stop v' ->
    at_point H x0 (pre ++ fst (executed n)) v' /\ (snd (executed n) = true <-> visit H n v = Stop v').
  Proof.
    induction n as [id body IH|u h body IH|n Hleaf] using node_ind'; intros pre v v' Hp.
    - rewrite visit_AB. pose proof (point_visits body IH pre (ab_enter H id v)) as HV. cbn [executed].
      destruct (visits H body (ab_enter H id v)) as [v1|v1|e]; cbn [obind].
      + intros [E|E]; [|discriminate]. injection E as <-.
        destruct (HV v1 (pt_ab_enter _ _ _ _ _ Hp) (or_introl eq_refl)) as [Hp1 Hs].
        destruct (exec_list executed body) as [l st]. cbn [fst snd] in *.
        destruct st; [destruct Hs as [Hs _]; specialize (Hs eq_refl); discriminate Hs|]. cbn [fst snd].
        rewrite app_assoc. split; [apply pt_ab_leave; exact Hp1|]. split; discriminate.
      + intros [E|E]; [discriminate|]. injection E as <-.
        destruct (HV v1 (pt_ab_enter _ _ _ _ _ Hp) (or_intror eq_refl)) as [Hp1 Hs].
        destruct (exec_list executed body) as [l st]. cbn [fst snd] in *.
        rewrite (proj2 Hs eq_refl). cbn [fst snd]. split; [exact Hp1|]. tauto.
      + intros [E|E]; discriminate.
    - rewrite visit_SR. pose proof (point_visits body IH pre (snd (sr_enter H u v))) as HV. cbn [executed].
      destruct (visits H body (snd (sr_enter H u v))) as [v1|v1|e]; cbn [obind].
      + intros [E|E]; [|unfold sr_leave in E; apply lift_not_stop in E; contradiction].
        destruct (HV v1 (pt_sr_enter _ _ _ _ _ Hp) (or_introl eq_refl)) as [Hp1 Hs].
        split; [eapply pt_sr_leave; eauto|]. rewrite Hs. rewrite E. split; discriminate.
      + intros [E|E]; [discriminate|]. injection E as <-.
        apply HV; [apply pt_sr_enter; exact Hp|auto].
      + intros [E|E]; discriminate.
    - rewrite (visit_is_leaf H n v Hleaf). rewrite (executed_leaf n Hleaf). cbn [fst snd]. intros E.
      split; [eapply pt_leaf; eauto|]. destruct E as [E|E].
      + rewrite E. split; [|discriminate]. destruct n; try discriminate; cbn [visit_leaf] in E; discriminate.
      + destruct (leaf_stop _ _ _ _ E) as [[-> | ->] _]; rewrite E; tauto.
  Qed.

  Lemma point_file b ns : forall pre v v', at_point H x0 pre v -> on_file H b ns v = Ok v' ->
    at_point H x0 (pre ++ executed_file b ns) v'.
  Proof.
    induction ns as [|n r IH]; intros pre v v' Hp; cbn [on_file executed_file].
    - rewrite app_nil_r. intros E; injection E as <-. exact Hp.
    - destruct (visit H n v) as [v1|v1|e] eqn:Ev; [| |discriminate].
      + destruct (point_visit n pre v v1 Hp (or_introl Ev)) as [Hp1 Hs].
        destruct (executed n) as [a st]. cbn [fst snd] in *.
        destruct st; [rewrite (proj1 Hs eq_refl) in Ev; discriminate|]. cbn [andb].
        rewrite app_assoc. apply IH. exact Hp1.
      + destruct (point_visit n pre v v1 Hp (or_intror Ev)) as [Hp1 Hs].
        destruct (executed n) as [a st]. cbn [fst snd] in *. rewrite (proj2 Hs Ev). cbn [andb].
        destruct b; [intros E; injection E as <-; exact Hp1|]. rewrite app_assoc. apply IH. exact Hp1.
  Qed.
End Walks.

(** ** What holds at every point, for any callbacks *)
Section Facts.
  Context {K : Type} {NK : Num K} {X : Type} (H : hooks K X) (x0 : X).

  Lemma point_last {A} (proj : state K -> A) (setter : node K -> option A) :
    (forall n s s', is_leaf n -> leaf_state n s = Some s' -> proj s' = match setter n with Some b => b | None => proj s end) ->
    (forall id s, proj (register_block id s) = match setter (NAB id []) with Some b => b | None => proj s end) ->
    forall pre v, at_point H x0 pre v -> proj (v_state v) = last_set setter (proj state_default) pre.
  Proof.
    intros Hl Hb pre v Hp. unfold last_set.
    apply (point_inv H x0 (fun v a => proj (v_state v) = a) (fun a n => match setter n with Some b => b | None => a end)
             (proj state_default)); auto.
    - intros n v1 v2 s Hn <- E. apply Hl; [exact Hn|]. eapply leaf_state_spec; eauto.
    - intros id v1 s <-. apply Hb.
    - intros u v1 s <-. unfold sr_enter. destruct (hk_sr_open H u _ _). reflexivity.
    - intros tmp hdr v1 v2 s <- E. unfold sr_leave in E. apply lift_done in E as (-> & _). reflexivity.
  Qed.

  Lemma pl_polarity pre v : at_point H x0 pre v -> p_polarity (v_state v) = last_set sets_polarity Dark pre.
  Proof. apply (point_last p_polarity sets_polarity); [intros n s s' _ E; leaf_cases n s s' E; reflexivity|reflexivity]. Qed.
  Lemma pl_region pre v : at_point H x0 pre v -> s_region (v_state v) = last_set sets_region false pre.
  Proof. apply (point_last s_region sets_region); [intros n s s' _ E; leaf_cases n s s' E; reflexivity|reflexivity]. Qed.
  Lemma pl_plot pre v : at_point H x0 pre v -> s_plot (v_state v) = last_set sets_plot PmLinear pre.
  Proof. apply (point_last s_plot sets_plot); [intros n s s' _ E; leaf_cases n s s' E; reflexivity|reflexivity]. Qed.
  Lemma pl_arc pre v : at_point H x0 pre v -> s_arc (v_state v) = last_set sets_arc SingleQuadrant pre.
  Proof. apply (point_last s_arc sets_arc); [intros n s s' _ E; leaf_cases n s s' E; reflexivity|reflexivity]. Qed.
  Lemma pl_mirroring pre v : at_point H x0 pre v -> p_mirroring (v_state v) = last_set sets_mirroring MirNone pre.
  Proof. apply (point_last p_mirroring sets_mirroring); [intros n s s' _ E; leaf_cases n s s' E; reflexivity|reflexivity]. Qed.
  Lemma pl_rotation pre v : at_point H x0 pre v -> p_rotation (v_state v) = last_set sets_rotation n0 pre.
  Proof. apply (point_last p_rotation sets_rotation); [intros n s s' _ E; leaf_cases n s s' E; reflexivity|reflexivity]. Qed.
  Lemma pl_scaling pre v : at_point H x0 pre v -> p_scaling (v_state v) = last_set sets_scaling n1 pre.
  Proof. apply (point_last p_scaling sets_scaling); [intros n s s' _ E; leaf_cases n s s' E; reflexivity|reflexivity]. Qed.

  Lemma negative_point pre v : at_point H x0 pre v -> is_negative (v_state v) = clear_at pre.
  Proof. intros Hp. unfold is_negative, clear_at. rewrite <- (pl_polarity pre v Hp). reflexivity. Qed.

  (** Cached handler and dispatcher agree with the modes. *)
  Definition coherent (v : visitor K X) : Prop :=
    v_d01 v = callback_for (s_plot (v_state v)) (s_arc (v_state v)) (s_region (v_state v)) /\
    v_dispatch_region v = s_region (v_state v).
  Lemma coherent_point pre v : at_point H x0 pre v -> coherent v.
  Proof.
    intros Hp. apply (point_inv H x0 (fun v (_ : unit) => coherent v) (fun _ _ => tt) tt) with (pre := pre); auto.
    - split; reflexivity.
    - intros n v1 v2 _ Hl [H1 H2] [E|E].
      2:{ destruct (leaf_stop _ _ _ _ E) as [_ ->]. split; assumption. }
      destruct n; cbn [is_leaf] in Hl; try contradiction; cbn [visit_leaf] in E; try discriminate E;
        try (injection E as <-; split; assumption).
      + unfold on_ad in E. apply lift_done in E as (Hs & Hd & _ & Hr & _). cbn [with_state v_state v_d01 v_dispatch_region] in *.
        split; rewrite ?Hs, ?Hd, ?Hr; assumption.
      + destruct name; injection E as <-; split; assumption.
      + unfold on_d01, on_coords in E. destruct (read_coords _ _ _ _ _) as [s|] eqn:Er; [|discriminate].
        apply read_coords_inv in Er as (x' & y' & i' & j' & _ & _ & _ & _ & ->).
        apply obind_done in E as (v3 & E1 & E2). apply lift_done in E1 as (Hs & Hd & _ & Hr & _).
        injection E2 as <-. unfold coherent. cbn [with_state v_state v_d01 v_dispatch_region] in *.
        rewrite Hs, Hd, Hr. split; [exact H1|exact H2].
      + unfold on_d02, on_coords in E. destruct (read_coords _ _ _ _ _) as [s|] eqn:Er; [|discriminate].
        apply read_coords_inv in Er as (x' & y' & i' & j' & _ & _ & _ & _ & ->). cbn beta zeta in E.
        match type of E with (if ?b then _ else _) = _ => destruct b end.
        * apply lift_done in E as (Hs & Hd & _ & Hr & _). unfold coherent.
          rewrite Hs, Hd, Hr. split; [exact H1|exact H2].
        * injection E as <-. split; assumption.
      + unfold on_d03, on_coords in E. destruct (read_coords _ _ _ _ _) as [s|] eqn:Er; [|discriminate].
        apply read_coords_inv in Er as (x' & y' & i' & j' & _ & _ & _ & _ & ->).
        destruct (current_aperture _); [|discriminate]. cbn [with_state v_d03] in E. destruct (v_d03 v1); [|discriminate].
        apply obind_done in E as (v3 & E1 & E2). apply lift_done in E1 as (Hs & Hd & _ & Hr & _).
        injection E2 as <-. unfold coherent. cbn [with_state v_state v_d01 v_dispatch_region] in *.
        rewrite Hs, Hd, Hr. split; [exact H1|exact H2].
      + unfold on_dnn in E. cbn beta zeta in E. destruct (current_aperture _); [|discriminate].
        injection E as <-. split; assumption.
      + destruct g; cbn [on_g] in E;
          try (injection E as <-; unfold coherent in *;
               cbn [dispatch bind_dispatch with_state with_ext v_state v_d01 v_dispatch_region s_plot s_arc s_region
                    set_plot set_arc set_region set_unit set_cf] in *;
               rewrite ?H2; split; try reflexivity; try assumption;
               match goal with |- context [s_region ?s] => destruct (s_region s), (s_plot s), (s_arc s); reflexivity | |- context [s_plot ?s] => destruct (s_plot s), (s_arc s); reflexivity end).
        apply obind_done in E as (v3 & E1 & E2). apply lift_done in E1 as (Hs & Hd & _ & Hr & _).
        injection E2 as <-. unfold coherent.
        cbn [dispatch bind_dispatch with_state with_ext v_state v_d01 v_dispatch_region s_plot s_arc s_region set_region].
        split; [|reflexivity]. rewrite Hs. destruct (s_plot (v_state v1)), (s_arc (v_state v1)); reflexivity.
    - intros u v1 _ [H1 H2]. unfold sr_enter. destruct (hk_sr_open H u _ _). split; assumption.
    - intros tmp hdr v1 v2 _ [H1 H2] E. unfold sr_leave in E. apply lift_done in E as (Hs & Hd & _ & Hr & _).
      unfold coherent. rewrite Hs, Hd, Hr. split; [exact H1|exact H2].
  Qed.

  (** The pen. *)
  Definition settled (s : state K) (p : pen) : Prop :=
    s_cf s = pen_fmt p /\ (s_cur_x s, s_cur_y s) = pen_at p /\
    (forall k, s_x s = Some k -> s_cur_x s = k) /\ (forall k, s_y s = Some k -> s_cur_y s = k).
  Lemma settled_read x y i j s s1 p : settled s p -> read_coords x y i j s = Ok s1 ->
    pen_at (pen_step p (ND02 x y)) = (coordinate_x s1, coordinate_y s1) /\
    start_point s1 = start_point s /\ start_point s = vec_of (pen_at p) /\
    settled (update_coordinates s1) (pen_step p (ND02 x y)).
  Proof.
    intros (Hf & Hat & Hsx & Hsy) Hr. apply read_coords_inv in Hr as (x' & y' & i' & j' & Hx & Hy & Hi & Hj & ->).
    pose proof (read_opt_axis _ _ _ _ _ Hx _ Hsx) as Ax. pose proof (read_opt_axis _ _ _ _ _ Hy _ Hsy) as Ay.
    rewrite Hf in Ax, Ay.
    assert (E : pen_at (pen_step p (ND02 x y)) = (opt_or x' (s_cur_x s), opt_or y' (s_cur_y s))).
    { cbn [pen_step pen_at]. rewrite <- Hat. cbn [fst snd]. rewrite Ax, Ay. reflexivity. }
    split; [rewrite E; reflexivity|]. split; [reflexivity|]. split; [rewrite <- Hat; reflexivity|].
    unfold settled. cbn [update_coordinates set_cur set_xyij s_cf s_cur_x s_cur_y s_x s_y].
    split; [exact Hf|]. split; [rewrite E; reflexivity|].
    split; intros k ->; reflexivity.
  Qed.
  Lemma settled_leaf n s s' p : is_leaf n -> settled s p -> leaf_state n s = Some s' ->
    settled s' (MkPen (pen_fmt (pen_step p n)) (pen_at (pen_step p n)) []).
  Proof.
    intros Hl Hst E. pose proof Hst as (Hf & Hat & Hsx & Hsy). pose proof (leaf_state_inv n s s' E) as Inv.
    destruct n; cbn [is_leaf] in Hl; try contradiction.
    all: try (destruct Inv as (s1 & Hr & ->); exact (proj2 (proj2 (proj2 (settled_read _ _ _ _ _ _ _ Hst Hr))))).
    all: try (destruct Inv as (-> & _); repeat split; assumption).
    all: clear Inv.
    all: try match type of E with
         | leaf_state (NG ?g) _ = _ => destruct g
         | leaf_state (NTD ?k) _ = _ => destruct k
         end.
    all: unfold leaf_state in E; cbn [visit_leaf on_g] in E; unfold on_ad in E;
      cbn [obind lift no_hooks hk_ad hk_flush_region hk_start_region hk_end_region
           with_ext with_state dispatch bind_dispatch v_state v_d01 v_d03 v_dispatch_region v_ext] in E;
      injection E as <-; unfold settled; cbn; try rewrite Hf; repeat split; assumption.
  Qed.
  Lemma settled_point pre v : at_point H x0 pre v -> settled (v_state v) (pen_of pre).
  Proof.
    assert (Hs : forall s (p q : pen), pen_fmt p = pen_fmt q -> pen_at p = pen_at q -> settled s p -> settled s q).
    { intros s p q E1 E2 (A & B & C & D). repeat split; try assumption; congruence. }
    apply (point_inv H x0 (fun v p => settled (v_state v) p)).
    - repeat split; discriminate.
    - intros n v1 v2 p Hl Hp E. eapply Hs; [| |eapply settled_leaf; [exact Hl|exact Hp|eapply leaf_state_spec; exact E]]; reflexivity.
    - auto.
    - intros id v1 p (A & B & C & D). repeat split; assumption.
    - intros u v1 p Hp. unfold sr_enter. destruct (hk_sr_open H u _ _). exact Hp.
    - intros tmp hdr v1 v2 p Hp E. unfold sr_leave in E. apply lift_done in E as (-> & _). exact Hp.
  Qed.
End Facts.

(** ** Which callback a leaf makes, and with which state *)
Section Leaves.
  Context {K : Type} {NK : Num K} {X : Type} (H : hooks K X).
  Lemma leaf_d01 x y i j v v' : visit_leaf H (ND01 x y i j) v = Done v' -> exists s,
    read_coords x y i j (v_state v) = Ok s /\ hk_draw H (v_d01 v) s (v_ext v) = Ok (v_ext v') /\
    v_state v' = update_coordinates s.
  Proof.
    cbn [visit_leaf]. unfold on_d01, on_coords. intros E. destruct (read_coords _ _ _ _ _) as [s|e] eqn:Er; [|discriminate].
    apply obind_done in E as (v1 & E1 & E2). apply lift_done in E1 as (Hs & _ & _ & _ & E1).
    injection E2 as <-. cbn [with_state v_state v_ext v_d01] in *. rewrite Hs. eauto.
  Qed.
  Lemma leaf_d02 x y v v' : visit_leaf H (ND02 x y) v = Done v' -> exists s,
    read_coords x y None None (v_state v) = Ok s /\ v_state v' = update_coordinates s /\
    (if s_region (v_state v) then hk_flush_region H (update_coordinates s) (v_ext v) = Ok (v_ext v')
     else v_ext v' = v_ext v).
  Proof.
    cbn [visit_leaf]. unfold on_d02, on_coords. intros E. destruct (read_coords _ _ _ _ _) as [s|e] eqn:Er; [|discriminate].
    cbn beta zeta in E. exists s. split; [reflexivity|].
    assert (Hreg : s_region (v_state (with_state update_coordinates (with_state (fun _ : state K => s) v))) = s_region (v_state v)).
    { apply read_coords_inv in Er as (x' & y' & i' & j' & _ & _ & _ & _ & ->). reflexivity. }
    rewrite Hreg in E. destruct (s_region (v_state v)).
    - apply lift_done in E as (Hs & _ & _ & _ & E). split; [exact Hs|exact E].
    - injection E as <-. split; reflexivity.
  Qed.
  Lemma leaf_d03 x y v v' : visit_leaf H (ND03 x y) v = Done v' -> exists s a h,
    read_coords x y None None (v_state v) = Ok s /\ current_aperture s = Ok a /\ v_d03 v = Some h /\
    hk_flash H h a s (v_ext v) = Ok (v_ext v') /\ v_state v' = update_coordinates s.
  Proof.
    cbn [visit_leaf]. unfold on_d03, on_coords. intros E. destruct (read_coords _ _ _ _ _) as [s|e] eqn:Er; [|discriminate].
    cbn [with_state v_state v_d03 v_ext] in E.
    destruct (current_aperture s) as [a|e] eqn:Ea; [|discriminate].
    destruct (v_d03 v) as [h|] eqn:Eh; [|discriminate].
    apply obind_done in E as (v1 & E1 & E2). apply lift_done in E1 as (Hs & _ & _ & _ & E1).
    injection E2 as <-. cbn [with_state v_state v_ext] in *. rewrite Hs. eauto 10.
  Qed.
  Lemma leaf_g36 v v' : visit_leaf H (NG G36) v = Done v' ->
    exists s, v_ext v' = hk_start_region H s (v_ext v).
  Proof. cbn [visit_leaf on_g]. intros E; injection E as <-. eexists; reflexivity. Qed.
  Lemma leaf_g37 v v' : visit_leaf H (NG G37) v = Done v' -> exists x s,
    hk_flush_region H (v_state v) (v_ext v) = Ok x /\ v_ext v' = hk_end_region H s x.
  Proof.
    cbn [visit_leaf on_g]. intros E.
    apply obind_done in E as (v1 & E1 & E2). apply lift_done in E1 as (_ & _ & _ & _ & E1).
    injection E2 as <-. cbn [with_ext v_ext dispatch bind_dispatch with_state] in *. eauto.
  Qed.
  Definition calls_back (n : node K) : bool :=
    match n with ND01 _ _ _ _ | ND02 _ _ | ND03 _ _ | NAD _ | NG G36 | NG G37 => true | _ => false end.
  Lemma leaf_quiet n v v' : calls_back n = false -> visit_leaf H n v = Done v' \/ visit_leaf H n v = Stop v' ->
    v_ext v' = v_ext v.
  Proof.
    intros Hc [E|E].
    2:{ destruct (leaf_stop _ _ _ _ E) as [_ ->]. reflexivity. }
    destruct n; try discriminate Hc; cbn [visit_leaf] in E; try discriminate E; try (injection E as <-; reflexivity).
    - unfold on_dnn in E. cbn beta zeta in E. destruct current_aperture; [|discriminate]. injection E as <-. reflexivity.
    - destruct g; try discriminate Hc; cbn [on_g] in E; injection E as <-; reflexivity.
  Qed.
  Lemma leaf_adef a v v' : visit_leaf H (NAD a) v = Done v' -> exists s, hk_ad H a s (v_ext v) = Ok (v_ext v') /\
    s = v_state v'.
  Proof.
    cbn [visit_leaf]. unfold on_ad. intros E. apply lift_done in E as (Hs & _ & _ & _ & E).
    cbn [with_state v_state v_ext] in E, Hs. rewrite Hs. eauto.
  Qed.
End Leaves.

(** ** What the compiler's callbacks add to the current buffer *)
Section Adds.
  Context {K : Type} {NK : Num K} (md : bool) (clock : nat -> Z).
  Implicit Types (bs : dict (buffer K)) (x : cstate K).

  Definition grows x x' (ds : list (draw K)) : Prop :=
    c_stack x' = c_stack x /\ c_contour x' = c_contour x /\
    forall b, current x = Some b -> exists b', current x' = Some b' /\ bf_cmds b' = bf_cmds b ++ ds.
  Lemma grows_refl x : grows x x [].
  Proof. repeat split. intros b E. exists b. rewrite app_nil_r. auto. Qed.
  Lemma grows_trans x1 x2 x3 a b : grows x1 x2 a -> grows x2 x3 b -> grows x1 x3 (a ++ b).
  Proof.
    intros (A1 & A2 & A3) (B1 & B2 & B3). split; [congruence|]. split; [congruence|].
    intros b0 E0. destruct (A3 b0 E0) as (b1 & E1 & F1). destruct (B3 b1 E1) as (b2 & E2 & F2).
    exists b2. split; [exact E2|]. rewrite F2, F1, app_assoc. reflexivity.
  Qed.
  Lemma append_current_grows d x x' : append_current d x = Ok x' -> grows x x' [d].
  Proof.
    intros E. apply append_current_inv in E as (id & st & b & Es & Eb & ->).
    split; [reflexivity|]. split; [reflexivity|].
    unfold current. cbn [set_buffers c_stack c_buffers]. rewrite Es. intros b0 E0. rewrite Eb in E0. injection E0 as <-.
    exists (append_draw d b). rewrite d_get_set, str_eqb_refl. split; [reflexivity|]. apply append_draw_cmds.
  Qed.
  Lemma append_all_grows ds : forall x x', append_all ds x = Ok x' -> grows x x' ds.
  Proof.
    induction ds as [|d r IH]; intros x x'; cbn [append_all].
    - intros E; injection E as <-. apply grows_refl.
    - destruct (append_current d x) as [x1|] eqn:E1; [|discriminate]. cbn [bind]. intros E.
      change (d :: r) with ([d] ++ r). eapply grows_trans; [apply append_current_grows; exact E1|auto].
  Qed.
  (** Making a transformed copy changes no existing buffer. *)
  Lemma transformed_old f : forall m id bs b bs', transformed f m id bs = Ok (b, bs') ->
    forall k b0, d_get k bs = Some b0 -> d_get k bs' = Some b0.
  Proof.
    induction f as [|f IH]; intros m id bs b bs'; rewrite transformed_eq;
      (destruct (d_get (layer_key id m) bs) as [b1|] eqn:Ek; [intros E; injection E as _ <-; auto|]); [discriminate|].
    destruct (get_buffer id bs) as [base|]; [|discriminate]. cbn [bind].
    assert (HL : forall cs acc deps bs r, copy_loop f m cs acc deps bs = Ok r ->
      forall k b0, d_get k bs = Some b0 -> d_get k (snd r) = Some b0).
    { induction cs as [|[sh|p] cs IHc]; intros acc deps bs0 r; cbn [copy_loop].
      - intros E; injection E as <-; auto.
      - apply IHc.
      - destruct (transformed f m (pa_src p) bs0) as [[b1 bs1]|] eqn:Et; [|discriminate]. cbn [bind].
        intros E k b0 H0. eapply IHc; [exact E|]. eapply IH; eauto. }
    destruct (copy_loop f m (bf_cmds base) [] [] bs) as [[[cmds deps] bs1]|] eqn:El; [|discriminate].
    cbn [bind]. intros E; injection E as _ <-. intros k b0 H0. rewrite d_get_set.
    destruct (str_eqb k (layer_key id m)) eqn:E2; [apply str_eqb_eq in E2; congruence|].
    exact (HL _ _ _ _ _ El k b0 H0).
  Qed.
  Lemma aperture_buffer_grows s id x b x' : aperture_buffer s id x = Ok (b, x') -> grows x x' [].
  Proof.
    intros E. apply aperture_buffer_inv in E as (bs' & Et & ->). split; [reflexivity|]. split; [reflexivity|].
    unfold current. cbn [set_buffers c_stack c_buffers]. destruct (c_stack x) as [|i st]; [discriminate|].
    intros b0 E0. exists b0. rewrite app_nil_r. split; [|reflexivity]. eapply transformed_old; eauto.
  Qed.

  Definition caps_and (neg : bool) (ds : list (draw K)) : Prop :=
    Forall (fun d => exists s, d = DShape s /\ sh_neg s = neg) ds.
  Lemma draw_line_grows s x x' : draw_line md s x = Ok x' -> exists ds, grows x x' ds /\ caps_and (is_negative s) ds.
  Proof.
    unfold draw_line. destruct (line_thickness _ s); [|discriminate]. cbn [bind]. cbv zeta. intros E.
    eexists. split; [apply append_all_grows; exact E|]. repeat (constructor; [eexists; split; reflexivity|]). constructor.
  Qed.
  Lemma arc_neg cw (a b c : vec K) th neg m : sh_neg (arc_factory cw a b c th neg m) = neg.
  Proof. destruct cw; reflexivity. Qed.
  Lemma arc_segs cw (a b c : vec K) th neg m : centred c (sh_segs (arc_factory cw a b c th neg m)).
  Proof. destruct cw; (split; [discriminate|]); repeat (constructor; [do 3 eexists; reflexivity|]); constructor. Qed.

  Lemma draw_arc_grows cw s x x' : draw_arc md cw s x = Ok x' ->
    exists ds, grows x x' ds /\ caps_and (is_negative s) ds /\ arc_stroke (arc_center s) ds.
  Proof.
    unfold draw_arc. destruct (line_thickness _ s) as [th|]; [|discriminate]. cbn [bind]. cbv zeta.
    destruct (v_eqb _ _); intros E; apply append_all_grows in E;
      eexists; (split; [exact E|]); (split; [repeat (constructor; [eexists; split; [reflexivity|rewrite ?arc_neg; reflexivity]|]); constructor|]).
    - do 3 eexists. split; [|split].
      + instantiate (2 := [_; _]). reflexivity.
      + discriminate.
      + repeat (constructor; [apply arc_segs|]). constructor.
    - do 3 eexists. split; [|split].
      + instantiate (2 := [_]). reflexivity.
      + discriminate.
      + repeat (constructor; [apply arc_segs|]). constructor.
  Qed.

  Lemma flush_cases s x x' : flush_region s x = Ok x' ->
    exists l ds, c_contour x = Some l /\ c_contour x' = Some [] /\ grows x (set_contour (c_contour x) x') ds /\
      ds = match l with [] => [] | _ => [DShape (MkShape l (is_negative s) None)] end.
  Proof.
    unfold flush_region. destruct (c_contour x) as [[|g l]|] eqn:Ec; [|  |discriminate].
    - intros E; injection E as <-. exists [], []. repeat split; [cbn; congruence|].
      intros b E. exists b. rewrite app_nil_r. split; [exact E|reflexivity].
    - destruct (append_current _ x) as [x1|] eqn:E1; [|discriminate]. cbn [bind]. intros E; injection E as <-.
      eexists _, _. split; [reflexivity|]. split; [reflexivity|]. split; [|reflexivity].
      apply append_current_grows in E1 as (A & B & C). repeat split; [exact A|cbn; congruence|exact C].
  Qed.
End Adds.

(** ** C15 *)
Section Polarity.
  Context {K : Type} {NK : Num K} (md : bool) (clock : nat -> Z).
  Notation H := (compiler_hooks md clock).

  Lemma grows_adds (v v' : visitor K (cstate K)) ds :
    grows (v_ext v) (v_ext v') ds -> drawn v <> None -> adds v v' ds.
  Proof.
    intros (_ & _ & G) Hd. unfold adds, drawn in *. destruct (current (v_ext v)) as [b|]; [|congruence].
    destruct (G b eq_refl) as (b' & E1 & E2). exists (bf_cmds b). rewrite E1, E2. auto.
  Qed.
  Lemma adds_same (v v' : visitor K (cstate K)) : v_ext v' = v_ext v -> drawn v <> None -> adds v v' [].
  Proof. intros E Hd. apply grows_adds; [|exact Hd]. rewrite E. apply grows_refl. Qed.
  Lemma grows_contour (x x' : cstate K) c ds : grows x (set_contour c x') ds -> forall b, current x = Some b ->
    exists b', current x' = Some b' /\ bf_cmds b' = bf_cmds b ++ ds.
  Proof. intros (_ & _ & G) b E. exact (G b E). Qed.
  Lemma read_neg x y i j (s s1 : state K) : read_coords x y i j s = Ok s1 ->
    is_negative s1 = is_negative s /\ s_apid s1 = s_apid s /\ s_apertures s1 = s_apertures s /\ s_tr s1 = s_tr s.
  Proof. intros E. apply read_coords_inv in E as (x' & y' & i' & j' & _ & _ & _ & _ & ->). auto. Qed.
  Lemma end_vec x y i j s s1 p : settled s p -> read_coords x y i j s = Ok s1 ->
    end_point s1 = vec_of (pen_at (pen_step p (ND02 x y))).
  Proof. intros Hst Hr. destruct (settled_read _ _ _ _ _ _ _ Hst Hr) as (E & _). rewrite E. reflexivity. Qed.
  Lemma pen_vec_of (pre : list (node K)) : pen_vec pre = vec_of (pen_at (pen_of pre)).
  Proof. unfold pen_vec. destruct (pen_at (pen_of pre)). reflexivity. Qed.
  Lemma pen_of_snoc (pre : list (node K)) n : pen_of (pre ++ [n]) = pen_step (pen_of pre) n.
  Proof. unfold pen_of. rewrite fold_left_app. reflexivity. Qed.

  Lemma d01_grows pre v x y i j v' : at_point H compiler_init pre v ->
    visit_leaf H (ND01 x y i j) v = Done v' ->
    exists new, (in_region pre = false -> grows (v_ext v) (v_ext v') new) /\
      (in_region pre = true -> grows (v_ext v) (set_contour (c_contour (v_ext v)) (v_ext v')) new) /\
      emitted pre (ND01 x y i j) new.
  Proof.
    intros Hp E. destruct (leaf_d01 H _ _ _ _ _ _ E) as (s & Hr & Hd & _).
    destruct (coherent_point H _ _ _ Hp) as [Hh _]. rewrite Hh in Hd. clear Hh.
    rewrite (pl_region H _ _ _ Hp), (pl_plot H _ _ _ Hp) in Hd.
    destruct (read_neg _ _ _ _ _ _ Hr) as (Hn & _). rewrite (negative_point H _ _ _ Hp) in Hn.
    pose proof (settled_point H _ _ _ Hp) as Hst.
    destruct (settled_read _ _ _ _ _ _ _ Hst Hr) as (_ & Hs1 & Hs2 & _). pose proof (end_vec _ _ _ _ _ _ _ Hst Hr) as He.
    cbn [compiler_hooks hk_draw] in Hd. cbn [emitted].
    fold (in_region pre) in *. fold (plot_of pre) in *.
    destruct (in_region pre).
    - exists []. split; [discriminate|]. split; [|repeat split; [constructor|discriminate]].
      intros _. assert (G : grows (v_ext v) (set_contour (c_contour (v_ext v)) (v_ext v)) []).
      { repeat split. intros b Eb. exists b. rewrite app_nil_r. split; [exact Eb|reflexivity]. }
      destruct (plot_of pre), (s_arc (v_state v)); cbn [callback_for on_draw] in Hd;
        unfold region_line, region_arc in Hd;
        try (destruct (c_contour (v_ext v)); [|discriminate Hd]);
        apply Ok_inj in Hd; rewrite <- Hd; exact G.
    - destruct (plot_of pre) eqn:Epl.
      + cbn [callback_for on_draw] in Hd.
        unfold draw_line in Hd. destruct (line_thickness _ s) as [th|]; [|discriminate]. cbn [bind] in Hd. cbv zeta in Hd.
        rewrite Hn, Hs1, Hs2, He in Hd.
        apply append_all_grows in Hd. eexists. split; [intros _; exact Hd|]. split; [discriminate|].
        split; [repeat (constructor; [eexists; split; reflexivity|]); constructor|]. split; [discriminate|].
        intros _ _. rewrite !pen_vec_of, pen_of_snoc. do 2 eexists. reflexivity.
      + destruct (s_arc (v_state v)); cbn [callback_for on_draw] in Hd.
        * apply Ok_inj in Hd. exists []. rewrite <- Hd. split; [intros _; apply grows_refl|]. repeat split; try discriminate. constructor.
        * apply draw_arc_grows in Hd as (ds & G & C & _). rewrite Hn in C. exists ds. split; [auto|]. repeat split; try discriminate. exact C.
      + destruct (s_arc (v_state v)); cbn [callback_for on_draw] in Hd.
        * apply Ok_inj in Hd. exists []. rewrite <- Hd. split; [intros _; apply grows_refl|]. repeat split; try discriminate. constructor.
        * apply draw_arc_grows in Hd as (ds & G & C & _). rewrite Hn in C. exists ds. split; [auto|]. repeat split; try discriminate. exact C.
  Qed.

  Lemma grows_drawn (v v' : visitor K (cstate K)) c ds :
    grows (v_ext v) (set_contour c (v_ext v')) ds -> drawn v <> None -> adds v v' ds.
  Proof.
    intros G Hd. pose proof (grows_contour _ _ _ _ G) as G'. unfold adds, drawn in *.
    destruct (current (v_ext v)) as [b|]; [|congruence].
    destruct (G' b eq_refl) as (b' & E1 & E2). exists (bf_cmds b). rewrite E1, E2. auto.
  Qed.

  Lemma flush_emits pre v s x' : at_point H compiler_init pre v -> is_negative s = clear_at pre ->
    flush_region s (v_ext v) = Ok x' ->
    exists new, grows (v_ext v) (set_contour (c_contour (v_ext v)) x') new /\
      (length new <= 1)%nat /\ all_shapes (clear_at pre) new.
  Proof.
    intros Hp Hn Ef. apply flush_cases in Ef as (l & ds & Ec & Ec' & G & ->). eexists. split; [exact G|].
    rewrite Hn. destruct l; split; cbn; try lia; repeat constructor. eexists; split; reflexivity.
  Qed.

  Lemma selected_apertures pre v a : at_point H compiler_init pre v -> In (NAD a) pre ->
    exists a', d_get (ad_id a) (s_apertures (v_state v)) = Some a' .
  Proof.
    intros Hp. revert a.
    refine (_ (point_inv H compiler_init (fun v l => forall a, In (NAD a) l -> exists a', d_get (ad_id a) (s_apertures (v_state v)) = Some a')
              (fun l n => l ++ [n]) [] _ _ _ _ _ _ pre v Hp)).
    - assert (E : forall l p : list (node K), fold_left (fun l n => l ++ [n]) l p = p ++ l).
      { induction l as [|n l IH]; intros p; cbn [fold_left]; [rewrite app_nil_r; reflexivity|].
        rewrite IH, <- app_assoc. reflexivity. }
      rewrite E. cbn [app]. auto.
    - intros a [].
    - intros n v1 v2 l Hl IH E a Hin. destruct (frame_leaf H n v1 v2 E) as (F & _).
      apply in_app_or in Hin as [Hin|[->|[]]].
      + destruct (IH a Hin) as [a' Ea]. destruct n; rewrite F; eauto. rewrite d_get_set. destruct (str_eqb _ _); eauto.
      + rewrite F, d_get_set, str_eqb_refl. eauto.
    - auto.
    - intros id v1 l IH a Hin. apply in_app_or in Hin as [Hin|[Hin|[]]]; [exact (IH a Hin)|discriminate].
    - intros u v1 l IH a Hin. unfold sr_enter. destruct (hk_sr_open H u _ _). exact (IH a Hin).
    - intros tmp hdr v1 v2 l IH E a Hin. unfold sr_leave in E. apply lift_done in E as (-> & _). exact (IH a Hin).
  Qed.
  Lemma pl_apid pre v : at_point H compiler_init pre v -> s_apid (v_state v) = latest_selection pre.
  Proof. apply (point_last H compiler_init s_apid sets_aperture); [intros n s s' _ E; leaf_cases n s s' E; reflexivity|reflexivity]. Qed.

  Lemma d03_grows pre v x y v' : at_point H compiler_init pre v -> selected_AD pre ->
    visit_leaf H (ND03 x y) v = Done v' ->
    exists new, grows (v_ext v) (v_ext v') new /\ emitted pre (ND03 x y) new.
  Proof.
    intros Hp (a0 & Ha0 & Hsel) E. destruct (leaf_d03 H _ _ _ _ E) as (s & a & h & Hr & Ha & _ & Hf & _).
    destruct (read_neg _ _ _ _ _ _ Hr) as (Hn & Hid & Hap & _). rewrite (negative_point H _ _ _ Hp) in Hn.
    pose proof (settled_point H _ _ _ Hp) as Hst. pose proof (end_vec _ _ _ _ _ _ _ Hst Hr) as He.
    unfold current_aperture in Ha. rewrite Hid, (pl_apid _ _ Hp), Hsel, Hap in Ha.
    destruct (selected_apertures pre v a0 Hp Ha0) as (a' & Ea). rewrite Ea in Ha. apply Ok_inj in Ha. subst a.
    cbn [compiler_hooks hk_flash] in Hf. apply on_flash_cases in Hf as [(ad & _ & Hf)|(id & Hx & _)]; [|discriminate].
    apply flash_aperture_inv in Hf as (b & x1 & Eb & Ea'). apply aperture_buffer_grows in Eb.
    apply append_current_grows in Ea'. eexists. split; [exact (grows_trans _ _ _ _ _ Eb Ea')|].
    cbn [emitted app]. rewrite Hn, He, pen_vec_of, pen_of_snoc. do 2 eexists. reflexivity.
  Qed.

  Lemma point_emits pre v n v' : at_point H compiler_init pre v -> drawn v <> None ->
    is_leaf n -> (forall a, n <> NAD a) ->
    (forall x y, n = ND03 x y -> selected_AD pre) ->
    visit_leaf H n v = Done v' \/ visit_leaf H n v = Stop v' ->
    exists new, adds v v' new /\ emitted pre n new.
  Proof.
    intros Hp Hd Hl Had Hsel E.
    destruct (calls_back n) eqn:Ec.
    2:{ exists []. split; [apply adds_same; [eapply leaf_quiet; eauto|exact Hd]|].
        destruct n; try reflexivity; try discriminate Ec.
        destruct g; try reflexivity; discriminate Ec. }
    destruct E as [E|E].
    2:{ destruct (leaf_stop _ _ _ _ E) as [[-> | ->] _]; discriminate Ec. }
    destruct n; try discriminate Ec.
    all: try (exfalso; eapply Had; reflexivity).
    - destruct (d01_grows _ _ _ _ _ _ _ Hp E) as (new & G1 & G2 & Em). exists new. split; [|exact Em].
      destruct (in_region pre); [eapply grows_drawn; [apply G2; reflexivity|exact Hd]|apply grows_adds; auto].
    - destruct (leaf_d02 H _ _ _ _ E) as (s & Hr & _ & Hf). destruct (read_neg _ _ _ _ _ _ Hr) as (Hn & _).
      rewrite (pl_region H _ _ _ Hp) in Hf. change (last_set sets_region false pre) with (in_region pre) in Hf. cbn [emitted].
      destruct (in_region pre).
      + destruct (flush_emits pre v (update_coordinates s) (v_ext v') Hp) as (new & G & Em1 & Em2).
        * rewrite <- (negative_point H _ _ _ Hp), <- Hn. reflexivity.
        * exact Hf.
        * exists new. split; [eapply grows_drawn; eauto|]. split; [exact Em1|]. split; [exact Em2|discriminate].
      + exists []. split; [apply adds_same; auto|]. split; [cbn; lia|]. split; [constructor|reflexivity].
    - destruct (d03_grows _ _ _ _ _ Hp (Hsel _ _ eq_refl) E) as (new & G & Em). exists new. split; [apply grows_adds; auto|exact Em].
    - destruct g; try discriminate Ec.
      + destruct (leaf_g36 H _ _ E) as (s & Ex). exists []. split; [|reflexivity].
        eapply grows_drawn with (c := c_contour (v_ext v)); [|exact Hd]. rewrite Ex. repeat split.
        intros b Eb. exists b. rewrite app_nil_r. split; [exact Eb|reflexivity].
      + destruct (leaf_g37 H _ _ E) as (x & s & Ef & Ex).
        destruct (flush_emits pre v (v_state v) x Hp (negative_point H _ _ _ Hp) Ef) as (new & G & Em).
        exists new. split; [|exact Em]. eapply grows_drawn with (c := c_contour (v_ext v)); [|exact Hd]. rewrite Ex. exact G.
  Qed.
End Polarity.

(** Files without blocks. *)
Section Flat.
  Context {K : Type} {NK : Num K} (md : bool) (clock : nat -> Z).
  Notation H := (compiler_hooks md clock).

  Lemma stamp_not_main p uid (x : cstate K) : p = lit "%%SR%" \/ p = lit "%%Code7%" -> stamp clock p uid x <> main_id.
  Proof. intros [-> | ->] E; discriminate E. Qed.

  Definition same_main (x x' : cstate K) : Prop :=
    c_stack x' = c_stack x /\ c_contour x' = c_contour x /\ d_get main_id (c_buffers x') = d_get main_id (c_buffers x).
  Lemma same_main_set (b : buffer K) x : bf_id b <> main_id -> same_main x (set_buffer b x).
  Proof.
    intros Hb. repeat split. cbn [set_buffer c_buffers]. rewrite d_get_set.
    destruct (str_eqb main_id (bf_id b)) eqn:E; [apply str_eqb_eq in E; congruence|reflexivity].
  Qed.
  Lemma same_main_trans a b c : same_main a b -> same_main b c -> same_main a c.
  Proof. intros (A1 & A2 & A3) (B1 & B2 & B3). repeat split; congruence. Qed.
  Lemma prims_keep m m' : prims_steps clock m m' -> same_main (ms_c m) (ms_c m') /\ bf_id (ms_buf m') = bf_id (ms_buf (K := K) m).
  Proof.
    induction 1 as [|m1 m2 _ [IH IHb] [ds E1 E2 _|uid ds c E1 E2 _]].
    - repeat split.
    - rewrite E1, E2, append_draws_id. auto.
    - rewrite E1, E2, append_draw_id. split; [|exact IHb]. eapply same_main_trans; [exact IH|].
      unfold with_thermal. eapply same_main_trans; [|apply same_main_set; rewrite append_draws_id; apply stamp_not_main; auto].
      repeat split.
  Qed.
  Lemma on_aperture_main a s x x' : ad_id a <> main_id -> on_aperture md clock a s x = Ok x' -> same_main x x'.
  Proof.
    intros Ha E. apply on_aperture_inv in E as [(ds & -> & _)|(sc & m & Hm & ->)].
    - apply same_main_set. rewrite append_draws_id. exact Ha.
    - apply prims_keep in Hm as (Hm & Hb). cbn [ms_c ms_buf] in *. eapply same_main_trans; [|eapply same_main_trans; [exact Hm|]].
      + apply same_main_set. exact Ha.
      + apply same_main_set. rewrite Hb. exact Ha.
  Qed.

End Flat.

(** ** Arc offsets *)
Section OffsetPoints.
  Context {K : Type} {NK : Num K} (md : bool) (clock : nat -> Z).
  Notation H := (compiler_hooks (K := K) md clock).
  Definition offset_ok (s : state K) (c : option cfmt * vec K) : Prop :=
    s_cf s = fst c /\ coordinate_i s = vx (snd c) /\ coordinate_j s = vy (snd c).
  Lemma offset_read x y i j s s1 c : offset_ok s c -> read_coords x y i j s = Ok s1 ->
    offset_ok s1 (offset_step c (ND01 x y i j)).
  Proof.
    intros (Hf & Hi & Hj) Hr. apply read_coords_inv in Hr as (x' & y' & i' & j' & Hx & Hy & Hi' & Hj' & ->).
    destruct c as [f o]. cbn [fst snd] in *. cbn [offset_step]. unfold offset_ok. cbn [fst snd vx vy format_step].
    assert (A : forall (k : option K) d z, opt_or k d = z -> forall q, k = Some q -> z = q) by (intros k d z <- q ->; reflexivity).
    pose proof (read_opt_axis _ _ _ _ _ Hi' _ (A _ _ _ Hi)) as Ai. pose proof (read_opt_axis _ _ _ _ _ Hj' _ (A _ _ _ Hj)) as Aj.
    rewrite Hf in Ai, Aj. rewrite <- Ai, <- Aj. unfold coordinate_i, coordinate_j. cbn [set_xyij s_cf s_i s_j].
    split; [exact Hf|]. unfold read_opt in Hi', Hj'.
    split.
    - destruct i; [destruct (read_coord _ _ _) in Hi'; [apply Ok_inj in Hi'; subst i'; reflexivity|discriminate]|].
      apply Ok_inj in Hi'. subst i'. unfold coordinate_i in Hi. destruct (s_i s); [reflexivity|exact Hi].
    - destruct j; [destruct (read_coord _ _ _) in Hj'; [apply Ok_inj in Hj'; subst j'; reflexivity|discriminate]|].
      apply Ok_inj in Hj'. subst j'. unfold coordinate_j in Hj. destruct (s_j s); [reflexivity|exact Hj].
  Qed.
  Lemma offset_leaf n s s' c : is_leaf n -> offset_ok s c -> leaf_state n s = Some s' -> offset_ok s' (offset_step c n).
  Proof.
    intros Hl Hst E. pose proof Hst as (Hf & Hi & Hj). pose proof (leaf_state_inv n s s' E) as Inv.
    destruct n; cbn [is_leaf] in Hl; try contradiction.
    all: try (destruct Inv as (s1 & Hr & ->); apply (offset_read _ _ _ _ _ _ c Hst) in Hr; destruct c; exact Hr).
    all: destruct c as [cf o]; cbn [fst snd] in Hf, Hi, Hj; subst cf.
    all: try (destruct Inv as (-> & _); repeat split; assumption).
    all: clear Inv.
    all: try match type of E with
         | leaf_state (NG ?g) _ = _ => destruct g
         | leaf_state (NTD ?k) _ = _ => destruct k
         end.
    all: unfold leaf_state in E; cbn [visit_leaf on_g] in E; unfold on_ad in E;
      cbn [obind lift no_hooks hk_ad hk_flush_region hk_start_region hk_end_region
           with_ext with_state dispatch bind_dispatch v_state v_d01 v_d03 v_dispatch_region v_ext] in E;
      injection E as <-; repeat split; assumption.
  Qed.
  Lemma offset_point {X} (h : hooks K X) x0 pre v : at_point h x0 pre v ->
    offset_ok (v_state v) (fold_left offset_step pre (None, MkVec n0 n0)).
  Proof.
    apply (point_inv h x0 (fun v p => offset_ok (v_state v) p)).
    - repeat split.
    - intros n v1 v2 p Hl Hp E. eapply offset_leaf; [exact Hl|exact Hp|eapply leaf_state_spec; exact E].
    - auto.
    - intros id v1 [f o] (A & B & C). repeat split; assumption.
    - intros u v1 p Hp. unfold sr_enter. destruct (hk_sr_open h u _ _). exact Hp.
    - intros tmp hdr v1 v2 p Hp E. unfold sr_leave in E. apply lift_done in E as (-> & _). exact Hp.
  Qed.

  (** The centre used by the callback of a D01. *)
  Lemma center_point pre v x y i j s : at_point H compiler_init pre v -> read_coords x y i j (v_state v) = Ok s ->
    arc_center s = plus (pen_vec pre) (last_offset (pre ++ [ND01 x y i j])).
  Proof.
    intros Hp Hr. destruct (settled_read _ _ _ _ _ _ _ (settled_point H _ _ _ Hp) Hr) as (_ & Hs1 & Hs2 & _).
    pose proof (offset_read _ _ _ _ _ _ _ (offset_point H _ _ _ Hp) Hr) as (_ & Ei & Ej).
    unfold last_offset. rewrite fold_left_app. cbn [fold_left]. unfold arc_center, plus.
    rewrite <- Ei, <- Ej, pen_vec_of, <- Hs2, <- Hs1. reflexivity.
  Qed.
End OffsetPoints.

(** ** C13 *)
Section Contours.
  Context {K : Type} {NK : Num K} (md : bool) (clock : nat -> Z).
  Notation H := (compiler_hooks md clock).

  (** Strokes one after the other, from [p] to [q]. *)
  Fixpoint strokes_chain (p : vec K) (l : list (stroke (K := K))) (q : vec K) : Prop :=
    match l with [] => p = q | k :: r => p = sk_from k /\ strokes_chain (sk_to k) r q end.
  Lemma strokes_snoc l : forall p q k, strokes_chain p l q -> sk_from k = q -> strokes_chain p (l ++ [k]) (sk_to k).
  Proof.
    induction l as [|k0 r IH]; intros p q k; cbn [strokes_chain app].
    - intros -> <-. auto.
    - intros [-> Hr] Hk. split; [reflexivity|]. eapply IH; eauto.
  Qed.

  (** The spec alone: strokes form a chain from the start to the pen. *)
  Definition spec_chain (c : contour) : Prop :=
    mo_region (ct_modes c) = true -> ct_regular c = true ->
    strokes_chain (ct_start c) (ct_strokes c) (vec_of (pen_at (ct_pen c))).

  Lemma traces_chain l : forall segss p q, Forall2 traces l segss -> strokes_chain p l q ->
    forall p', joined p' p -> chain p' (concat segss).
  Proof.
    induction l as [|k r IH]; intros segss p q F; inversion F as [|k' sg r' segr Ht Fr]; subst; [constructor|].
    cbn [strokes_chain concat]. intros [-> Hr] p' Hj.
    unfold traces in Ht. destruct (sk_mode k).
    - subst sg. cbn [app chain seg_start seg_end]. split; [exact Hj|]. eapply IH; eauto. left; reflexivity.
    - cbv zeta in Ht. subst sg. destruct (v_eqb _ _) eqn:Ev; cbn [app chain seg_start seg_end].
      + split; [exact Hj|]. split; [left; reflexivity|]. eapply IH; eauto. right; exact Ev.
      + split; [exact Hj|]. eapply IH; eauto. left; reflexivity.
    - cbv zeta in Ht. subst sg. destruct (v_eqb _ _) eqn:Ev; cbn [app chain seg_start seg_end].
      + split; [exact Hj|]. split; [left; reflexivity|]. eapply IH; eauto. right; exact Ev.
      + split; [exact Hj|]. eapply IH; eauto. left; reflexivity.
  Qed.

  Lemma modes_leaf_state n s s' m : leaf_state n s = Some s' ->
    s_plot s = mo_plot m -> s_arc s = mo_arc m -> s_region s = mo_region m ->
    s_plot s' = mo_plot (modes_step (K := K) m n) /\ s_arc s' = mo_arc (modes_step m n) /\ s_region s' = mo_region (modes_step m n).
  Proof. intros E A B C. leaf_cases n s s' E; auto. Qed.

  Lemma ct_pen_step c (n : node K) : ct_pen (contour_step c n) = pen_step (ct_pen c) n.
  Proof. destruct n as [| | | | | | | |x y i j|x y|x y| |g| | | | | | | | | | | | | | | | | | | ]; cbn [contour_step]; try reflexivity;
    [destruct (mo_region _); reflexivity|destruct (mo_region _); reflexivity|destruct g; reflexivity]. Qed.
  Lemma ct_modes_step c (n : node K) : ct_modes (contour_step c n) = modes_step (ct_modes c) n.
  Proof. destruct n as [| | | | | | | |x y i j|x y|x y| |g| | | | | | | | | | | | | | | | | | | ]; cbn [contour_step]; try reflexivity;
    [destruct (mo_region _); reflexivity|destruct (mo_region _); reflexivity|destruct g; reflexivity]. Qed.
  Lemma ct_pen_of (pre : list (node K)) : ct_pen (contour_of pre) = pen_of pre.
  Proof.
    unfold contour_of, pen_of. induction pre as [|n pre IH] using rev_ind; [reflexivity|].
    rewrite !fold_left_app. cbn [fold_left]. rewrite ct_pen_step, IH. reflexivity.
  Qed.
  Lemma ct_offset_step c (n : node K) : ct_offset (contour_step c n) = offset_step (ct_offset c) n.
  Proof. destruct n as [| | | | | | | |x y i j|x y|x y| |g| | | | | | | | | | | | | | | | | | | ]; cbn [contour_step]; try reflexivity;
    [destruct (mo_region _); reflexivity|destruct (mo_region _); reflexivity|destruct g; reflexivity]. Qed.
  Lemma ct_offset_of (pre : list (node K)) : ct_offset (contour_of pre) = fold_left offset_step pre (None, MkVec n0 n0).
  Proof.
    unfold contour_of. induction pre as [|n pre IH] using rev_ind; [reflexivity|].
    rewrite !fold_left_app. cbn [fold_left]. rewrite ct_offset_step, IH. reflexivity.
  Qed.
  Definition modes_ok (v : visitor K (cstate K)) (m : modes) : Prop :=
    s_plot (v_state v) = mo_plot m /\ s_arc (v_state v) = mo_arc m /\ s_region (v_state v) = mo_region m.
  Lemma ct_modes_of pre v : at_point H compiler_init pre v -> modes_ok v (ct_modes (contour_of pre)).
  Proof.
    intros Hp. assert (E : ct_modes (contour_of pre) = fold_left (modes_step (K := K)) pre (ct_modes (contour_init (K := K)))).
    { unfold contour_of. clear Hp. induction pre as [|n pre IH] using rev_ind; [reflexivity|].
      rewrite !fold_left_app. cbn [fold_left]. rewrite ct_modes_step, IH. reflexivity. }
    rewrite E. revert pre v Hp E. intros pre v Hp _.
    apply (point_inv H compiler_init modes_ok); [repeat split| | | | | |exact Hp].
    - intros n v1 v2 m Hl (A & B & C) E. eapply modes_leaf_state; eauto. eapply leaf_state_spec; eauto.
    - intros id v1 m Hm. exact Hm.
    - intros id v1 m Hm. exact Hm.
    - intros u v1 m Hm. unfold sr_enter. destruct (hk_sr_open H u _ _). exact Hm.
    - intros tmp hdr v1 v2 m Hm E. unfold sr_leave in E. apply lift_done in E as (E & _). unfold modes_ok. rewrite E. exact Hm.
  Qed.

  Lemma on_aperture_contour a (s : state K) x x' : on_aperture md clock a s x = Ok x' -> c_contour x' = c_contour x.
  Proof.
    intros E. apply on_aperture_inv in E as [(ds & -> & _)|(sc & m & Hm & ->)]; [reflexivity|].
    cbn [set_buffer c_contour]. apply (prims_keep clock) in Hm as ((_ & Hm & _) & _). exact Hm.
  Qed.
  Lemma sr_close_contour tmp h (s : state K) x x' : sr_close tmp h s x = Ok x' -> c_contour x' = c_contour x.
  Proof.
    intros E. apply sr_close_inv in E as (b & nx & ny & dx & dy & x1 & _ & _ & _ & _ & _ & Ea & ->).
    apply append_all_grows in Ea as (_ & Ea & _). exact Ea.
  Qed.

  Definition contour_inv (v : visitor K (cstate K)) (c : contour) : Prop :=
    mo_region (ct_modes c) = true -> ct_regular c = true ->
    strokes_chain (ct_start c) (ct_strokes c) (vec_of (pen_at (ct_pen c))) /\
    exists segss, Forall2 traces (ct_strokes c) segss /\ c_contour (v_ext v) = Some (concat segss).

  Lemma contour_inv_same v v' c c' : contour_inv v c -> c_contour (v_ext v') = c_contour (v_ext v) ->
    mo_region (ct_modes c') = mo_region (ct_modes c) -> ct_regular c' = ct_regular c ->
    ct_start c' = ct_start c -> ct_strokes c' = ct_strokes c -> pen_at (ct_pen c') = pen_at (ct_pen c) ->
    contour_inv v' c'.
  Proof. unfold contour_inv. intros I -> -> -> -> -> ->. exact I. Qed.

  Lemma contour_of_snoc (pre : list (node K)) n : contour_of (pre ++ [n]) = contour_step (contour_of pre) n.
  Proof. unfold contour_of. rewrite fold_left_app. reflexivity. Qed.

  Lemma surjective_vec (a : vec K) : a = MkVec (vx a) (vy a).
  Proof. destruct a. reflexivity. Qed.
  Lemma region_draw_traces pre v x y i j s h : at_point H compiler_init pre v ->
    read_coords x y i j (v_state v) = Ok s -> h = v_d01 v -> s_region (v_state v) = true ->
    match s_plot (v_state v), s_arc (v_state v) with PmLinear, _ => true | _, SingleQuadrant => false | _, _ => true end = true ->
    forall x', on_draw md h s (v_ext v) = Ok x' ->
    exists l sg, c_contour (v_ext v) = Some l /\ c_contour x' = Some (l ++ sg) /\
      traces (MkStroke (vec_of (pen_at (pen_of pre))) (vec_of (pen_at (pen_step (pen_of pre) (ND02 x y)))) (s_plot (v_state v))
                (last_offset (pre ++ [ND01 x y i j]))) sg.
  Proof.
    intros Hp Hr -> Hreg Hq x' Hd. destruct (coherent_point H _ _ _ Hp) as [Hh _]. rewrite Hh, Hreg in Hd.
    pose proof (settled_point H _ _ _ Hp) as Hst.
    destruct (settled_read _ _ _ _ _ _ _ Hst Hr) as (_ & Hs1 & Hs2 & _). pose proof (end_vec _ _ _ _ _ _ _ Hst Hr) as He.
    pose proof (center_point md clock pre v x y i j s Hp Hr) as Hcen. rewrite pen_vec_of in Hcen.
    pose proof (offset_read _ _ _ _ _ _ _ (offset_point H _ _ _ Hp) Hr) as (_ & Ei & Ej).
    assert (Eo : snd (offset_step (fold_left offset_step pre (None, MkVec n0 n0)) (ND01 x y i j)) = last_offset (pre ++ [ND01 x y i j]))
      by (unfold last_offset; rewrite fold_left_app; reflexivity).
    rewrite Eo in Ei, Ej. unfold traces. cbn [sk_from sk_to sk_mode sk_offset].
    destruct (s_plot (v_state v)); [|destruct (s_arc (v_state v)); [discriminate|]|destruct (s_arc (v_state v)); [discriminate|]];
      cbn [callback_for on_draw] in Hd; unfold region_line, region_arc in Hd;
      (destruct (c_contour (v_ext v)) as [l|]; [|discriminate Hd]); cbv zeta in Hd; rewrite Hs1, Hs2, He in Hd; apply Ok_inj in Hd; subst x'.
    - eexists l, _. split; [reflexivity|]. split; reflexivity.
    - eexists l, _. split; [reflexivity|]. split; [reflexivity|]. cbv zeta.
      rewrite <- Hcen, (surjective_vec (last_offset _)), <- Ei, <- Ej. reflexivity.
    - eexists l, _. split; [reflexivity|]. split; [reflexivity|]. cbv zeta.
      rewrite <- Hcen, (surjective_vec (last_offset _)), <- Ei, <- Ej. reflexivity.
  Qed.

  Lemma contour_point pre v : at_point H compiler_init pre v -> contour_inv v (contour_of pre).
  Proof.
    induction 1 as [|pre v n v' Hp IH Hl E|pre v id Hp IH|pre v id Hp IH|pre v uid Hp IH|pre v tmp hdr v' Hp IH E].
    - discriminate.
    - rewrite contour_of_snoc. pose proof (ct_modes_of _ _ Hp) as (Mp & Ma & Mr). pose proof (ct_pen_of pre) as Ep.
      destruct (calls_back n) eqn:Ec.
      2:{ pose proof (leaf_quiet H n v v' Ec E) as Ex.
          apply (contour_inv_same v v' (contour_of pre)); [exact IH|congruence| | | | |];
            destruct n; try contradiction; try discriminate Ec; try reflexivity; destruct g; try discriminate Ec; reflexivity. }
      destruct E as [E|E].
      2:{ destruct (leaf_stop _ _ _ _ E) as [[-> | ->] _]; discriminate Ec. }
      destruct n; try discriminate Ec.
      + destruct (leaf_adef H _ _ _ E) as (s & Es & _). apply on_aperture_contour in Es.
        apply (contour_inv_same v v' (contour_of pre)); auto.
      + destruct (leaf_d01 H _ _ _ _ _ _ E) as (s & Hr & Hd & _).
        intros HA HB. cbn [contour_step] in HA, HB |- *. cbn [modes_step mo_region] in HA, HB |- *.
        destruct (mo_region (ct_modes (contour_of pre))) eqn:Ereg; [|discriminate HA]. cbn [ct_regular mo_plot mo_arc] in HB.
        apply andb_true_iff in HB as [HB1 HB2]. rewrite <- Mp, <- Ma in HB2.
        destruct (IH Ereg HB1) as (Hch & segss & F & Hc).
        destruct (region_draw_traces pre v x y i j s (v_d01 v) Hp Hr eq_refl) with (x' := v_ext v') as (l & sg & L1 & L2 & L3); auto.
        cbn [ct_start ct_strokes ct_pen mo_plot]. split.
        * apply (strokes_snoc _ _ _ (MkStroke _ _ _ _) Hch). reflexivity.
        * exists (segss ++ [sg]). split.
          -- apply Forall2_app; [exact F|]. constructor; [|constructor]. rewrite Mp in L3. rewrite Ep, ct_offset_of.
             unfold last_offset in L3. rewrite fold_left_app in L3. exact L3.
          -- rewrite L2. rewrite concat_app. cbn [concat]. rewrite app_nil_r. congruence.
      + destruct (leaf_d02 H _ _ _ _ E) as (s & Hr & _ & Hf).
        intros HA HB. cbn [contour_step] in HA, HB |- *. cbn [modes_step] in HA, HB |- *.
        destruct (mo_region (ct_modes (contour_of pre))) eqn:Ereg; [|cbn in HA; congruence].
        rewrite Mr in Hf. cbn [compiler_hooks hk_flush_region] in Hf.
        apply flush_cases in Hf as (l & ds & _ & Hc & _). cbn [ct_strokes ct_start ct_pen strokes_chain]. split; [reflexivity|].
        exists []. split; [constructor|exact Hc].
      + intros HA HB. cbn [contour_step ct_regular] in HB. discriminate HB.
      + destruct g; try discriminate Ec.
        * destruct (leaf_g36 H _ _ E) as (s & Ex). intros _ _. cbn [contour_step ct_strokes ct_start ct_pen strokes_chain].
          split; [reflexivity|]. exists []. rewrite Ex. split; [constructor|reflexivity].
        * intros HA. discriminate HA.
    - exact IH.
    - rewrite contour_of_snoc. exact IH.
    - unfold sr_enter. cbn [compiler_hooks hk_sr_open]. exact IH.
    - unfold sr_leave in E. apply lift_done in E as (_ & _ & _ & _ & E). cbn [compiler_hooks hk_sr_close] in E.
      apply sr_close_contour in E. unfold contour_inv. rewrite E. exact IH.
  Qed.

  (** The shape a contour becomes. *)
  Lemma contour_flush pre v n v' : at_point H compiler_init pre v -> drawn v <> None -> closes pre n = true ->
    visit_leaf H n v = Done v' -> ct_regular (contour_of pre) = true ->
    exists new, adds v v' new /\ outline pre new.
  Proof.
    intros Hp Hd Hn E Hreg.
    assert (HR : in_region pre = true) by (destruct n; try discriminate Hn; [exact Hn|destruct g; try discriminate Hn; exact Hn]).
    pose proof (ct_modes_of _ _ Hp) as (_ & _ & Mr). pose proof (pl_region H _ _ _ Hp) as Pr. fold (in_region pre) in Pr.
    assert (Hm : mo_region (ct_modes (contour_of pre)) = true) by congruence.
    destruct (contour_point pre v Hp Hm Hreg) as (Hch & segss & F & Hc). eexists. split.
    2:{ exists segss. split; [exact F|]. split; [eapply traces_chain; eauto; left; reflexivity|reflexivity]. }
    assert (Hfl : exists s x', is_negative s = clear_at pre /\ flush_region s (v_ext v) = Ok x' /\
      c_stack (v_ext v') = c_stack x' /\ c_buffers (v_ext v') = c_buffers x').
    { destruct n; try discriminate Hn.
      - destruct (leaf_d02 H _ _ _ _ E) as (s & Hr & _ & Hf). rewrite Pr, HR in Hf.
        destruct (read_neg _ _ _ _ _ _ Hr) as (Hneg & _). exists (update_coordinates s), (v_ext v').
        rewrite <- (negative_point H _ _ _ Hp), <- Hneg. auto.
      - destruct g; try discriminate Hn. destruct (leaf_g37 H _ _ E) as (x & s & Ef & Ex).
        exists (v_state v), x. rewrite Ex. rewrite <- (negative_point H _ _ _ Hp). auto. }
    destruct Hfl as (s & x' & Hneg & Ef & E1 & E2).
    apply flush_cases in Ef as (l & ds & Hc' & _ & G & ->). rewrite Hneg in G.
    assert (l = concat segss) by congruence. subst l.
    pose proof (grows_contour _ _ _ _ G) as G'. unfold adds, drawn in *.
    destruct (current (v_ext v)) as [b|]; [|congruence].
    destruct (G' b eq_refl) as (b' & X1 & X2). exists (bf_cmds b). split; [reflexivity|].
    assert (Ecur : current (v_ext v') = current x') by (unfold current; rewrite E1, E2; reflexivity).
    rewrite Ecur, X1, X2. destruct (concat segss); reflexivity.
  Qed.
End Contours.

(** ** Centres of arcs *)
Section Offsets.
  Context {K : Type} {NK : Num K} (md : bool) (clock : nat -> Z).
  Notation H := (compiler_hooks (K := K) md clock).
  Lemma arc_outside pre v x y i j v' : at_point H compiler_init pre v -> drawn v <> None ->
    in_region pre = false -> plot_of pre <> PmLinear -> last_set sets_arc SingleQuadrant pre = MultiQuadrant ->
    visit_leaf H (ND01 x y i j) v = Done v' ->
    exists new, adds v v' new /\
      arc_stroke (plus (pen_vec pre) (last_offset (pre ++ [ND01 x y i j]))) new.
  Proof.
    intros Hp Hd Hr Hpl Ha E. destruct (leaf_d01 H _ _ _ _ _ _ E) as (s & Hs & Hc & _).
    destruct (coherent_point H _ _ _ Hp) as [Hh _]. rewrite Hh in Hc.
    rewrite (pl_region H _ _ _ Hp), (pl_plot H _ _ _ Hp), (pl_arc H _ _ _ Hp) in Hc.
    fold (in_region pre) (plot_of pre) in Hc. rewrite Hr, Ha in Hc.
    assert (Hcw : exists cw, draw_arc md cw s (v_ext v) = Ok (v_ext v')).
    { destruct (plot_of pre); [congruence| |]; cbn [callback_for compiler_hooks hk_draw on_draw] in Hc; eexists; exact Hc. }
    destruct Hcw as (cw & Hcw). apply draw_arc_grows in Hcw as (ds & G & _ & A).
    exists ds. split; [apply grows_adds; assumption|].
    rewrite <- (center_point md clock pre v x y i j s Hp Hs). destruct A as (f & a & l & X1 & X2 & X3). exists f, a, l. auto.
  Qed.
  Lemma arc_inside pre v x y i j v' : at_point H compiler_init pre v ->
    in_region pre = true -> plot_of pre <> PmLinear -> last_set sets_arc SingleQuadrant pre = MultiQuadrant ->
    visit_leaf H (ND01 x y i j) v = Done v' ->
    exists l segs, c_contour (v_ext v) = Some l /\ c_contour (v_ext v') = Some (l ++ segs) /\
      centred (plus (pen_vec pre) (last_offset (pre ++ [ND01 x y i j]))) segs.
  Proof.
    intros Hp Hr Hpl Ha E. destruct (leaf_d01 H _ _ _ _ _ _ E) as (s & Hs & Hc & _).
    destruct (coherent_point H _ _ _ Hp) as [Hh _]. rewrite Hh in Hc.
    rewrite (pl_region H _ _ _ Hp), (pl_plot H _ _ _ Hp), (pl_arc H _ _ _ Hp) in Hc.
    fold (in_region pre) (plot_of pre) in Hc. rewrite Hr, Ha in Hc.
    assert (Hcw : exists cw, region_arc cw s (v_ext v) = Ok (v_ext v')).
    { destruct (plot_of pre); [congruence| |]; cbn [callback_for compiler_hooks hk_draw on_draw] in Hc; eexists; exact Hc. }
    destruct Hcw as (cw & Hcw). unfold region_arc in Hcw. destruct (c_contour (v_ext v)) as [l|]; [|discriminate].
    apply Ok_inj in Hcw. cbv zeta in Hcw. eexists l, _. split; [reflexivity|]. rewrite <- Hcw. cbn [set_contour c_contour].
    split; [reflexivity|]. rewrite <- (center_point md clock pre v x y i j s Hp Hs).
    destruct (v_eqb _ _); (split; [discriminate|]); repeat (constructor; [do 3 eexists; reflexivity|]); constructor.
  Qed.
  Lemma no_arc pre v x y i j v' : at_point H compiler_init pre v ->
    plot_of pre <> PmLinear -> last_set sets_arc SingleQuadrant pre = SingleQuadrant ->
    visit_leaf H (ND01 x y i j) v = Done v' -> v_ext v' = v_ext v.
  Proof.
    intros Hp Hpl Ha E. destruct (leaf_d01 H _ _ _ _ _ _ E) as (s & Hs & Hc & _).
    destruct (coherent_point H _ _ _ Hp) as [Hh _]. rewrite Hh in Hc.
    rewrite (pl_region H _ _ _ Hp), (pl_plot H _ _ _ Hp), (pl_arc H _ _ _ Hp) in Hc.
    fold (in_region pre) (plot_of pre) in Hc. rewrite Ha in Hc.
    destruct (in_region pre), (plot_of pre); try congruence; cbn [callback_for compiler_hooks hk_draw on_draw] in Hc;
      apply Ok_inj in Hc; congruence.
  Qed.
  (** With both I and J given, or none given by an earlier D01, the offset is the D01's own. *)
  Lemma offset_pure (pre : list (node K)) : forall c, ~ (exists x y i j, In (ND01 x y i j) pre /\ (i <> None \/ j <> None)) ->
    fold_left offset_step pre c = (fold_left format_step pre (fst c), snd c).
  Proof.
    induction pre as [|n pre IH]; intros [f o] Hn; [reflexivity|]. cbn [fold_left fst snd].
    rewrite IH by (intros (x & y & i & j & Hi & Hj); apply Hn; exists x, y, i, j; split; [right; exact Hi|exact Hj]).
    destruct n; try reflexivity. cbn [offset_step fst snd].
    destruct i as [i|]; [exfalso; apply Hn; do 4 eexists; split; [left; reflexivity|left; discriminate]|].
    destruct j as [j|]; [exfalso; apply Hn; do 4 eexists; split; [left; reflexivity|right; discriminate]|].
    destruct o. reflexivity.
  Qed.
  Lemma offset_fmt (pre : list (node K)) : forall c, fst (fold_left offset_step pre c) = fold_left format_step pre (fst c).
  Proof. induction pre as [|n pre IH]; intros [f o]; [reflexivity|]. cbn [fold_left]. rewrite IH. reflexivity. Qed.
End Offsets.

(** ** All together, for files without blocks *)
Section FlatFiles.
  Context {K : Type} {NK : Num K} (md : bool) (clock : nat -> Z).
  Notation H := (compiler_hooks md clock).
  Lemma adds_fun (v v' : visitor K (cstate K)) a b : adds v v' a -> adds v v' b -> a = b.
  Proof.
    intros (o & A1 & A2) (o' & B1 & B2). assert (o' = o) by congruence. subst o'.
    rewrite A2 in B2. injection B2 as E. apply app_inv_head in E. exact E.
  Qed.
  Lemma point_draws pre v n v' : at_point H compiler_init pre v -> drawn v <> None ->
    is_leaf n -> (forall a, n <> NAD a) ->
    (forall x y, n = ND03 x y -> selected_AD pre) ->
    visit_leaf H n v = Done v' \/ visit_leaf H n v = Stop v' ->
    exists new, adds v v' new /\ draws pre n new.
  Proof.
    intros Hp Hd Hl Had Hsel E. destruct (point_emits md clock pre v n v' Hp Hd Hl Had Hsel E) as (new & Ha & Em).
    exists new. split; [exact Ha|]. split; [exact Em|]. split.
    - intros Hc Hreg. destruct E as [E|E].
      + destruct (contour_flush md clock pre v n v' Hp Hd Hc E Hreg) as (new' & Ha' & Ho).
        rewrite (adds_fun _ _ _ _ Ha Ha'). exact Ho.
      + destruct (leaf_stop _ _ _ _ E) as [[-> | ->] _]; discriminate Hc.
    - destruct n as [| | | | | | | |x y i j| | | | | | | | | | | | | | | | | | | | | | | ]; try exact I. intros Hr Hpl.
      destruct E as [E|E]; [|destruct (leaf_stop _ _ _ _ E) as [[X|X] _]; discriminate X].
      unfold arc_mode. destruct (last_set sets_arc SingleQuadrant pre) eqn:Ea.
      + pose proof (no_arc md clock pre v x y i j v' Hp Hpl Ea E) as Ex.
        eapply adds_fun; [exact Ha|]. apply adds_same; assumption.
      + destruct (arc_outside md clock pre v x y i j v' Hp Hd Hr Hpl Ea E) as (new' & Ha' & Ho).
        rewrite (adds_fun _ _ _ _ Ha Ha'). exact Ho.
  Qed.

  Record flat_inv (pre : list (node K)) (v : visitor K (cstate K)) (out : list (draw K)) : Prop := {
    fi_point : at_point H compiler_init pre v;
    fi_stack : c_stack (v_ext v) = [main_id];
    fi_drawn : drawn v = Some out;
    fi_emits : run_draws pre out;
    fi_blocks : s_blocks (v_state v) = [];
    fi_aps : forall id a, d_get id (s_apertures (v_state v)) = Some a -> In (NAD a) pre /\ ad_id a = id }.

  Lemma flat_selected pre v out x y v' : flat_inv pre v out -> visit_leaf H (ND03 x y) v = Done v' -> selected_AD pre.
  Proof.
    intros [Hp _ _ _ Hb Ha] E. destruct (leaf_d03 H _ _ _ _ E) as (s & a & h & Hr & Hc & _).
    destruct (read_neg _ _ _ _ _ _ Hr) as (_ & Hid & Hap & _).
    apply read_coords_inv in Hr as (x' & y' & i' & j' & _ & _ & _ & _ & ->).
    unfold current_aperture in Hc. rewrite Hid, Hap, (pl_apid md clock _ _ Hp) in Hc.
    cbn [set_xyij s_blocks] in Hc. rewrite Hb in Hc. cbn [d_get] in Hc.
    destruct (latest_selection pre) as [id|] eqn:Es; [|discriminate].
    destruct (d_get id (s_apertures (v_state v))) as [a'|] eqn:Eg; [|discriminate].
    destruct (Ha _ _ Eg) as [H1 H2]. exists a'. split; [exact H1|]. congruence.
  Qed.

  Lemma flat_leaf pre v out n v' : flat_inv pre v out -> is_leaf n -> (forall a, n = NAD a -> ad_id a <> main_id) ->
    visit_leaf H n v = Done v' \/ visit_leaf H n v = Stop v' -> exists new, flat_inv (pre ++ [n]) v' (out ++ new) /\ draws pre n new.
  Proof.
    intros I Hl Hid E. pose proof I as [Hp Hst Hd He Hb Ha].
    destruct (frame_leaf H n v v' E) as (F1 & F2 & _).
    assert (Hp' : at_point H compiler_init (pre ++ [n]) v') by (eapply pt_leaf; eauto; destruct n; auto; contradiction).
    assert (Hb' : s_blocks (v_state v') = []) by congruence.
    assert (Ha' : forall id a, d_get id (s_apertures (v_state v')) = Some a -> In (NAD a) (pre ++ [n]) /\ ad_id a = id).
    { intros id a. assert (Hold : d_get id (s_apertures (v_state v)) = Some a -> In (NAD a) (pre ++ [n]) /\ ad_id a = id).
      { intros E0. destruct (Ha _ _ E0). split; [apply in_or_app; auto|assumption]. }
      destruct n; rewrite F1; auto. rewrite d_get_set. destruct (str_eqb id (ad_id a0)) eqn:E0; auto.
      intros E1; injection E1 as <-. apply str_eqb_eq in E0. split; [|auto]. apply in_or_app. right. left. reflexivity. }
    assert (Hdec : (exists a, n = NAD a) \/ (forall a, n <> NAD a)) by (destruct n; (left; eexists; reflexivity) || (right; discriminate)).
    destruct Hdec as [(a & ->)|Hna].
    - assert (E' : visit_leaf H (NAD a) v = Done v').
      { destruct E as [E|E]; [exact E|]. destruct (leaf_stop _ _ _ _ E) as [[X|X] _]; discriminate X. }
      destruct (leaf_adef H _ _ _ E') as (s & Es & _). apply on_aperture_main in Es; [|apply Hid; reflexivity].
      destruct Es as (S1 & _ & S3). assert (Hdr : draws pre (NAD a) []) by (repeat split; discriminate). exists []. split; [|exact Hdr]. split; auto; [congruence| |apply rd_step; assumption].
      rewrite app_nil_r. rewrite <- Hd. unfold drawn, current. rewrite S1, Hst, S3. reflexivity.
    - destruct (point_draws pre v n v' Hp) as (new & (old & O1 & O2) & Em); auto; [congruence| |].
      + intros x y ->. destruct E as [E|E]; [eapply flat_selected; eauto|].
        destruct (leaf_stop _ _ _ _ E) as [[X|X] _]; discriminate X.
      + assert (old = out) by congruence. subst old. exists new. split; [|exact Em]. split; auto; [|apply rd_step; assumption].
        rewrite <- Hst. clear - E Hl Hna. destruct (leaf_ext_spec H n v v' E) as [|x y i j h s x' -> _ -> Ed|x y h a s x' -> _ _ _ Ef|s x' Ef|s|s s' x' Ef|a s x' -> _].
        * reflexivity.
        * cbn [compiler_hooks hk_draw] in Ed. destruct (v_d01 v); cbn [on_draw] in Ed; try (apply Ok_inj in Ed; rewrite <- Ed; reflexivity).
          -- apply draw_line_grows in Ed as (ds & (G & _) & _). exact G.
          -- apply draw_arc_grows in Ed as (ds & (G & _) & _). exact G.
          -- apply draw_arc_grows in Ed as (ds & (G & _) & _). exact G.
          -- unfold region_line in Ed. destruct (c_contour (v_ext v)); [|discriminate]. apply Ok_inj in Ed. rewrite <- Ed. reflexivity.
          -- unfold region_arc in Ed. destruct (c_contour (v_ext v)); [|discriminate]. apply Ok_inj in Ed. rewrite <- Ed. reflexivity.
          -- unfold region_arc in Ed. destruct (c_contour (v_ext v)); [|discriminate]. apply Ok_inj in Ed. rewrite <- Ed. reflexivity.
        * cbn [compiler_hooks hk_flash] in Ef. apply on_flash_cases in Ef as [(ad & _ & Hf)|(id & _ & Hf)].
          -- apply flash_aperture_inv in Hf as (b & x1 & Eb & Ea'). apply aperture_buffer_grows in Eb as (Eb & _).
             apply append_current_grows in Ea' as (Ea' & _). congruence.
          -- apply flash_block_inv in Hf as (b & x1 & Eb & Ea'). apply aperture_buffer_grows in Eb as (Eb & _).
             apply append_all_grows in Ea' as (Ea' & _). congruence.
        * apply flush_cases in Ef as (l & ds & _ & _ & (G & _) & _). exact G.
        * reflexivity.
        * apply flush_cases in Ef as (l & ds & _ & _ & (G & _) & _). exact G.
        * exfalso. eapply Hna. reflexivity.
  Qed.

  Lemma flat_file ips ns : Forall is_leaf ns -> (forall a, In (NAD a) ns -> ad_id a <> main_id) ->
    forall pre v out v', flat_inv pre v out -> on_file H ips ns v = Ok v' ->
    exists out', flat_inv (pre ++ executed_file ips ns) v' out'.
  Proof.
    induction ns as [|n r IH]; intros Hl Hid pre v out v' I; cbn [on_file executed_file].
    - intros E; injection E as <-. rewrite app_nil_r. eauto.
    - inversion Hl as [|n' r' Hn Hr]; subst n' r'. rewrite (visit_is_leaf H n v Hn), (executed_leaf n Hn).
      assert (Hidn : forall a, n = NAD a -> ad_id a <> main_id) by (intros a ->; apply Hid; left; reflexivity).
      assert (Hidr : forall a, In (NAD a) r -> ad_id a <> main_id) by (intros a Ha; apply Hid; right; exact Ha).
      destruct (visit_leaf H n v) as [v1|v1|e] eqn:Ev; [| |discriminate].
      + destruct (flat_leaf pre v out n v1 I Hn Hidn (or_introl Ev)) as (new1 & I1 & _). intros E.
        destruct (IH Hr Hidr _ _ _ _ I1 E) as (out2 & I2).
        assert (Hst : match n with NM00 | NM02 => true | _ => false end = false) by (destruct n; try reflexivity; discriminate Ev).
        rewrite Hst. cbn [andb]. exists out2. rewrite app_assoc. exact I2.
      + destruct (flat_leaf pre v out n v1 I Hn Hidn (or_intror Ev)) as (new1 & I1 & _).
        assert (Hst : match n with NM00 | NM02 => true | _ => false end = true).
        { destruct (leaf_stop _ _ _ _ Ev) as [[-> | ->] _]; reflexivity. }
        rewrite Hst. cbn [andb]. destruct ips.
        * intros E; injection E as <-. eauto.
        * intros E. destruct (IH Hr Hidr _ _ _ _ I1 E) as (out2 & I2). exists out2. rewrite app_assoc. exact I2.
  Qed.

  Lemma flat_program ips ns v : Forall is_leaf ns -> (forall a, In (NAD a) ns -> ad_id a <> main_id) ->
    on_file H ips ns (visitor_init compiler_init) = Ok v ->
    exists b, d_get main_id (c_buffers (v_ext v)) = Some b /\ run_draws (executed_file ips ns) (bf_cmds b).
  Proof.
    intros Hl Hid E. destruct (flat_file ips ns Hl Hid [] (visitor_init compiler_init) [] v) as (out & I); [|exact E|].
    - split; try reflexivity; [constructor|constructor|discriminate].
    - destruct I as [_ Hst Hd He _ _]. cbn [app] in He. unfold drawn, current in Hd. rewrite Hst in Hd.
      destruct (d_get main_id (c_buffers (v_ext v))) as [b|]; [|discriminate]. injection Hd as Hd. exists b. split; [reflexivity|].
      rewrite Hd. exact He.
  Qed.
End FlatFiles.

(** The main layer of a compiled program is the main buffer. *)
Section MainLayer.
  Context {K : Type} {NK : Num K} (iter : str -> list str -> list str).
  Lemma convert_main (bs : dict (buffer K)) cmds : keyed bs -> convert iter bs = Ok cmds ->
    exists b ls, d_get main_id bs = Some b /\ layers cmds = Some (ls ++ [(main_id, bf_cmds b)]).
  Proof.
    intros Hk. unfold convert, submit_order.
    destruct (get_buffer main_id bs) as [b|] eqn:Eb; [|discriminate]. cbn [bind]. apply get_buffer_ok in Eb.
    destruct (resolve iter (S (length bs)) bs b []) as [ids|] eqn:Er; [|discriminate]. cbn [bind].
    destruct (get_buffers bs ids) as [l|] eqn:El; [|discriminate]. cbn [bind]. intros E; injection E as <-.
    rewrite resolve_eq in Er. destruct (deps_loop _ _ _ _ _ _) as [o|]; [|discriminate]. cbn [bind] in Er. injection Er as <-.
    apply get_buffers_spec in El. apply Forall2_app_inv_l in El as (l1 & l2 & _ & F2 & ->).
    inversion F2 as [|i b' r1 r2 Hb F3]; subst. inversion F3; subst.
    rewrite (Hk _ _ Eb) in Hb. exists b, (map (fun b => (bf_id b, bf_cmds b)) l1). split; [exact Eb|].
    rewrite layers_convert, map_app. cbn [map]. assert (b' = b) by congruence. subst b'. rewrite (Hk _ _ Eb). reflexivity.
  Qed.
  Lemma compile_main md clock ips ns cmds : compile md clock iter ips ns = Ok cmds ->
    exists v b ls, on_file (compiler_hooks md clock) ips ns (visitor_init compiler_init) = Ok v /\
      d_get main_id (c_buffers (v_ext v)) = Some b /\ layers cmds = Some (ls ++ [(main_id, bf_cmds (K := K) b)]).
  Proof.
    unfold compile. destruct (on_file _ _ _ _) as [v|] eqn:Ev; [|discriminate]. cbn [bind]. intros E.
    destruct (convert_main (c_buffers (v_ext v)) cmds) as (b & ls & H1 & H2); [|exact E|].
    - eapply keyed_file; [|exact Ev]. intros k b. cbn [visitor_init v_ext compiler_init c_buffers].
      cbn [d_get]. destruct (str_eqb k main_id) eqn:Ek; [|discriminate]. intros E1; injection E1 as <-.
      apply str_eqb_eq in Ek. symmetry; exact Ek.
    - exists v, b, ls. auto.
  Qed.
End MainLayer.

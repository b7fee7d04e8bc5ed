(** Proofs about the state tracker. *)
From Verif Require Import Base Num Dict CoordModel CoordSpec CoordProofs Ast StateModel StateSpec.
Open Scope nat_scope.

Definition is_leaf {K} (n : node K) : Prop :=
  match n with NAB _ _ => False | NSR _ _ _ => False | _ => True end.

Section Sim.
  Context {K : Type} {NK : Num K} {X S : Type} (H : hooks K X).
  Context (R : visitor K X -> S -> Prop) (step : S -> node K -> S).

  Lemma visit_AB id body v :
    visit H (NAB id body) v
    = obind (visits H body (ab_enter H id v)) (fun v => Done (ab_leave H id v)) (fun v => v).
  Proof. reflexivity. Qed.
  Lemma visit_SR uid hdr body v :
    visit H (NSR uid hdr body) v
    = obind (visits H body (snd (sr_enter H uid v)))
        (sr_leave H (fst (sr_enter H uid v)) hdr) (fun v => v).
  Proof. cbn [visit]. destruct (sr_enter H uid v) as [tmp v']. reflexivity. Qed.
  Lemma visit_is_leaf n v : is_leaf n -> visit H n v = visit_leaf H n v.
  Proof. destruct n; cbn [is_leaf]; intros []; reflexivity. Qed.
  Lemma executed_leaf (n : node K) :
    is_leaf n -> executed n = ([n], match n with NM00 | NM02 => true | _ => false end).
  Proof. destruct n; cbn [is_leaf]; intros []; reflexivity. Qed.

  Lemma lift_not_stop (v : visitor K X) (r : result exc X) v' : lift v r <> Stop v'.
  Proof. destruct r; discriminate. Qed.
  Lemma obind_done {T U} (o : outcome T) (k : T -> outcome U) f u :
    obind o k f = Done u -> exists t, o = Done t /\ k t = Done u.
  Proof. destruct o; cbn [obind]; intros E; try discriminate; eauto. Qed.

  (** Which leaves stop. *)
  Lemma leaf_stop n v v' :
    visit_leaf H n v = Stop v' -> (n = NM00 \/ n = NM02) /\ v' = v.
  Proof.
    destruct n; cbn [visit_leaf]; intros E; try discriminate E.
    - unfold on_ad in E. apply lift_not_stop in E; contradiction.
    - unfold on_d01, on_coords in E. destruct read_coords; [|discriminate].
      destruct (lift _ _) eqn:E2; cbn [obind] in E; try discriminate. apply lift_not_stop in E2; contradiction.
    - unfold on_d02, on_coords in E. destruct read_coords; [|discriminate].
      cbn beta zeta in E. destruct (s_region _); [apply lift_not_stop in E; contradiction|discriminate].
    - unfold on_d03, on_coords in E. destruct read_coords; [|discriminate].
      destruct current_aperture; [|discriminate]. destruct v_d03; [|discriminate].
      destruct (lift _ _) eqn:E2; cbn [obind] in E; try discriminate. apply lift_not_stop in E2; contradiction.
    - unfold on_dnn in E. cbn beta zeta in E. destruct current_aperture; discriminate.
    - destruct g; cbn [on_g] in E; try discriminate.
      destruct (lift _ _) eqn:E2; cbn [obind] in E; try discriminate. apply lift_not_stop in E2; contradiction.
    - injection E as <-. auto.
    - injection E as <-. auto.
  Qed.

  Hypothesis Rleaf : forall n v v' s, is_leaf n -> R v s ->
    visit_leaf H n v = Done v' \/ visit_leaf H n v = Stop v' -> R v' (step s n).
  Hypothesis Rab_enter : forall id v s, R v s -> R (ab_enter H id v) s.
  Hypothesis Rab_leave : forall id v s, R v s -> R (ab_leave H id v) (step s (NAB id [])).
  Hypothesis Rsr_enter : forall uid v s, R v s -> R (snd (sr_enter H uid v)) s.
  Hypothesis Rsr_leave : forall tmp hdr v v' s, R v s -> sr_leave H tmp hdr v = Done v' -> R v' s.

  Definition sim_node (n : node K) : Prop := forall v s, R v s ->
    (forall v', visit H n v = Done v' -> R v' (fold_left step (fst (executed n)) s) /\ snd (executed n) = false) /\
    (forall v', visit H n v = Stop v' -> R v' (fold_left step (fst (executed n)) s) /\ snd (executed n) = true).

  Lemma sim_list body : Forall sim_node body -> forall v s, R v s ->
    (forall v', visits H body v = Done v' ->
       R v' (fold_left step (fst (exec_list executed body)) s) /\ snd (exec_list executed body) = false) /\
    (forall v', visits H body v = Stop v' ->
       R v' (fold_left step (fst (exec_list executed body)) s) /\ snd (exec_list executed body) = true).
  Proof.
    induction 1 as [|n r Hn Hr IH]; intros v s HR; cbn [visits exec_list].
    - split; [|discriminate]. intros v' E; injection E as <-. auto.
    - destruct (Hn v s HR) as [HD HS]. destruct (executed n) as [a st] eqn:Ea. cbn [fst snd] in HD, HS.
      destruct (visit H n v) as [v1|v1|e] eqn:Ev; cbn [obind].
      + destruct (HD v1 eq_refl) as [HR1 ->].
        destruct (IH v1 _ HR1) as [ID IS]. fold (exec_list executed r).
        destruct (exec_list executed r) as [b st']. cbn [fst snd] in ID, IS |- *.
        rewrite fold_left_app. auto.
      + destruct (HS v1 eq_refl) as [HR1 ->]. cbn [fst snd].
        split; [discriminate|]. intros v' E; injection E as <-. auto.
      + split; discriminate.
  Qed.

  Lemma sim_all n : sim_node n.
  Proof.
    induction n as [id body IH|u h body IH|n Hleaf] using node_ind'; intros v s HR.
    - rewrite visit_AB. cbn [executed].
      destruct (sim_list body IH _ _ (Rab_enter id v s HR)) as [HD HS].
      destruct (exec_list executed body) as [l st]. cbn [fst snd] in HD, HS.
      destruct (visits H body (ab_enter H id v)) as [v1|v1|e]; cbn [obind].
      + destruct (HD v1 eq_refl) as [HR1 ->]. cbn [fst snd]. rewrite fold_left_app. cbn [fold_left].
        split; [|discriminate]. intros v' E; injection E as <-. auto.
      + destruct (HS v1 eq_refl) as [HR1 ->]. cbn [fst snd].
        split; [discriminate|]. intros v' E; injection E as <-. auto.
      + split; discriminate.
    - rewrite visit_SR. cbn [executed].
      destruct (sim_list body IH _ _ (Rsr_enter u v s HR)) as [HD HS].
      destruct (visits H body (snd (sr_enter H u v))) as [v1|v1|e]; cbn [obind].
      + destruct (HD v1 eq_refl) as [HR1 ->].
        split; [|intros v' E; unfold sr_leave in E; apply lift_not_stop in E; contradiction].
        intros v' E. split; [|reflexivity]. eapply Rsr_leave; eauto.
      + destruct (HS v1 eq_refl) as [HR1 ->].
        split; [discriminate|]. intros v' E; injection E as <-. auto.
      + split; discriminate.
    - rewrite (visit_is_leaf n v Hleaf), (executed_leaf n Hleaf). cbn [fst snd fold_left]. split.
      + intros v' E. split; [eapply Rleaf; eauto|]. destruct n; try reflexivity; discriminate.
      + intros v' E. split; [eapply Rleaf; eauto|].
        destruct (leaf_stop n v v' E) as [[-> | ->] _]; reflexivity.
  Qed.

  Lemma sim_file b ns : forall v s v', R v s -> on_file H b ns v = Ok v' ->
    R v' (fold_left step (executed_file b ns) s).
  Proof.
    induction ns as [|n r IH]; intros v s v' HR; cbn [on_file executed_file].
    - intros E; injection E as <-. exact HR.
    - destruct (sim_all n v s HR) as [HD HS].
      destruct (executed n) as [a st]. cbn [fst snd] in HD, HS.
      destruct (visit H n v) as [v1|v1|e] eqn:Ev; [|destruct b|discriminate].
      + destruct (HD v1 eq_refl) as [HR1 ->]. cbn [andb]. rewrite fold_left_app. apply IH; exact HR1.
      + destruct (HS v1 eq_refl) as [HR1 ->]. cbn [andb]. intros E; injection E as <-. exact HR1.
      + destruct (HS v1 eq_refl) as [HR1 ->]. cbn [andb]. rewrite fold_left_app. apply IH; exact HR1.
  Qed.
End Sim.

(** Simulations that only look at the state component. *)
Section SimState.
  Context {K : Type} {NK : Num K} {X S : Type} (H : hooks K X).
  Context (abs : state K -> S) (step : S -> node K -> S).

  (** The state after a leaf does not depend on the callbacks. *)
  Definition leaf_state (n : node K) (s : state K) : option (state K) :=
    match visit_leaf (no_hooks (K := K)) n (MkV s HDrawLine (Some FCircle) false tt) with
    | Done v | Stop v => Some (v_state v)
    | Fail _ => None
    end.

  Lemma lift_done (v v' : visitor K X) r : lift v r = Done v' -> v_state v' = v_state v /\ v_d01 v' = v_d01 v /\
      v_d03 v' = v_d03 v /\ v_dispatch_region v' = v_dispatch_region v /\ r = Ok (v_ext v').
  Proof. destruct r; [|discriminate]. intros E; injection E as <-. auto. Qed.

  Lemma leaf_state_spec n v v' :
    visit_leaf H n v = Done v' \/ visit_leaf H n v = Stop v' ->
    leaf_state n (v_state v) = Some (v_state v').
  Proof.
    intros [E|E].
    2:{ destruct (leaf_stop H n v v' E) as [[-> | ->] ->]; reflexivity. }
    destruct n; cbn [visit_leaf] in E;
      try discriminate E; try (injection E as <-; reflexivity); unfold leaf_state; cbn [visit_leaf].
    - unfold on_ad in *. cbn beta zeta in *. apply lift_done in E as (-> & _). reflexivity.
    - unfold on_d01, on_coords in *. cbn [v_state v_d01 v_d03] in *.
      destruct (read_coords _ _ _ _ _) as [s|e]; [|discriminate].
      apply obind_done in E as (v1 & E1 & E2). apply lift_done in E1 as (Hs & _).
      injection E2 as <-. cbn [obind lift no_hooks hk_draw with_state v_state with_ext].
      cbn [with_state v_state] in Hs. rewrite Hs. reflexivity.
    - unfold on_d02, on_coords in *. cbn [v_state v_d01 v_d03] in *.
      destruct (read_coords _ _ _ _ _) as [s|e]; [|discriminate].
      cbn beta zeta in *. cbn [with_state v_state] in *.
      destruct (s_region _).
      + apply lift_done in E as (Hs & _). cbn [v_state] in Hs.
        cbn [no_hooks hk_flush_region lift with_ext v_state]. rewrite Hs. reflexivity.
      + injection E as <-. reflexivity.
    - unfold on_d03, on_coords in *. cbn [v_state v_d01 v_d03] in *.
      destruct (read_coords _ _ _ _ _) as [s|e]; [|discriminate].
      cbn [with_state v_state v_d03] in *.
      destruct (current_aperture s) as [ap|e]; [|discriminate].
      destruct (v_d03 v) as [h|]; [|discriminate].
      apply obind_done in E as (v1 & E1 & E2). apply lift_done in E1 as (Hs & _).
      injection E2 as <-. cbn [obind lift no_hooks hk_flash with_state v_state with_ext].
      cbn [v_state] in Hs. rewrite Hs. reflexivity.
    - unfold on_dnn in *. cbn beta zeta in *. cbn [with_state v_state] in *.
      destruct (current_aperture _) as [ap|e]; [|discriminate].
      injection E as <-. reflexivity.
    - destruct g; cbn [on_g] in *; try (injection E as <-; reflexivity).
      apply obind_done in E as (v1 & E1 & E2). apply lift_done in E1 as (Hs & _).
      injection E2 as <-. cbn [obind lift no_hooks hk_flush_region].
      cbn [dispatch bind_dispatch with_ext with_state v_state]. rewrite Hs. reflexivity.
  Qed.

  Hypothesis Hleaf : forall n s s', is_leaf n -> leaf_state n s = Some s' -> abs s' = step (abs s) n.
  Hypothesis Hblock : forall id s, abs (register_block id s) = step (abs s) (NAB id []).

  Lemma sim_state_file b ns v v' : on_file H b ns v = Ok v' ->
    abs (v_state v') = fold_left step (executed_file b ns) (abs (v_state v)).
  Proof.
    apply (sim_file H (fun v s => abs (v_state v) = s) step).
    - intros n v0 v0' s Hl <- E. apply Hleaf; [exact Hl|]. apply leaf_state_spec. exact E.
    - intros id v0 s <-. reflexivity.
    - intros id v0 s <-. unfold ab_leave. cbn [with_ext with_state v_state]. apply Hblock.
    - intros u v0 s <-. unfold sr_enter. destruct (hk_sr_open H u _ _). reflexivity.
    - intros tmp hdr v0 v0' s <- E. unfold sr_leave in E. apply lift_done in E as (-> & _). reflexivity.
    - reflexivity.
  Qed.
End SimState.

Section Fields.
  Context {K : Type} {NK : Num K}.

  Lemma read_coords_inv x y i j (s s1 : state K) : read_coords x y i j s = Ok s1 ->
    exists x' y' i' j',
      read_opt s true x (s_x s) = Ok x' /\ read_opt s false y (s_y s) = Ok y' /\
      read_opt s true i (s_i s) = Ok i' /\ read_opt s false j (s_j s) = Ok j' /\
      s1 = set_xyij x' y' i' j' s.
  Proof.
    unfold read_coords. intros E.
    destruct (read_opt s true x (s_x s)) as [x'|]; [|discriminate].
    destruct (read_opt s false y (s_y s)) as [y'|]; [|discriminate].
    destruct (read_opt s true i (s_i s)) as [i'|]; [|discriminate].
    destruct (read_opt s false j (s_j s)) as [j'|]; [|discriminate].
    injection E as <-. exists x', y', i', j'. auto.
  Qed.

  Lemma leaf_state_inv n (s s' : state K) : leaf_state n s = Some s' ->
    match n with
    | ND01 x y i j => exists s1, read_coords x y i j s = Ok s1 /\ s' = update_coordinates s1
    | ND02 x y | ND03 x y => exists s1, read_coords x y None None s = Ok s1 /\ s' = update_coordinates s1
    | NDnn id => s' = set_apid (Some id) s /\ exists a, current_aperture s' = Ok a
    | _ => True
    end.
  Proof.
    unfold leaf_state. destruct n; try (intros _; exact I); cbn [visit_leaf].
    - unfold on_d01, on_coords. cbn [v_state]. destruct (read_coords _ _ _ _ _) as [s1|]; [|discriminate].
      cbn. intros E; injection E as <-. eauto.
    - unfold on_d02, on_coords. cbn [v_state]. destruct (read_coords _ _ _ _ _) as [s1|]; [|discriminate].
      cbn. destruct (s_region s1); intros E; injection E as <-; eauto.
    - unfold on_d03, on_coords. cbn [v_state]. destruct (read_coords _ _ _ _ _) as [s1|]; [|discriminate].
      cbn [with_state v_state v_d03]. destruct (current_aperture s1) as [a|]; [|discriminate].
      cbn. intros E; injection E as <-. eauto.
    - unfold on_dnn. cbn beta zeta. cbn [with_state v_state].
      destruct (current_aperture _) as [a|] eqn:Ea; [|discriminate].
      intros E; injection E as <-. cbn [v_state]. eauto.
  Qed.
End Fields.

(** Case analysis on an executed leaf for abstractions that are a projection of the state. *)
Ltac leaf_cases n s s' E :=
  let Inv := fresh "Inv" in
  pose proof (leaf_state_inv n s s' E) as Inv;
  destruct n; cbn [is_leaf] in *; try contradiction;
  match type of Inv with
  | True =>
      clear Inv;
      match type of E with
      | leaf_state (NG ?g) _ = _ => destruct g
      | leaf_state (NTD ?k) _ = _ => destruct k
      | _ => idtac
      end;
      unfold leaf_state in E; cbn [visit_leaf on_g] in E;
      unfold on_ad in E;
      cbn [obind lift no_hooks hk_ad hk_flush_region hk_start_region hk_end_region
           with_ext with_state dispatch bind_dispatch v_state v_d01 v_d03 v_dispatch_region v_ext] in E;
      injection E as <-
  | _ /\ _ => destruct Inv as (-> & ?a & ?Ha); clear E
  | _ => let s1 := fresh "s1" in let Hr := fresh "Hr" in
      destruct Inv as (s1 & Hr & ->); clear E;
      apply read_coords_inv in Hr as (?x' & ?y' & ?i' & ?j' & ?Hx & ?Hy & ?Hi & ?Hj & ->)
  end.

Ltac last_set_tac := 
  intros; match goal with
  | |- ?proj (v_state ?v') = last_set ?st _ _ =>
      eapply (sim_state_file _ proj (fun a n => match st n with Some b => b | None => a end));
      [ let n := fresh "n" in let s := fresh "s" in let s' := fresh "s'" in let E := fresh "E" in
        intros n s s' _ E; leaf_cases n s s' E; reflexivity
      | intros; reflexivity | eassumption ]
  end.

Section LastSet.
  Context {K : Type} {NK : Num K} {X : Type} (H : hooks K X).
  Context (b : bool) (ns : list (node K)) (v v' : visitor K X) (Hok : on_file H b ns v = Ok v').
  Let cmds := executed_file b ns.

  Definition p_polarity (s : state K) := tr_polarity (s_tr s).
  Definition p_mirroring (s : state K) := tr_mirroring (s_tr s).
  Definition p_rotation (s : state K) := tr_rotation (s_tr s).
  Definition p_scaling (s : state K) := tr_scaling (s_tr s).
  Definition p_ipol (s : state K) := ia_polarity (s_img s).
  Definition p_irot (s : state K) := ia_rotation (s_img s).
  Definition p_imir (s : state K) := (ia_mirror_a (s_img s), ia_mirror_b (s_img s)).
  Definition p_ioff (s : state K) := (ia_offset_a (s_img s), ia_offset_b (s_img s)).
  Definition p_iscale (s : state K) := (ia_scale_a (s_img s), ia_scale_b (s_img s)).
  Definition p_iname (s : state K) := ia_image_name (s_img s).
  Definition p_lname (s : state K) := ia_file_name (s_img s).
  Definition p_axis (s : state K) := ia_axis (s_img s).

  Lemma ls_unit : s_unit (v_state v') = last_set sets_unit (s_unit (v_state v)) cmds. Proof. last_set_tac. Qed.
  Lemma ls_plot : s_plot (v_state v') = last_set sets_plot (s_plot (v_state v)) cmds. Proof. last_set_tac. Qed.
  Lemma ls_arc : s_arc (v_state v') = last_set sets_arc (s_arc (v_state v)) cmds. Proof. last_set_tac. Qed.
  Lemma ls_region : s_region (v_state v') = last_set sets_region (s_region (v_state v)) cmds. Proof. last_set_tac. Qed.
  Lemma ls_apid : s_apid (v_state v') = last_set sets_aperture (s_apid (v_state v)) cmds. Proof. last_set_tac. Qed.
  Lemma ls_polarity : p_polarity (v_state v') = last_set sets_polarity (p_polarity (v_state v)) cmds. Proof. last_set_tac. Qed.
  Lemma ls_mirroring : p_mirroring (v_state v') = last_set sets_mirroring (p_mirroring (v_state v)) cmds. Proof. last_set_tac. Qed.
  Lemma ls_rotation : p_rotation (v_state v') = last_set sets_rotation (p_rotation (v_state v)) cmds. Proof. last_set_tac. Qed.
  Lemma ls_scaling : p_scaling (v_state v') = last_set sets_scaling (p_scaling (v_state v)) cmds. Proof. last_set_tac. Qed.
  Lemma ls_ipol : p_ipol (v_state v') = last_set sets_image_polarity (p_ipol (v_state v)) cmds. Proof. last_set_tac. Qed.
  Lemma ls_irot : p_irot (v_state v') = last_set sets_image_rotation (p_irot (v_state v)) cmds. Proof. last_set_tac. Qed.
  Lemma ls_imir : p_imir (v_state v') = last_set sets_image_mirror (p_imir (v_state v)) cmds. Proof. last_set_tac. Qed.
  Lemma ls_ioff : p_ioff (v_state v') = last_set sets_image_offset (p_ioff (v_state v)) cmds. Proof. last_set_tac. Qed.
  Lemma ls_iscale : p_iscale (v_state v') = last_set sets_image_scale (p_iscale (v_state v)) cmds. Proof. last_set_tac. Qed.
  Lemma ls_iname : p_iname (v_state v') = last_set sets_image_name (p_iname (v_state v)) cmds. Proof. last_set_tac. Qed.
  Lemma ls_lname : p_lname (v_state v') = last_set sets_load_name (p_lname (v_state v)) cmds. Proof. last_set_tac. Qed.
  Lemma ls_axis : p_axis (v_state v') = last_set sets_axis (p_axis (v_state v)) cmds. Proof. last_set_tac. Qed.
  Lemma ls_format : s_cf (v_state v') = fold_left format_step cmds (s_cf (v_state v)).
  Proof.
    eapply (sim_state_file _ s_cf format_step); [|reflexivity|exact Hok].
    intros n s s' _ E. leaf_cases n s s' E; reflexivity.
  Qed.
End LastSet.

(** ** C05: current point *)
Local Arguments draws_of : simpl never.
Local Arguments flashes_of : simpl never.

Section Pen.
  Context {K : Type} {NK : Num K}.

  Definition seg_of (c : d01_handler * state K) : (K * K) * (K * K) :=
    ((s_cur_x (snd c), s_cur_y (snd c)), (coordinate_x (snd c), coordinate_y (snd c))).

  Definition Rpen (v : visitor K (list call)) (p : pen) : Prop :=
    let s := v_state v in
    s_cf s = pen_fmt p /\ (s_cur_x s, s_cur_y s) = pen_at p /\
    (forall k, s_x s = Some k -> s_cur_x s = k) /\ (forall k, s_y s = Some k -> s_cur_y s = k) /\
    map seg_of (draws_of (v_ext v)) = pen_segs p.

  Lemma read_opt_axis (s : state K) is_x t old o :
    read_opt s is_x t old = Ok o -> forall cur, (forall k, old = Some k -> cur = k) ->
    opt_or o cur = axis_value (s_cf s) is_x t cur.
  Proof.
    unfold read_opt, axis_value. intros E cur Hold. destruct t as [t|].
    - unfold read_coord in E. destruct (s_cf s) as [f|]; [|discriminate].
      destruct is_x; destruct (unpack _ _ _ t) as [q|]; try discriminate;
        cbn [bind] in E; injection E as <-; reflexivity.
    - injection E as <-. destruct old as [k|]; cbn [opt_or]; [symmetry; apply Hold; reflexivity|reflexivity].
  Qed.

  Lemma draws_app (l l' : list (@call K)) : draws_of (l ++ l') = draws_of l ++ draws_of l'.
  Proof. unfold draws_of. apply flat_map_app. Qed.
  Lemma flashes_app (l l' : list (@call K)) : flashes_of (l ++ l') = flashes_of l ++ flashes_of l'.
  Proof. unfold flashes_of. apply flat_map_app. Qed.

  Lemma pen_leaf n v v' p : is_leaf n -> Rpen v p ->
    visit_leaf recorder n v = Done v' \/ visit_leaf recorder n v = Stop v' -> Rpen v' (pen_step p n).
  Proof.
    intros Hl (Hf & Hat & Hsx & Hsy & Hsegs) [E|E].
    2:{ destruct (leaf_stop _ _ _ _ E) as [[-> | ->] ->]; repeat split; assumption. }
    destruct n; cbn [is_leaf] in Hl; try contradiction; cbn [visit_leaf] in E; try discriminate E;
      unfold on_ad in E; cbn [lift recorder hk_ad] in E; try (injection E as <-; repeat split; assumption).
    - destruct name; injection E as <-; repeat split; assumption.
    - (* D01 *)
      unfold on_d01, on_coords in E. destruct (read_coords x y i j (v_state v)) as [s1|] eqn:Hr; [|discriminate].
      apply read_coords_inv in Hr as (x' & y' & i' & j' & Hx & Hy & Hi & Hj & ->).
      cbn in E. injection E as <-.
      pose proof (read_opt_axis _ _ _ _ _ Hx _ Hsx) as Ax. pose proof (read_opt_axis _ _ _ _ _ Hy _ Hsy) as Ay.
      rewrite Hf in Ax, Ay.
      assert (Hx0 : s_cur_x (v_state v) = fst (pen_at p)) by (rewrite <- Hat; reflexivity).
      assert (Hy0 : s_cur_y (v_state v) = snd (pen_at p)) by (rewrite <- Hat; reflexivity).
      rewrite Hx0 in Ax. rewrite Hy0 in Ay.
      unfold Rpen; cbn. repeat split.
      + exact Hf.
      + rewrite Hx0, Hy0, Ax, Ay. reflexivity.
      + intros k ->. reflexivity.
      + intros k ->. reflexivity.
      + rewrite draws_app, map_app, Hsegs. unfold draws_of, seg_of; cbn. unfold coordinate_x, coordinate_y; cbn.
        rewrite Hx0, Hy0, Ax, Ay. rewrite <- surjective_pairing. reflexivity.
    - (* D02 *)
      unfold on_d02, on_coords in E. destruct (read_coords x y None None (v_state v)) as [s1|] eqn:Hr; [|discriminate].
      apply read_coords_inv in Hr as (x' & y' & i' & j' & Hx & Hy & Hi & Hj & ->).
      pose proof (read_opt_axis _ _ _ _ _ Hx _ Hsx) as Ax. pose proof (read_opt_axis _ _ _ _ _ Hy _ Hsy) as Ay.
      rewrite Hf in Ax, Ay.
      assert (Hx0 : s_cur_x (v_state v) = fst (pen_at p)) by (rewrite <- Hat; reflexivity).
      assert (Hy0 : s_cur_y (v_state v) = snd (pen_at p)) by (rewrite <- Hat; reflexivity).
      rewrite Hx0 in Ax. rewrite Hy0 in Ay.
      cbn in E. destruct (s_region (v_state v)); injection E as <-; unfold Rpen; cbn; repeat split;
        try exact Hf; try (rewrite Hx0, Hy0, Ax, Ay; reflexivity); try (intros k ->; reflexivity);
        rewrite ?draws_app, ?map_app; unfold draws_of; cbn [flat_map map]; rewrite ?app_nil_r; exact Hsegs.
    - (* D03 *)
      unfold on_d03, on_coords in E. destruct (read_coords x y None None (v_state v)) as [s1|] eqn:Hr; [|discriminate].
      apply read_coords_inv in Hr as (x' & y' & i' & j' & Hx & Hy & Hi & Hj & ->).
      pose proof (read_opt_axis _ _ _ _ _ Hx _ Hsx) as Ax. pose proof (read_opt_axis _ _ _ _ _ Hy _ Hsy) as Ay.
      rewrite Hf in Ax, Ay.
      assert (Hx0 : s_cur_x (v_state v) = fst (pen_at p)) by (rewrite <- Hat; reflexivity).
      assert (Hy0 : s_cur_y (v_state v) = snd (pen_at p)) by (rewrite <- Hat; reflexivity).
      rewrite Hx0 in Ax. rewrite Hy0 in Ay.
      destruct (current_aperture _) as [a|]; [|discriminate].
      cbn in E. destruct (v_d03 v) as [h|]; [|discriminate].
      injection E as <-; unfold Rpen; cbn; repeat split;
        try exact Hf; try (rewrite Hx0, Hy0, Ax, Ay; reflexivity); try (intros k ->; reflexivity);
        rewrite ?draws_app, ?map_app; unfold draws_of; cbn [flat_map map]; rewrite ?app_nil_r; exact Hsegs.
    - (* Dnn *)
      unfold on_dnn in E. cbn beta zeta in E. destruct (current_aperture _); [|discriminate].
      injection E as <-. repeat split; assumption.
    - (* G *)
      destruct g; cbn in E; injection E as <-; unfold Rpen; cbn;
        rewrite ?draws_app, ?map_app; unfold draws_of; cbn [flat_map map app]; rewrite ?app_nil_r;
        try (repeat split; assumption);
        rewrite <- Hf; repeat split; assumption.
  Qed.

  Lemma pen_file b ns v v' p : Rpen v p -> on_file recorder b ns v = Ok v' ->
    Rpen v' (fold_left pen_step (executed_file b ns) p).
  Proof.
    apply (sim_file recorder Rpen pen_step).
    - apply pen_leaf.
    - intros id w s HR. exact HR.
    - intros id w s (Hf & Hat & Hsx & Hsy & Hsegs). repeat split; assumption.
    - intros u w s HR. exact HR.
    - intros tmp hdr w w' s HR E. cbn in E. injection E as <-. exact HR.
  Qed.
End Pen.

(** ** C06: draw callbacks *)
Section Modes.
  Context {K : Type} {NK : Num K}.

  Definition Rmodes (v : visitor K (list (@call K))) (m : modes) : Prop :=
    let s := v_state v in
    s_plot s = mo_plot m /\ s_arc s = mo_arc m /\ s_region s = mo_region m /\
    v_dispatch_region v = mo_region m /\
    v_d01 v = callback_for (mo_plot m) (mo_arc m) (mo_region m) /\
    map fst (draws_of (v_ext v)) = mo_calls m.

  Lemma dispatch_table p a : d01_table p a = callback_for p a false /\ d01_region_table p a = callback_for p a true.
  Proof. destruct p, a; auto. Qed.

  Lemma modes_leaf n v v' m : is_leaf n -> Rmodes v m ->
    visit_leaf recorder n v = Done v' \/ visit_leaf recorder n v = Stop v' -> Rmodes v' (modes_step m n).
  Proof.
    intros Hl (Hp & Ha & Hr & Hd & Hh & Hc) [E|E].
    2:{ destruct (leaf_stop _ _ _ _ E) as [[-> | ->] ->]; repeat split; assumption. }
    destruct n; cbn [is_leaf] in Hl; try contradiction; cbn [visit_leaf] in E; try discriminate E;
      unfold on_ad in E; cbn [lift recorder hk_ad] in E; try (injection E as <-; repeat split; assumption).
    - destruct name; injection E as <-; repeat split; assumption.
    - unfold on_d01, on_coords in E. destruct (read_coords x y i j (v_state v)) as [s1|] eqn:Hrc; [|discriminate].
      apply read_coords_inv in Hrc as (x' & y' & i' & j' & _ & _ & _ & _ & ->).
      cbn in E. injection E as <-. unfold Rmodes; cbn. repeat split; try assumption.
      rewrite draws_app, map_app, Hc. unfold draws_of; cbn. rewrite Hh. reflexivity.
    - unfold on_d02, on_coords in E. destruct (read_coords x y None None (v_state v)) as [s1|] eqn:Hrc; [|discriminate].
      apply read_coords_inv in Hrc as (x' & y' & i' & j' & _ & _ & _ & _ & ->).
      cbn in E. destruct (s_region (v_state v)) eqn:Ereg; injection E as <-; unfold Rmodes; cbn;
        repeat split; try congruence;
        rewrite ?draws_app, ?map_app; unfold draws_of; cbn [flat_map map]; rewrite ?app_nil_r; exact Hc.
    - unfold on_d03, on_coords in E. destruct (read_coords x y None None (v_state v)) as [s1|] eqn:Hrc; [|discriminate].
      apply read_coords_inv in Hrc as (x' & y' & i' & j' & _ & _ & _ & _ & ->).
      destruct (current_aperture _) as [a|]; [|discriminate].
      cbn in E. destruct (v_d03 v) as [h|]; [|discriminate].
      injection E as <-; unfold Rmodes; cbn; repeat split; try assumption.
      rewrite ?draws_app, ?map_app; unfold draws_of; cbn [flat_map map]; rewrite ?app_nil_r; exact Hc.
    - unfold on_dnn in E. cbn beta zeta in E. destruct (current_aperture _); [|discriminate].
      injection E as <-. repeat split; assumption.
    - destruct g; cbn in E; injection E as <-; unfold Rmodes; cbn;
        rewrite ?draws_app, ?map_app; unfold draws_of; cbn [flat_map map app]; rewrite ?app_nil_r, ?Hd, ?Hp, ?Ha;
        repeat split; try assumption;
        destruct (mo_region m), (mo_plot m), (mo_arc m); first [assumption | reflexivity].
  Qed.

  Lemma modes_file b ns v v' m : Rmodes v m -> on_file recorder b ns v = Ok v' ->
    Rmodes v' (fold_left modes_step (executed_file b ns) m).
  Proof.
    apply (sim_file recorder Rmodes modes_step).
    - apply modes_leaf.
    - intros id w s HR. exact HR.
    - intros id w s HR. exact HR.
    - intros u w s HR. exact HR.
    - intros tmp hdr w w' s HR E. cbn in E. injection E as <-. exact HR.
  Qed.
End Modes.

(** Every command leaves alone what it does not write: used for C07, C08 and C10. *)
Section Frame.
  Context {K : Type} {NK : Num K} {X : Type} (H : hooks K X).

  (** Names of the components a leaf command may change. *)
  Lemma frame_leaf n v v' : visit_leaf H n v = Done v' \/ visit_leaf H n v = Stop v' ->
    (match n with NAD a => s_apertures (v_state v') = d_set (ad_id a) a (s_apertures (v_state v))
                | _ => s_apertures (v_state v') = s_apertures (v_state v) end) /\
    s_blocks (v_state v') = s_blocks (v_state v) /\
    s_apid (v_state v') = match n with NDnn id => Some id | _ => s_apid (v_state v) end /\
    (match n with NDnn _ => True | _ => v_d03 v' = v_d03 v end) /\
    (match n with
     | NAD a => s_per_ap_attrs (v_state v') = d_set (ad_id a) (s_ap_attrs (v_state v)) (s_per_ap_attrs (v_state v))
     | _ => s_per_ap_attrs (v_state v') = s_per_ap_attrs (v_state v) end).
  Proof.
    intros [E|E].
    2:{ destruct (leaf_stop _ _ _ _ E) as [[-> | ->] ->]; auto. }
    destruct n; cbn [visit_leaf] in E; try discriminate E;
      try (injection E as <-; cbn; auto; fail).
    - unfold on_ad in E. apply lift_done in E as (-> & _ & -> & _). cbn; auto.
    - injection E as <-. destruct name; cbn; auto.
    - unfold on_d01, on_coords in E. destruct (read_coords x y i j (v_state v)) as [s1|] eqn:Hr; [|discriminate].
      apply read_coords_inv in Hr as (x' & y' & i' & j' & _ & _ & _ & _ & ->).
      apply obind_done in E as (v1 & E1 & E2). apply lift_done in E1 as (Hs & _ & H3 & _).
      injection E2 as <-. cbn. rewrite Hs, H3. cbn. auto.
    - unfold on_d02, on_coords in E. destruct (read_coords x y None None (v_state v)) as [s1|] eqn:Hr; [|discriminate].
      apply read_coords_inv in Hr as (x' & y' & i' & j' & _ & _ & _ & _ & ->).
      cbn in E. destruct (s_region (v_state v)).
      + apply lift_done in E as (-> & _ & -> & _). cbn. auto.
      + injection E as <-. cbn; auto.
    - unfold on_d03, on_coords in E. destruct (read_coords x y None None (v_state v)) as [s1|] eqn:Hr; [|discriminate].
      apply read_coords_inv in Hr as (x' & y' & i' & j' & _ & _ & _ & _ & ->).
      destruct (current_aperture _) as [a|]; [|discriminate]. cbn [with_state v_d03] in E.
      destruct (v_d03 v) as [h|] eqn:E03; [|discriminate].
      apply obind_done in E as (v1 & E1 & E2). apply lift_done in E1 as (Hs & _ & H3 & _).
      injection E2 as <-. cbn. rewrite Hs, H3. cbn. auto.
    - unfold on_dnn in E. cbn beta zeta in E. destruct (current_aperture _); [|discriminate].
      injection E as <-. cbn. auto.
    - destruct g; cbn [on_g] in E; try (injection E as <-; cbn; auto; fail).
      apply obind_done in E as (v1 & E1 & E2). apply lift_done in E1 as (Hs & _ & H3 & _).
      injection E2 as <-. cbn. rewrite Hs, H3. auto.
  Qed.
End Frame.

(** ** C07: flashes *)
Section Flash.
  Context {K : Type} {NK : Num K}.

  Definition looked_up (s : state K) (id : str) : option def :=
    match d_get id (s_apertures s) with
    | Some a => Some (DefAD a)
    | None => match d_get id (s_blocks s) with Some b => Some (DefAB b) | None => None end
    end.

  Definition Rflash (v : visitor K (list (@call K))) (before : list (node K)) : Prop :=
    no_shadowing before ->
    (forall id, looked_up (v_state v) id = latest_def id before) /\
    s_apid (v_state v) = latest_selection before /\
    v_d03 v = match latest_selection before with
              | None => None
              | Some id => option_map kind_of (latest_def id before)
              end /\
    (forall id a, d_get id (s_apertures (v_state v)) = Some a -> exists a', In (NAD a') before /\ ad_id a' = id) /\
    map Some (flashes_of (v_ext v)) = expected_flashes [] before.

  Lemma latest_def_snoc id cmds (n : node K) :
    latest_def id (cmds ++ [n]) =
    match defines n with
    | Some (i, x) => if str_eqb id i then Some x else latest_def id cmds
    | None => latest_def id cmds
    end.
  Proof. unfold latest_def. rewrite fold_left_app. reflexivity. Qed.
  Lemma latest_selection_snoc cmds (n : node K) :
    latest_selection (cmds ++ [n]) = match sets_aperture n with Some b => b | None => latest_selection cmds end.
  Proof. unfold latest_selection, last_set. rewrite fold_left_app. reflexivity. Qed.

  Definition flash_of (before : list (node K)) (n : node K) : list (option (d03_handler * aperture K)) :=
    match n with
    | ND03 _ _ =>
        match latest_selection before with
        | Some id => match latest_def id before with
                     | Some d => [Some (kind_of d, def_aperture d)]
                     | None => [None]
                     end
        | None => [None]
        end
    | _ => []
    end.
  Lemma expected_snoc cmds (n : node K) : forall before,
    expected_flashes before (cmds ++ [n]) = expected_flashes before cmds ++ flash_of (before ++ cmds) n.
  Proof.
    induction cmds as [|m r IH]; intros before; cbn [app].
    - rewrite app_nil_r. destruct n; reflexivity.
    - cbn [expected_flashes]. rewrite IH, <- app_assoc. cbn [app].
      destruct m; try reflexivity.
      destruct (latest_selection before) as [id|]; [destruct (latest_def id before)|]; reflexivity.
  Qed.

  Lemma no_shadowing_snoc cmds (n : node K) :
    no_shadowing (cmds ++ [n]) -> no_shadowing cmds /\ fresh_definition cmds n.
  Proof.
    intros Hn. split.
    - intros b m a E. apply (Hn b m (a ++ [n])). rewrite E, <- app_assoc. reflexivity.
    - apply (Hn cmds n []). reflexivity.
  Qed.

  (** Checkable form of [no_shadowing], for concrete programs. *)
  Fixpoint all_fresh (before l : list (node K)) : Prop :=
    match l with
    | [] => True
    | n :: r => fresh_definition before n /\ all_fresh (before ++ [n]) r
    end.
  Lemma all_fresh_sound l : forall p, all_fresh p l ->
    forall before n after, l = before ++ n :: after -> fresh_definition (p ++ before) n.
  Proof.
    induction l as [|m r IH]; intros p Hl before n after E.
    - destruct before; discriminate E.
    - destruct Hl as [Hm Hr]. destruct before as [|m' before]; cbn [app] in E; injection E as <- E.
      + rewrite app_nil_r. exact Hm.
      + specialize (IH _ Hr _ _ _ E). rewrite <- app_assoc in IH. exact IH.
  Qed.

  Lemma d03_flash x y (v v' : visitor K (list (@call K))) : visit_leaf recorder (ND03 x y) v = Done v' ->
    exists a h s1, current_aperture (v_state v) = Ok a /\ v_d03 v = Some h /\
      v_ext v' = v_ext v ++ [CFlash h a s1].
  Proof.
    cbn [visit_leaf]. unfold on_d03, on_coords.
    destruct (read_coords x y None None (v_state v)) as [s1|] eqn:Hr; [|discriminate].
    apply read_coords_inv in Hr as (x' & y' & i' & j' & _ & _ & _ & _ & ->).
    unfold current_aperture. cbn [with_state v_state s_apid s_apertures s_blocks set_xyij].
    intros E. 
    match type of E with match ?m with _ => _ end = _ => destruct m as [a|] end; [|discriminate].
    cbn [with_state v_d03] in E. destruct (v_d03 v) as [h|]; [|discriminate].
    cbn in E. injection E as <-. cbn. eauto 6.
  Qed.

  Lemma ext_other n v v' : visit_leaf (recorder (K:=K)) n v = Done v' ->
    match n with ND03 _ _ => True | _ => flashes_of (v_ext v') = flashes_of (v_ext v) end.
  Proof.
    intros E. destruct n; cbn [visit_leaf] in E; try exact I; try discriminate E;
      unfold on_ad in E; cbn [lift recorder hk_ad] in E; try (injection E as <-; reflexivity).
    - unfold on_d01, on_coords in E. destruct (read_coords x y i j (v_state v)) as [s1|] eqn:Hr; [|discriminate].
      cbn in E. injection E as <-. cbn. rewrite flashes_app. unfold flashes_of; cbn. apply app_nil_r.
    - unfold on_d02, on_coords in E. destruct (read_coords x y None None (v_state v)) as [s1|] eqn:Hr; [|discriminate].
      cbn in E. destruct (s_region s1); injection E as <-; [|reflexivity].
      cbn. rewrite flashes_app. unfold flashes_of; cbn. apply app_nil_r.
    - unfold on_dnn in E. cbn beta zeta in E. destruct (current_aperture _); [|discriminate].
      injection E as <-. reflexivity.
    - destruct g; cbn in E; injection E as <-; cbn; rewrite ?flashes_app; unfold flashes_of; cbn;
        rewrite ?app_nil_r; reflexivity.
  Qed.

  Lemma dnn_handler id (v v' : visitor K (list (@call K))) : visit_leaf recorder (NDnn id) v = Done v' ->
    v_d03 v' = option_map kind_of (looked_up (v_state v) id).
  Proof.
    cbn [visit_leaf]. unfold on_dnn, current_aperture, looked_up.
    cbn [with_state set_apid v_state s_apid s_apertures s_blocks].
    destruct (d_get id (s_apertures (v_state v))) as [a|].
    - intros E; injection E as <-. reflexivity.
    - destruct (d_get id (s_blocks (v_state v))) as [b|]; [|discriminate].
      intros E; injection E as <-. reflexivity.
  Qed.

  Lemma flash_leaf n v v' before : is_leaf n -> Rflash v before ->
    visit_leaf recorder n v = Done v' \/ visit_leaf recorder n v = Stop v' -> Rflash v' (before ++ [n]).
  Proof.
    intros Hl HR E Hn. apply no_shadowing_snoc in Hn as [Hn Hfresh].
    destruct (HR Hn) as (Hlook & Hsel & H03 & Hin & Hlog).
    pose proof (frame_leaf recorder n v v' E) as (Haps & Hbl & Hap & Hd03 & _).
    rewrite expected_snoc. cbn [app].
    assert (Hlook' : forall id, looked_up (v_state v') id = latest_def id (before ++ [n])).
    { intros id. rewrite latest_def_snoc, <- Hlook. unfold looked_up. rewrite Hbl.
      destruct n; try (rewrite Haps; reflexivity); [contradiction|].
      cbn [defines]. rewrite Haps, d_get_set. destruct (str_eqb id (ad_id a)); reflexivity. }
    assert (Hsel' : s_apid (v_state v') = latest_selection (before ++ [n])).
    { rewrite latest_selection_snoc, Hap. destruct n; try exact Hsel. reflexivity. }
    assert (Hin' : forall id a, d_get id (s_apertures (v_state v')) = Some a ->
              exists a', In (NAD a') (before ++ [n]) /\ ad_id a' = id).
    { intros id a Hg.
      assert (Hold : d_get id (s_apertures (v_state v)) = Some a ->
                exists a', In (NAD a') (before ++ [n]) /\ ad_id a' = id).
      { intros Ho. destruct (Hin id a Ho) as (a' & I & <-). exists a'. split; [|reflexivity].
        apply in_or_app; left; exact I. }
      destruct n; try (rewrite Haps in Hg; apply Hold; exact Hg).
      rewrite Haps, d_get_set in Hg. destruct (str_eqb id (ad_id a0)) eqn:Ei; [|apply Hold; exact Hg].
      apply str_eqb_eq in Ei. exists a0. split; [apply in_or_app; right; left; reflexivity|symmetry; exact Ei]. }
    assert (H03' : v_d03 v' = match latest_selection (before ++ [n]) with
              | None => None | Some id => option_map kind_of (latest_def id (before ++ [n])) end).
    { rewrite latest_selection_snoc.
      destruct n; cbn [sets_aperture]; try (rewrite Hd03, H03; destruct (latest_selection before) as [i0|];
        [rewrite latest_def_snoc; reflexivity|reflexivity]); [contradiction| |].
      - rewrite Hd03, H03. destruct (latest_selection before) as [i0|] eqn:Es; [|reflexivity].
        rewrite latest_def_snoc. cbn [defines]. destruct Hfresh as [Hne _]. rewrite Es in Hne.
        destruct (str_eqb i0 (ad_id a)) eqn:Ei; [|reflexivity].
        apply str_eqb_eq in Ei. congruence.
      - destruct E as [E|E]; [|apply leaf_stop in E as [[E|E] _]; discriminate].
        rewrite (dnn_handler _ _ _ E), latest_def_snoc, Hlook. reflexivity. }
    split; [exact Hlook'|]. split; [exact Hsel'|]. split; [exact H03'|]. split; [exact Hin'|].
    destruct E as [E|E].
    2:{ destruct (leaf_stop _ _ _ _ E) as [[-> | ->] ->]; cbn [flash_of]; rewrite app_nil_r; exact Hlog. }
    destruct n; try (rewrite (ext_other _ _ _ E), Hlog; symmetry; apply app_nil_r).
    apply d03_flash in E as (a & h & s1 & Ha & Hh & ->).
    rewrite flashes_app, map_app, Hlog. f_equal. cbn [flash_of]. rewrite <- Hsel.
    unfold current_aperture in Ha. rewrite Hh in H03. rewrite <- Hsel in H03.
    destruct (s_apid (v_state v)) as [i0|]; [|discriminate].
    rewrite <- Hlook in H03 |- *. unfold looked_up in *.
    destruct (d_get i0 (s_apertures (v_state v))) as [a0|].
    - injection Ha as <-. injection H03 as ->. reflexivity.
    - destruct (d_get i0 (s_blocks (v_state v))) as [b0|]; [|discriminate].
      injection Ha as <-. injection H03 as ->. reflexivity.
  Qed.

  Lemma flash_block id (v : visitor K (list (@call K))) before : Rflash v before ->
    Rflash (ab_leave recorder id v) (before ++ [NAB id []]).
  Proof.
    intros HR Hn. apply no_shadowing_snoc in Hn as [Hn [Hne Hnad]].
    destruct (HR Hn) as (Hlook & Hsel & H03 & Hin & Hlog).
    split; [|split; [|split; [|split]]].
    - intros i. rewrite latest_def_snoc, <- Hlook. cbn [defines]. unfold looked_up. cbn.
      destruct (d_get i (s_apertures (v_state v))) as [a|] eqn:Ea.
      + destruct (str_eqb i id) eqn:Ei; [|reflexivity]. apply str_eqb_eq in Ei; subst i.
        destruct (Hin _ _ Ea) as (a' & I & Hid). exfalso. exact (Hnad a' I Hid).
      + rewrite d_get_set. destruct (str_eqb i id) eqn:Ei; [|reflexivity].
        apply str_eqb_eq in Ei; subst i. reflexivity.
    - rewrite latest_selection_snoc. exact Hsel.
    - rewrite latest_selection_snoc. cbn [sets_aperture ab_leave with_ext v_d03].
      cbn. rewrite H03. destruct (latest_selection before) as [i0|] eqn:Es; [|reflexivity].
      rewrite latest_def_snoc. cbn [defines].
      destruct (str_eqb i0 id) eqn:Ei; [|reflexivity]. apply str_eqb_eq in Ei. congruence.
    - intros i a Hg. cbn in Hg. destruct (Hin _ _ Hg) as (a' & I & Hid). exists a'.
      split; [apply in_or_app; left; exact I|exact Hid].
    - rewrite expected_snoc. cbn [flash_of]. rewrite app_nil_r. exact Hlog.
  Qed.

  Lemma fold_snoc (l acc : list (node K)) : fold_left (fun a n => a ++ [n]) l acc = acc ++ l.
  Proof.
    revert acc; induction l as [|n r IH]; intros acc; cbn [fold_left]; [symmetry; apply app_nil_r|].
    rewrite IH, <- app_assoc. reflexivity.
  Qed.

  Lemma flash_file b ns v' : on_file recorder b ns (visitor_init []) = Ok v' ->
    no_shadowing (executed_file b ns) ->
    map Some (flashes_of (v_ext v')) = expected_flashes [] (executed_file b ns).
  Proof.
    intros E Hn.
    assert (HR : Rflash v' (fold_left (fun a n => a ++ [n]) (executed_file b ns) [])).
    { apply (sim_file recorder Rflash (fun a n => a ++ [n])) with (v := visitor_init []); try exact E.
      - intros n v v1 s. apply flash_leaf.
      - intros id v s HR. exact HR.
      - intros id v s. apply flash_block.
      - intros u v s HR. exact HR.
      - intros tmp hdr v v1 s HR E1. cbn in E1. injection E1 as <-. exact HR.
      - intros _. repeat split; auto. intros id a Hg. discriminate Hg. }
    rewrite fold_snoc in HR. cbn [app] in HR. apply (HR Hn).
  Qed.
End Flash.

(** ** C08: attributes *)
Section Attrs.
  Context {K : Type} {NK : Num K} {X : Type} (H : hooks K X).

  Definition agree (d : dict attr) (m : amap) : Prop := forall k, d_get k d = m k.
  Definition agree_snap (d : dict (dict attr)) (m : str -> option amap) : Prop :=
    forall id, match d_get id d, m id with
               | Some d, Some f => agree d f
               | None, None => True
               | _, _ => False
               end.
  Definition Rattrs (v : visitor K X) (m : attrs_spec) : Prop :=
    let s := v_state v in
    agree (s_ap_attrs s) (as_ap m) /\ agree (s_file_attrs s) (as_file m) /\
    agree (s_obj_attrs s) (as_obj m) /\ agree_snap (s_per_ap_attrs s) (as_snap m).

  Lemma agree_set d m k a : agree d m -> agree (d_set k a d) (upd k (Some a) m).
  Proof. intros Hd i. rewrite d_get_set. unfold upd. destruct (str_eqb i k); [reflexivity|apply Hd]. Qed.
  Lemma agree_del d m k : agree d m -> agree (d_del k d) (upd k None m).
  Proof. intros Hd i. rewrite d_get_del. unfold upd. destruct (str_eqb i k); [reflexivity|apply Hd]. Qed.
  Lemma agree_snap_set d m k a f : agree a f -> agree_snap d m -> agree_snap (d_set k a d) (upd k (Some f) m).
  Proof.
    intros Ha Hd i. rewrite d_get_set. unfold upd. destruct (str_eqb i k); [exact Ha|apply Hd].
  Qed.

  Lemma attrs_leaf n v v' m : is_leaf n -> Rattrs v m ->
    visit_leaf H n v = Done v' \/ visit_leaf H n v = Stop v' -> Rattrs v' (attrs_step m n).
  Proof.
    intros Hl HR E. apply leaf_state_spec in E.
    unfold Rattrs in *. revert HR E. generalize (v_state v) (v_state v'). clear v v'. intros s s' HR E.
    destruct HR as (Ha & Hf & Ho & Hs).
    leaf_cases n s s' E; cbn; auto using agree_set, agree_del, agree_snap_set.
    repeat split; auto.
  Qed.

  Lemma attrs_file b ns v v' m : Rattrs v m -> on_file H b ns v = Ok v' ->
    Rattrs v' (fold_left attrs_step (executed_file b ns) m).
  Proof.
    apply (sim_file H Rattrs attrs_step).
    - apply attrs_leaf.
    - intros id w s HR. exact HR.
    - intros id w s (Ha & Hf & Ho & Hs). split; [exact Ha|]. split; [exact Hf|]. split; [exact Ho|].
      apply agree_snap_set; assumption.
    - intros u w s HR. unfold sr_enter. destruct (hk_sr_open H u _ _). exact HR.
    - intros tmp hdr w w' s HR E. unfold sr_leave in E. apply lift_done in E as (Hs & _).
      unfold Rattrs. rewrite Hs. exact HR.
  Qed.

  (** The snapshot of a D-code is the aperture dictionary at its last definition. *)
  Lemma snap_frame (l : list (node K)) id : forall m,
    (forall n d, In n l -> defines n = Some (id, d) -> False) ->
    as_snap (fold_left attrs_step l m) id = as_snap m id.
  Proof.
    induction l as [|n r IH]; intros m Hn; cbn [fold_left]; [reflexivity|].
    rewrite IH; [|intros n' d I; apply Hn; right; exact I].
    assert (Hh := fun d => Hn n d (or_introl eq_refl)).
    destruct n; try reflexivity; cbn [attrs_step as_snap defines] in *.
    - unfold upd. destruct (str_eqb id id0) eqn:Ei; [|reflexivity].
      apply str_eqb_eq in Ei; subst. exfalso; eapply Hh; reflexivity.
    - unfold upd. destruct (str_eqb id (ad_id a)) eqn:Ei; [|reflexivity].
      apply str_eqb_eq in Ei; subst. exfalso; eapply Hh; reflexivity.
    - destruct name; reflexivity.
  Qed.
  Lemma snap_last (l1 l2 : list (node K)) n id d m :
    defines n = Some (id, d) ->
    (forall n d, In n l2 -> defines n = Some (id, d) -> False) ->
    as_snap (fold_left attrs_step (l1 ++ n :: l2) m) id = Some (as_ap (fold_left attrs_step l1 m)).
  Proof.
    intros Hd Hn. rewrite fold_left_app. cbn [fold_left]. rewrite snap_frame by exact Hn.
    destruct n; cbn [defines] in Hd; try discriminate; injection Hd as <- <-; cbn [attrs_step as_snap];
      unfold upd; rewrite str_eqb_refl; reflexivity.
  Qed.
End Attrs.

(** ** C09: program stop *)
Section ProgramStop.
  Context {K : Type} {NK : Num K} {X : Type} (H : hooks K X).

  Lemma stop_true pre (n : node K) post v : n = NM00 \/ n = NM02 ->
    on_file H true (pre ++ n :: post) v = on_file H true pre v.
  Proof.
    intros Hn. revert v; induction pre as [|m r IH]; intros v; cbn [app on_file].
    - destruct Hn as [-> | ->]; reflexivity.
    - destruct (visit H m v); auto.
  Qed.
  Lemma stop_false pre (n : node K) post v : n = NM00 \/ n = NM02 ->
    on_file H false (pre ++ n :: post) v = on_file H false (pre ++ post) v.
  Proof.
    intros Hn. revert v; induction pre as [|m r IH]; intros v; cbn [app on_file].
    - destruct Hn as [-> | ->]; reflexivity.
    - destruct (visit H m v); auto.
  Qed.
End ProgramStop.

(** ** C10: next free aperture code *)
Section NextCode.
  Context {K : Type} {NK : Num K} {X : Type} (H : hooks K X).

  Definition Rdefs (v : visitor K X) (before : list (node K)) : Prop :=
    forall id, In id (d_keys (s_apertures (v_state v)) ++ d_keys (s_blocks (v_state v))) <->
      exists n d, In n before /\ defines n = Some (id, d).

  Lemma defs_leaf n v v' before : is_leaf n -> Rdefs v before ->
    visit_leaf H n v = Done v' \/ visit_leaf H n v = Stop v' -> Rdefs v' (before ++ [n]).
  Proof.
    intros Hl HR E id. pose proof (frame_leaf H n v v' E) as (Haps & Hbl & _).
    assert (Hsplit : (exists m d, In m (before ++ [n]) /\ defines m = Some (id, d)) <->
      (exists m d, In m before /\ defines m = Some (id, d)) \/ (exists d, defines n = Some (id, d))).
    { split.
      - intros (m & d & I & Hd). apply in_app_or in I as [I|[<-|[]]]; eauto.
      - intros [(m & d & I & Hd)|(d & Hd)]; [exists m, d|exists n, d]; split; auto; apply in_or_app; cbn; auto. }
    rewrite Hsplit, <- (HR id), Hbl. rewrite !in_app_iff.
    destruct n; try (rewrite Haps; split; [tauto|intros [?|[d0 Hd0]]; [assumption|discriminate]]).
    - contradiction.
    - rewrite Haps, d_keys_set. cbn [defines]. split.
      + intros [[->|?]|?]; eauto.
      + intros [?|[d0 Hd0]]; [tauto|]. injection Hd0 as -> _. auto.
  Qed.

  Lemma defs_file b ns x v' : on_file H b ns (visitor_init x) = Ok v' -> Rdefs v' (executed_file b ns).
  Proof.
    intros E.
    assert (HR : Rdefs v' (fold_left (fun a n => a ++ [n]) (executed_file b ns) [])).
    { apply (sim_file H Rdefs (fun a n => a ++ [n])) with (v := visitor_init x); try exact E.
      - intros n v v1 s. apply defs_leaf.
      - intros id v s HR. exact HR.
      - intros id v s HR i. unfold ab_leave, register_block, set_store.
        cbn [with_ext with_state v_state s_apertures s_blocks]. rewrite in_app_iff, d_keys_set. specialize (HR i).
        rewrite in_app_iff in HR. split.
        + intros Hi. assert (Hc : (exists n d, In n s /\ defines n = Some (i, d)) \/ i = id) by tauto.
          destruct Hc as [(n & d & I & Hd)| ->].
          * exists n, d. split; [apply in_or_app; auto|exact Hd].
          * exists (NAB id []), (DefAB id). split; [apply in_or_app; cbn; auto|reflexivity].
        + intros (n & d & I & Hd). apply in_app_or in I as [I|[<-|[]]].
          * assert (Hc := proj2 HR (ex_intro _ n (ex_intro _ d (conj I Hd)))). tauto.
          * injection Hd as -> _. tauto.
      - intros u v s HR. unfold sr_enter. destruct (hk_sr_open H u _ _). exact HR.
      - intros tmp hdr v v1 s HR E1. unfold sr_leave in E1. apply lift_done in E1 as (Hs & _).
        unfold Rdefs. rewrite Hs. exact HR.
      - intros id. cbn. split; [tauto|intros (n & d & [] & _)]. }
    rewrite fold_snoc in HR. exact HR.
  Qed.

  Lemma dcode_number id m : dcode id m -> ap_number id = Ok m.
  Proof.
    intros (ds & -> & Hne & Hv). apply spec_value_model in Hv as [Hd <-].
    unfold ap_number. cbn [lstrip]. change (Ascii.eqb "D" "D") with true. cbv iota.
    destruct ds as [|c t]; [congruence|].
    assert (Hc : lstrip "D"%char (c :: t) = c :: t).
    { cbn [lstrip]. destruct (Ascii.eqb c "D") eqn:E; [|reflexivity].
      apply Ascii.eqb_eq in E; subst c.
      specialize (Hd "D"%char (or_introl eq_refl)). discriminate Hd. }
    rewrite Hc. apply all_digits_forallb in Hd. rewrite Hd. reflexivity.
  Qed.

  Lemma ap_numbers_ok ids : (forall id, In id ids -> exists m, dcode id m) ->
    exists ns, ap_numbers ids = Ok ns /\ (forall id m, In id ids -> dcode id m -> In m ns) /\
      (ids <> [] -> ns <> []).
  Proof.
    induction ids as [|i r IH]; intros Hall; cbn [ap_numbers].
    - exists []. repeat split; auto.
    - destruct IH as (ns & E & Hin & _); [intros id I; apply Hall; right; exact I|].
      destruct (Hall i (or_introl eq_refl)) as [m Hm]. rewrite (dcode_number i m Hm), E.
      exists (m :: ns). split; [reflexivity|]. split; [|discriminate].
      intros id m' [<-|I] Hd.
      + left. apply dcode_number in Hd. apply dcode_number in Hm. congruence.
      + right. eapply Hin; eauto.
  Qed.

  Lemma fold_max l : forall a, (a <= fold_left Z.max l a)%Z /\ (forall m, In m l -> (m <= fold_left Z.max l a)%Z).
  Proof.
    induction l as [|x r IH]; intros a; cbn [fold_left].
    - split; [lia|intros m []].
    - destruct (IH (Z.max a x)) as [H1 H2]. split; [lia|]. intros m [<-|I]; [lia|auto].
  Qed.

  Lemma next_code_file b ns x v' : on_file H b ns (visitor_init x) = Ok v' ->
    (forall n id d, In n (executed_file b ns) -> defines n = Some (id, d) -> exists m, dcode id m) ->
    (exists n id d, In n (executed_file b ns) /\ defines n = Some (id, d)) ->
    exists c, next_free_code (v_state v') = Ok c /\
      forall n id d m, In n (executed_file b ns) -> defines n = Some (id, d) -> dcode id m -> (m < c)%Z.
  Proof.
    intros E Hwf (n0 & id0 & d0 & I0 & Hd0). apply defs_file in E.
    unfold next_free_code.
    destruct (ap_numbers_ok (d_keys (s_apertures (v_state v')) ++ d_keys (s_blocks (v_state v'))))
      as (l & El & Hin & Hne).
    { intros id Hi. apply E in Hi as (n & d & I & Hd). eapply Hwf; eauto. }
    rewrite El. cbn [bind].
    assert (Hk := proj2 (E id0) (ex_intro _ n0 (ex_intro _ d0 (conj I0 Hd0)))).
    destruct l as [|a r].
    { exfalso. apply Hne; [|reflexivity]. intros Hnil. rewrite Hnil in Hk. destruct Hk. }
    eexists. split; [reflexivity|]. intros n id d m I Hd Hm.
    assert (Hi := proj2 (E id) (ex_intro _ n (ex_intro _ d (conj I Hd)))).
    specialize (Hin id m Hi Hm). destruct (fold_max r a) as [H1 H2].
    destruct Hin as [->|Hin]; [lia|]. specialize (H2 m Hin). lia.
  Qed.
End NextCode.

(** Lemmas for C56 and C64. *)
From Coq Require Import Reals Lra Permutation.
From Verif Require Import Base Num NumReal GeoSpec GeoProofs Dict CoordModel CoordSpec Ast StateModel StateSpec StateProofs GeomModel CompilerModel LayerSpec LayerProofs LayerInv LayerOut
  BoxModel ArcModel VmModel BoxSpec BoxProofs VmSpec VmProofs VmInv VmSim VmAccept DrawSpec DrawProofs FlashSpec FlashProofs PaintModel PaintSpec PaintProofs VmProps PaintProps RenderSpec.

(** ** Programs made of layers *)
Section Programs.
  Context {K : Type} {NK : Num K}.
  Notation blocks := (flat_map (block_of (K := K))).

  Lemma block_step (b : buffer K) open closed :
    fold_left bracket_step (block_of b) (Some (open, closed)) = Some (open, bf_id b :: closed).
  Proof.
    unfold block_of. cbn [fold_left bracket_step].
    assert (E : forall ds t, fold_left (bracket_step (K := K)) (map KDraw ds) (Some (MkOpen (bf_id b) false t :: open, closed)) =
      Some (MkOpen (bf_id b) false (t || negb (match ds with [] => true | _ => false end)) :: open, closed)).
    { induction ds as [|d ds IH]; intros t; cbn [map fold_left bracket_step o_id o_declared]; [rewrite orb_false_r; reflexivity|].
      rewrite IH. destruct t, ds; reflexivity. }
    rewrite fold_left_app, E. reflexivity.
  Qed.
  Lemma blocks_brackets (l : list (buffer K)) : forall open closed,
    fold_left bracket_step (blocks l) (Some (open, closed)) = Some (open, rev (map bf_id l) ++ closed).
  Proof.
    induction l as [|b l IH]; intros open closed; [reflexivity|]. cbn [flat_map map rev].
    rewrite fold_left_app, block_step, IH, <- app_assoc. reflexivity.
  Qed.
  Lemma blocks_closed (l : list (buffer K)) : brackets (blocks l) = Some ([], rev (map bf_id l)).
  Proof. unfold brackets. rewrite blocks_brackets, app_nil_r. reflexivity. Qed.
  Lemma blocks_started (l : list (buffer K)) : started (blocks l) = map bf_id l.
  Proof.
    induction l as [|b l IH]; [reflexivity|]. cbn [flat_map map]. unfold started in *. rewrite flat_map_app, IH.
    unfold block_of. cbn [flat_map]. rewrite flat_map_app. cbn [flat_map app].
    assert (E : flat_map (fun c : cmd K => match c with KStart id _ _ => [id] | _ => [] end) (map KDraw (bf_cmds b)) = []).
    { induction (bf_cmds b) as [|d ds IHd]; [reflexivity|exact IHd]. }
    rewrite E. reflexivity.
  Qed.
  Lemma inside_brackets (l : list (buffer K)) id o (ds : list (draw K)) :
    brackets (blocks l ++ KStart id None o :: map KDraw ds) =
      Some ([MkOpen id false (negb (match ds with [] => true | _ => false end))], rev (map bf_id l)).
  Proof.
    unfold brackets. rewrite fold_left_app, blocks_brackets, app_nil_r. cbn [fold_left bracket_step].
    assert (E : forall ds t cl, fold_left (bracket_step (K := K)) (map KDraw ds) (Some ([MkOpen id false t], cl)) =
      Some ([MkOpen id false (t || negb (match ds with [] => true | _ => false end))], cl)).
    { clear. induction ds as [|d ds IH]; intros t cl; cbn [map fold_left bracket_step o_id o_declared]; [rewrite orb_false_r; reflexivity|].
      rewrite IH. destruct t, ds; reflexivity. }
    apply E.
  Qed.

  (** Where a command stands. *)
  Lemma in_block (b : buffer K) pre c post : block_of b = pre ++ c :: post ->
    (pre = [] /\ c = KStart (bf_id b) None (MkVec n0 n0)) \/
    (exists d1 d d2, bf_cmds b = d1 ++ d :: d2 /\ pre = KStart (bf_id b) None (MkVec n0 n0) :: map KDraw d1 /\ c = KDraw d) \/
    (pre = KStart (bf_id b) None (MkVec n0 n0) :: map KDraw (bf_cmds b) /\ c = KEnd).
  Proof.
    unfold block_of. destruct pre as [|x pre]; cbn [app]; intros E; injection E as -> E; [left; auto|]. right.
    destruct (exists_last (l := c :: post)) as (q & y & Eq); [discriminate|]. rewrite Eq, app_assoc in E. apply app_inj_tail in E as [E <-].
    destruct q as [|z q]; cbn [app] in Eq.
    - rewrite app_nil_r in E. injection Eq as -> _. right. subst pre. auto.
    - injection Eq as -> _. left. apply map_eq_app in E as (d1 & r & E1 & <- & E2). apply map_eq_cons in E2 as (d & d2 & -> & <- & _).
      exists d1, d, d2. auto.
  Qed.
  Lemma in_blocks (l : list (buffer K)) : forall pre c post, blocks l = pre ++ c :: post ->
    exists l1 b l2 p, l = l1 ++ b :: l2 /\ pre = blocks l1 ++ p /\
      ((p = [] /\ c = KStart (bf_id b) None (MkVec n0 n0)) \/
       (exists d1 d d2, bf_cmds b = d1 ++ d :: d2 /\ p = KStart (bf_id b) None (MkVec n0 n0) :: map KDraw d1 /\ c = KDraw d) \/
       (p = KStart (bf_id b) None (MkVec n0 n0) :: map KDraw (bf_cmds b) /\ c = KEnd)).
  Proof.
    induction l as [|b l IH]; intros pre c post E; [destruct pre; discriminate E|]. cbn [flat_map] in E.
    apply app_eq_app in E as (t & [[E1 E2]|[E1 E2]]).
    - destruct t as [|y t].
      + rewrite app_nil_r in E1. cbn [app] in E2. destruct (IH [] c post) as (l1 & b1 & l2 & p & -> & Ep & H); [symmetry; exact E2|].
        exists (b :: l1), b1, l2, p. split; [reflexivity|]. split; [cbn [flat_map]; rewrite <- app_assoc, <- Ep, app_nil_r; congruence|exact H].
      + cbn [app] in E2. injection E2 as <- E2. exists [], b, l, pre. split; [reflexivity|]. split; [reflexivity|].
        eapply in_block. exact E1.
    - destruct (IH t c post) as (l1 & b1 & l2 & p & -> & Ep & H); [exact E2|].
      exists (b :: l1), b1, l2, p. split; [reflexivity|]. split; [cbn [flat_map]; rewrite E1, Ep, app_assoc; reflexivity|exact H].
  Qed.

  (** Ordered layers are pasted when they are closed, and keep the rules of the machine. *)
  Definition ordered (l : list (buffer K)) : Prop :=
    forall l1 b l2 src, l = l1 ++ b :: l2 -> pastes (bf_cmds b) src -> In src (map bf_id l1).
  Lemma ordered_pastes l : ordered l -> pastes_closed (blocks l).
  Proof.
    intros Ho pre p post E. destruct (in_blocks _ _ _ _ E) as (l1 & b & l2 & x & El & -> & [[_ C]|[(d1 & d & d2 & Eb & -> & C)|[_ C]]]); try discriminate C.
    injection C as <-. eexists _, _. split; [apply inside_brackets|]. apply -> in_rev.
    apply (Ho l1 b l2 _ El). exists p. split; [rewrite Eb; apply in_or_app; right; left; reflexivity|reflexivity].
  Qed.
  Lemma ordered_proper size sbox bad l : ordered l -> NoDup (map bf_id l) ->
    (forall b, In b l -> bf_cmds b <> [] /\ forall s, In (DShape s) (bf_cmds b) -> bad s = None /\ size (sbox s)) ->
    all_proper size sbox bad (blocks l).
  Proof.
    intros Ho Hd Hb pre c post E. destruct (in_blocks _ _ _ _ E) as (l1 & b & l2 & x & El & -> & H).
    assert (Hin : In b l) by (rewrite El; apply in_or_app; right; left; reflexivity). destruct (Hb b Hin) as [Hne Hsh].
    destruct H as [[-> ->]|[(d1 & d & d2 & Eb & -> & ->)|[-> ->]]].
    - eexists _, _. split; [rewrite app_nil_r; apply blocks_closed|]. split; [|exact I]. rewrite app_nil_r, blocks_started.
      rewrite El, map_app in Hd. cbn [map] in Hd. apply NoDup_remove_2 in Hd. intros Hi. apply Hd, in_or_app. left; exact Hi.
    - eexists _, _. split; [apply inside_brackets|]. assert (Hd0 : In d (bf_cmds b)) by (rewrite Eb; apply in_or_app; right; left; reflexivity).
      destruct d as [s|p].
      + split; [discriminate|]. apply Hsh. exact Hd0.
      + split; [discriminate|]. apply -> in_rev. apply (Ho l1 b l2 _ El). exists p. auto.
    - eexists _, _. split; [apply inside_brackets|]. right. cbn [o_touched]. destruct (bf_cmds b); [contradiction|reflexivity].
  Qed.
  Lemma blocks_given (l : list (buffer K)) : forall id, given [] id (blocks l) = flat_map (fun b => if str_eqb (bf_id b) id then bf_cmds b else []) l.
  Proof.
    intros id. induction l as [|b l IH]; [reflexivity|]. cbn [flat_map]. rewrite <- IH. unfold block_of. cbn [app given].
    assert (E : forall ds r, given [bf_id b] id (map (KDraw (K := K)) ds ++ r) = (if str_eqb (bf_id b) id then ds else []) ++ given [bf_id b] id r).
    { induction ds as [|d ds IHd]; intros r; cbn [map app given]; [destruct (str_eqb (bf_id b) id); reflexivity|].
      rewrite IHd. destruct (str_eqb (bf_id b) id); reflexivity. }
    rewrite <- app_assoc, E. reflexivity.
  Qed.
  Lemma given_layer (l : list (buffer K)) b : NoDup (map bf_id l) -> In b l -> given [] (bf_id b) (blocks l) = bf_cmds b.
  Proof.
    intros Hd Hb. rewrite blocks_given. induction l as [|a l IH]; [destruct Hb|]. cbn [map] in Hd. inversion Hd as [|? ? Hn Hd']; subst.
    assert (E0 : forall l id, ~ In id (map bf_id l) -> flat_map (fun b => if str_eqb (bf_id b) id then bf_cmds b else []) l = @nil (draw K)).
    { clear. induction l as [|c l IH]; intros id Hn; [reflexivity|]. cbn [flat_map map In] in *.
      destruct (str_eqb (bf_id c) id) eqn:E; [apply str_eqb_eq in E; exfalso; auto|apply IH; auto]. }
    cbn [flat_map]. destruct Hb as [->|Hb].
    - rewrite str_eqb_refl, E0 by exact Hn. apply app_nil_r.
    - destruct (str_eqb (bf_id a) (bf_id b)) eqn:E; [|apply IH; assumption].
      apply str_eqb_eq in E. exfalso. apply Hn. rewrite E. apply in_map. exact Hb.
  Qed.
  Lemma blocks_origin z (l : list (buffer K)) id : z = MkVec n0 n0 -> origin_of z (blocks l) id = z.
  Proof.
    intros Ez. unfold origin_of. induction l as [|b l IH]; [reflexivity|]. cbn [flat_map]. rewrite fold_right_app, IH. unfold block_of. cbn [fold_right].
    assert (E : forall ds, fold_right (fun (c : cmd K) r => match c with KStart j _ o => if str_eqb j id then o else r | _ => r end) z (map KDraw ds ++ [KEnd]) = z).
    { induction ds as [|d ds IHd]; [reflexivity|exact IHd]. }
    rewrite E. rewrite Ez. destruct (str_eqb _ _); reflexivity.
  Qed.
End Programs.

(** What the compiler emits. *)
Section Emitted.
  Context {K : Type} {NK : Num K} (iter : str -> list str -> list str).
  Hypothesis iter_perm : forall id l, Permutation (iter id l) l.
  Lemma convert_blocks (bs : dict (buffer K)) cmds : LayerOut.sound bs -> convert iter bs = Ok cmds ->
    exists l, cmds = flat_map block_of l /\ layers cmds = Some (map layer_of l) /\ ordered l /\
      (forall b, In b l -> d_get (bf_id b) bs = Some b) /\ In main_id (map bf_id l).
  Proof.
    intros Hs E. pose proof (sound_keyed bs Hs) as Hk. pose proof E as E0.
    unfold convert, submit_order in E. destruct (get_buffer main_id bs) as [main|] eqn:Em; [|discriminate].
    cbn [bind] in E. destruct (resolve iter _ bs main []) as [ids|] eqn:Er; [|discriminate].
    cbn [bind] in E. destruct (get_buffers bs ids) as [l|] eqn:El; [|discriminate]. cbn [bind] in E. injection E as <-.
    exists l. pose proof (layers_convert l) as Hl.
    destruct (convert_ordered iter iter_perm bs _ Hs E0) as (ls & L1 & L2 & pre & ds & L3).
    change (layers (flat_map block_of l) = Some (map layer_of l)) in Hl. rewrite Hl in L1. injection L1 as <-.
    split; [reflexivity|]. split; [exact Hl|]. split; [|split].
    - intros l1 b l2 src -> Hp. specialize (L2 (map layer_of l1) (bf_id b) (bf_cmds b) (map layer_of l2) src).
      rewrite map_map in L2. apply L2; [|exact Hp]. rewrite map_app. reflexivity.
    - intros b Hb. apply get_buffers_spec in El. clear - El Hb Hk. induction El as [|i a ids l Hi _ IH]; [destruct Hb|].
      destruct Hb as [->|Hb]; [|auto]. rewrite (Hk _ _ Hi). exact Hi.
    - assert (Hin : In (main_id, ds) (map layer_of l)) by (rewrite L3; apply in_or_app; right; left; reflexivity).
      apply in_map_iff in Hin as (b & Eb & Hb). injection Eb as <- _. apply in_map. exact Hb.
  Qed.
End Emitted.

(** ** Walks of files without blocks *)
Section Walk.
  Context {K : Type} {NK : Num K} (md : bool) (clock : nat -> Z).
  Notation H := (compiler_hooks md clock).

  Lemma keyed_leaf n (v v' : visitor K (cstate K)) : is_leaf n -> visit_leaf H n v = Done v' \/ visit_leaf H n v = Stop v' ->
    keyed (c_buffers (v_ext v)) -> keyed (c_buffers (v_ext v')).
  Proof.
    intros Hl E Hk. eapply (keyed_file md clock false [n]); [exact Hk|]. cbn [on_file]. rewrite (visit_is_leaf H n v Hl).
    destruct E as [-> | ->]; reflexivity.
  Qed.

  (** The aperture table holds the latest definitions. *)
  Lemma apertures_point pre v : at_point H compiler_init pre v -> forall id, d_get id (s_apertures (v_state v)) =
    fold_left (fun o n => match n with NAD a => if str_eqb id (ad_id a) then Some a else o | _ => o end) pre None.
  Proof.
    intros Hp id.
    refine (point_inv H compiler_init (fun v o => d_get id (s_apertures (v_state v)) = o)
      (fun o n => match n with NAD a => if str_eqb id (ad_id a) then Some a else o | _ => o end) None _ _ _ _ _ _ pre v Hp).
    - reflexivity.
    - intros n v1 v2 o Hl IH E. destruct (frame_leaf H n v1 v2 E) as (F & _). rewrite <- IH. destruct n; rewrite F; try reflexivity.
      apply d_get_set.
    - auto.
    - auto.
    - intros u v1 o IH. unfold sr_enter. destruct (hk_sr_open H u _ _). exact IH.
    - intros tmp hdr v1 v2 o IH E. unfold sr_leave in E. apply lift_done in E as (-> & _). exact IH.
  Qed.
  Lemma latest_fold id (pre : list (node K)) : forall o a,
    fold_left (fun o n => match n with NAD a => if str_eqb id (ad_id a) then Some a else o | _ => o end) pre o = Some a ->
    (o = Some a /\ ~ In id (ad_codes pre)) \/ (ad_id a = id /\ exists p q, pre = p ++ NAD a :: q /\ ~ In id (ad_codes q)).
  Proof.
    induction pre as [|n pre IH]; intros o a; cbn [fold_left]; [intros ->; left; split; [reflexivity|intros []]|].
    intros E. apply IH in E as [[E Hn]|(Hi & p & q & -> & Hn)].
    - destruct n; try (left; split; [exact E|exact Hn]). destruct (str_eqb id (ad_id a0)) eqn:Ei.
      + apply str_eqb_eq in Ei. injection E as ->. right. split; [auto|]. exists [], pre. auto.
      + left. split; [exact E|]. cbn [ad_codes flat_map ad_code app In]. intros [E0|E0]; [|exact (Hn E0)].
        apply str_eqb_neq in Ei. apply Ei. auto.
    - right. split; [exact Hi|]. exists (n :: p), q. auto.
  Qed.
  Lemma selected_ad pre v d s x y i j : at_point H compiler_init pre v ->
    read_coords x y i j (v_state v) = Ok s -> current_aperture s = Ok (ApAD d) -> selected_as pre d.
  Proof.
    intros Hp Hr. apply read_coords_inv in Hr as (x2 & y2 & i2 & j2 & _ & _ & _ & _ & ->). unfold current_aperture.
    cbn [set_xyij s_apid s_apertures s_blocks]. rewrite (pl_apid md clock _ _ Hp).
    destruct (latest_selection pre) as [id|] eqn:Es; [|discriminate]. rewrite (apertures_point _ _ Hp).
    destruct (fold_left _ pre None) as [d'|] eqn:E; [|destruct (d_get id (s_blocks (v_state v))); discriminate].
    intros Ea. assert (d' = d) by congruence. subst d'.
    apply latest_fold in E as [[E _]|(Hi & p & q & -> & Hn)]; [discriminate|]. split; [congruence|]. exists p, q. rewrite Hi. auto.
  Qed.
  Lemma selected_point pre v a s x y i j : at_point H compiler_init pre v -> s_blocks (v_state v) = [] ->
    read_coords x y i j (v_state v) = Ok s -> current_aperture s = Ok a -> exists d, a = ApAD d /\ selected_as pre d.
  Proof.
    intros Hp Hb Hr Ea. assert (Hd : exists d, a = ApAD d).
    { apply read_coords_inv in Hr as (x2 & y2 & i2 & j2 & _ & _ & _ & _ & ->). unfold current_aperture in Ea.
      cbn [set_xyij s_apid s_apertures s_blocks] in Ea. rewrite Hb in Ea. destruct (s_apid (v_state v)) as [id|]; [|discriminate].
      destruct (d_get id (s_apertures (v_state v))) as [d|]; [|discriminate]. injection Ea as <-. eauto. }
    destruct Hd as (d & ->). exists d. split; [reflexivity|]. eapply selected_ad; eauto.
  Qed.
  (** [th] is the thickness computed for the aperture [d] and the direction [e]. *)
  Definition thick (e : vec K) (d : ad K) (th : K) : Prop :=
    exists s, line_thickness e s = Ok th /\ current_aperture s = Ok (ApAD d).
  Lemma thickness_ap dir (s : state K) th : line_thickness dir s = Ok th -> exists d, current_aperture s = Ok (ApAD d).
  Proof. unfold line_thickness. destruct (current_aperture s) as [[d|id]|]; [eauto|discriminate|discriminate]. Qed.

  (** D01 outside of regions. *)
  Lemma d01_exact pre v x y i j v' : at_point H compiler_init pre v -> drawn v <> None ->
    in_region pre = false -> plot_of pre = PmLinear \/ arc_mode pre = MultiQuadrant ->
    visit_leaf H (ND01 x y i j) v = Done v' ->
    exists a th m, selected_as pre a /\ thick (pen_vec (pre ++ [ND01 x y i j])) a th /\ adds v v' (stroked pre (ND01 x y i j) th m).
  Proof.
    intros Hp Hdr Hreg Hmode E. destruct (leaf_d01 H _ _ _ _ _ _ E) as (s & Hr & Hd & _).
    destruct (coherent_point H _ _ _ Hp) as [Hh _]. rewrite Hh in Hd. clear Hh.
    rewrite (pl_region H _ _ _ Hp), (pl_plot H _ _ _ Hp), (pl_arc H _ _ _ Hp) in Hd.
    fold (in_region pre) (plot_of pre) (arc_mode pre) in Hd. rewrite Hreg in Hd.
    destruct (read_neg _ _ _ _ _ _ Hr) as (Hn & _). rewrite (negative_point H _ _ _ Hp) in Hn.
    pose proof (settled_point H _ _ _ Hp) as Hst.
    destruct (settled_read _ _ _ _ _ _ _ Hst Hr) as (_ & Hs1 & Hs2 & _). pose proof (end_vec _ _ _ _ _ _ _ Hst Hr) as He.
    rewrite Hs2 in Hs1. change (pen_at (pen_step (pen_of pre) (ND02 x y))) with (pen_at (pen_step (pen_of pre) (ND01 x y i j))) in He.
    rewrite <- pen_of_snoc, <- pen_vec_of in He. rewrite <- pen_vec_of in Hs1.
    pose proof (center_point md clock pre v x y i j s Hp Hr) as Hc.
    assert (Ho : MkVec (coordinate_i s) (coordinate_j s) = last_offset (pre ++ [ND01 x y i j])).
    { pose proof (offset_read _ _ _ _ _ _ _ (offset_point H _ _ _ Hp) Hr) as (_ & Ei & Ej).
      unfold last_offset. rewrite fold_left_app. cbn [fold_left]. rewrite Ei, Ej.
      match goal with |- _ = snd ?w => destruct (snd w) end. reflexivity. }
    assert (Harc : forall cw, draw_arc md cw s (v_ext v) = Ok (v_ext v') -> exists a th m, selected_as pre a /\ thick (pen_vec (pre ++ [ND01 x y i j])) a th /\
      adds v v' (let a := pen_vec pre in let b := pen_vec (pre ++ [ND01 x y i j]) in
        let o := last_offset (pre ++ [ND01 x y i j]) in let c := plus a o in let neg := clear_at pre in
        let disc p := DShape (new_circle p th neg m) in
        if v_eqb a b
        then let l := MkVec (n_sub (vx c) (v_len o)) (vy c) in let r := MkVec (n_add (vx c) (v_len o)) (vy c) in
             [disc a; arc_of cw l r c th neg m; arc_of cw r l c th neg m; disc r]
        else [disc a; arc_of cw a b c th neg m; disc b])).
    { intros cw Ha. unfold draw_arc in Ha. destruct (line_thickness _ s) as [th|] eqn:Eth; [|discriminate Ha].
      destruct (thickness_ap _ _ _ Eth) as (d & Eap). pose proof (selected_ad pre v d s x y i j Hp Hr Eap) as Hsel.
      exists d, th, (meta_of md (s_obj_attrs s)). split; [exact Hsel|]. split; [exists s; rewrite <- He; auto|].
      cbn [bind] in Ha. cbv zeta in Ha. rewrite Hn, Hs1, He, Hc, Ho in Ha. cbv zeta. unfold arc_of, arc_factory in *.
      destruct (v_eqb _ _); apply append_all_grows in Ha; apply grows_adds; try exact Hdr; destruct cw; exact Ha. }
    destruct (plot_of pre) eqn:Epl; [| |].
    - cbn [callback_for compiler_hooks hk_draw on_draw] in Hd. unfold draw_line in Hd.
      destruct (line_thickness _ s) as [th|] eqn:Eth; [|discriminate Hd].
      destruct (thickness_ap _ _ _ Eth) as (d & Eap). pose proof (selected_ad pre v d s x y i j Hp Hr Eap) as Hsel.
      exists d, th, (meta_of md (s_obj_attrs s)). split; [exact Hsel|]. split; [exists s; rewrite <- He; auto|].
      cbn [bind] in Hd. cbv zeta in Hd. rewrite Hn, Hs1, He in Hd. unfold stroked. rewrite Epl. cbv zeta.
      apply append_all_grows in Hd. apply grows_adds; [exact Hd|exact Hdr].
    - destruct Hmode as [Hm|Hm]; [discriminate Hm|]. rewrite Hm in Hd. cbn [callback_for compiler_hooks hk_draw on_draw] in Hd.
      destruct (Harc true Hd) as (a & th & m & A & B & C). exists a, th, m. unfold stroked. rewrite Epl, Hm. auto.
    - destruct Hmode as [Hm|Hm]; [discriminate Hm|]. rewrite Hm in Hd. cbn [callback_for compiler_hooks hk_draw on_draw] in Hd.
      destruct (Harc false Hd) as (a & th & m & A & B & C). exists a, th, m. unfold stroked. rewrite Epl, Hm. auto.
  Qed.

  (** D03. *)
  Lemma flash_key pre v x y v' : at_point H compiler_init pre v -> s_blocks (v_state v) = [] -> drawn v <> None ->
    keyed (c_buffers (v_ext v)) -> visit_leaf H (ND03 x y) v = Done v' ->
    exists a m, selected_as pre a /\
      adds v v' [DPaste (MkPaste (layer_key (ad_id a) (matrix_at pre)) (pen_vec (pre ++ [ND03 x y])) (clear_at pre) m)].
  Proof.
    intros Hp Hb Hdr Hk E. destruct (leaf_d03 H _ _ _ _ E) as (s & ap & h & Hr & Hap & _ & Hf & Hst).
    destruct (read_neg _ _ _ _ _ _ Hr) as (Hn & _). rewrite (negative_point H _ _ _ Hp) in Hn.
    pose proof (end_vec _ _ _ _ _ _ _ (settled_point H _ _ _ Hp) Hr) as He.
    change (pen_at (pen_step (pen_of pre) (ND02 x y))) with (pen_at (pen_step (pen_of pre) (ND03 x y))) in He. rewrite <- pen_of_snoc, <- pen_vec_of in He.
    destruct (selected_point pre v ap s x y None None Hp Hb Hr Hap) as (d & -> & Hsel).
    cbn [compiler_hooks hk_flash] in Hf. apply on_flash_cases in Hf as [(ad & Ead & Hf)|(id & Hx & _)]; [|discriminate]. injection Ead as <-.
    apply flash_aperture_inv in Hf as (b & x1 & Eb & Ea2). pose proof Eb as Eb0. apply aperture_buffer_inv in Eb0 as (bs' & Et & _).
    destruct (transformed_key_stored _ _ _ _ _ _ Hk Et) as [_ S2].
    assert (Em : state_matrix s = matrix_at pre).
    { rewrite <- (matrix_point md clock _ _ Hp). apply read_coords_inv in Hr as (x2 & y2 & i2 & j2 & _ & _ & _ & _ & ->). reflexivity. }
    exists d, (meta_of md (s_obj_attrs s)). split; [exact Hsel|].
    apply aperture_buffer_grows in Eb. apply append_current_grows in Ea2. pose proof (grows_trans _ _ _ _ _ Eb Ea2) as Hg. cbn [app] in Hg.
    rewrite S2, Em, Hn, He in Hg. apply grows_adds; assumption.
  Qed.

  Definition shown (pre : list (node K)) (n : node K) (new : list (draw K)) : Prop :=
    draws pre n new /\
    match n with
    | ND03 _ _ => exists a m, selected_as pre a /\
        new = [DPaste (MkPaste (layer_key (ad_id a) (matrix_at pre)) (pen_vec (pre ++ [n])) (clear_at pre) m)]
    | ND01 _ _ _ _ => in_region pre = false -> plot_of pre = PmLinear \/ arc_mode pre = MultiQuadrant ->
        exists a th m, selected_as pre a /\ thick (pen_vec (pre ++ [n])) a th /\ new = stroked pre n th m
    | _ => True
    end.
  Inductive run_shown : list (node K) -> list (draw K) -> Prop :=
  | rs_nil : run_shown [] []
  | rs_step pre out n new : run_shown pre out -> shown pre n new -> run_shown (pre ++ [n]) (out ++ new).

  Lemma flat_shown ips ns : Forall is_leaf ns -> (forall a, In (NAD a) ns -> ad_id a <> main_id) ->
    forall pre v out v', flat_inv md clock pre v out -> keyed (c_buffers (v_ext v)) -> run_shown pre out -> on_file H ips ns v = Ok v' ->
    exists out', flat_inv md clock (pre ++ executed_file ips ns) v' out' /\ run_shown (pre ++ executed_file ips ns) out'.
  Proof.
    induction ns as [|n r IH]; intros Hl Hid pre v out v' I Hk HR; cbn [on_file executed_file].
    - intros E; injection E as <-. rewrite app_nil_r. eauto.
    - inversion Hl as [|n' r' Hn Hr]; subst n' r'. rewrite (visit_is_leaf H n v Hn), (executed_leaf n Hn).
      assert (Hidn : forall a, n = NAD a -> ad_id a <> main_id) by (intros a ->; apply Hid; left; reflexivity).
      assert (Hidr : forall a, In (NAD a) r -> ad_id a <> main_id) by (intros a Ha; apply Hid; right; exact Ha).
      assert (Hstep : forall v1, visit_leaf H n v = Done v1 \/ visit_leaf H n v = Stop v1 ->
        exists out1, flat_inv md clock (pre ++ [n]) v1 out1 /\ run_shown (pre ++ [n]) out1 /\ keyed (c_buffers (v_ext v1))).
      { intros v1 E. destruct (flat_leaf md clock pre v out n v1 I Hn Hidn E) as (new & I1 & Hd1). exists (out ++ new).
        split; [exact I1|]. split; [|eapply keyed_leaf; eauto]. apply rs_step; [exact HR|]. split; [exact Hd1|].
        pose proof I as [Hp Hst Hdr _ Hb _]. pose proof I1 as [_ _ Hdr1 _ _ _].
        assert (Hdr0 : drawn v <> None) by (rewrite Hdr; discriminate).
        assert (Hadd : adds v v1 new) by (exists out; auto).
        destruct n; try exact Logic.I.
        - intros Hreg Hmode. destruct E as [E|E]; [|destruct (leaf_stop _ _ _ _ E) as [[X|X] _]; discriminate X].
          destruct (d01_exact pre v x y i j v1 Hp Hdr0 Hreg Hmode E) as (a & th & m & A & B & C). exists a, th, m.
          split; [exact A|]. split; [exact B|]. exact (adds_fun _ _ _ _ Hadd C).
        - destruct E as [E|E]; [|destruct (leaf_stop _ _ _ _ E) as [[X|X] _]; discriminate X].
          destruct (flash_key pre v x y v1 Hp Hb Hdr0 Hk E) as (a & m & A & C). exists a, m.
          split; [exact A|]. exact (adds_fun _ _ _ _ Hadd C). }
      destruct (visit_leaf H n v) as [v1|v1|e] eqn:Ev; [| |discriminate].
      + destruct (Hstep v1 (or_introl eq_refl)) as (out1 & I1 & R1 & K1). intros E. destruct (IH Hr Hidr _ _ _ _ I1 K1 R1 E) as (out2 & I2).
        assert (Hst : match n with NM00 | NM02 => true | _ => false end = false) by (destruct n; try reflexivity; discriminate Ev).
        rewrite Hst. cbn [andb]. exists out2. rewrite app_assoc. exact I2.
      + destruct (Hstep v1 (or_intror eq_refl)) as (out1 & I1 & R1 & K1).
        assert (Hst : match n with NM00 | NM02 => true | _ => false end = true).
        { destruct (leaf_stop _ _ _ _ Ev) as [[-> | ->] _]; reflexivity. }
        rewrite Hst. cbn [andb]. destruct ips.
        * intros E; injection E as <-. eauto.
        * intros E. destruct (IH Hr Hidr _ _ _ _ I1 K1 R1 E) as (out2 & I2). exists out2. rewrite app_assoc. exact I2.
  Qed.
  Lemma flat_main ips ns v : Forall is_leaf ns -> (forall a, In (NAD a) ns -> ad_id a <> main_id) ->
    on_file H ips ns (visitor_init compiler_init) = Ok v ->
    exists b, d_get main_id (c_buffers (v_ext v)) = Some b /\ run_shown (executed_file ips ns) (bf_cmds b).
  Proof.
    intros Hl Hid E. destruct (flat_shown ips ns Hl Hid [] (visitor_init compiler_init) [] v) as (out & I & HR); [| |constructor|exact E|].
    - split; try reflexivity; [constructor|constructor|discriminate].
    - intros k b. cbn [visitor_init v_ext compiler_init c_buffers d_get]. destruct (str_eqb k main_id) eqn:Ek; [|discriminate].
      intros E1; injection E1 as <-. apply str_eqb_eq in Ek. symmetry; exact Ek.
    - destruct I as [_ Hst Hd _ _ _]. cbn [app] in HR. unfold drawn, current in Hd. rewrite Hst in Hd.
      destruct (d_get main_id (c_buffers (v_ext v))) as [b|]; [|discriminate]. injection Hd as Hd. exists b. split; [reflexivity|].
      rewrite Hd. exact HR.
  Qed.
End Walk.

(** ** Images of layers *)
Section Images.
  Context (inside : shape R -> vec R -> Prop).
  Notation covers := (plane_covers inside (fun _ => MkVec 0%R 0%R)).
  Definition add_layer (sh : str -> vec R -> Prop) (l : str * list (draw R)) : str -> vec R -> Prop :=
    fun j p => if str_eqb j (fst l) then dark (covers sh (fst l)) (snd l) p else sh j p.
  Lemma dark_layers (sh sh' : str -> vec R -> Prop) id ds p : (forall src q, pastes ds src -> sh src q <-> sh' src q) ->
    dark (covers sh id) ds p <-> dark (covers sh' id) ds p.
  Proof.
    intros Hs. apply dark_ext. intros d Hd. destruct d as [s|q]; cbn [plane_covers]; [reflexivity|]. apply Hs. exists q. auto.
  Qed.
  Lemma layers_shown ls : defined_before_use ls -> defined_once ls -> layered inside ls (fold_left add_layer ls (fun _ _ => False)).
  Proof.
    induction ls as [|[id ds] ls IH] using rev_ind; intros Hb Ho; [intros i d []|].
    assert (Hn : ~ In id (map fst ls)).
    { unfold defined_once in Ho. rewrite map_app in Ho. apply NoDup_remove_2 in Ho. rewrite app_nil_r in Ho. exact Ho. }
    assert (Hb' : defined_before_use ls).
    { intros pre i d post src -> Hp. apply (Hb pre i d (post ++ [(id, ds)])); [rewrite <- app_assoc; reflexivity|exact Hp]. }
    assert (Ho' : defined_once ls) by (unfold defined_once in *; rewrite map_app in Ho; apply NoDup_remove_1 in Ho; rewrite app_nil_r in Ho; exact Ho).
    specialize (IH Hb' Ho'). rewrite fold_left_app. cbn [fold_left]. set (sh := fold_left add_layer ls _) in *.
    assert (Hsame : forall i d src q, In (i, d) (ls ++ [(id, ds)]) -> pastes d src -> add_layer sh (id, ds) src q <-> sh src q).
    { intros i d src q Hi Hp. unfold add_layer. cbn [fst]. destruct (str_eqb src id) eqn:E; [|reflexivity]. apply str_eqb_eq in E. subst src.
      exfalso. apply in_app_or in Hi as [Hi|[Hi|[]]].
      - apply in_split in Hi as (l1 & l2 & ->). apply Hn. rewrite map_app. apply in_or_app. left. eapply Hb'; [reflexivity|exact Hp].
      - injection Hi as -> ->. apply Hn. eapply (Hb ls); [reflexivity|exact Hp]. }
    intros i d Hi p. rewrite (dark_layers (add_layer sh (id, ds)) sh); [|intros src q; eapply Hsame; exact Hi].
    unfold add_layer. cbn [fst snd]. destruct (str_eqb i id) eqn:E.
    - apply str_eqb_eq in E. subst i. apply in_app_or in Hi as [Hi|[Hi|[]]].
      + exfalso. apply Hn. apply (in_map fst) in Hi. exact Hi.
      + injection Hi as <-. reflexivity.
    - apply in_app_or in Hi as [Hi|[Hi|[]]]; [apply IH; exact Hi|]. injection Hi as -> _. rewrite str_eqb_refl in E. discriminate.
  Qed.
End Images.

(** Running programs made of layers. *)
Section Running.
  Context (text : R -> str).
  Notation NT := (with_text NumR text).
  Definition blocks_r (l : list (buffer R)) : list (cmd R) := flat_map (@block_of R NumR) l.
  Lemma blocks_text (l : list (buffer R)) : flat_map (@block_of R NT) l = blocks_r l.
  Proof. reflexivity. Qed.

  Lemma layers_run paints fl (l : list (buffer R)) : ordered l -> NoDup (map bf_id l) -> In main_id (map bf_id l) ->
    (forall b, In b l -> bf_cmds b <> [] /\ forall s, In (DShape s) (bf_cmds b) -> paints s = None) ->
    exists m b, vm_run (shapely paints) fl (blocks_r l) = Ok (m, Some b).
  Proof.
    intros Ho Hd Hm Hb. destruct (C23_shapely_accepts R NumR paints fl (blocks_r l)) as (m & b & E & _); [| |eauto].
    - apply ordered_proper; auto. intros x Hx. destruct (Hb x Hx) as [A B]. split; [exact A|]. intros s Hs. split; [apply B; exact Hs|exact I].
    - eexists. split; [apply blocks_closed|]. apply -> in_rev. exact Hm.
  Qed.
  Lemma layers_painted paints fl fill (meets : region R -> region R -> bool) fuel (l : list (buffer R)) m b shows :
    fills_anywhere fill -> (forall g h p, meets g h = false -> g p -> h p -> False) ->
    ordered l -> NoDup (map bf_id l) -> vm_run (shapely paints) fl (blocks_r l) = Ok (m, b) ->
    layered (fun s p => exists pts, shape_points Shapely fuel s = Ok pts /\ fill pts p) (map layer_of l) shows ->
    forall p, shapely_result fill meets fuel m p <-> shows main_id p.
  Proof.
    intros Hf Hmt Ho Hd E Hs p. pose proof (C61_shapely fill meets fuel paints fl _ m b Hf Hmt (ordered_pastes l Ho) E) as [_ H2].
    cbv zeta in H2.
    assert (Ez : forall id, origin_of (MkVec 0%R 0%R) (blocks_r l) id = MkVec 0%R 0%R).
    { intros id. apply blocks_origin. rewrite r_n0. reflexivity. }
    specialize (H2 shows). rewrite Ez in H2. rewrite <- H2.
    - replace (less_v p (MkVec 0%R 0%R)) with p; [reflexivity|]. destruct p as [x y]. unfold less_v. cbn [vx vy]. f_equal; lra.
    - intros id (b0 & o & cs & Hg) q.
      assert (Hin : In id (map bf_id l)).
      { rewrite <- (blocks_started (NK := NumR)). destruct (C23_layers_partial _ _ _ _ _ E) as (_ & _ & _ & _ & _ & _ & _ & Hl & _). apply Hl.
        rewrite Hg. discriminate. }
      apply in_map_iff in Hin as (x & Ex & Hx). subst id. unfold blocks_r. rewrite (given_layer l x Hd Hx).
      rewrite (Hs (bf_id x) (bf_cmds x)); [|apply in_map_iff; exists x; split; [reflexivity|exact Hx]].
      apply dark_ext. intros d _. destruct d as [s|u]; cbn [plane_covers]; [reflexivity|].
      change (flat_map block_of l) with (blocks_r l). rewrite Ez. reflexivity.
  Qed.
End Running.

(** ** Objects *)
Section Objects.
  Context (inside : shape R -> vec R -> Prop) (shows : str -> vec R -> Prop).
  Notation covers := (plane_covers inside (fun _ => MkVec 0%R 0%R) shows).
  Definition stands (d : draw R) (o : object) : Prop := fst o = is_clear d /\ forall id p, snd o p <-> covers id d p.
  Lemma seen_dark ds os id p : Forall2 stands ds os -> seen os p <-> dark (covers id) ds p.
  Proof.
    intros H. split.
    - intros (bf & o & af & -> & E1 & E2 & E3). apply Forall2_app_inv_r in H as (d1 & d2 & H1 & H2 & ->).
      inversion H2 as [|d o' d2' af' [Ho1 Ho2] Ha]; subst. exists d1, d, d2'. split; [reflexivity|]. split; [congruence|].
      split; [apply Ho2; exact E2|]. clear - Ha E3. induction Ha as [|d o d2 os [X1 X2] _ IH]; [constructor|].
      inversion E3; subst. constructor; [|auto]. intros Hc Hp. apply X2 in Hp. rewrite X1 in *. exact (H1 Hc Hp).
    - intros (d1 & d & d2 & -> & E1 & E2 & E3). apply Forall2_app_inv_l in H as (o1 & o2 & H1 & H2 & ->).
      inversion H2 as [|d' o d2' os' [Ho1 Ho2] Ha]; subst. exists o1, o, os'. split; [reflexivity|]. split; [congruence|].
      split; [apply (Ho2 id); exact E2|]. clear - Ha E3. induction Ha as [|d o d2 os [X1 X2] _ IH]; [constructor|].
      inversion E3; subst. constructor; [|auto]. intros Hc Hp. apply (X2 id) in Hp. rewrite X1 in *. exact (H1 Hc Hp).
  Qed.
  Lemma shape_stands ds os : Forall2 (shape_object inside) ds os -> Forall2 stands ds os.
  Proof.
    induction 1 as [|d o ds os (s & -> & ->) _ IH]; constructor; [|exact IH]. split; [reflexivity|]. intros id p. reflexivity.
  Qed.
  Lemma shape_objects neg (ds : list (draw R)) : all_shapes neg ds -> exists os, Forall2 (shape_object inside) ds os.
  Proof.
    induction 1 as [|d ds (s & -> & _) _ (os & IH)]; [exists []; constructor|]. exists ((sh_neg s, inside s) :: os). constructor; [|exact IH].
    exists s. auto.
  Qed.

  (** Copies of layers show the transformed objects. *)
  Context (text : R -> str) (bs : dict (buffer R)) (M : mat R) (ls : list (buffer R)).
  Notation NT := (with_text NumR text).
  Lemma image_text s s' : FlashSpec.image (NK := NT) M s s' -> FlashSpec.image (NK := NumR) M s s'.
  Proof. intros H. exact H. Qed.
  Hypothesis shown_layers : forall b, In b ls -> forall p, shows (bf_id b) p <-> dark (covers (bf_id b)) (bf_cmds b) p.
  Lemma paste_stands q os : (forall p, shows (pa_src q) p <-> seen os p) ->
    stands (DPaste q) (pa_neg q, moved_to (pa_center q) (seen os)).
  Proof.
    intros H. split; [reflexivity|]. intros id p. cbn [snd plane_covers]. unfold moved_to. rewrite H.
    replace (plus_v (less_v p (pa_center q)) (MkVec 0%R 0%R)) with (less_v p (pa_center q)); [reflexivity|].
    unfold plus_v, less_v. cbn [vx vy]. f_equal; lra.
  Qed.
  Lemma copy_shapes table ds ds' : copy_cmds (NK := NT) bs M ds ds' -> (forall src, ~ pastes ds src) ->
    exists os, figure inside table M ds os /\ Forall2 stands ds' os.
  Proof.
    revert ds'. induction ds as [|d ds IH]; intros ds' H Hn; inversion H; subst.
    - exists []. split; constructor.
    - destruct (IH r') as (os & F1 & F2); [assumption|intros src (p & Hp & E); apply (Hn src); exists p; split; [right; exact Hp|exact E]|].
      eexists. split; [apply fg_shape; [apply image_text; exact H2|exact F1]|]. constructor; [|exact F2]. destruct H2 as (E & _). split; [cbn [fst is_clear]; symmetry; exact E|].
      intros id p. reflexivity.
    - exfalso. apply (Hn (pa_src p)). exists p. split; [left; reflexivity|reflexivity].
  Qed.
  Lemma copy_figure table ds ds' : copy_cmds (NK := NT) bs M ds ds' ->
    (forall src, pastes ds src -> exists b, d_get src table = Some b /\ d_get src bs = Some b /\ forall s, ~ pastes (bf_cmds b) s) ->
    (forall src, pastes ds' src -> exists b, In b ls /\ bf_id b = src /\ d_get src bs = Some b) ->
    exists os, figure inside table M ds os /\ Forall2 stands ds' os.
  Proof.
    revert ds'. induction ds as [|d ds IH]; intros ds' H Hs Hl; inversion H; subst.
    - exists []. split; constructor.
    - destruct (IH r') as (os & F1 & F2); [assumption|intros src (p & Hp & E); apply Hs; exists p; split; [right; exact Hp|exact E]|
        intros src (p & Hp & E); apply Hl; exists p; split; [right; exact Hp|exact E]|].
      eexists. split; [apply fg_shape; [apply image_text; exact H2|exact F1]|]. constructor; [|exact F2]. destruct H2 as (E & _). split; [cbn [fst is_clear]; symmetry; exact E|].
      intros id p. reflexivity.
    - destruct (IH r') as (os & F1 & F2); [assumption|intros src (q & Hp & E); apply Hs; exists q; split; [right; exact Hp|exact E]|
        intros src (q & Hp & E); apply Hl; exists q; split; [right; exact Hp|exact E]|].
      destruct (Hs (pa_src p)) as (b & G1 & G2 & G3); [exists p; split; [left; reflexivity|reflexivity]|].
      destruct (Hl (pa_src p')) as (b' & I1 & I2 & I3); [exists p'; split; [left; reflexivity|reflexivity]|].
      inversion H2 as [k k' c c' C1 C2 C3]; subst k k'. rewrite G2 in C1. injection C1 as <-. rewrite I3 in C2. injection C2 as <-.
      destruct (copy_shapes table (bf_cmds b) (bf_cmds b') C3 G3) as (os1 & F3 & F4).
      eexists. split; [eapply fg_group; [exact G1|exact F3|exact F1]|]. constructor; [|exact F2].
      change (v_transform M (pa_center p)) with (v_transform (NK := NT) M (pa_center p)). rewrite <- H3, <- H4. apply paste_stands. intros q. rewrite <- I2, shown_layers by exact I1. symmetry. apply seen_dark. exact F4.
  Qed.
End Objects.

Lemma NoDup_app_r {A} (a b : list A) : NoDup (a ++ b) -> NoDup b.
Proof. induction a as [|x a IH]; cbn [app]; intros H; [exact H|]. inversion H; auto. Qed.
Lemma ad_split {K} (p q p' q' : list (node K)) (a : ad K) : NoDup (ad_codes (p ++ NAD a :: q)) -> p ++ NAD a :: q = p' ++ NAD a :: q' -> p = p'.
Proof.
  revert p'. induction p as [|n p IH]; intros p' Hd E; destruct p' as [|n' p']; cbn [app] in E.
  - reflexivity.
  - injection E as <- ->. unfold ad_codes in Hd; cbn [app flat_map ad_code] in Hd. inversion Hd as [|? ? Hn _]; subst. exfalso. apply Hn.
    rewrite flat_map_app. apply in_or_app. right. cbn [flat_map ad_code app In]. left. reflexivity.
  - injection E as -> <-. unfold ad_codes in Hd; cbn [app flat_map ad_code] in Hd. inversion Hd as [|? ? Hn _]; subst. exfalso. apply Hn.
    rewrite flat_map_app. apply in_or_app. right. cbn [flat_map ad_code app In]. left. reflexivity.
  - injection E as -> E. f_equal. apply IH; [|exact E]. unfold ad_codes in Hd; cbn [app flat_map] in Hd. apply (NoDup_app_r _ _ Hd).
Qed.

(** ** Pictures of files without blocks *)
Section Pictures.
  Context (inside : shape R -> vec R -> Prop) (text : R -> str) (md : bool) (clock : nat -> Z).
  Notation NT := (with_text NumR text).

  Lemma emitted_shapes pre n (new : list (draw R)) : match n with ND03 _ _ => False | _ => True end ->
    draws (NK := NT) pre n new -> exists neg, all_shapes neg new.
  Proof.
    intros Hn [He _]. exists (clear_at pre). destruct n; cbn [emitted] in He; try contradiction; try (subst new; constructor).
    - apply He.
    - apply He.
    - destruct g; try (subst new; constructor). apply He.
  Qed.

  (** Widths with real numbers. *)
  Lemma thick_wide (e : vec R) d th : thick (NK := NumR) e d th -> wide e d th.
  Proof.
    intros (s & E & Ea). unfold line_thickness in E. rewrite Ea in E. cbn [bind] in E. unfold wide.
    assert (Hor : forall w h, v_len (MkVec (n_mul w (n_cosd (n_opp (angle_between e unit_x)))) (n_mul h (n_sind (n_opp (angle_between e unit_x))))) = th ->
      0 <= th /\ th * th * (vx e * vx e + vy e * vy e) = (w * vx e) * (w * vx e) + (h * vy e) * (h * vy e) /\ (e = MkVec 0 0 -> th = Rabs w)).
    { clear. intros w h E.
      destruct (angle_cc_unit e unit_x) as [_ Eu]. unfold angle_between in E. cbn [n_cosd n_sind n_opp n_sub n_mul NumR] in E. rewrite r_n360 in E.
      assert (Ux : v_norm unit_x = MkVec 1 0).
      { unfold v_norm, unit_x, v_divk, v_len. cbn [vx vy n_eqb n_add n_mul n_div n_sqrt NumR]. rnum.
        unfold r_eqb. destruct (Req_EM_T 1 0); [lra|]. cbn [andb]. replace (1 * 1 + 0 * 0) with 1 by ring. rewrite sqrt_1. f_equal; field. }
      rewrite Ux in Eu. set (A := angle_cc e unit_x) in *. set (u := v_norm e) in *.
      unfold turn in Eu. pose proof (f_equal vx Eu) as E1. pose proof (f_equal vy Eu) as E2. cbn [vx vy] in E1, E2.
      assert (Hd : deg (- (360 - A)) = deg A - 2 * PI) by (unfold deg; field).
      assert (Hc : cos (deg (- (360 - A))) = cos (deg A)) by (rewrite Hd; replace (deg A) with ((deg A - 2 * PI) + 2 * INR 1 * PI) at 2 by (cbn [INR]; ring); rewrite cos_period; reflexivity).
      assert (Hs : sin (deg (- (360 - A))) = sin (deg A)) by (rewrite Hd; replace (deg A) with ((deg A - 2 * PI) + 2 * INR 1 * PI) at 2 by (cbn [INR]; ring); rewrite sin_period; reflexivity).
      rewrite Hc, Hs in E. pose proof (sin2_cos2 (deg A)) as T. unfold Rsqr in T. set (c := cos (deg A)) in *. set (si := sin (deg A)) in *.
      assert (Hux : vx u = c) by (transitivity (vx u * (si * si + c * c)); [rewrite T; ring|]; transitivity (c * (c * vx u - si * vy u) + si * (si * vx u + c * vy u)); [ring|rewrite <- E1, <- E2; ring]).
      assert (Huy : vy u = - si) by (transitivity (vy u * (si * si + c * c)); [rewrite T; ring|]; transitivity (c * (si * vx u + c * vy u) - si * (c * vx u - si * vy u)); [ring|rewrite <- E1, <- E2; ring]).
      unfold v_len in E. cbn [vx vy n_add n_mul n_sqrt NumR] in E.
      assert (Hth : 0 <= th) by (rewrite <- E; apply sqrt_pos).
      assert (Hsq : th * th = (w * c) * (w * c) + (h * si) * (h * si)) by (rewrite <- E; apply sqrt_sqrt; nra).
      split; [exact Hth|]. unfold u, v_norm in Hux, Huy. cbn [n_eqb NumR] in Hux, Huy. rewrite r_n0, r_n1 in Hux, Huy.
      destruct (r_eqb (vx e) 0 && r_eqb (vy e) 0)%bool eqn:Eb.
      - apply andb_true_iff in Eb as [B1 B2]. apply r_eqb_eq in B1, B2. cbn [vx vy] in Hux, Huy. rewrite B1, B2. split; [ring|]. intros _.
        assert (th * th = w * w) by (rewrite Hsq, <- Hux; replace si with 0 by lra; ring).
        rewrite <- (sqrt_square th Hth), H. exact (sqrt_Rsqr_abs w).
      - split.
        + unfold v_divk, v_len in Hux, Huy. cbn [vx vy n_div n_add n_mul n_sqrt NumR] in Hux, Huy. set (q := vx e * vx e + vy e * vy e) in *.
          assert (Hq : 0 < q).
          { apply andb_false_iff in Eb as [B|B]; apply r_eqb_neq in B; unfold q; nra. }
          pose proof (sqrt_lt_R0 q Hq) as Hr. pose proof (sqrt_sqrt q (Rlt_le _ _ Hq)) as Hrr. set (r := sqrt q) in *.
          assert (Ex : vx e = c * r) by (rewrite <- Hux; field; lra). assert (Ey : vy e = - si * r) by (rewrite <- Huy; field; lra).
          rewrite Hsq, <- Hrr, Ex, Ey. ring.
        + intros ->. cbn [vx vy] in Eb. assert (Z0 : r_eqb 0 0 = true) by (apply r_eqb_eq; reflexivity). rewrite Z0 in Eb. discriminate Eb. }
    destruct (ad_template d); try discriminate E; apply Ok_inj in E; auto.
  Qed.
  Lemma thick_text (e : vec R) d th : thick (NK := NT) e d th -> thick (NK := NumR) e d th.
  Proof. intros (s & E & Ea). exists s. split; [exact E|exact Ea]. Qed.

  (** The drawings of the main layer are the picture. *)
  Lemma run_picture (shows : str -> vec R -> Prop) whole ds : run_shown (NK := NT) whole ds ->
    (forall pre x y post a, whole = pre ++ ND03 x y :: post -> selected_as pre a -> forall c neg m,
       In (DPaste (MkPaste (layer_key (NK := NT) (ad_id a) (matrix_at (NK := NT) pre)) c neg m)) ds ->
       exists os, aperture_figure inside text md clock pre a (matrix_at (NK := NT) pre) os /\
         forall p, shows (layer_key (NK := NT) (ad_id a) (matrix_at (NK := NT) pre)) p <-> seen os p) ->
    exists os, picture inside text md clock whole os /\ Forall2 (stands inside shows) ds os.
  Proof.
    induction 1 as [|pre out n new HR IH [Hd Hs]]; intros Hf; [exists []; split; constructor|].
    destruct IH as (os & P1 & P2); [intros pre0 x y post a E Ha c neg m Hin; apply (Hf pre0 x y (post ++ [n]) a) with (c := c) (neg := neg) (m := m);
      [rewrite E, <- app_assoc; reflexivity|exact Ha|apply in_or_app; left; exact Hin]|].
    assert (Hnew : exists os', pictured inside text md clock pre n os' /\ Forall2 (stands inside shows) new os').
    { assert (Hc : (exists x y, n = ND03 x y) \/ match n with ND03 _ _ => False | _ => True end) by (destruct n; eauto).
      destruct Hc as [(x & y & ->)|Hc].
      - destruct Hs as (a & m & Ha & ->). destruct (Hf pre x y [] a eq_refl Ha (pen_vec (NK := NT) (pre ++ [ND03 x y])) (clear_at pre) m) as (fs & F1 & F2);
          [apply in_or_app; right; left; reflexivity|].
        eexists. split; [exists a, fs; split; [exact Ha|]; split; [exact F1|]; reflexivity|]. constructor; [|constructor].
        apply paste_stands. exact F2.
      - destruct (emitted_shapes pre n new Hc Hd) as (neg & Hsh). destruct (shape_objects inside neg new Hsh) as (os' & Ho).
        exists os'. split; [|apply shape_stands; exact Ho]. destruct n; try contradiction; exists new; split; try exact Ho; split; try exact Hd; try exact Hs.
        intros H1 H2. destruct (Hs H1 H2) as (a & th & m & A1 & A2 & A3). exists a, th, m. split; [exact A1|]. split; [apply thick_wide, thick_text; exact A2|exact A3]. }
    destruct Hnew as (os' & N1 & N2). exists (os ++ os'). split; [constructor; assumption|]. apply Forall2_app; assumption.
  Qed.

  (** Every flashed layer shows the figure of its aperture. *)
  Lemma flash_figure shows ips ns v (l : list (buffer R)) : Forall is_leaf ns ->
    (forall a, In (NAD a) ns -> exists n, dcode (ad_id a) n) ->
    NoDup (ad_codes (executed_file ips ns)) -> tells_apart (NK := NT) (executed_file ips ns) ->
    on_file (NK := NT) (@compiler_hooks R NT md clock) ips ns (visitor_init (NK := NT) compiler_init) = Ok v -> NoDup (c_stamps (v_ext v)) ->
    ordered l -> (forall b, In b l -> d_get (bf_id b) (c_buffers (v_ext v)) = Some b) ->
    (forall b, In b l -> forall p, shows (bf_id b) p <-> dark (plane_covers inside (fun _ => MkVec 0%R 0%R) shows (bf_id b)) (bf_cmds b) p) ->
    forall pre post a b, executed_file ips ns = pre ++ post -> selected_as pre a -> In b l -> bf_id b = layer_key (NK := NT) (ad_id a) (matrix_at (NK := NT) pre) ->
    exists os, aperture_figure inside text md clock pre a (matrix_at (NK := NT) pre) os /\ forall p, shows (bf_id b) p <-> seen os p.
  Proof.
    intros Hl Hc Hd [Hpct Hm] E HN Ho Hg Hs pre post a b Ew Ha Hb Hid.
    set (whole := executed_file ips ns) in *. set (bs := c_buffers (v_ext v)) in *.
    assert (Hsub : forall a, In (NAD a) whole -> In (NAD a) ns).
    { clear - Hl. unfold whole. induction Hl as [|n r Hn _ IH]; intros a Ha; [destruct Ha|]. cbn [executed_file] in Ha. rewrite (executed_leaf n Hn) in Ha.
      destruct (match n with NM00 | NM02 => true | _ => false end && ips)%bool; cbn [app In] in Ha; destruct Ha as [Ha|Ha]; try (left; exact Ha); [destruct Ha|right; apply IH; exact Ha]. }
    set (ADs := fun id => exists a, In (NAD a) whole /\ ad_id a = id). set (Ms := fun M => exists p q, whole = p ++ q /\ M = matrix_at (NK := NT) p).
    assert (Hp : named_point (NK := NT) (@compiler_hooks R NT md clock) compiler_init (fun _ => False) whole v).
    { refine (named_file (NK := NT) md clock (fun _ => False) ips ns _ [] _ _ (np_start _ _ _) E). intros n Hn m Hmm. rewrite Forall_forall in Hl.
      specialize (Hl n Hn). destruct n; try contradiction; destruct Hmm as [<-|[]]; exact I. }
    assert (Minj : forall m m', Ms m -> Ms m' -> mtag (NK := NT) m = mtag (NK := NT) m' -> m = m') by (intros m m' (p1 & q1 & E1 & ->) (p2 & q2 & E2 & ->); eauto).
    destruct (named_inv (NK := NT) md clock Ms Hpct Minj ADs (fun _ => False)) with (pre := whole) (v := v) as [_ HI]; try assumption.
    - intros id (a0 & Ha0 & <-). auto.
    - intros id [].
    - intros id _ [].
    - intros a0 Ha0. exists a0. auto.
    - intros p q Eq. exists p, q. auto.
    - destruct (HI HN) as [HNv HD]. clear HI.
      destruct Ha as [Hsel (p1 & q1 & Epre & Hnq)].
      assert (Hina : In (NAD a) whole) by (rewrite Ew, Epre, <- app_assoc; apply in_or_app; right; left; reflexivity).
      destruct (HD a Hina) as (p & q & s & x0 & x1 & b0 & u & c & D1 & D2 & D3 & D4 & D5 & D7 & D6).
      assert (Ep : p = p1).
      { apply (ad_split p q p1 (q1 ++ post) a); [rewrite <- D1; exact Hd|]. rewrite <- D1, Ew, Epre, <- app_assoc. reflexivity. }
      subst p1.
      assert (Hbase : base ADs (ad_id a)) by (left; exists a; auto).
      assert (Hnb : nb (NK := NT) ADs (ad_id a)) by (exists (ad_id a), []; split; [exact Hbase|split; [constructor|reflexivity]]).
      assert (G0 : d_get (ad_id a) bs = Some b0) by (apply D6; assumption).
      assert (Hcopy : copy_of (NK := NT) bs (matrix_at (NK := NT) pre) (ad_id a) (bf_id b)).
      { pose proof (layer_key_ext (NK := NT) (ad_id a) [] (matrix_at (NK := NT) pre)) as EK. change (LayerInv.ext (ad_id a) []) with (ad_id a) in EK.
        rewrite Hid, EK. apply (N_copy (NK := NT) _ _ _ _ _ HNv (ad_id a) []).
        - exists pre, post. auto.
        - exact Hbase.
        - constructor.
        - rewrite <- EK, <- Hid. exists b. apply Hg. exact Hb. }
      inversion Hcopy as [k k' c0 c1 C1 C2 C3]; subst k k'. rewrite G0 in C1. injection C1 as <-. rewrite (Hg b Hb) in C2. injection C2 as <-.
      apply in_split in Hb as Hb0. destruct Hb0 as (l1 & l2 & El).
      destruct (copy_figure inside shows text bs (matrix_at (NK := NT) pre) l Hs (c_buffers x1) (bf_cmds b0) (bf_cmds b) C3) as (os & F1 & F2).
      + intros src Hsrc. destruct (N_pastes (NK := NT) _ _ _ _ _ D5 _ _ _ Hnb D4 Hsrc) as [T [b1 M]]. exists b1. split; [exact M|].
        split; [apply D6; [apply (tnb_nb (NK := NT)); exact T|exact M]|]. intros s0. apply (N_leaf (NK := NT) _ _ _ _ _ D5 _ _ _ T M).
      + intros src Hsrc. pose proof (Ho l1 b l2 src El Hsrc) as Hi. apply in_map_iff in Hi as (b1 & E1 & H1).
        assert (Hin : In b1 l) by (rewrite El; apply in_or_app; left; exact H1). exists b1. split; [exact Hin|]. split; [exact E1|]. rewrite <- E1. apply Hg. exact Hin.
      + exists os. split.
        * exists p, q1, s, x0, x1, b0. split; [exact Epre|]. split; [exact D2|]. split; [exact D3|]. split; [exact D7|]. split; [exact D4|exact F1].
        * intros p0. rewrite (Hs b Hb). symmetry. apply seen_dark. exact F2.
  Qed.
End Pictures.

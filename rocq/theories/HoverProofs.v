(** Proofs about hover texts. *)
From Verif Require Import Base Num Dict CoordModel CoordSpec CoordProofs Ast StateModel StateSpec StateProofs GeomModel ExprModel
  CompilerModel LayerSpec LayerProofs DrawSpec DrawProofs FlashProofs HoverModel HoverSpec.
From Coq Require Import Qabs Qround Lqa.
Open Scope Z_scope.

(** ** Packing a number of the grid *)
Section Grid.
  Context {K : Type} {NK : Num K} (to_Q : K -> Q).
  Lemma grid_back z i d (x : K) : reads_values (K := K) -> (1 <= i)%nat -> (1 <= d)%nat -> grid_number to_Q i d x ->
    forall t, pack z i d (to_Q x) = Ok t -> exists q, unpack z i d t = Ok q /\ n_of_Q q = x.
  Proof.
    intros Hv Hi Hd (n & Hn & Hx & Hc) t Ht. pose proof (pack_unpack z i d (to_Q x) Hi Hd) as HP.
    destruct (_ <? _) eqn:El; [|rewrite HP in Ht; discriminate].
    destruct HP as (s & H1 & H2). rewrite Ht in H1. injection H1 as <-.
    exists (on_grid (to_Q x) d). split; [exact H2|]. rewrite Hx at 2. apply Hv. pose proof (on_grid_close (to_Q x) d) as Hg.
    pose proof (pow10_pos d) as Hp. set (P := 10 ^ Z.of_nat d) in *.
    assert (HP : (0 < inject_Z P)%Q) by (change 0%Q with (inject_Z 0); rewrite <- Zlt_Qlt; exact Hp).
    set (m := apply_sign (q_neg (to_Q x)) (scaled (to_Q x) d)).
    assert (Hog : (on_grid (to_Q x) d == inject_Z m / inject_Z P)%Q).
    { unfold on_grid. fold m P. apply (mk_Q m d). }
    rewrite Hog in *. set (q := to_Q x) in *.
    assert (E1 : (Qabs (inject_Z m - q * inject_Z P) <= 1 # 2)%Q).
    { rewrite <- (Qabs_pos (inject_Z P)) in Hg at 2 by lra. rewrite <- Qabs_Qmult in Hg.
      setoid_replace ((inject_Z m / inject_Z P - q) * inject_Z P)%Q with (inject_Z m - q * inject_Z P)%Q in Hg by (field; lra). exact Hg. }
    assert (E2 : (Qabs (q * inject_Z P - inject_Z n) < 1 # 2)%Q).
    { rewrite <- (Qabs_pos (inject_Z P)) in Hc at 2 by lra. rewrite <- Qabs_Qmult in Hc.
      setoid_replace ((q - inject_Z n / inject_Z P) * inject_Z P)%Q with (q * inject_Z P - inject_Z n)%Q in Hc by (field; lra). exact Hc. }
    apply Qabs_Qle_condition in E1. apply Qabs_Qlt_condition in E2.
    assert (m = n); [|subst n; reflexivity].
    assert (A : (inject_Z (m - n) < 1)%Q) by (unfold Z.sub; rewrite inject_Z_plus, inject_Z_opp; lra).
    assert (B : (- (1) < inject_Z (m - n))%Q) by (unfold Z.sub; rewrite inject_Z_plus, inject_Z_opp; lra).
    change 1%Q with (inject_Z 1) in A, B. rewrite <- inject_Z_opp in B. rewrite <- Zlt_Qlt in A, B. lia.
  Qed.
End Grid.

(** ** The state before a command *)
Section Limited.
  Context {K : Type} {NK : Num K}.
  Implicit Types (ns : list (placed K)).
  Lemma limited_prefix loc pre : forall from p post v, in_order from (pre ++ p :: post) ->
    pl_loc p <= loc < pl_loc p + pl_len p ->
    limited loc (pre ++ p :: post) v = on_file no_hooks false (map pl_node pre) v /\ from <= loc.
  Proof.
    induction pre as [|a pre IH]; intros from p post v; cbn [app in_order limited map on_file].
    - intros (H1 & H2 & H3) Hl. split; [|lia]. replace (loc <? _) with true; [reflexivity|]. symmetry. apply Z.ltb_lt. lia.
    - intros (H1 & H2 & H3) Hl. pose proof (fun v => IH _ p post v H3 Hl) as IHv. split; [|destruct (IHv v); lia].
      replace (loc <? _) with false; [|symmetry; apply Z.ltb_ge; exact (proj2 (IHv v))].
      destruct (visit no_hooks (pl_node a) v) as [v1|v1|e]; [exact (proj1 (IHv v1))|exact (proj1 (IHv v1))|reflexivity].
  Qed.
End Limited.

(** The state does not depend on the callbacks, as long as they do not fail. *)
Section Quiet.
  Context {K : Type} {NK : Num K} {X : Type} (H : hooks K X).
  Definition alike (v : visitor K X) (v0 : visitor K unit) : Prop :=
    v_state v0 = v_state v /\ v_d01 v0 = v_d01 v /\ v_d03 v0 = v_d03 v /\ v_dispatch_region v0 = v_dispatch_region v.
  Definition follows (o : outcome (visitor K X)) (o0 : outcome (visitor K unit)) : Prop :=
    match o with
    | Done v => exists v0, o0 = Done v0 /\ alike v v0
    | Stop v => exists v0, o0 = Stop v0 /\ alike v v0
    | Fail _ => True
    end.
  Lemma follows_bind o o0 k k0 f f0 : follows o o0 -> (forall v v0, alike v v0 -> follows (k v) (k0 v0)) ->
    (forall v v0, alike v v0 -> alike (f v) (f0 v0)) -> follows (obind o k f) (obind o0 k0 f0).
  Proof.
    intros Ho Hk Hf. destruct o; cbn [follows obind] in *; [| |exact I].
    - destruct Ho as (v0 & -> & Ha). apply Hk. exact Ha.
    - destruct Ho as (v0 & -> & Ha). cbn [obind]. eauto.
  Qed.
  Lemma follows_lift v v0 r x : alike v v0 -> follows (lift v r) (lift v0 (Ok x)).
  Proof. intros Ha. destruct r; cbn [lift follows]; [|exact I]. eexists. split; [reflexivity|exact Ha]. Qed.
  Ltac like := repeat match goal with
    | |- follows (Done _) (Done _) => eexists; split; [reflexivity|]
    | |- follows (Stop _) (Stop _) => eexists; split; [reflexivity|]
    | |- follows (lift _ _) (lift _ (hk_flush_region no_hooks _ _)) => apply follows_lift
    | |- follows (lift _ _) (lift _ (hk_draw no_hooks _ _ _)) => apply follows_lift
    | |- follows (lift _ _) (lift _ (hk_flash no_hooks _ _ _ _)) => apply follows_lift
    | |- follows (lift _ _) (lift _ (hk_ad no_hooks _ _ _)) => apply follows_lift
    end.
  Ltac split_like := unfold alike; cbn [v_state v_d01 v_d03 v_dispatch_region with_state with_ext dispatch bind_dispatch]; repeat split; congruence.
  Lemma alike_leaf n v v0 : alike v v0 -> follows (visit_leaf H n v) (visit_leaf no_hooks n v0).
  Proof.
    destruct v as [s h1 h3 r x], v0 as [s0 h10 h30 r0 x0]. intros (E1 & E2 & E3 & E4). cbn [v_state v_d01 v_d03 v_dispatch_region] in *. subst.
    destruct n; cbn [visit_leaf]; try (like; split_like; fail).
    - unfold on_ad. cbn beta zeta. like. split_like.
    - unfold on_d01, on_coords. cbn [v_state]. destruct (read_coords _ _ _ _ _); [|exact I].
      apply follows_bind; [like; split_like| |auto]. intros v v0 Ha. like. destruct Ha as (A & B & C & D). split_like.
    - unfold on_d02, on_coords. cbn [v_state]. destruct (read_coords _ _ _ _ _); [|exact I]. cbn beta zeta. cbn [with_state v_state].
      destruct (s_region _); like; split_like.
    - unfold on_d03, on_coords. cbn [v_state]. destruct (read_coords _ _ _ _ _); [|exact I]. cbn [with_state v_state v_d03].
      destruct (current_aperture _); [|exact I]. destruct h3; [|exact I].
      apply follows_bind; [like; split_like| |auto]. intros v v0 Ha. like. destruct Ha as (A & B & C & D). split_like.
    - unfold on_dnn. cbn beta zeta. cbn [with_state v_state]. destruct (current_aperture _); [|exact I]. like. split_like.
    - destruct g; cbn [on_g]; try (like; split_like; fail).
      apply follows_bind; [like; split_like| |auto]. intros v v0 (A & B & C & D). like.
      unfold alike. cbn [v_state v_d01 v_d03 v_dispatch_region with_state with_ext dispatch bind_dispatch]. rewrite A. repeat split. congruence.
  Qed.
  Lemma alike_list body : Forall (fun n => forall v v0, alike v v0 -> follows (visit H n v) (visit no_hooks n v0)) body ->
    forall v v0, alike v v0 -> follows (visits H body v) (visits no_hooks body v0).
  Proof.
    induction 1 as [|n r Hn _ IH]; intros v v0 Ha; cbn [visits]; [like; exact Ha|]. apply follows_bind; auto.
  Qed.
  Lemma alike_visit n : forall v v0, alike v v0 -> follows (visit H n v) (visit no_hooks n v0).
  Proof.
    induction n as [id body IH|u h body IH|n Hl] using node_ind'; intros v v0 Ha.
    - rewrite !visit_AB. apply follows_bind; [apply alike_list; [exact IH|exact Ha]| |auto].
      intros w w0 (A & B & C & D). like. unfold ab_leave. unfold alike. cbn [v_state v_d01 v_d03 v_dispatch_region with_state with_ext]. rewrite A. auto.
    - rewrite !visit_SR. apply follows_bind; [apply alike_list; [exact IH|]| |auto].
      + unfold sr_enter. destruct (hk_sr_open H u _ _). exact Ha.
      + intros w w0 Hw. unfold sr_leave. apply follows_lift. exact Hw.
    - rewrite !visit_is_leaf by exact Hl. apply alike_leaf. exact Ha.
  Qed.
  Lemma alike_file ns : forall v v0 v', alike v v0 -> on_file H false ns v = Ok v' ->
    exists v0', on_file no_hooks false ns v0 = Ok v0' /\ alike v' v0'.
  Proof.
    induction ns as [|n r IH]; intros v v0 v' Ha; cbn [on_file]; [intros E; injection E as <-; eauto|].
    pose proof (alike_visit n v v0 Ha) as Hf. destruct (visit H n v); cbn [follows] in Hf; [| |discriminate].
    - destruct Hf as (w0 & -> & Hw). intros E. eapply IH; eauto.
    - destruct Hf as (w0 & -> & Hw). intros E. eapply IH; eauto.
  Qed.
  Lemma state_of_run ns x0 v : on_file H false ns (visitor_init x0) = Ok v -> state_after ns = Ok (v_state v).
  Proof.
    intros E. destruct (alike_file ns (visitor_init x0) (visitor_init tt) v (conj eq_refl (conj eq_refl (conj eq_refl eq_refl))) E) as (v0 & E0 & Hs & _).
    unfold state_after. rewrite E0. cbn [bind]. rewrite Hs. reflexivity.
  Qed.
  Lemma on_file_app b a : forall c v, on_file H false (a ++ c) v = b ->
    (let* v1 := on_file H false a v in on_file H false c v1) = b.
  Proof.
    induction a as [|n a IH]; intros c v; cbn [app on_file bind]; [auto|].
    destruct (visit H n v); auto.
  Qed.
End Quiet.

(** ** Dictionaries of definitions *)
Section Stores.
  Context {V : Type}.
  Lemma d_set_new k (w : V) d : ~ In k (d_keys d) -> d_set k w d = d ++ [(k, w)].
  Proof.
    induction d as [|[a b] d IH]; cbn [d_set d_keys map fst app]; [reflexivity|]. intros Hn.
    destruct (str_eqb k a) eqn:E; [apply str_eqb_eq in E; subst; exfalso; apply Hn; left; reflexivity|].
    rewrite IH; [reflexivity|]. intros Hi. apply Hn. right. exact Hi.
  Qed.
  Lemma rebuild (d : dict V) : forall acc, NoDup (d_keys (acc ++ d)) ->
    fold_left (fun m p => d_set (fst p) (snd p) m) d acc = acc ++ d.
  Proof.
    induction d as [|[k w] d IH]; intros acc Hn; cbn [fold_left fst snd]; [rewrite app_nil_r; reflexivity|].
    unfold d_keys in Hn. rewrite map_app in Hn. cbn [map fst] in Hn. rewrite d_set_new.
    - rewrite IH; [rewrite <- app_assoc; reflexivity|]. unfold d_keys. rewrite <- app_assoc. rewrite map_app. exact Hn.
    - apply NoDup_remove_2 in Hn. intros Hi. apply Hn. apply in_or_app. left. exact Hi.
  Qed.
  Lemma d_set_keys k (w : V) d : NoDup (d_keys d) -> NoDup (d_keys (d_set k w d)).
  Proof.
    induction d as [|[a b] d IH]; cbn [d_set d_keys map fst]; intros Hn.
    - constructor; [intros []|constructor].
    - destruct (str_eqb k a) eqn:E; cbn [d_keys map fst]; [exact Hn|]. inversion Hn as [|? ? H1 H2]; subst. constructor; [|apply IH; exact H2].
      intros Hi. apply d_keys_set in Hi as [->|Hi]; [rewrite str_eqb_refl in E; discriminate|]. exact (H1 Hi).
  Qed.
  Lemma d_set_forall (P : str * V -> Prop) k w d : P (k, w) -> Forall P d -> (forall k' v', P (k', v') -> str_eqb k k' = true -> P (k', w)) ->
    Forall P (d_set k w d).
  Proof.
    intros Hp Hd Hk. induction Hd as [|[a b] d H1 H2 IH]; cbn [d_set]; [constructor; auto|].
    destruct (str_eqb k a) eqn:E; constructor; eauto.
  Qed.
End Stores.

Section Invariant.
  Context {K : Type} {NK : Num K} {X : Type} (H : hooks K X) (x0 : X).
  Definition tidy (s : state K) : Prop :=
    NoDup (d_keys (s_apertures s)) /\ Forall (fun p => ad_id (snd p) = fst p) (s_apertures s).
  Lemma tidy_point pre v : at_point H x0 pre v -> tidy (v_state v).
  Proof.
    intros Hp. apply (point_inv H x0 (fun v (_ : unit) => tidy (v_state v)) (fun _ _ => tt) tt) with (pre := pre); auto.
    - split; constructor.
    - intros n v1 v2 _ Hl Ht E. pose proof (leaf_state_spec H n v1 v2 E) as Es.
      destruct n; cbn [is_leaf] in Hl; try contradiction.
      all: pose proof (leaf_state_inv _ _ _ Es) as Inv; cbn beta iota zeta in Inv.
      all: try (destruct Inv as (s1 & Hr & ->); apply read_coords_inv in Hr as (x' & y' & i' & j' & _ & _ & _ & _ & ->); exact Ht).
      all: try (destruct Inv as (-> & _); exact Ht).
      all: clear Inv.
      all: try match type of Es with
           | leaf_state (NG ?g) _ = _ => destruct g
           | leaf_state (NTD ?k) _ = _ => destruct k
           end.
      all: unfold leaf_state in Es; cbn [visit_leaf on_g] in Es; unfold on_ad in Es;
        cbn [obind lift no_hooks hk_ad hk_flush_region hk_start_region hk_end_region
             with_ext with_state dispatch bind_dispatch v_state v_d01 v_d03 v_dispatch_region v_ext] in Es;
        injection Es as <-; try exact Ht.
      destruct Ht as (T1 & T2). split; cbn [set_store s_apertures].
      + apply d_set_keys. exact T1.
      + apply d_set_forall; [reflexivity|exact T2|]. cbn [fst snd]. intros k' v' _ E2. apply str_eqb_eq in E2. exact E2.
    - intros u v1 _ Ht. unfold sr_enter. destruct (hk_sr_open H u _ _). exact Ht.
    - intros tmp hdr v1 v2 _ Ht E. unfold sr_leave in E. apply lift_done in E as (-> & _). exact Ht.
  Qed.
End Invariant.

(** ** The illustration *)
Section Preview.
  Context {K : Type} {NK : Num K} (to_Q : K -> Q) (md : bool) (clock : nat -> Z).
  Notation H := (compiler_hooks md clock).

  Lemma run_macros d : forall v : visitor K (cstate K), exists mac,
    on_file H false (map (fun m => NAM (fst m) (snd m)) d) v =
    Ok (with_state (fun s => set_store (s_apertures s) (s_blocks s) mac (s_per_ap_attrs s) s) v).
  Proof.
    induction d as [|[k ps] d IH]; intros v; cbn [map on_file].
    - exists (s_macros (v_state v)). destruct v as [s ? ? ? ?]; destruct s; reflexivity.
    - rewrite visit_is_leaf by exact I. cbn [visit_leaf fst snd]. destruct (IH (with_state (fun s => set_store (s_apertures s) (s_blocks s) (d_set k ps (s_macros s)) (s_per_ap_attrs s) s) v)) as (mac & E).
      exists mac. rewrite E. reflexivity.
  Qed.
  Lemma run_apertures (d : dict (ad K)) : Forall (fun p => ad_id (snd p) = fst p /\ fst p <> main_id) d ->
    forall v v' : visitor K (cstate K), on_file H false (map (fun a => NAD (snd a)) d) v = Ok v' -> exists per x,
      v' = MkV (set_store (fold_left (fun m p => d_set (fst p) (snd p) m) d (s_apertures (v_state v))) (s_blocks (v_state v))
                 (s_macros (v_state v)) per (v_state v)) (v_d01 v) (v_d03 v) (v_dispatch_region v) x /\ same_main (v_ext v) x.
  Proof.
    induction 1 as [|[k a] d [Hk Hm] Hd IH]; intros v v'; cbn [map on_file fold_left fst snd] in *.
    - intros E; injection E as <-. exists (s_per_ap_attrs (v_state v)), (v_ext v). split; [|repeat split].
      destruct v as [s ? ? ? ?]; destruct s; reflexivity.
    - rewrite visit_is_leaf by exact I. cbn [visit_leaf]. unfold on_ad. cbn beta zeta.
      cbn [compiler_hooks hk_ad with_state v_state v_ext]. destruct (on_aperture _ _ _ _ _) as [x1|] eqn:Ea; cbn [lift]; [|discriminate].
      intros E. apply IH in E as (per & x & -> & Hs). exists per, x. cbn [with_ext v_state v_d01 v_d03 v_dispatch_region v_ext set_store s_apertures s_blocks s_macros] in *.
      rewrite Hk. split; [reflexivity|]. eapply same_main_trans; [|exact Hs]. eapply on_aperture_main; [|exact Ea]. rewrite Hk. exact Hm.
  Qed.

  (** The state and the layers in which the illustrated command is executed. *)
  Definition shown_mode (p : plot_mode) : plot_mode := match p with PmLinear => PmLinear | _ => PmArc end.
  Definition ready (s : state K) (v : visitor K (cstate K)) : Prop :=
    let s' := v_state v in
    s_cf s' = s_cf s /\ s_unit s' = s_unit s /\ s_plot s' = shown_mode (s_plot s) /\ s_arc s' = s_arc s /\ s_apid s' = s_apid s /\
    s_cur_x s' = s_cur_x s /\ s_cur_y s' = s_cur_y s /\ s_x s' = Some (s_cur_x s) /\ s_y s' = Some (s_cur_y s) /\
    s_i s' = None /\ s_j s' = None /\ s_tr s' = MkTr Dark (tr_mirroring (s_tr s)) (tr_rotation (s_tr s)) (tr_scaling (s_tr s)) /\
    s_apertures s' = s_apertures s /\ s_blocks s' = [] /\ s_region s' = false /\ v_dispatch_region v = false /\
    v_d01 v = d01_table (shown_mode (s_plot s)) (s_arc s) /\ same_main compiler_init (v_ext v).
  Ltac norm Hw := cbv beta iota zeta delta [v_state v_d01 v_d03 v_dispatch_region v_ext visitor_init state_default with_state set_tr_with set_tr set_store set_plot set_arc set_apid set_xyij set_cur set_unit set_cf
    update_coordinates opt_or s_cf s_unit s_plot s_arc s_apid s_cur_x s_cur_y s_x s_y s_i s_j s_tr s_apertures s_blocks s_macros s_per_ap_attrs s_ap_attrs s_file_attrs s_obj_attrs s_img
    s_region tr_polarity tr_mirroring tr_rotation tr_scaling tr_default] in Hw.
  Lemma run_preview s P w : reads_values (K := K) -> pen_on_grid to_Q s -> tidy s ->
    (forall a, d_get (ad_id a) (s_apertures s) = Some a -> ad_id a <> main_id) ->
    forall extra, preview to_Q s extra = Ok P -> on_file H false P (visitor_init compiler_init) = Ok w ->
    exists v, ready s v /\ on_file H false extra v = Ok w.
  Proof.
    intros Hv Hg (T1 & T2) Hm extra HP Hw. unfold preview in HP. destruct (s_cf s) as [f|] eqn:Ef; [|discriminate].
    destruct (Hg f Ef) as (G1 & G2 & G3 & G4 & Gx & Gy). unfold pack_axis in HP.
    destruct (pack _ _ _ (to_Q (s_cur_x s))) as [tx|] eqn:Ex; [|discriminate].
    destruct (pack _ _ _ (to_Q (s_cur_y s))) as [ty|] eqn:Ey; [|discriminate]. cbn [bind] in HP. injection HP as <-.
    destruct (grid_back to_Q _ _ _ _ Hv G1 G2 Gx _ Ex) as (qx & Ux & Qx). destruct (grid_back to_Q _ _ _ _ Hv G3 G4 Gy _ Ey) as (qy & Uy & Qy).
    assert (Hd : Forall (fun p => ad_id (snd p) = fst p /\ fst p <> main_id) (s_apertures s)).
    { rewrite Forall_forall in T2 |- *. intros [k a] Hi. specialize (T2 _ Hi). cbn [fst snd] in *. split; [exact T2|]. subst k. apply Hm.
      clear - T1 Hi. induction (s_apertures s) as [|[k b] d IH]; [destruct Hi|]. cbn [d_get d_keys map fst] in *. inversion T1 as [|? ? N1 N2]; subst.
      destruct Hi as [Hi|Hi]; [injection Hi as -> ->; rewrite str_eqb_refl; reflexivity|].
      destruct (str_eqb (ad_id a) k) eqn:E; [|auto]. apply str_eqb_eq in E. subst k. exfalso. apply N1. apply in_map_iff. exists (ad_id a, a). auto. }
    cbn [on_file visit visit_leaf with_state v_state fs_zeros fs_mode fs_xi fs_xd fs_yi fs_yd] in Hw.
    unfold on_d02, on_coords, read_coords, read_opt, read_coord in Hw.
    cbn [v_state with_state set_unit set_cf s_cf visitor_init cf_zeros cf_xi cf_xd cf_yi cf_yd bind] in Hw.
    rewrite Ux in Hw. cbn [bind] in Hw. rewrite Uy in Hw. cbn [bind] in Hw.
    cbn [with_state v_state update_coordinates set_cur set_xyij s_region set_unit set_cf state_default s_x s_y s_i s_j s_cur_x s_cur_y opt_or] in Hw.
    norm Hw. match type of Hw with on_file _ _ _ ?v0 = _ => set (v1 := v0) in Hw end.
    apply on_file_app in Hw. destruct (run_macros (s_macros s) v1) as (mac & E1). unfold macro_nodes at 1 in Hw. rewrite E1 in Hw. cbn [bind] in Hw. unfold v1 in Hw. norm Hw.
    apply on_file_app in Hw. unfold aperture_nodes in Hw. destruct (on_file H false (map _ (s_apertures s)) _) as [v2|] eqn:E2; [|discriminate]. cbn [bind] in Hw.
    apply (run_apertures _ Hd) in E2 as (per & x & -> & Hs).
    norm Hw. norm Hs.
    rewrite rebuild in Hw by exact T1. cbn [app] in Hw.
    apply on_file_app in Hw. match type of Hw with context [on_file _ _ (macro_nodes s) ?v0] => destruct (run_macros (s_macros s) v0) as (mac2 & E3) end.
    unfold macro_nodes in Hw. rewrite E3 in Hw. cbn [bind] in Hw. clear E3 E1. norm Hw.
    assert (Eplot : forall v : visitor K (cstate K), v_dispatch_region v = false ->
      visit H (NG (shown_plot (s_plot s))) v = Done (MkV (set_plot (shown_mode (s_plot s)) (v_state v)) (d01_table (shown_mode (s_plot s)) (s_arc (v_state v))) (v_d03 v) false (v_ext v))).
    { intros v Ev. destruct (s_plot s); cbn [shown_plot shown_mode visit visit_leaf on_g]; unfold dispatch; cbn [with_state v_state v_dispatch_region v_d03 v_ext]; rewrite Ev; reflexivity. }
    assert (Earc : forall v : visitor K (cstate K), v_dispatch_region v = false ->
      visit H (NG (shown_arc (s_arc s))) v = Done (MkV (set_arc (s_arc s) (v_state v)) (d01_table (s_plot (v_state v)) (s_arc s)) (v_d03 v) false (v_ext v))).
    { intros v Ev. destruct (s_arc s); cbn [shown_arc visit visit_leaf on_g]; unfold dispatch; cbn [with_state v_state v_dispatch_region v_d03 v_ext]; rewrite Ev; reflexivity. }
    cbn [app] in Hw. cbn [on_file] in Hw. rewrite Eplot in Hw by reflexivity. norm Hw. rewrite Earc in Hw by reflexivity. norm Hw.
    cbn [visit visit_leaf] in Hw. norm Hw.
    match type of Hw with on_file _ _ (select_node s ++ extra) ?v0 = _ => set (v3 := v0) in Hw end.
    apply on_file_app in Hw. unfold select_node in Hw. destruct (s_apid s) as [id|] eqn:Eid.
    - cbn [on_file visit visit_leaf] in Hw. unfold on_dnn in Hw. cbn beta zeta in Hw. destruct (current_aperture _) as [ap|] eqn:Eap; [|discriminate].
      cbn [bind] in Hw. eexists. split; [|exact Hw]. unfold ready, v3. rewrite Ef, Eid. clear - Hs Qx Qy. rewrite <- ?Qx, <- ?Qy. destruct f. do 17 (split; [reflexivity|]). exact Hs.
    - cbn [on_file bind] in Hw. exists v3. split; [|exact Hw]. unfold ready, v3. rewrite Ef, Eid. clear - Hs Qx Qy. rewrite <- ?Qx, <- ?Qy. destruct f. do 17 (split; [reflexivity|]). exact Hs.
  Qed.
  Lemma preview_app s extra P : preview to_Q s extra = Ok P -> exists base, preview to_Q s [] = Ok base /\ P = base ++ extra.
  Proof.
    unfold preview. destruct (s_cf s); [|discriminate]. destruct (pack_axis _ _ _ _ (s_cur_x s)); [|discriminate].
    destruct (pack_axis _ _ _ _ (s_cur_y s)); [|discriminate]. cbn [bind]. intros E; injection E as <-. eexists. split; [reflexivity|].
    cbn [app]. rewrite app_nil_r, <- !app_assoc. reflexivity.
  Qed.
  Lemma run_base s extra P w : reads_values (K := K) -> pen_on_grid to_Q s -> tidy s ->
    (forall a, d_get (ad_id a) (s_apertures s) = Some a -> ad_id a <> main_id) ->
    preview to_Q s extra = Ok P -> on_file H false P (visitor_init compiler_init) = Ok w ->
    exists v, ready s v /\ keyed (c_buffers (v_ext v)) /\ on_file H false extra v = Ok w.
  Proof.
    intros Hv Hg Ht Hm HP Hw. destruct (preview_app _ _ _ HP) as (base & HB & ->). apply on_file_app in Hw.
    destruct (on_file H false base _) as [v|] eqn:Eb; [|discriminate]. cbn [bind] in Hw. exists v.
    destruct (run_preview s base v Hv Hg Ht Hm [] HB Eb) as (v' & Hr & E). cbn [on_file] in E. injection E as ->. split; [exact Hr|]. split; [|exact Hw].
    eapply keyed_file; [|exact Eb]. intros k b E. cbn in E. destruct (str_eqb k _) eqn:E1; [|discriminate]. injection E as <-. apply str_eqb_eq in E1. symmetry. exact E1.
  Qed.
End Preview.

(** ** What the command draws in the file and in the illustration *)
Section Same.
  Context {K : Type} {NK : Num K} (to_Q : K -> Q) (clock : nat -> Z).
  Notation H := (compiler_hooks false clock).

  Lemma thickness_same dir (s s' : state K) : current_aperture s' = current_aperture s -> line_thickness dir s' = line_thickness dir s.
  Proof. intros E. unfold line_thickness. rewrite E. reflexivity. Qed.
  Definition around (p : plot_mode) (s s' : state K) : Prop :=
    start_point s' = start_point s /\ end_point s' = end_point s /\ current_aperture s' = current_aperture s /\
    is_negative s' = is_negative s /\ (p <> PmLinear -> coordinate_i s' = coordinate_i s /\ coordinate_j s' = coordinate_j s).
  Lemma draw_line_same s s' x x1 : start_point s' = start_point s -> end_point s' = end_point s ->
    current_aperture s' = current_aperture s -> is_negative s' = is_negative s -> draw_line false s x = Ok x1 ->
    exists ds, append_all ds x = Ok x1 /\ forall y, draw_line false s' y = append_all ds y.
  Proof.
    intros A B C D. unfold draw_line. cbn zeta. rewrite B, (thickness_same _ s s' C).
    destruct (line_thickness (end_point s) s) as [th|]; [|discriminate]. cbn [bind]. intros E. rewrite A, D.
    eexists. split; [exact E|]. intros y. cbn [bind]. unfold meta_of. reflexivity.
  Qed.
  Lemma draw_arc_same cw s s' x x1 : start_point s' = start_point s -> end_point s' = end_point s ->
    current_aperture s' = current_aperture s -> is_negative s' = is_negative s ->
    coordinate_i s' = coordinate_i s -> coordinate_j s' = coordinate_j s -> draw_arc false cw s x = Ok x1 ->
    exists ds, append_all ds x = Ok x1 /\ forall y, draw_arc false cw s' y = append_all ds y.
  Proof.
    intros A B C D Ei Ej. assert (Ec : arc_center s' = arc_center s).
    { unfold arc_center. unfold start_point in A. injection A as -> ->. rewrite Ei, Ej. reflexivity. }
    unfold draw_arc. cbn zeta. rewrite B, (thickness_same _ s s' C).
    destruct (line_thickness (end_point s) s) as [th|]; [|discriminate]. cbn [bind]. rewrite A, D, Ec, Ei, Ej. unfold meta_of.
    destruct (v_eqb (start_point s) (end_point s)); intros E; eexists; (split; [exact E|reflexivity]).
  Qed.

  Lemma main_empty s (v : visitor K (cstate K)) : ready s v -> drawn v = Some [].
  Proof.
    intros (_ & _ & _ & _ & _ & _ & _ & _ & _ & _ & _ & _ & _ & _ & _ & _ & _ & (S1 & _ & S3)).
    unfold drawn, current. rewrite S1. cbn [compiler_init c_stack]. rewrite S3. reflexivity.
  Qed.

  (** Coordinates of the command in both states. *)
  Lemma read_ready s v x y i j s1 s2 : ready s v ->
    (forall k, s_x s = Some k -> s_cur_x s = k) -> (forall k, s_y s = Some k -> s_cur_y s = k) ->
    read_coords x y i j s = Ok s1 -> read_coords x y i j (v_state v) = Ok s2 ->
    start_point s2 = start_point s1 /\ end_point s2 = end_point s1 /\
    (i <> None -> j <> None -> coordinate_i s2 = coordinate_i s1 /\ coordinate_j s2 = coordinate_j s1).
  Proof.
    intros (Rf & _ & _ & _ & _ & Rx & Ry & RX & RY & RI & RJ & _) Hx Hy E1 E2.
    apply read_coords_inv in E1 as (a1 & b1 & c1 & d1 & A1 & B1 & C1 & D1 & ->).
    apply read_coords_inv in E2 as (a2 & b2 & c2 & d2 & A2 & B2 & C2 & D2 & ->).
    assert (Rd : forall t isx, read_coord (v_state v) isx t = read_coord s isx t) by (intros; unfold read_coord; rewrite Rf; reflexivity).
    unfold read_opt in *. unfold start_point, end_point, coordinate_x, coordinate_y, coordinate_i, coordinate_j.
    cbn [set_xyij s_cur_x s_cur_y s_x s_y s_i s_j]. rewrite Rx, Ry. split; [reflexivity|]. split.
    - f_equal.
      + destruct x as [t|]; [rewrite Rd in A2; rewrite A1 in A2; injection A2 as ->; reflexivity|].
        injection A1 as <-. injection A2 as <-. rewrite RX. destruct (s_x s) as [k|] eqn:Es; cbn [opt_or]; [apply Hx; reflexivity|reflexivity].
      + destruct y as [t|]; [rewrite Rd in B2; rewrite B1 in B2; injection B2 as ->; reflexivity|].
        injection B1 as <-. injection B2 as <-. rewrite RY. destruct (s_y s) as [k|] eqn:Es; cbn [opt_or]; [apply Hy; reflexivity|reflexivity].
    - intros Hi Hj. destruct i as [t|]; [|congruence]. destruct j as [t'|]; [|congruence].
      rewrite Rd, C1 in C2. injection C2 as ->. rewrite Rd, D1 in D2. injection D2 as ->. split; reflexivity.
  Qed.
  Lemma ready_aperture s v x y i j s1 s2 : ready s v -> (exists id a, s_apid s = Some id /\ d_get id (s_apertures s) = Some a) ->
    read_coords x y i j s = Ok s1 -> read_coords x y i j (v_state v) = Ok s2 -> current_aperture s2 = current_aperture s1.
  Proof.
    intros (_ & _ & _ & _ & Ra & _ & _ & _ & _ & _ & _ & _ & Raps & _) (id & a & Hid & Ha) E1 E2.
    apply read_coords_inv in E1 as (a1 & b1 & c1 & d1 & _ & _ & _ & _ & ->).
    apply read_coords_inv in E2 as (a2 & b2 & c2 & d2 & _ & _ & _ & _ & ->).
    unfold current_aperture. cbn [set_xyij s_apid s_apertures s_blocks]. rewrite Ra, Raps, Hid, Ha. reflexivity.
  Qed.
  Lemma ready_negative s v x y i j s1 s2 : ready s v -> is_negative s = false ->
    read_coords x y i j s = Ok s1 -> read_coords x y i j (v_state v) = Ok s2 -> is_negative s2 = is_negative s1.
  Proof.
    intros (_ & _ & _ & _ & _ & _ & _ & _ & _ & _ & _ & Rt & _) Hn E1 E2.
    apply read_neg in E1 as (-> & _). apply read_neg in E2 as (-> & _). rewrite Hn. unfold is_negative. rewrite Rt. reflexivity.
  Qed.

  Lemma d01_same pre v x y i j v2 vp w : at_point H compiler_init pre v -> ready (v_state v) vp -> drawn v <> None ->
    s_region (v_state v) = false -> is_negative (v_state v) = false -> s_plot (v_state v) <> PmCcwArc ->
    (s_plot (v_state v) = PmLinear \/ i <> None /\ j <> None) ->
    (exists id a, s_apid (v_state v) = Some id /\ d_get id (s_apertures (v_state v)) = Some a) ->
    visit H (ND01 x y i j) v = Done v2 -> visit H (ND01 x y i j) vp = Done w ->
    exists ds, adds v v2 ds /\ drawn w = Some ds.
  Proof.
    intros Hp Hr Hd Hreg Hneg Hccw Hij Hap E1 E2. rewrite visit_is_leaf in E1, E2 by exact I.
    apply leaf_d01 in E1 as (s1 & R1 & D1 & _). apply leaf_d01 in E2 as (s2 & R2 & D2 & _).
    pose proof (settled_point H _ _ _ Hp) as (_ & _ & Sx & Sy). destruct (coherent_point H _ _ _ Hp) as (Hc & _).
    destruct (read_ready _ _ _ _ _ _ _ _ Hr Sx Sy R1 R2) as (A & B & C).
    pose proof (ready_aperture _ _ _ _ _ _ _ _ Hr Hap R1 R2) as Ha. pose proof (ready_negative _ _ _ _ _ _ _ _ Hr Hneg R1 R2) as Hn.
    rewrite Hreg in Hc. assert (Hv : v_d01 vp = d01_table (shown_mode (s_plot (v_state v))) (s_arc (v_state v))) by apply Hr.
    cbn [compiler_hooks hk_draw] in D1, D2. rewrite Hc in D1. rewrite Hv in D2.
    assert (Fin : (exists ds, append_all ds (v_ext v) = Ok (v_ext v2) /\ append_all ds (v_ext vp) = Ok (v_ext w)) -> exists ds, adds v v2 ds /\ drawn w = Some ds).
    { intros (ds & F1 & F2). exists ds. split; [apply grows_adds; [apply append_all_grows; exact F1|exact Hd]|].
      apply append_all_grows in F2. pose proof (main_empty _ _ Hr) as He. destruct (grows_adds vp w ds F2) as (old & O1 & O2); [congruence|].
      rewrite He in O1. injection O1 as <-. exact O2. }
    destruct (s_plot (v_state v)) eqn:Epl; [| |congruence].
    - assert (D1' : draw_line false s1 (v_ext v) = Ok (v_ext v2)) by (destruct (s_arc (v_state v)); exact D1).
      assert (D2' : draw_line false s2 (v_ext vp) = Ok (v_ext w)) by (destruct (s_arc (v_state v)); exact D2).
      apply Fin. destruct (draw_line_same s1 s2 _ _ A B Ha Hn D1') as (ds & F1 & F2). exists ds. split; [exact F1|]. rewrite <- F2. first [exact D2'|exact D2].
    - destruct Hij as [Hij|(Hi & Hj)]; [discriminate|]. destruct (C Hi Hj) as (Ci & Cj).
      destruct (s_arc (v_state v)); cbn [callback_for shown_mode d01_table on_draw] in D1, D2.
      + apply Fin. exists []. cbn [append_all]. auto.
      + apply Fin. destruct (draw_arc_same true s1 s2 _ _ A B Ha Hn Ci Cj D1) as (ds & F1 & F2). exists ds. split; [exact F1|]. rewrite <- F2. first [exact D2'|exact D2].
  Qed.
  Lemma d03_same pre v x y v2 vp w : at_point H compiler_init pre v -> ready (v_state v) vp -> drawn v <> None ->
    is_negative (v_state v) = false -> keyed (c_buffers (v_ext v)) -> keyed (c_buffers (v_ext vp)) ->
    (exists id a, s_apid (v_state v) = Some id /\ d_get id (s_apertures (v_state v)) = Some a) ->
    visit H (ND03 x y) v = Done v2 -> visit H (ND03 x y) vp = Done w ->
    exists ds, adds v v2 ds /\ drawn w = Some ds.
  Proof.
    intros Hp Hr Hd Hneg K1 K2 Hap E1 E2. rewrite visit_is_leaf in E1, E2 by exact I.
    apply leaf_d03 in E1 as (s1 & a1 & h1 & R1 & A1 & _ & D1 & _). apply leaf_d03 in E2 as (s2 & a2 & h2 & R2 & A2 & _ & D2 & _).
    pose proof (settled_point H _ _ _ Hp) as (_ & _ & Sx & Sy).
    destruct (read_ready _ _ _ _ _ _ _ _ Hr Sx Sy R1 R2) as (_ & B & _).
    pose proof (ready_aperture _ _ _ _ _ _ _ _ Hr Hap R1 R2) as Ha. pose proof (ready_negative _ _ _ _ _ _ _ _ Hr Hneg R1 R2) as Hn.
    rewrite Ha, A1 in A2. injection A2 as <-.
    assert (Em : state_matrix s2 = state_matrix s1).
    { apply read_neg in R1 as (_ & _ & _ & T1). apply read_neg in R2 as (_ & _ & _ & T2).
      destruct Hr as (_ & _ & _ & _ & _ & _ & _ & _ & _ & _ & _ & Rt & _). unfold state_matrix. rewrite T1, T2, Rt. reflexivity. }
    destruct Hap as (id & d & Hid & Hdd).
    assert (Had : a1 = ApAD d).
    { apply read_neg in R1 as (_ & T1 & T2 & _). unfold current_aperture in A1. rewrite T1, T2, Hid, Hdd in A1. injection A1 as <-. reflexivity. }
    subst a1. cbn [compiler_hooks hk_flash] in D1, D2.
    apply on_flash_cases in D1 as [(b1 & Q1 & D1)|(b1 & Q1 & _)]; [|discriminate]. injection Q1 as <-.
    apply on_flash_cases in D2 as [(b2 & Q2 & D2)|(b2 & Q2 & _)]; [|discriminate]. injection Q2 as <-.
    apply flash_aperture_inv in D1 as (u1 & y1 & U1 & V1). apply flash_aperture_inv in D2 as (u2 & y2 & U2 & V2).
    pose proof (aperture_buffer_grows _ _ _ _ _ U1) as G1. pose proof (aperture_buffer_grows _ _ _ _ _ U2) as G2.
    apply aperture_buffer_inv in U1 as (bs1 & T1 & _). apply aperture_buffer_inv in U2 as (bs2 & T2 & _).
    destruct (transformed_key_stored _ _ _ _ _ _ K1 T1) as [_ N1]. destruct (transformed_key_stored _ _ _ _ _ _ K2 T2) as [_ N2].
    apply append_current_grows in V1. apply append_current_grows in V2.
    pose proof (grows_trans _ _ _ _ _ G1 V1) as W1. pose proof (grows_trans _ _ _ _ _ G2 V2) as W2. cbn [app] in W1, W2.
    rewrite N2, Em, B, Hn in W2. rewrite N1 in W1. unfold meta_of in W1, W2.
    eexists. split; [apply grows_adds; [exact W1|exact Hd]|].
    pose proof (main_empty _ _ Hr) as He. destruct (grows_adds vp w _ W2) as (old & O1 & O2); [congruence|].
    rewrite He in O1. injection O1 as <-. exact O2.
  Qed.
End Same.

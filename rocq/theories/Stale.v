(** Proofs for C16 in files that define codes again. *)
From Verif Require Import Base Num Dict CoordModel CoordSpec CoordProofs Ast StateModel StateSpec StateProofs GeomModel
  CompilerModel LayerSpec LayerProofs LayerInv DrawSpec DrawProofs FlashSpec FlashProofs StaleSpec.

Section Cached.
  Context {K : Type} {NK : Num K} (md : bool) (clock : nat -> Z) (ABs : str -> Prop).
  Hypothesis AB_code : forall id, ABs id -> exists n, dcode id n.
  Notation H := (compiler_hooks (K := K) md clock).
  Notation bufs v := (c_buffers (v_ext v)).
  Notation plain := (plain (K := K)).

  Lemma plain_key id (m : mat K) : plain (layer_key id m) -> False.
  Proof. intros Hp. apply (Hp id (mtag m)); [exists m; reflexivity|reflexivity]. Qed.
  Lemma key_neq id k (m : mat K) : plain id -> str_eqb (layer_key k m) id = false.
  Proof. intros Hp. apply str_eqb_neq. intros E. rewrite <- E in Hp. exact (plain_key _ _ Hp). Qed.

  (** Copies paste copies. *)
  Definition closed (bs : dict (buffer K)) : Prop := forall k (m : mat K) b src,
    d_get (layer_key k m) bs = Some b -> pastes (bf_cmds b) src ->
    (exists k1 (m1 : mat K), src = layer_key k1 m1) /\ mem src bs.
  (** Copies stay. *)
  Definition lasts (bs bs' : dict (buffer K)) : Prop := forall k (m : mat K) b,
    d_get (layer_key k m) bs = Some b -> d_get (layer_key k m) bs' = Some b.
  Definition ready (x : cstate K) : Prop :=
    (forall id, In id (c_stack x) -> plain id) /\ keyed (c_buffers x) /\ closed (c_buffers x).
  Definition goes (x x' : cstate K) : Prop := ready x -> ready x' /\ lasts (c_buffers x) (c_buffers x').

  Lemma goes_refl x : goes x x.
  Proof. intros R. split; [exact R|]. intros k m b G. exact G. Qed.
  Lemma goes_trans x y z : goes x y -> goes y z -> goes x z.
  Proof. intros A B R. destruct (A R) as [R1 L1]. destruct (B R1) as [R2 L2]. split; [exact R2|]. intros k m b G. apply L2, L1, G. Qed.
  Lemma goes_same x x' : ((forall id, In id (c_stack x) -> plain id) -> forall id, In id (c_stack x') -> plain id) ->
    (ready x -> keyed (c_buffers x) -> keyed (c_buffers x')) ->
    (ready x -> forall k (m : mat K), d_get (layer_key k m) (c_buffers x') = d_get (layer_key k m) (c_buffers x)) -> goes x x'.
  Proof.
    intros A B C R. pose proof (C R) as C'. destruct R as (R1 & R2 & R3). split; [split; [auto|split; [apply B; [split|]; auto|]]|].
    - intros k m b src G P. rewrite C' in G. destruct (R3 _ _ _ _ G P) as [(k1 & m1 & ->) [b1 M]].
      split; [eauto|]. exists b1. rewrite C'. exact M.
    - intros k m b G. rewrite C'. exact G.
  Qed.
  Lemma goes_append d x x' : append_current d x = Ok x' -> goes x x'.
  Proof.
    intros E. pose proof E as E0. apply append_current_inv in E as (id & st & b & Es & Eb & ->).
    apply goes_same; [auto| |].
    - intros _ Hk. exact (keyed_append _ _ _ Hk E0).
    - intros (Hs & _) k m. cbn [set_buffers c_buffers]. rewrite d_get_set, key_neq; [reflexivity|].
      apply Hs. rewrite Es. left; reflexivity.
  Qed.
  Lemma goes_append_all ds : forall x x', append_all ds x = Ok x' -> goes x x'.
  Proof.
    induction ds as [|d r IH]; intros x x'; cbn [append_all].
    - intros E; injection E as <-. apply goes_refl.
    - destruct (append_current d x) as [x1|] eqn:E1; [|discriminate]. cbn [bind]. intros E.
      eapply goes_trans; [eapply goes_append; exact E1|apply IH; exact E].
  Qed.
  Lemma goes_contour c x : goes x (set_contour c x).
  Proof. apply goes_same; auto. Qed.
  Lemma goes_set id b x : plain id -> bf_id b = id -> goes x (set_buffer b x).
  Proof.
    intros Hp Hb. apply goes_same; [auto| |].
    - intros _ Hk. cbn [set_buffer c_buffers]. apply keyed_set; auto.
    - intros _ k m. cbn [set_buffer c_buffers]. rewrite Hb, d_get_set, key_neq; auto.
  Qed.

  Lemma closed_transformed f : forall (m : mat K) id bs b bs', keyed bs -> closed bs ->
    transformed f m id bs = Ok (b, bs') -> closed bs'.
  Proof.
    induction f as [|f IH]; intros m id bs b bs' Hk Hc; rewrite transformed_eq;
      (destruct (d_get (layer_key id m) bs) as [b1|] eqn:Ek; [intros E; injection E as _ <-; exact Hc|]); [discriminate|].
    destruct (get_buffer id bs) as [base|]; [|discriminate]. cbn [bind].
    assert (HL : forall cs acc deps bs r, keyed bs -> closed bs ->
      (forall src, pastes acc src -> (exists k1 (m1 : mat K), src = layer_key k1 m1) /\ mem src bs) ->
      copy_loop f m cs acc deps bs = Ok r ->
      keyed (snd r) /\ closed (snd r) /\
      forall src, pastes (fst (fst r)) src -> (exists k1 (m1 : mat K), src = layer_key k1 m1) /\ mem src (snd r)).
    { induction cs as [|[sh|p] cs IHc]; intros acc deps bs0 r Hk0 Hc0 Ha; cbn [copy_loop].
      - intros E; injection E as <-. auto.
      - apply IHc; auto. intros src (q & Hq & Es). apply Ha. apply in_app_or in Hq as [Hq|[Hq|[]]]; [exists q; auto|discriminate Hq].
      - destruct (transformed f m (pa_src p) bs0) as [[b2 bs2]|] eqn:E2; [|discriminate]. cbn [bind].
        destruct (transformed_key_stored m f _ _ _ _ Hk0 E2) as [S1 S2].
        apply IHc; [eapply keyed_transformed; eauto|eapply IH; eauto|].
        intros src (q & Hq & Es). apply in_app_or in Hq as [Hq|[Hq|[]]].
        + destruct (Ha src (ex_intro _ q (conj Hq Es))) as [A [b3 M]]. split; [exact A|]. exists b3. eapply transformed_old; eauto.
        + injection Hq as <-. cbn [pa_src] in Es. subst src. rewrite S2. split; [eauto|]. exists b2. exact S1. }
    destruct (copy_loop f m (bf_cmds base) [] [] bs) as [[[cmds deps] bs1]|] eqn:El; [|discriminate]. cbn [bind].
    intros E; injection E as _ <-.
    destruct (HL _ _ _ _ _ Hk Hc (fun src (P : pastes [] src) => match P with ex_intro _ q (conj Hq _) => match Hq with end end) El) as (A1 & A2 & A3).
    cbn [fst snd] in *. intros k m' b2 src. rewrite d_get_set.
    assert (Up : mem src bs1 -> mem src (d_set (layer_key id m) (MkBuf (layer_key id m) cmds deps) bs1)).
    { intros [b3 M]. unfold mem. rewrite d_get_set. destruct (str_eqb src (layer_key id m)); eauto. }
    destruct (str_eqb (layer_key k m') (layer_key id m)) eqn:E2.
    - intros E; injection E as <-. cbn [bf_cmds]. intros P. destruct (A3 src P) as [B1 B2]. auto.
    - intros G P. destruct (A2 _ _ _ _ G P) as [B1 B2]. auto.
  Qed.
  Lemma goes_aperture s id x b x' : aperture_buffer s id x = Ok (b, x') -> goes x x'.
  Proof.
    intros E. apply aperture_buffer_inv in E as (bs' & Et & ->). intros (R1 & R2 & R3). cbn [set_buffers c_buffers].
    split; [split; [exact R1|split; cbn [set_buffers c_buffers]]|].
    - eapply keyed_transformed; eauto.
    - eapply closed_transformed; eauto.
    - intros k m b0 G. eapply transformed_old; eauto.
  Qed.
  Lemma goes_flash h a s x x' : on_flash md h a s x = Ok x' -> goes x x'.
  Proof.
    intros E. apply on_flash_cases in E as [(ad & -> & E)|(id & -> & E)].
    - apply flash_aperture_inv in E as (b & x1 & E1 & E2).
      eapply goes_trans; [eapply goes_aperture; eauto|eapply goes_append; eauto].
    - apply flash_block_inv in E as (b & x1 & E1 & E2).
      eapply goes_trans; [eapply goes_aperture; eauto|eapply goes_append_all; eauto].
  Qed.
  Lemma goes_draw h s x x' : on_draw md h s x = Ok x' -> goes x x'.
  Proof.
    apply (P_draw md (fun y => goes x y)).
    - intros sh y y' Hy E. eapply goes_trans; [exact Hy|eapply goes_append; eauto].
    - intros c y Hy. eapply goes_trans; [exact Hy|apply goes_contour].
    - apply goes_refl.
  Qed.
  Lemma goes_flush s x x' : flush_region s x = Ok x' -> goes x x'.
  Proof.
    apply (P_flush (fun y => goes x y)).
    - intros sh y y' Hy E. eapply goes_trans; [exact Hy|eapply goes_append; eauto].
    - intros c y Hy. eapply goes_trans; [exact Hy|apply goes_contour].
    - apply goes_refl.
  Qed.
  Lemma goes_pop x : goes x (pop x).
  Proof. apply goes_same; auto. intros Hs i Hi. apply Hs. cbn [pop c_stack] in Hi. destruct (c_stack x); [exact Hi|right; exact Hi]. Qed.
  Lemma goes_ab_open id s x : ABs id -> goes x (ab_open id s x).
  Proof.
    intros Ha. destruct (AB_code id Ha) as [n Hn]. pose proof (plain_dcode (K := K) id n Hn) as Hp.
    eapply goes_trans; [apply (goes_set id (empty_buffer id) x Hp eq_refl)|].
    apply goes_same; auto. intros Hs i [<-|Hi]; auto.
  Qed.
  Lemma goes_sr_open uid s x : goes x (snd (sr_open clock uid s x)).
  Proof.
    unfold sr_open. cbn [snd]. set (id := stamp clock (lit "%%SR%") uid x).
    assert (Hp : plain id) by (apply (plain_stamp (K := K) (lit "%%SR%")); exists uid, (clock (length (c_stamps x))); reflexivity).
    eapply goes_trans; [apply (goes_set id (empty_buffer id) x Hp eq_refl)|].
    apply goes_same; auto. intros Hs i [<-|Hi]; auto.
  Qed.
  Lemma goes_sr_close tmp h s x x' : sr_tmp tmp -> sr_close tmp h s x = Ok x' -> goes x x'.
  Proof.
    intros Ht E. apply sr_close_inv in E as (b & nx & ny & dx & dy & x1 & Eb & _ & _ & _ & _ & Ea & ->).
    eapply goes_trans; [apply goes_pop|]. eapply goes_trans; [eapply goes_append_all; eauto|].
    apply goes_same; [auto|intros _ Hk; apply keyed_del; exact Hk|].
    intros _ k m. cbn [set_buffers c_buffers]. rewrite d_get_del, key_neq; [reflexivity|]. eapply plain_stamp; exact Ht.
  Qed.
  Lemma goes_ad a s x x' : (exists n, dcode (ad_id a) n) -> on_aperture md clock a s x = Ok x' -> goes x x'.
  Proof.
    intros [n Hn] E. pose proof (plain_dcode (K := K) _ n Hn) as Hp.
    apply on_aperture_inv in E as [(ds & -> & _)|(sc & m & Hm & ->)].
    - apply (goes_set (ad_id a)); [exact Hp|]. rewrite append_draws_id. reflexivity.
    - enough (X : goes x (ms_c m) /\ bf_id (ms_buf m) = ad_id a).
      { destruct X as [X1 X2]. eapply goes_trans; [exact X1|]. apply (goes_set (ad_id a)); auto. }
      induction Hm as [|m1 m2 _ [IH1 IH2] Hs]; [split; [apply (goes_set (ad_id a)); auto|reflexivity]|].
      destruct Hs as [ds Ec Eb _|uid ds c Ec Eb _]; rewrite Ec, Eb.
      + split; [exact IH1|rewrite append_draws_id; exact IH2].
      + split; [|rewrite append_draw_id; exact IH2]. eapply goes_trans; [exact IH1|]. unfold with_thermal.
        set (id := thermal_id clock uid (ms_c m1)).
        apply goes_trans with (MkC (c_buffers (ms_c m1)) (c_stack (ms_c m1)) (c_contour (ms_c m1)) (id :: c_stamps (ms_c m1))); [apply goes_same; auto|].
        apply (goes_set id); [|rewrite append_draws_id; reflexivity].
        apply (plain_stamp (K := K) (lit "%%Code7%")). exists uid, (clock (length (c_stamps (ms_c m1)))). reflexivity.
  Qed.
  Lemma goes_leaf n v v' : (forall a, n = NAD a -> exists k, dcode (ad_id a) k) ->
    visit_leaf H n v = Done v' \/ visit_leaf H n v = Stop v' -> goes (v_ext v) (v_ext v').
  Proof.
    intros Hn E. destruct (leaf_ext_spec H n v v' E) as [|x y i j h s x' -> Er -> Ed|x y h a s x' -> Er Ea Eh Ef|s x' Ef|s|s s' x' Ef|a s x' -> Ea].
    - apply goes_refl.
    - exact (goes_draw _ _ _ _ Ed).
    - exact (goes_flash _ _ _ _ _ Ef).
    - exact (goes_flush _ _ _ Ef).
    - apply goes_contour.
    - eapply goes_trans; [exact (goes_flush _ _ _ Ef)|apply goes_contour].
    - exact (goes_ad a s _ _ (Hn a eq_refl) Ea).
  Qed.

  Definition coded (pre : list (node K)) : Prop := forall a, In (NAD a) pre -> exists n, dcode (ad_id a) n.
  Lemma coded_app p q : coded (p ++ q) -> coded p.
  Proof. intros Hc a Ha. apply Hc, in_or_app. left; exact Ha. Qed.
  Lemma walk_goes pre v pre' v' : walk H ABs pre v pre' v' -> coded pre' -> goes (v_ext v) (v_ext v').
  Proof.
    induction 1 as [|pre1 v1 n v2 _ IH Hl E|pre1 v1 id _ IH Hid|pre1 v1 id _ IH Hid|pre1 v1 uid _ IH|pre1 v1 uid t hdr v2 _ IH E]; intros Hc.
    - apply goes_refl.
    - eapply goes_trans; [apply IH; eapply coded_app; exact Hc|]. apply goes_leaf with n; [|exact E].
      intros a ->. apply Hc, in_or_app. right; left; reflexivity.
    - eapply goes_trans; [apply IH; exact Hc|exact (goes_ab_open id (v_state v1) (v_ext v1) Hid)].
    - eapply goes_trans; [apply IH; eapply coded_app; exact Hc|exact (goes_pop (v_ext v1))].
    - eapply goes_trans; [apply IH; exact Hc|]. unfold sr_enter. cbn [compiler_hooks hk_sr_open].
      pose proof (goes_sr_open uid (v_state v1) (v_ext v1)) as He.
      destruct (sr_open clock uid (v_state v1) (v_ext v1)) as [tmp x']. exact He.
    - eapply goes_trans; [apply IH; exact Hc|]. unfold sr_leave in E. apply lift_done in E as (_ & _ & _ & _ & E).
      eapply goes_sr_close; [|exact E]. exists uid, t. reflexivity.
  Qed.
  Lemma point_walk pre v : named_point H compiler_init ABs pre v -> walk H ABs [] (visitor_init compiler_init) pre v.
  Proof.
    induction 1; [apply wk_here|eapply wk_leaf; eauto|apply wk_ab_enter; auto|apply wk_ab_leave; auto|apply wk_sr_enter; auto|eapply wk_sr_leave; eauto].
  Qed.
  Lemma walk_point pre v pre' v' : walk H ABs pre v pre' v' -> named_point H compiler_init ABs pre v -> named_point H compiler_init ABs pre' v'.
  Proof.
    induction 1; intros Hp; [exact Hp|eapply np_leaf; eauto|apply np_ab_enter; auto|apply np_ab_leave; auto|apply np_sr_enter; auto|eapply np_sr_leave; eauto].
  Qed.
  Lemma ready_init : ready compiler_init.
  Proof.
    split; [|split].
    - intros id [<-|[]]. apply plain_main.
    - intros k b. cbn [compiler_init c_buffers d_get]. destruct (str_eqb k main_id) eqn:E; [|discriminate].
      apply str_eqb_eq in E. intros E'; injection E' as <-. subst; reflexivity.
    - intros k m b src. cbn [compiler_init c_buffers d_get]. rewrite key_neq by apply plain_main. discriminate.
  Qed.
  Lemma ready_point pre v : named_point H compiler_init ABs pre v -> coded pre -> ready (v_ext v).
  Proof. intros Hp Hc. exact (proj1 (walk_goes _ _ _ _ (point_walk _ _ Hp) Hc ready_init)). Qed.

  Lemma apertures_named pre v : at_point H compiler_init pre v ->
    forall i b, d_get i (s_apertures (v_state v)) = Some b -> ad_id b = i.
  Proof.
    intros Hp.
    refine (point_inv H compiler_init (fun v (_ : unit) => forall i b, d_get i (s_apertures (v_state v)) = Some b -> ad_id b = i) (fun u _ => u) tt _ _ _ _ _ _ pre v Hp).
    - intros i b E. discriminate E.
    - intros n v1 v2 _ Hl IH E i b. destruct (frame_leaf H n v1 v2 E) as (F & _).
      destruct n; rewrite F; try apply IH. rewrite d_get_set. destruct (str_eqb i (ad_id a)) eqn:Ei; [|apply IH].
      intros E'; injection E' as <-. apply str_eqb_eq in Ei. auto.
    - auto.
    - auto.
    - intros u v1 _ IH. unfold sr_enter. destruct (hk_sr_open H u _ _). exact IH.
    - intros tmp hdr v1 v2 _ IH E. unfold sr_leave in E. apply lift_done in E as (-> & _). exact IH.
  Qed.

  (** What a flash of an aperture pastes. *)
  Lemma flash_key pre v id x y v' : named_point H compiler_init ABs pre v -> coded pre -> selects pre id -> drawn v <> None ->
    visit_leaf H (ND03 x y) v = Done v' ->
    let src := layer_key id (matrix_at pre) in
    mem src (bufs v') /\ (forall b, d_get src (bufs v) = Some b -> d_get src (bufs v') = Some b) /\
    exists me, adds v v' [DPaste (MkPaste src (pen_vec (pre ++ [ND03 x y])) (clear_at pre) me)].
  Proof.
    intros Hnp Hcd (Hsel & Hin) Hd E. pose proof (named_at md clock ABs _ _ Hnp) as Hp.
    destruct (ready_point _ _ Hnp Hcd) as (Hs & Hk & Hcl).
    assert (Ha : exists a, In (NAD a) pre /\ ad_id a = id).
    { unfold ad_codes in Hin. apply in_flat_map in Hin as (n & Hn & Hi). destruct n; try (destruct Hi; fail). destruct Hi as [<-|[]]. eauto. }
    destruct Ha as (a & Ha & <-).
    destruct (leaf_d03 H _ _ _ _ E) as (s & ap & h & Hr & Hap & _ & Hf & Hst).
    destruct (read_neg _ _ _ _ _ _ Hr) as (Hn & Hid & Haps & _). rewrite (negative_point H _ _ _ Hp) in Hn.
    pose proof (settled_point H _ _ _ Hp) as Hset. pose proof (end_vec _ _ _ _ _ _ _ Hset Hr) as He.
    unfold current_aperture in Hap. rewrite Hid, (pl_apid md clock _ _ Hp), Hsel, Haps in Hap.
    destruct (selected_apertures md clock pre v a Hp Ha) as (a' & Ea'). rewrite Ea' in Hap. apply Ok_inj in Hap. subst ap.
    cbn [compiler_hooks hk_flash] in Hf.
    assert (Ida : ad_id a' = ad_id a) by exact (apertures_named pre v Hp _ _ Ea').
    apply on_flash_cases in Hf as [(ad & Ead & Hf)|(id & Hx & _)]; [|discriminate]. injection Ead as <-. rewrite Ida in Hf.
    apply flash_aperture_inv in Hf as (b & x1 & Eb & Ea2).
    pose proof Eb as Eb0. apply aperture_buffer_inv in Eb0 as (bs' & Et & Ex1).
    assert (Em : state_matrix s = matrix_at pre).
    { rewrite <- (matrix_point md clock _ _ Hp). apply read_coords_inv in Hr as (x2 & y2 & i2 & j2 & _ & _ & _ & _ & ->). reflexivity. }
    destruct (transformed_key_stored _ _ _ _ _ _ Hk Et) as [S1 S2]. rewrite Em in S1, S2.
    destruct (goes_aperture _ _ _ _ _ Eb (conj Hs (conj Hk Hcl))) as [R1 L1].
    destruct (goes_append _ _ _ Ea2 R1) as [R2 L2].
    split; [|split].
    - exists b. apply L2. rewrite Ex1. exact S1.
    - intros b0 G. apply L2, L1, G.
    - exists (meta_of md (s_obj_attrs s)).
      apply aperture_buffer_grows in Eb. apply append_current_grows in Ea2.
      pose proof (grows_trans _ _ _ _ _ Eb Ea2) as Hg. cbn [app] in Hg.
      pose proof (grows_adds v v' _ Hg Hd) as Hadd. rewrite Hn, He, S2 in Hadd. rewrite pen_vec_of, pen_of_snoc. exact Hadd.
  Qed.
  Lemma shown_keys bs k j : closed bs -> shows bs k j -> (exists k1 (m1 : mat K), k = layer_key k1 m1) ->
    exists k1 (m1 : mat K), j = layer_key k1 m1 /\ mem j bs.
  Proof.
    intros Hc. induction 1 as [k b G|k b src j G P _ IH]; intros (k1 & m1 & ->).
    - exists k1, m1. split; [reflexivity|]. exists b; exact G.
    - apply IH. exact (proj1 (Hc _ _ _ _ G P)).
  Qed.
End Cached.

(** Streams that are accepted (C23); empty layers (C26). *)
From Verif Require Import Base Num Dict Ast StateModel GeomModel CompilerModel LayerProofs BoxModel VmModel BoxSpec BoxProofs VmSpec VmProofs VmInv VmSim.

Section Accept.
  Context {K : Type} {NK : Num K} (be : backend K) (fl : bool) (good : box K -> Prop).
  Implicit Types (m : vm K) (ls : dict (vlayer K)) (d : draw K) (c : cmd K).
  Hypothesis good_size : forall b, good b -> be_size be b = true.
  Hypothesis good_join : forall a b, good a -> good b -> good (b_join a b).
  Hypothesis good_shift : forall b v, good b -> good (b_shift b v).
  Hypothesis good_unshift : forall b v, good b -> good (b_unshift b v).

  Definition fine (closed : list str) d : Prop :=
    match d with DShape s => be_shape be s = None /\ good (shape_box s) | DPaste p => In (pa_src p) closed end.
  Record acc (cs : list (cmd K)) m open closed : Prop := {
    a_br : brackets cs = Some (open, closed);
    a_closed : forall j, In j closed -> exists b o l, d_get j (vm_layers m) = Some (LEager b o l);
    a_good : forall j b o l, d_get j (vm_layers m) = Some (LEager b o l) -> good b;
    a_open : forall x o l, In x open -> d_get (o_id x) (vm_layers m) = Some (LDeferred o l) -> (o_touched x = true -> l <> []) /\ Forall (fine closed) l;
    a_defer : vm_defer m = top_deferred (vm_layers m) (vm_stack m) }.

  Lemma fine_box ls closed d : (forall j, In j closed -> exists b o l, d_get j ls = Some (LEager b o l)) ->
    (forall j b o l, d_get j ls = Some (LEager b o l) -> good b) -> fine closed d -> exists b, draw_box ls d = Ok b /\ good b.
  Proof.
    intros H1 H2 Hf. destruct d as [s|p]; cbn [fine draw_box] in *; [exists (shape_box s); split; [reflexivity|apply Hf]|].
    destruct (H1 _ Hf) as (b & o & l & Hg). rewrite Hg. eexists. split; [reflexivity|]. apply good_unshift, good_shift. eapply H2; exact Hg.
  Qed.
  Lemma fine_boxes ls closed ds : (forall j, In j closed -> exists b o l, d_get j ls = Some (LEager b o l)) ->
    (forall j b o l, d_get j ls = Some (LEager b o l) -> good b) -> Forall (fine closed) ds -> forall a, good a -> exists b, join_boxes ls a ds = Ok b /\ good b.
  Proof.
    intros H1 H2 Hf. induction Hf as [|d r Hd _ IH]; intros a Ha; cbn [join_boxes]; [eauto|].
    destruct (fine_box _ _ _ H1 H2 Hd) as (b & -> & Hb). cbn [bind]. apply IH. auto.
  Qed.
  Lemma fine_deferred ls closed ds : (forall j, In j closed -> exists b o l, d_get j ls = Some (LEager b o l)) ->
    (forall j b o l, d_get j ls = Some (LEager b o l) -> good b) -> Forall (fine closed) ds -> ds <> [] -> exists b, deferred_box ls ds = Ok (Some b) /\ good b.
  Proof.
    intros H1 H2 Hf Hn. destruct Hf as [|d r Hd Hr]; [contradiction|]. cbn [deferred_box].
    destruct (fine_box _ _ _ H1 H2 Hd) as (b & -> & Hb). cbn [bind]. destruct (fine_boxes _ _ _ H1 H2 Hr b Hb) as (b' & -> & Hb'). cbn [bind]. eauto.
  Qed.
  Lemma fine_mono closed j d : fine closed d -> fine (j :: closed) d.
  Proof. destruct d; cbn [fine]; [auto|right; assumption]. Qed.

  Lemma acc_step cs c m open closed : inv be cs m -> acc cs m open closed -> proper good shape_box (be_shape be) cs c ->
    exists m' open' closed', vstep be fl c m m' /\ acc (cs ++ [c]) m' open' closed'.
  Proof.
    intros HI [Hb Hc Hgood Ho Hdef] (open0 & closed0 & Hb0 & HP). rewrite Hb in Hb0. injection Hb0 as <- <-.
    destruct HI as [(open0 & closed0 & Hb0 & Hst & Hok & Hnd & Hs & Hl & _) Hdup _ _ _ _]. rewrite Hb in Hb0. injection Hb0 as <- <-.
    destruct m as [ls st df lg]. cbn [vm_layers vm_stack vm_defer] in *. subst st df.
    destruct c as [id b o|d|].
    - destruct HP as [Hni HP]. assert (Hg : d_get id ls = None).
      { destruct (d_get id ls) eqn:E; [|reflexivity]. exfalso. apply Hni. apply Hl. rewrite E. discriminate. }
      assert (Hnin : ~ In id (map o_id open ++ closed)) by (intros H; apply Hni, Hs; exact H).
      assert (Hcl : forall j, In j closed -> j <> id) by (intros j Hj ->; apply Hnin; apply in_or_app; auto).
      assert (Hop : forall x, In x open -> o_id x <> id) by (intros x Hx <-; apply Hnin; apply in_or_app; left; apply in_map; exact Hx).
      destruct b as [b|]; eexists _, _, closed; (split; [constructor; auto|]); constructor; rewrite ?brackets_snoc, ?Hb; cbn [bracket_step vm_layers vm_stack vm_defer top_deferred];
        rewrite ?d_get_set_eq; auto.
      + intros j Hj. rewrite d_get_set_ne by auto. auto.
      + intros j b1 o1 l1. rewrite d_get_set. destruct (str_eqb j id); [intros H; injection H as -> _ _; exact HP|apply Hgood].
      + intros x o1 l1 [<-|Hx]; [cbn [o_id]; rewrite d_get_set_eq; discriminate|]. rewrite d_get_set_ne by auto. apply Ho; exact Hx.
      + intros j Hj. rewrite d_get_set_ne by auto. auto.
      + intros j b1 o1 l1. rewrite d_get_set. destruct (str_eqb j id); [discriminate|apply Hgood].
      + intros x o1 l1 [<-|Hx]; [cbn [o_id o_touched]; rewrite d_get_set_eq; intros H; injection H as <- <-; split; [discriminate|constructor]|].
        rewrite d_get_set_ne by auto. apply Ho; exact Hx.
    - assert (Hopen : open <> []) by (destruct d; apply HP).
      assert (Hfine : fine closed d) by (destruct d; apply HP). destruct open as [|x open]; [contradiction|]. clear Hopen.
      inversion Hok as [|? ? Hx Hr]; subst. unfold open_ok in Hx. cbn [map app top_deferred] in *. inversion Hnd as [|? ? Hn1 Hn2]; subst.
      assert (Hcl : forall j, In j closed -> j <> o_id x) by (intros j Hj ->; apply Hn1; apply in_or_app; auto).
      assert (Hop : forall y, In y open -> o_id y <> o_id x) by (intros y Hy E; apply Hn1; apply in_or_app; left; rewrite <- E; apply in_map; exact Hy).
      destruct (d_get (o_id x) ls) as [[b o l|o l]|] eqn:Eg; [| |contradiction]; cbn [is_deferred].
      + eexists _, _, closed. split; [apply vs_eager; [exact Eg|]|].
        * destruct d as [s|p]; cbn [drawable fine] in *; [apply Hfine|]. intros _. auto.
        * constructor; rewrite ?brackets_snoc, ?Hb; cbn [bracket_step vm_layers vm_stack vm_defer top_deferred]; rewrite ?d_get_set_eq; auto.
          -- intros j Hj. rewrite d_get_set_ne by auto. auto.
          -- intros j b1 o1 l1. rewrite d_get_set. destruct (str_eqb j (o_id x)); [intros H; injection H as -> _ _; eapply Hgood; exact Eg|apply Hgood].
          -- intros y o1 l1 [<-|Hy]; [cbn [o_id]; rewrite d_get_set_eq; discriminate|]. rewrite d_get_set_ne by auto. apply Ho; right; exact Hy.
      + eexists _, _, closed. split; [apply vs_defer; exact Eg|].
        constructor; rewrite ?brackets_snoc, ?Hb; cbn [bracket_step vm_layers vm_stack vm_defer top_deferred]; rewrite ?d_get_set_eq; auto.
        * intros j Hj. rewrite d_get_set_ne by auto. auto.
        * intros j b1 o1 l1. rewrite d_get_set. destruct (str_eqb j (o_id x)); [discriminate|apply Hgood].
        * intros y o1 l1 [<-|Hy].
          -- cbn [o_id]. rewrite d_get_set_eq. intros H. injection H as <- <-. split; [intros _ H; destruct l; discriminate|].
             apply Forall_app. split; [apply (Ho x o l); [left; reflexivity|exact Eg]|constructor; auto].
          -- rewrite d_get_set_ne by auto. apply Ho; right; exact Hy.
    - destruct open as [|x open]; [contradiction|].
      inversion Hok as [|? ? Hx Hr]; subst. unfold open_ok in Hx. cbn [map app] in *. inversion Hnd as [|? ? Hn1 Hn2]; subst.
      assert (Hcl : forall j, In j closed -> j <> o_id x) by (intros j Hj ->; apply Hn1; apply in_or_app; auto).
      assert (Hop : forall y, In y open -> o_id y <> o_id x) by (intros y Hy E; apply Hn1; apply in_or_app; left; rewrite <- E; apply in_map; exact Hy).
      assert (Hpr : present ls (map o_id open)).
      { destruct open as [|y open]; [exact I|]. cbn [map present]. inversion Hr as [|? ? Hy _]; subst. unfold open_ok in Hy. intros E. rewrite E in Hy. exact Hy. }
      destruct (d_get (o_id x) ls) as [[b o l|o l]|] eqn:Eg; [| |contradiction].
      + eexists _, _, (o_id x :: closed). split; [eapply vs_end_e; [exact Eg|exact Hpr]|].
        constructor; rewrite ?brackets_snoc, ?Hb; cbn [bracket_step vm_layers vm_stack vm_defer]; auto.
        * intros j [<-|Hj]; eauto.
        * intros y o1 l1 Hy Hg. destruct (Ho y o1 l1 (or_intror Hy) Hg) as [H1 H2]. split; [exact H1|]. eapply Forall_impl; [|exact H2]. intros e. apply fine_mono.
      + destruct Hx as [Hx1 Hx2]. destruct HP as [HP|HP]; [congruence|].
        destruct (Ho x o l (or_introl eq_refl) Eg) as [H1 H2]. specialize (H1 HP).
        destruct (fine_deferred ls closed l Hc Hgood H2 H1) as (b & Eb & Hbg).
        eexists _, _, (o_id x :: closed). split; [eapply vs_end_d; [exact Eg|exact H1|exact Eb|auto| |]|].
        * eapply Forall_impl; [|exact H2]. intros e He. destruct e as [s|p]; cbn [drawable fine] in *; [apply He|]. intros _. rewrite d_get_set_ne by auto. auto.
        * destruct open as [|y open]; [exact I|]. cbn [map present] in *. rewrite d_get_set_ne; [exact Hpr|]. apply Hop. left; reflexivity.
        * constructor; rewrite ?brackets_snoc, ?Hb; cbn [bracket_step vm_layers vm_stack vm_defer]; auto.
          -- intros j [<-|Hj]; [rewrite d_get_set_eq; eauto|]. rewrite d_get_set_ne by auto. auto.
          -- intros j b1 o1 l1. rewrite d_get_set. destruct (str_eqb j (o_id x)); [intros H; injection H as -> _ _; exact Hbg|apply Hgood].
          -- intros y o1 l1 Hy. rewrite d_get_set_ne by auto. intros Hg. destruct (Ho y o1 l1 (or_intror Hy) Hg) as [H3 H4]. split; [exact H3|].
             eapply Forall_impl; [|exact H4]. intros e. apply fine_mono.
  Qed.
  Lemma acc_exec cs : all_proper good shape_box (be_shape be) cs -> exists m open closed, exec be fl cs vm_init = Ok m /\ acc cs m open closed.
  Proof.
    induction cs as [|c cs IH] using rev_ind; intros H.
    - exists vm_init, [], []. split; [reflexivity|]. constructor; cbn; auto; try contradiction. discriminate.
    - destruct IH as (m & open & closed & E & HA). { intros pre c0 post ->. apply (H pre c0 (post ++ [c])). rewrite <- app_assoc. reflexivity. }
      destruct (acc_step cs c m open closed (exec_inv _ _ _ _ E) HA) as (m' & open' & closed' & HS & HA').
      { apply (H cs c []). reflexivity. }
      exists m', open', closed'. split; [apply exec_snoc; eauto|exact HA'].
  Qed.
  Lemma accepted cs : all_proper good shape_box (be_shape be) cs -> (exists closed, brackets cs = Some ([], closed) /\ In main_id closed) ->
    exists m b, vm_run be fl cs = Ok (m, Some b) /\ vm_stack m = [].
  Proof.
    intros H (closed & Hb & Hm). destruct (acc_exec cs H) as (m & open' & closed' & E & HA). destruct HA as [Hb' Hc _ _ _].
    rewrite Hb in Hb'. injection Hb' as <- <-. destruct (Hc _ Hm) as (b & o & l & Hg). exists m, b. split.
    - unfold vm_run. rewrite E. cbn [bind]. unfold vm_result. rewrite Hg. reflexivity.
    - destruct (exec_inv _ _ _ _ E) as [(open0 & closed0 & Hb0 & Hst & _) _ _ _ _ _]. rewrite Hb in Hb0. injection Hb0 as <- <-. exact Hst.
  Qed.
End Accept.

(** ** Empty layers *)
Section Empty.
  Context {K : Type} {NK : Num K} (be : backend K) (k : str) (o0 : vec K).
  Implicit Types (m : vm K) (ls : dict (vlayer K)) (d : draw K) (c : cmd K).

  Definition avoids c : Prop :=
    match c with KStart id _ _ => id <> k | KDraw (DPaste p) => pa_src p <> k | _ => True end.
  Definition avoids_d d : Prop := match d with DPaste p => pa_src p <> k | _ => True end.
  Record plus m m' : Prop := {
    p_stack : vm_stack m' = vm_stack m;
    p_defer : vm_defer m' = vm_defer m;
    p_log : vm_log m' = vm_log m;
    p_layers : forall j, j <> k -> d_get j (vm_layers m') = d_get j (vm_layers m);
    p_off : ~ In k (vm_stack m);
    p_ds : forall j o l, d_get j (vm_layers m) = Some (LDeferred o l) -> Forall avoids_d l }.

  Lemma draw_box_same ls ls' d : (forall j, j <> k -> d_get j ls' = d_get (V := vlayer K) j ls) -> avoids_d d -> draw_box ls' d = draw_box ls d.
  Proof. intros H Hd. destruct d as [s|p]; cbn [draw_box avoids_d] in *; [reflexivity|]. rewrite H by exact Hd. reflexivity. Qed.
  Lemma deferred_box_same ls ls' ds : (forall j, j <> k -> d_get j ls' = d_get (V := vlayer K) j ls) -> Forall avoids_d ds -> deferred_box ls' ds = deferred_box ls ds.
  Proof.
    intros H Hd. destruct Hd as [|d r Hd Hr]; cbn [deferred_box]; [reflexivity|]. rewrite (draw_box_same _ _ _ H Hd).
    destruct (draw_box ls d) as [b|]; [|reflexivity]. cbn [bind]. replace (join_boxes ls' b r) with (join_boxes ls b r); [reflexivity|].
    revert b. induction Hr as [|e r He _ IH]; intros b; cbn [join_boxes]; [reflexivity|]. rewrite (draw_box_same _ _ _ H He).
    destruct (draw_box ls e); [apply IH|reflexivity].
  Qed.

  Lemma plus_step fl c m m1 m' : plus m m' -> avoids c -> vstep be fl c m m1 -> exists m1', vstep be fl c m' m1' /\ plus m1 m1'.
  Proof.
    intros [P1 P2 P3 P4 P5 P6] Ha HS. destruct m' as [ls' st' df' lg']. cbn [vm_layers vm_stack vm_defer vm_log] in *.
    assert (Hset : forall id (v : vlayer K) ls, (forall j, j <> k -> d_get j ls' = d_get j ls) -> forall j, j <> k -> d_get j (d_set id v ls') = d_get j (d_set id v ls)).
    { intros id v ls H j Hj. rewrite !d_get_set. destruct (str_eqb j id); [reflexivity|auto]. }
    assert (Hpres : forall ls ls' st, (forall j, j <> k -> d_get (V := vlayer K) j ls' = d_get j ls) -> ~ In k st -> (present ls st <-> present ls' st) /\ top_deferred ls' st = top_deferred ls st).
    { intros ls ls'' st H Hk. destruct st as [|a st]; cbn [present top_deferred]; [split; reflexivity|]. rewrite H; [split; reflexivity|]. intros ->. apply Hk. left; reflexivity. }
    assert (Hset6 : forall id (v : vlayer K) ls, (forall o l, v = LDeferred o l -> Forall avoids_d l) ->
       (forall j o l, d_get j ls = Some (LDeferred o l) -> Forall avoids_d l) -> forall j o l, d_get j (d_set id v ls) = Some (LDeferred o l) -> Forall avoids_d l).
    { intros id v ls Hv H j o l. rewrite d_get_set. destruct (str_eqb j id); [intros E; injection E as ->; eapply Hv; reflexivity|apply H]. }
    destruct HS as [id o ls st df lg Hg|id b o ls st df lg Hg Hz|d ls id st lg o l Hg|d ls id st lg b o l Hg Hd|d ls lg Hz Hd
        |ls id st df lg b o l Hg Hpr|ls id st df lg o Hg Hf|ls id st df lg o ds b Hg Hn Hbx Hz Hd Hpr];
      cbn [vm_layers vm_stack vm_defer vm_log avoids] in *; subst st' df' lg'.
    - eexists. split; [apply vs_start_d; rewrite P4; assumption|]. constructor; cbn [vm_layers vm_stack vm_defer vm_log]; auto.
      + intros [H|H]; auto.
      + apply Hset6; [intros ? ? H; injection H as <- <-; constructor|exact P6].
    - eexists. split; [apply vs_start_e; [rewrite P4; assumption|exact Hz]|]. constructor; cbn [vm_layers vm_stack vm_defer vm_log]; auto.
      + intros [H|H]; auto.
      + apply Hset6; [intros ? ? H; discriminate|exact P6].
    - assert (Hk : id <> k) by (intros ->; apply P5; left; reflexivity).
      eexists. split; [apply vs_defer; rewrite P4; eassumption|]. constructor; cbn [vm_layers vm_stack vm_defer vm_log]; auto.
      apply Hset6; [|exact P6]. intros ? ? H; injection H as <- <-. apply Forall_app. split; [eapply P6; exact Hg|]. constructor; [destruct d; exact Ha|constructor].
    - assert (Hk : id <> k) by (intros ->; apply P5; left; reflexivity).
      eexists. split; [apply vs_eager; [rewrite P4; eassumption|]|].
      + destruct d as [s|p]; cbn [drawable] in *; [exact Hd|]. intros Hz. rewrite P4 by exact Ha. exact (Hd Hz).
      + constructor; cbn [vm_layers vm_stack vm_defer vm_log]; auto. apply Hset6; [intros ? ? H; discriminate|exact P6].
    - eexists. split; [apply vs_loose; [exact Hz|]|].
      + destruct d as [s|p]; cbn [drawable] in *; [exact Hd|]. congruence.
      + constructor; cbn [vm_layers vm_stack vm_defer vm_log]; auto.
    - assert (Hk : id <> k) by (intros ->; apply P5; left; reflexivity). assert (Hk' : ~ In k st) by (intros H; apply P5; right; exact H).
      destruct (Hpres ls ls' st P4 Hk') as [H1 H2]. rewrite <- H2.
      eexists. split; [eapply vs_end_e; [rewrite P4; eassumption|apply H1; exact Hpr]|]. constructor; cbn [vm_layers vm_stack vm_defer vm_log]; auto.
    - assert (Hk : id <> k) by (intros ->; apply P5; left; reflexivity). assert (Hk' : ~ In k st) by (intros H; apply P5; right; exact H).
      eexists. split; [eapply vs_end_empty; [rewrite P4; eassumption|exact Hf]|]. constructor; cbn [vm_layers vm_stack vm_defer vm_log]; auto.
    - assert (Hk : id <> k) by (intros ->; apply P5; left; reflexivity). assert (Hk' : ~ In k st) by (intros H; apply P5; right; exact H).
      pose proof (P6 _ _ _ Hg) as Hav.
      destruct (Hpres _ _ st (Hset id (LEager b o ds) ls P4) Hk') as [H1 H2]. rewrite <- H2.
      eexists. split; [eapply vs_end_d; [rewrite P4; eassumption|exact Hn| |exact Hz| |apply H1; exact Hpr]|].
      + rewrite (deferred_box_same ls ls' ds P4 Hav). exact Hbx.
      + rewrite Forall_forall in *. intros e He. specialize (Hd e He). specialize (Hav e He). destruct e as [s|p]; cbn [drawable avoids_d] in *; [exact Hd|].
        intros Hz'. specialize (Hd Hz'). rewrite Hset with (ls := ls); assumption.
      + constructor; cbn [vm_layers vm_stack vm_defer vm_log]; auto. apply Hset6; [intros ? ? H; discriminate|exact P6].
  Qed.
  Lemma plus_exec fl cs : forall m m1 m', plus m m' -> Forall avoids cs -> exec be fl cs m = Ok m1 -> exists m1', exec be fl cs m' = Ok m1' /\ plus m1 m1'.
  Proof.
    induction cs as [|c cs IH]; intros m m1 m' HP Ha E.
    - cbn [exec] in *. apply Ok_inj in E. subst. eauto.
    - inversion Ha as [|? ? Hc Hcs]; subst. apply exec_cons in E. destruct E as (m2 & HS & E).
      destruct (plus_step _ _ _ _ _ HP Hc HS) as (m2' & HS' & HP').
      destruct (IH _ _ _ HP' Hcs E) as (m1' & E' & HP1). exists m1'. split; [apply exec_cons; eauto|exact HP1].
  Qed.
  Lemma plus_refl_like fl cs : Forall avoids cs -> forall m, exec be fl cs vm_init = Ok m ->
    (forall j o l, d_get j (vm_layers m) = Some (LDeferred o l) -> Forall avoids_d l) /\ ~ In k (vm_stack m) /\ d_get k (vm_layers m) = None.
  Proof.
    intros Ha m E. assert (HP : plus vm_init vm_init).
    { constructor; cbn; auto. discriminate. }
    destruct (plus_exec fl cs _ _ _ HP Ha E) as (m1 & _ & [_ _ _ _ H5 H6]). split; [exact H6|]. split; [exact H5|].
    destruct (exec_inv _ _ _ _ E) as [(open & closed & _ & _ & _ & _ & _ & Hl & _) _ _ _ _ _].
    destruct (d_get k (vm_layers m)) eqn:Eg; [|reflexivity]. exfalso. assert (Hi : In k (started cs)) by (apply Hl; rewrite Eg; discriminate).
    unfold started in Hi. apply in_flat_map in Hi. destruct Hi as (c & Hc & Hi). rewrite Forall_forall in Ha. specialize (Ha c Hc).
    destruct c; cbn in Hi; [|contradiction|contradiction]. destruct Hi as [->|[]]. apply Ha. reflexivity.
  Qed.

  Lemma empty_harmless cs1 cs2 m b : Forall avoids (cs1 ++ cs2) -> harmless_place cs1 cs2 -> k <> main_id ->
    vm_run be false (cs1 ++ cs2) = Ok (m, b) ->
    exists m', vm_run be false (cs1 ++ [KStart k None o0; KEnd] ++ cs2) = Ok (m', b) /\
      (forall j, j <> k -> d_get j (vm_layers m') = d_get j (vm_layers m)) /\ vm_log m' = vm_log m /\ vm_stack m' = vm_stack m.
  Proof.
    intros Ha Hpl Hk E. unfold vm_run in E. destruct (exec be false (cs1 ++ cs2) vm_init) as [mf|] eqn:Ex; [|discriminate E]. cbn [bind] in E.
    rewrite exec_app in Ex. destruct (exec be false cs1 vm_init) as [m1|] eqn:E1; [|discriminate Ex]. cbn [bind] in Ex.
    apply Forall_app in Ha. destruct Ha as [Ha1 Ha2]. destruct (plus_refl_like false cs1 Ha1 m1 E1) as (H6 & H5 & Hg).
    pose proof (exec_inv _ _ _ _ E1) as HI.
    assert (Hgo : exists mf', exec be false ([KStart k None o0; KEnd] ++ cs2) m1 = Ok mf' /\ (forall j, j <> k -> d_get j (vm_layers mf') = d_get j (vm_layers mf)) /\
              vm_log mf' = vm_log mf /\ vm_stack mf' = vm_stack mf).
    { pose (m2 := MkVm (d_set k (LDeferred o0 []) (vm_layers m1)) (vm_stack m1) true (vm_log m1)).
      assert (E2 : exec be false [KStart k None o0; KEnd] m1 = Ok m2).
      { apply exec_cons. exists (MkVm (d_set k (LDeferred o0 []) (vm_layers m1)) (k :: vm_stack m1) true (vm_log m1)).
        split; [destruct m1; apply vs_start_d; exact Hg|]. apply exec_cons. exists m2. split; [|reflexivity].
        eapply vs_end_empty; [apply d_get_set_eq|reflexivity]. }
      rewrite exec_app, E2. cbn [bind].
      destruct HI as [(open & closed & Hb & Hst & Ho & _) _ _ Hm' _ _]. unfold harmless_place in Hpl. rewrite Hb in Hpl.
      assert (Hlay : forall j, j <> k -> d_get j (vm_layers m2) = d_get j (vm_layers m1)) by (intros j Hj; cbn [m2 vm_layers]; apply d_get_set_ne; exact Hj).
      assert (Hcase : match cs2 with KDraw _ :: _ => False | _ => True end /\ top_deferred (vm_layers m1) (vm_stack m1) = false \/ vm_defer m1 = true).
      { rewrite Hst. destruct open as [|x open]; [left; split; [exact Hpl|reflexivity]|]. cbn [map top_deferred].
        assert (Hx : open_ok (vm_layers m1) cs1 x) by (inversion Ho; assumption). unfold open_ok in Hx. rewrite Hst in Hm'. cbn [map top_deferred] in Hm'.
        destruct (d_get (o_id x) (vm_layers m1)) as [[]|]; cbn [is_deferred] in *; [|right; auto|contradiction].
        left. split; [|reflexivity]. destruct Hx as [Hx _]. destruct Hpl as [Hpl|Hpl]; [congruence|exact Hpl]. }
      destruct Hcase as [[Hnd Htd]|Hdt].
      - destruct cs2 as [|c cs2].
        + cbn [exec] in *. apply Ok_inj in Ex. subst mf. exists m2. split; [reflexivity|]. split; [exact Hlay|]. split; reflexivity.
        + apply exec_cons in Ex. destruct Ex as (m3 & HS & Ex). inversion Ha2 as [|? ? Hc Ha3]; subst.
          assert (Hst2 : exists m3', vstep be false c m2 m3' /\ plus m3 m3').
          { destruct m1 as [ls st df lg]. cbn [vm_stack vm_layers] in *. destruct c as [id bb o|d|]; [|contradiction|].
            - cbn [avoids] in Hc. destruct bb as [bb|].
              + inversion HS; subst. eexists. split; [apply vs_start_e; [cbn [vm_layers]; rewrite d_get_set_ne; assumption|assumption]|].
                constructor; cbn [vm_layers vm_stack vm_defer vm_log]; auto.
                * intros j Hj. rewrite !d_get_set. destruct (str_eqb j id); [reflexivity|]. destruct (str_eqb j k) eqn:Ejk; [apply str_eqb_eq in Ejk; contradiction|reflexivity].
                * intros [H|H]; auto.
                * intros j o1 l1. rewrite d_get_set. destruct (str_eqb j id); [discriminate|apply H6].
              + inversion HS; subst. eexists. split; [apply vs_start_d; cbn [vm_layers]; rewrite d_get_set_ne; assumption|].
                constructor; cbn [vm_layers vm_stack vm_defer vm_log]; auto.
                * intros j Hj. rewrite !d_get_set. destruct (str_eqb j id); [reflexivity|]. destruct (str_eqb j k) eqn:Ejk; [apply str_eqb_eq in Ejk; contradiction|reflexivity].
                * intros [H|H]; auto.
                * intros j o1 l1. rewrite d_get_set. destruct (str_eqb j id); [intros H; injection H as <- <-; constructor|apply H6].
            - unfold m2 in *. cbn [vm_layers vm_stack vm_log] in *. clear m2 E2 Hst.
              inversion HS as [| | | | |ls0 id0 st0 df0 lg0 b0 o1 l0 Hg0 Hpr0|ls0 id0 st0 df0 lg0 o1 Hg0 Hf0|ls0 id0 st0 df0 lg0 o1 ds0 b0 Hg0 Hn0 Hb0 Hz0 Hd0 Hpr0]; subst.
              + assert (Hk0 : ~ In k st0) by (intros H; apply H5; right; exact H). assert (Hk1 : id0 <> k) by (intros ->; apply H5; left; reflexivity).
                assert (Hsame : present (d_set k (LDeferred o0 []) ls) st0 /\ top_deferred (d_set k (LDeferred o0 []) ls) st0 = top_deferred ls st0).
                { destruct st0 as [|a st0]; [split; [exact I|reflexivity]|]. cbn [present top_deferred] in *. rewrite d_get_set_ne; [auto|]. intros ->. apply Hk0. left; reflexivity. }
                eexists. split; [eapply vs_end_e; [rewrite d_get_set_ne; eassumption|apply Hsame]|].
                constructor; cbn [vm_layers vm_stack vm_defer vm_log]; auto. apply Hsame.
              + cbn [top_deferred] in Htd. rewrite Hg0 in Htd. discriminate Htd.
              + cbn [top_deferred] in Htd. rewrite Hg0 in Htd. discriminate Htd. }
          destruct Hst2 as (m3' & HS' & HP). destruct (plus_exec false cs2 _ _ _ HP Ha3 Ex) as (mf' & Ef & [P1 _ P3 P4 _ _]).
          exists mf'. split; [apply exec_cons; eauto|]. auto.
      - assert (HP : plus m1 m2) by (constructor; auto).
        destruct (plus_exec false cs2 _ _ _ HP Ha2 Ex) as (mf' & Ef & [P1 _ P3 P4 _ _]). exists mf'. auto. }
    destruct Hgo as (mf' & E' & L & Lg & St). exists mf'. unfold vm_run. rewrite exec_app, E1. cbn [bind]. rewrite E'. cbn [bind].
    unfold vm_result in *. rewrite L by (intros H; apply Hk; symmetry; exact H).
    destruct (match d_get main_id (vm_layers mf) with Some (LEager b1 _ _) => Ok (Some b1) | Some (LDeferred _ _) => Err VAssertion | None => _ end) as [bb|]; [|discriminate E].
    cbn [bind] in *. apply Ok_inj in E. injection E as <- <-. auto.
  Qed.

  (** A drawing directly after an empty layer inside a layer with a box fails. *)
  Lemma empty_breaks cs m d : Forall avoids cs -> exec be false cs vm_init = Ok m -> top_deferred (vm_layers m) (vm_stack m) = false ->
    exec be false (cs ++ [KStart k None o0; KEnd; KDraw d]) vm_init = Err (match vm_stack m with [] => VNoLayer | _ => VAssertion end).
  Proof.
    intros Ha E Htd. destruct (plus_refl_like false cs Ha m E) as (_ & H5 & Hg).
    rewrite exec_app, E. cbn [bind exec step]. unfold on_start, d_mem. rewrite Hg. cbn [bind]. unfold on_end. cbn [vm_stack vm_layers].
    rewrite d_get_set_eq. cbn [deferred_box bind]. unfold pop_stack, on_draw_cmd, deferred_draw. cbn [vm_stack vm_layers vm_defer vm_log tl].
    destruct m as [ls st df lg]. cbn [vm_stack vm_layers] in *. destruct st as [|a st]; [reflexivity|].
    rewrite d_get_set_ne by (intros ->; apply H5; left; reflexivity). cbn [top_deferred] in Htd.
    destruct (d_get a ls) as [[]|]; [reflexivity|discriminate Htd|reflexivity].
  Qed.
End Empty.

Section Contents.
  Context {K : Type} {NK : Num K} (be : backend K) (fl : bool).
  Definition held (ls : dict (vlayer K)) (id : str) : list (draw K) := match content ls id with Some l => l | None => [] end.
  Lemma held_step c m m' id : vstep be fl c m m' ->
    held (vm_layers m') id = held (vm_layers m) id ++ given (vm_stack m) id [c] /\
    vm_stack m' = match c with KStart j _ _ => j :: vm_stack m | KEnd => tl (vm_stack m) | KDraw _ => vm_stack m end.
  Proof.
    intros HS. unfold held, content.
    destruct HS as [k o ls st df lg Hg|k b o ls st df lg Hg Hz|d ls k st lg o l Hg|d ls k st lg b o l Hg Hd|d ls lg Hz Hd
        |ls k st df lg b o l Hg Hpr|ls k st df lg o Hg Hf|ls k st df lg o ds b Hg Hn Hbx Hz Hd Hpr];
      cbn [vm_layers vm_stack given tl app]; rewrite ?app_nil_r; (split; [|reflexivity]); try reflexivity; rewrite d_get_set;
      destruct (str_eqb id k) eqn:E; try (apply str_eqb_eq in E; subst id; rewrite Hg, ?str_eqb_refl; reflexivity); try reflexivity.
    - destruct (str_eqb k id) eqn:E'; [apply str_eqb_eq in E'; subst; rewrite str_eqb_refl in E; discriminate|]. rewrite app_nil_r. reflexivity.
    - destruct (str_eqb k id) eqn:E'; [apply str_eqb_eq in E'; subst; rewrite str_eqb_refl in E; discriminate|]. rewrite app_nil_r. reflexivity.
  Qed.
  Lemma held_exec cs : forall m m' id, exec be fl cs m = Ok m' -> held (vm_layers m') id = held (vm_layers m) id ++ given (vm_stack m) id cs.
  Proof.
    induction cs as [|c cs IH]; intros m m' id E.
    - cbn in E. apply Ok_inj in E. subst. cbn [given]. rewrite app_nil_r. reflexivity.
    - apply exec_cons in E. destruct E as (m1 & HS & E). rewrite (IH _ _ id E). destruct (held_step c m m1 id HS) as [H1 H2]. rewrite H1, H2, <- app_assoc. f_equal.
      destruct c; cbn [given app]; try rewrite app_nil_r; reflexivity.
  Qed.
End Contents.

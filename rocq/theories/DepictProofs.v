(** Proofs for C80: the objects of the picture are those asked for. *)
From Coq Require Import Reals Qreals Lra Lia Psatz.
From Verif Require Import Base Num NumReal Dict CoordModel Ast StateModel StateSpec GeomModel CompilerModel GbModel GbSpec GeoSpec GeoProofs ShapeProofs SimilarProofs.
From Verif Require DrawSpec DrawProofs GeoProps RenderSpec FlashSpec.
From Verif Require Import DepictSpec DepictNodes DepictTrack DepictPads.
Open Scope R_scope.

Section Matrix.
  Context (text : R -> str).
  Notation NT := (RenderSpec.with_text NumR text).
  Lemma matrix_put (t : transform Q) mx my : GbSpec.mirrors (tr_mirroring t) mx my -> forall p,
    v_transform (matrix_of text t) p = put (Q2R (tr_rotation t)) mx my (Q2R (tr_scaling t)) p.
  Proof.
    intros Hm p. assert (E : matrix_of text t = mmul (mmul (mreflect mx my) (mrotate (Q2R (tr_rotation t)))) (mscale (Q2R (tr_scaling t)) (Q2R (tr_scaling t)))).
    { unfold matrix_of. destruct (tr_mirroring t), Hm as [-> ->]; reflexivity. }
    rewrite E. rewrite (proj1 (GeoProps.C28_composition _ _ _ (built_mul _ _ (built_reflect _ _) (built_rotate _)) (built_scale _ _))).
    rewrite (proj1 (GeoProps.C28_composition _ _ _ (built_reflect _ _) (built_rotate _))).
    destruct (GeoProps.C28_actions (Q2R (tr_scaling t)) (Q2R (tr_scaling t)) 0 p) as (_ & -> & _ & _).
    destruct (GeoProps.C28_actions 0 0 (Q2R (tr_rotation t)) (MkVec (Q2R (tr_scaling t) * vx p) (Q2R (tr_scaling t) * vy p))) as (_ & _ & -> & _).
    match goal with |- v_transform _ ?w = _ => destruct (GeoProps.C28_actions 0 0 0 w) as (_ & _ & _ & ->) end.
    reflexivity.
  Qed.
  Lemma matrix_similar t : 0 < Q2R (tr_scaling t) -> similarity (matrix_of text t).
  Proof.
    intros Hs. exists (Q2R (tr_scaling t)). split; [exact Hs|]. intros u v.
    set (mx := match tr_mirroring t with MirX | MirXY => true | _ => false end). set (my := match tr_mirroring t with MirY | MirXY => true | _ => false end).
    assert (Hm : GbSpec.mirrors (tr_mirroring t) mx my) by (subst mx my; destruct (tr_mirroring t); split; reflexivity).
    rewrite !(matrix_put t mx my Hm). unfold put. generalize (Q2R (tr_scaling t)) (Q2R (tr_rotation t)) Hs. intros k r Hk.
    pose proof (sin2_cos2 (deg r)) as SC. unfold Rsqr in SC. unfold dist, norm, minus, turn, times. cbn [vx vy].
    set (s := sin (deg r)) in *. set (c := cos (deg r)) in *.
    transitivity (sqrt ((k * k) * ((s * s + c * c) * ((vx u - vx v) * (vx u - vx v) + (vy u - vy v) * (vy u - vy v))))).
    - f_equal. destruct mx, my; ring.
    - rewrite SC, Rmult_1_l, sqrt_mult_alt by nra. rewrite sqrt_square by lra. reflexivity.
  Qed.
  Lemma matrix_m00 t : 0 < Q2R (tr_scaling t) -> cos (deg (Q2R (tr_rotation t))) <> 0 -> m00 (matrix_of text t) <> 0.
  Proof.
    intros Hs Hc. set (mx := match tr_mirroring t with MirX | MirXY => true | _ => false end). set (my := match tr_mirroring t with MirY | MirXY => true | _ => false end).
    assert (Hm : GbSpec.mirrors (tr_mirroring t) mx my) by (subst mx my; destruct (tr_mirroring t); split; reflexivity).
    assert (E : m00 (matrix_of text t) = vx (minus (v_transform (matrix_of text t) (MkVec 1 0)) (v_transform (matrix_of text t) origin))).
    { rewrite minus_transform. cbn [lin vx minus origin]. cbn. ring. }
    rewrite E, !(matrix_put t mx my Hm). unfold put, minus, turn, times, origin. cbn [vx vy].
    set (c := cos _) in *. set (k := Q2R (tr_scaling t)) in *. assert (c * k <> 0) by (apply Rmult_integral_contrapositive_currified; lra).
    destruct mx; lra.
  Qed.
End Matrix.

Section Objects.
  Context (inside : shape R -> vec R -> Prop) (text : R -> str) (md : bool) (clock : nat -> Z) (h : history).
  Notation NT := (RenderSpec.with_text NumR text).

  Lemma flash_depicted n l pol rot mx my sc lk a s o : pad_look h n = Some lk -> looks (s_macros s) a lk -> placed s pol rot mx my sc ->
    near2 l (coordinate_x s) (coordinate_y s) -> sound_wish h (WPad n l pol rot mx my sc) ->
    flash_object inside text md clock a s o -> depicted inside h (WPad n l pol rot mx my sc) [o].
  Proof.
    intros Hlk Hl (_ & Hpol & Hrot & Hmir & Hsc) Hn (Hpos & Hs) (fs & nc & Hc & (s0 & x0 & x1 & b & Hm & Hon & HN & Hb & Hf) & ->).
    rewrite Hlk in Hs. destruct Hs as [Hs Hb0].
    assert (Hk : 0 < Q2R (tr_scaling (s_tr s))) by (rewrite (Qeq_eqR _ _ Hsc); apply real_pos; exact Hpos).
    assert (Epol : is_negative s = match pol with Clear => true | Dark => false end) by (unfold is_negative; rewrite Hpol; destruct pol; reflexivity).
    rewrite Epol. econstructor; [exact Hlk|exists (coordinate_x s), (coordinate_y s); split; [exact Hn|reflexivity]|].
    pose proof (aperture_shown inside md clock a lk nc (s_macros s) s0 x0 x1 b Hm Hon HN Hc Hb Hl Hs) as Hshown.
    pose proof (pad_shown inside clock (matrix_of text (s_tr s)) lk (bf_cmds b) (c_buffers x1) fs (matrix_similar text _ Hk)) as Hp.
    assert (E : put (Q2R rot) mx my (Q2R sc) = v_transform (matrix_of text (s_tr s))).
    { apply FunctionalExtensionality.functional_extensionality. intros p. rewrite (matrix_put text (s_tr s) mx my Hmir), (Qeq_eqR _ _ Hrot), (Qeq_eqR _ _ Hsc). reflexivity. }
    rewrite E. apply Hp; [|exact Hshown|exact Hf]. destruct Hb0 as [Hu|Hcos]; [left; exact Hu|right]. apply matrix_m00; [exact Hk|]. rewrite (Qeq_eqR _ _ Hrot). exact Hcos.
  Qed.

  (** *** Traces *)
  Notation objs := (Forall2 (RenderSpec.shape_object inside)).
  Lemma circle_disc P th m : 0 < th -> disc inside P th (false, inside (new_circle P th false m)).
  Proof. intros H. eexists. split; [|reflexivity]. intros _ p. apply GeoProps.C58_circle. exact H. Qed.
  Lemma neg_of_circle P th neg m : sh_neg (new_circle P th neg m : shape R) = neg. Proof. reflexivity. Qed.
  Lemma line_traced B E C th m os : 0 < th -> objs (DrawSpec.line_stroke B E th false m) os -> traced inside th PmLinear B E C os.
  Proof.
    intros Ht H. unfold DrawSpec.line_stroke in H. inversion H as [|? ? ? ? (s1 & E1 & ->) H1]; subst. injection E1 as <-.
    inversion H1 as [|? ? ? ? (s2 & E2 & ->) H2]; subst. injection E2 as <-. inversion H2 as [|? ? ? ? (s3 & E3 & ->) H3]; subst. injection E3 as <-. inversion H3; subst.
    constructor; [apply circle_disc; exact Ht| |apply circle_disc; exact Ht]. eexists. split; [|reflexivity]. intros N p. apply GeoProps.C58_line; assumption.
  Qed.
  Lemma arc_shaped cw (a b c : vec R) th m : 0 < th -> forall o, RenderSpec.shape_object inside (RenderSpec.arc_of (NK := NT) cw a b c th false m) o ->
    shaped inside (a <> c /\ dist a c = dist b c) (if cw then ring_line a b c th else ring_line b a c th) false o.
  Proof.
    intros Ht o (s & E & ->). unfold RenderSpec.arc_of in E. injection E as <-. exists (if cw then new_cw_arc a b c th false m else new_ccw_arc a b c th false m).
    split; [|destruct cw; reflexivity]. intros [H1 H2] p. destruct (GeoProps.C58_arcs a b c th false m p H1 H2 Ht) as [A1 A2]. destruct cw; assumption.
  Qed.
  Lemma v_eqb_true (a b : vec R) : v_eqb a b = true <-> a = b.
  Proof.
    unfold v_eqb. cbn [n_eqb NumR]. unfold r_eqb. destruct a as [a1 a2], b as [b1 b2]. cbn [vx vy]. destruct (Req_EM_T a1 b1) as [->|N]; [destruct (Req_EM_T a2 b2) as [->|N]|]; cbn [andb]; split; intros H; try reflexivity; try discriminate; injection H; congruence.
  Qed.
  Lemma shaped_weaken (P Q : Prop) f neg o : (Q -> P) -> shaped inside P f neg o -> shaped inside Q f neg o.
  Proof. intros H (s & A & B). exists s. split; [intros q; apply A, H; exact q|exact B]. Qed.

  Lemma dist_apart (B C : vec R) : B <> C -> dist B C <> 0.
  Proof.
    intros HN HD. apply HN. unfold dist in HD. apply norm_0 in HD. apply (f_equal vx) in HD as H1. apply (f_equal vy) in HD as H2. cbn in H1, H2. apply vec_eq; lra.
  Qed.
  Lemma between_traced mode B E O th m os : 0 < th -> objs (drawn_between text mode B E O false th m) os -> traced inside th mode B E (plus B O) os.
  Proof.
    intros Ht H. destruct mode; [exact (line_traced B E (plus B O) th m os Ht H)| |].
    all: unfold drawn_between in H; cbv zeta in H; change (DrawSpec.plus (NK := NT) B O) with (plus B O) in H; set (C := plus B O) in *;
      change (v_eqb (NK := NT) B E) with (v_eqb B E) in H; destruct (v_eqb B E) eqn:Ev.
    all: match type of Ev with _ = true => apply v_eqb_true in Ev; subst E | _ => assert (HBE : B <> E) by (intros X; apply v_eqb_true in X; congruence) end.
    1,3: assert (HL : v_len (NK := NT) O = dist B C) by (unfold C, dist, norm, v_len; cbn; f_equal; ring);
      pose proof (dist_apart B C) as HD0; rewrite HL in H;
      replace (MkVec (vx C - dist B C) (vy C)) with (minus C (MkVec (dist B C) 0)) in H by (apply vec_eq; cbn; ring);
      replace (MkVec (vx C + dist B C) (vy C)) with (plus C (MkVec (dist B C) 0)) in H by (apply vec_eq; cbn; ring).
    all: inversion H as [|? ? ? ? (s1 & E1 & ->) H1]; subst; injection E1 as <-.
    all: inversion H1 as [|? o2 ? ? O2 H2]; subst; inversion H2 as [|? o3 ? ? O3 H3]; subst.
    1,2: inversion H3 as [|? ? ? ? (s4 & E4 & ->) H4]; subst; injection E4 as <-; inversion H4; subst.
    3,4: destruct O3 as (s3 & E3 & ->); injection E3 as <-; inversion H3; subst.
    1,2: apply tr_full with (l := minus C (MkVec (dist B C) 0)) (r := plus C (MkVec (dist B C) 0)); try reflexivity; try discriminate; try (apply circle_disc; exact Ht).
    1,2,3,4: eapply shaped_weaken; [|first [exact (arc_shaped _ _ _ _ _ m Ht _ O2)|exact (arc_shaped _ _ _ _ _ m Ht _ O3)]].
    1,2,3,4: intros HN; specialize (HD0 HN); split; [intros X; apply (f_equal vx) in X; cbn in X; lra|unfold dist, norm; f_equal; cbn; ring].
    1,2: apply tr_arc; try discriminate; try assumption; try (apply circle_disc; exact Ht); apply (arc_shaped _ _ _ _ _ m Ht _ O2).
  Qed.

  Lemma plain_dark s : plain s -> is_negative s = false.
  Proof. intros (_ & H & _). unfold is_negative. rewrite H. reflexivity. Qed.
  (** What the builder writes: a centre for arcs only. *)
  Definition aimed (w : wish) : Prop :=
    match w with WTrace m _ _ _ c => match c with Some _ => m <> PmLinear | None => m = PmLinear end | _ => True end.
  Lemma wishes_aimed hs : Forall aimed (wishes hs).
  Proof.
    induction hs as [|[c ok] hs IH]; [constructor|]. cbn [wishes]. apply Forall_app. split; [exact IH|].
    destruct ok; cbn [negb]; [|constructor]. destruct c; try (constructor; fail).
    - destruct (comes_from _ _); repeat constructor.
    - destruct (both _ _) as [[? ?]|]; repeat constructor.
    - destruct (both _ _) as [[? ?]|]; repeat constructor. destruct clockwise; discriminate.
    - destruct (nth_call _ _) as [[[] ?]|]; repeat constructor.
  Qed.

  Lemma trace_depicted m w b e c a w' s os : current_aperture s = Ok (ApAD a) -> ad_template a = TCircle w' None -> (w' == w)%Q -> GbSpec.stroke s b e c ->
    aimed (WTrace m w b e c) -> (0 < w)%Q ->
    stroke_objects inside text (match m with PmLinear => HDrawLine | PmArc => HDrawCwMq | PmCcwArc => HDrawCcwMq end) s os -> depicted inside h (WTrace m w b e c) os.
  Proof.
    intros Ha Ht Hw (Hp & Hb & He & Hc) Haim Hpos H. destruct H as (th & mt & Hth & H); [destruct m; reflexivity|].
    specialize (Hth a w' Ha Ht). rewrite (Qeq_eqR _ _ Hw) in Hth. subst th. rewrite (plain_dark s Hp) in H.
    replace (mode_of _) with m in H by (destruct m; reflexivity).
    assert (RB : rounded b (real_vec (start_point s))) by (exists (s_cur_x s), (s_cur_y s); split; [exact Hb|reflexivity]).
    assert (RE : rounded e (real_vec (to_vec s))) by (exists (coordinate_x s), (coordinate_y s); split; [exact He|reflexivity]).
    destruct c as [c|].
    - eapply dp_arc; [exact RB|exact RE| |exact (between_traced m _ _ _ _ mt os (real_pos _ Hpos) H)].
      exists (coordinate_i (NK := NumQ) s), (coordinate_j (NK := NumQ) s). split; [exact Hc|reflexivity].
    - cbn in Haim. subst m. eapply dp_line; [exact RB|exact RE|]. exact (line_traced _ _ _ _ mt os (real_pos _ Hpos) H).
  Qed.

  (** *** Regions *)
  Notation renders := (renders inside text md clock).
  Definition step_inv (log : list (@call Q)) (c : @call Q) p os : Prop :=
    match c with
    | CFlash hd ap s => exists a p0 os0 o, ap = ApAD a /\ renders log p0 os0 /\ flash_object inside text md clock a s o /\
        p = option_map (fun c => (fst c, false)) p0 /\ os = os0 ++ [o]
    | CDraw hd s => if of_region hd
        then exists l ok, renders log (Some (l, ok)) os /\ p = Some (l ++ [call_stroke hd s], ok && quadrants hd)%bool
        else exists os0 new, renders log None os0 /\ stroke_objects inside text hd s new /\ p = None /\ os = os0 ++ new
    | CStartRegion => exists p0, renders log p0 os /\ p = Some ([], true)
    | CFlushRegion s => exists p0 os0 new, renders log p0 os0 /\ (forall l, p0 = Some (l, true) -> region_objects inside text l s new) /\
        p = option_map (fun _ => ([], true)) p0 /\ os = os0 ++ new
    | CEndRegion => exists p0, renders log p0 os /\ p = None
    end.
  Lemma renders_nil p os : renders [] p os -> p = None /\ os = [].
  Proof. intros H. inversion H; subst; auto; destruct log; discriminate. Qed.
  Lemma renders_snoc log c p os : renders (log ++ [c]) p os -> step_inv log c p os.
  Proof.
    intros H. remember (log ++ [c]) as l eqn:E. destruct H as [|l0 p os hd a s o H Hf|l0 os hd s new H Hr Hs|l0 l1 ok os hd s H Hr|l0 p os H|l0 p os s new H Hn|l0 p os H];
      [destruct log; discriminate|..]; apply app_inj_tail in E as [-> <-]; cbn [step_inv]; try rewrite Hr.
    - exists a, p, os, o. auto.
    - exists os, new. auto.
    - exists l1, ok. auto.
    - exists p. auto.
    - exists p, os, new. auto.
    - exists p. auto.
  Qed.
  Definition outline_call (k : d01_handler * state Q) : @call Q := CDraw (fst k) (snd k).
  Lemma renders_outline log ks : Forall (fun k => of_region (fst k) = true /\ quadrants (fst k) = true) ks -> forall p os,
    renders (log ++ map outline_call ks) p os ->
    exists p0, renders log p0 os /\ p = option_map (fun c => (fst c ++ map (fun k => call_stroke (fst k) (snd k)) ks, snd c)) p0.
  Proof.
    induction ks as [|k ks IH] using rev_ind; intros HF p os H.
    - rewrite app_nil_r in H. exists p. split; [exact H|]. destruct p as [[l ok]|]; cbn; rewrite ?app_nil_r; reflexivity.
    - apply Forall_app in HF as [HF Hk]. inversion_clear Hk as [|? ? [H1 H2] _]. rewrite map_app in H. cbn [map] in H. rewrite app_assoc in H.
      apply renders_snoc in H. cbn [step_inv outline_call] in H. rewrite H1 in H. destruct H as (l & ok & H & ->). destruct (IH HF _ _ H) as (p0 & Hp & E).
      exists p0. split; [exact Hp|]. destruct p0 as [[l0 ok0]|]; [|discriminate]. injection E as -> ->. cbn. rewrite H2, Bool.andb_true_r, map_app, app_assoc. reflexivity.
  Qed.
  Lemma outlined_calls b segs cs : outlined b segs cs -> exists ks, cs = map outline_call ks /\ Forall (fun k => of_region (fst k) = true /\ quadrants (fst k) = true) ks.
  Proof.
    intros H. induction H as [|b sg r st cs _ _ (ks & -> & HF)]; [exists []; split; constructor|].
    eexists ((_, st) :: ks). split; [reflexivity|]. constructor; [|exact HF]. destruct (seg_mode sg); split; reflexivity.
  Qed.
  Lemma outlined_around b segs cs : outlined b segs cs -> forall ks, cs = map outline_call ks -> forall p q segss,
    DrawProofs.strokes_chain p (map (fun k => call_stroke (fst k) (snd k)) ks) q ->
    Forall2 (DrawSpec.traces (NK := NT)) (map real_stroke (map (fun k => call_stroke (fst k) (snd k)) ks)) segss ->
    around b (real_vec p) segs (concat segss) /\ (segs <> [] -> rounded b (real_vec p) /\ concat segss <> []).
  Proof.
    intros H. induction H as [b|b sg r st cs Hst Hr IH]; intros ks E p q segss Hc HF.
    - destruct ks; [|discriminate]. inversion HF; subst. split; [constructor|contradiction].
    - destruct ks as [|[hd s] ks]; [discriminate|]. cbn [map outline_call fst snd] in E. injection E as Eh <- E. cbn [map fst snd DrawProofs.strokes_chain] in Hc, HF.
      destruct Hc as [-> Hc]. inversion HF as [|? g ? gs Ht HF' E1 E2]; subst segss. clear HF E1. specialize (IH ks E _ _ gs Hc HF') as [IH _]. cbn [concat].
      destruct Hst as (Hp & Hb & He & Hcen).
      assert (RB : rounded b (real_vec (start_point st))) by (exists (s_cur_x st), (s_cur_y st); split; [exact Hb|reflexivity]).
      assert (RE : rounded (seg_end sg) (real_vec (to_vec st))) by (exists (coordinate_x st), (coordinate_y st); split; [exact He|reflexivity]).
      cbn [call_stroke DrawSpec.sk_from DrawSpec.sk_to] in *.
      destruct sg as [e|e c|e c]; cbn [seg_mode seg_end seg_center] in *; subst hd; unfold DrawSpec.traces in Ht; cbn in Ht.
      1: { subst g. split; [|intros _; split; [exact RB|discriminate]]. constructor; assumption. }
      all: assert (RO : rounded (seen_from b c) (real_vec (off_vec st))) by (exists (coordinate_i (NK := NumQ) st), (coordinate_j (NK := NumQ) st); split; [exact Hcen|reflexivity]).
      all: change (@v_eqb R NT) with (@v_eqb R NumR) in Ht; change (@DrawSpec.plus R NT) with plus in Ht.
      all: match type of Ht with context [v_eqb ?x ?y] => destruct (v_eqb x y) eqn:Ev end; subst g.
      all: split; [|intros _; split; [exact RB|discriminate]].
      1,3: apply v_eqb_true in Ev; rewrite <- Ev in *.
      + exact (ar_full b _ _ true e c _ _ _ eq_refl RE RO IH).
      + exact (ar_full b _ _ false e c _ _ _ eq_refl RE RO IH).
      + apply (ar_arc b _ _ true e c _ _ _ _ eq_refl RE RO IH). intros X. apply v_eqb_true in X. congruence.
      + apply (ar_arc b _ _ false e c _ _ _ _ eq_refl RE RO IH). intros X. apply v_eqb_true in X. congruence.
  Qed.

  Lemma region_depicted b segs cs s0 s1 log p os : plain s0 -> plain s1 -> outlined b segs cs ->
    renders (log ++ [CStartRegion; CFlushRegion s0] ++ cs ++ [CFlushRegion s1; CEndRegion]) p os ->
    p = None /\ exists p0 os0 new, renders log p0 os0 /\ os = os0 ++ new /\ depicted inside h (WRegion b segs) new.
  Proof.
    intros _ Hp Ho H. destruct (outlined_calls _ _ _ Ho) as (ks & -> & HF).
    replace (log ++ _) with ((((((log ++ [CStartRegion]) ++ [CFlushRegion s0]) ++ map outline_call ks) ++ [CFlushRegion s1]) ++ [CEndRegion])) in H
      by (rewrite <- !app_assoc; reflexivity).
    apply renders_snoc in H as (p1 & H & ->). split; [reflexivity|].
    apply renders_snoc in H as (p2 & os1 & new & H & Hn & _ & ->).
    apply (renders_outline _ _ HF) in H as (p3 & H & ->).
    apply renders_snoc in H as (p4 & os2 & new2 & H & Hn2 & -> & ->).
    apply renders_snoc in H as (p5 & H & ->). specialize (Hn2 _ eq_refl). specialize (Hn _ eq_refl).
    exists p5, os2, new. split; [exact H|].
    assert (new2 = []) as ->. { destruct Hn2 as (? & ? & segss & _ & HS & ->). inversion HS; subst. reflexivity. }
    rewrite app_nil_r. split; [reflexivity|].
    destruct Hn as (q & q' & segss & Hc & HS & ->). cbn [app fst] in Hc, HS. rewrite (plain_dark _ Hp).
    destruct (outlined_around _ _ _ Ho ks eq_refl _ _ _ Hc HS) as [HA HB]. destruct segs as [|sg segs].
    - inversion HA; subst. constructor.
    - destruct (HB ltac:(discriminate)) as [HR HN]. destruct (concat segss) as [|x l]; [contradiction|].
      eapply dp_region; [discriminate|exact HR|exact HA].
  Qed.

  Lemma renders_depicts ws log os : Forall aimed ws -> Forall (sound_wish h) ws -> drawn h ws log -> forall p, renders log p os -> p = None /\ depicts inside h ws os.
  Proof.
    intros HA HS (parts & -> & HF). revert ws os HA HS HF. induction parts as [|part parts IH] using rev_ind; intros ws os HA HS HF p H.
    - inversion HF; subst. apply renders_nil in H as [-> ->]. split; [reflexivity|]. exists []. split; constructor.
    - apply Forall2_app_inv_r in HF as (ws0 & ws1 & HF & H1 & ->). inversion H1 as [|w ? ? ? Hw H0]; subst. inversion H0; subst. clear H0 H1.
      apply Forall_app in HA as [HA Aw]. apply Forall_app in HS as [HS Sw]. inversion_clear Aw as [|? ? Aw' _]. inversion_clear Sw as [|? ? Sw' _].
      rewrite concat_app in H. cbn [concat] in H. rewrite app_nil_r in H.
      assert (HX : p = None /\ exists p0 os0 new, renders (concat parts) p0 os0 /\ os = os0 ++ new /\ (p0 = None -> depicted inside h w new)).
      2: { destruct HX as (-> & p0 & os0 & new & Hr & -> & Hd). split; [reflexivity|]. destruct (IH _ _ HA HS HF _ Hr) as (-> & ps & -> & HP).
           exists (ps ++ [new]). split; [rewrite concat_app; cbn; rewrite app_nil_r; reflexivity|]. apply Forall2_app; [exact HP|]. constructor; [auto|constructor]. }
      destruct Hw as [n l pol rot mx my sc lk a s Hlk Hl Hpl Hn|m w b e c a w' s Ha Ht Hww Hst|b segs s0 s1 cs P0 P1 Ho].
      + apply renders_snoc in H as (a' & p0 & os0 & o & Ea & Hr & Hf & -> & ->). injection Ea as <-.
        destruct (IH _ _ HA HS HF _ Hr) as (-> & _). split; [reflexivity|]. exists None, os0, [o]. split; [exact Hr|]. split; [reflexivity|]. intros _.
        eapply flash_depicted; eassumption.
      + apply renders_snoc in H. cbn [step_inv] in H. replace (of_region _) with false in H by (destruct m; reflexivity).
        destruct H as (os0 & new & Hr & Hs & -> & ->). split; [reflexivity|]. exists None, os0, new. split; [exact Hr|]. split; [reflexivity|]. intros _.
        eapply trace_depicted; eassumption.
      + destruct (region_depicted _ _ _ _ _ _ _ _ P0 P1 Ho H) as (-> & p0 & os0 & new & Hr & -> & Hd). split; [reflexivity|]. exists p0, os0, new. auto.
  Qed.
End Objects.

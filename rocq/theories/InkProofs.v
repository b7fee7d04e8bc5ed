(** C85: contours, apertures and layers that are not empty. *)
From Coq Require Import Reals Lra Lia Permutation.
From Verif Require Import Base Num NumReal Dict CoordModel CoordSpec Ast StateModel StateSpec StateProofs ExprModel ExprSpec ExprProofs MacroSpec MacroProofs
  GeomModel CompilerModel LayerSpec LayerProofs LayerInv LayerOut DrawSpec DrawProofs FlashSpec FlashProofs RenderSpec RenderProofs AcceptSpec AcceptMacro InkSpec.

(** ** Contours *)
Section Contours.
  Context {K : Type} {NK : Num K} (md : bool) (clock : nat -> Z).
  Notation H := (compiler_hooks (K := K) md clock).

  Lemma outlined_snoc (pre : list (node K)) n : outlined (pre ++ [n]) <-> edge pre n \/ quiet n /\ outlined pre.
  Proof.
    split.
    - intros (p & m & q & E & He & Hq). destruct (exists_last (l := m :: q)) as (q' & z & Eq); [discriminate|].
      assert (E' : pre ++ [n] = (p ++ q') ++ [z]) by (rewrite <- app_assoc, <- Eq; exact E). apply app_inj_tail in E' as [-> <-].
      destruct q' as [|m' q']; cbn [app] in Eq; injection Eq as <- ->.
      + left. rewrite app_nil_r. exact He.
      + right. apply Forall_app in Hq as [H1 H2]. inversion H2; subst. split; [assumption|]. exists p, m, q'. auto.
    - intros [He|[Hq (p & m & q & -> & He & Hf)]].
      + exists pre, n, []. auto.
      + exists p, m, (q ++ [n]). split; [rewrite <- app_assoc; reflexivity|]. split; [exact He|]. apply Forall_app. auto.
  Qed.
  Lemma outlined_region (pre : list (node K)) : outlined pre -> in_region pre = true.
  Proof.
    induction pre as [|n pre IH] using rev_ind; [intros (p & m & q & E & _); destruct p; discriminate E|].
    rewrite outlined_snoc. unfold in_region, last_set in *. rewrite fold_left_app. cbn [fold_left]. intros [He|[Hq Ho]].
    - destruct n; try contradiction He. exact (proj1 He).
    - specialize (IH Ho). rewrite IH. destruct n; try reflexivity. destruct g; try reflexivity; contradiction Hq.
  Qed.
  Definition begun (v : visitor K (cstate K)) : Prop := exists g l, c_contour (v_ext v) = Some (g :: l).
  Lemma begun_same v v' : c_contour (v_ext v') = c_contour (v_ext v) -> begun v' <-> begun v.
  Proof. unfold begun. intros ->. reflexivity. Qed.
  Lemma on_flash_contour h a s x x' : on_flash md h a s x = Ok x' -> c_contour x' = c_contour (K := K) x.
  Proof.
    intros Ef. apply on_flash_cases in Ef as [(ad & _ & Hf)|(id & _ & Hf)].
    - apply flash_aperture_inv in Hf as (b & x1 & Eb & Ea). apply aperture_buffer_grows in Eb as (_ & Eb & _). apply append_current_grows in Ea as (_ & Ea & _). congruence.
    - apply flash_block_inv in Hf as (b & x1 & Eb & Ea). apply aperture_buffer_grows in Eb as (_ & Eb & _). apply append_all_grows in Ea as (_ & Ea & _). congruence.
  Qed.
  Lemma stroking (pre : list (node K)) : strokes pre \/ (plot_of pre <> PmLinear /\ arc_mode pre = SingleQuadrant).
  Proof. unfold strokes. destruct (plot_of pre); [left; left; reflexivity| |]; destruct (arc_mode pre); auto; right; split; auto; discriminate. Qed.
  Lemma begun_point pre v : at_point H compiler_init pre v -> begun v <-> outlined pre.
  Proof.
    induction 1 as [|pre v n v' Hp IH Hl E|pre v id Hp IH|pre v id Hp IH|pre v uid Hp IH|pre v tmp hdr v' Hp IH E].
    - split; [intros (g & l & X); discriminate X|intros (p & m & q & X & _); destruct p; discriminate X].
    - rewrite outlined_snoc. destruct (calls_back n) eqn:Ec.
      2:{ pose proof (leaf_quiet H n v v' Ec E) as Ex. rewrite (begun_same v v') by congruence. rewrite IH.
          assert (Q : ~ edge pre n /\ quiet n) by (destruct n; try discriminate Ec; try (split; [intros []|exact I]); destruct g; try discriminate Ec; (split; [intros []|exact I])). tauto. }
      destruct E as [E|E].
      2:{ destruct (leaf_stop _ _ _ _ E) as [[-> | ->] _]; discriminate Ec. }
      destruct n; try discriminate Ec.
      + destruct (leaf_adef H _ _ _ E) as (s & Es & _). apply on_aperture_contour in Es. rewrite (begun_same v v' Es), IH. cbn [edge quiet]. tauto.
      + cbn [edge quiet]. destruct (leaf_d01 H _ _ _ _ _ _ E) as (s & Hr & Hd & _).
        destruct (stroking pre) as [Hst|[Hp1 Hp2]].
        2:{ rewrite (begun_same v v'); [|rewrite (no_arc md clock pre v x y i j v' Hp Hp1 Hp2 E); reflexivity]. rewrite IH. unfold strokes. intuition congruence. }
        pose proof (pl_region H _ _ _ Hp) as Pr. fold (in_region pre) in Pr. pose proof (pl_plot H _ _ _ Hp) as Pp. fold (plot_of pre) in Pp.
        pose proof (pl_arc H _ _ _ Hp) as Pa. fold (arc_mode pre) in Pa. destruct (in_region pre) eqn:Er.
        * destruct (region_draw_traces md clock pre v x y i j s (v_d01 v) Hp Hr eq_refl) with (x' := v_ext v') as (l & sg & L1 & L2 & L3); auto.
          { rewrite Pp, Pa. destruct Hst as [-> | ->]; [reflexivity|destruct (plot_of pre); reflexivity]. }
          split; [intros _; left; auto|]. intros _. unfold begun. rewrite L2.
          assert (Hsg : sg <> []) by (unfold traces in L3; destruct (sk_mode _); subst sg; try discriminate; cbv zeta; destruct (v_eqb _ _); discriminate).
          destruct l as [|g l]; [destruct sg as [|g sg]; [congruence|]; cbn [app]; eauto|cbn [app]; eauto].
        * assert (Ex : c_contour (v_ext v') = c_contour (v_ext v)).
          { destruct (coherent_point H _ _ _ Hp) as [Hh _]. rewrite Hh, Pr, Pp, Pa in Hd. cbn [compiler_hooks hk_draw] in Hd.
            destruct (plot_of pre); cbn [callback_for] in Hd; [|destruct (arc_mode pre)|destruct (arc_mode pre)]; cbn [on_draw] in Hd;
              try (apply Ok_inj in Hd; rewrite <- Hd; reflexivity); [apply draw_line_grows in Hd as (ds & (_ & G & _) & _)|apply draw_arc_grows in Hd as (ds & (_ & G & _) & _)|apply draw_arc_grows in Hd as (ds & (_ & G & _) & _)]; exact G. }
          rewrite (begun_same v v' Ex), IH. intuition congruence.
      + cbn [edge quiet]. destruct (leaf_d02 H _ _ _ _ E) as (s & Hr & _ & Hf). rewrite (pl_region H _ _ _ Hp) in Hf. fold (in_region pre) in Hf.
        destruct (in_region pre) eqn:Er.
        * cbn [compiler_hooks hk_flush_region] in Hf. apply flush_cases in Hf as (l & ds & _ & Hc & _). split; [|tauto]. intros (g & l0 & X). congruence.
        * rewrite (begun_same v v') by congruence. rewrite IH. split; [|tauto]. intros Ho. apply outlined_region in Ho. congruence.
      + cbn [edge quiet]. destruct (leaf_d03 H _ _ _ _ E) as (s & a & h & _ & _ & _ & Hf & _). cbn [compiler_hooks hk_flash] in Hf. apply on_flash_contour in Hf.
        rewrite (begun_same v v' Hf), IH. tauto.
      + destruct g; try discriminate Ec; cbn [edge quiet].
        * destruct (leaf_g36 H _ _ E) as (s & Ex). split; [|tauto]. intros (g & l & X). rewrite Ex in X. discriminate X.
        * destruct (leaf_g37 H _ _ E) as (x & s & Ef & Ex). split; [|tauto]. intros (g & l & X). rewrite Ex in X. discriminate X.
    - exact IH.
    - rewrite outlined_snoc. cbn [edge quiet]. change (begun (ab_leave H id v)) with (begun v). tauto.
    - unfold sr_enter. cbn [compiler_hooks hk_sr_open]. exact IH.
    - unfold sr_leave in E. apply lift_done in E as (_ & _ & _ & _ & E). cbn [compiler_hooks hk_sr_close] in E.
      apply sr_close_contour in E. rewrite (begun_same v v' E). exact IH.
  Qed.
  (** A command draws something iff it marks. *)
  Lemma marks_leaf pre v n v' new : at_point H compiler_init pre v -> drawn v <> None -> visit_leaf H n v = Done v' \/ visit_leaf H n v = Stop v' ->
    adds v v' new -> draws pre n new -> new <> [] <-> marks pre n.
  Proof.
    intros Hp Hd E Ha (Em & _ & Harc).
    assert (Flush : forall s x', flush_region s (v_ext v) = Ok x' -> c_stack (v_ext v') = c_stack x' -> c_buffers (v_ext v') = c_buffers x' -> new <> [] <-> outlined pre).
    { intros s x' Ef E1 E2. apply flush_cases in Ef as (l & ds & Hc & _ & G & Eds). pose proof (grows_contour _ _ _ _ G) as G'.
      assert (Ea : new = ds).
      { apply (adds_fun _ _ _ _ Ha). unfold adds, drawn in *. destruct (current (v_ext v)) as [b|]; [|congruence].
        destruct (G' b eq_refl) as (b' & X1 & X2). exists (bf_cmds b). split; [reflexivity|].
        assert (Ecur : current (v_ext v') = current x') by (unfold current; rewrite E1, E2; reflexivity). rewrite Ecur, X1, X2. reflexivity. }
      rewrite <- (begun_point pre v Hp), Ea, Eds. unfold begun. rewrite Hc. destruct l as [|g l].
      - split; [congruence|]. intros (g & l & X). discriminate X.
      - split; [eauto|]. intros _. discriminate. }
    assert (Hstop : forall w, visit_leaf H n v = Stop w -> n = NM00 \/ n = NM02) by (intros w X; apply leaf_stop in X as [X _]; exact X).
    destruct n; cbn [emitted marks] in *; try (rewrite Em; split; [congruence|intros []]).
    - destruct E as [E|E]; [|destruct (Hstop _ E) as [X|X]; discriminate X]. destruct Em as (_ & E1 & E2).
      destruct (in_region pre) eqn:Er; [rewrite (E1 eq_refl); split; [congruence|intros [X _]; discriminate X]|].
      destruct (stroking pre) as [Hst|[Hp1 Hp2]].
      + split; [auto|]. intros _. destruct (plot_of pre) eqn:Epl; [destruct (E2 eq_refl eq_refl) as (th & m & ->); discriminate| |];
          (destruct Hst as [X|X]; [congruence|]); rewrite X in Harc; destruct (Harc eq_refl ltac:(discriminate)) as (f & a & l & -> & _); discriminate.
      + rewrite Hp2 in Harc. rewrite (Harc eq_refl Hp1). split; [congruence|]. intros [_ [X|X]]; congruence.
    - destruct E as [E|E]; [|destruct (Hstop _ E) as [X|X]; discriminate X].
      destruct (leaf_d02 H _ _ _ _ E) as (s & Hr & _ & Hf). rewrite (pl_region H _ _ _ Hp) in Hf. fold (in_region pre) in Hf.
      destruct (in_region pre) eqn:Er; [apply (Flush _ _ Hf); reflexivity|]. destruct Em as (_ & _ & Em). rewrite (Em eq_refl). split; [congruence|].
      intros Ho. apply outlined_region in Ho. congruence.
    - destruct Em as (src & m & ->). split; [auto|discriminate].
    - destruct g; cbn [emitted marks] in *; try (rewrite Em; split; [congruence|intros []]).
      destruct E as [E|E]; [|destruct (Hstop _ E) as [X|X]; discriminate X].
      destruct (leaf_g37 H _ _ E) as (x & s & Ef & Ex). apply (Flush _ _ Ef); rewrite Ex; reflexivity.
  Qed.
End Contours.

(** ** The main layer *)
Section Main.
  Context {K : Type} {NK : Num K} (md : bool) (clock : nat -> Z).
  Notation H := (compiler_hooks (K := K) md clock).
  Definition any_mark (ns : list (node K)) : Prop := exists p n q, ns = p ++ n :: q /\ marks p n.
  Lemma any_snoc pre n : any_mark (pre ++ [n]) <-> any_mark pre \/ marks pre n.
  Proof.
    split.
    - intros (p & m & q & E & Hm). destruct (exists_last (l := m :: q)) as (q' & z & Eq); [discriminate|].
      assert (E' : pre ++ [n] = (p ++ q') ++ [z]) by (rewrite <- app_assoc, <- Eq; exact E). apply app_inj_tail in E' as [-> <-].
      destruct q' as [|m' q']; cbn [app] in Eq; injection Eq as <- ->; [right; rewrite app_nil_r; exact Hm|left; exists p, m, q'; auto].
    - intros [(p & m & q & -> & Hm)|Hm]; [exists p, m, (q ++ [n]); rewrite <- app_assoc; auto|exists pre, n, []; auto].
  Qed.
  Lemma flat_marks ips ns : Forall is_leaf ns -> (forall a, In (NAD a) ns -> ad_id a <> main_id) ->
    forall pre v out v', flat_inv md clock pre v out -> (out <> [] <-> any_mark pre) -> on_file H ips ns v = Ok v' ->
    exists out', flat_inv md clock (pre ++ executed_file ips ns) v' out' /\ (out' <> [] <-> any_mark (pre ++ executed_file ips ns)).
  Proof.
    induction ns as [|n r IH]; intros Hl Hid pre v out v' I HR; cbn [on_file executed_file].
    - intros E; injection E as <-. rewrite app_nil_r. eauto.
    - inversion Hl as [|n' r' Hn Hr]; subst n' r'. rewrite (visit_is_leaf H n v Hn), (executed_leaf n Hn).
      assert (Hidn : forall a, n = NAD a -> ad_id a <> main_id) by (intros a ->; apply Hid; left; reflexivity).
      assert (Hidr : forall a, In (NAD a) r -> ad_id a <> main_id) by (intros a Ha; apply Hid; right; exact Ha).
      assert (Hstep : forall v1, visit_leaf H n v = Done v1 \/ visit_leaf H n v = Stop v1 ->
        exists out1, flat_inv md clock (pre ++ [n]) v1 out1 /\ (out1 <> [] <-> any_mark (pre ++ [n]))).
      { intros v1 E. destruct (flat_leaf md clock pre v out n v1 I Hn Hidn E) as (new & I1 & Hd1). exists (out ++ new). split; [exact I1|].
        pose proof I as [Hp Hst Hdr _ _ _]. pose proof I1 as [_ _ Hdr1 _ _ _].
        assert (Hdr0 : drawn v <> None) by (rewrite Hdr; discriminate).
        assert (Hadd : adds v v1 new) by (exists out; auto).
        rewrite any_snoc, <- HR, <- (marks_leaf md clock pre v n v1 new Hp Hdr0 E Hadd Hd1). destruct out, new; cbn [app]; intuition congruence. }
      destruct (visit_leaf H n v) as [v1|v1|e] eqn:Ev; [| |discriminate].
      + destruct (Hstep v1 (or_introl eq_refl)) as (out1 & I1 & R1). intros E. destruct (IH Hr Hidr _ _ _ _ I1 R1 E) as (out2 & I2).
        assert (Hst : match n with NM00 | NM02 => true | _ => false end = false) by (destruct n; try reflexivity; discriminate Ev).
        rewrite Hst. cbn [andb]. exists out2. rewrite app_assoc. exact I2.
      + destruct (Hstep v1 (or_intror eq_refl)) as (out1 & I1 & R1).
        destruct (leaf_stop _ _ _ _ Ev) as [Hst _].
        assert (Hs : match n with NM00 | NM02 => true | _ => false end = true) by (destruct Hst as [-> | ->]; reflexivity).
        rewrite Hs. cbn [andb]. destruct ips.
        * intros E; injection E as <-. eauto.
        * intros E. destruct (IH Hr Hidr _ _ _ _ I1 R1 E) as (out2 & I2). exists out2. rewrite app_assoc. exact I2.
  Qed.
  Lemma main_marks ips ns v : Forall is_leaf ns -> (forall a, In (NAD a) ns -> ad_id a <> main_id) ->
    on_file H ips ns (visitor_init compiler_init) = Ok v ->
    exists b, d_get main_id (c_buffers (v_ext v)) = Some b /\ (bf_cmds b <> [] <-> any_mark (executed_file ips ns)).
  Proof.
    intros Hl Hid E. destruct (flat_marks ips ns Hl Hid [] (visitor_init compiler_init) [] v) as (out & I & HR); [| |exact E|].
    - split; try reflexivity; [constructor|constructor|discriminate].
    - split; [congruence|]. intros (p & n & q & X & _). destruct p; discriminate X.
    - destruct I as [_ Hst Hd _ _ _]. cbn [app] in HR. unfold drawn, current in Hd. rewrite Hst in Hd.
      destruct (d_get main_id (c_buffers (v_ext v))) as [b|]; [|discriminate]. injection Hd as Hd. exists b. split; [reflexivity|].
      rewrite Hd. exact HR.
  Qed.
End Main.

(** ** Apertures *)
Section Apertures.
  Context (text : R -> str) (clock : nat -> Z).
  Notation NT := (with_text NumR text).
  Open Scope R_scope.
  Lemma appends_cmds ds : forall m : mstate (K := R), bf_cmds (ms_buf (ms_appends ds m)) = bf_cmds (ms_buf m) ++ ds /\ ms_c (ms_appends ds m) = ms_c m.
  Proof.
    induction ds as [|d ds IH]; intros m; [rewrite app_nil_r; split; reflexivity|]. change (ms_appends (d :: ds) m) with (ms_appends ds (ms_append d m)).
    destruct (IH (ms_append d m)) as [A B]. rewrite A, B. cbn [ms_append ms_buf ms_c]. rewrite append_draw_cmds, <- app_assoc. split; reflexivity.
  Qed.
  Lemma ring_some c o i neg m l : new_ring (NK := NT) c o i neg m = Ok l -> l <> [].
  Proof.
    unfold new_ring. cbv zeta. repeat match goal with |- context [if ?b then _ else _] => destruct b end; try discriminate; intros E; injection E as <-; discriminate.
  Qed.
  Lemma rings_some n c w d o i l : rings (NK := NT) n c w d o i = Ok l -> l <> [] <-> (1 <= n)%nat.
  Proof.
    destruct n as [|n]; cbn [rings]; [intros E; injection E as <-; split; [congruence|lia]|]. destruct (n_leb o w); [intros E; injection E as <-; split; [lia|discriminate]|].
    intros E. dbind E. injection E as <-. match goal with H : new_ring _ _ _ _ _ = Ok ?r |- _ => apply ring_some in H; split; [lia|]; intros _; destruct r; [congruence|discriminate] end.
  Qed.
  Definition full (c : cstate R) (ds : list (draw R)) : Prop :=
    forall src, pastes ds src -> exists b, d_get src (c_buffers c) = Some b /\ bf_cmds b <> [] /\ forall s, pastes (bf_cmds b) s -> pastes ds s.
  Lemma prim_marks md p (m m' : mstate (K := R)) : on_prim (NK := NT) clock md p m = Ok m' -> full (ms_c m) (bf_cmds (ms_buf m)) ->
    (exists ds, bf_cmds (ms_buf m') = bf_cmds (ms_buf m) ++ ds /\ (ds <> [] <-> marks_prim (at_scope (ms_scope m)) p)) /\ full (ms_c m') (bf_cmds (ms_buf m')).
  Proof.
    intros E HF. set (env := at_scope (ms_scope m)).
    assert (HE : forall e k, eval (NK := NT) (ms_scope m) e = Ok k <-> value env (meaning e) k) by (intros; apply eval_iff).
    assert (Grow : forall src ds, (exists b, d_get src (c_buffers (ms_c m)) = Some b /\ bf_cmds b <> [] /\ forall s, pastes (bf_cmds b) s -> pastes (bf_cmds (ms_buf m)) s) ->
      exists b, d_get src (c_buffers (ms_c m)) = Some b /\ bf_cmds b <> [] /\ forall s, pastes (bf_cmds b) s -> pastes (bf_cmds (ms_buf m) ++ ds) s).
    { intros src ds (b & A & B & C). exists b. split; [exact A|]. split; [exact B|]. intros s Hs. destruct (C s Hs) as (q & Q1 & Q2). exists q. split; [apply in_or_app; left; exact Q1|exact Q2]. }
    assert (None_ : m' = m \/ (ms_buf m' = ms_buf m /\ ms_c m' = ms_c m) -> ~ marks_prim env p ->
      (exists ds, bf_cmds (ms_buf m') = bf_cmds (ms_buf m) ++ ds /\ (ds <> [] <-> marks_prim env p)) /\ full (ms_c m') (bf_cmds (ms_buf m'))).
    { intros X Hn. assert (Y : ms_buf m' = ms_buf m /\ ms_c m' = ms_c m) by (destruct X as [->|X]; auto). destruct Y as [-> ->].
      split; [exists []; rewrite app_nil_r; split; [reflexivity|]; split; [congruence|tauto]|exact HF]. }
    assert (Shapes : forall ss : list (shape R), m' = ms_appends (map DShape ss) m -> (ss <> [] <-> marks_prim env p) ->
      (exists ds, bf_cmds (ms_buf m') = bf_cmds (ms_buf m) ++ ds /\ (ds <> [] <-> marks_prim env p)) /\ full (ms_c m') (bf_cmds (ms_buf m'))).
    { intros ss -> Hi. destruct (appends_cmds (map DShape ss) m) as [A B]. rewrite A, B. split.
      - exists (map DShape ss). split; [reflexivity|]. rewrite <- Hi. destruct ss; cbn [map]; split; congruence.
      - intros src (q & Hq & Es). apply in_app_or in Hq as [Hq|Hq]; [apply Grow, HF; exists q; auto|]. apply in_map_iff in Hq as (s & X & _). discriminate X. }
    assert (One : forall s, m' = ms_append (DShape s) m -> marks_prim env p ->
      (exists ds, bf_cmds (ms_buf m') = bf_cmds (ms_buf m) ++ ds /\ (ds <> [] <-> marks_prim env p)) /\ full (ms_c m') (bf_cmds (ms_buf m'))).
    { intros s X Hi. apply (Shapes [s]); [exact X|]. split; [auto|discriminate]. }
    destruct p; cbn [on_prim] in E; try (dbind E; injection E as E; eapply One; [symmetry; exact E|exact I]).
    - injection E as <-. apply None_; [auto|intros []].
    - destruct rotation; dbind E; injection E as E; eapply One; try (symmetry; exact E); exact I.
    - (* moire *)
      assert (E0 : forall k, n_ltb (Num := NT) (n0 (H := NT)) k = r_ltb 0 k) by (intros k; change (r_ltb (n0 (H := NumR)) k = r_ltb 0 k); rnum; reflexivity).
      dbind E. injection E as E. rewrite <- map_map in E. eapply Shapes; [symmetry; exact E|]. rewrite !E0 in *. clear E.
      match goal with |- map ?f (?c ++ ?r) <> [] <-> _ => assert (X : map f (c ++ r) <> [] <-> c <> [] \/ r <> []) by (destruct c, r; cbn; intuition congruence) end.
      rewrite X. clear X. cbn [marks_prim].
      assert (V : forall e k k', eval (NK := NT) (ms_scope m) e = Ok k -> value env (meaning e) k' -> k' = k) by (intros e k k' A B; apply HE in B; congruence).
      assert (Hc : forall A B : shape R, (if r_ltb 0 a6 && r_ltb 0 a5 then [A; B] else []) <> [] <-> 0 < a5 /\ 0 < a6).
      { intros A B. destruct (r_ltb 0 a6) eqn:L1; [destruct (r_ltb 0 a5) eqn:L2|]; cbn [andb]; rdec; (split; [intros X; try congruence; split; lra|intros X; try discriminate; lra]). }
      rewrite Hc.
      assert (Hr : a8 <> [] <-> 0 < a1 /\ 0 < a2 /\ 1 <= a4).
      { destruct (r_ltb 0 a2) eqn:L1; [destruct (r_ltb 0 a1) eqn:L2; [destruct (r_ltb 0 a4) eqn:L3|]|]; cbn [andb] in Eb8; rdec;
          try (injection Eb8 as <-; split; [congruence|lra]).
        apply rings_some in Eb8. rewrite Eb8. change (n_trunc (Num := NT) a4) with (r_trunc a4). pose proof (trunc_ge a4 1 ltac:(lia)) as T. split; [intros X; split; [exact L2|]; split; [exact L1|apply T; lia]|].
        intros (_ & _ & X). apply T in X. lia. }
      rewrite Hr. split.
      + intros [[X Y]|(X & Y & Z)]; [left; exists a5, a6|right; exists a1, a2, a4]; rewrite <- !HE; auto 10.
      + intros [(t' & l' & A & B & C & D)|(o' & w' & n' & A & B & C & D & F & G)].
        * rewrite (V _ _ _ Eb5 A) in C. rewrite (V _ _ _ Eb6 B) in D. auto.
        * rewrite (V _ _ _ Eb1 A) in D. rewrite (V _ _ _ Eb2 B) in F. rewrite (V _ _ _ Eb4 C) in G. auto 10.
    - (* thermal *)
      assert (V : forall e k k', eval (NK := NT) (ms_scope m) e = Ok k -> value env (meaning e) k' -> k' = k) by (intros e k k' A B; apply HE in B; congruence).
      assert (ES : n_sqrt (Num := NT) (n2 (H := NT)) = sqrt 2) by (change (sqrt (n2 (H := NumR)) = sqrt 2); rnum; reflexivity).
      assert (E0 : n0 (H := NT) = 0) by (change (n0 (H := NumR) = 0); rnum; reflexivity).
      dbind E. change (n_leb (Num := NT) a1 a2) with (r_leb a1 a2) in E. destruct (r_leb a1 a2) eqn:L1; rdec.
      { injection E as <-. apply None_; [auto|]. cbn [marks_prim]. intros (o' & i' & g' & A & B & _ & L & _). rewrite (V _ _ _ Eb1 A), (V _ _ _ Eb2 B) in L. lra. }
      dbind E. rewrite ES in E. change (n_leb (Num := NT) a2 (n_mul (Num := NT) a3 (sqrt 2))) with (r_leb a2 (a3 * sqrt 2)) in E. destruct (r_leb a2 (a3 * sqrt 2)) eqn:L2; rdec.
      { injection E as <-. apply None_; [auto|]. cbn [marks_prim]. intros (o' & i' & g' & A & B & C & _ & L). rewrite (V _ _ _ Eb2 B), (V _ _ _ Eb3 C) in L. lra. }
      rewrite E0 in E. change (n_leb (Num := NT) (n_sub (Num := NT) a1 a2) 0) with (r_leb (a1 - a2) 0) in E. destruct (r_leb (a1 - a2) 0) eqn:L3; rdec; [lra|].
      dbind E. injection E as <-. cbn [ms_append ms_buf ms_c]. rewrite append_draw_cmds. split.
      + eexists. split; [reflexivity|]. split; [|discriminate]. intros _. cbn [marks_prim]. exists a1, a2, a3. rewrite <- !HE. auto 10.
      + set (id := stamp clock (lit "%%Code7%") uid (ms_c m)) in *. intros src (q & Hq & Es).
        unfold set_buffer, set_buffers. cbn [c_buffers]. rewrite d_get_set.
        match goal with |- context [str_eqb src (bf_id ?b)] => set (nb := b) in *; assert (Hnb : bf_id nb = id /\ bf_cmds nb <> [] /\ forall s, ~ pastes (bf_cmds nb) s) end.
        { unfold nb. split; [rewrite append_draws_id; reflexivity|]. rewrite append_draws_cmds. cbn [empty_buffer bf_cmds app]. rewrite map_app. split; [destruct (map _ a5); discriminate|].
          intros s (q' & Q & _). apply in_app_or in Q as [Q|Q]; apply in_map_iff in Q as (? & X & _); discriminate X. }
        destruct Hnb as (Hid & Hne & Hno). rewrite Hid. destruct (str_eqb src id) eqn:Ei; [exists nb; split; [reflexivity|]; split; [exact Hne|]; intros s Hs; destruct (Hno s Hs)|].
        apply in_app_or in Hq as [Hq|[Hq|[]]]; [apply Grow, HF; exists q; auto|]. injection Hq as <-. cbn [pa_src] in Es. subst src. rewrite str_eqb_refl in Ei. discriminate.
    - dbind E. injection E as <-. apply None_; [right; split; reflexivity|intros []].
  Qed.
  Lemma marks_prim_ext env env' p : (forall v, env v = env' v) -> marks_prim env p -> marks_prim env' p.
  Proof.
    intros He. assert (V : forall e k, value env (meaning e) k -> value env' (meaning e) k) by (intros e k; apply value_ext; exact He).
    destruct p; cbn [marks_prim]; auto.
    - intros [(t & l & A & B & C)|(o & w & n & A & B & C & D)]; [left; exists t, l|right; exists o, w, n]; auto 10.
    - intros (o & i & g & A & B & C & D). exists o, i, g. auto 10.
  Qed.
  Lemma marks_body_ext ps : forall env env', (forall v, env v = env' v) -> marks_body env ps -> marks_body env' ps.
  Proof.
    induction ps as [|p ps IH]; intros env env' He; [trivial|].
    destruct p; cbn [marks_body]; try (intros [A|A]; [left; eapply marks_prim_ext; eauto|right; eapply IH; eauto]).
    intros (k & A & B). exists k. split; [eapply value_ext; eauto|]. eapply IH; [|exact B]. intros w. unfold upd. rewrite He. reflexivity.
  Qed.
  Lemma prims_marks md ps : forall m m' : mstate (K := R), on_prims (NK := NT) clock md ps m = Ok m' -> full (ms_c m) (bf_cmds (ms_buf m)) ->
    (exists ds, bf_cmds (ms_buf m') = bf_cmds (ms_buf m) ++ ds /\ (ds <> [] <-> marks_body (at_scope (ms_scope m)) ps)) /\ full (ms_c m') (bf_cmds (ms_buf m')).
  Proof.
    induction ps as [|p ps IH]; intros m m' E HF; cbn [on_prims] in E.
    - injection E as <-. split; [exists []; rewrite app_nil_r; split; [reflexivity|]; split; [congruence|intros []]|exact HF].
    - destruct (on_prim (NK := NT) clock md p m) as [m1|] eqn:E1; [|discriminate]. cbn [bind] in E.
      destruct (prim_marks md p m m1 E1 HF) as [(d1 & A1 & B1) HF1]. destruct (IH m1 m' E HF1) as [(d2 & A2 & B2) HF2]. split; [|exact HF2].
      exists (d1 ++ d2). split; [rewrite A2, A1, app_assoc; reflexivity|].
      assert (X : d1 ++ d2 <> [] <-> d1 <> [] \/ d2 <> []) by (destruct d1, d2; cbn [app]; intuition congruence). rewrite X, B1, B2. clear X A1 A2 B1 B2.
      assert (D : (exists v e, p = PAssign v e) \/ forall v e, p <> PAssign v e) by (destruct p; eauto; right; intros; discriminate).
      destruct D as [(v & e & ->)|D].
      + cbn [marks_prim marks_body]. apply assigned in E1 as (k & Hk & Hs).
        assert (Hu : forall w, at_scope (ms_scope m1) w = upd v (Some k) (at_scope (ms_scope m)) w) by (intros w; unfold at_scope, upd; rewrite Hs, d_get_set; reflexivity).
        split.
        * intros [[]|A]. exists k. split; [exact Hk|]. eapply marks_body_ext; [|exact A]. exact Hu.
        * intros (k' & Hk' & A). right. rewrite (value_det _ _ _ Hk' _ Hk) in A. eapply marks_body_ext; [|exact A]. intros w. symmetry. apply Hu.
      + rewrite (scope_kept text clock md p m m1 D E1). destruct p; try reflexivity. destruct (D v e eq_refl).
  Qed.
  Lemma aperture_marks md (a : ad R) (s : state R) x x' pre : (forall name, d_get name (s_macros s) = macros_of pre name) ->
    on_aperture (NK := NT) md clock a s x = Ok x' ->
    exists b, d_get (ad_id a) (c_buffers x') = Some b /\ (bf_cmds b <> [] <-> marks_aperture pre a) /\ full x' (bf_cmds b).
  Proof.
    intros HM. unfold on_aperture, marks_aperture. cbv zeta.
    assert (Fin : forall s0 h (b : buffer R), b = append_draws (DShape s0 :: h) (empty_buffer (ad_id a)) -> (forall d, In d h -> exists s, d = DShape s) ->
      exists b0, d_get (ad_id a) (c_buffers (set_buffer b x)) = Some b0 /\ (bf_cmds b0 <> [] <-> True) /\ full (set_buffer b x) (bf_cmds b0)).
    { intros s0 h b Eb Hh. assert (Hid : bf_id b = ad_id a) by (rewrite Eb, append_draws_id; reflexivity).
      assert (Hc : bf_cmds b = DShape s0 :: h) by (rewrite Eb, append_draws_cmds; reflexivity).
      exists b. unfold set_buffer, set_buffers. cbn [c_buffers]. rewrite Hid, d_get_set, str_eqb_refl. split; [reflexivity|]. split; [rewrite Hc; split; [trivial|discriminate]|].
      intros src (q & Hq & _). rewrite Hc in Hq. destruct Hq as [X|Hq]; [discriminate X|]. destruct (Hh _ Hq) as [? X]. discriminate X. }
    assert (Hole : forall h lim m d, In d (hole_of (NK := NT) h lim m) -> exists s, d = DShape s).
    { intros h lim m d. unfold hole_of. destruct h as [h|]; [|intros []]. destruct (n_ltb _ _); [|intros []]. intros [<-|[]]. eauto. }
    destruct (ad_template a) as [d h|w h0 h|w h0 h|d n r h|name ps].
    1-3: intros E; apply Ok_inj in E; subst x'; eapply Fin; [reflexivity|apply Hole].
    - intros E. dbind E. apply Ok_inj in E. subst x'. eapply Fin; [reflexivity|apply Hole].
    - rewrite HM. destruct (macros_of pre name) as [prims|]; [|discriminate]. intros E. dbind E. apply Ok_inj in E. subst x'.
      destruct (prims_marks _ prims _ _ Eb) as [(ds & A & B) HF]; [intros src (q & [] & _)|]. cbn [ms_buf empty_buffer bf_cmds app ms_scope] in A, B.
      match type of Eb with _ = Ok ?ms => set (m' := ms) in * end.
      assert (Hid : bf_id (ms_buf m') = ad_id a).
      { apply (on_prims_steps (NK := NT)) in Eb. apply prims_keep in Eb as [_ Eb]. exact Eb. }
      exists (ms_buf m'). unfold set_buffer, set_buffers. cbn [c_buffers]. rewrite Hid, d_get_set, str_eqb_refl. split; [reflexivity|]. split.
      + rewrite A, B. split.
        * intros X. exists prims, (at_scope (macro_scope ps)). split; [reflexivity|]. split; [apply macro_scope_binds|exact X].
        * intros (prims' & env & X & Hb & Y). injection X as <-. eapply marks_body_ext; [|exact Y]. apply binds_same with (match ps with Some l => l | None => [] end); [exact Hb|apply macro_scope_binds].
      + intros src Hp. cbn [c_buffers]. rewrite d_get_set. destruct (str_eqb src (ad_id a)) eqn:Es; [|apply HF; exact Hp].
        exists (ms_buf m'). split; [reflexivity|]. split; [|auto]. destruct Hp as (q & Hq & _). intros X. rewrite X in Hq. destruct Hq.
  Qed.
End Apertures.

(** ** Layers of flashes *)
Lemma copy_same {K} {NK : Num K} (bs : dict (buffer K)) M ds ds' : copy_cmds bs M ds ds' ->
  (ds' <> [] <-> ds <> []) /\ forall src', pastes ds' src' -> exists src, pastes ds src /\ copy_of bs M src src'.
Proof.
  induction 1 as [|s s' r r' _ _ [_ IH]|p p' r r' Hc _ _ _ [_ IH]].
  - split; [reflexivity|]. intros src' (q & [] & _).
  - split; [split; discriminate|]. intros src' (q & [X|Hq] & E); [discriminate X|]. destruct (IH src') as (src & (q0 & Hq0 & E0) & Hc); [exists q; auto|].
    exists src. split; [exists q0; split; [right; exact Hq0|exact E0]|exact Hc].
  - split; [split; discriminate|]. intros src' (q & [X|Hq] & E).
    + injection X as <-. subst src'. exists (pa_src p). split; [exists p; split; [left; reflexivity|reflexivity]|exact Hc].
    + destruct (IH src') as (src & (q0 & Hq0 & E0) & Hc'); [exists q; auto|]. exists src. split; [exists q0; split; [right; exact Hq0|exact E0]|exact Hc'].
Qed.
Section Flashes.
  Context (text : R -> str) (md : bool) (clock : nat -> Z).
  Notation NT := (with_text NumR text).
  Lemma flash_marks ips ns v (l : list (buffer R)) : Forall is_leaf ns ->
    (forall a, In (NAD a) ns -> exists n, dcode (ad_id a) n) ->
    NoDup (ad_codes (executed_file ips ns)) -> tells_apart (NK := NT) (executed_file ips ns) ->
    on_file (NK := NT) (@compiler_hooks R NT md clock) ips ns (visitor_init (NK := NT) compiler_init) = Ok v -> NoDup (c_stamps (v_ext v)) ->
    (forall b, In b l -> d_get (bf_id b) (c_buffers (v_ext v)) = Some b) ->
    forall pre post p a q b, executed_file ips ns = pre ++ post -> pre = p ++ NAD a :: q -> In b l -> bf_id b = layer_key (NK := NT) (ad_id a) (matrix_at (NK := NT) pre) ->
    (bf_cmds b <> [] <-> marks_aperture p a) /\
    forall src b', pastes (bf_cmds b) src -> d_get src (c_buffers (v_ext v)) = Some b' -> bf_cmds b' <> [] /\ forall src', ~ pastes (bf_cmds b') src'.
  Proof.
    intros Hl Hc Hd [Hpct Hm] E HN Hg pre post p1 a q1 b Ew Epre Hb Hid.
    set (whole := executed_file ips ns) in *. set (bs := c_buffers (v_ext v)) in *.
    assert (Hsub : forall a, In (NAD a) whole -> In (NAD a) ns).
    { clear - Hl. unfold whole. induction Hl as [|n r Hn _ IH]; intros a Ha; [destruct Ha|]. cbn [executed_file] in Ha. rewrite (executed_leaf n Hn) in Ha.
      destruct (match n with NM00 | NM02 => true | _ => false end && ips)%bool; cbn [app In] in Ha; destruct Ha as [Ha|Ha]; try (left; exact Ha); [destruct Ha|right; apply IH; exact Ha]. }
    set (ADs := fun id => exists a, In (NAD a) whole /\ ad_id a = id). set (Ms := fun M => exists p q, whole = p ++ q /\ M = matrix_at (NK := NT) p).
    assert (Hp : named_point (NK := NT) (@compiler_hooks R NT md clock) compiler_init (fun _ => False) whole v).
    { refine (named_file (NK := NT) md clock (fun _ => False) ips ns _ [] _ _ (np_start _ _ _) E). intros n Hn m Hmm. rewrite Forall_forall in Hl.
      specialize (Hl n Hn). destruct n; try contradiction; destruct Hmm as [<-|[]]; exact I. }
    assert (Minj : forall m m', Ms m -> Ms m' -> mtag (NK := NT) m = mtag (NK := NT) m' -> m = m') by (intros m m' (p & q & E1 & ->) (p2 & q2 & E2 & ->); eauto).
    destruct (named_inv (NK := NT) md clock Ms Hpct Minj ADs (fun _ => False)) with (pre := whole) (v := v) as [_ HI]; try assumption.
    - intros id (a0 & Ha0 & <-). auto.
    - intros id [].
    - intros id _ [].
    - intros a0 Ha0. exists a0. auto.
    - intros p q Eq. exists p, q. auto.
    - destruct (HI HN) as [HNv HD]. clear HI.
      assert (Hina : In (NAD a) whole) by (rewrite Ew, Epre, <- app_assoc; apply in_or_app; right; left; reflexivity).
      destruct (HD a Hina) as (p & q & s & x0 & x1 & b0 & u & c & D1 & D2 & D3 & D4 & D5 & D7 & D6).
      assert (Ep : p = p1).
      { apply (ad_split p q p1 (q1 ++ post) a); [rewrite <- D1; exact Hd|]. rewrite <- D1, Ew, Epre, <- app_assoc. reflexivity. }
      subst p1.
      assert (Hbase : base ADs (ad_id a)) by (left; exists a; auto).
      assert (Hnb : nb (NK := NT) ADs (ad_id a)) by (exists (ad_id a), []; split; [exact Hbase|split; [constructor|reflexivity]]).
      assert (G0 : d_get (ad_id a) bs = Some b0) by (apply D6; assumption).
      assert (Hcopy : copy_of (NK := NT) bs (matrix_at (NK := NT) pre) (ad_id a) (bf_id b)).
      { pose proof (layer_key_ext (NK := NT) (ad_id a) [] (matrix_at (NK := NT) pre)) as EK. change (LayerInv.ext (ad_id a) []) with (ad_id a) in EK.
        rewrite Hid, EK. apply (N_copy (NK := NT) _ _ _ _ _ HNv (ad_id a) []).
        - exists pre, post. auto.
        - exact Hbase.
        - constructor.
        - rewrite <- EK, <- Hid. exists b. apply Hg. exact Hb. }
      inversion Hcopy as [k k' c0 c1 C1 C2 C3]; subst k k'. rewrite G0 in C1. injection C1 as <-. rewrite (Hg b Hb) in C2. injection C2 as <-.
      destruct (aperture_marks text clock md a s x0 x1 p D2 D3) as (b1 & M1 & M2 & M3). rewrite D4 in M1. injection M1 as <-.
      destruct (copy_same (NK := NT) bs _ _ _ C3) as [S1 S2]. split; [rewrite S1; exact M2|].
      intros src b' Hsrc Hg'. destruct (S2 src Hsrc) as (src0 & Hp0 & Hcp). destruct (M3 src0 Hp0) as (bt & T1 & T2 & _).
      destruct (N_pastes (NK := NT) _ _ _ _ _ D5 _ _ _ Hnb D4 Hp0) as [T [bt' T1']]. rewrite T1 in T1'. injection T1' as <-.
      assert (G1 : d_get src0 bs = Some bt) by (apply D6; [apply (tnb_nb (NK := NT)); exact T|exact T1]).
      inversion Hcp as [k k' c0 c1 C1 C2 C4]; subst k k'. rewrite G1 in C1. injection C1 as <-. rewrite Hg' in C2. injection C2 as <-.
      destruct (copy_same (NK := NT) bs _ _ _ C4) as [S3 S4]. split; [apply S3; exact T2|]. intros src' Hs'. destruct (S4 src' Hs') as (src1 & Hp1 & _).
      exact (N_leaf (NK := NT) _ _ _ _ _ D5 _ _ _ T T1 Hp1).
  Qed.
End Flashes.

(** C85, first part: programs made of layers run only if nothing that is used is empty. *)
From Coq Require Import Reals Lra Permutation.
From Verif Require Import Base Num NumReal Dict CoordModel Ast StateModel GeomModel CompilerModel LayerSpec LayerProofs LayerInv LayerOut
  VmModel VmSpec VmProofs DrawSpec RenderSpec RenderProofs.

Section Machine.
  Context {K : Type} {NK : Num K} (be : backend K) (fl : bool).
  Hypothesis strict : be_strict be = true.
  Notation ex := (exec be fl).

  Definition eager (m : vm K) (id : str) : Prop := exists b o l, d_get id (vm_layers m) = Some (LEager b o l).
  Lemma exec_app cs1 cs2 (m m' : vm K) : ex (cs1 ++ cs2) m = Ok m' -> exists m1, ex cs1 m = Ok m1 /\ ex cs2 m1 = Ok m'.
  Proof.
    revert m. induction cs1 as [|c cs1 IH]; intros m; cbn [exec app]; [eauto|]. destruct (step be fl c m) as [m1|]; [|discriminate]. cbn [bind]. apply IH.
  Qed.
  (** Drawings of a layer without box are noted. *)
  Lemma noted id rest o ds : forall l (m m' : vm K), vm_stack m = id :: rest -> vm_defer m = true -> d_get id (vm_layers m) = Some (LDeferred o l) ->
    ex (map KDraw ds) m = Ok m' ->
    vm_stack m' = id :: rest /\ vm_defer m' = true /\ d_get id (vm_layers m') = Some (LDeferred o (l ++ ds)) /\
    forall j, j <> id -> d_get j (vm_layers m') = d_get j (vm_layers m).
  Proof.
    induction ds as [|d ds IH]; intros l m m' Hs Hd Hg E; cbn [map exec step] in E.
    - injection E as <-. rewrite app_nil_r. auto.
    - unfold on_draw_cmd in E. rewrite Hd in E. unfold deferred_draw in E. rewrite Hs, Hg in E. cbn [bind] in E.
      destruct (IH (l ++ [d])) with (3 := ltac:(cbn [vm_layers]; rewrite d_get_set, str_eqb_refl; reflexivity) : d_get id (vm_layers (MkVm (d_set id (LDeferred o (l ++ [d])) (vm_layers m)) (id :: rest) (vm_defer m) (vm_log m))) = Some (LDeferred o (l ++ [d])))
        (4 := E) as (A & B & C & D); [reflexivity|exact Hd|].
      rewrite <- app_assoc in C. repeat (split; [assumption|]). intros j Hj. rewrite (D j Hj). cbn [vm_layers]. rewrite d_get_set.
      destruct (str_eqb j id) eqn:Ej; [apply str_eqb_eq in Ej; congruence|reflexivity].
  Qed.
  (** Drawings of a layer with a box are painted, and need what they paste. *)
  Lemma painted id rest b o ds : forall l (m m' : vm K), vm_stack m = id :: rest -> vm_defer m = false -> d_get id (vm_layers m) = Some (LEager b o l) ->
    draw_all be ds m = Ok m' ->
    vm_stack m' = id :: rest /\ vm_defer m' = false /\ d_get id (vm_layers m') = Some (LEager b o (l ++ ds)) /\
    (forall j, j <> id -> d_get j (vm_layers m') = d_get j (vm_layers m)) /\
    (forall s, In (DShape s) ds -> be_shape be s = None) /\ (forall p, In (DPaste p) ds -> eager m (pa_src p)).
  Proof.
    induction ds as [|d ds IH]; intros l m m' Hs Hd Hg E; cbn [draw_all] in E.
    - injection E as <-. rewrite app_nil_r. repeat (split; [assumption|]). split; [reflexivity|]. split; intros ? [].
    - destruct (on_draw_cmd be d m) as [m1|] eqn:E1; [|discriminate]. cbn [bind] in E.
      assert (P : paint be d m = Ok m1 /\ (forall s, d = DShape s -> be_shape be s = None) /\ (forall p, d = DPaste p -> eager m (pa_src p))).
      { unfold on_draw_cmd in E1. rewrite Hd in E1. unfold eager_draw in E1. rewrite strict in E1. destruct d as [s|p].
        - destruct (be_shape be s) eqn:Eb; [discriminate|]. split; [exact E1|]. split; [intros s0 X; injection X as <-; exact Eb|discriminate].
        - destruct (d_get (pa_src p) (vm_layers m)) as [[b0 o0 l0|]|] eqn:Eg; try discriminate. split; [exact E1|]. split; [discriminate|].
          intros p0 X. injection X as <-. exists b0, o0, l0. exact Eg. }
      destruct P as (P & Q1 & Q2). unfold paint in P. rewrite Hs, Hg in P. injection P as <-.
      destruct (IH (l ++ [d])) with (3 := ltac:(cbn [vm_layers]; rewrite d_get_set, str_eqb_refl; reflexivity) : d_get id (vm_layers (MkVm (d_set id (LEager b o (l ++ [d])) (vm_layers m)) (id :: rest) (vm_defer m) (vm_log m ++ [(Some id, d)]))) = Some (LEager b o (l ++ [d])))
        (4 := E) as (A & B & C & D & F & G); [reflexivity|exact Hd|].
      rewrite <- app_assoc in C. repeat (split; [assumption|]).
      assert (Same : forall j, j <> id -> d_get j (d_set id (LEager b o (l ++ [d])) (vm_layers m)) = d_get j (vm_layers m)).
      { intros j Hj. rewrite d_get_set. destruct (str_eqb j id) eqn:Ej; [apply str_eqb_eq in Ej; congruence|reflexivity]. }
      split; [intros j Hj; rewrite (D j Hj); apply Same; exact Hj|]. split.
      + intros s [->|Hi]; [apply Q1; reflexivity|apply F; exact Hi].
      + intros p [->|Hi]; [apply Q2; reflexivity|]. destruct (G p Hi) as (b1 & o1 & l1 & G1). cbn [vm_layers] in G1.
        destruct (str_eqb (pa_src p) id) eqn:Ej; [apply str_eqb_eq in Ej; rewrite Ej; exists b, o, l; exact Hg|].
        rewrite Same in G1; [exists b1, o1, l1; exact G1|]. intros X. rewrite X, str_eqb_refl in Ej. discriminate.
  Qed.
  (** One layer. *)
  Lemma layer_end (b : buffer K) (m m' : vm K) : vm_stack m = [] -> ex (block_of b) m = Ok m' ->
    vm_stack m' = [] /\ (forall j, j <> bf_id b -> d_get j (vm_layers m') = d_get j (vm_layers m)) /\
    (eager m' (bf_id b) -> bf_cmds b <> []) /\ (forall s, In (DShape s) (bf_cmds b) -> be_shape be s = None) /\
    (forall src, pastes (bf_cmds b) src -> src <> bf_id b -> eager m src) /\ ~ eager m (bf_id b).
  Proof.
    intros Hs E. unfold block_of in E. cbn [exec step on_start] in E. unfold on_start in E.
    destruct (d_mem (bf_id b) (vm_layers m)) eqn:Em; [discriminate|]. cbn [bind] in E.
    assert (Hn : ~ eager m (bf_id b)).
    { intros (b0 & o0 & l0 & Hg). unfold d_mem in Em. rewrite Hg in Em. discriminate. }
    apply exec_app in E as (m1 & E1 & E2). set (o := MkVec n0 n0) in *.
    destruct (noted (bf_id b) (vm_stack m) o (bf_cmds b) []) with (3 := ltac:(cbn [vm_layers]; rewrite d_get_set, str_eqb_refl; reflexivity) : d_get (bf_id b) (vm_layers (MkVm (d_set (bf_id b) (LDeferred o []) (vm_layers m)) (bf_id b :: vm_stack m) true (vm_log m))) = Some (LDeferred o []))
        (4 := E1) as (A & B & C & D); [reflexivity|reflexivity|]. cbn [app] in C.
    assert (D' : forall j, j <> bf_id b -> d_get j (vm_layers m1) = d_get j (vm_layers m)).
    { intros j Hj. rewrite (D j Hj). cbn [vm_layers]. rewrite d_get_set. destruct (str_eqb j (bf_id b)) eqn:Ej; [apply str_eqb_eq in Ej; congruence|reflexivity]. }
    cbn [exec step] in E2. destruct (on_end be fl m1) as [m2|] eqn:E3; [|discriminate]. cbn [bind] in E2. injection E2 as <-.
    unfold on_end in E3. rewrite A, C in E3. destruct (bf_cmds b) as [|d ds] eqn:Ed.
    - cbn [deferred_box bind] in E3. destruct fl; [discriminate|]. injection E3 as <-. cbn [pop_stack vm_stack vm_layers]. rewrite A. cbn [tl].
      split; [exact Hs|]. split; [exact D'|]. split; [intros (b0 & o0 & l0 & Hg); cbn [vm_layers pop_stack] in Hg; congruence|].
      split; [intros s []|]. split; [intros src (p & [] & _)|exact Hn].
    - destruct (deferred_box (vm_layers m1) (d :: ds)) as [[bx|]|] eqn:Eb; cbn [bind] in E3; [| |discriminate].
      2: { cbn [deferred_box] in Eb. destruct (draw_box (vm_layers m1) d) as [b1|]; [|discriminate]. cbn [bind] in Eb. destruct (join_boxes (vm_layers m1) b1 ds); discriminate. }
      destruct (be_size be bx); [|discriminate].
      destruct (draw_all be (d :: ds) _) as [m3|] eqn:E4; [|discriminate]. cbn [bind] in E3.
      destruct (painted (bf_id b) (vm_stack m) bx o (d :: ds) []) with (3 := ltac:(cbn [vm_layers]; rewrite d_get_set, str_eqb_refl; reflexivity) : d_get (bf_id b) (vm_layers (MkVm (d_set (bf_id b) (LEager bx o []) (vm_layers m1)) (bf_id b :: vm_stack m) false (vm_log m1))) = Some (LEager bx o []))
        (4 := E4) as (P1 & P2 & P3 & P4 & P5 & P6); [reflexivity|reflexivity|].
      unfold restore, pop_stack in E3. rewrite P1 in E3. cbn [tl vm_stack vm_layers vm_log] in E3. rewrite Hs in E3. injection E3 as <-. cbn [vm_stack vm_layers].
      assert (D2 : forall j, j <> bf_id b -> d_get j (d_set (bf_id b) (LEager bx o []) (vm_layers m1)) = d_get j (vm_layers m)).
      { intros j Hj. rewrite d_get_set. destruct (str_eqb j (bf_id b)) eqn:Ej; [apply str_eqb_eq in Ej; congruence|apply D'; exact Hj]. }
      split; [reflexivity|]. split; [intros j Hj; rewrite (P4 j Hj); apply D2; exact Hj|]. split; [discriminate|]. split; [exact P5|].
      split; [|exact Hn]. intros src (p & Hi & <-) Hsrc. destruct (P6 p Hi) as (b1 & o1 & l1 & G). cbn [vm_layers] in G. rewrite D2 in G by exact Hsrc. exists b1, o1, l1. exact G.
  Qed.

  (** The layers before, and what they are. *)
  Lemma layers_end l : forall (m m' : vm K) (l0 : list (buffer K)), NoDup (map bf_id (l0 ++ l)) -> vm_stack m = [] ->
    (forall j, eager m j -> exists b, In b l0 /\ bf_id b = j /\ bf_cmds b <> []) ->
    ex (flat_map (block_of (K := K)) l) m = Ok m' -> (forall l1 b l2 src, l0 ++ l = l1 ++ b :: l2 -> pastes (bf_cmds b) src -> In src (map bf_id l1)) ->
    (forall j, eager m' j -> exists b, In b (l0 ++ l) /\ bf_id b = j /\ bf_cmds b <> []) /\
    (forall b, In b l -> (forall s, In (DShape s) (bf_cmds b) -> be_shape be s = None) /\
       forall src, pastes (bf_cmds b) src -> exists b', In b' (l0 ++ l) /\ bf_id b' = src /\ bf_cmds b' <> []).
  Proof.
    induction l as [|b l IH]; intros m m' l0 HN Hs HI E Ho; cbn [flat_map] in E.
    - cbn [exec] in E. injection E as <-. rewrite app_nil_r. split; [exact HI|intros b []].
    - apply exec_app in E as (m1 & E1 & E2). destruct (layer_end b m m1 Hs E1) as (A & B & C & D & F & G).
      assert (Eq : l0 ++ b :: l = (l0 ++ [b]) ++ l) by (rewrite <- app_assoc; reflexivity). rewrite Eq in *.
      assert (HI' : forall j, eager m1 j -> exists b0, In b0 (l0 ++ [b]) /\ bf_id b0 = j /\ bf_cmds b0 <> []).
      { intros j Hj. destruct (str_eqb j (bf_id b)) eqn:Ej.
        - apply str_eqb_eq in Ej. subst j. exists b. split; [apply in_or_app; right; left; reflexivity|]. split; [reflexivity|exact (C Hj)].
        - destruct (HI j) as (b0 & H1 & H2 & H3).
          + destruct Hj as (b0 & o0 & l1 & Hg). rewrite B in Hg; [exists b0, o0, l1; exact Hg|]. intros X. rewrite X, str_eqb_refl in Ej. discriminate.
          + exists b0. split; [apply in_or_app; left; exact H1|auto]. }
      destruct (IH m1 m' (l0 ++ [b]) HN A HI' E2 Ho) as [R1 R2]. split; [exact R1|]. intros x [<-|Hx]; [|apply R2; exact Hx].
      split; [exact D|]. intros src Hsrc.
      assert (Hne : src <> bf_id b).
      { intros ->. pose proof (Ho l0 b l (bf_id b)) as X. rewrite <- app_assoc in X. specialize (X eq_refl Hsrc). rewrite <- app_assoc, map_app in HN. cbn [app map] in HN.
        apply NoDup_remove_2 in HN. apply HN. apply in_or_app. left. exact X. }
      destruct (HI src (F src Hsrc Hne)) as (b0 & H1 & H2 & H3). exists b0. split; [apply in_or_app; left; apply in_or_app; left; exact H1|auto].
  Qed.
  (** What runs has a main layer that is not empty, no used layer is, and all shapes can be painted. *)
  Lemma blocks_ran (l : list (buffer K)) (m : vm K) b : ordered l -> NoDup (map bf_id l) -> vm_run be fl (flat_map (block_of (K := K)) l) = Ok (m, Some b) ->
    (exists x, In x l /\ bf_id x = main_id /\ bf_cmds x <> []) /\
    forall x, In x l -> (forall s, In (DShape s) (bf_cmds x) -> be_shape be s = None) /\
      forall src, pastes (bf_cmds x) src -> exists b', In b' l /\ bf_id b' = src /\ bf_cmds b' <> [].
  Proof.
    intros Ho HN E. unfold vm_run in E. destruct (exec be fl _ vm_init) as [m0|] eqn:E0; [|discriminate]. cbn [bind] in E.
    destruct (vm_result be fl m0) as [b0|] eqn:Er; [|discriminate]. cbn [bind] in E. injection E as -> ->.
    destruct (layers_end l vm_init m [] HN eq_refl) as [A B]; try assumption.
    - intros j (b0 & o0 & l0 & Hg). discriminate Hg.
    - split; [|exact B]. cbn [app] in A. apply A. unfold vm_result in Er. destruct (d_get main_id (vm_layers m)) as [[bb o ll|]|] eqn:Eg; [|discriminate|].
      + exists bb, o, ll. exact Eg.
      + destruct (fl || be_needs_main be)%bool; discriminate.
  Qed.
End Machine.

(** Lemmas for C23-C26. *)
From Verif Require Import Base Num Dict Ast StateModel GeomModel CompilerModel LayerProofs BoxModel VmModel BoxSpec BoxProofs VmSpec.

Section DictMore.
  Context {V : Type}.
  Lemma d_set_set k (v w : V) d : d_set k w (d_set k v d) = d_set k w d.
  Proof.
    induction d as [|[a b] d IH]; cbn [d_set]; [rewrite str_eqb_refl; reflexivity|].
    destruct (str_eqb k a) eqn:E; cbn [d_set]; rewrite E; [reflexivity|f_equal; exact IH].
  Qed.
  Lemma d_set_same k (v : V) d : d_get k d = Some v -> d_set k v d = d.
  Proof.
    induction d as [|[a b] d IH]; cbn [d_get d_set]; [discriminate|].
    destruct (str_eqb k a) eqn:E; [intros H; injection H as ->; reflexivity|intros H; f_equal; auto].
  Qed.
  Lemma d_get_set_eq k (v : V) d : d_get k (d_set k v d) = Some v.
  Proof. rewrite d_get_set, str_eqb_refl. reflexivity. Qed.
  Lemma d_get_set_ne k j (v : V) d : j <> k -> d_get j (d_set k v d) = d_get j d.
  Proof. intros H. rewrite d_get_set. destruct (str_eqb j k) eqn:E; [apply str_eqb_eq in E; contradiction|reflexivity]. Qed.
End DictMore.

Section Vm.
  Context {K : Type} {NK : Num K} (be : backend K) (fl : bool).
  Implicit Types (m : vm K) (ls : dict (vlayer K)) (d : draw K) (c : cmd K).

  Definition drawable ls d : Prop :=
    match d with
    | DShape s => be_shape be s = None
    | DPaste p => be_strict be = true -> exists b o l, d_get (pa_src p) ls = Some (LEager b o l)
    end.
  Definition is_deferred (x : option (vlayer K)) : bool := match x with Some (LDeferred _ _) => true | _ => false end.
  Definition top_deferred ls (st : list str) : bool := match st with [] => false | id :: _ => is_deferred (d_get id ls) end.
  Definition present ls (st : list str) : Prop := match st with [] => True | id :: _ => d_get id ls <> None end.

  Inductive vstep : cmd K -> vm K -> vm K -> Prop :=
  | vs_start_d id o ls st df lg : d_get id ls = None ->
      vstep (KStart id None o) (MkVm ls st df lg) (MkVm (d_set id (LDeferred o []) ls) (id :: st) true lg)
  | vs_start_e id b o ls st df lg : d_get id ls = None -> be_size be b = true ->
      vstep (KStart id (Some b) o) (MkVm ls st df lg) (MkVm (d_set id (LEager b o []) ls) (id :: st) false lg)
  | vs_defer d ls id st lg o l : d_get id ls = Some (LDeferred o l) ->
      vstep (KDraw d) (MkVm ls (id :: st) true lg) (MkVm (d_set id (LDeferred o (l ++ [d])) ls) (id :: st) true lg)
  | vs_eager d ls id st lg b o l : d_get id ls = Some (LEager b o l) -> drawable ls d ->
      vstep (KDraw d) (MkVm ls (id :: st) false lg)
            (MkVm (d_set id (LEager b o (l ++ [d])) ls) (id :: st) false (lg ++ [(Some id, d)]))
  | vs_loose d ls lg : be_strict be = false -> drawable ls d ->
      vstep (KDraw d) (MkVm ls [] false lg) (MkVm ls [] false (lg ++ [(None, d)]))
  | vs_end_e ls id st df lg b o l : d_get id ls = Some (LEager b o l) -> present ls st ->
      vstep KEnd (MkVm ls (id :: st) df lg) (MkVm ls st (top_deferred ls st) lg)
  | vs_end_empty ls id st df lg o : d_get id ls = Some (LDeferred o []) -> fl = false ->
      vstep KEnd (MkVm ls (id :: st) df lg) (MkVm ls st df lg)
  | vs_end_d ls id st df lg o ds b : d_get id ls = Some (LDeferred o ds) -> ds <> [] ->
      deferred_box ls ds = Ok (Some b) -> be_size be b = true ->
      Forall (drawable (d_set id (LEager b o []) ls)) ds ->
      present (d_set id (LEager b o ds) ls) st ->
      vstep KEnd (MkVm ls (id :: st) df lg)
        (MkVm (d_set id (LEager b o ds) ls) st (top_deferred (d_set id (LEager b o ds) ls) st)
              (lg ++ map (fun d => (Some id, d)) ds)).

  Lemma eager_draw_ok d ls id st b o l lg : d_get id ls = Some (LEager b o l) -> drawable ls d ->
    eager_draw be d (MkVm ls (id :: st) false lg) =
    Ok (MkVm (d_set id (LEager b o (l ++ [d])) ls) (id :: st) false (lg ++ [(Some id, d)])).
  Proof.
    intros Hg Hd. unfold eager_draw, paint. destruct d as [s|p]; cbn [drawable vm_layers vm_stack vm_defer vm_log] in *.
    - rewrite Hd, Hg. reflexivity.
    - destruct (be_strict be); [destruct (Hd eq_refl) as (b1 & o1 & l1 & ->)|]; rewrite Hg; reflexivity.
  Qed.
  Lemma eager_draw_inv d ls id st b o l lg m' : d_get id ls = Some (LEager b o l) ->
    eager_draw be d (MkVm ls (id :: st) false lg) = Ok m' -> drawable ls d.
  Proof.
    intros Hg. unfold eager_draw. destruct d as [s|p]; cbn [drawable vm_layers vm_stack].
    - destruct (be_shape be s); [discriminate|auto].
    - destruct (be_strict be); [|discriminate]. destruct (d_get (pa_src p) ls) as [[b1 o1 l1|]|]; try discriminate. eauto.
  Qed.
  Lemma drawable_set id b o l b' o' l' ls d : d_get id ls = Some (LEager b o l) ->
    drawable (d_set id (LEager b' o' l') ls) d <-> drawable ls d.
  Proof.
    intros Hg. destruct d as [s|p]; cbn [drawable]; [reflexivity|].
    split; intros H Hs; specialize (H Hs); destruct (str_eqb (pa_src p) id) eqn:E.
    - apply str_eqb_eq in E. rewrite E, Hg. eauto.
    - rewrite d_get_set, E in H. exact H.
    - rewrite d_get_set, E. eauto.
    - rewrite d_get_set, E. exact H.
  Qed.
  Lemma draw_all_ok ds : forall ls id st b o l lg, d_get id ls = Some (LEager b o l) -> Forall (drawable ls) ds ->
    draw_all be ds (MkVm ls (id :: st) false lg) =
    Ok (MkVm (d_set id (LEager b o (l ++ ds)) ls) (id :: st) false (lg ++ map (fun d => (Some id, d)) ds)).
  Proof.
    induction ds as [|d r IH]; intros ls id st b o l lg Hg Hd; cbn [draw_all map].
    - rewrite !app_nil_r, d_set_same by exact Hg. reflexivity.
    - inversion Hd; subst. unfold on_draw_cmd. cbn [vm_defer]. rewrite (eager_draw_ok _ _ _ _ _ _ _ _ Hg) by assumption.
      cbn [bind]. rewrite (IH _ _ _ b o (l ++ [d])); [|apply d_get_set_eq|].
      + rewrite d_set_set, <- !app_assoc. reflexivity.
      + eapply Forall_impl; [|eassumption]. intros a. apply drawable_set with (1 := Hg).
  Qed.
  Lemma draw_all_inv ds : forall ls id st b o l lg m', d_get id ls = Some (LEager b o l) ->
    draw_all be ds (MkVm ls (id :: st) false lg) = Ok m' -> Forall (drawable ls) ds.
  Proof.
    induction ds as [|d r IH]; intros ls id st b o l lg m' Hg; cbn [draw_all]; [constructor|].
    unfold on_draw_cmd. cbn [vm_defer]. intros E. destruct (eager_draw _ _ _) as [m1|] eqn:E1; [|discriminate E]. cbn [bind] in E.
    pose proof (eager_draw_inv _ _ _ _ _ _ _ _ _ Hg E1) as Hd. constructor; [exact Hd|].
    rewrite (eager_draw_ok _ _ _ _ _ _ _ _ Hg Hd) in E1. apply Ok_inj in E1. subst m1.
    apply IH with (b := b) (o := o) (l := l ++ [d]) in E; [|apply d_get_set_eq].
    eapply Forall_impl; [|exact E]. intros a. apply drawable_set with (1 := Hg).
  Qed.
  Lemma restore_ok ls st df lg : present ls st ->
    restore (MkVm ls st df lg) = Ok (MkVm ls st (top_deferred ls st) lg).
  Proof.
    unfold restore, top_deferred, present, is_deferred. cbn [vm_stack vm_layers vm_log]. destruct st as [|id st]; [reflexivity|].
    destruct (d_get id ls) as [[]|]; try reflexivity. intros H; contradiction.
  Qed.
  Lemma restore_inv ls st df lg m' : restore (MkVm ls st df lg) = Ok m' -> present ls st.
  Proof.
    unfold restore, present. cbn [vm_stack vm_layers]. destruct st as [|id st]; [auto|].
    destruct (d_get id ls) as [[]|]; try discriminate; intros _ H; discriminate H.
  Qed.

  Lemma step_vstep c m m' : step be fl c m = Ok m' <-> vstep c m m'.
  Proof.
    split.
    - destruct m as [ls st df lg]. destruct c as [id b o|d|]; cbn [step].
      + unfold on_start. cbn [vm_layers vm_stack vm_log]. unfold d_mem. destruct (d_get id ls) eqn:Eg; [discriminate|].
        destruct b as [b|]; [destruct (be_size be b) eqn:Es; [|discriminate]|]; intros E; apply Ok_inj in E; subst m'; constructor; auto.
      + unfold on_draw_cmd. cbn [vm_defer]. destruct df.
        * unfold deferred_draw. cbn [vm_stack vm_layers vm_defer vm_log]. destruct st as [|id st]; [discriminate|].
          destruct (d_get id ls) as [[|o l]|] eqn:Eg; try discriminate. intros E. apply Ok_inj in E. subst m'. constructor; auto.
        * destruct st as [|id st].
          { intros E. assert (be_strict be = false /\ drawable ls d /\ m' = MkVm ls [] false (lg ++ [(None, d)])) as (H1 & H2 & ->).
            { unfold eager_draw, paint in E. cbn [vm_stack vm_layers vm_defer vm_log] in E.
              destruct d as [s|p]; cbn [drawable].
              - destruct (be_shape be s); [discriminate|]. destruct (be_strict be); [discriminate|]. apply Ok_inj in E. auto.
              - destruct (be_strict be); [destruct (d_get (pa_src p) ls) as [[]|]; discriminate|]. apply Ok_inj in E. subst.
                split; [reflexivity|]. split; [discriminate|reflexivity]. }
            constructor; auto. }
          { intros E. destruct (d_get id ls) as [[b o l|]|] eqn:Eg.
            - pose proof (eager_draw_inv _ _ _ _ _ _ _ _ _ Eg E) as Hd. rewrite (eager_draw_ok _ _ _ _ _ _ _ _ Eg Hd) in E.
              apply Ok_inj in E. subst m'. constructor; auto.
            - exfalso. unfold eager_draw, paint in E. cbn [vm_stack vm_layers] in E. rewrite Eg in E.
              destruct d as [s|p]; [destruct (be_shape be s); discriminate|].
              destruct (be_strict be); [destruct (d_get (pa_src p) ls) as [[]|]|]; discriminate.
            - exfalso. unfold eager_draw, paint in E. cbn [vm_stack vm_layers] in E. rewrite Eg in E.
              destruct d as [s|p]; [destruct (be_shape be s); discriminate|].
              destruct (be_strict be); [destruct (d_get (pa_src p) ls) as [[]|]|]; discriminate. }
      + unfold on_end. cbn [vm_stack vm_layers vm_log]. destruct st as [|id st]; [discriminate|].
        destruct (d_get id ls) as [[b o l|o ds]|] eqn:Eg; [| |discriminate].
        * unfold pop_stack. cbn [vm_stack vm_layers vm_defer vm_log tl]. intros E. pose proof (restore_inv _ _ _ _ _ E) as Hp.
          rewrite restore_ok in E by exact Hp. apply Ok_inj in E. subst m'. eapply vs_end_e; eauto.
        * destruct (deferred_box ls ds) as [[b|]|] eqn:Eb; [| |discriminate]; cbn [bind].
          -- destruct (be_size be b) eqn:Es; [|discriminate]. intros E.
             destruct (draw_all _ _ _) as [m2|] eqn:Ed; [|discriminate E]. cbn [bind] in E.
             pose proof (draw_all_inv _ _ _ _ _ _ _ _ _ (d_get_set_eq _ _ _) Ed) as Hd.
             rewrite (draw_all_ok _ _ _ _ _ _ _ _ (d_get_set_eq _ _ _) Hd) in Ed. apply Ok_inj in Ed. subst m2.
             rewrite d_set_set in E. unfold pop_stack in E. cbn [vm_stack vm_layers vm_defer vm_log tl app] in E.
             pose proof (restore_inv _ _ _ _ _ E) as Hp. rewrite restore_ok in E by exact Hp. apply Ok_inj in E. subst m'.
             eapply vs_end_d; eauto. intros ->. discriminate Eb.
          -- destruct ds as [|d r].
             ++ destruct fl eqn:Ef; [discriminate|]. intros E. apply Ok_inj in E. subst m'. unfold pop_stack. cbn [vm_stack vm_layers vm_defer vm_log tl].
                eapply vs_end_empty; eauto.
             ++ exfalso. cbn [deferred_box] in Eb. destruct (draw_box ls d); [|discriminate]. cbn [bind] in Eb.
                destruct (join_boxes ls a r); discriminate.
    - intros H. destruct H as [id o ls st df lg Hg|id b o ls st df lg Hg Hs|d ls id st lg o l Hg|d ls id st lg b o l Hg Hd|d ls lg Hs Hd
        |ls id st df lg b o l Hg Hp|ls id st df lg o Hg Hf|ls id st df lg o ds b Hg Hn Hb Hs Hd Hp]; cbn [step].
      + unfold on_start, d_mem. cbn [vm_layers]. rewrite Hg. reflexivity.
      + unfold on_start, d_mem. cbn [vm_layers]. rewrite Hg, Hs. reflexivity.
      + unfold on_draw_cmd, deferred_draw. cbn [vm_defer vm_stack vm_layers]. rewrite Hg. reflexivity.
      + unfold on_draw_cmd. cbn [vm_defer]. apply eager_draw_ok; auto.
      + unfold on_draw_cmd, eager_draw, paint. cbn [vm_defer vm_stack vm_layers vm_log]. rewrite Hs.
        destruct d as [s|p]; [cbn in Hd; rewrite Hd|]; reflexivity.
      + unfold on_end. cbn [vm_stack vm_layers]. rewrite Hg. unfold pop_stack. cbn [vm_stack vm_layers vm_defer vm_log tl].
        apply restore_ok; exact Hp.
      + unfold on_end. cbn [vm_stack vm_layers]. rewrite Hg. cbn [deferred_box bind]. rewrite Hf. reflexivity.
      + unfold on_end. cbn [vm_stack vm_layers vm_log]. rewrite Hg, Hb. cbn [bind]. rewrite Hs.
        rewrite (draw_all_ok _ _ _ _ _ _ _ _ (d_get_set_eq _ _ _) Hd). cbn [bind]. rewrite d_set_set.
        unfold pop_stack. cbn [vm_stack vm_layers vm_defer vm_log tl app]. apply restore_ok; exact Hp.
  Qed.

  Lemma exec_app cs cs' : forall m, exec be fl (cs ++ cs') m = bind (exec be fl cs m) (exec be fl cs').
  Proof. induction cs as [|c r IH]; intros m; cbn [app exec bind]; [reflexivity|]. destruct (step be fl c m); [apply IH|reflexivity]. Qed.
  Lemma exec_snoc cs c m m' : exec be fl (cs ++ [c]) m = Ok m' <-> exists m1, exec be fl cs m = Ok m1 /\ vstep c m1 m'.
  Proof.
    rewrite exec_app. cbn [exec]. split.
    - destruct (exec be fl cs m) as [m1|]; [|discriminate]. cbn [bind]. intros E. exists m1. split; [reflexivity|].
      apply step_vstep. destruct (step be fl c m1); [exact E|discriminate].
    - intros (m1 & -> & H). cbn [bind]. apply step_vstep in H. rewrite H. reflexivity.
  Qed.
  Lemma brackets_snoc cs c : brackets (cs ++ [c]) = bracket_step (K := K) (brackets cs) c.
  Proof. unfold brackets. rewrite fold_left_app. reflexivity. Qed.
  Lemma started_snoc cs c : started (cs ++ [c]) = started cs ++ match c with KStart id _ _ => [id] | _ => [] end.
  Proof. unfold started. rewrite flat_map_app. cbn [flat_map]. rewrite app_nil_r. reflexivity. Qed.
End Vm.

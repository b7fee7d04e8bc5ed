(** Proofs for C36 and C37. *)
From Verif Require Import Base Num Dict Ast StateModel GeomModel CompilerModel VmModel VmSpec RvmcModel RvmcSpec.

Section Proofs.
  Context {K : Type} {NK : Num K}.
  Implicit Types (w : world K) (h : history K) (x : lbuilder K).

  Lemma items_app a b : items (K := K) a -> items b -> items (a ++ b).
  Proof.
    intros Ha Hb. induction Ha as [|d r _ IH|id bx o body r Hbody _ _ IH]; [exact Hb|constructor; exact IH|].
    cbn [app]. rewrite <- app_assoc. cbn [app]. constructor; [exact Hbody|exact IH].
  Qed.
  Lemma items_draws (ds : list (draw K)) : items (map KDraw ds).
  Proof. induction ds; constructor; assumption. Qed.
  Lemma items_shapes (ss : list (shape K)) : items (map (fun s => KDraw (DShape s)) ss).
  Proof. induction ss; constructor; assumption. Qed.
  Lemma blocks_snoc a id b o body : blocks (K := K) a -> items body -> blocks (a ++ KStart id b o :: body ++ [KEnd]).
  Proof.
    intros Ha Hb. induction Ha as [|id' b' o' body' r Hbody _ IH]; [constructor; [exact Hb|constructor]|].
    cbn [app]. rewrite <- app_assoc. cbn [app]. constructor; [exact Hbody|exact IH].
  Qed.
  Lemma opened_start h k y : nth_error (opened h) k = Some y -> exists id b o, hd_start y = KStart id b o.
  Proof.
    revert k. induction h as [|[c ok] r IH]; intros k; [destruct k; discriminate|]. cbn [opened].
    assert (forall z, nth_error (opened r ++ [z]) k = Some y -> (exists id b o, hd_start z = KStart id b o) -> exists id b o, hd_start y = KStart id b o) as L.
    { intros z Hz Ez. destruct (Nat.lt_ge_cases k (length (opened r))) as [Hl|Hl].
      - rewrite nth_error_app1 in Hz by exact Hl. eapply IH; exact Hz.
      - rewrite nth_error_app2 in Hz by exact Hl. destruct (k - length (opened r))%nat as [|[|]]; [injection Hz as <-; exact Ez|discriminate|discriminate]. }
    destruct c; try apply IH; destruct ok; try apply IH; intros H; (eapply L; [exact H|]); cbn; unfold start; eauto.
  Qed.
  Lemma contents_items h : forall k, items (contents h (Some k)).
  Proof.
    induction h as [|[c ok] r IH]; intros k; cbn [contents]; [constructor|]. apply items_app; [apply IH|].
    destruct ok; cbn [negb]; [|constructor]. destruct c; try constructor.
    - destruct ok; [|constructor]. destruct (nth_error (opened r) h) as [y|] eqn:E; [|constructor].
      destruct (negb (gone h r) && _); [|constructor]. destruct (opened_start _ _ _ E) as (id & b & o & ->).
      apply (items_block id b o _ []); [apply IH|constructor].
    - destruct (h =? k)%nat; [|constructor]. destruct (shapes_of _); [apply items_shapes|constructor].
    - destruct (h =? k)%nat; [|constructor]. destruct (nth_error (opened r) src); repeat constructor.
  Qed.
  Lemma contents_blocks h : blocks (contents h None).
  Proof.
    induction h as [|[c ok] r IH]; cbn [contents]; [constructor|].
    destruct ok; cbn [negb]; [|rewrite app_nil_r; exact IH]. destruct c; try (rewrite app_nil_r; exact IH).
    destruct ok; [|rewrite app_nil_r; exact IH]. destruct (nth_error (opened r) h) as [y|] eqn:E; [|rewrite app_nil_r; exact IH].
    destruct (negb (gone h r) && _); [|rewrite app_nil_r; exact IH]. destruct (opened_start _ _ _ E) as (id & b & o & ->).
    apply blocks_snoc; [exact IH|apply contents_items].
  Qed.

  (** *** The heap *)
  Lemma update_length l k f : length (update (K := K) l k f) = length l.
  Proof. revert k. induction l as [|x l IH]; intros [|k]; cbn; auto. Qed.
  Lemma nth_update l k f j : nth_error (update (K := K) l k f) j =
    if (j =? k)%nat then option_map f (nth_error l j) else nth_error l j.
  Proof.
    revert k j. induction l as [|x l IH]; intros [|k] [|j]; cbn; try reflexivity; [destruct (j =? k)%nat; reflexivity|apply IH].
  Qed.
  Definition clean (c : call K) : Prop := match c with Finalize _ => False | _ => True end.
  Record good_layer h k x y : Prop := {
    gl_id : lb_id x = hd_id y;
    gl_parent : lb_parent x = hd_in y;
    gl_up : match hd_in y with Some p => (p < k)%nat | None => True end;
    gl_open : lb_open x = negb (gone k h);
    gl_live : lb_open x = true -> lb_final x = false /\ lb_cmds x = hd_start y :: contents h (Some k) }.
  Record inv w h : Prop := {
    iv_len : length (w_layers w) = length (opened h);
    iv_all : forall k x, nth_error (w_layers w) k = Some x -> exists y, nth_error (opened h) k = Some y /\ good_layer h k x y;
    iv_cmds : w_cmds w = contents h None;
    iv_fresh : forall k, (length (opened h) <= k)%nat -> contents h (Some k) = [] }.
  Lemma gone_fresh h k : (length (opened h) <= k)%nat -> gone k h = false.
  Proof.
    induction h as [|[c ok] r IH]; intros L; [reflexivity|]. cbn [gone].
    assert (length (opened r) <= k)%nat as L'.
    { cbn [opened] in L. destruct c; try exact L; destruct ok; try exact L; rewrite app_length in L; lia. }
    destruct c; auto. replace (k <? length (opened r))%nat with false by (symmetry; apply Nat.ltb_ge; exact L').
    rewrite andb_false_r. apply IH. exact L'.
  Qed.

  (** Calls that add nothing. *)
  Definition quiet (c : call K) (ok : bool) : Prop :=
    ok = false \/ match c with OpenMain _ _ | OpenLayer _ _ _ _ | GetRvmc | Leave _ false => True | _ => False end.
  Lemma contents_quiet c ok h k : quiet c ok -> contents ((c, ok) :: h) k = contents h k.
  Proof.
    intros [->|H]; cbn [contents negb]; [apply app_nil_r|]. destruct c as [| |j [|]| | | |]; try contradiction; destruct ok; apply app_nil_r.
  Qed.
  Lemma gone_other c ok h k : match c with Leave j _ => j <> k \/ (length (opened h) <= k)%nat | _ => True end -> gone k ((c, ok) :: h) = gone k h.
  Proof.
    intros H. cbn [gone]. destruct c; try reflexivity. destruct H as [H|H].
    - apply Nat.eqb_neq in H. rewrite H. reflexivity.
    - apply Nat.ltb_ge in H. rewrite H, andb_false_r. reflexivity.
  Qed.
  Lemma opened_same c ok h : match c with OpenMain _ _ | OpenLayer _ _ _ _ => ok = false | _ => True end -> opened ((c, ok) :: h) = opened h.
  Proof. cbn [opened]. destruct c; try reflexivity; intros ->; reflexivity. Qed.

  Lemma good_ext c ok h k x y : good_layer h k x y -> contents ((c, ok) :: h) (Some k) = contents h (Some k) ->
    gone k ((c, ok) :: h) = gone k h -> good_layer ((c, ok) :: h) k x y.
  Proof. intros [A B C D E] EC EG. constructor; auto; [rewrite EG; exact D|rewrite EC; exact E]. Qed.

  Lemma inv_open w h (c : call K) id b o p : inv w h ->
    opened ((c, true) :: h) = opened h ++ [MkHeader id (start id b o) p] ->
    (quiet c true) -> match c with Leave _ _ => False | _ => True end ->
    match p with Some p => (p < length (opened h))%nat | None => True end ->
    forall g, (forall x, lb_id (g x) = lb_id x /\ lb_parent (g x) = lb_parent x /\ lb_open (g x) = lb_open x /\ lb_final (g x) = lb_final x /\ lb_cmds (g x) = lb_cmds x) ->
    forall ls, length ls = length (w_layers w) -> (forall k x, nth_error ls k = Some x -> exists x', nth_error (w_layers w) k = Some x' /\ (x = x' \/ x = g x')) ->
    inv (MkWorld (w_cmds w) (w_locked w) (ls ++ [new_lb id b o p])) ((c, true) :: h).
  Proof.
    intros [L A C F] EO Q NL Hp g Hg ls Hls Hx. constructor; cbn [w_layers w_cmds].
    - rewrite EO, !app_length, Hls, L. reflexivity.
    - intros k x Hk. rewrite EO. destruct (Nat.lt_ge_cases k (length ls)) as [Hl|Hl].
      + rewrite nth_error_app1 in Hk by exact Hl. destruct (Hx k x Hk) as (x' & Hk' & E).
        destruct (A k x' Hk') as (y & Hy & G). exists y. rewrite nth_error_app1 by lia. split; [exact Hy|].
        assert (good_layer h k x y) as G'.
        { destruct E as [->| ->]; [exact G|]. destruct (Hg x') as (E1 & E2 & E3 & E4 & E5). destruct G as [G1 G2 G3 G4 G5].
          constructor; [congruence|congruence|exact G3|congruence|rewrite E3, E4, E5; exact G5]. }
        apply good_ext; [exact G'|apply contents_quiet; exact Q|apply gone_other; destruct c; auto; contradiction].
      + rewrite nth_error_app2 in Hk by exact Hl. destruct (k - length ls)%nat as [|j] eqn:Ek; [|destruct j; discriminate].
        injection Hk as <-. exists (MkHeader id (start id b o) p). rewrite nth_error_app2 by lia.
        replace (k - length (opened h))%nat with 0%nat by lia. split; [reflexivity|].
        constructor; cbn [new_lb lb_id lb_parent lb_open lb_final lb_cmds hd_id hd_in hd_start].
        * reflexivity. * reflexivity. * destruct p; [lia|exact I].
        * rewrite gone_other by (destruct c; auto; contradiction). rewrite gone_fresh by lia. reflexivity.
        * intros _. split; [reflexivity|]. rewrite contents_quiet by exact Q. rewrite F by lia. reflexivity.
    - rewrite contents_quiet by exact Q. exact C.
    - intros k Hk. rewrite contents_quiet by exact Q. apply F. rewrite EO, app_length in Hk. lia.
  Qed.
  Lemma inv_same w h c ok : inv w h -> opened ((c, ok) :: h) = opened h -> quiet c ok ->
    (forall k, (k < length (opened h))%nat -> gone k ((c, ok) :: h) = gone k h) ->
    forall w', w_layers w' = w_layers w -> w_cmds w' = w_cmds w -> inv w' ((c, ok) :: h).
  Proof.
    intros [L A C F] EO Q G w' EL EC. constructor.
    - rewrite EL, EO. exact L.
    - intros k x Hk. rewrite EL in Hk. destruct (A k x Hk) as (y & Hy & GL). exists y. rewrite EO. split; [exact Hy|].
      apply good_ext; [exact GL|apply contents_quiet; exact Q|]. apply G. apply nth_error_Some. rewrite Hy. discriminate.
    - rewrite EC, contents_quiet by exact Q. exact C.
    - intros k Hk. rewrite contents_quiet by exact Q. apply F. rewrite EO in Hk. exact Hk.
  Qed.
  (** Drawing on layer [j]. *)
  Lemma inv_add w h c j x0 cs : inv w h -> nth_error (w_layers w) j = Some x0 ->
    opened ((c, true) :: h) = opened h -> (forall k, gone k ((c, true) :: h) = gone k h) ->
    contents ((c, true) :: h) None = contents h None ->
    (forall k, contents ((c, true) :: h) (Some k) = contents h (Some k) ++ if (j =? k)%nat then cs else []) ->
    inv (upd j (add_cmds cs) w) ((c, true) :: h).
  Proof.
    intros [L A C F] Hj EO EG EN ES. constructor; cbn [upd w_layers w_cmds].
    - rewrite update_length, EO. exact L.
    - intros k x Hk. rewrite nth_update in Hk. rewrite EO.
      destruct (k =? j)%nat eqn:E.
      + apply Nat.eqb_eq in E. subst k. rewrite Hj in Hk. injection Hk as <-. destruct (A j x0 Hj) as (y & Hy & [G1 G2 G3 G4 G5]).
        exists y. split; [exact Hy|]. constructor; cbn [add_cmds lb_id lb_parent lb_open lb_final lb_cmds]; auto.
        * rewrite EG. exact G4.
        * intros O. destruct (G5 O) as [E1 E2]. split; [exact E1|]. rewrite ES, Nat.eqb_refl, E2. reflexivity.
      + destruct (A k x Hk) as (y & Hy & G). exists y. split; [exact Hy|]. apply good_ext; [exact G| |apply EG].
        rewrite ES. rewrite Nat.eqb_sym in E. rewrite E. apply app_nil_r.
    - rewrite EN. exact C.
    - intros k Hk. rewrite EO in Hk. rewrite ES, F by exact Hk. assert (j < length (w_layers w))%nat by (apply nth_error_Some; congruence).
      replace (j =? k)%nat with false by (symmetry; apply Nat.eqb_neq; lia). reflexivity.
  Qed.

  Lemma inv_step c w h : clean c -> inv w h ->
    inv (fst (step c w)) ((c, match snd (step c w) with None => true | Some _ => false end) :: h).
  Proof.
    intros Hc HI. pose proof HI as [L A C F].
    assert (builder_error -> match c with Leave _ _ => False | _ => True end -> inv w ((c, false) :: h)) as Fail.
    { intros e NL. apply (inv_same w h c false HI); auto.
      - apply opened_same. destruct c; auto.
      - left. reflexivity.
      - intros k _. apply gone_other. destruct c; auto; contradiction. }
    destruct c as [b o|j id b o|j ok|j q|j src a neg|j|]; cbn [step].
    - destruct (w_locked w) eqn:Lk; cbn [fst snd]; [apply (Fail BLocked I)|].
      rewrite <- Lk. apply (inv_open w h (OpenMain b o) main_id b o None HI eq_refl (or_intror I) I I (fun x => x)); auto.
      intros k x Hx. eauto.
    - destruct (nth_error (w_layers w) j) as [x|] eqn:E; [|apply (Fail BNoObject I)].
      destruct (lb_active x); [apply (Fail BRuntime I)|]. destruct (lb_final x); [apply (Fail BRuntime I)|].
      cbn [fst snd upd w_layers w_cmds w_locked].
      apply (inv_open w h (OpenLayer j id b o) id b o (Some j) HI eq_refl (or_intror I) I) with (g := set_active true).
      + rewrite <- L. apply nth_error_Some. congruence.
      + intros y. cbn. auto.
      + apply update_length.
      + intros k y Hk. rewrite nth_update in Hk. destruct (k =? j)%nat; [|eauto].
        destruct (nth_error (w_layers w) k) as [z|]; [|discriminate]. injection Hk as <-. eauto.
    - destruct (nth_error (w_layers w) j) as [x|] eqn:E.
      2:{ cbn [fst snd]. apply (inv_same w h _ _ HI); auto; [left; reflexivity|]. intros k Hk. apply gone_other.
          apply nth_error_None in E. left. lia. }
      destruct (A j x E) as (y & Hy & [G1 G2 G3 G4 G5]). assert (j < length (opened h))%nat as Hj by (apply nth_error_Some; congruence).
      destruct (lb_open x) eqn:EO; cbn [negb].
      2:{ symmetry in G4. apply negb_false_iff in G4. cbn [fst snd]. constructor.
          - exact L.
          - intros k z Hk. destruct (A k z Hk) as (y' & Hy' & GL). exists y'. split; [exact Hy'|].
            apply good_ext; [exact GL| |].
            + cbn [contents negb]. rewrite Hy, G4. cbn [negb andb]. destruct ok; apply app_nil_r.
            + cbn [gone]. destruct (j =? k)%nat eqn:Ek; [|reflexivity]. apply Nat.eqb_eq in Ek. subst k. rewrite G4. apply orb_true_r.
          - cbn [contents negb]. rewrite Hy, G4. cbn [negb andb]. rewrite C. destruct ok; symmetry; apply app_nil_r.
          - intros k Hk. cbn [contents negb]. rewrite Hy, G4. cbn [negb andb]. rewrite F by exact Hk. destruct ok; reflexivity. }
      assert (gone j h = false) as GJ by (destruct (gone j h); [discriminate|reflexivity]).
      assert (forall v k, gone k ((Leave j v, true) :: h) = if (j =? k)%nat then true else gone k h) as EG.
      { intros v k. cbn [gone]. destruct (j =? k)%nat eqn:Ek; [|reflexivity]. apply Nat.eqb_eq in Ek. subst k.
        apply Nat.ltb_lt in Hj. rewrite Hj. reflexivity. }
      assert (forall v k, gone k ((Leave j v, false) :: h) = if (j =? k)%nat then true else gone k h) as EG' by exact EG.
      destruct ok; cbn [negb].
      + destruct (G5 eq_refl) as [GF GC]. rewrite <- G2 in G3. destruct (lb_parent x) as [p|] eqn:EP.
        * cbn [fst snd]. assert (forall k, contents ((Leave j true, true) :: h) (Some k) = contents h (Some k) ++ if (p =? k)%nat then lb_cmds x ++ [KEnd] else []) as ES.
          { intros k. cbn [contents negb]. rewrite Hy, GJ, <- G2. cbn [negb andb]. rewrite GC. destruct (p =? k)%nat; reflexivity. }
          assert (contents ((Leave j true, true) :: h) None = contents h None) as EN.
          { cbn [contents negb]. rewrite Hy, GJ, <- G2. cbn [negb andb]. apply app_nil_r. }
          constructor; cbn [upd w_layers w_cmds].
          -- rewrite !update_length. exact L.
          -- intros k z Hk. rewrite !nth_update in Hk. cbn [opened].
             destruct (k =? j)%nat eqn:Ekj.
             ++ apply Nat.eqb_eq in Ekj. subst k. rewrite E in Hk. cbn [option_map] in Hk. exists y. split; [exact Hy|].
                assert (lb_id z = hd_id y /\ lb_parent z = hd_in y /\ lb_open z = false) as (Z1 & Z2 & Z3).
                { destruct (j =? p)%nat; injection Hk as <-; cbn; rewrite ?EP; auto. }
                constructor; auto; [rewrite <- G2; exact G3|rewrite EG, Nat.eqb_refl; exact Z3|congruence].
             ++ destruct (nth_error (w_layers w) k) as [z0|] eqn:Ez; [|destruct (k =? p)%nat; discriminate].
                destruct (A k z0 Ez) as (y' & Hy' & [K1 K2 K3 K4 K5]). exists y'. split; [exact Hy'|].
                rewrite Nat.eqb_sym in Ekj.
                destruct (k =? p)%nat eqn:Ekp; cbn [option_map] in Hk; injection Hk as <-;
                  constructor; cbn [set_active add_cmds lb_id lb_parent lb_open lb_final lb_cmds]; auto;
                  try (rewrite EG, Ekj; exact K4); intros O; destruct (K5 O) as [O1 O2]; (split; [exact O1|]); rewrite ES.
                ** apply Nat.eqb_eq in Ekp. subst k. rewrite Nat.eqb_refl, O2. reflexivity.
                ** rewrite Nat.eqb_sym in Ekp. rewrite Ekp, app_nil_r. exact O2.
          -- rewrite EN. exact C.
          -- intros k Hk. rewrite ES. cbn [opened] in Hk. rewrite F by exact Hk. replace (p =? k)%nat with false by (symmetry; apply Nat.eqb_neq; lia). reflexivity.
        * assert (forall v, inv (MkWorld (if v : bool then w_cmds w ++ lb_cmds x ++ [KEnd] else w_cmds w) (w_locked w)
              (update (w_layers w) j (fun x => set_closed (finalize x)))) ((Leave j true, v) :: h)) as Both.
          { intros v. assert (forall k, contents ((Leave j true, v) :: h) (Some k) = contents h (Some k)) as ES.
            { intros k. cbn [contents]. rewrite Hy, GJ, <- G2. destruct v; cbn [negb andb]; apply app_nil_r. }
            constructor; cbn [w_layers w_cmds].
            - rewrite update_length. exact L.
            - intros k z Hk. rewrite nth_update in Hk. cbn [opened]. destruct (k =? j)%nat eqn:Ekj.
              + apply Nat.eqb_eq in Ekj. subst k. rewrite E in Hk. cbn [option_map] in Hk. injection Hk as <-. exists y. split; [exact Hy|].
                constructor; cbn [set_closed finalize lb_id lb_parent lb_open lb_final lb_cmds]; auto; [congruence|rewrite <- G2; exact I| |congruence].
                destruct v; [rewrite EG|rewrite EG']; rewrite Nat.eqb_refl; reflexivity.
              + destruct (A k z Hk) as (y' & Hy' & G). exists y'. split; [exact Hy'|]. apply good_ext; [exact G|apply ES|].
                rewrite Nat.eqb_sym in Ekj. destruct v; [rewrite EG|rewrite EG']; rewrite Ekj; reflexivity.
            - cbn [contents]. rewrite Hy, GJ, <- G2. cbn [negb andb]. rewrite GC in *. rewrite C. destruct v; cbn [negb]; [reflexivity|symmetry; apply app_nil_r].
            - intros k Hk. rewrite ES. apply F. exact Hk. }
          unfold upd. cbn [w_locked w_cmds w_layers]. destruct (w_locked w) eqn:Lk; cbn [fst snd w_locked w_cmds w_layers].
          -- specialize (Both false). exact Both.
          -- specialize (Both true). exact Both.
      + cbn [fst snd]. constructor; cbn [upd w_layers w_cmds].
        * rewrite update_length. exact L.
        * intros k z Hk. rewrite nth_update in Hk. cbn [opened]. destruct (k =? j)%nat eqn:Ekj.
          -- apply Nat.eqb_eq in Ekj. subst k. rewrite E in Hk. cbn [option_map] in Hk. injection Hk as <-. exists y. split; [exact Hy|].
             constructor; cbn [set_closed lb_id lb_parent lb_open lb_final lb_cmds]; auto; [|congruence]. rewrite EG, Nat.eqb_refl. reflexivity.
          -- destruct (A k z Hk) as (y' & Hy' & G). exists y'. split; [exact Hy'|]. apply good_ext; [exact G| |].
             ++ apply contents_quiet. right. exact I.
             ++ rewrite Nat.eqb_sym in Ekj. rewrite EG, Ekj. reflexivity.
        * rewrite contents_quiet by (right; exact I). exact C.
        * intros k Hk. rewrite contents_quiet by (right; exact I). apply F. exact Hk.
    - destruct (nth_error (w_layers w) j) as [x|] eqn:E; [|apply (Fail BNoObject I)].
      destruct (lb_final x); [apply (Fail BRuntime I)|]. destruct (shapes_of q) as [ss|e] eqn:ES; [|apply (Fail (BShape e) I)].
      cbn [fst snd]. apply (inv_add w h _ j x _ HI E); auto.
      + cbn [contents negb]. apply app_nil_r.
      + intros k. cbn [contents negb]. rewrite ES. reflexivity.
    - destruct (nth_error (w_layers w) j) as [x|] eqn:E; [|apply (Fail BNoObject I)].
      destruct (nth_error (w_layers w) src) as [y|] eqn:E2; [|apply (Fail BNoObject I)].
      destruct (lb_final x); [apply (Fail BRuntime I)|]. cbn [fst snd].
      destruct (A src y E2) as (z & Hz & [G1 _ _ _ _]). apply (inv_add w h _ j x _ HI E); auto.
      + cbn [contents negb]. apply app_nil_r.
      + intros k. cbn [contents negb]. rewrite Hz, G1. reflexivity.
    - contradiction.
    - cbn [fst snd]. apply (inv_same w h _ true HI); auto. right. exact I.
  Qed.
  Lemma inv_init : inv w_init [].
  Proof. constructor; auto. intros k x Hk. destruct k; discriminate. Qed.
  Lemma inv_run cs : Forall clean cs -> forall w h, inv w h ->
    inv (fold_left (fun w c => fst (step c w)) cs w) (observed cs w h).
  Proof.
    induction 1 as [|c r Hc _ IH]; intros w h I; cbn [fold_left observed]; [exact I|].
    pose proof (inv_step c w h Hc I) as I'. destruct (step c w) as [w' e] eqn:E. cbn [fst snd] in *. apply IH. exact I'.
  Qed.
  Lemma rvmc_contents cs : Forall clean cs -> rvmc cs = contents (observed cs w_init []) None.
  Proof. intros H. apply (iv_cmds _ _ (inv_run cs H _ _ inv_init)). Qed.

  (** *** Finished layers and locking *)
  Lemma final_stays c w k x : nth_error (w_layers w) k = Some x -> lb_final x = true ->
    exists x', nth_error (w_layers (fst (step c w))) k = Some x' /\ lb_final x' = true.
  Proof.
    intros E F.
    assert (forall j (f : lbuilder K -> lbuilder K) l, (forall y, lb_final y = true -> lb_final (f y) = true) ->
      (exists x', nth_error l k = Some x' /\ lb_final x' = true) -> exists x', nth_error (update l j f) k = Some x' /\ lb_final x' = true) as U.
    { intros j f l Hf (x' & E' & F'). rewrite nth_update, E'. destruct (k =? j)%nat; cbn [option_map]; eauto. }
    assert (forall (l : list (lbuilder K)) y, (exists x', nth_error l k = Some x' /\ lb_final x' = true) -> exists x', nth_error (l ++ [y]) k = Some x' /\ lb_final x' = true) as P.
    { intros l y (x' & E' & F'). exists x'. rewrite nth_error_app1; [auto|]. apply nth_error_Some. congruence. }
    assert (exists x', nth_error (w_layers w) k = Some x' /\ lb_final x' = true) as B by eauto.
    destruct c as [b o|j id b o|j ok|j q|j src a neg|j|]; cbn [step].
    - destruct (w_locked w); cbn [fst w_layers]; auto.
    - destruct (nth_error (w_layers w) j) as [y|]; [|auto]. destruct (lb_active y); [auto|]. destruct (lb_final y); [auto|].
      cbn [fst w_layers upd]. apply P. apply U; auto.
    - destruct (nth_error (w_layers w) j) as [y|]; [|auto]. destruct (negb (lb_open y)); [auto|].
      destruct (negb ok); [cbn [fst upd w_layers]; apply U; auto|].
      destruct (lb_parent y); cbn [fst upd w_layers]; [apply U; [auto|]; apply U; auto|].
      cbn [upd w_locked]. destruct (w_locked w); cbn [fst upd w_layers]; apply U; auto.
    - destruct (nth_error (w_layers w) j) as [y|]; [|auto]. destruct (lb_final y); [auto|]. destruct (shapes_of q); [|auto].
      cbn [fst upd w_layers]. apply U; auto.
    - destruct (nth_error (w_layers w) j) as [y|]; [|auto]. destruct (nth_error (w_layers w) src); [|auto]. destruct (lb_final y); [auto|].
      cbn [fst upd w_layers]. apply U; auto.
    - cbn [fst upd w_layers]. apply U; auto.
    - auto.
  Qed.
  Lemma final_forever cs : forall w k x, nth_error (w_layers w) k = Some x -> lb_final x = true ->
    exists x', nth_error (w_layers (fold_left (fun w c => fst (step c w)) cs w)) k = Some x' /\ lb_final x' = true.
  Proof.
    induction cs as [|c r IH]; intros w k x E F; cbn [fold_left]; [eauto|]. destruct (final_stays c w k x E F) as (x' & E' & F'). eauto.
  Qed.
  (** Calls that would add something to layer [k]. *)
  Definition on_layer (c : call K) (k : nat) : Prop :=
    match c with Add j _ | Paste j _ _ _ | OpenLayer j _ _ _ => j = k | _ => False end.
  Lemma final_refuses c w k x : nth_error (w_layers w) k = Some x -> lb_final x = true -> on_layer c k ->
    fst (step c w) = w /\ exists e, snd (step c w) = Some e.
  Proof.
    intros E F O. destruct c; try contradiction; cbn in O; subst; cbn [step]; rewrite E, ?F.
    - destruct (lb_active x); cbn; eauto.
    - cbn; eauto.
    - destruct (nth_error (w_layers w) src); cbn; eauto.
  Qed.
  Lemma locked_step c w : w_locked w = true -> w_locked (fst (step c w)) = true /\ w_cmds (fst (step c w)) = w_cmds w.
  Proof.
    intros L. destruct c as [b o|j id b o|j ok|j q|j src a neg|j|]; cbn [step].
    - rewrite L. auto.
    - destruct (nth_error (w_layers w) j) as [y|]; [|auto]. destruct (lb_active y); [auto|]. destruct (lb_final y); auto.
    - destruct (nth_error (w_layers w) j) as [y|]; [|auto]. destruct (negb (lb_open y)); [auto|]. destruct (negb ok); [auto|].
      destruct (lb_parent y); [auto|]. cbn [upd w_locked]. rewrite L. auto.
    - destruct (nth_error (w_layers w) j) as [y|]; [|auto]. destruct (lb_final y); [auto|]. destruct (shapes_of q); auto.
    - destruct (nth_error (w_layers w) j) as [y|]; [|auto]. destruct (nth_error (w_layers w) src); [|auto]. destruct (lb_final y); auto.
    - auto.
    - auto.
  Qed.
  Lemma locked_run cs : forall w, w_locked w = true -> w_cmds (fold_left (fun w c => fst (step c w)) cs w) = w_cmds w.
  Proof.
    induction cs as [|c r IH]; intros w L; cbn [fold_left]; [reflexivity|]. destruct (locked_step c w L) as [L' E]. rewrite IH by exact L'. exact E.
  Qed.
  Lemma run_app a b : run (K := K) (a ++ b) = fold_left (fun w c => fst (step c w)) b (run a).
  Proof. unfold run. apply fold_left_app. Qed.

  (** *** Tidy clients *)
  Definition lcmds w k : list (cmd K) := match nth_error (w_layers w) k with Some x => lb_cmds x | None => [] end.
  Fixpoint chain w (act : bool) (st : list nat) : Prop :=
    match st with
    | [] => True
    | k :: r => exists x, nth_error (w_layers w) k = Some x /\ lb_open x = true /\ lb_final x = false /\ lb_active x = act /\
                lb_parent x = hd_error r /\ Forall (fun j => j < k)%nat r /\ chain w true r
    end.
  Lemma chain_ext w w' st : forall act, (forall j, In j st -> nth_error (w_layers w') j = nth_error (w_layers w) j) -> chain w act st -> chain w' act st.
  Proof.
    induction st as [|k r IH]; intros act E H; [exact I|]. destruct H as (x & H1 & H2 & H3 & H4 & H5 & H6 & H7).
    exists x. rewrite E by (left; reflexivity). repeat (split; [assumption|]). apply IH; [|exact H7]. intros j Hj. apply E. right. exact Hj.
  Qed.
  Definition visible w (st : list nat) : list (cmd K) := w_cmds w ++ flat_map (lcmds w) (rev st).
  Lemma flat_ext w w' st : (forall j, In j st -> nth_error (w_layers w') j = nth_error (w_layers w) j) -> flat_map (lcmds w') st = flat_map (lcmds w) st.
  Proof.
    induction st as [|k r IH]; intros E; [reflexivity|]. cbn [flat_map]. unfold lcmds at 1 3. rewrite E by (left; reflexivity).
    f_equal. apply IH. intros j Hj. apply E. right. exact Hj.
  Qed.
  Definition mirrors (cs : list (call K)) (k : nat) (o : olayer) : Prop :=
    o_id o = nth k (names cs) [] /\ (boxed cs k -> o_declared o = true) /\ (touched cs k -> o_touched o = true).
  Record sim (cs : list (call K)) (st : list nat) (n : nat) w (opens : list olayer) (closed : list str) : Prop := {
    sm_n : length (w_layers w) = n;
    sm_names : names cs = map (@lb_id K) (w_layers w);
    sm_lock : w_locked w = false;
    sm_chain : chain w false st;
    sm_br : brackets (visible w st) = Some (opens, closed);
    sm_open : Forall2 (mirrors cs) st opens;
    sm_closed : forall k, In (Leave k true) cs -> In (nth k (names cs) []) closed;
    sm_left : forall k, (k < n)%nat -> In k st \/ In (Leave k true) cs;
    sm_started : started (visible w st) = names cs;
    sm_touched : forall k, touched cs k -> (k < n)%nat;
    sm_gone : forall k, In (Leave k true) cs -> (k < n)%nat }.

  Lemma names_app a b : names (K := K) (a ++ b) = names a ++ names b.
  Proof. apply flat_map_app. Qed.
  Lemma brackets_app a b : brackets (K := K) (a ++ b) = fold_left bracket_step b (brackets a).
  Proof. unfold brackets. apply fold_left_app. Qed.
  Lemma started_app a b : started (K := K) (a ++ b) = started a ++ started b.
  Proof. apply flat_map_app. Qed.
  Lemma names_one (c : call K) : names [c] = name_of c.
  Proof. unfold names. cbn [flat_map]. apply app_nil_r. Qed.
  Lemma snoc_split {A} (pre post : list A) c cs d : pre ++ c :: post = cs ++ [d] ->
    (post = [] /\ pre = cs /\ c = d) \/ (exists post', post = post' ++ [d] /\ cs = pre ++ c :: post').
  Proof.
    destruct post as [|p q] using rev_ind; intros H.
    - left. apply app_inj_tail in H. destruct H as [-> ->]. auto.
    - right. clear IHq. exists q. replace (pre ++ c :: q ++ [p]) with ((pre ++ c :: q) ++ [p]) in H by (rewrite <- app_assoc; reflexivity).
      apply app_inj_tail in H. destruct H as [<- ->]. auto.
  Qed.
  Lemma boxed_snoc cs c k : boxed (K := K) (cs ++ [c]) k ->
    boxed cs k \/ (length (names cs) = k /\ match c with OpenMain (Some _) _ | OpenLayer _ _ (Some _) _ => True | _ => False end).
  Proof.
    intros (pre & d & post & E & L & H). destruct (snoc_split pre post d cs c (eq_sym E)) as [(-> & -> & ->)|(post' & -> & ->)].
    - right. auto.
    - left. exists pre, d, post'. auto.
  Qed.
  Lemma boxed_length cs k : boxed (K := K) cs k -> (k < length (names cs))%nat.
  Proof.
    intros (pre & d & post & -> & <- & H). rewrite names_app. change (d :: post) with ([d] ++ post). rewrite names_app, names_one, !app_length.
    destruct d as [[]|? ? []| | | | |]; try contradiction; cbn [name_of length]; lia.
  Qed.
  Lemma touched_snoc cs c k : touched (K := K) (cs ++ [c]) k ->
    touched cs k \/ match c with Add j _ | Paste j _ _ _ => j = k | _ => False end.
  Proof.
    intros (d & Hd & H). apply in_app_or in Hd. destruct Hd as [Hd|[->|[]]]; [left; exists d; auto|right; exact H].
  Qed.
  (** A snoc that names nothing new leaves the mirrored layers alone. *)
  Lemma mirrors_snoc cs c k o : mirrors cs k o -> (k < length (names cs))%nat ->
    match c with Add j _ | Paste j _ _ _ => j <> k | _ => True end -> mirrors (cs ++ [c]) k o.
  Proof.
    intros (H1 & H2 & H3) L N. split; [|split].
    - rewrite names_app, app_nth1 by exact L. exact H1.
    - intros B. destruct (boxed_snoc _ _ _ B) as [B'|[B' _]]; [auto|lia].
    - intros T. destruct (touched_snoc _ _ _ T) as [T'|T']; [auto|]. destruct c; try contradiction; congruence.
  Qed.
  Lemma mirrors_snoc_all cs c st opens : Forall2 (mirrors cs) st opens -> Forall (fun k => k < length (names cs))%nat st ->
    Forall (fun k => match c with Add j _ | Paste j _ _ _ => j <> k | _ => True end) st -> Forall2 (mirrors (cs ++ [c])) st opens.
  Proof.
    induction 1 as [|k o st os H _ IH]; intros L N; [constructor|]. inversion L; subst. inversion N; subst.
    constructor; [apply mirrors_snoc; auto|apply IH; assumption].
  Qed.
  Lemma chain_lt w act st : chain w act st -> Forall (fun k => k < length (w_layers w))%nat st.
  Proof.
    revert act. induction st as [|k r IH]; intros act H; [constructor|]. destruct H as (x & H1 & _ & _ & _ & _ & _ & H7).
    constructor; [apply nth_error_Some; congruence|eapply IH; exact H7].
  Qed.
  Lemma closed_snoc (cs : list (call K)) c k closed : (forall k, In (Leave k true) cs -> In (nth k (names cs) []) closed) ->
    (forall k, In (Leave k true) cs -> (k < length (names cs))%nat) -> c <> Leave k true ->
    In (Leave k true) (cs ++ [c]) -> In (nth k (names (cs ++ [c])) []) closed.
  Proof.
    intros H G N I. apply in_app_or in I. destruct I as [I|[E|[]]]; [|contradiction].
    rewrite names_app, app_nth1 by (apply G; exact I). apply H. exact I.
  Qed.
  Lemma draws_touch (ds : list (draw K)) : forall (x : olayer) r closed, ds <> [] ->
    fold_left bracket_step (map KDraw ds) (Some (x :: r, closed)) = Some (MkOpen (o_id x) (o_declared x) true :: r, closed).
  Proof.
    induction ds as [|d ds IH]; intros x r closed N; [congruence|]. cbn [map fold_left bracket_step].
    destruct ds as [|d' ds]; [reflexivity|]. rewrite IH by discriminate. reflexivity.
  Qed.

  (** The effect on the visible stream of drawing on the innermost layer. *)
  Lemma sim_draw cs k st n w opens closed c (ds : list (draw K)) :
    sim cs (k :: st) n w opens closed -> ds <> [] ->
    step c w = (upd k (add_cmds (map KDraw ds)) w, None) ->
    match c with Add j _ | Paste j _ _ _ => j = k | _ => False end ->
    exists (x : olayer) r, opens = x :: r /\ visible (fst (step c w)) (k :: st) = visible w (k :: st) ++ map KDraw ds /\
      sim (cs ++ [c]) (k :: st) n (fst (step c w)) (MkOpen (o_id x) (o_declared x) true :: r) closed.
  Proof.
    intros S N E Hc. pose proof S as [Sn Sna Sl Sc Sb So Scl Sle Ss St Sg]. rewrite E. cbn [fst].
    inversion So as [|? x ? r M Mr E1 E2]; subst. exists x, r. split; [reflexivity|].
    pose proof Sc as (b & B1 & B2 & B3 & B4 & B5 & B6 & B7).
    assert (forall j, j <> k -> nth_error (w_layers (upd k (add_cmds (map KDraw ds)) w)) j = nth_error (w_layers w) j) as EO.
    { intros j Hj. cbn [upd w_layers]. rewrite nth_update. apply Nat.eqb_neq in Hj. rewrite Hj. reflexivity. }
    assert (forall j, In j st -> j <> k) as Hlt.
    { intros j Hj ->. rewrite Forall_forall in B6. specialize (B6 _ Hj). lia. }
    assert (visible (upd k (add_cmds (map KDraw ds)) w) (k :: st) = visible w (k :: st) ++ map KDraw ds) as V.
    { unfold visible. cbn [rev]. rewrite !flat_map_app. cbn [flat_map]. rewrite !app_nil_r.
      rewrite (flat_ext w) by (intros j Hj; apply EO; apply Hlt; apply in_rev; exact Hj).
      replace (lcmds (upd k (add_cmds (map KDraw ds)) w) k) with (lcmds w k ++ map KDraw ds).
      2:{ unfold lcmds. cbn [upd w_layers]. rewrite nth_update, Nat.eqb_refl, B1. reflexivity. }
      cbn [upd w_cmds]. rewrite !app_assoc. reflexivity. }
    split; [exact V|].
    assert (names (cs ++ [c]) = names cs) as EN.
    { rewrite names_app, names_one. destruct c; try contradiction; apply app_nil_r. }
    pose proof (chain_lt _ _ _ Sc) as CL. assert (length (names cs) = length (w_layers w)) as LN by (rewrite Sna; apply map_length).
    rewrite <- LN in CL. inversion CL as [|? ? CL1 CL2]; subst.
    constructor.
    - cbn [upd w_layers]. apply update_length.
    - rewrite EN, Sna. cbn [upd w_layers]. clear. generalize (w_layers w) as l. intros l. revert k. induction l as [|y l IH]; intros [|k]; cbn; try reflexivity. f_equal. apply IH.
    - exact Sl.
    - exists (add_cmds (map KDraw ds) b). cbn [upd w_layers]. rewrite nth_update, Nat.eqb_refl, B1. cbn [option_map add_cmds lb_open lb_final lb_active lb_parent].
      repeat (split; [assumption || reflexivity|]). eapply chain_ext; [|exact B7]. intros j Hj. apply EO. auto.
    - rewrite V, brackets_app, Sb. apply draws_touch. exact N.
    - constructor.
      + destruct M as (M1 & M2 & M3). split; [rewrite EN; exact M1|]. split; [|reflexivity].
        intros B. apply M2. destruct (boxed_snoc _ _ _ B) as [B'|[B' B'']]; [exact B'|]. destruct c; contradiction.
      + apply mirrors_snoc_all; [exact Mr|exact CL2|]. apply Forall_forall. intros j Hj. specialize (Hlt j Hj). destruct c; auto; congruence.
    - intros j Hj. eapply closed_snoc; [exact Scl|rewrite LN; exact Sg| |exact Hj]. destruct c; discriminate || contradiction.
    - intros j Hj. destruct (Sle j Hj) as [A|A]; [left; exact A|right; apply in_or_app; left; exact A].
    - rewrite V, started_app, Ss, EN. replace (started (map KDraw ds)) with (@nil str); [apply app_nil_r|].
      clear. induction ds; [reflexivity|exact IHds].
    - intros j T. destruct (touched_snoc _ _ _ T) as [T'|T']; [auto|]. rewrite <- LN.
      destruct c; try contradiction; subst; exact CL1.
    - intros j Hj. apply in_app_or in Hj. destruct Hj as [Hj|[->|[]]]; [auto|contradiction].
  Qed.

  Section Proper.
    Context (size : box K -> Prop) (sbox : shape K -> box K) (bad : shape K -> option exc).
    Lemma proper_snoc S c : all_proper size sbox bad S -> proper size sbox bad S c -> all_proper size sbox bad (S ++ [c]).
    Proof.
      intros A P pre d post E. destruct (snoc_split pre post d S c (eq_sym E)) as [(-> & -> & ->)|(post' & -> & E')]; [exact P|].
      eapply A. exact E'.
    Qed.
    Definition drawable (closed : list str) (d : draw K) : Prop :=
      match d with DShape s => bad s = None /\ size (sbox s) | DPaste p => In (pa_src p) closed end.
    Lemma proper_draws ds : forall S (x : olayer) r closed, all_proper size sbox bad S -> brackets S = Some (x :: r, closed) ->
      (forall d, In d ds -> drawable closed d) -> all_proper size sbox bad (S ++ map KDraw ds).
    Proof.
      induction ds as [|d ds IH]; intros S x r closed A B D; cbn [map]; [rewrite app_nil_r; exact A|].
      replace (S ++ KDraw d :: map KDraw ds) with ((S ++ [KDraw d]) ++ map KDraw ds) by (rewrite <- app_assoc; reflexivity).
      eapply IH.
      - apply proper_snoc; [exact A|]. exists (x :: r), closed. split; [exact B|]. specialize (D d (or_introl eq_refl)).
        destruct d; cbn [drawable] in D; (split; [discriminate|exact D]).
      - rewrite brackets_app, B. reflexivity.
      - intros d' H. apply D. right. exact H.
    Qed.
    Lemma careful_prefix cs c : careful size sbox bad (cs ++ [c]) -> careful size sbox bad cs.
    Proof.
      intros [H1 H2 H3 H4 H5 H6]. constructor.
      - rewrite names_app in H1. clear - H1. induction (names cs) as [|a l IH]; [constructor|]. cbn [app] in H1. inversion H1; subst.
        constructor; [intros I; apply H2; apply in_or_app; left; exact I|auto].
      - intros pre k src a neg post ->. eapply (H2 pre k src a neg (post ++ [c])). rewrite <- app_assoc. reflexivity.
      - intros pre k post ->. eapply (H3 pre k (post ++ [c])). rewrite <- app_assoc. reflexivity.
      - intros b o I. eapply H4. apply in_or_app. left. exact I.
      - intros k id b o I. eapply H5. apply in_or_app. left. exact I.
      - intros k q ss s I. eapply H6. apply in_or_app. left. exact I.
    Qed.
    Lemma nodup_last {A} (l : list A) a : NoDup (l ++ [a]) -> ~ In a l.
    Proof.
      induction l as [|b l IH]; intros H; [intros []|]. cbn [app] in H. inversion H; subst. intros [->|I]; [|apply IH; assumption].
      apply H2. apply in_or_app. right. left. reflexivity.
    Qed.
    Lemma shapes_some (q : request K) ss : shapes_of q = Ok ss -> ss <> [].
    Proof.
      destruct q; cbn [shapes_of]; intros H; try (injection H as <-; discriminate).
      destruct (new_polygon c d n rot neg None); [|discriminate]. cbn [bind] in H. injection H as <-. discriminate.
    Qed.
    Lemma map_id_update l k (f : lbuilder K -> lbuilder K) : (forall y, lb_id (f y) = lb_id y) -> map (@lb_id K) (update l k f) = map (@lb_id K) l.
    Proof. intros Hf. revert k. induction l as [|y l IH]; intros [|k]; cbn; try reflexivity; [rewrite Hf; reflexivity|f_equal; apply IH]. Qed.

    Lemma tidy_run cs st n : tidy cs st n -> careful size sbox bad cs ->
      exists opens closed, sim cs st n (run cs) opens closed /\ all_proper size sbox bad (visible (run cs) st).
    Proof.
      induction 1 as [|b o|cs k st n id b o T IH|cs k st n T IH|cs k st n q ss T IH Q|cs k st n src a neg T IH Hs]; intros C.
      - exists [], []. split; [|intros pre c post E; destruct pre; discriminate].
        constructor; try reflexivity; try exact I; try (intros k []; contradiction); try (intros k Hk; lia); try apply Forall2_nil.
        intros k (c & [] & _).
      - exists [MkOpen main_id (match b with Some _ => true | None => false end) false], []. split.
        + constructor; try reflexivity.
          * cbn. eexists. repeat (split; [reflexivity|]). split; [constructor|exact I].
          * constructor; [|constructor]. split; [reflexivity|]. split.
            -- intros B. destruct (boxed_snoc [] _ _ B) as [B'|[_ B']]; [apply boxed_length in B'; cbn in B'; lia|]. destruct b; [reflexivity|contradiction].
            -- intros (c & [<-|[]] & []).
          * intros k [E|[]]. discriminate.
          * intros k Hk. left. left. lia.
          * intros k (c & [<-|[]] & []).
          * intros k [E|[]]. discriminate.
        + intros pre c post E. destruct pre as [|d pre]; [|destruct pre; discriminate]. injection E as <- <-.
          exists [], []. split; [reflexivity|]. split; [intros []|]. destruct b as [b|]; [|exact I]. eapply (cf_boxes _ _ _ _ C). left. reflexivity.
      - destruct (IH (careful_prefix _ _ C)) as (opens & closed & S & A). clear IH. pose proof S as [Sn Sna Sl Sc Sb So Scl Sle Ss St Sg].
        pose proof Sc as (x & B1 & B2 & B3 & B4 & B5 & B6 & B7).
        assert (length (names cs) = n) as LN by (rewrite Sna, map_length; exact Sn).
        assert (names (cs ++ [OpenLayer k id b o]) = names cs ++ [id]) as EN by (rewrite names_app; reflexivity).
        pose proof (chain_lt _ _ _ Sc) as CL. rewrite Sn in CL.
        rewrite run_app. cbn [fold_left]. cbn [step]. rewrite B1, B4, B3. cbn [fst upd w_layers w_cmds w_locked].
        set (w' := MkWorld (w_cmds (run cs)) (w_locked (run cs)) (update (w_layers (run cs)) k (set_active true) ++ [new_lb id b o (Some k)])).
        assert (forall j, (j < n)%nat -> nth_error (w_layers w') j = nth_error (update (w_layers (run cs)) k (set_active true)) j) as E1.
        { intros j Hj. cbn [w' w_layers]. apply nth_error_app1. rewrite update_length. lia. }
        assert (nth_error (w_layers w') n = Some (new_lb id b o (Some k))) as E2.
        { cbn [w' w_layers]. rewrite nth_error_app2; rewrite update_length; [|lia]. replace (n - length (w_layers (run cs)))%nat with 0%nat by lia. reflexivity. }
        assert (flat_map (lcmds w') (rev (k :: st)) = flat_map (lcmds (run cs)) (rev (k :: st))) as EF.
        { assert (forall l, Forall (fun j => j < n)%nat l -> flat_map (lcmds w') l = flat_map (lcmds (run cs)) l) as G.
          { induction 1 as [|j l Hj _ IHl]; [reflexivity|]. cbn [flat_map]. rewrite IHl. f_equal. unfold lcmds. rewrite E1 by exact Hj. rewrite nth_update.
            destruct (j =? k)%nat eqn:Ej; [|reflexivity]. destruct (nth_error (w_layers (run cs)) j); reflexivity. }
          apply G. apply Forall_rev. exact CL. }
        assert (visible w' (n :: k :: st) = visible (run cs) (k :: st) ++ [start id b o]) as V.
        { unfold visible. change (rev (n :: k :: st)) with (rev (k :: st) ++ [n]). rewrite flat_map_app, EF. cbn [flat_map]. unfold lcmds at 2. rewrite E2.
          cbn [new_lb lb_cmds]. rewrite app_nil_r, app_assoc. reflexivity. }
        exists (MkOpen id (match b with Some _ => true | None => false end) false :: opens), closed. split.
        + constructor.
          * cbn [w' w_layers]. rewrite app_length, update_length. cbn. lia.
          * rewrite EN, Sna. cbn [w' w_layers]. rewrite map_app, map_id_update by reflexivity. reflexivity.
          * exact Sl.
          * exists (new_lb id b o (Some k)). split; [exact E2|]. repeat (split; [reflexivity|]). split; [exact CL|].
            exists (set_active true x). inversion CL; subst. rewrite E1 by assumption. rewrite nth_update, Nat.eqb_refl, B1.
            split; [reflexivity|]. cbn [set_active lb_open lb_final lb_active lb_parent]. repeat (split; [assumption || reflexivity|]).
            eapply chain_ext; [|exact B7]. intros j Hj. rewrite Forall_forall in *. rewrite E1 by auto.
            rewrite nth_update. specialize (B6 j Hj). replace (j =? k)%nat with false by (symmetry; apply Nat.eqb_neq; lia). reflexivity.
          * rewrite V, brackets_app, Sb. reflexivity.
          * constructor.
            -- split; [|split].
               ++ rewrite EN, app_nth2 by lia. replace (n - length (names cs))%nat with 0%nat by lia. reflexivity.
               ++ intros B. destruct (boxed_snoc _ _ _ B) as [B'|[_ B']]; [apply boxed_length in B'; lia|]. cbn. destruct b; [reflexivity|contradiction].
               ++ intros B. destruct (touched_snoc _ _ _ B) as [B'|[]]. apply St in B'. lia.
            -- apply mirrors_snoc_all; [exact So|rewrite LN; exact CL|]. apply Forall_forall. intros; exact I.
          * intros j Hj. eapply closed_snoc; [exact Scl|rewrite LN; exact Sg|discriminate|exact Hj].
          * intros j Hj. destruct (Nat.eq_dec j n) as [->|N]; [left; left; reflexivity|].
            destruct (Sle j) as [L|L]; [lia|left; right; exact L|right; apply in_or_app; left; exact L].
          * rewrite V, started_app, Ss, EN. reflexivity.
          * intros j B. destruct (touched_snoc _ _ _ B) as [B'|[]]. apply St in B'. lia.
          * intros j B. apply in_app_or in B. destruct B as [B|[B|[]]]; [|discriminate]. apply Sg in B. lia.
        + rewrite V. apply proper_snoc; [exact A|]. exists opens, closed. split; [exact Sb|]. cbn. split.
          * rewrite Ss. apply nodup_last. rewrite <- EN. apply (cf_names _ _ _ _ C).
          * destruct b as [b|]; [|exact I]. eapply (cf_boxes' _ _ _ _ C). apply in_or_app. right. left. reflexivity.
      - destruct (IH (careful_prefix _ _ C)) as (opens & closed & S & A). clear IH. pose proof S as [Sn Sna Sl Sc Sb So Scl Sle Ss St Sg].
        pose proof Sc as (x & B1 & B2 & B3 & B4 & B5 & B6 & B7).
        assert (length (names cs) = n) as LN by (rewrite Sna, map_length; exact Sn).
        assert (names (cs ++ [Leave k true]) = names cs) as EN by (rewrite names_app; apply app_nil_r).
        pose proof (chain_lt _ _ _ Sc) as CL. rewrite Sn in CL. pose proof (Forall_inv CL) as CL1. pose proof (Forall_inv_tail CL) as CL2.
        destruct opens as [|ox or]; [inversion So|].
        assert (mirrors cs k ox /\ Forall2 (mirrors cs) st or) as [M Mr] by (inversion So; auto).
        rewrite run_app. cbn [fold_left].
        assert (exists w', fst (step (Leave k true) (run cs)) = w' /\ length (w_layers w') = n /\ map (@lb_id K) (w_layers w') = map (@lb_id K) (w_layers (run cs)) /\
          w_locked w' = false /\ chain w' false st /\ visible w' st = visible (run cs) (k :: st) ++ [KEnd]) as (w' & -> & W1 & W2 & W3 & W4 & W5).
        { cbn [step]. rewrite B1, B2. cbn [negb]. rewrite B5. unfold visible. cbn [rev]. rewrite flat_map_app. cbn [flat_map]. unfold lcmds at 3. rewrite B1, app_nil_r.
          assert (forall j, In j st -> nth_error (update (w_layers (run cs)) k (fun x => set_closed (finalize x))) j = nth_error (w_layers (run cs)) j) as EU.
          { intros j Hj. rewrite nth_update. rewrite Forall_forall in B6. specialize (B6 j Hj). replace (j =? k)%nat with false by (symmetry; apply Nat.eqb_neq; lia). reflexivity. }
          destruct st as [|p st]; cbn [hd_error].
          - cbn [upd w_locked]. rewrite Sl. cbn [fst]. eexists. split; [reflexivity|]. cbn [w_layers w_locked w_cmds upd].
            split; [rewrite update_length; exact Sn|]. split; [apply map_id_update; reflexivity|]. split; [reflexivity|]. split; [exact I|].
            cbn [rev flat_map app]. rewrite app_nil_r, app_assoc. reflexivity.
          - cbn [fst]. eexists. split; [reflexivity|]. cbn [upd w_layers w_locked w_cmds].
            split; [rewrite !update_length; exact Sn|]. split; [rewrite !map_id_update by reflexivity; reflexivity|]. split; [exact Sl|].
            destruct B7 as (y & P1 & P2 & P3 & P4 & P5 & P6 & P7).
            match goal with |- context [chain ?w0 _ _] => set (w' := w0) end.
            assert (nth_error (w_layers w') p = Some (set_active false (add_cmds (lb_cmds x ++ [KEnd]) y))) as Q1.
            { unfold w'; cbn [upd w_layers]. rewrite nth_update, Nat.eqb_refl, EU, P1 by (left; reflexivity). reflexivity. }
            assert (forall j, In j st -> nth_error (w_layers w') j = nth_error (w_layers (run cs)) j) as Q2.
            { intros j Hj. unfold w'; cbn [upd w_layers]. rewrite nth_update. rewrite Forall_forall in P6. specialize (P6 j Hj).
              replace (j =? p)%nat with false by (symmetry; apply Nat.eqb_neq; lia). apply EU. right. exact Hj. }
            split.
            + exists (set_active false (add_cmds (lb_cmds x ++ [KEnd]) y)). split; [exact Q1|]. cbn [set_active add_cmds lb_open lb_final lb_active lb_parent].
              repeat (split; [assumption || reflexivity|]). eapply chain_ext; [|exact P7]. exact Q2.
            + cbn [rev]. rewrite !flat_map_app. cbn [flat_map]. rewrite (flat_ext (run cs) w') by (intros j Hj; apply Q2; apply in_rev; exact Hj).
              unfold lcmds at 2 4. rewrite Q1, P1. cbn [set_active add_cmds lb_cmds]. rewrite !app_nil_r, <- !app_assoc. reflexivity. }
        exists or, (o_id ox :: closed). split.
        + constructor.
          * exact W1.
          * rewrite EN, Sna, W2. reflexivity.
          * exact W3.
          * exact W4.
          * rewrite W5, brackets_app, Sb. reflexivity.
          * apply mirrors_snoc_all; [exact Mr|rewrite LN; exact CL2|]. apply Forall_forall. intros; exact I.
          * intros j Hj. rewrite EN. apply in_app_or in Hj. destruct Hj as [Hj|[E|[]]]; [right; apply Scl; exact Hj|].
            injection E as <-. left. destruct M as [M1 _]. exact M1.
          * intros j Hj. destruct (Sle j Hj) as [[<-|L]|L]; [right; apply in_or_app; right; left; reflexivity|left; exact L|right; apply in_or_app; left; exact L].
          * rewrite W5, started_app, Ss, EN. apply app_nil_r.
          * intros j B. destruct (touched_snoc _ _ _ B) as [B'|[]]. apply St. exact B'.
          * intros j B. apply in_app_or in B. destruct B as [B|[B|[]]]; [apply Sg; exact B|]. injection B as <-. exact CL1.
        + rewrite W5. apply proper_snoc; [exact A|]. exists (ox :: or), closed. split; [exact Sb|].
          destruct M as (_ & M2 & M3). destruct (cf_empty _ _ _ _ C cs k [] eq_refl) as [B|B]; [left; auto|right; auto].
      - destruct (IH (careful_prefix _ _ C)) as (opens & closed & S & A). clear IH. pose proof (sm_chain _ _ _ _ _ _ S) as (x & B1 & B2 & B3 & B4 & B5 & B6 & B7).
        pose proof (shapes_some q ss Q) as N. rewrite run_app. cbn [fold_left].
        assert (step (Add k q) (run cs) = (upd k (add_cmds (map KDraw (map DShape ss))) (run cs), None)) as E.
        { cbn [step]. rewrite B1, B3, Q, map_map. reflexivity. }
        destruct (sim_draw cs k st n (run cs) opens closed (Add k q) (map DShape ss) S) as (ox & or & -> & V & S'); [|exact E|reflexivity|].
        { destruct ss; [congruence|discriminate]. }
        exists (MkOpen (o_id ox) (o_declared ox) true :: or), closed. split; [exact S'|]. rewrite V.
        eapply proper_draws; [exact A|exact (sm_br _ _ _ _ _ _ S)|]. intros d Hd. apply in_map_iff in Hd. destruct Hd as (s & <- & Hs').
        cbn [drawable]. eapply (cf_shapes _ _ _ _ C); [apply in_or_app; right; left; reflexivity|exact Q|exact Hs'].
      - destruct (IH (careful_prefix _ _ C)) as (opens & closed & S & A). clear IH. pose proof S as [Sn Sna Sl Sc Sb So Scl Sle Ss St Sg].
        pose proof Sc as (x & B1 & B2 & B3 & B4 & B5 & B6 & B7).
        rewrite run_app. cbn [fold_left].
        destruct (nth_error (w_layers (run cs)) src) as [y|] eqn:Ey; [|apply nth_error_None in Ey; lia].
        assert (lb_id y = nth src (names cs) []) as Ei.
        { rewrite Sna. symmetry. apply nth_error_nth. rewrite nth_error_map, Ey. reflexivity. }
        assert (step (Paste k src a neg) (run cs) = (upd k (add_cmds (map KDraw [DPaste (MkPaste (lb_id y) a neg None)])) (run cs), None)) as E.
        { cbn [step]. rewrite B1, Ey, B3. reflexivity. }
        destruct (sim_draw cs k st n (run cs) opens closed (Paste k src a neg) [DPaste (MkPaste (lb_id y) a neg None)] S ltac:(discriminate) E eq_refl) as (ox & or & -> & V & S').
        exists (MkOpen (o_id ox) (o_declared ox) true :: or), closed. split; [exact S'|]. rewrite V.
        eapply proper_draws; [exact A|exact Sb|]. intros d [<-|[]]. cbn [drawable pa_src]. rewrite Ei. apply Scl.
        apply (cf_paste _ _ _ _ C cs k src a neg []). reflexivity.
    Qed.
    Lemma tidy_proper cs n : tidy cs [] n -> cs <> [] -> careful size sbox bad cs ->
      all_proper size sbox bad (rvmc cs) /\ exists closed, brackets (rvmc cs) = Some ([], closed) /\ In main_id closed.
    Proof.
      intros T N C. destruct (tidy_run cs [] n T C) as (opens & closed & S & A).
      assert (visible (run cs) [] = rvmc cs) as V by apply app_nil_r. rewrite V in A. split; [exact A|].
      destruct S as [Sn Sna Sl Sc Sb So Scl Sle Ss St Sg]. inversion So; subst. exists closed. rewrite V in Sb. split; [exact Sb|].
      assert (forall cs st n, tidy (K := K) cs st n -> cs <> [] -> exists r, names cs = main_id :: r) as Hm.
      { clear. induction 1 as [|b o|cs k st n id b o T IH|cs k st n T IH|cs k st n q ss T IH Q|cs k st n src a neg T IH Hs]; intros N; [congruence|exists []; reflexivity| | | |];
          (assert (cs <> []) as N' by (intros ->; inversion T as [| |? ? ? ? ? ? ? ? E|? ? ? ? ? E|? ? ? ? ? ? ? ? E|? ? ? ? ? ? ? ? ? E]; destruct cs; discriminate));
          destruct (IH N') as (r & E); rewrite names_app, E; eexists; reflexivity. }
      destruct (Hm _ _ _ T N) as (r & E). destruct (Sle 0%nat) as [[]|L].
      { rewrite <- (map_length (@lb_id K)), <- Sna, E. cbn. lia. }
      apply Scl in L. rewrite E in L. exact L.
    Qed.
  End Proper.
End Proofs.

(** Lemmas for C25 and C27. *)
From Verif Require Import Base Num Dict Ast StateModel GeomModel CompilerModel BoxModel VmModel BoxSpec.

Section Lemmas.
  Context {K : Type} {NK : Num K} (le : K -> K -> Prop) (O : ordered le).
  Notation ele := (e_le le).

  Lemma ele_refl a : ele a a. Proof. destruct a; cbn; auto. apply (le_refl _ O). Qed.
  Lemma ele_trans a b c : ele a b -> ele b c -> ele a c.
  Proof. destruct a, b, c; cbn; auto; try tauto. apply (le_trans _ O). Qed.
  Lemma ele_antisym a b : ele a b -> ele b a -> a = b.
  Proof. destruct a, b; cbn; auto; try tauto. intros H1 H2. f_equal. exact (le_antisym _ O _ _ H1 H2). Qed.
  Lemma e_ltb_true a b : e_ltb a b = true -> ele a b.
  Proof.
    destruct a, b; cbn; auto; try discriminate. intros H. destruct (le_total _ O k k0) as [L|L]; [assumption|].
    apply (ltb_le _ O) in L. congruence.
  Qed.
  Lemma e_ltb_false a b : e_ltb a b = false -> ele b a.
  Proof. destruct a, b; cbn; auto; try discriminate. apply (ltb_le _ O). Qed.

  Lemma e_min_l a b : ele (e_min a b) a.
  Proof. unfold e_min. destruct (e_ltb b a) eqn:E; [apply e_ltb_true; exact E|apply ele_refl]. Qed.
  Lemma e_min_r a b : ele (e_min a b) b.
  Proof. unfold e_min. destruct (e_ltb b a) eqn:E; [apply ele_refl|apply e_ltb_false; exact E]. Qed.
  Lemma e_min_glb a b c : ele c a -> ele c b -> ele c (e_min a b).
  Proof. unfold e_min. destruct (e_ltb b a); auto. Qed.
  Lemma e_max_l a b : ele a (e_max a b).
  Proof. unfold e_max. destruct (e_ltb a b) eqn:E; [apply e_ltb_true; exact E|apply ele_refl]. Qed.
  Lemma e_max_r a b : ele b (e_max a b).
  Proof. unfold e_max. destruct (e_ltb a b) eqn:E; [apply ele_refl|apply e_ltb_false; exact E]. Qed.
  Lemma e_max_lub a b c : ele a c -> ele b c -> ele (e_max a b) c.
  Proof. unfold e_max. destruct (e_ltb a b); auto. Qed.

  Notation win := (within le).
  Lemma win_refl a : win a a. Proof. repeat split; apply ele_refl. Qed.
  Lemma win_trans a b c : win a b -> win b c -> win a c.
  Proof. intros (A1 & A2 & A3 & A4) (B1 & B2 & B3 & B4). repeat split; eapply ele_trans; eauto. Qed.
  Lemma win_antisym a b : win a b -> win b a -> a = b.
  Proof.
    destruct a, b. intros (A1 & A2 & A3 & A4) (B1 & B2 & B3 & B4). cbn in *. f_equal; apply ele_antisym; auto.
  Qed.
  Lemma join_l a b : win a (box_join a b).
  Proof. repeat split; cbn; [apply e_min_l|apply e_min_l|apply e_max_l|apply e_max_l]. Qed.
  Lemma join_r a b : win b (box_join a b).
  Proof. repeat split; cbn; [apply e_min_r|apply e_min_r|apply e_max_r|apply e_max_r]. Qed.
  Lemma join_lub a b c : win a c -> win b c -> win (box_join a b) c.
  Proof.
    intros (A1 & A2 & A3 & A4) (B1 & B2 & B3 & B4).
    repeat split; cbn; [apply e_min_glb|apply e_min_glb|apply e_max_lub|apply e_max_lub]; auto.
  Qed.
  Lemma join_assoc a b c : box_join (box_join a b) c = box_join a (box_join b c).
  Proof.
    apply win_antisym; repeat apply join_lub; eauto using join_l, join_r, win_trans.
  Qed.
  Lemma join_comm a b : box_join a b = box_join b a.
  Proof. apply win_antisym; apply join_lub; auto using join_l, join_r. Qed.
  Lemma join_idem a : box_join a a = a.
  Proof. apply win_antisym; [apply join_lub; apply win_refl|apply join_l]. Qed.
  Lemma default_least a : win default_box a.
  Proof. destruct a as [w x y z]. repeat split; cbn; auto; [destruct w|destruct x]; exact I. Qed.
  Lemma join_default a : box_join default_box a = a.
  Proof. apply win_antisym; [apply join_lub; [apply default_least|apply win_refl]|apply join_r]. Qed.

  (** Monotone maps commute with min and max. *)
  Lemma e_map_mono f a b : (forall x y, le x y -> le (f x) (f y)) -> ele a b -> ele (e_map f a) (e_map f b).
  Proof. destruct a, b; cbn; auto. Qed.
  Lemma e_map_min f a b : (forall x y, le x y -> le (f x) (f y)) -> e_map f (e_min a b) = e_min (e_map f a) (e_map f b).
  Proof.
    intros Hf. apply ele_antisym.
    - apply e_min_glb; apply e_map_mono; auto; [apply e_min_l|apply e_min_r].
    - unfold e_min at 2. destruct (e_ltb b a); [apply e_min_r|apply e_min_l].
  Qed.
  Lemma e_map_max f a b : (forall x y, le x y -> le (f x) (f y)) -> e_map f (e_max a b) = e_max (e_map f a) (e_map f b).
  Proof.
    intros Hf. apply ele_antisym.
    - unfold e_max at 1. destruct (e_ltb a b); [apply e_max_r|apply e_max_l].
    - apply e_max_lub; apply e_map_mono; auto; [apply e_max_l|apply e_max_r].
  Qed.
  Lemma shift_join a b v : box_shift (box_join a b) v = box_join (box_shift a v) (box_shift b v).
  Proof. unfold box_shift, box_join; cbn. f_equal; (apply e_map_min || apply e_map_max); intros; apply (add_le _ O); auto. Qed.
  Lemma unshift_join a b v : box_unshift (box_join a b) v = box_join (box_unshift a v) (box_unshift b v).
  Proof. unfold box_unshift, box_join; cbn. f_equal; (apply e_map_min || apply e_map_max); intros; apply (sub_le _ O); auto. Qed.

  Definition pbox (v : vec K) : ebox K := MkBox (Fin (vx v)) (Fin (vy v)) (Fin (vx v)) (Fin (vy v)).
  Lemma step_join b v : box_step b v = box_join b (pbox v). Proof. reflexivity. Qed.
  Lemma inside_win v b : inside le v b <-> win (pbox v) b.
  Proof. unfold inside, within. cbn. tauto. Qed.
  Lemma inside_within v a b : win a b -> inside le v a -> inside le v b.
  Proof. rewrite !inside_win. intros H1 H2. eapply win_trans; eauto. Qed.
  Lemma from_vectors_lub vs : forall b, 
    (forall c, win (fold_left box_step vs b) c <-> win b c /\ Forall (fun v => inside le v c) vs).
  Proof.
    induction vs as [|v vs IH]; intros b c; cbn [fold_left]; [split; [auto|tauto]|].
    rewrite IH, step_join. split.
    - intros [H1 H2]. split; [eapply win_trans; [apply join_l|exact H1]|]. constructor; [|exact H2].
      apply inside_win. eapply win_trans; [apply join_r|exact H1].
    - intros [H1 H2]. inversion H2; subst. split; [|assumption]. apply join_lub; [exact H1|apply inside_win; assumption].
  Qed.
  Lemma from_vectors_least v vs :
    least le (fun c => Forall (fun p => inside le p c) (v :: vs)) (from_vectors v vs).
  Proof.
    unfold from_vectors. fold (pbox v). split.
    - destruct (proj1 (from_vectors_lub vs (pbox v) _) (win_refl _)) as [H1 H2].
      constructor; [apply inside_win; exact H1|exact H2].
    - intros c H. inversion H; subst. apply from_vectors_lub. split; [apply inside_win; assumption|assumption].
  Qed.

  (** *** The embedding *)
  Lemma embed_join a b : embed (b_join a b) = box_join (embed a) (embed b).
  Proof.
    destruct a, b; cbn [b_join embed]; try reflexivity.
    - unfold box_join, e_min, e_max. cbn. unfold n_min, n_max.
      f_equal; match goal with |- context[n_ltb ?x ?y] => destruct (n_ltb x y) end; reflexivity.
  Qed.
  Lemma embed_shift b v : embed (b_shift b v) = box_shift (embed b) v. Proof. destruct b; reflexivity. Qed.
  Lemma embed_unshift b v : embed (b_unshift b v) = box_unshift (embed b) v. Proof. destruct b; reflexivity. Qed.
  Lemma embed_vecs v vs : embed (b_of_vecs v vs) = from_vectors v vs.
  Proof.
    unfold b_of_vecs, from_vectors.
    change (MkBox (Fin (vx v)) (Fin (vy v)) (Fin (vx v)) (Fin (vy v))) with (embed (BoxOf (vx v) (vy v) (vx v) (vy v))).
    assert (G : forall a b c d, embed (fold_left b_extend vs (BoxOf a b c d)) = fold_left box_step vs (embed (BoxOf a b c d))).
    { clear v. induction vs as [|w vs IH]; intros a b c d; [reflexivity|]. cbn [fold_left b_extend]. rewrite IH. f_equal.
      unfold box_step, e_min, e_max. cbn. unfold n_min, n_max.
      f_equal; match goal with |- context[n_ltb ?x ?y] => destruct (n_ltb x y) end; reflexivity. }
    apply G.
  Qed.

  (** *** Layers *)
  Lemma draw_box_covers ls d b : draw_box ls d = Ok b -> covers ls d (embed b).
  Proof.
    destruct d as [s|p]; cbn; [intros H; injection H as <-; reflexivity|].
    destruct (d_get (pa_src p) ls) as [[b0 o l|o l]|]; try discriminate. intros H. injection H as <-.
    exists b0, o, l. split; [reflexivity|]. rewrite embed_unshift, embed_shift. reflexivity.
  Qed.
  Lemma covers_draw_box ls d c : covers ls d c -> exists b, draw_box ls d = Ok b /\ embed b = c.
  Proof.
    destruct d as [s|p]; cbn; [intros ->; eauto|]. intros (b & o & l & -> & ->).
    eexists. split; [reflexivity|]. rewrite embed_unshift, embed_shift. reflexivity.
  Qed.
  Lemma covers_fun ls d c c' : covers ls d c -> covers ls d c' -> c = c'.
  Proof.
    intros H1 H2. destruct (covers_draw_box _ _ _ H1) as (b & E1 & <-), (covers_draw_box _ _ _ H2) as (b' & E2 & <-). congruence.
  Qed.
  Lemma join_boxes_lub ls ds : forall b b', join_boxes ls b ds = Ok b' ->
    Forall (fun d => exists c, covers ls d c) ds /\
    forall c, win (embed b') c <-> win (embed b) c /\ Forall (fun d => forall a, covers ls d a -> win a c) ds.
  Proof.
    induction ds as [|d r IH]; cbn [join_boxes]; intros b b' E.
    - injection E as <-. split; [constructor|]. split; [auto|tauto].
    - destruct (draw_box ls d) as [bd|] eqn:Ed; [|discriminate E]. cbn [bind] in E.
      apply IH in E as [E1 E2]. apply draw_box_covers in Ed. split; [constructor; eauto|]. intros c. rewrite E2, embed_join.
      split.
      + intros [H1 H2]. split; [eapply win_trans; [apply join_l|exact H1]|]. constructor; [|exact H2].
        intros a Ha. rewrite (covers_fun _ _ _ _ Ha Ed). eapply win_trans; [apply join_r|exact H1].
      + intros [H1 H2]. inversion H2; subst. split; [|assumption]. apply join_lub; auto.
  Qed.
  Lemma deferred_box_least ls ds b : deferred_box ls ds = Ok (Some b) ->
    Forall (fun d => exists c, covers ls d c) ds /\
    least le (fun c => Forall (fun d => forall a, covers ls d a -> win a c) ds) (embed b).
  Proof.
    destruct ds as [|d r]; cbn [deferred_box]; [discriminate|]. intros E.
    destruct (draw_box ls d) as [bd|] eqn:Ed; [|discriminate E]. cbn [bind] in E.
    destruct (join_boxes ls bd r) as [b'|] eqn:Ej; [|discriminate E]. injection E as <-.
    apply join_boxes_lub in Ej as [J1 J2]. apply draw_box_covers in Ed. split; [constructor; eauto|]. split.
    - destruct (proj1 (J2 _) (win_refl _)) as [H1 H2]. constructor; [|exact H2].
      intros a Ha. rewrite (covers_fun _ _ _ _ Ha Ed). exact H1.
    - intros c H. inversion H; subst. apply J2. auto.
  Qed.
  Lemma deferred_box_defined ls ds : ds <> [] -> Forall (fun d => exists c, covers ls d c) ds ->
    exists b, deferred_box ls ds = Ok (Some b).
  Proof.
    destruct ds as [|d r]; [intros []; reflexivity|]. intros _ H. inversion H as [|? ? [c Hc] Hr]; subst.
    apply covers_draw_box in Hc as (b & Eb & _). cbn [deferred_box]. rewrite Eb. cbn [bind]. clear Eb H d.
    revert b. induction Hr as [|d r [c' Hc] _ IH]; intros b; cbn [join_boxes]; [eexists; reflexivity|].
    apply covers_draw_box in Hc as (bd & -> & _). cbn [bind]. apply IH.
  Qed.
End Lemmas.

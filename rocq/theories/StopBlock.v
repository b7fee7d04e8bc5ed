(** C09: programs stopped inside of a block. *)
From Coq Require Import Permutation.
From Verif Require Import Base Num Dict CoordModel CoordSpec CoordProofs Ast StateModel StateSpec
  StateProofs GeomModel ExprModel CompilerModel LayerSpec LayerProofs LayerInv LayerOut DrawProofs.

(** ** Names *)
Section Keys.
  Context {K : Type} {NK : Num K}.
  (** Layers made for a transformation have names ending in a parenthesis. *)
  Definition copied (k : str) : Prop := exists p, k = p ++ [")"%char].
  Lemma key_copied id (m : mat K) : copied (layer_key id m).
  Proof.
    destruct (mtag_last m) as [p E]. unfold layer_key. rewrite E. exists (id ++ lit "%" ++ p). rewrite <- !app_assoc. reflexivity.
  Qed.
  Lemma copied_last k p c : k = p ++ [c] -> c <> ")"%char -> ~ copied k.
  Proof. intros -> Hc (q & E). apply app_inj_tail in E as [_ E]. contradiction. Qed.
  Lemma main_not_copied : ~ copied main_id.
  Proof. apply (copied_last main_id (lit "%main") "%"%char); [reflexivity|discriminate]. Qed.
  Lemma stamp_not_copied p id : is_stamp p id -> ~ copied id.
  Proof.
    intros (u & t & ->). destruct (z_repr_last t) as (q & c & E & Hc). rewrite E.
    apply (copied_last _ (p ++ z_repr u ++ lit "%" ++ q) c); [rewrite <- !app_assoc; reflexivity|]. intros ->. discriminate Hc.
  Qed.
  Lemma digits_last (r : str) : all_digits r -> r = [] \/ exists p c, r = p ++ [c] /\ is_digit c = true.
  Proof.
    intros Hr. destruct r as [|c0 r0] eqn:Er; [left; reflexivity|right]. rewrite <- Er in *.
    destruct (@exists_last _ r ltac:(rewrite Er; discriminate)) as (p & c & ->). exists p, c. split; [reflexivity|].
    apply Hr. apply in_or_app. right; left; reflexivity.
  Qed.
  Lemma dcode_not_copied id n : dcode id n -> ~ copied id.
  Proof.
    intros D. apply dcode_chars in D as (r & -> & Hr). destruct (digits_last r Hr) as [->|(p & c & -> & Hc)].
    - apply (copied_last _ [] "D"%char); [reflexivity|discriminate].
    - apply (copied_last _ ("D"%char :: p) c); [reflexivity|]. intros ->. discriminate Hc.
  Qed.
  Lemma dcode_not_main id n : dcode id n -> id <> main_id.
  Proof. intros D ->. apply dcode_chars in D as (r & D & _). discriminate D. Qed.
  Lemma dcode_not_sr id n : dcode id n -> ~ sr_tmp id.
  Proof. intros D (u & t & ->). apply dcode_chars in D as (r & D & _). discriminate D. Qed.
End Keys.

(** ** The main buffer while a block is open *)
Section Main.
  Context {K : Type} {NK : Num K} (md : bool) (clock : nat -> Z).
  Notation H := (compiler_hooks (K := K) md clock).
  Implicit Types (x : cstate K) (v : visitor K (cstate K)) (n : node K).
  Definition main_of x := d_get main_id (c_buffers x).
  (** The current buffer is not the main one. *)
  Definition aside x : Prop := match c_stack x with [] => False | i :: _ => i <> main_id end.
  (** Names that are not the main one. *)
  Definition coded n : Prop := match n with
    | NAD a => exists k, dcode (ad_id a) k
    | NAB id _ => exists k, dcode id k
    | _ => True end.

  Lemma neq_eqb (a b : str) : a <> b -> str_eqb a b = false.
  Proof. intros Hn. destruct (str_eqb a b) eqn:E; [apply str_eqb_eq in E; contradiction|reflexivity]. Qed.
  Definition still x x' : Prop := c_stack x' = c_stack x /\ (aside x -> main_of x' = main_of x).
  Lemma still_refl x : still x x.
  Proof. split; auto. Qed.
  Lemma still_trans x y z : still x y -> still y z -> still x z.
  Proof.
    intros [A1 A2] [B1 B2]. split; [congruence|]. intros Ha. rewrite B2; [auto|]. unfold aside in *. rewrite A1. exact Ha.
  Qed.
  Lemma still_append d x x' : append_current d x = Ok x' -> still x x'.
  Proof.
    intros E. apply append_current_inv in E as (id & st & b & Es & _ & ->). split; [reflexivity|]. unfold aside, main_of. rewrite Es. intros Ha.
    cbn [set_buffers c_buffers]. rewrite d_get_set, neq_eqb; auto.
  Qed.
  Lemma still_append_all ds : forall x x', append_all ds x = Ok x' -> still x x'.
  Proof.
    induction ds as [|d r IH]; intros x x'; cbn [append_all]; [intros E; injection E as <-; apply still_refl|].
    destruct (append_current d x) as [x1|] eqn:E; [|discriminate]. cbn [bind]. intros E'. eapply still_trans; [eapply still_append; exact E|auto].
  Qed.
  Lemma still_contour c x : still x (set_contour c x).
  Proof. split; auto. Qed.
  Lemma still_aperture s id x b x' : aperture_buffer s id x = Ok (b, x') -> still x x'.
  Proof.
    intros E. apply aperture_buffer_inv in E as (bs' & Et & ->). split; [reflexivity|]. intros _. unfold main_of. cbn [set_buffers c_buffers].
    refine (transformed_keeps (fun bs => d_get main_id bs = d_get main_id (c_buffers x)) (state_matrix s) _ _ _ _ _ _ eq_refl Et).
    intros k cmds deps bs Hb. rewrite d_get_set, neq_eqb; [exact Hb|]. intros Hk. apply main_not_copied. rewrite Hk. apply key_copied.
  Qed.
  Lemma still_flash h a s x x' : on_flash md h a s x = Ok x' -> still x x'.
  Proof.
    intros Ef. apply on_flash_cases in Ef as [(ad & -> & Ef)|(id & -> & Ef)].
    - apply flash_aperture_inv in Ef as (b & x1 & Ea & Ef). eapply still_trans; [eapply still_aperture; exact Ea|eapply still_append; exact Ef].
    - apply flash_block_inv in Ef as (b & x1 & Ea & Ef). eapply still_trans; [eapply still_aperture; exact Ea|eapply still_append_all; exact Ef].
  Qed.
  Lemma still_flush s x x' : flush_region s x = Ok x' -> still x x'.
  Proof.
    intros E. apply (P_flush (still x)) with (x := x) (s := s).
    - intros sh y y' Hy Ey. eapply still_trans; [exact Hy|eapply still_append; exact Ey].
    - intros c y Hy. eapply still_trans; [exact Hy|apply still_contour].
    - apply still_refl.
    - exact E.
  Qed.
  Lemma still_draw h s x x' : on_draw md h s x = Ok x' -> still x x'.
  Proof.
    intros E. apply (P_draw md (still x)) with (x := x) (h := h) (s := s).
    - intros sh y y' Hy Ey. eapply still_trans; [exact Hy|eapply still_append; exact Ey].
    - intros c y Hy. eapply still_trans; [exact Hy|apply still_contour].
    - apply still_refl.
    - exact E.
  Qed.

  Lemma still_leaf n v v' : coded n -> visit_leaf H n v = Done v' -> still (v_ext v) (v_ext v').
  Proof.
    intros Hn E. destruct (leaf_ext_spec H n v v' (or_introl E)) as [|x y i j h s x' -> Er -> Ed|x y h a s x' -> Er Ea Eh Ef|s x' Ef|s|s s' x' Ef|a s x' -> Ea].
    - apply still_refl.
    - exact (still_draw _ _ _ _ Ed).
    - exact (still_flash _ _ _ _ _ Ef).
    - exact (still_flush _ _ _ Ef).
    - apply still_contour.
    - eapply still_trans; [exact (still_flush _ _ _ Ef)|apply still_contour].
    - destruct Hn as [k Hk]. destruct (on_aperture_main md clock a s _ _ (dcode_not_main _ _ Hk) Ea) as (A & _ & B). split; [exact A|]. intros _. exact B.
  Qed.

  Definition stops_aside n v v' : Prop := main_of (v_ext v') = main_of (v_ext v) /\
    exists l, c_stack (v_ext v') = l ++ c_stack (v_ext v) /\ Forall (fun i => i <> main_id) l /\ (is_leaf n \/ l <> []).
  Definition node_still n : Prop := (forall m, In m (subnodes n) -> coded m) -> forall v v',
    (visit H n v = Done v' -> still (v_ext v) (v_ext v')) /\ (visit H n v = Stop v' -> stops_aside n v v').
  Lemma aside_stack l x x' : aside x -> c_stack x' = l ++ c_stack x -> Forall (fun i => i <> main_id) l -> aside x'.
  Proof. unfold aside. intros Ha -> Hl. destruct l as [|i l]; [exact Ha|]. inversion Hl; assumption. Qed.
  Lemma list_still body : Forall node_still body -> (forall n m, In n body -> In m (subnodes n) -> coded m) -> forall v v', aside (v_ext v) ->
    (visits H body v = Done v' -> still (v_ext v) (v_ext v')) /\
    (visits H body v = Stop v' -> main_of (v_ext v') = main_of (v_ext v) /\
      exists l, c_stack (v_ext v') = l ++ c_stack (v_ext v) /\ Forall (fun i => i <> main_id) l).
  Proof.
    induction 1 as [|n r Hn Hr IH]; intros HQ v v' Ha; cbn [visits].
    - split; [intros E; injection E as <-; apply still_refl|discriminate].
    - assert (HQn : forall m, In m (subnodes n) -> coded m) by (intros m; apply HQ; left; reflexivity).
      assert (HQr : forall k m, In k r -> In m (subnodes k) -> coded m) by (intros k m Hk; apply HQ; right; exact Hk).
      specialize (Hn HQn v). destruct (visit H n v) as [v1|v1|e] eqn:Ev; cbn [obind]; [| |split; discriminate].
      + pose proof (proj1 (Hn v1) eq_refl) as H1. assert (Ha1 : aside (v_ext v1)) by (eapply (aside_stack []); [exact Ha|exact (proj1 H1)|constructor]).
        destruct (IH HQr v1 v' Ha1) as [A B]. split.
        * intros E. eapply still_trans; [exact H1|auto].
        * intros E. destruct (B E) as (C & l & D & F). split; [rewrite C; apply H1; exact Ha|]. exists l. rewrite D, (proj1 H1). auto.
      + split; [discriminate|]. intros E; injection E as <-. destruct (proj2 (Hn v1) eq_refl) as (A & l & B & C & _). split; [exact A|]. exists l. auto.
  Qed.
  Lemma main_set id (b : buffer K) x : id <> main_id -> d_get main_id (d_set id b (c_buffers x)) = main_of x.
  Proof. intros Hi. rewrite d_get_set, neq_eqb; [reflexivity|congruence]. Qed.
  Lemma sr_not_main id : sr_tmp id -> id <> main_id.
  Proof. intros (u & t & ->) E. discriminate E. Qed.
  Lemma still_sr_close tmp h s x x' : sr_tmp tmp -> sr_close tmp h s x = Ok x' -> still (pop x) x'.
  Proof.
    intros Ht Es. apply sr_close_inv in Es as (b & nx & ny & dx & dy & x1 & _ & _ & _ & _ & _ & Ea & ->).
    apply still_append_all in Ea. destruct Ea as [A B]. split; [exact A|]. intros Ha. unfold main_of in *. cbn [set_buffers c_buffers].
    rewrite d_get_del, neq_eqb; [apply B; exact Ha|]. intros E. exact (sr_not_main _ Ht (eq_sym E)).
  Qed.
  Lemma all_still n : node_still n.
  Proof.
    induction n as [id body IH|u h body IH|n Hleaf] using node_ind'; intros HQ v v'.
    - rewrite visit_AB. assert (Hn : coded (NAB id body)) by (apply HQ; left; reflexivity). destruct Hn as [k Hk].
      assert (HQb : forall n m, In n body -> In m (subnodes n) -> coded m).
      { intros n m H1 H2. apply HQ. right. apply in_flat_map. eauto. }
      pose proof (dcode_not_main _ _ Hk) as Hm.
      assert (Ha : aside (v_ext (ab_enter H id v))) by exact Hm.
      assert (Hs : c_stack (v_ext (ab_enter H id v)) = id :: c_stack (v_ext v)) by reflexivity.
      assert (Hmm : main_of (v_ext (ab_enter H id v)) = main_of (v_ext v)) by (apply main_set; exact Hm).
      pose proof (list_still body IH HQb (ab_enter H id v)) as KL.
      destruct (visits H body (ab_enter H id v)) as [v1|v1|e]; cbn [obind]; [| |split; discriminate].
      + destruct (KL v1 Ha) as [A _]. specialize (A eq_refl). split; [|discriminate]. intros E; injection E as <-.
        destruct A as [A1 A2]. split; [cbn; rewrite A1, Hs; reflexivity|]. intros _. change (main_of (v_ext v1) = main_of (v_ext v)). rewrite (A2 Ha). exact Hmm.
      + destruct (KL v1 Ha) as [_ A]. destruct (A eq_refl) as (A1 & l & A2 & A3). split; [discriminate|]. intros E; injection E as <-.
        split; [congruence|]. exists (l ++ [id]). rewrite <- app_assoc. split; [rewrite A2, Hs; reflexivity|].
        split; [apply Forall_app; auto|]. right. destruct l; discriminate.
    - rewrite visit_SR.
      assert (HQb : forall n m, In n body -> In m (subnodes n) -> coded m).
      { intros n m H1 H2. apply HQ. right. apply in_flat_map. eauto. }
      set (tmp := fst (sr_enter H u v)). set (v0 := snd (sr_enter H u v)).
      assert (Ht : sr_tmp tmp) by (eexists; eexists; reflexivity). pose proof (sr_not_main _ Ht) as Hm.
      assert (Ha : aside (v_ext v0)) by exact Hm.
      assert (Hs : c_stack (v_ext v0) = tmp :: c_stack (v_ext v)) by reflexivity.
      assert (Hmm : main_of (v_ext v0) = main_of (v_ext v)) by (apply main_set; exact Hm).
      pose proof (list_still body IH HQb v0) as KL.
      destruct (visits H body v0) as [v1|v1|e]; cbn [obind]; [| |split; discriminate].
      + destruct (KL v1 Ha) as [A _]. specialize (A eq_refl). split; [|unfold sr_leave; intros E; apply lift_not_stop in E; contradiction].
        intros E. unfold sr_leave in E. apply lift_done in E as (_ & _ & _ & _ & E). cbn [compiler_hooks hk_sr_close] in E.
        apply still_sr_close in E; [|exact Ht]. destruct A as [A1 A2], E as [E1 E2]. split; [rewrite E1; cbn [pop c_stack]; rewrite A1, Hs; reflexivity|].
        intros Hb. rewrite E2; [change (main_of (v_ext v1) = main_of (v_ext v)); rewrite (A2 Ha); exact Hmm|].
        unfold aside. cbn [pop c_stack]. rewrite A1, Hs. exact Hb.
      + destruct (KL v1 Ha) as [_ A]. destruct (A eq_refl) as (A1 & l & A2 & A3). split; [discriminate|]. intros E; injection E as <-.
        split; [congruence|]. exists (l ++ [tmp]). rewrite <- app_assoc. split; [rewrite A2, Hs; reflexivity|].
        split; [apply Forall_app; auto|]. right. destruct l; discriminate.
    - rewrite (visit_is_leaf H n v Hleaf). split.
      + apply still_leaf. apply HQ. destruct n; left; reflexivity.
      + intros E. apply leaf_stop in E as [_ ->]. split; [reflexivity|]. exists []. auto.
  Qed.
  Lemma file_still ips ns : (forall n m, In n ns -> In m (subnodes n) -> coded m) -> forall v v', aside (v_ext v) ->
    on_file H ips ns v = Ok v' -> main_of (v_ext v') = main_of (v_ext v).
  Proof.
    induction ns as [|n r IH]; intros HQ v v' Ha; cbn [on_file]; [intros E; injection E as <-; reflexivity|].
    assert (HQn : forall m, In m (subnodes n) -> coded m) by (intros m; apply HQ; left; reflexivity).
    assert (HQr : forall k m, In k r -> In m (subnodes k) -> coded m) by (intros k m Hk; apply HQ; right; exact Hk).
    pose proof (all_still n HQn v) as HK. destruct (visit H n v) as [v1|v1|e]; [| |discriminate].
    - pose proof (proj1 (HK v1) eq_refl) as [A B]. intros E. rewrite (IH HQr v1 v'); auto. eapply (aside_stack []); [exact Ha|exact A|constructor].
    - pose proof (proj2 (HK v1) eq_refl) as (A & l & B & C & _). destruct ips; [intros E; injection E as <-; exact A|].
      intros E. rewrite (IH HQr v1 v'); auto. eapply aside_stack; eauto.
  Qed.
End Main.

(** ** Layers made for transformations never change *)
Section Copies.
  Context {K : Type} {NK : Num K} (md : bool) (clock : nat -> Z).
  Notation H := (compiler_hooks (K := K) md clock).
  Implicit Types (bs : dict (buffer K)) (x : cstate K).
  Definition lasts bs bs' : Prop := forall k b, copied k -> d_get k bs = Some b -> d_get k bs' = Some b.
  (** The main buffer, those of SR blocks and copies paste copies only. *)
  Definition tidy_name (k : str) : Prop := k = main_id \/ sr_tmp k \/ copied k.
  Definition pastes_copies bs (ds : list (draw K)) : Prop := forall src, pastes ds src -> copied src /\ mem src bs.
  Definition tidy bs : Prop := keyed bs /\ forall k b, d_get k bs = Some b -> tidy_name k -> pastes_copies bs (bf_cmds b).

  Lemma lasts_refl bs : lasts bs bs.
  Proof. intros k b _ E; exact E. Qed.
  Lemma lasts_trans a b c : lasts a b -> lasts b c -> lasts a c.
  Proof. intros A B k e Hk E. auto. Qed.
  Lemma lasts_set k b bs : ~ copied k -> lasts bs (d_set k b bs).
  Proof. intros Hk j e Hj E. rewrite d_get_set, neq_eqb; [exact E|]. intros ->. contradiction. Qed.
  Lemma lasts_del k bs : ~ copied k -> lasts bs (d_del k bs).
  Proof. intros Hk j e Hj E. rewrite d_get_del, neq_eqb; [exact E|]. intros ->. contradiction. Qed.
  Lemma lasts_mem bs bs' k : lasts bs bs' -> copied k -> mem k bs -> mem k bs'.
  Proof. intros Hl Hk [b E]. exists b. auto. Qed.
  Lemma copies_mono bs bs' ds : lasts bs bs' -> pastes_copies bs ds -> pastes_copies bs' ds.
  Proof. intros Hl Hp src Hs. destruct (Hp src Hs). split; [assumption|]. eapply lasts_mem; eauto. Qed.
  Lemma copies_app bs a b : pastes_copies bs a -> pastes_copies bs b -> pastes_copies bs (a ++ b).
  Proof. intros Ha Hb src Hs. apply pastes_app in Hs as [Hs|Hs]; auto. Qed.
  Lemma copies_nil bs : pastes_copies bs [].
  Proof. intros src Hs. apply pastes_nil in Hs. contradiction. Qed.
  Lemma copies_shape bs sh : pastes_copies bs [DShape sh].
  Proof. intros src Hs. apply pastes_one in Hs as (p & E & _). discriminate E. Qed.

  (** A new buffer under a name that is not a copy's. *)
  Lemma tidy_set k b bs : ~ copied k -> bf_id b = k -> (tidy_name k -> pastes_copies bs (bf_cmds b)) -> tidy bs -> tidy (d_set k b bs).
  Proof.
    intros Hk Hb Hp [T1 T2]. split; [apply keyed_set; assumption|]. intros j e. rewrite d_get_set. destruct (str_eqb j k) eqn:E.
    - apply str_eqb_eq in E as ->. intros X; injection X as <-. intros Hj. eapply copies_mono; [apply lasts_set; exact Hk|auto].
    - intros Hj Hn. eapply copies_mono; [apply lasts_set; exact Hk|eauto].
  Qed.
  Lemma tidy_del k bs : ~ copied k -> tidy bs -> tidy (d_del k bs).
  Proof.
    intros Hk [T1 T2]. split; [apply keyed_del; exact T1|]. intros j e. rewrite d_get_del. destruct (str_eqb j k); [discriminate|].
    intros Hj Hn. eapply copies_mono; [apply lasts_del; exact Hk|eauto].
  Qed.
  Lemma tidy_transformed (m : mat K) f : forall id bs b bs', tidy bs -> transformed f m id bs = Ok (b, bs') ->
    tidy bs' /\ lasts bs bs' /\ d_get (layer_key id m) bs' = Some b /\ bf_id b = layer_key id m.
  Proof.
    induction f as [|f IH]; intros id bs b bs' HT; rewrite transformed_eq;
      (destruct (d_get (layer_key id m) bs) as [b0|] eqn:Ek;
       [intros E; injection E as <- <-; split; [exact HT|]; split; [apply lasts_refl|]; split; [exact Ek|apply (proj1 HT); exact Ek]|]);
      [discriminate|].
    destruct (get_buffer id bs) as [base|] eqn:Eb; [|discriminate]. cbn [bind].
    assert (HL : forall cs acc deps bs r, tidy bs -> pastes_copies bs acc -> copy_loop f m cs acc deps bs = Ok r ->
      tidy (snd r) /\ lasts bs (snd r) /\ pastes_copies (snd r) (fst (fst r))).
    { induction cs as [|[sh|p] cs IHc]; intros acc deps bs0 r H0 Hd; cbn [copy_loop].
      - intros E; injection E as <-. split; [exact H0|]. split; [apply lasts_refl|exact Hd].
      - apply IHc; [exact H0|]. apply copies_app; [exact Hd|apply copies_shape].
      - destruct (transformed f m (pa_src p) bs0) as [[b1 bs1]|] eqn:Et; [|discriminate]. cbn [bind].
        destruct (IH _ _ _ _ H0 Et) as (T1 & T2 & T3 & T4). intros E. apply IHc in E as (A & B & C); [|exact T1|].
        + split; [exact A|]. split; [eapply lasts_trans; eauto|exact C].
        + apply copies_app; [eapply copies_mono; eauto|]. intros src Hs. apply pastes_one in Hs as (q & Eq & <-). injection Eq as <-. cbn [pa_src].
          rewrite T4. split; [apply key_copied|]. exists b1. exact T3. }
    destruct (copy_loop f m (bf_cmds base) [] [] bs) as [[[cmds deps] bs1]|] eqn:El; [|discriminate].
    cbn [bind]. intros E; injection E as <- <-.
    destruct (HL _ _ _ _ _ HT (copies_nil bs) El) as ([T1 T2] & L & P). cbn [fst snd] in *.
    set (k := layer_key id m) in *. assert (Hm : forall src, mem src bs1 -> mem src (d_set k (MkBuf k cmds deps) bs1)).
    { intros src Hs. apply mem_set. auto. }
    split; [split|split; [|split]].
    - apply keyed_set; [exact T1|reflexivity].
    - intros j e. rewrite d_get_set. destruct (str_eqb j k).
      + intros X; injection X as <-. intros _ src Hs. destruct (P src Hs). auto.
      + intros Hj Hn src Hs. destruct (T2 j e Hj Hn src Hs). auto.
    - intros j e Hj Hje. rewrite d_get_set. destruct (str_eqb j k) eqn:Ejk; [apply str_eqb_eq in Ejk; congruence|]. apply L; assumption.
    - rewrite d_get_set, str_eqb_refl. reflexivity.
    - reflexivity.
  Qed.

  (** ** The walk *)
  Definition on_stack x : Prop := forall i, In i (c_stack x) -> ~ copied i.
  Definition G bs0 x : Prop := tidy (c_buffers x) /\ on_stack x /\ lasts bs0 (c_buffers x).
  Lemma G_append bs0 d x x' : G bs0 x -> pastes_copies (c_buffers x) [d] -> append_current d x = Ok x' -> G bs0 x'.
  Proof.
    intros (T & S & L) Hd E. apply append_current_inv in E as (id & st & b & Es & Eb & ->).
    assert (Hi : ~ copied id) by (apply S; rewrite Es; left; reflexivity).
    split; [|split].
    - cbn [set_buffers c_buffers]. apply tidy_set; [exact Hi|rewrite append_draw_id; apply T; exact Eb| |exact T].
      intros Hn. rewrite append_draw_cmds. apply copies_app; [eapply (proj2 T); eauto|exact Hd].
    - exact S.
    - cbn [set_buffers c_buffers]. eapply lasts_trans; [exact L|apply lasts_set; exact Hi].
  Qed.
  Lemma append_lasts d x x' : on_stack x -> append_current d x = Ok x' -> lasts (c_buffers x) (c_buffers x').
  Proof.
    intros S E. apply append_current_inv in E as (id & st & b & Es & Eb & ->). cbn [set_buffers c_buffers]. apply lasts_set. apply S. rewrite Es. left; reflexivity.
  Qed.
  Lemma G_append_all bs0 ds : forall x x', G bs0 x -> pastes_copies (c_buffers x) ds -> append_all ds x = Ok x' -> G bs0 x'.
  Proof.
    induction ds as [|d r IH]; intros x x' HG Hd; cbn [append_all]; [intros E; injection E as <-; exact HG|].
    destruct (append_current d x) as [x1|] eqn:E; [|discriminate]. cbn [bind]. apply IH.
    - eapply G_append; [exact HG| |exact E]. intros src Hs. apply Hd. change (d :: r) with ([d] ++ r). apply pastes_app. auto.
    - eapply copies_mono; [eapply append_lasts; [apply HG|exact E]|]. intros src Hs. apply Hd. change (d :: r) with ([d] ++ r). apply pastes_app. auto.
  Qed.
  Lemma G_aperture bs0 s id x b x1 : G bs0 x -> aperture_buffer s id x = Ok (b, x1) ->
    G bs0 x1 /\ copied (bf_id b) /\ mem (bf_id b) (c_buffers x1) /\ pastes_copies (c_buffers x1) (bf_cmds b).
  Proof.
    intros (T & S & L) E. apply aperture_buffer_inv in E as (bs' & Et & ->). destruct (tidy_transformed _ _ _ _ _ _ T Et) as (A & B & C & D).
    cbn [set_buffers c_buffers]. split; [split; [exact A|split; [exact S|eapply lasts_trans; eauto]]|]. rewrite D.
    split; [apply key_copied|]. split; [exists b; exact C|]. eapply (proj2 A); [exact C|]. right; right. apply key_copied.
  Qed.
  Lemma pastes_shift bs m ds : pastes_copies bs ds -> pastes_copies bs (map (shift_draw (K := K) m) ds).
  Proof.
    intros Hd src (q & Hq & <-). apply in_map_iff in Hq as (d & Ed & Hi). destruct d as [sh|p]; cbn [shift_draw] in Ed; [discriminate|].
    injection Ed as <-. cbn [pa_src]. apply Hd. exists p. auto.
  Qed.
  Lemma pastes_flat {A} bs (f : A -> list (draw K)) l : (forall a, pastes_copies bs (f a)) -> pastes_copies bs (flat_map f l).
  Proof. intros Hf. induction l as [|a l IH]; cbn [flat_map]; [apply copies_nil|apply copies_app; auto]. Qed.

  Lemma G_set bs0 x k b : ~ copied k -> bf_id b = k -> (tidy_name k -> pastes_copies (c_buffers x) (bf_cmds b)) -> G bs0 x -> G bs0 (set_buffer b x).
  Proof.
    intros Hk <- Hp (T & S & L). split; [|split]; [apply tidy_set; auto|exact S|eapply lasts_trans; [exact L|apply lasts_set; exact Hk]].
  Qed.
  Lemma thermal_name uid x : is_stamp (lit "%%Code7%") (thermal_id clock uid x).
  Proof. eexists; eexists; reflexivity. Qed.
  Lemma thermal_untidy k : is_stamp (lit "%%Code7%") k -> ~ tidy_name k.
  Proof.
    intros Hk [->|[Hs|Hc]].
    - destruct Hk as (u & t & E). discriminate E.
    - destruct Hk as (u & t & ->), Hs as (u' & t' & E). discriminate E.
    - exact (stamp_not_copied _ _ Hk Hc).
  Qed.
  Lemma dcode_untidy k n : dcode k n -> ~ tidy_name k.
  Proof. intros D [Hm|[Hs|Hc]]; [exact (dcode_not_main _ _ D Hm)|exact (dcode_not_sr _ _ D Hs)|exact (dcode_not_copied _ _ D Hc)]. Qed.
  Lemma G_prims bs0 m m' : prims_steps clock m m' -> G bs0 (ms_c m) -> G bs0 (ms_c m').
  Proof.
    induction 1 as [|m1 m2 _ IH [ds E1 E2 _|uid ds c E1 E2 _]]; intros HG; [exact HG|rewrite E1; auto|]. rewrite E1. unfold with_thermal.
    pose proof (thermal_name uid (ms_c m1)) as Ht.
    eapply (G_set _ _ (thermal_id clock uid (ms_c m1))); [exact (stamp_not_copied _ _ Ht)|rewrite append_draws_id; reflexivity|intros Hn; destruct (thermal_untidy _ Ht Hn)|].
    exact (IH HG).
  Qed.
  Lemma prims_id m m' : prims_steps clock m m' -> bf_id (ms_buf m') = bf_id (ms_buf (K := K) m).
  Proof. intros Hm. apply prims_keep in Hm. apply Hm. Qed.

  Lemma G_file bs0 ips ns v v' : (forall n m, In n ns -> In m (subnodes n) -> coded m) -> G bs0 (v_ext v) -> on_file H ips ns v = Ok v' -> G bs0 (v_ext v').
  Proof.
    intros HQ HG E.
    refine (proj1 (walk_file md clock (G bs0) sr_tmp coded (fun _ => True) _ _ _ _ _ _ _ _ _ _ _ ips ns HQ v v' (conj HG I) E)); auto.
    - intros sh x x' Hx Ex. eapply G_append; [exact Hx|apply copies_shape|exact Ex].
    - intros h a s x x' _ _ Hx Ef. apply on_flash_cases in Ef as [(ad & -> & Ef)|(id & -> & Ef)].
      + apply flash_aperture_inv in Ef as (b & x1 & Ea & Ef). destruct (G_aperture _ _ _ _ _ _ Hx Ea) as (A & B & C & _). eapply G_append; [exact A| |exact Ef].
        intros src Hs. apply pastes_one in Hs as (q & Eq & <-). injection Eq as <-. auto.
      + apply flash_block_inv in Ef as (b & x1 & Ea & Ef). destruct (G_aperture _ _ _ _ _ _ Hx Ea) as (A & _ & _ & D). eapply G_append_all; [exact A| |exact Ef].
        apply pastes_shift. exact D.
    - intros a s x x' [k Hk] Hx Ea. pose proof (dcode_not_copied _ _ Hk) as Hc. pose proof (dcode_untidy _ _ Hk) as Hu.
      apply on_aperture_inv in Ea as [(ds & -> & _)|(sc & m & Hm & ->)].
      + apply (G_set _ _ (ad_id a)); [exact Hc|apply append_draws_id|contradiction|exact Hx].
      + pose proof (prims_id _ _ Hm) as Hid. cbn [ms_buf] in Hid. apply G_prims with (bs0 := bs0) in Hm.
        * apply (G_set _ _ (ad_id a)); [exact Hc|exact Hid|contradiction|exact Hm].
        * cbn [ms_c]. apply (G_set _ _ (ad_id a)); [exact Hc|reflexivity|contradiction|exact Hx].
    - intros id body s x [k Hk] Hx. pose proof (dcode_not_copied _ _ Hk) as Hc.
      destruct (G_set bs0 x id (empty_buffer id) Hc eq_refl (fun _ => copies_nil _) Hx) as (A & B & C). split; [exact A|]. split; [|exact C].
      intros i [<-|Hi]; [exact Hc|exact (B i Hi)].
    - intros x (A & B & C). split; [exact A|]. split; [|exact C]. intros i Hi. apply B. cbn [pop c_stack] in Hi. destruct (c_stack x); [exact Hi|right; exact Hi].
    - intros uid s x Hx. assert (Ht : sr_tmp (fst (sr_open clock uid s x))) by (eexists; eexists; reflexivity). split; [|exact Ht].
      pose proof (stamp_not_copied _ _ Ht) as Hc.
      destruct (G_set bs0 x _ (empty_buffer (fst (sr_open clock uid s x))) Hc eq_refl (fun _ => copies_nil _) Hx) as (A & B & C). split; [exact A|]. split; [|exact C].
      intros i [<-|Hi]; [exact Hc|exact (B i Hi)].
    - intros tmp h s x x' Ht (A & B & C) Es. apply sr_close_inv in Es as (b & nx & ny & dx & dy & x1 & Eb & _ & _ & _ & _ & Ea & ->).
      pose proof (stamp_not_copied _ _ Ht) as Hc.
      assert (Hp : G bs0 (pop x)).
      { split; [exact A|]. split; [|exact C]. intros i Hi. apply B. cbn [pop c_stack] in Hi. destruct (c_stack x); [exact Hi|right; exact Hi]. }
      apply G_append_all with (bs0 := bs0) in Ea; [|exact Hp|].
      + destruct Ea as (A' & B' & C'). split; [apply tidy_del; assumption|]. split; [exact B'|]. eapply lasts_trans; [exact C'|apply lasts_del; exact Hc].
      + apply pastes_flat. intros ix. apply pastes_flat. intros iy. apply pastes_shift. eapply (proj2 A); [exact Eb|]. right; left; exact Ht.
  Qed.
  Lemma G_init : G [] (compiler_init (K := K)).
  Proof.
    split; [split|split].
    - apply sound_keyed, sound_init.
    - intros k b. cbn [compiler_init c_buffers d_get]. destruct (str_eqb k main_id); [|discriminate]. intros E; injection E as <-. intros _. apply copies_nil.
    - intros i [<-|[]]. apply main_not_copied.
    - intros k b _ E. discriminate E.
  Qed.
End Copies.

(** ** Programs of buffer tables that agree on what is used *)
Section Resolve.
  Context {K : Type} {NK : Num K} (iter : str -> list str -> list str).
  Implicit Types (bs : dict (buffer K)) (b : buffer K).
  Notation needs b := (iter (bf_id b) (bf_deps b)).
  Fixpoint fits (f : nat) bs b : Prop :=
    match f with O => False | S f => forall d, In d (needs b) -> exists db, d_get d bs = Some db /\ fits f bs db end.

  Lemma resolve_fits bs f : forall b out o, resolve iter f bs b out = Ok o -> fits f bs b.
  Proof.
    induction f as [|f IH]; intros b out o; rewrite resolve_eq; [discriminate|]. destruct (deps_loop _ _ _ _ _ _) as [o1|] eqn:El; [|discriminate]. intros _.
    cbn [fits]. revert El. generalize (needs b) as ds. intros ds. revert out. induction ds as [|d r IHd]; intros out; cbn [deps_loop]; [intros _ d []|].
    destruct (get_buffer d bs) as [db|] eqn:Ed; [|discriminate]. apply get_buffer_ok in Ed. cbn [bind].
    destruct (resolve iter f bs db out) as [o2|] eqn:Er; [|discriminate]. cbn [bind]. destruct (existsb _ o2); [discriminate|]. intros E e [<-|He]; [|eapply IHd; eauto].
    exists db. split; [exact Ed|]. eapply IH; exact Er.
  Qed.
  Lemma fits_resolve bs f : forall g b out o, fits g bs b -> resolve iter f bs b out = Ok o -> resolve iter g bs b out = Ok o.
  Proof.
    induction f as [|f IH]; intros g b out o Hf; rewrite !resolve_eq; [discriminate|]. destruct g as [|g]; [destruct Hf|]. cbn [fits] in Hf.
    destruct (deps_loop iter f _ _ _ _) as [o1|] eqn:El; [|discriminate]. cbn [bind]. intros E.
    assert (HL : forall ds out o1, (forall d, In d ds -> exists db, d_get d bs = Some db /\ fits g bs db) ->
      deps_loop iter f bs (bf_id b) ds out = Ok o1 -> deps_loop iter g bs (bf_id b) ds out = Ok o1).
    { clear - IH. induction ds as [|d r IHd]; intros out o1 Hd; cbn [deps_loop]; [auto|]. destruct (Hd d (or_introl eq_refl)) as (db & Edb & Hdb).
      apply get_buffer_ok in Edb. rewrite Edb. cbn [bind]. destruct (resolve iter f bs db out) as [o2|] eqn:Er; [|discriminate]. cbn [bind].
      rewrite (IH g db out o2 Hdb Er). cbn [bind]. destruct (existsb _ o2); [auto|]. apply IHd. intros e He. apply Hd. right; exact He. }
    rewrite (HL _ _ _ Hf El). cbn [bind]. exact E.
  Qed.
  (** Chains of dependencies. *)
  Inductive leads bs : str -> str -> Prop :=
  | l_one i b d : d_get i bs = Some b -> In d (needs b) -> leads bs i d
  | l_more i b d j : d_get i bs = Some b -> In d (needs b) -> leads bs d j -> leads bs i j.
  Lemma leads_snoc bs i j b d : leads bs i j -> d_get j bs = Some b -> In d (needs b) -> leads bs i d.
  Proof. induction 1 as [i b0 j0 E1 H1|i b0 j0 k E1 H1 _ IH]; intros E2 H2; econstructor 2; eauto. econstructor 1; eauto. Qed.
  Lemma fits_acyclic bs f : forall i b, d_get i bs = Some b -> fits f bs b -> ~ leads bs i i.
  Proof.
    induction f as [|f IH]; intros i b Ei Hf Hl; [exact Hf|]. cbn [fits] in Hf.
    assert (X : exists d, In d (needs b) /\ (d = i \/ leads bs d i)).
    { inversion Hl as [? b0 ? E1 H1|? b0 d ? E1 H1 H2]; subst; assert (b0 = b) by congruence; subst; eauto. }
    destruct X as (d & Hd & Hc). destruct (Hf d Hd) as (db & Edb & Hdb). apply (IH d db Edb Hdb). destruct Hc as [->|Hc]; [exact Hl|].
    eapply leads_snoc; [exact Hc|exact Ei|exact Hd].
  Qed.
  Lemma fits_short bs f : forall i b l, d_get i bs = Some b -> fits f bs b -> NoDup l -> (forall j, In j l -> mem j bs /\ leads bs j i) ->
    fits (length bs - length l) bs b.
  Proof.
    induction f as [|f IH]; intros i b l Ei Hf Hn Hl; [destruct Hf|].
    assert (Hi : ~ In i l) by (intros Hi; exact (fits_acyclic bs (S f) i b Ei Hf (proj2 (Hl i Hi)))).
    assert (Hlen : (length (i :: l) <= length bs)%nat).
    { rewrite <- (map_length fst bs). apply NoDup_incl_length; [constructor; assumption|]. intros j [<-|Hj]; apply d_in_keys_get; [exists b; exact Ei|apply Hl; exact Hj]. }
    cbn [length] in Hlen. replace (length bs - length l)%nat with (S (length bs - length (i :: l))) by (cbn [length]; lia).
    cbn [fits] in *. intros d Hd. destruct (Hf d Hd) as (db & Edb & Hdb). exists db. split; [exact Edb|].
    apply (IH d db (i :: l) Edb Hdb); [constructor; assumption|]. intros j [<-|Hj].
    - split; [exists b; exact Ei|]. econstructor 1; eauto.
    - destruct (Hl j Hj) as [A B]. split; [exact A|]. eapply leads_snoc; eauto.
  Qed.
  Lemma fits_more bs f : forall b, fits f bs b -> fits (S f) bs b.
  Proof.
    induction f as [|f IH]; intros b Hf; [destruct Hf|]. intros d Hd. destruct (Hf d Hd) as (db & E & Hdb). exists db. auto.
  Qed.
  Lemma resolve_enough bs f i b out o : d_get i bs = Some b -> resolve iter f bs b out = Ok o -> resolve iter (S (length bs)) bs b out = Ok o.
  Proof.
    intros Ei E. eapply fits_resolve; [|exact E]. apply fits_more. pose proof (fits_short bs f i b [] Ei (resolve_fits _ _ _ _ _ E) (NoDup_nil _)) as X.
    cbn [length] in X. rewrite Nat.sub_0_r in X. apply X. intros j [].
  Qed.

  Context (C : str -> Prop) (bs bs' : dict (buffer K)).
  Hypothesis C_same : forall k, C k -> d_get k bs' = d_get k bs.
  Hypothesis C_closed : forall k b, C k -> d_get k bs = Some b -> bf_id b = k /\ forall d, In d (needs b) -> C d.
  Lemma resolve_agree f : forall k b out, C k -> d_get k bs = Some b -> resolve iter f bs' b out = resolve iter f bs b out.
  Proof.
    induction f as [|f IH]; intros k b out Hk Eb; rewrite !resolve_eq; [reflexivity|]. destruct (C_closed k b Hk Eb) as [_ Hd].
    assert (HL : forall ds out, (forall d, In d ds -> C d) -> deps_loop iter f bs' (bf_id b) ds out = deps_loop iter f bs (bf_id b) ds out).
    { induction ds as [|d r IHd]; intros o Hds; cbn [deps_loop]; [reflexivity|]. unfold get_buffer. rewrite (C_same d (Hds d (or_introl eq_refl))).
      destruct (d_get d bs) as [db|] eqn:Ed; [|reflexivity]. cbn [bind]. rewrite (IH d db o (Hds d (or_introl eq_refl)) Ed).
      destruct (resolve iter f bs db o) as [o1|]; [|reflexivity]. cbn [bind]. destruct (existsb _ o1); [reflexivity|]. apply IHd. intros e He. apply Hds. right; exact He. }
    rewrite HL; auto.
  Qed.
  Lemma resolve_in f : forall k b out o, C k -> d_get k bs = Some b -> resolve iter f bs b out = Ok o -> (forall i, In i out -> C i) -> forall i, In i o -> C i.
  Proof.
    induction f as [|f IH]; intros k b out o Hk Eb; rewrite resolve_eq; [discriminate|]. destruct (C_closed k b Hk Eb) as [Hid Hd].
    assert (HL : forall ds out o, (forall d, In d ds -> C d) -> deps_loop iter f bs (bf_id b) ds out = Ok o -> (forall i, In i out -> C i) -> forall i, In i o -> C i).
    { induction ds as [|d r IHd]; intros u w Hds; cbn [deps_loop]; [intros E; injection E as <-; auto|].
      destruct (get_buffer d bs) as [db|] eqn:Ed; [|discriminate]. apply get_buffer_ok in Ed. cbn [bind].
      destruct (resolve iter f bs db u) as [o1|] eqn:Er; [|discriminate]. cbn [bind]. destruct (existsb _ o1); [discriminate|]. intros E Hu.
      eapply IHd; [intros e He; apply Hds; right; exact He|exact E|]. eapply IH; [apply Hds; left; reflexivity|exact Ed|exact Er|exact Hu]. }
    destruct (deps_loop _ _ _ _ _ _) as [o1|] eqn:El; [|discriminate]. cbn [bind]. intros E Hu; injection E as <-. intros i Hi.
    apply in_app_or in Hi as [Hi|[<-|[]]]; [exact (HL _ _ _ Hd El Hu i Hi)|rewrite Hid; exact Hk].
  Qed.
  Lemma buffers_agree ids : (forall i, In i ids -> C i) -> get_buffers bs' ids = get_buffers bs ids.
  Proof.
    induction ids as [|i r IH]; intros Hi; cbn [get_buffers]; [reflexivity|]. unfold get_buffer. rewrite (C_same i (Hi i (or_introl eq_refl))), IH; [reflexivity|].
    intros j Hj. apply Hi. right; exact Hj.
  Qed.
  Lemma convert_agree : C main_id -> forall cmds, convert iter bs' = Ok cmds <-> convert iter bs = Ok cmds.
  Proof.
    intros Hm. unfold convert, submit_order, get_buffer. rewrite (C_same _ Hm). destruct (d_get main_id bs) as [mb|] eqn:Em; [|tauto]. cbn [bind].
    assert (Er : forall o, resolve iter (S (length bs')) bs' mb [] = Ok o <-> resolve iter (S (length bs)) bs mb [] = Ok o).
    { intros o. split; intros E.
      - rewrite (resolve_agree _ main_id mb [] Hm Em) in E. exact (resolve_enough bs _ main_id mb [] o Em E).
      - rewrite <- (resolve_agree _ main_id mb [] Hm Em) in E. eapply (resolve_enough bs' _ main_id); [rewrite (C_same _ Hm); exact Em|exact E]. }
    intros cmds. split.
    - destruct (resolve iter (S (length bs')) bs' mb []) as [o|] eqn:E1; [|discriminate]. pose proof (proj1 (Er o) eq_refl) as E2. rewrite E2. cbn [bind]. rewrite buffers_agree; [auto|].
      eapply resolve_in; [exact Hm|exact Em|exact E2|intros i []].
    - destruct (resolve iter (S (length bs)) bs mb []) as [o|] eqn:E2; [|discriminate]. pose proof (proj2 (Er o) eq_refl) as E1. rewrite E1. cbn [bind]. rewrite buffers_agree; [auto|].
      eapply resolve_in; [exact Hm|exact Em|exact E2|intros i []].
  Qed.
End Resolve.

(** ** The commands before a stop inside of a block *)
Section Stop.
  Context {K : Type} {NK : Num K} (md : bool) (clock : nat -> Z) (iter : str -> list str -> list str).
  Hypothesis iter_perm : forall id l, Permutation (iter id l) l.
  Notation H := (compiler_hooks (K := K) md clock).

  Lemma visit_stopped (n : node K) v : (forall v', visit H n v = Done v' -> snd (executed n) = false) /\ (forall v', visit H n v = Stop v' -> snd (executed n) = true).
  Proof.
    pose proof (sim_all (K := K) (S := unit) H (fun _ _ => True) (fun _ _ => tt)) as X.
    destruct (X ltac:(auto) ltac:(auto) ltac:(auto) ltac:(auto) ltac:(auto) n v tt Logic.I) as [A B].
    split; intros v' E; [apply (A v' E)|apply (B v' E)].
  Qed.
  Lemma on_file_app ips (a b : list (node K)) : forall v v', on_file H ips (a ++ b) v = Ok v' ->
    exists v1, on_file H ips a v = Ok v1 /\ (v' = v1 \/ on_file H ips b v1 = Ok v').
  Proof.
    induction a as [|n r IH]; intros v v'; cbn [app on_file]; [intros E; exists v; auto|].
    destruct (visit H n v) as [v1|v1|e]; [apply IH| |discriminate]. destruct ips; [|apply IH]. intros E; injection E as <-. exists v1. auto.
  Qed.

  Definition all_coded (ns : list (node K)) : Prop := forall n m, In n ns -> In m (subnodes n) -> coded m.
  Lemma valid_coded ns : codes_valid ns -> all_coded ns.
  Proof. intros [A B] n m Hn Hm. destruct m; cbn [coded]; auto; [eapply B; eauto|eapply A; eauto]. Qed.

  Lemma stopped_program ips pre n post v : all_coded (pre ++ n :: post) -> ~ is_leaf n -> snd (executed n) = true ->
    on_file H ips (pre ++ n :: post) (visitor_init compiler_init) = Ok v ->
    exists v0, on_file H ips pre (visitor_init compiler_init) = Ok v0 /\
      forall cmds, convert iter (c_buffers (v_ext v)) = Ok cmds <-> convert iter (c_buffers (v_ext v0)) = Ok cmds.
  Proof.
    intros HQ Hn Hs E. apply on_file_app in E as (v0 & E0 & E). exists v0. split; [exact E0|]. destruct E as [->|E]; [tauto|].
    assert (HQ0 : all_coded pre) by (intros a m Ha; apply HQ; apply in_or_app; left; exact Ha).
    assert (HQ1 : all_coded (n :: post)) by (intros a m Ha; apply HQ; apply in_or_app; right; exact Ha).
    assert (HQp : all_coded post) by (intros a m Ha; apply HQ1; right; exact Ha).
    destruct (G_file md clock [] ips pre (visitor_init compiler_init) v0 HQ0 G_init E0) as (T0 & S0 & _).
    assert (G0 : G (c_buffers (v_ext v0)) (v_ext v0)) by (split; [exact T0|split; [exact S0|apply lasts_refl]]).
    destruct (G_file md clock (c_buffers (v_ext v0)) ips (n :: post) v0 v HQ1 G0 E) as (_ & _ & L).
    assert (Hmain : d_get main_id (c_buffers (v_ext v)) = d_get main_id (c_buffers (v_ext v0))).
    { cbn [on_file] in E. destruct (visit_stopped n v0) as [HD _]. pose proof (all_still md clock n (fun m => HQ1 n m (or_introl eq_refl)) v0) as HK.
      destruct (visit H n v0) as [v1|v1|e] eqn:Ev; [specialize (HD v1 eq_refl); congruence| |discriminate].
      destruct (proj2 (HK v1) eq_refl) as (A & l & B & C & D). destruct D as [D|D]; [contradiction|].
      assert (Ha : aside (v_ext v1)) by (unfold aside; rewrite B; destruct l as [|i l]; [contradiction|inversion C; assumption]).
      destruct ips; [injection E as <-; exact A|]. unfold main_of in A. rewrite <- A. exact (file_still md clock false post HQp v1 v Ha E). }
    assert (HS : sound (c_buffers (v_ext v0))) by exact (sound_file md clock ips pre (visitor_init compiler_init) v0 sound_init E0).
    apply (convert_agree iter (fun k => k = main_id \/ (copied k /\ mem k (c_buffers (v_ext v0))))).
    - intros k [->|[Hk [b Hb]]]; [exact Hmain|]. rewrite Hb. exact (L k b Hk Hb).
    - intros k b Hk Eb. destruct (HS k b Eb) as [Hid [_ Hdep]]. split; [exact Hid|]. intros d Hd. right.
      apply (proj2 T0 k b Eb); [destruct Hk as [Hk|[Hk _]]; [left; exact Hk|right; right; exact Hk]|]. apply Hdep.
      eapply Permutation_in; [apply iter_perm|exact Hd].
    - left; reflexivity.
  Qed.
End Stop.

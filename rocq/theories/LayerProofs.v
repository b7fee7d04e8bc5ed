(** Proofs about the layer structure of compiled programs. *)
From Coq Require Import Permutation.
From Verif Require Import Base Num Dict CoordModel CoordSpec CoordProofs Ast StateModel StateSpec
  StateProofs GeomModel ExprModel CompilerModel LayerSpec.

(** ** Invariants of a walk
    [P] holds of every visitor reached, [T] of every temporary SR buffer id, [Q] of every node
    visited. *)
Section Walk.
  Context {K : Type} {NK : Num K} {X : Type} (H : hooks K X).
  Context (P : visitor K X -> Prop) (T : str -> Prop) (Q : node K -> Prop).
  Hypothesis Pleaf : forall n v v', Q n -> is_leaf n -> P v ->
    visit_leaf H n v = Done v' \/ visit_leaf H n v = Stop v' -> P v'.
  Hypothesis Pab_enter : forall id body v, Q (NAB id body) -> P v -> P (ab_enter H id v).
  Hypothesis Pab_leave : forall id body v, Q (NAB id body) -> P v -> P (ab_leave H id v).
  Hypothesis Psr_enter : forall uid v, P v -> P (snd (sr_enter H uid v)) /\ T (fst (sr_enter H uid v)).
  Hypothesis Psr_leave : forall tmp hdr v v', T tmp -> P v -> sr_leave H tmp hdr v = Done v' -> P v'.

  Definition keeps (n : node K) : Prop :=
    (forall m, In m (subnodes n) -> Q m) -> forall v v', P v ->
    visit H n v = Done v' \/ visit H n v = Stop v' -> P v'.

  Lemma keeps_list body : Forall keeps body ->
    (forall n m, In n body -> In m (subnodes n) -> Q m) -> forall v v', P v ->
    visits H body v = Done v' \/ visits H body v = Stop v' -> P v'.
  Proof.
    induction 1 as [|n r Hn Hr IH]; intros HQ v v' Hv; cbn [visits].
    - intros [E|E]; [injection E as <-; exact Hv|discriminate].
    - assert (HQn : forall m, In m (subnodes n) -> Q m) by (intros m; apply HQ; left; reflexivity).
      assert (HQr : forall k m, In k r -> In m (subnodes k) -> Q m) by (intros k m Hk; apply HQ; right; exact Hk).
      destruct (visit H n v) as [v1|v1|e] eqn:Ev; cbn [obind].
      + intros E. eapply (IH HQr v1); [|exact E]. eapply (Hn HQn v v1 Hv). left; exact Ev.
      + intros [E|E]; [discriminate|injection E as <-]. eapply (Hn HQn v v1 Hv). right; exact Ev.
      + intros [E|E]; discriminate.
  Qed.

  Lemma keeps_all n : keeps n.
  Proof.
    induction n as [id body IH|u h body IH|n Hleaf] using node_ind'; intros HQ v v' Hv.
    - rewrite visit_AB.
      assert (Hn : Q (NAB id body)) by (apply HQ; left; reflexivity).
      assert (HQb : forall n m, In n body -> In m (subnodes n) -> Q m).
      { intros n m H1 H2. apply HQ. right. apply in_flat_map. eauto. }
      pose proof (keeps_list body IH HQb (ab_enter H id v)) as KL.
      destruct (visits H body (ab_enter H id v)) as [v1|v1|e]; cbn [obind].
      + intros [E|E]; [injection E as <-|discriminate]. eapply Pab_leave; [exact Hn|]. apply KL; eauto.
      + intros [E|E]; [discriminate|injection E as <-]. apply KL; eauto.
      + intros [E|E]; discriminate.
    - rewrite visit_SR.
      assert (HQb : forall n m, In n body -> In m (subnodes n) -> Q m).
      { intros n m H1 H2. apply HQ. right. apply in_flat_map. eauto. }
      destruct (Psr_enter u v Hv) as [HP HT].
      pose proof (keeps_list body IH HQb (snd (sr_enter H u v))) as KL.
      destruct (visits H body (snd (sr_enter H u v))) as [v1|v1|e]; cbn [obind].
      + intros [E|E]; [|unfold sr_leave in E; apply lift_not_stop in E; contradiction].
        eapply Psr_leave; [exact HT| |exact E]. apply KL; eauto.
      + intros [E|E]; [discriminate|injection E as <-]. apply KL; eauto.
      + intros [E|E]; discriminate.
    - rewrite (visit_is_leaf H n v Hleaf). apply Pleaf; auto. apply HQ. destruct n; left; reflexivity.
  Qed.

  Lemma keeps_file b ns : (forall n m, In n ns -> In m (subnodes n) -> Q m) ->
    forall v v', P v -> on_file H b ns v = Ok v' -> P v'.
  Proof.
    induction ns as [|n r IH]; intros HQ v v' Hv; cbn [on_file].
    - intros E; injection E as <-. exact Hv.
    - assert (HQn : forall m, In m (subnodes n) -> Q m) by (intros m; apply HQ; left; reflexivity).
      assert (HQr : forall k m, In k r -> In m (subnodes k) -> Q m) by (intros k m Hk; apply HQ; right; exact Hk).
      pose proof (keeps_all n HQn v) as HK.
      destruct (visit H n v) as [v1|v1|e]; [|destruct b|discriminate].
      + apply IH; [exact HQr|]. eapply HK; eauto.
      + intros E; injection E as <-. eapply HK; eauto.
      + apply IH; [exact HQr|]. eapply HK; eauto.
  Qed.
End Walk.

(** ** How a leaf changes the extension *)
Section LeafExt.
  Context {K : Type} {NK : Num K} {X : Type} (H : hooks K X).
  (** The callback a leaf makes, with the state it passes. *)
  Inductive leaf_ext (n : node K) (v : visitor K X) : X -> Prop :=
  | le_same : leaf_ext n v (v_ext v)
  | le_draw x y i j h s x' : n = ND01 x y i j -> read_coords x y i j (v_state v) = Ok s ->
      h = v_d01 v -> hk_draw H h s (v_ext v) = Ok x' -> leaf_ext n v x'
  | le_flash x y h a s x' : n = ND03 x y -> read_coords x y None None (v_state v) = Ok s ->
      current_aperture s = Ok a -> v_d03 v = Some h -> hk_flash H h a s (v_ext v) = Ok x' -> leaf_ext n v x'
  | le_flush s x' : hk_flush_region H s (v_ext v) = Ok x' -> leaf_ext n v x'
  | le_start s : leaf_ext n v (hk_start_region H s (v_ext v))
  | le_end s s' x' : hk_flush_region H s (v_ext v) = Ok x' -> leaf_ext n v (hk_end_region H s' x')
  | le_ad a s x' : n = NAD a -> hk_ad H a s (v_ext v) = Ok x' -> leaf_ext n v x'.

  Lemma leaf_ext_spec n v v' :
    visit_leaf H n v = Done v' \/ visit_leaf H n v = Stop v' -> leaf_ext n v (v_ext v').
  Proof.
    intros [E|E].
    2:{ destruct (leaf_stop H n v v' E) as [_ ->]. exact (le_same _ _). }
    destruct n; cbn [visit_leaf] in E; try discriminate E; try (injection E as <-; exact (le_same _ _)).
    - unfold on_ad in E. apply lift_done in E as (_ & _ & _ & _ & E). eapply le_ad; [reflexivity|].
      cbn [with_state v_state v_ext] in E. exact E.
    - unfold on_d01, on_coords in E. destruct (read_coords _ _ _ _ _) as [s|e] eqn:Er; [|discriminate].
      apply obind_done in E as (v1 & E1 & E2). apply lift_done in E1 as (_ & _ & _ & _ & E1).
      injection E2 as <-. cbn [with_state v_state v_ext v_d01] in *. eapply le_draw; eauto.
    - unfold on_d02, on_coords in E. destruct (read_coords _ _ _ _ _) as [s|e]; [|discriminate].
      cbn beta zeta in E. destruct (s_region _); [|injection E as <-; exact (le_same _ _)].
      apply lift_done in E as (_ & _ & _ & _ & E). eapply le_flush. exact E.
    - unfold on_d03, on_coords in E. destruct (read_coords _ _ _ _ _) as [s|e] eqn:Er; [|discriminate].
      cbn [with_state v_state v_d03 v_ext] in E.
      destruct (current_aperture s) as [a|e] eqn:Ea; [|discriminate].
      destruct (v_d03 v) as [h|] eqn:Eh; [|discriminate].
      apply obind_done in E as (v1 & E1 & E2). apply lift_done in E1 as (_ & _ & _ & _ & E1).
      injection E2 as <-. cbn [with_state v_state v_ext] in *. eapply le_flash; eauto.
    - unfold on_dnn in E. cbn beta zeta in E. destruct current_aperture; [|discriminate].
      injection E as <-. exact (le_same _ _).
    - destruct g; cbn [on_g] in E; try (injection E as <-; exact (le_same _ _)).
      { injection E as <-. exact (le_start _ _ _). }
      apply obind_done in E as (v1 & E1 & E2). apply lift_done in E1 as (_ & _ & _ & _ & E1).
      injection E2 as <-. cbn [with_ext v_ext dispatch bind_dispatch with_state] in *. eapply le_end. exact E1.
  Qed.
End LeafExt.

(** ** Elementary facts about compiler operations *)
Section Comp.
  Context {K : Type} {NK : Num K}.
  Implicit Types (bs : dict (buffer K)) (x : cstate K).

  Definition mem (k : str) bs : Prop := exists b, d_get k bs = Some b.

  Lemma get_buffer_ok id bs b : get_buffer id bs = Ok b <-> d_get id bs = Some b.
  Proof. unfold get_buffer. destruct (d_get id bs); split; congruence. Qed.

  Lemma append_current_inv d x x' : append_current d x = Ok x' ->
    exists id st b, c_stack x = id :: st /\ d_get id (c_buffers x) = Some b /\
      x' = set_buffers (d_set id (append_draw d b) (c_buffers x)) x.
  Proof.
    unfold append_current. destruct (c_stack x) as [|id st] eqn:Es; [discriminate|].
    destruct (get_buffer id (c_buffers x)) as [b|] eqn:Eb; [|discriminate].
    apply get_buffer_ok in Eb. intros E; injection E as <-. eauto 6.
  Qed.

  (** The commands of a buffer after appending a list. *)
  Lemma append_draw_id d (b : buffer K) : bf_id (append_draw d b) = bf_id b.
  Proof. destruct d; reflexivity. Qed.
  Lemma append_draw_cmds d (b : buffer K) : bf_cmds (append_draw d b) = bf_cmds b ++ [d].
  Proof. destruct d; reflexivity. Qed.
  Lemma append_draws_id ds : forall b : buffer K, bf_id (append_draws ds b) = bf_id b.
  Proof.
    induction ds as [|d r IH]; intros b; [reflexivity|].
    cbn [append_draws fold_left]. change (bf_id (append_draws r (append_draw d b)) = bf_id b).
    rewrite IH. apply append_draw_id.
  Qed.
  Lemma append_draws_cmds ds : forall b : buffer K, bf_cmds (append_draws ds b) = bf_cmds b ++ ds.
  Proof.
    induction ds as [|d r IH]; intros b; cbn [append_draws fold_left]; [rewrite app_nil_r; reflexivity|].
    change (bf_cmds (append_draws r (append_draw d b)) = bf_cmds b ++ d :: r).
    rewrite IH, append_draw_cmds, <- app_assoc. reflexivity.
  Qed.

  Lemma in_add_dep d l y : In y (add_dep d l) <-> y = d \/ In y l.
  Proof.
    unfold add_dep. destruct (existsb (str_eqb d) l) eqn:E.
    - apply existsb_exists in E as (z & Hz & Ez). apply str_eqb_eq in Ez; subst z.
      split; [auto|intros [->|Hy]; auto].
    - rewrite in_app_iff. cbn [In]. intuition.
  Qed.
  Lemma nodup_add_dep d l : NoDup l -> NoDup (add_dep d l).
  Proof.
    unfold add_dep. destruct (existsb (str_eqb d) l) eqn:E; [auto|]. intros Hl.
    apply Permutation_NoDup with (l := d :: l).
    - apply Permutation_cons_append.
    - constructor; [|exact Hl]. intros Hd. apply not_true_iff_false in E. apply E.
      apply existsb_exists. exists d. split; [exact Hd|apply str_eqb_refl].
  Qed.

  (** Dependencies are the pasted layers, each once. *)
  Definition deps_ok (b : buffer K) : Prop :=
    NoDup (bf_deps b) /\ forall src, In src (bf_deps b) <-> pastes (bf_cmds b) src.

  Lemma pastes_app (a b : list (draw K)) src : pastes (a ++ b) src <-> pastes a src \/ pastes b src.
  Proof.
    unfold pastes. split.
    - intros (p & Hp & E). apply in_app_or in Hp as [Hp|Hp]; [left|right]; eauto.
    - intros [(p & Hp & E)|(p & Hp & E)]; exists p; split; auto; apply in_or_app; auto.
  Qed.
  Lemma pastes_nil src : ~ pastes (K := K) [] src.
  Proof. intros (p & [] & _). Qed.
  Lemma pastes_one (d : draw K) src : pastes [d] src <-> exists p, d = DPaste p /\ pa_src p = src.
  Proof.
    split.
    - intros (p & [Hp|[]] & E). eauto.
    - intros (p & -> & E). exists p. split; [left; reflexivity|exact E].
  Qed.

  Lemma deps_append d b : deps_ok b -> deps_ok (append_draw d b).
  Proof.
    intros [H1 H2]. destruct d as [s|p]; split; cbn [append_draw bf_deps bf_cmds].
    - exact H1.
    - intros src. rewrite pastes_app, H2, pastes_one. split; [auto|intros [H|(p & H & _)]; [exact H|discriminate]].
    - apply nodup_add_dep; exact H1.
    - intros src. rewrite in_add_dep, pastes_app, H2, pastes_one. split.
      + intros [->|H]; [right; exists p; auto|left; exact H].
      + intros [H|(q & E & Eq)]; [right; exact H|injection E as <-; left; auto].
  Qed.
  Lemma deps_append_all ds : forall b, deps_ok b -> deps_ok (append_draws ds b).
  Proof.
    induction ds as [|d r IH]; intros b Hb; [exact Hb|].
    cbn [append_draws fold_left]. apply IH. apply deps_append; exact Hb.
  Qed.
  Lemma deps_empty id : deps_ok (empty_buffer (K := K) id).
  Proof. split; [constructor|]. intros src. split; [intros []|intros H; apply pastes_nil in H; contradiction]. Qed.
End Comp.

(** ** Invariants of the compiler *)
Section CompilerWalk.
  Context {K : Type} {NK : Num K} (md : bool) (clock : nat -> Z).
  Context (P : cstate K -> Prop) (T : str -> Prop) (Q : node K -> Prop) (B : state K -> Prop).
  Notation H := (compiler_hooks md clock).
  (** [B] is an invariant of the tracked state. *)
  Hypothesis B_leaf : forall n s s', Q n -> is_leaf n -> B s -> leaf_state n s = Some s' -> B s'.
  Hypothesis B_reg : forall id body s, Q (NAB id body) -> B s -> B (register_block id s).
  Hypothesis B_read : forall x y i j s s1, B s -> read_coords x y i j s = Ok s1 -> B s1.
  Hypothesis P_shape : forall sh x x', P x -> append_current (DShape sh) x = Ok x' -> P x'.
  Hypothesis P_contour : forall c x, P x -> P (set_contour c x).
  Hypothesis P_flash : forall h a s x x', B s -> current_aperture s = Ok a -> P x ->
    on_flash md h a s x = Ok x' -> P x'.
  Hypothesis P_ad : forall a s x x', Q (NAD a) -> P x -> on_aperture md clock a s x = Ok x' -> P x'.
  Hypothesis P_ab : forall id body s x, Q (NAB id body) -> P x -> P (ab_open id s x).
  Hypothesis P_pop : forall x, P x -> P (pop x).
  Hypothesis P_sr : forall uid s x, P x -> P (snd (sr_open clock uid s x)) /\ T (fst (sr_open clock uid s x)).
  Hypothesis P_sr_close : forall tmp h s x x', T tmp -> P x -> sr_close tmp h s x = Ok x' -> P x'.

  Lemma P_shapes ds : (forall d, In d ds -> exists sh, d = DShape sh) -> forall x x', P x ->
    append_all ds x = Ok x' -> P x'.
  Proof.
    induction ds as [|d r IH]; intros Hd x x' Hx; cbn [append_all].
    - intros E; injection E as <-. exact Hx.
    - destruct (Hd d (or_introl eq_refl)) as [sh ->].
      destruct (append_current (DShape sh) x) as [x1|] eqn:E1; [|discriminate]. cbn [bind].
      apply IH; [intros d' Hd'; apply Hd; right; exact Hd'|]. eapply P_shape; eauto.
  Qed.

  Lemma P_draw h s x x' : P x -> on_draw md h s x = Ok x' -> P x'.
  Proof.
    intros Hx E.
    assert (Hsh : forall l, append_all l x = Ok x' -> (forall d, In d l -> exists sh, d = DShape sh) -> P x').
    { intros l El Hl. eapply P_shapes; eauto. }
    destruct h; cbn [on_draw] in E; try (injection E as <-; exact Hx).
    - unfold draw_line in E. destruct (line_thickness _ s); [|discriminate]. cbn [bind] in E.
      apply (Hsh _ E). intros d [<-|[<-|[<-|[]]]]; eauto.
    - unfold draw_arc in E. destruct (line_thickness _ s); [|discriminate]. cbn [bind] in E. cbv zeta in E.
      destruct (v_eqb _ _); apply (Hsh _ E); intros d Hd; cbn [In] in Hd;
        repeat destruct Hd as [<-|Hd]; eauto; contradiction.
    - unfold draw_arc in E. destruct (line_thickness _ s); [|discriminate]. cbn [bind] in E. cbv zeta in E.
      destruct (v_eqb _ _); apply (Hsh _ E); intros d Hd; cbn [In] in Hd;
        repeat destruct Hd as [<-|Hd]; eauto; contradiction.
    - unfold region_line in E. destruct (c_contour x); [|discriminate]. injection E as <-. auto.
    - unfold region_arc in E. destruct (c_contour x); [|discriminate]. injection E as <-. auto.
    - unfold region_arc in E. destruct (c_contour x); [|discriminate]. injection E as <-. auto.
  Qed.

  Lemma P_flush s x x' : P x -> flush_region s x = Ok x' -> P x'.
  Proof.
    intros Hx E. unfold flush_region in E. destruct (c_contour x) as [[|g l]|]; [injection E as <-; auto| |discriminate].
    destruct (append_current _ x) as [x1|] eqn:E1; [|discriminate]. injection E as <-.
    apply P_contour. eapply P_shape; eauto.
  Qed.

  Lemma walk_file ips ns : (forall n m, In n ns -> In m (subnodes n) -> Q m) ->
    forall v v', P (v_ext v) /\ B (v_state v) -> on_file H ips ns v = Ok v' ->
    P (v_ext v') /\ B (v_state v').
  Proof.
    intros HQ. eapply keeps_file with (T := T) (Q := Q) (P := fun v => P (v_ext v) /\ B (v_state v)); [..|exact HQ].
    - intros n v v' Hn Hl [Hv Hs] E. split.
      + destruct (leaf_ext_spec H n v v' E) as [|x y i j h s x' -> Er -> Ed|x y h a s x' -> Er Ea Eh Ef|s x' Ef|s|s s' x' Ef|a s x' -> Ea].
        * exact Hv.
        * exact (P_draw _ _ _ _ Hv Ed).
        * exact (P_flash h a s _ _ (B_read _ _ _ _ _ _ Hs Er) Ea Hv Ef).
        * exact (P_flush _ _ _ Hv Ef).
        * exact (P_contour _ _ Hv).
        * exact (P_contour _ _ (P_flush _ _ _ Hv Ef)).
        * exact (P_ad _ _ _ _ Hn Hv Ea).
      + eapply B_leaf; eauto. eapply leaf_state_spec; eauto.
    - intros id body v Hn [Hv Hs]. split; [|exact Hs]. exact (P_ab id body _ _ Hn Hv).
    - intros id body v Hn [Hv Hs]. split; [|eapply B_reg; eauto]. exact (P_pop _ Hv).
    - intros uid v [Hv Hs]. unfold sr_enter. cbn [compiler_hooks hk_sr_open].
      destruct (P_sr uid (v_state v) (v_ext v) Hv) as [H1 H2].
      destruct (sr_open clock uid (v_state v) (v_ext v)) as [tmp x'] eqn:Es. cbn [fst snd] in *.
      split; [split; [exact H1|exact Hs]|exact H2].
    - intros tmp hdr v v' Ht [Hv Hs] E. unfold sr_leave in E. apply lift_done in E as (E1 & _ & _ & _ & E2).
      rewrite E1. split; [|exact Hs]. exact (P_sr_close _ _ _ _ _ Ht Hv E2).
  Qed.
End CompilerWalk.

(** ** C11: buffers are stored under their own id *)
Section Keyed.
  Context {K : Type} {NK : Num K} (md : bool) (clock : nat -> Z).
  Implicit Types (bs : dict (buffer K)) (x : cstate K).

  Definition keyed bs : Prop := forall k b, d_get k bs = Some b -> bf_id b = k.

  Lemma keyed_set k b bs : keyed bs -> bf_id b = k -> keyed (d_set k b bs).
  Proof.
    intros Hk Hb k' b'. rewrite d_get_set. destruct (str_eqb k' k) eqn:E; [|apply Hk].
    intros E'; injection E' as <-. apply str_eqb_eq in E. congruence.
  Qed.
  Lemma keyed_del k bs : keyed bs -> keyed (d_del k bs).
  Proof. intros Hk k' b'. rewrite d_get_del. destruct (str_eqb k' k); [discriminate|apply Hk]. Qed.

  Lemma keyed_append d x x' : keyed (c_buffers x) -> append_current d x = Ok x' -> keyed (c_buffers x').
  Proof.
    intros Hk E. apply append_current_inv in E as (id & st & b & _ & Eb & ->).
    cbn [set_buffers c_buffers]. apply keyed_set; [exact Hk|]. rewrite append_draw_id. apply Hk; exact Eb.
  Qed.
  Lemma keyed_append_all ds : forall x x', keyed (c_buffers x) -> append_all ds x = Ok x' -> keyed (c_buffers x').
  Proof.
    induction ds as [|d r IH]; intros x x' Hk; cbn [append_all].
    - intros E; injection E as <-; exact Hk.
    - destruct (append_current d x) as [x1|] eqn:E; [|discriminate]. apply IH. eapply keyed_append; eauto.
  Qed.

  (** The loop of [transformed] as a separate definition. *)
  Definition copy_loop (f : nat) (m : mat K) :=
    fix go (cs : list (draw K)) (acc : list (draw K)) (deps : list str) bs
      : result exc (list (draw K) * list str * dict (buffer K)) :=
      match cs with
      | [] => Ok (acc, deps, bs)
      | DShape sh :: r => go r (acc ++ [DShape (shape_transform m sh)]) deps bs
      | DPaste p :: r =>
          let* bb := transformed f m (pa_src p) bs in
          let '(b, bs) := bb in
          go r (acc ++ [DPaste (MkPaste (bf_id b) (v_transform m (pa_center p)) (pa_neg p) (pa_meta p))])
             (add_dep (bf_id b) deps) bs
      end.
  Lemma transformed_eq fuel m id bs :
    transformed fuel m id bs =
    match d_get (layer_key id m) bs with
    | Some b => Ok (b, bs)
    | None =>
        match fuel with
        | O => Err EOutOfFuel
        | S f =>
            let* base := get_buffer id bs in
            let* r := copy_loop f m (bf_cmds base) [] [] bs in
            let '(cmds, deps, bs) := r in
            let b := MkBuf (layer_key id m) cmds deps in
            Ok (b, d_set (layer_key id m) b bs)
        end
    end.
  Proof. destruct fuel; reflexivity. Qed.

  (** A property of buffer tables kept by storing new copies is kept by [transformed]. *)
  Section TransformedInv.
    Context (I : dict (buffer K) -> Prop) (m : mat K).
    Hypothesis I_copy : forall id cmds deps bs, I bs -> I (d_set (layer_key id m) (MkBuf (layer_key id m) cmds deps) bs).
    Lemma transformed_keeps f : forall id bs b bs', I bs -> transformed f m id bs = Ok (b, bs') -> I bs'.
    Proof.
      induction f as [|f IH]; intros id bs b bs' HI; rewrite transformed_eq;
        (destruct (d_get (layer_key id m) bs) as [b0|]; [intros E; injection E as _ <-; exact HI|]); [discriminate|].
      destruct (get_buffer id bs) as [base|]; [|discriminate]. cbn [bind].
      assert (HL : forall cs acc deps bs r, I bs -> copy_loop f m cs acc deps bs = Ok r -> I (snd r)).
      { induction cs as [|[sh|p] cs IHc]; intros acc deps bs0 r H0; cbn [copy_loop].
        - intros E; injection E as <-; exact H0.
        - apply IHc; exact H0.
        - destruct (transformed f m (pa_src p) bs0) as [[b1 bs1]|] eqn:Et; [|discriminate]. cbn [bind].
          apply IHc. eapply IH; eauto. }
      destruct (copy_loop f m (bf_cmds base) [] [] bs) as [[[cmds deps] bs1]|] eqn:El; [|discriminate].
      cbn [bind]. intros E; injection E as _ <-. apply I_copy. exact (HL _ _ _ _ _ HI El).
    Qed.
  End TransformedInv.

  Lemma keyed_transformed f m id bs b bs' :
    keyed bs -> transformed f m id bs = Ok (b, bs') -> keyed bs'.
  Proof. apply transformed_keeps. intros id0 cmds deps bs0 H0. apply keyed_set; auto. Qed.

  Lemma aperture_buffer_inv (s : state K) id x b x' : aperture_buffer s id x = Ok (b, x') ->
    exists bs', transformed (S (length (c_buffers x))) (state_matrix s) id (c_buffers x) = Ok (b, bs') /\
      x' = set_buffers bs' x.
  Proof.
    unfold aperture_buffer. destruct (transformed _ _ id (c_buffers x)) as [[b1 bs1]|] eqn:E; [|discriminate].
    cbn [bind]. intros E'; injection E' as <- <-. eauto.
  Qed.

  Lemma on_flash_cases h a s x x' : on_flash md h a s x = Ok x' ->
    (exists ad, a = ApAD ad /\ flash_aperture md (ad_id ad) s x = Ok x') \/
    (exists id, a = ApAB id /\ flash_block id s x = Ok x').
  Proof. destruct h, a; cbn [on_flash]; intros E; try discriminate; eauto. Qed.

  Lemma flash_aperture_inv id s x x' : flash_aperture md id s x = Ok x' ->
    exists b x1, aperture_buffer s id x = Ok (b, x1) /\
      append_current (DPaste (MkPaste (bf_id b) (end_point s) (is_negative s) (meta_of md (s_obj_attrs s)))) x1 = Ok x'.
  Proof.
    unfold flash_aperture. destruct (aperture_buffer s id x) as [[b x1]|]; [|discriminate]. cbn [bind]. eauto.
  Qed.
  Lemma flash_block_inv id s x x' : flash_block id s x = Ok x' ->
    exists b x1, aperture_buffer s id x = Ok (b, x1) /\
      append_all (map (shift_draw (mtranslate (coordinate_x s) (coordinate_y s))) (bf_cmds b)) x1 = Ok x'.
  Proof.
    unfold flash_block. destruct (aperture_buffer s id x) as [[b x1]|]; [|discriminate]. cbn [bind]. eauto.
  Qed.
End Keyed.

Lemma Ok_inj {E A} (a b : A) : Ok (E := E) a = Ok b -> a = b.
Proof. congruence. Qed.

Ltac dbind E :=
  repeat match type of E with
  | bind ?r ?f = Ok _ => let Eb := fresh "Eb" in destruct r eqn:Eb; [cbn [bind] in E|discriminate E]
  end.

(** ** Shape of aperture definitions *)
Section Apertures.
  Context {K : Type} {NK : Num K} (md : bool) (clock : nat -> Z).
  Implicit Types (bs : dict (buffer K)) (x : cstate K).

  Definition thermal_id (uid : Z) x : str := stamp clock (lit "%%Code7%") uid x.
  Definition with_thermal (id : str) (ds : list (draw K)) x : cstate K :=
    set_buffer (append_draws ds (empty_buffer id)) (MkC (c_buffers x) (c_stack x) (c_contour x) (id :: c_stamps x)).

  Inductive prim_step (m m' : mstate (K := K)) : Prop :=
  | ps_shapes ds : ms_c m' = ms_c m -> ms_buf m' = append_draws ds (ms_buf m) ->
      (forall d, In d ds -> exists sh, d = DShape sh) -> prim_step m m'
  | ps_thermal uid ds c : ms_c m' = with_thermal (thermal_id uid (ms_c m)) ds (ms_c m) ->
      ms_buf m' = append_draw (DPaste (MkPaste (thermal_id uid (ms_c m)) c false None)) (ms_buf m) ->
      (forall d, In d ds -> exists sh, d = DShape sh) -> prim_step m m'.

  Lemma ms_appends_spec ds : forall m : mstate (K := K),
    ms_c (ms_appends ds m) = ms_c m /\ ms_buf (ms_appends ds m) = append_draws ds (ms_buf m) /\
    ms_scope (ms_appends ds m) = ms_scope m.
  Proof.
    unfold ms_appends. induction ds as [|d r IH]; intros m; [auto|]. cbn [fold_left].
    destruct (IH (ms_append d m)) as (-> & -> & ->). auto.
  Qed.

  Lemma on_prim_step mm p (m m' : mstate (K := K)) : on_prim clock mm p m = Ok m' -> prim_step m m'.
  Proof.
    assert (H0 : forall sc, prim_step m (MkM sc (ms_buf m) (ms_c m))).
    { intros sc. apply ps_shapes with (ds := []); auto. intros d []. }
    assert (H1 : forall s, prim_step m (ms_append (DShape s) m)).
    { intros s. apply ps_shapes with (ds := [DShape s]); auto. intros d [<-|[]]; eauto. }
    assert (Hm : prim_step m m) by (destruct m; apply H0).
    destruct p; cbn [on_prim]; intros E.
    - injection E as <-. exact Hm.
    - dbind E. destruct rotation; dbind E; injection E as <-; apply H1.
    - dbind E; injection E as <-; apply H1.
    - dbind E; injection E as <-; apply H1.
    - dbind E; injection E as <-; apply H1.
    - dbind E. injection E as <-.
      match goal with |- prim_step _ (ms_appends ?l _) => destruct (ms_appends_spec l m) as (A & B & _); apply ps_shapes with (ds := l); auto end.
      intros d Hd. apply in_map_iff in Hd as (s & <- & _). eauto.
    - dbind E. destruct (n_leb _ _); [injection E as <-; exact Hm|]. dbind E.
      destruct (n_leb _ _); [injection E as <-; exact Hm|].
      destruct (n_leb _ _); [injection E as <-; exact Hm|]. dbind E. injection E as <-.
      eapply ps_thermal; [reflexivity|reflexivity|].
      intros d Hd. apply in_map_iff in Hd as (s & <- & _). eauto.
    - dbind E; injection E as <-; apply H1.
    - dbind E; injection E as <-; apply H1.
    - dbind E; injection E as <-; apply H1.
    - dbind E; injection E as <-; apply H0.
  Qed.

  Inductive prims_steps (m : mstate (K := K)) : mstate (K := K) -> Prop :=
  | pss_nil : prims_steps m m
  | pss_snoc m1 m2 : prims_steps m m1 -> prim_step m1 m2 -> prims_steps m m2.
  Lemma pss_cons m m1 m2 : prim_step m m1 -> prims_steps m1 m2 -> prims_steps m m2.
  Proof. intros H1 H2. induction H2; [eapply pss_snoc; [constructor|exact H1]|eapply pss_snoc; eauto]. Qed.
  Lemma on_prims_steps mm ps : forall m m' : mstate (K := K), on_prims clock mm ps m = Ok m' -> prims_steps m m'.
  Proof.
    induction ps as [|p r IH]; intros m m'; cbn [on_prims]; intros E.
    - injection E as <-. constructor.
    - destruct (on_prim clock mm p m) as [m1|] eqn:E1; [|discriminate]. cbn [bind] in E.
      eapply pss_cons; [eapply on_prim_step; eauto|apply IH; exact E].
  Qed.

  Lemma hole_shapes hole f (m : meta) d : In d (hole_of (K := K) hole f m) -> exists sh, d = DShape sh.
  Proof.
    unfold hole_of. destruct hole as [h|]; [|intros []]. destruct (n_ltb _ h); [|intros []].
    intros [<-|[]]; eauto.
  Qed.

  Lemma on_aperture_inv a s x x' : on_aperture md clock a s x = Ok x' ->
    (exists ds, x' = set_buffer (append_draws ds (empty_buffer (ad_id a))) x /\
       forall d, In d ds -> exists sh, d = DShape sh) \/
    (exists sc m, prims_steps (MkM sc (empty_buffer (ad_id a)) (set_buffer (empty_buffer (ad_id a)) x)) m /\
       x' = set_buffer (ms_buf m) (ms_c m)).
  Proof.
    unfold on_aperture. cbv zeta. intros E.
    destruct (ad_template a) as [d h|w h hole|w h hole|d n r hole|name params].
    - left. apply Ok_inj in E; subst x'. eexists; split; [reflexivity|].
      intros d0 [<-|Hd]; [eauto|eapply hole_shapes; eauto].
    - left. apply Ok_inj in E; subst x'. eexists; split; [reflexivity|].
      intros d0 [<-|Hd]; [eauto|eapply hole_shapes; eauto].
    - left. apply Ok_inj in E; subst x'. eexists; split; [reflexivity|].
      intros d0 [<-|Hd]; [eauto|eapply hole_shapes; eauto].
    - left. dbind E. apply Ok_inj in E; subst x'. eexists; split; [reflexivity|].
      intros d0 [<-|Hd]; [eauto|eapply hole_shapes; eauto].
    - right. destruct (d_get name (s_macros s)) as [prims|]; [|discriminate]. dbind E. apply Ok_inj in E; subst x'.
      apply on_prims_steps in Eb. eauto.
  Qed.

  Lemma sr_close_inv tmp h s x x' : sr_close tmp h s x = Ok x' ->
    exists b nx ny dx dy x1, d_get tmp (c_buffers x) = Some b /\
      sr_count (sr_x h) = Ok nx /\ sr_count (sr_y h) = Ok ny /\
      sr_delta (sr_i h) = Ok dx /\ sr_delta (sr_j h) = Ok dy /\
      append_all (flat_map (fun ix => flat_map (fun iy =>
        map (shift_draw (mtranslate (n_add (coordinate_x s) (n_mul (n_of_Z (Z.of_nat ix)) dx))
                                    (n_add (coordinate_y s) (n_mul (n_of_Z (Z.of_nat iy)) dy)))) (bf_cmds b))
        (seq 0 ny)) (seq 0 nx)) (pop x) = Ok x1 /\
      x' = set_buffers (d_del tmp (c_buffers x1)) x1.
  Proof.
    unfold sr_close. intros E. dbind E. injection E as <-.
    apply get_buffer_ok in Eb. do 6 eexists.
    split; [exact Eb|]. do 4 (split; [reflexivity|]). split; [exact Eb4|reflexivity].
  Qed.

  Lemma keyed_file ips ns v v' : keyed (c_buffers (v_ext v)) ->
    on_file (compiler_hooks md clock) ips ns v = Ok v' -> keyed (c_buffers (v_ext v')).
  Proof.
    intros Hv E.
    refine (proj1 (walk_file md clock (fun x => keyed (c_buffers x)) (fun _ => True) (fun _ => True) (fun _ => True)
              _ _ _ _ _ _ _ _ _ _ _ ips ns _ v v' (conj Hv I) E)); auto.
    - intros sh x x'. apply keyed_append.
    - intros h a s x x' _ _ Hx Ef. apply on_flash_cases in Ef as [(ad & -> & Ef)|(id & -> & Ef)].
      + apply flash_aperture_inv in Ef as (b & x1 & Ea & Ef). eapply keyed_append; [|exact Ef].
        apply aperture_buffer_inv in Ea as (bs' & Et & ->). eapply keyed_transformed; eauto.
      + apply flash_block_inv in Ef as (b & x1 & Ea & Ef). eapply keyed_append_all; [|exact Ef].
        apply aperture_buffer_inv in Ea as (bs' & Et & ->). eapply keyed_transformed; eauto.
    - intros a s x x' _ Hx Ea. apply on_aperture_inv in Ea as [(ds & -> & _)|(sc & m & Hm & ->)].
      + cbn [set_buffer c_buffers]. apply keyed_set; [exact Hx|reflexivity].
      + cbn [set_buffer c_buffers]. apply keyed_set; [|reflexivity].
        remember (MkM sc (empty_buffer (ad_id a)) (set_buffer (empty_buffer (ad_id a)) x)) as m0 eqn:E0.
        induction Hm as [|m1 m2 _ IH [ds E1 _ _|uid ds c E1 _ _]].
        * subst m0. cbn. apply keyed_set; [exact Hx|reflexivity].
        * rewrite E1. exact IH.
        * rewrite E1. cbn. apply keyed_set; [exact IH|reflexivity].
    - intros id body s x _ Hx. cbn. apply keyed_set; [exact Hx|reflexivity].
    - intros uid s x Hx. split; [|exact I]. cbn. apply keyed_set; [exact Hx|reflexivity].
    - intros tmp h s x x' _ Hx Es. apply sr_close_inv in Es as (b & nx & ny & dx & dy & x1 & _ & _ & _ & _ & _ & Ea & ->).
      cbn [set_buffers c_buffers]. apply keyed_del. eapply keyed_append_all; [|exact Ea]. exact Hx.
  Qed.
End Apertures.

(** ** From buffers to programs *)
Section Output.
  Context {K : Type} {NK : Num K} (iter : str -> list str -> list str).
  Implicit Types (bs : dict (buffer K)).

  Lemma layers_block (b : buffer K) r :
    layers (block_of b ++ r)
    = match layers r with Some ls => Some ((bf_id b, bf_cmds b) :: ls) | None => None end.
  Proof.
    unfold layers, block_of. cbn [app layers_from].
    assert (H : forall ds acc id, layers_from (Some (id, acc)) ((map KDraw ds ++ [KEnd]) ++ r)
      = match layers_from None r with Some ls => Some ((id, acc ++ ds) :: ls) | None => None end).
    { induction ds as [|d ds IH]; intros acc id; cbn [map app layers_from].
      - rewrite app_nil_r. reflexivity.
      - rewrite IH. rewrite <- app_assoc. reflexivity. }
    rewrite H. reflexivity.
  Qed.
  Lemma layers_convert (l : list (buffer K)) :
    layers (flat_map block_of l) = Some (map (fun b => (bf_id b, bf_cmds b)) l).
  Proof.
    induction l as [|b l IH]; [reflexivity|]. cbn [flat_map map]. rewrite layers_block, IH. reflexivity.
  Qed.

  Lemma get_buffers_spec bs ids : forall l, get_buffers bs ids = Ok l ->
    Forall2 (fun i b => d_get i bs = Some b) ids l.
  Proof.
    induction ids as [|i r IH]; intros l; cbn [get_buffers].
    - intros E; injection E as <-. constructor.
    - destruct (get_buffer i bs) as [b|] eqn:Eb; [|discriminate]. cbn [bind].
      destruct (get_buffers bs r) as [l'|]; [|discriminate]. cbn [bind]. intros E; injection E as <-.
      constructor; [apply get_buffer_ok; exact Eb|auto].
  Qed.
  Lemma get_buffers_ids bs ids l : keyed bs -> get_buffers bs ids = Ok l -> map bf_id l = ids.
  Proof.
    intros Hk E. apply get_buffers_spec in E. induction E as [|i b ids l Hb _ IH]; [reflexivity|].
    cbn [map]. rewrite IH, (Hk i b Hb). reflexivity.
  Qed.
  Lemma get_buffers_total bs ids : (forall i, In i ids -> mem i bs) -> exists l, get_buffers bs ids = Ok l.
  Proof.
    induction ids as [|i r IH]; intros H; cbn [get_buffers]; [eauto|].
    destruct (H i (or_introl eq_refl)) as [b Eb]. apply get_buffer_ok in Eb. rewrite Eb. cbn [bind].
    destruct IH as [l ->]; [intros j Hj; apply H; right; exact Hj|]. cbn [bind]. eauto.
  Qed.

  (** The loop of [resolve]. *)
  Definition deps_loop (f : nat) bs (self : str) :=
    fix go (deps : list str) (out : list str) : result exc (list str) :=
      match deps with
      | [] => Ok out
      | d :: r =>
          let* db := get_buffer d bs in
          let* out := resolve iter f bs db out in
          if existsb (str_eqb self) out then Err ECyclicDependency else go r out
      end.
  Lemma resolve_eq fuel bs b out :
    resolve iter fuel bs b out =
    match fuel with
    | O => Err EOutOfFuel
    | S f => let* out := deps_loop f bs (bf_id b) (iter (bf_id b) (bf_deps b)) out in Ok (out ++ [bf_id b])
    end.
  Proof. destruct fuel; reflexivity. Qed.

  (** In the output every id comes after its dependencies. *)
  Hypothesis iter_perm : forall id l, Permutation (iter id l) l.
  Definition closed bs (out : list str) : Prop :=
    forall pre id post b, out = pre ++ id :: post -> d_get id bs = Some b ->
      forall d, In d (bf_deps b) -> In d pre.

  Lemma closed_snoc bs out id b : keyed bs -> closed bs out -> d_get id bs = Some b ->
    (forall d, In d (bf_deps b) -> In d out) -> closed bs (out ++ [id]).
  Proof.
    intros Hk Hc Hb Hd pre id' post b' E Hb' d Hin.
    assert (C : (exists post', out = pre ++ id' :: post') \/ (out = pre /\ id = id')).
    { revert pre E. clear -out. induction out as [|o out IH]; intros [|p pre] E; cbn [app] in E.
      - injection E as <- _. auto.
      - injection E as _ E. destruct pre; discriminate.
      - injection E as -> E. left. exists out. reflexivity.
      - injection E as -> E. destruct (IH pre E) as [(post' & ->)|[-> ->]]; [left; exists post'; reflexivity|auto]. }
    destruct C as [(post' & E')|[<- <-]].
    - eapply Hc; eauto.
    - rewrite Hb' in Hb. injection Hb as ->. auto.
  Qed.

  Lemma resolve_closed bs : keyed bs -> forall f b out out', d_get (bf_id b) bs = Some b -> closed bs out ->
    resolve iter f bs b out = Ok out' ->
    closed bs out' /\ (forall i, In i out -> In i out') /\ exists out'', out' = out'' ++ [bf_id b].
  Proof.
    intros Hk. induction f as [|f IH]; intros b out out' Hb Hc; rewrite resolve_eq; [discriminate|].
    assert (HL : forall deps out out', closed bs out -> deps_loop f bs (bf_id b) deps out = Ok out' ->
      closed bs out' /\ (forall i, In i out -> In i out') /\ (forall d, In d deps -> In d out')).
    { induction deps as [|d r IHd]; intros o o' Ho; cbn [deps_loop].
      - intros E; injection E as <-. split; [exact Ho|]. split; [auto|intros d []].
      - destruct (get_buffer d bs) as [db|] eqn:Ed; [|discriminate]. apply get_buffer_ok in Ed. cbn [bind].
        assert (Hdb : bf_id db = d) by (apply Hk; exact Ed).
        destruct (resolve iter f bs db o) as [o1|] eqn:Er; [|discriminate]. cbn [bind].
        destruct (IH db o o1) as (H1 & H2 & o2 & H3); [rewrite Hdb; exact Ed|exact Ho|exact Er|].
        destruct (existsb _ o1); [discriminate|]. intros E.
        destruct (IHd o1 o' H1 E) as (H4 & H5 & H6). split; [exact H4|]. split; [auto|].
        intros d' [<-|Hd']; [|auto]. apply H5. rewrite H3, Hdb. apply in_or_app. right. left. reflexivity. }
    destruct (deps_loop f bs (bf_id b) (iter (bf_id b) (bf_deps b)) out) as [o1|] eqn:El; [|discriminate].
    cbn [bind]. intros E; injection E as <-.
    destruct (HL _ _ _ Hc El) as (H1 & H2 & H3). split; [|split; [|eauto]].
    - eapply closed_snoc; eauto. intros d Hd. apply H3.
      eapply Permutation_in; [apply Permutation_sym, iter_perm|exact Hd].
    - intros i Hi. apply in_or_app. auto.
  Qed.
End Output.

(** C64 with blocks: the drawings made for block apertures and step and repeat blocks, and the
    pictures they stand for. *)
From Verif Require Import Base Num Dict CoordModel CoordSpec CoordProofs Ast StateModel StateSpec StateProofs GeomModel
  ExprModel CompilerModel LayerSpec LayerProofs LayerInv LayerOut DrawSpec DrawProofs FlashSpec FlashProofs PlaceSpec
  PlaceProofs RenderSpec RenderProofs InkSpec InkProofs BlockSpec.

Lemma NoDup_both {A} (a b : list A) x : NoDup (a ++ b) -> In x a -> In x b -> False.
Proof.
  induction a as [|y a IH]; intros Hd X Y; [destruct X|]. cbn [app] in Hd. apply NoDup_cons_iff in Hd as [H1 H2].
  destruct X as [->|X]; [|auto]. apply H1. apply in_or_app. auto.
Qed.

(** Executed commands are commands of the file. *)
Lemma executed_sub {K} (n m : node K) : is_leaf m -> In m (fst (executed n)) -> In m (subnodes n).
Proof.
  intros Hm. induction n as [i body IH|u h body IH|n Hleaf] using node_ind'.
  1, 2: assert (HL : In m (fst (exec_list executed body)) -> In m (flat_map subnodes body));
    [induction IH as [|k r Hk _ IHr]; [intros []|]; cbn [exec_list flat_map];
     change ((fix go (ns : list (node K)) : list (node K) * bool := _) r) with (exec_list executed r) in *;
     intros Hi; apply in_or_app; destruct (executed k) as [a [|]]; cbn [fst] in *; [left; auto|];
     destruct (exec_list executed r) as [b st]; cbn [fst] in *; apply in_app_or in Hi as [Hi|Hi]; auto|].
  - cbn [executed]. intros Hi. right. apply HL. destruct (exec_list executed body) as [l [|]]; cbn [fst] in *; [exact Hi|].
    apply in_app_or in Hi as [Hi|[Hi|[]]]; [exact Hi|]. subst m. destruct Hm.
  - cbn [executed]. intros Hi. right. auto.
  - rewrite (executed_leaf n Hleaf). intros [<-|[]]. destruct n; try contradiction; left; reflexivity.
Qed.
Lemma executed_file_sub {K} ips (ns : list (node K)) m : is_leaf m -> In m (executed_file ips ns) ->
  exists n, In n ns /\ In m (subnodes n).
Proof.
  intros Hm. induction ns as [|n r IH]; cbn [executed_file]; [intros []|]. pose proof (executed_sub n m Hm) as Hs.
  destruct (executed n) as [a st]. cbn [fst] in Hs. intros Hi.
  assert (Hc : In m a \/ In m (executed_file ips r)) by (destruct (st && ips); [auto|apply in_app_or; exact Hi]).
  destruct Hc as [Hc|Hc]; [exists n; split; [left; reflexivity|auto]|].
  destruct (IH Hc) as (k & H1 & H2). exists k. split; [right; exact H1|exact H2].
Qed.

Section PicInd.
  Context {K : Type} (P : pic K -> Prop).
  Hypothesis HS : forall s, P (PShape s).
  Hypothesis HG : forall neg c l, Forall P l -> P (PGroup neg c l).
  Fixpoint pic_ind' (p : pic K) : P p :=
    match p with
    | PShape s => HS s
    | PGroup neg c l => HG neg c l ((fix all (l : list (pic K)) : Forall P l :=
        match l with [] => Forall_nil P | q :: r => Forall_cons q (pic_ind' q) (all r) end) l)
    end.
End PicInd.

Section Blocks.
  Context {K : Type} {NK : Num K} (md : bool) (clock : nat -> Z) (Ms : mat K -> Prop).
  Hypothesis nopct : forall k : K, no_pct (n_repr k).
  Hypothesis Ms_inj : forall m m' : mat K, Ms m -> Ms m' -> mtag m = mtag m' -> m = m'.
  Context (ADs ABs : str -> Prop).
  Hypothesis AD_code : forall id, ADs id -> exists n, dcode id n.
  Hypothesis AB_code : forall id, ABs id -> exists n, dcode id n.
  Hypothesis AD_AB : forall id, ADs id -> ABs id -> False.
  Hypothesis Hshift : forall (a b : K) d, shift_draw (mtranslate a b) d = move (MkVec a b) d.
  Hypothesis Hcopies : forall (at0 : vec K) nx ny dx dy body,
    flat_map (fun ix => flat_map (fun iy =>
      map (shift_draw (mtranslate (n_add (vx at0) (n_mul (n_of_Z (Z.of_nat ix)) dx))
                                  (n_add (vy at0) (n_mul (n_of_Z (Z.of_nat iy)) dy)))) body) (seq 0 ny)) (seq 0 nx)
    = copies at0 nx ny dx dy body.
  Context (width : vec K -> ad K -> K -> Prop).
  Hypothesis Hwidth : forall e a th, thick e a th -> width e a th.
  Notation H := (compiler_hooks md clock).
  Notation nb := (nb ADs).
  Notation N := (N Ms ADs).
  Notation pres := (pres ADs).
  Notation point := (named_point H compiler_init ABs).
  Notation bufs v := (c_buffers (v_ext v)).

  (** Drawings and their pictures; all pasted layers belong to apertures. *)
  Inductive srep (bs : dict (buffer K)) : draw K -> pic K -> Prop :=
  | sr_shape s : srep bs (DShape s) (PShape s)
  | sr_group q b l : nb (pa_src q) -> d_get (pa_src q) bs = Some b -> Forall2 (srep bs) (bf_cmds b) l ->
      srep bs (DPaste q) (PGroup (pa_neg q) (pa_center q) l).

  Lemma Forall2_of (A B : Type) (P Q : A -> B -> Prop) (l : list A) (m : list B) :
    Forall2 P l m -> Forall (fun b => forall a, P a b -> Q a b) m -> Forall2 Q l m.
  Proof. induction 1; intros HF; inversion HF; subst; constructor; auto. Qed.

  Lemma srep_pres bs bs' d p : pres bs bs' -> srep bs d p -> srep bs' d p.
  Proof.
    intros Hp. revert d. induction p as [s|neg c l IH] using pic_ind'; intros d Hd; inversion Hd; subst; [constructor|].
    econstructor; [eassumption|apply Hp; eassumption|]. eapply Forall2_of; [eassumption|]. exact IH.
  Qed.
  Lemma sreps_pres bs bs' ds ps : pres bs bs' -> Forall2 (srep bs) ds ps -> Forall2 (srep bs') ds ps.
  Proof. intros Hp. induction 1; constructor; auto. eapply srep_pres; eauto. Qed.

  Lemma srep_fun bs p : forall d p', srep bs d p -> srep bs d p' -> p = p'.
  Proof.
    induction p as [s|neg c l IH] using pic_ind'; intros d p' H1 H2; inversion H1; subst; inversion H2; subst; [reflexivity|].
    assert (b0 = b) by congruence. subst b0. f_equal.
    match goal with X : Forall2 (srep bs) (bf_cmds b) l, Y : Forall2 (srep bs) (bf_cmds b) l0 |- _ => revert X Y end.
    clear - IH. generalize (bf_cmds b). revert l0. induction IH as [|p l Hp _ IHl]; intros l0 ds X Y; inversion X; subst; inversion Y; subst; [reflexivity|].
    f_equal; eauto.
  Qed.
  Lemma sreps_fun bs ds l l' : Forall2 (srep bs) ds l -> Forall2 (srep bs) ds l' -> l = l'.
  Proof.
    intros X. revert l'. induction X as [|d p ds l A _ IH]; intros m Y; inversion Y; subst; [reflexivity|].
    f_equal; eauto using srep_fun.
  Qed.

  Lemma srep_move bs t d p : srep bs d p -> srep bs (move t d) (displace t p).
  Proof.
    intros Hd. inversion Hd; subst; cbn [move displace]; [constructor|].
    apply (sr_group bs (MkPaste (pa_src q) (plus (pa_center q) t) (pa_neg q) (pa_meta q)) b l); assumption.
  Qed.
  Lemma sreps_move bs t ds ps : Forall2 (srep bs) ds ps -> Forall2 (srep bs) (map (move t) ds) (map (displace t) ps).
  Proof. induction 1; constructor; auto. apply srep_move. assumption. Qed.
  Lemma srep_pastes bs ds ps src : Forall2 (srep bs) ds ps -> pastes ds src -> nb src.
  Proof.
    induction 1 as [|d p ds ps Hd _ IH]; intros (q & Hq & Eq); [destruct Hq|]. destruct Hq as [Hq|Hq].
    - subst d. inversion Hd; subst; assumption.
    - apply IH. exists q. auto.
  Qed.

  Lemma nb_pasted bs u c k b src : N bs u c -> nb k -> d_get k bs = Some b -> pastes (bf_cmds b) src -> nb src.
  Proof. intros HN Hk Hb Hs. exact (tnb_nb _ _ (proj1 (N_pastes _ _ _ _ _ HN _ _ _ Hk Hb Hs))). Qed.

  (** Copied layers show transformed pictures. *)
  Lemma copy_rep bs u c M k k' : N bs u c -> copy_of bs M k k' -> nb k -> nb k' ->
    exists b b' l l', d_get k bs = Some b /\ d_get k' bs = Some b' /\ Forall2 (srep bs) (bf_cmds b) l /\
      Forall2 (srep bs) (bf_cmds b') l' /\ Forall2 (pic_image M) l l'.
  Proof.
    intros HN Hc. induction Hc using copy_of_mind with
      (P0 := fun ds ds' _ => (forall src, pastes ds src -> nb src) -> (forall src, pastes ds' src -> nb src) ->
         exists l l', Forall2 (srep bs) ds l /\ Forall2 (srep bs) ds' l' /\ Forall2 (pic_image M) l l').
    - intros Hk Hk'. destruct IHHc as (l & l' & A).
      + intros src Hs. eapply nb_pasted; [exact HN|exact Hk|eassumption|exact Hs].
      + intros src Hs. eapply nb_pasted; [exact HN|exact Hk'|eassumption|exact Hs].
      + exists b, b', l, l'. auto.
    - intros _ _. exists [], []. auto.
    - intros X Y. destruct IHHc as (l & l' & A1 & A2 & A3).
      + intros src (q & Q1 & Q2). apply X. exists q. split; [right; exact Q1|exact Q2].
      + intros src (q & Q1 & Q2). apply Y. exists q. split; [right; exact Q1|exact Q2].
      + exists (PShape s :: l), (PShape s' :: l'). repeat (split; [constructor; auto; constructor|]). constructor; auto. constructor; auto.
    - intros X Y. assert (X0 : nb (pa_src p)) by (apply X; exists p; split; [left; reflexivity|reflexivity]).
      assert (Y0 : nb (pa_src p')) by (apply Y; exists p'; split; [left; reflexivity|reflexivity]).
      destruct (IHHc X0 Y0) as (b & b' & g & g' & B1 & B2 & B3 & B4 & B5). destruct IHHc0 as (l & l' & A1 & A2 & A3).
      + intros src (q & Q1 & Q2). apply X. exists q. split; [right; exact Q1|exact Q2].
      + intros src (q & Q1 & Q2). apply Y. exists q. split; [right; exact Q1|exact Q2].
      + exists (PGroup (pa_neg p) (pa_center p) g :: l), (PGroup (pa_neg p') (pa_center p') g' :: l').
        split; [constructor; auto; econstructor; eauto|]. split; [constructor; auto; econstructor; eauto|].
        constructor; auto. rewrite e, e0. constructor. exact B5.
  Qed.

  (** Transforming a layer of an aperture stores layers of apertures only. *)
  Lemma nb_of_key k m : nb k -> nb (layer_key k m).
  Proof.
    intros (b0 & ts & A & B & ->). exists b0, (ts ++ [mtag m]). split; [exact A|]. split; [apply tags_snoc; exact B|apply layer_key_ext].
  Qed.
  Lemma copy_loop_nb m used codes f : Ms m ->
    (forall id bs b bs', keyed bs -> N bs used codes -> nb id -> transformed f m id bs = Ok (b, bs') ->
       forall k, ~ nb k -> d_get k bs' = d_get k bs) ->
    forall cs acc deps bs r, keyed bs -> N bs used codes -> (forall src, pastes cs src -> nb src) ->
    copy_loop f m cs acc deps bs = Ok r -> forall k, ~ nb k -> d_get k (snd r) = d_get k bs.
  Proof.
    intros Hms IH. induction cs as [|[sh|p] cs IHc]; intros acc deps bs r Hk HN Hs; cbn [copy_loop].
    - intros E; injection E as <-. reflexivity.
    - apply IHc; auto. intros src (q & Q1 & Q2). apply Hs. exists q. split; [right; exact Q1|exact Q2].
    - destruct (transformed f m (pa_src p) bs) as [[b1 bs1]|] eqn:Et; [|discriminate]. cbn [bind]. intros E k Hk0.
      rewrite (IHc _ _ _ _ (keyed_transformed f m _ _ _ _ Hk Et)
        (transformed_N Ms nopct Ms_inj ADs AD_code m used codes Hms _ _ _ _ _ Hk HN Et)) with (2 := E); auto.
      + eapply IH; eauto. apply Hs. exists p. split; [left; reflexivity|reflexivity].
      + intros src (q & Q1 & Q2). apply Hs. exists q. split; [right; exact Q1|exact Q2].
  Qed.
  Lemma transformed_nb m used codes : Ms m -> forall f id bs b bs', keyed bs -> N bs used codes -> nb id ->
    transformed f m id bs = Ok (b, bs') -> forall k, ~ nb k -> d_get k bs' = d_get k bs.
  Proof.
    intros Hms. induction f as [|f IH]; intros id bs b bs' Hk HN Hid; rewrite transformed_eq;
      (destruct (d_get (layer_key id m) bs) as [b0|] eqn:Ek; [intros E; injection E as _ <-; reflexivity|]); [discriminate|].
    destruct (get_buffer id bs) as [base0|] eqn:Eb; [|discriminate]. cbn [bind]. apply get_buffer_ok in Eb.
    destruct (copy_loop f m (bf_cmds base0) [] [] bs) as [[[cmds deps] bs1]|] eqn:El; [|discriminate].
    cbn [bind]. intros E; injection E as _ <-. intros k Hk0. rewrite d_get_set. destruct (str_eqb k (layer_key id m)) eqn:E2.
    - apply str_eqb_eq in E2. subst k. exfalso. apply Hk0. apply nb_of_key. exact Hid.
    - apply (copy_loop_nb m used codes f Hms IH _ _ _ _ _ Hk HN) with (2 := El); [|exact Hk0].
      intros src Hs. eapply nb_pasted; [exact HN|exact Hid|eassumption|exact Hs].
  Qed.

  (** Copying drawings of blocks. *)
  Lemma copy_loop_rep f m used codes : Ms m -> forall cs acc deps bs l r, keyed bs -> N bs used codes ->
    Forall2 (srep bs) cs l -> copy_loop f m cs acc deps bs = Ok r ->
    N (snd r) used codes /\ keyed (snd r) /\ (forall k b, d_get k bs = Some b -> d_get k (snd r) = Some b) /\
    exists new l', fst (fst r) = acc ++ new /\ Forall2 (srep (snd r)) new l' /\ Forall2 (pic_image m) l l'.
  Proof.
    intros Hms. induction cs as [|[sh|p] cs IHc]; intros acc deps bs l r Hk HN Hl; inversion Hl as [|d0 p0 ds0 ps0 Hd Hr]; subst; cbn [copy_loop].
    - intros E; injection E as <-. cbn [fst snd]. repeat (split; [auto|]). exists [], []. rewrite app_nil_r. auto.
    - inversion Hd; subst. intros E. destruct (IHc _ _ _ _ _ Hk HN Hr E) as (A & B & C & new & l' & D1 & D2 & D3).
      repeat (split; [auto|]). exists (DShape (shape_transform m sh) :: new), (PShape (shape_transform m sh) :: l').
      rewrite D1, <- app_assoc. split; [reflexivity|]. split; constructor; auto; constructor. apply shape_image.
    - inversion Hd as [|q b g Q1 Q2 Q3]; subst.
      destruct (transformed f m (pa_src p) bs) as [[b1 bs1]|] eqn:Et; [|discriminate]. cbn [bind].
      pose proof (transformed_N Ms nopct Ms_inj ADs AD_code m used codes Hms _ _ _ _ _ Hk HN Et) as N1.
      pose proof (keyed_transformed f m _ _ _ _ Hk Et) as K1.
      destruct (transformed_key_stored m f _ _ _ _ Hk Et) as [S1 S2]. pose proof (transformed_old f m _ _ _ _ Et) as O1.
      assert (P1 : pres bs bs1) by (intros k b2 _ G; apply O1; exact G).
      intros E. destruct (IHc _ _ _ _ _ K1 N1 (sreps_pres _ _ _ _ P1 Hr) E) as (A & B & C & new & l' & D1 & D2 & D3).
      assert (P2 : pres bs (snd r)) by (intros k b2 _ G; apply C, O1; exact G).
      split; [exact A|]. split; [exact B|]. split; [intros k b2 G; apply C, O1; exact G|].
      pose proof Q1 as (b0 & ts & T1 & T2 & T3).
      assert (HC : copy_of (snd r) m (pa_src p) (layer_key (pa_src p) m)).
      { rewrite T3, layer_key_ext. eapply (N_copy _ _ _ _ _ A); eauto. exists b1. rewrite <- layer_key_ext, <- T3. apply C. exact S1. }
      destruct (copy_rep _ _ _ _ _ _ A HC Q1 (nb_of_key _ m Q1)) as (c1 & c2 & g1 & g2 & R1 & R2 & R3 & R4 & R5).
      rewrite (C _ _ (O1 _ _ Q2)) in R1. injection R1 as <-.
      assert (g1 = g) by (eapply sreps_fun; [exact R3|]; eapply sreps_pres; eauto). subst g1.
      exists (DPaste (MkPaste (bf_id b1) (v_transform m (pa_center p)) (pa_neg p) (pa_meta p)) :: new),
             (PGroup (pa_neg p) (v_transform m (pa_center p)) g2 :: l').
      rewrite D1, <- app_assoc. split; [reflexivity|]. rewrite S2. split; constructor; auto.
      + apply (sr_group _ (MkPaste (layer_key (pa_src p) m) (v_transform m (pa_center p)) (pa_neg p) (pa_meta p)) c2 g2); cbn [pa_src]; auto.
        apply nb_of_key; exact Q1.
      + constructor. exact R5.
  Qed.

  (** Steps that change the current layer and layers of apertures only. *)
  Definition touch (x x' : cstate K) : Prop := c_stack x' = c_stack x /\
    forall k, ~ nb k -> (forall st, c_stack x <> k :: st) -> d_get k (c_buffers x') = d_get k (c_buffers x).
  Lemma touch_refl x : touch x x.
  Proof. split; auto. Qed.
  Lemma touch_trans x y z : touch x y -> touch y z -> touch x z.
  Proof. intros [A1 A2] [B1 B2]. split; [congruence|]. intros k H1 H2. rewrite B2, A2; auto. rewrite A1. exact H2. Qed.
  Lemma touch_append d x x' : append_current d x = Ok x' -> touch x x'.
  Proof.
    intros E. apply append_current_inv in E as (id & st & b & E1 & E2 & ->). split; [reflexivity|]. intros k _ Hk.
    cbn [set_buffers c_buffers]. rewrite d_get_set. destruct (str_eqb k id) eqn:Ek; [|reflexivity].
    apply str_eqb_eq in Ek. subst k. exfalso. exact (Hk st E1).
  Qed.
  Lemma touch_append_all ds : forall x x', append_all ds x = Ok x' -> touch x x'.
  Proof.
    induction ds as [|d ds IH]; intros x x'; cbn [append_all].
    - intros E; injection E as <-. apply touch_refl.
    - destruct (append_current d x) as [x1|] eqn:E1; [|discriminate]. cbn [bind]. intros E.
      eapply touch_trans; [eapply touch_append; exact E1|apply IH; exact E].
  Qed.
  Definition ntouch (x x' : cstate K) : Prop := c_stack x' = c_stack x /\
    forall k, ~ nb k -> d_get k (c_buffers x') = d_get k (c_buffers x).
  Lemma ntouch_refl x : ntouch x x.
  Proof. split; auto. Qed.
  Lemma ntouch_trans x y z : ntouch x y -> ntouch y z -> ntouch x z.
  Proof. intros [A1 A2] [B1 B2]. split; [congruence|]. intros k H1. rewrite B2, A2; auto. Qed.
  Lemma ntouch_set b x : nb (bf_id b) -> ntouch x (set_buffer b x).
  Proof.
    intros Hb. split; [reflexivity|]. intros k Hk. cbn [set_buffer c_buffers]. rewrite d_get_set.
    destruct (str_eqb k (bf_id b)) eqn:Ek; [|reflexivity]. apply str_eqb_eq in Ek. subst k. contradiction.
  Qed.
  Lemma nb_base b0 : ADs b0 \/ thermal b0 -> nb b0.
  Proof. intros Hb. exists b0, []. split; [exact Hb|]. split; [constructor|reflexivity]. Qed.

  Lemma ntouch_prims m m' : prims_steps clock m m' -> nb (bf_id (ms_buf m)) ->
    ntouch (ms_c m) (ms_c m') /\ nb (bf_id (ms_buf m')).
  Proof.
    intros Hs Hb. induction Hs as [|m1 m2 _ IH Hst]; [split; [apply ntouch_refl|exact Hb]|].
    destruct IH as [T B]. destruct Hst as [ds E1 E2 _|uid ds c E1 E2 _].
    - rewrite E1, E2, append_draws_id. auto.
    - rewrite E1, E2. rewrite append_draw_id. split; [|exact B]. eapply ntouch_trans; [exact T|].
      unfold with_thermal. split; [reflexivity|]. intros k Hk. cbn [set_buffer c_buffers]. rewrite d_get_set.
      rewrite append_draws_id. cbn [empty_buffer bf_id].
      destruct (str_eqb k _) eqn:Ek; [|reflexivity]. apply str_eqb_eq in Ek. subst k. exfalso. apply Hk. apply nb_base. right.
      exists uid, (clock (length (c_stamps (ms_c m1)))). reflexivity.
  Qed.
  Lemma ntouch_aperture a s x x' : ADs (ad_id a) -> on_aperture md clock a s x = Ok x' -> ntouch x x'.
  Proof.
    intros Ha E. assert (Hb : nb (ad_id a)) by (apply nb_base; left; exact Ha).
    apply on_aperture_inv in E as [(ds & -> & _)|(sc & m & Hs & ->)].
    - apply ntouch_set. rewrite append_draws_id. exact Hb.
    - destruct (ntouch_prims _ _ Hs Hb) as [T B]. cbn [ms_c] in T. eapply ntouch_trans; [|apply ntouch_set; exact B].
      eapply ntouch_trans; [apply ntouch_set|exact T]. exact Hb.
  Qed.

  Lemma touch_aperture a s x x' : ADs (ad_id a) -> on_aperture md clock a s x = Ok x' -> touch x x'.
  Proof. intros Ha E. destruct (ntouch_aperture a s x x' Ha E) as [A B]. split; auto. Qed.

  Notation atp := (named_at md clock ABs).
  (** Facts about the walk so far. *)
  Definition good (pre : list (node K)) : Prop :=
    (forall a, In (NAD a) pre -> ADs (ad_id a)) /\ NoDup (ad_codes pre) /\ (forall p q, pre = p ++ q -> Ms (matrix_at p)).
  Lemma good_prefix a b : good (a ++ b) -> good a.
  Proof.
    intros (A & B & C). split; [intros x Hx; apply A, in_or_app; auto|]. split.
    - unfold ad_codes in *. rewrite flat_map_app in B. eapply NoDup_app_l; exact B.
    - intros p q ->. apply (C p (q ++ b)). rewrite app_assoc. reflexivity.
  Qed.
  Lemma inv pre v : point pre v -> good pre -> NoDup (c_stamps (v_ext v)) ->
    ok ABs (v_ext v) /\ N (bufs v) (c_stamps (v_ext v)) (ad_codes pre) /\ Defs md clock Ms ADs pre (bufs v).
  Proof.
    intros Hp (A & B & C) Hs.
    destruct (named_inv md clock Ms nopct Ms_inj ADs ABs AD_code AB_code AD_AB pre v Hp A B C) as [G1 G2].
    split; [exact G1|]. apply G2. exact Hs.
  Qed.

  Lemma read_matrix x y i j (s s1 : state K) : read_coords x y i j s = Ok s1 -> state_matrix s1 = state_matrix s.
  Proof. intros E. unfold state_matrix. rewrite (proj2 (proj2 (proj2 (read_neg _ _ _ _ _ _ E)))). reflexivity. Qed.

  Lemma leaf_touch pre v n v' : point pre v -> good (pre ++ [n]) -> NoDup (c_stamps (v_ext v)) ->
    visit_leaf H n v = Done v' \/ visit_leaf H n v = Stop v' ->
    touch (v_ext v) (v_ext v') \/
    exists x y s id, n = ND03 x y /\ read_coords x y None None (v_state v) = Ok s /\
      current_aperture s = Ok (ApAB id) /\ flash_block id s (v_ext v) = Ok (v_ext v').
  Proof.
    intros Hp Hg Hs E. destruct (inv pre v Hp (good_prefix _ _ Hg) Hs) as ((_ & Hk) & HN & _).
    assert (Tsh : forall sh x x', touch (v_ext v) x -> append_current (DShape sh) x = Ok x' -> touch (v_ext v) x')
      by (intros; eapply touch_trans; [eassumption|eapply touch_append; eassumption]).
    assert (Tc : forall c x, touch (v_ext v) x -> touch (v_ext v) (set_contour c x)) by (intros c x [A B]; split; auto).
    apply leaf_ext_spec in E. inversion E; subst;
      cbn [compiler_hooks hk_draw hk_flash hk_ad hk_flush_region hk_start_region hk_end_region] in *.
    - left. apply touch_refl.
    - left. eapply P_draw with (1 := Tsh) (2 := Tc); [apply touch_refl|eassumption].
    - match goal with X : on_flash _ _ _ _ _ = Ok _ |- _ => apply on_flash_cases in X as [(d & -> & Ef)|(id & -> & Ef)] end.
      + left. apply flash_aperture_inv in Ef as (b & x1 & Ea & Eb).
        eapply touch_trans; [|eapply touch_append; exact Eb]. apply aperture_buffer_inv in Ea as (bs' & Et & ->).
        split; [reflexivity|]. intros k Hk0 _. cbn [set_buffers c_buffers].
        eapply transformed_nb; [| exact Hk|exact HN| |exact Et|exact Hk0].
        * erewrite read_matrix by eassumption. rewrite (matrix_point md clock pre v (atp _ _ Hp)).
          destruct Hg as (_ & _ & HM). apply (HM pre [ND03 x y]). reflexivity.
        * destruct (selected_ad md clock pre v d s x y None None (atp _ _ Hp)) as (_ & p & q & -> & _); [assumption|assumption|].
          apply nb_base. left. apply (proj1 Hg). apply in_or_app. left. apply in_or_app. right. left. reflexivity.
      + right. eauto 10.
    - left. eapply P_flush with (1 := Tsh) (2 := Tc); [apply touch_refl|eassumption].
    - left. apply Tc. apply touch_refl.
    - left. apply Tc. eapply P_flush with (1 := Tsh) (2 := Tc); [apply touch_refl|eassumption].
    - left. eapply touch_aperture; [|eassumption]. apply (proj1 Hg). apply in_or_app. right. left. reflexivity.
  Qed.

  (** Stamps are only ever added. *)
  Lemma stamps_file ips ns v v' : on_file H ips ns v = Ok v' -> exists l, c_stamps (v_ext v') = l ++ c_stamps (v_ext v).
  Proof.
    intros E. set (S := c_stamps (v_ext v)). assert (Hv : exists l, c_stamps (v_ext v) = l ++ S) by (exists []; reflexivity).
    refine (proj1 (walk_file md clock (fun x => exists l, c_stamps x = l ++ S) (fun _ => True) (fun _ => True) (fun _ => True)
              _ _ _ _ _ _ _ _ _ _ _ ips ns _ v v' (conj Hv I) E)); auto.
    - intros sh x x' Hx E1. apply append_current_inv in E1 as (? & ? & ? & _ & _ & ->). exact Hx.
    - intros h a s x x' _ _ Hx Ef. apply on_flash_cases in Ef as [(ad & -> & Ef)|(id & -> & Ef)].
      + apply flash_aperture_inv in Ef as (b & x1 & Ea & Ef). apply append_current_inv in Ef as (? & ? & ? & _ & _ & ->).
        apply aperture_buffer_inv in Ea as (bs' & Et & ->). exact Hx.
      + apply flash_block_inv in Ef as (b & x1 & Ea & Ef). rewrite (append_all_stamps _ _ _ Ef).
        apply aperture_buffer_inv in Ea as (bs' & Et & ->). exact Hx.
    - intros a s x x' _ Hx Ea. apply on_aperture_inv in Ea as [(ds & -> & _)|(sc & m & Hm & ->)]; [exact Hx|].
      cbn [set_buffer c_stamps].
      remember (MkM sc (empty_buffer (ad_id a)) (set_buffer (empty_buffer (ad_id a)) x)) as m0 eqn:E0.
      induction Hm as [|m1 m2 _ IH [ds E1 _ _|uid ds c E1 _ _]]; [subst m0; exact Hx|rewrite E1; exact IH|].
      rewrite E1. cbn [with_thermal set_buffer c_stamps]. destruct IH as (l & ->). eexists (_ :: l). reflexivity.
    - intros uid s x (l & Hx). split; [|exact I]. cbn [sr_open snd c_stamps set_buffer]. rewrite Hx. eexists (_ :: l). reflexivity.
    - intros tmp h s x x' _ Hx Es. apply sr_close_inv in Es as (b & nx & ny & dx & dy & x1 & _ & _ & _ & _ & _ & Ea & ->).
      cbn [set_buffers c_stamps]. rewrite (append_all_stamps _ _ _ Ea). exact Hx.
  Qed.
  Lemma stamps_leaf n v v' : is_leaf n -> visit_leaf H n v = Done v' \/ visit_leaf H n v = Stop v' ->
    exists l, c_stamps (v_ext v') = l ++ c_stamps (v_ext v).
  Proof.
    intros Hl E. apply (stamps_file false [n]). cbn [on_file]. rewrite (visit_is_leaf H n v Hl). destruct E as [-> | ->]; reflexivity.
  Qed.
  Lemma visits_on_file ns : forall v v', visits H ns v = Done v' -> on_file H false ns v = Ok v'.
  Proof.
    induction ns as [|n r IH]; intros v v'; cbn [visits on_file]; [congruence|].
    destruct (visit H n v) as [v1|v1|]; cbn [obind]; [apply IH|discriminate|discriminate].
  Qed.

  Lemma ad_or_not (n : node K) : (exists a, n = NAD a) \/ forall a, n <> NAD a.
  Proof. destruct n; (left; eexists; reflexivity) || (right; discriminate). Qed.
  Lemma leaf_pres pre v n v' : point pre v -> is_leaf n -> good (pre ++ [n]) ->
    visit_leaf H n v = Done v' \/ visit_leaf H n v = Stop v' -> NoDup (c_stamps (v_ext v')) ->
    NoDup (c_stamps (v_ext v)) /\ pres (bufs v) (bufs v').
  Proof.
    intros Hp Hl Hg E Hs. assert (Hs0 : NoDup (c_stamps (v_ext v))).
    { destruct (stamps_leaf n v v' Hl E) as (l & El). rewrite El in Hs. eapply NoDup_app_r; exact Hs. }
    split; [exact Hs0|]. destruct (inv pre v Hp (good_prefix _ _ Hg) Hs0) as (Hok & HN & _).
    destruct (ad_or_not n) as [(a & ->)|Hn].
    - destruct E as [E|E]; [|discriminate (proj1 (leaf_stop H _ _ _ E)) || (destruct (leaf_stop H _ _ _ E) as [[Q|Q] _]; discriminate Q)].
      apply leaf_adef in E as (s & E & _). cbn [compiler_hooks hk_ad] in E.
      destruct Hg as (HA & HD & _).
      assert (Ha0 : ADs (ad_id a)) by (apply HA; apply in_or_app; right; left; reflexivity).
      destruct (ad_step md clock Ms nopct ADs ABs AD_code (ad_codes pre) a s _ _ Ha0 E Hok) as [_ Ha].
      apply Ha; auto. unfold ad_codes in HD. rewrite flat_map_app in HD. cbn [flat_map ad_code app] in HD.
      intros Hi. apply NoDup_remove_2 in HD. apply HD. rewrite app_nil_r. exact Hi.
    - refine (proj2 (proj2 (proj2 (leaf_evolves md clock Ms nopct Ms_inj ADs ABs AD_code AB_code AD_AB (ad_codes pre) _ v v' Hn _ E Hok) Hs) HN)).
      rewrite (matrix_point md clock pre v (atp _ _ Hp)). destruct Hg as (_ & _ & HM). eapply HM; reflexivity.
  Qed.

  (** The walk inside of blocks: [B] are the pictures of the block apertures defined so far. *)
  Record I (pre : list (node K)) (B : dict (list (pic K))) (v : visitor K (cstate K)) : Prop := {
    I_point : point pre v;
    I_stack : forall i, In i (c_stack (v_ext v)) -> i = main_id \/ ABs i \/ (sr_tmp i /\ In i (c_stamps (v_ext v)));
    I_nodup : NoDup (c_stack (v_ext v));
    I_blocks : forall id, match d_get id (s_blocks (v_state v)) with
                          | Some i => i = id /\ d_get id B <> None
                          | None => d_get id B = None
                          end;
    I_defs : forall id l, d_get id B = Some l -> ABs id /\ ~ In id (c_stack (v_ext v)) /\
      exists b, d_get id (bufs v) = Some b /\ Forall2 (srep (bufs v)) (bf_cmds b) l;
    I_copies : forall id M b, ABs id -> Ms M -> d_get (layer_key id M) (bufs v) = Some b ->
      exists l l', d_get id B = Some l /\ Forall2 (srep (bufs v)) (bf_cmds b) l' /\ Forall2 (pic_image M) l l' }.

  Lemma stack_blocky pre B v i : I pre B v -> In i (c_stack (v_ext v)) -> blocky ABs i.
  Proof. intros HI Hi. destruct (I_stack _ _ _ HI i Hi) as [X|[X|[X _]]]; unfold blocky; auto. Qed.
  Lemma nb_blocky k : nb k -> blocky ABs k -> False.
  Proof. intros A B. exact (nb_not_blocky nopct ADs ABs AD_code AB_code AD_AB k k A B eq_refl). Qed.
  Lemma key_plain id M : plain (K := K) (layer_key id M) -> False.
  Proof. intros Hp. apply (Hp id (mtag M)); [exists M; reflexivity|reflexivity]. Qed.
  Lemma key_not_blocky id (M : mat K) : blocky ABs (layer_key id M) -> False.
  Proof. intros Hb. apply (key_plain id M). eapply plain_blocky; eassumption. Qed.
  Lemma key_not_nb id (M : mat K) : ABs id -> nb (layer_key id M) -> False.
  Proof. intros Ha Hn. apply (nb_blocky id); [eapply nb_key; eauto|right; left; exact Ha]. Qed.
  Lemma key_inj id id' (M M' : mat K) : Ms M -> Ms M' -> layer_key id M = layer_key id' M' -> id = id' /\ M = M'.
  Proof.
    intros A B E. apply last_pct_inj in E as [E1 E2]; [auto| |]; apply mtag_no_pct; exact nopct.
  Qed.

  (** Steps that leave block apertures and their copies alone. *)
  Lemma I_move pre B v pre' v' : I pre B v -> point pre' v' ->
    (forall i, In i (c_stack (v_ext v')) -> i = main_id \/ ABs i \/ (sr_tmp i /\ In i (c_stamps (v_ext v')))) ->
    NoDup (c_stack (v_ext v')) -> s_blocks (v_state v') = s_blocks (v_state v) ->
    (forall id l, d_get id B = Some l -> ~ In id (c_stack (v_ext v')) /\ d_get id (bufs v') = d_get id (bufs v)) ->
    (forall id M, ABs id -> d_get (layer_key id M) (bufs v') = d_get (layer_key id M) (bufs v)) ->
    pres (bufs v) (bufs v') -> I pre' B v'.
  Proof.
    intros HI Hp H1 H2 H3 H4 H5 H6. constructor; auto.
    - rewrite H3. apply (I_blocks _ _ _ HI).
    - intros id l E. destruct (I_defs _ _ _ HI id l E) as (A & _ & b & C1 & C2). destruct (H4 id l E) as [D1 D2].
      split; [exact A|]. split; [exact D1|]. exists b. split; [congruence|]. eapply sreps_pres; eauto.
    - intros id M b Ha HM. rewrite H5 by exact Ha. intros Eb. destruct (I_copies _ _ _ HI id M b Ha HM Eb) as (l & l' & A1 & A2 & A3).
      exists l, l'. repeat (split; auto). eapply sreps_pres; eauto.
  Qed.
  Lemma I_touch pre B v pre' v' l0 : I pre B v -> point pre' v' -> touch (v_ext v) (v_ext v') ->
    c_stamps (v_ext v') = l0 ++ c_stamps (v_ext v) -> s_blocks (v_state v') = s_blocks (v_state v) ->
    pres (bufs v) (bufs v') -> I pre' B v'.
  Proof.
    intros HI Hp [T1 T2] Hs Hb Hpr. eapply I_move; [exact HI|exact Hp| | |exact Hb| | |exact Hpr].
    - rewrite T1. intros i Hi. destruct (I_stack _ _ _ HI i Hi) as [X|[X|[X Y]]]; auto. right. right. split; auto.
      rewrite Hs. apply in_or_app. auto.
    - rewrite T1. apply (I_nodup _ _ _ HI).
    - intros id l E. destruct (I_defs _ _ _ HI id l E) as (A & A2 & _). rewrite T1. split; [exact A2|]. apply T2.
      + intros Hn. apply (nb_blocky id Hn). right. left. exact A.
      + intros st Es. apply A2. rewrite Es. left. reflexivity.
    - intros id M Ha. apply T2; [exact (key_not_nb id M Ha)|]. intros st Es. apply (key_not_blocky id M).
      eapply stack_blocky; [exact HI|]. rewrite Es. left. reflexivity.
  Qed.
  Lemma touch_below pre B v x' : I pre B v -> touch (v_ext v) x' ->
    forall k, In k (tl (c_stack (v_ext v))) -> d_get k (c_buffers x') = d_get k (bufs v).
  Proof.
    intros HI [_ T] k Hk. apply T.
    - intros Hn. apply (nb_blocky k Hn). eapply stack_blocky; [exact HI|]. destruct (c_stack (v_ext v)); [destruct Hk|right; exact Hk].
    - intros st Es. pose proof (I_nodup _ _ _ HI) as Hd. rewrite Es in *. cbn [tl] in Hk. inversion Hd; subst. contradiction.
  Qed.

  Lemma append_all_frame ds : forall x x' : cstate K, append_all ds x = Ok x' ->
    forall k, (forall st, c_stack x <> k :: st) -> d_get k (c_buffers x') = d_get k (c_buffers x).
  Proof.
    induction ds as [|d ds IH]; intros x x'; cbn [append_all].
    - intros E; injection E as <-. reflexivity.
    - destruct (append_current d x) as [x1|] eqn:E1; [|discriminate]. cbn [bind]. intros E k Hk.
      apply append_current_inv in E1 as (id & st & b & A1 & A2 & ->). rewrite (IH _ _ E k Hk). cbn [set_buffers c_buffers].
      rewrite d_get_set. destruct (str_eqb k id) eqn:Ek; [|reflexivity]. apply str_eqb_eq in Ek. subst k. exfalso. exact (Hk st A1).
  Qed.

  (** Copies of block apertures show transformed pictures. *)
  Lemma block_copy pre B v id l m f u c b bs' : I pre B v -> keyed (bufs v) -> N (bufs v) u c -> Ms m ->
    d_get id B = Some l -> transformed f m id (bufs v) = Ok (b, bs') ->
    exists l', Forall2 (srep bs') (bf_cmds b) l' /\ Forall2 (pic_image m) l l' /\ d_get (layer_key id m) bs' = Some b /\
      forall k, ~ nb k -> k <> layer_key id m -> d_get k bs' = d_get k (bufs v).
  Proof.
    intros HI Hk HN HM Hl Et. destruct (I_defs _ _ _ HI id l Hl) as (Ha & _ & b0 & Hb0 & Hr0).
    pose proof (proj1 (transformed_key_stored m f _ _ _ _ Hk Et)) as Hst. rewrite transformed_eq in Et.
    destruct (d_get (layer_key id m) (bufs v)) as [b1|] eqn:Ek.
    - injection Et as <- <-. destruct (I_copies _ _ _ HI id m b1 Ha HM Ek) as (l1 & l' & A1 & A2 & A3).
      assert (l1 = l) by congruence. subst l1. exists l'. auto.
    - destruct f as [|f]; [discriminate|]. destruct (get_buffer id (bufs v)) as [base0|] eqn:Eb; [|discriminate].
      cbn [bind] in Et. apply get_buffer_ok in Eb. assert (base0 = b0) by congruence. subst base0.
      destruct (copy_loop f m (bf_cmds b0) [] [] (bufs v)) as [[[cmds deps] bs1]|] eqn:El; [|discriminate].
      cbn [bind] in Et. injection Et as <- <-.
      destruct (copy_loop_rep f m u c HM _ _ _ _ _ _ Hk HN Hr0 El) as (_ & _ & _ & new & l' & D1 & D2 & D3).
      cbn [fst snd app] in *. subst new. exists l'. cbn [bf_cmds]. repeat split; auto.
      + eapply sreps_pres; [|exact D2]. intros k b Hn Hg. rewrite d_get_set. destruct (str_eqb k (layer_key id m)) eqn:E; [|exact Hg].
        apply str_eqb_eq in E. subst k. destruct (key_not_nb id m Ha Hn).
      + intros k Hn Hne. rewrite d_get_set. apply str_eqb_neq in Hne. rewrite Hne.
        refine (copy_loop_nb m u c f HM _ _ _ _ _ _ Hk HN _ El k Hn).
        * intros id1 bs1' b1 bs1'' K1 N1 Hn1 E1. exact (transformed_nb m u c HM f id1 bs1' b1 bs1'' K1 N1 Hn1 E1).
        * intros src Hs. exact (srep_pastes _ _ _ _ Hr0 Hs).
  Qed.

  Lemma no_ad_code pre id : fold_left (fun (o : option (ad K)) n => match n with
      | NAD a => if str_eqb id (ad_id a) then Some a else o | _ => o end) pre None = None -> ~ In id (ad_codes pre).
  Proof.
    assert (HF : forall o, fold_left (fun (o : option (ad K)) n => match n with
      | NAD a => if str_eqb id (ad_id a) then Some a else o | _ => o end) pre o = None -> o = None /\ ~ In id (ad_codes pre)).
    { induction pre as [|n r IH]; intros o E; cbn [fold_left] in E; [auto|]. apply IH in E as [E1 E2].
      unfold ad_codes. cbn [flat_map]. destruct n; cbn [ad_code app]; auto.
      destruct (str_eqb id (ad_id a)) eqn:Eq; [discriminate|]. split; [exact E1|]. intros [Hi|Hi]; [|exact (E2 Hi)].
      subst id. rewrite str_eqb_refl in Eq. discriminate. }
    intros E. exact (proj2 (HF None E)).
  Qed.

  Definition steps (R : dict (list (pic K)) -> list (pic K) -> Prop) pre' codes B (v : visitor K (cstate K)) out v' : Prop :=
    exists B' ps new, R B' ps /\ I pre' B' v' /\ c_stack (v_ext v') = c_stack (v_ext v) /\ drawn v' = Some (out ++ new) /\
      Forall2 (srep (bufs v')) new ps /\
      (forall k, In k (tl (c_stack (v_ext v))) -> d_get k (bufs v') = d_get k (bufs v)) /\
      pres (bufs v) (bufs v') /\ (forall id l, d_get id B' = Some l -> d_get id B = Some l \/ In id codes).

  Lemma adds_drawn (v v' : visitor K (cstate K)) out new : drawn v = Some out -> adds v v' new -> drawn v' = Some (out ++ new).
  Proof. intros E (o & A & B). congruence. Qed.

  Lemma shapes_pics neg (ds : list (draw K)) : all_shapes neg ds -> exists ps, Forall2 (shape_pic (K := K)) ds ps /\ forall bs, Forall2 (srep bs) ds ps.
  Proof.
    induction 1 as [|d ds Hd _ (ps & A & B)]; [exists []; split; constructor|].
    destruct Hd as (sh & -> & _). exists (PShape sh :: ps). split; [constructor; auto; exists sh; auto|].
    intros bs. constructor; auto. constructor.
  Qed.

  Lemma flash_block_step pre B v out x y s id v' : I pre B v -> drawn v = Some out -> good (pre ++ [ND03 x y]) ->
    NoDup (c_stamps (v_ext v')) -> visit_leaf H (ND03 x y) v = Done v' ->
    read_coords x y None None (v_state v) = Ok s -> current_aperture s = Ok (ApAB id) -> flash_block id s (v_ext v) = Ok (v_ext v') ->
    steps (fun B' ps => B' = B /\ leaf_pics width md clock pre B (ND03 x y) ps) (pre ++ [ND03 x y]) [] B v out v'.
  Proof.
    intros HI Hd Hg Hs E Hr Hc Ef. pose proof (I_point _ _ _ HI) as Hp.
    destruct (leaf_pres pre v (ND03 x y) v' Hp Logic.I Hg (or_introl E) Hs) as [Hs0 Hpr].
    destruct (inv pre v Hp (good_prefix _ _ Hg) Hs0) as ((_ & Hk) & HN & _).
    assert (Hsel : latest_selection pre = Some id /\ ~ In id (ad_codes pre) /\ exists l, d_get id B = Some l).
    { pose proof Hr as Hr'. apply read_coords_inv in Hr' as (x2 & y2 & i2 & j2 & _ & _ & _ & _ & ->). unfold current_aperture in Hc.
      cbn [set_xyij s_apid s_apertures s_blocks] in Hc. rewrite (pl_apid md clock _ _ (atp _ _ Hp)) in Hc.
      destruct (latest_selection pre) as [i|]; [|discriminate]. rewrite (apertures_point md clock _ _ (atp _ _ Hp)) in Hc.
      destruct (fold_left _ pre None) as [d'|] eqn:Efo; [discriminate|]. apply no_ad_code in Efo.
      pose proof (I_blocks _ _ _ HI i) as Hb. destruct (d_get i (s_blocks (v_state v))) as [i'|]; [|discriminate].
      injection Hc as ->. destruct Hb as [-> Hb]. repeat split; auto. destruct (d_get i B) as [l|]; [eauto|congruence]. }
    destruct Hsel as (Hsel & Hna & l & Hl). destruct (I_defs _ _ _ HI id l Hl) as (Ha & Hnot & _).
    apply flash_block_inv in Ef as (b & x1 & Ea & Ef). pose proof (aperture_buffer_grows _ _ _ _ _ Ea) as G1.
    pose proof (append_all_grows _ _ _ Ef) as G2. pose proof (grows_adds v v' _ (grows_trans _ _ _ _ _ G1 G2)) as Hadds.
    apply aperture_buffer_inv in Ea as (bs' & Et & ->).
    rewrite (read_matrix _ _ _ _ _ _ Hr), (matrix_point md clock pre v (atp _ _ Hp)) in Et.
    assert (HM : Ms (matrix_at pre)) by (destruct Hg as (_ & _ & HM); apply (HM pre [ND03 x y]); reflexivity).
    destruct (block_copy pre B v id l _ _ _ _ b bs' HI Hk HN HM Hl Et) as (l' & R1 & R2 & R3 & R4).
    pose proof (append_all_frame _ _ _ Ef) as Hfr. cbn [set_buffers c_buffers c_stack] in Hfr.
    assert (P2 : pres bs' (bufs v')).
    { intros k b1 Hn Hg1. rewrite Hfr; [exact Hg1|]. intros st Es. apply (nb_blocky k Hn). eapply stack_blocky; [exact HI|].
      rewrite Es. left. reflexivity. }
    assert (Hstk : c_stack (v_ext v') = c_stack (v_ext v)) by (destruct G2 as [G2 _]; rewrite G2; reflexivity).
    assert (Hp' : point (pre ++ [ND03 x y]) v') by (eapply np_leaf; [exact Hp|exact Logic.I|left; exact E]).
    assert (Hpen : MkVec (coordinate_x s) (coordinate_y s) = pen_vec (pre ++ [ND03 x y])).
    { rewrite pen_vec_of, pen_of_snoc. exact (end_vec _ _ _ _ _ _ _ (settled_point H _ _ _ (atp _ _ Hp)) Hr). }
    set (t := pen_vec (pre ++ [ND03 x y])) in *.
    assert (Hmap : map (shift_draw (mtranslate (coordinate_x s) (coordinate_y s))) (bf_cmds b) = map (move t) (bf_cmds b)).
    { apply map_ext. intros d. rewrite Hshift. rewrite Hpen. reflexivity. }
    rewrite Hmap in Hadds.
    exists B, (map (displace t) l'), (map (move t) (bf_cmds b)).
    split; [split; [reflexivity|right; exists id, l, l'; auto]|]. split; [|split; [exact Hstk|split; [|split; [|split; [|split; [exact Hpr|auto]]]]]].
    - destruct (stamps_leaf (ND03 x y) v v' Logic.I (or_introl E)) as (ls & Els).
      constructor; [exact Hp'| | | | |].
      + rewrite Hstk. intros i Hi. destruct (I_stack _ _ _ HI i Hi) as [X|[X|[X Y]]]; auto. right. right. split; auto.
        rewrite Els. apply in_or_app. auto.
      + rewrite Hstk. apply (I_nodup _ _ _ HI).
      + destruct (frame_leaf H _ v v' (or_introl E)) as (_ & Hb & _). rewrite Hb. apply (I_blocks _ _ _ HI).
      + intros id1 l1 Hl1. destruct (I_defs _ _ _ HI id1 l1 Hl1) as (A1 & A2 & b1 & A3 & A4). rewrite Hstk.
        split; [exact A1|]. split; [exact A2|]. exists b1. split; [|exact (sreps_pres _ _ _ _ Hpr A4)].
        rewrite Hfr by (intros st Es; apply A2; rewrite Es; left; reflexivity). rewrite R4; [exact A3| |].
        * intros Hn. apply (nb_blocky id1 Hn). right. left. exact A1.
        * intros ->. eapply (key_not_blocky id (matrix_at pre)). right. left. exact A1.
      + intros id1 M1 b1 A1 HM1. rewrite Hfr by (intros st Es; apply (key_not_blocky id1 M1); eapply stack_blocky; [exact HI|]; rewrite Es; left; reflexivity).
        destruct (str_eqb (layer_key id1 M1) (layer_key id (matrix_at pre))) eqn:Eq.
        * apply str_eqb_eq in Eq. apply key_inj in Eq as [-> ->]; auto. rewrite R3. intros Eb; injection Eb as <-.
          exists l, l'. repeat split; auto. exact (sreps_pres _ _ _ _ P2 R1).
        * apply str_eqb_neq in Eq. rewrite R4; [|exact (key_not_nb id1 M1 A1)|exact Eq]. intros Eb.
          destruct (I_copies _ _ _ HI id1 M1 b1 A1 HM1 Eb) as (l1 & l1' & B1 & B2 & B3). exists l1, l1'. repeat split; auto.
          exact (sreps_pres _ _ _ _ Hpr B2).
    - apply (adds_drawn v v'); [exact Hd|]. apply Hadds. congruence.
    - eapply sreps_pres; [exact P2|]. apply sreps_move. exact R1.
    - intros k Hkk. assert (Hin : In k (c_stack (v_ext v))) by (destruct (c_stack (v_ext v)); [destruct Hkk|right; exact Hkk]).
      pose proof (stack_blocky _ _ _ k HI Hin) as Hb. rewrite Hfr, R4; auto.
      + intros Hn. exact (nb_blocky k Hn Hb).
      + intros ->. exact (key_not_blocky _ _ Hb).
      + intros st Es. pose proof (I_nodup _ _ _ HI) as Hnd. rewrite Es in *. cbn [tl] in Hkk. inversion Hnd; subst. contradiction.
  Qed.

  Lemma sreps_flat bs bs' ds l : (forall src, ~ pastes ds src) -> Forall2 (srep bs) ds l -> Forall2 (depicts bs') ds l.
  Proof.
    intros Hn HF. induction HF as [|d p ds ps Hd _ IH]; constructor.
    - inversion Hd; subst; [constructor|]. destruct (Hn (pa_src q)). exists q. split; [left; reflexivity|reflexivity].
    - apply IH. intros src (q & Q1 & Q2). apply (Hn src). exists q. split; [right; exact Q1|exact Q2].
  Qed.
  Lemma defined_pics pre a bs u c b l : N bs u c -> nb (ad_id a) -> defined_as md clock pre a bs ->
    d_get (ad_id a) bs = Some b -> Forall2 (srep bs) (bf_cmds b) l -> aperture_pics md clock pre a l.
  Proof.
    intros HN Hn (p & q & s & x0 & x1 & b' & D1 & D2 & D3 & D4 & D5 & D6) Hb Hl. assert (b' = b) by congruence. subst b'.
    exists p, q, s, x0, x1, b. repeat (split; [assumption|]).
    assert (HP : forall src, pastes (bf_cmds b) src -> tnb src /\ exists b1, d_get src (c_buffers x1) = Some b1 /\ d_get src bs = Some b1).
    { intros src Hs. split; [exact (proj1 (N_pastes _ _ _ _ _ HN _ _ _ Hn Hb Hs))|exact (D6 src Hs)]. }
    clear Hb D4 D5 D6. revert HP. induction Hl as [|d p0 ds ps Hd _ IH]; intros HP; constructor.
    - inversion Hd as [|q0 b1 g Q1 Q2 Q3]; subst; [constructor|].
      destruct (HP (pa_src q0)) as (T & b2 & E1 & E2); [exists q0; split; [left; reflexivity|reflexivity]|].
      assert (b2 = b1) by congruence. subst b2. econstructor; [exact E1|]. eapply sreps_flat; [|exact Q3].
      intros src. exact (N_leaf _ _ _ _ _ HN _ _ _ T Q2).
    - apply IH. intros src (r & R1 & R2). apply HP. exists r. split; [right; exact R1|exact R2].
  Qed.

  Lemma shapes_of pre n (new : list (draw K)) : match n with ND03 _ _ => False | _ => True end ->
    draws pre n new -> exists neg, all_shapes neg new.
  Proof.
    intros Hn [He _]. exists (clear_at pre). destruct n; cbn [emitted] in He; try contradiction; try (subst new; constructor).
    - apply He.
    - apply He.
    - destruct g; try (subst new; constructor). apply He.
  Qed.

  Lemma leaf_step pre B v out n v' : I pre B v -> drawn v = Some out -> is_leaf n -> good (pre ++ [n]) ->
    NoDup (c_stamps (v_ext v')) -> visit_leaf H n v = Done v' \/ visit_leaf H n v = Stop v' ->
    steps (fun B' ps => B' = B /\ leaf_pics width md clock pre B n ps) (pre ++ [n]) [] B v out v'.
  Proof.
    intros HI Hd Hleaf Hg Hs E. pose proof (I_point _ _ _ HI) as Hp. pose proof (atp _ _ Hp) as Hat.
    destruct (leaf_pres pre v n v' Hp Hleaf Hg E Hs) as [Hs0 Hpr].
    destruct (stamps_leaf n v v' Hleaf E) as (ls & Els).
    assert (Hp' : point (pre ++ [n]) v') by (eapply np_leaf; [exact Hp|exact Hleaf|exact E]).
    assert (Hb : s_blocks (v_state v') = s_blocks (v_state v)) by (apply (frame_leaf H _ v v' E)).
    assert (Hdn : drawn v <> None) by congruence.
    assert (Hfin : forall ps new, touch (v_ext v) (v_ext v') -> leaf_pics width md clock pre B n ps -> adds v v' new ->
      Forall2 (srep (bufs v')) new ps -> steps (fun B' ps => B' = B /\ leaf_pics width md clock pre B n ps) (pre ++ [n]) [] B v out v').
    { intros ps new T L A R. exists B, ps, new. split; [auto|]. split; [eapply I_touch; eauto|]. split; [apply T|].
      split; [eapply adds_drawn; eauto|]. split; [exact R|]. split; [eapply touch_below; eauto|]. split; [exact Hpr|auto]. }
    destruct (leaf_touch pre v n v' Hp Hg Hs0 E) as [HT|(x & y & s & id & -> & Hr & Hc & Ef)].
    2:{ destruct E as [E|E]; [|destruct (leaf_stop H _ _ _ E) as [[Q|Q] _]; discriminate Q]. eapply flash_block_step; eauto. }
    assert (Hcase : (exists x y, n = ND03 x y) \/ match n with ND03 _ _ => False | _ => True end)
      by (destruct n; auto; left; eauto).
    destruct Hcase as [(x & y & ->)|Hn3].
    - destruct E as [E|E]; [|destruct (leaf_stop H _ _ _ E) as [[Q|Q] _]; discriminate Q].
      destruct (leaf_d03 H x y v v' E) as (s & a & h & Hr & Hc & _ & Ef & _). cbn [compiler_hooks hk_flash] in Ef.
      apply on_flash_cases in Ef as [(d & -> & Ef)|(id & -> & Ef)].
      2:{ eapply flash_block_step; eauto. }
      pose proof (selected_ad md clock pre v d s x y None None Hat Hr Hc) as Hsel.
      destruct (good_prefix _ _ Hg) as (HA & HD & HM). pose proof Hsel as (Hls & p0 & q0 & Epq & _).
      assert (Hin : In (NAD d) pre) by (rewrite Epq; apply in_or_app; right; left; reflexivity).
      destruct (flash_copy md clock Ms nopct Ms_inj ADs ABs AD_code AB_code AD_AB pre v d x y v' Hp HA HD HM Hs0 Hdn Hin Hls E)
        as (me & F1 & F2 & F3).
      destruct (inv _ v' Hp' Hg Hs) as (_ & HN & _).
      assert (Hnb : nb (ad_id d)) by (apply nb_base; left; apply HA; exact Hin).
      destruct (copy_rep _ _ _ _ _ _ HN F2 Hnb (nb_of_key _ _ Hnb)) as (b & b' & l & l' & C1 & C2 & C3 & C4 & C5).
      eapply Hfin; [exact HT| |exact F1|].
      + left. exists d, l, l'. split; [exact Hsel|]. split; [exact (defined_pics pre d _ _ _ b l HN Hnb F3 C1 C3)|]. split; [exact C5|reflexivity].
      + constructor; [|constructor]. econstructor; [apply nb_of_key; exact Hnb|exact C2|exact C4].
    - destruct (ad_or_not n) as [(a & ->)|Hna].
      + eapply Hfin with (ps := []) (new := []); [exact HT| | |constructor].
        * exists []. split; [constructor|]. split; [|split; [split; [congruence|intros []]|exact Logic.I]]. repeat split. intros Hcl; discriminate Hcl.
        * exists out. rewrite app_nil_r. split; [exact Hd|]. destruct E as [E|E]; [|destruct (leaf_stop H _ _ _ E) as [[Q|Q] _]; discriminate Q].
          apply leaf_adef in E as (s & E & _). cbn [compiler_hooks hk_ad] in E. apply ntouch_aperture in E as [T1 T2];
            [|apply (proj1 Hg); apply in_or_app; right; left; reflexivity].
          rewrite <- Hd. unfold drawn, current. rewrite T1. destruct (c_stack (v_ext v)) as [|k st] eqn:Est; [reflexivity|].
          rewrite T2; [reflexivity|]. intros Hn. apply (nb_blocky k Hn). eapply stack_blocky; [exact HI|]. rewrite Est. left. reflexivity.
      + destruct (point_draws md clock pre v n v' Hat Hdn Hleaf Hna) as (new & A & D); [|exact E|].
        { intros x y ->. destruct Hn3. }
        destruct (shapes_of pre n new Hn3 D) as (neg & Hsh). destruct (shapes_pics neg new Hsh) as (ps & S1 & S2).
        pose proof (marks_leaf md clock pre v n v' new Hat Hdn E A D) as HM.
        eapply Hfin; [exact HT| |exact A|apply S2].
        destruct n; try contradiction; (exists new; split; [exact S1|]; split; [exact D|]; split; [exact HM|]; try exact Logic.I).
        intros Hreg Hmode. destruct E as [E|E]; [|destruct (leaf_stop H _ _ _ E) as [[Q|Q] _]; discriminate Q].
        destruct (d01_exact md clock pre v _ _ _ _ v' Hat Hdn Hreg Hmode E) as (a & th & m & D1 & D2 & D3).
        exists a, th, m. split; [exact D1|]. split; [apply Hwidth; exact D2|]. eapply adds_fun; eauto.
  Qed.

  Definition fresh (codes : list str) (B : dict (list (pic K))) (v : visitor K (cstate K)) : Prop :=
    NoDup codes /\ forall id, In id codes -> ~ In id (c_stack (v_ext v)) /\ d_get id B = None.
  Definition node_steps (n : node K) : Prop := block_codes ABs n -> forall pre B v out v',
    I pre B v -> drawn v = Some out -> visit H n v = Done v' -> good (pre ++ fst (executed n)) ->
    fresh (ab_codes (fst (executed n))) B v -> NoDup (c_stamps (v_ext v')) ->
    steps (fun B' ps => node_pics width md clock pre B n (pre ++ fst (executed n)) B' ps) (pre ++ fst (executed n))
          (ab_codes (fst (executed n))) B v out v'.

  Lemma not_stopped n pre v v' : block_codes ABs n -> point pre v -> visit H n v = Done v' -> snd (executed n) = false.
  Proof.
    intros HC Hp E. destruct (named_visit md clock ABs n HC pre v v' Hp (or_introl E)) as [_ Hs].
    destruct (snd (executed n)); [|reflexivity]. destruct Hs as [Hs _]. specialize (Hs eq_refl). congruence.
  Qed.
  Lemma not_stopped_list body pre v v' : (forall n, In n body -> block_codes ABs n) -> point pre v ->
    visits H body v = Done v' -> snd (exec_list executed body) = false.
  Proof.
    intros HC Hp E.
    destruct (named_visits md clock ABs body) with (pre := pre) (v := v) (v' := v') as [_ Hs]; auto.
    { apply Forall_forall. intros n _. apply named_visit. }
    destruct (snd (exec_list executed body)); [|reflexivity]. destruct Hs as [Hs _]. specialize (Hs eq_refl). congruence.
  Qed.

  Lemma ab_codes_app (a b : list (node K)) : ab_codes (a ++ b) = ab_codes a ++ ab_codes b.
  Proof. apply flat_map_app. Qed.

  Lemma list_step body : Forall node_steps body -> (forall n, In n body -> block_codes ABs n) -> forall pre B v out v',
    I pre B v -> drawn v = Some out -> visits H body v = Done v' -> good (pre ++ fst (exec_list executed body)) ->
    fresh (ab_codes (fst (exec_list executed body))) B v -> NoDup (c_stamps (v_ext v')) ->
    steps (fun B' ps => list_pics width md clock pre B body (pre ++ fst (exec_list executed body)) B' ps)
          (pre ++ fst (exec_list executed body)) (ab_codes (fst (exec_list executed body))) B v out v'.
  Proof.
    induction body as [|n r IH]; intros HF HC pre B v out v' HI Hd E Hg Hf Hs.
    - cbn [visits] in E. injection E as <-. cbn [exec_list fst] in *. rewrite app_nil_r in *.
      exists B, [], []. rewrite app_nil_r. split; [constructor|]. split; [exact HI|]. split; [reflexivity|]. split; [exact Hd|].
      split; [constructor|]. split; [reflexivity|]. split; [intros k b _ X; exact X|auto].
    - cbn [visits] in E. destruct (visit H n v) as [v1|v1|] eqn:E1; cbn [obind] in E; try discriminate.
      inversion HF as [|? ? Hn HFr]; subst.
      pose proof (not_stopped n pre v v1 (HC n (or_introl eq_refl)) (I_point _ _ _ HI) E1) as Hst.
      cbn [exec_list] in *. destruct (executed n) as [a st] eqn:Ea. cbn [snd] in Hst. subst st.
      change ((fix go (ns : list (node K)) : list (node K) * bool := _) r) with (exec_list executed r) in *.
      destruct (exec_list executed r) as [b st] eqn:Eb. cbn [fst] in *. rewrite app_assoc in *. rewrite ab_codes_app in *.
      destruct (stamps_file _ _ _ _ (visits_on_file r v1 v' E)) as (ls & Els).
      assert (Hs1 : NoDup (c_stamps (v_ext v1))) by (rewrite Els in Hs; eapply NoDup_app_r; exact Hs).
      destruct Hf as [Hf1 Hf2].
      unfold node_steps in Hn. rewrite Ea in Hn. cbn [fst] in Hn.
      destruct (Hn (HC n (or_introl eq_refl)) pre B v out v1 HI Hd E1 (good_prefix _ _ Hg)) as
        (B1 & ps1 & new1 & A1 & A2 & A3 & A4 & A5 & A6 & A7 & A8); [|exact Hs1|].
      { split; [eapply NoDup_app_l; exact Hf1|]. intros id Hi. apply Hf2. apply in_or_app. auto. }
      destruct (IH HFr (fun k Hk => HC k (or_intror Hk)) (pre ++ a) B1 v1 (out ++ new1) v' A2 A4 E Hg) as
        (B2 & ps2 & new2 & C1 & C2 & C3 & C4 & C5 & C6 & C7 & C8); [|exact Hs|].
      { split; [eapply NoDup_app_r; exact Hf1|]. intros id Hi. destruct (Hf2 id) as [F1 F2]; [apply in_or_app; auto|].
        rewrite A3. split; [exact F1|]. destruct (d_get id B1) as [l|] eqn:El; [|reflexivity]. exfalso.
        destruct (A8 id l El) as [X|X]; [congruence|]. exact (NoDup_both _ _ id Hf1 X Hi). }
      exists B2, (ps1 ++ ps2), (new1 ++ new2). split; [econstructor; eassumption|]. split; [exact C2|]. split; [congruence|].
      split; [rewrite C4, app_assoc; reflexivity|]. split; [apply Forall2_app; [eapply sreps_pres; eauto|exact C5]|].
      split; [intros k Hk; rewrite C6 by (rewrite A3; exact Hk); apply A6; exact Hk|].
      split; [intros k b0 X Y; apply C7; [exact X|apply A7; assumption]|].
      intros id l El. destruct (C8 id l El) as [X|X]; [|right; apply in_or_app; auto].
      destruct (A8 id l X) as [Y|Y]; [auto|right; apply in_or_app; auto].
  Qed.

  (** Opening a layer [id] for a block. *)
  Lemma I_open pre B v v1 id : I pre B v -> point pre v1 -> blocky ABs id -> d_get id B = None -> ~ In id (c_stack (v_ext v)) ->
    (ABs id \/ sr_tmp id /\ In id (c_stamps (v_ext v1))) -> s_blocks (v_state v1) = s_blocks (v_state v) ->
    c_stack (v_ext v1) = id :: c_stack (v_ext v) -> (exists l, c_stamps (v_ext v1) = l ++ c_stamps (v_ext v)) ->
    bufs v1 = d_set id (empty_buffer id) (bufs v) ->
    I pre B v1 /\ drawn v1 = Some [] /\ pres (bufs v) (bufs v1) /\
    (forall k, In k (c_stack (v_ext v)) -> d_get k (bufs v1) = d_get k (bufs v)).
  Proof.
    intros HI Hp Hb HB Hni Hin Hsb Hst (ls & Hls) Hbs.
    assert (Hother : forall k, k <> id -> d_get k (bufs v1) = d_get k (bufs v)).
    { intros k Hk. rewrite Hbs, d_get_set. apply str_eqb_neq in Hk. rewrite Hk. reflexivity. }
    assert (Hpr : pres (bufs v) (bufs v1)).
    { intros k b Hn Hg. rewrite Hother; [exact Hg|]. intros ->. exact (nb_blocky id Hn Hb). }
    split; [|split; [|split; [exact Hpr|]]].
    - eapply I_move; [exact HI|exact Hp| | |exact Hsb| | |exact Hpr].
      + rewrite Hst. intros i [<-|Hi]; [tauto|]. destruct (I_stack _ _ _ HI i Hi) as [X|[X|[X Y]]]; auto. right. right. split; auto.
        rewrite Hls. apply in_or_app. auto.
      + rewrite Hst. constructor; [exact Hni|apply (I_nodup _ _ _ HI)].
      + intros i l El. destruct (I_defs _ _ _ HI i l El) as (_ & A & _). rewrite Hst.
        assert (Hne : i <> id) by congruence. split; [|apply Hother; exact Hne]. intros [X|X]; [congruence|contradiction].
      + intros i M Ha. apply Hother. intros X. rewrite <- X in Hb. exact (key_not_blocky i M Hb).
    - unfold drawn, current. rewrite Hst, Hbs, d_get_set, str_eqb_refl. reflexivity.
    - intros k Hk. apply Hother. intros ->. contradiction.
  Qed.

  Lemma sreps_copies bs at0 nx ny dx dy ds ps : Forall2 (srep bs) ds ps ->
    Forall2 (srep bs) (copies at0 nx ny dx dy ds) (repeated at0 nx ny dx dy ps).
  Proof.
    intros HF. unfold copies, repeated. induction (list_prod (seq 0 nx) (seq 0 ny)) as [|ij l IH]; cbn [flat_map]; [constructor|].
    apply Forall2_app; [apply sreps_move; exact HF|exact IH].
  Qed.

  Lemma sr_not_AB i : sr_tmp i -> ABs i -> False.
  Proof.
    intros (w & t & ->) Ha. destruct (AB_code _ Ha) as (m & Hm). apply dcode_chars in Hm as (r & Hr & _). discriminate Hr.
  Qed.
  Lemma ab_codes_list (body : list (node K)) id :
    Forall (fun n => block_codes ABs n -> In id (ab_codes (fst (executed n))) -> ABs id) body ->
    (forall n, In n body -> block_codes ABs n) -> In id (ab_codes (fst (exec_list executed body))) -> ABs id.
  Proof.
    induction 1 as [|k r Hk _ IH]; intros HB; [intros []|]. cbn [exec_list].
    change ((fix go (ns : list (node K)) : list (node K) * bool := _) r) with (exec_list executed r) in *.
    destruct (executed k) as [a [|]] eqn:Ea; cbn [fst] in *; [apply Hk; apply HB; left; reflexivity|].
    destruct (exec_list executed r) as [b st]; cbn [fst] in *. rewrite ab_codes_app. intros X. apply in_app_or in X as [X|X].
    - apply Hk; [apply HB; left; reflexivity|exact X].
    - apply IH; auto. intros m Hm. apply HB. right. exact Hm.
  Qed.
  Lemma ab_codes_node (n : node K) id : block_codes ABs n -> In id (ab_codes (fst (executed n))) -> ABs id.
  Proof.
    induction n as [i body IH|u h body IH|n Hleaf] using node_ind'; intros HC Hi.
    - assert (HB : forall k, In k body -> block_codes ABs k).
      { intros k Hk m Hm. apply HC. right. apply in_flat_map. exists k. auto. }
      pose proof (ab_codes_list body id IH HB) as HL.
      cbn [executed] in Hi. destruct (exec_list executed body) as [l [|]]; cbn [fst] in *; [auto|].
      rewrite ab_codes_app in Hi. apply in_app_or in Hi as [Hi|Hi]; [auto|]. cbn in Hi. destruct Hi as [<-|[]].
      apply (HC (NAB i body)). left. reflexivity.
    - apply (ab_codes_list body id IH); [|exact Hi]. intros k Hk m Hm. apply HC. right. apply in_flat_map. exists k. auto.
    - rewrite (executed_leaf n Hleaf) in Hi. cbn in Hi. destruct n; try contradiction; destruct Hi.
  Qed.
  Lemma ab_codes_ABs (body : list (node K)) id : (forall n, In n body -> block_codes ABs n) ->
    In id (ab_codes (fst (exec_list executed body))) -> ABs id.
  Proof. apply ab_codes_list. apply Forall_forall. intros n _. apply ab_codes_node. Qed.

  Lemma node_step n : node_steps n.
  Proof.
    induction n as [id body IH|u h body IH|n Hleaf] using node_ind'; intros HC pre B v out v' HI Hd E Hg Hf Hs;
      pose proof (I_point _ _ _ HI) as Hp.
    - (* block aperture *)
      assert (Hid : ABs id) by (apply (HC (NAB id body)); left; reflexivity).
      assert (HB : forall k, In k body -> block_codes ABs k).
      { intros k Hk m Hm. apply HC. right. apply in_flat_map. exists k. auto. }
      rewrite visit_AB in E. destruct (visits H body (ab_enter H id v)) as [v2|v2|] eqn:E2; cbn [obind] in E; try discriminate.
      injection E as <-. pose proof (np_ab_enter _ _ _ _ _ id Hp Hid) as Hp1.
      pose proof (not_stopped_list body pre _ v2 HB Hp1 E2) as Hst.
      cbn [executed] in *. destruct (exec_list executed body) as [a st] eqn:Ea. cbn [snd] in Hst. subst st. cbn [fst] in *.
      rewrite app_assoc in *. rewrite ab_codes_app in *. cbn [ab_codes flat_map ab_code app] in *. destruct Hf as [Hf1 Hf2].
      destruct (Hf2 id) as [Hni HBn]; [apply in_or_app; right; left; reflexivity|].
      destruct (I_open pre B v (ab_enter H id v) id HI Hp1) as (HI1 & Hd1 & Hpr1 & Hbel1); auto.
      { right. left. exact Hid. } { exists []. reflexivity. }
      assert (Hida : ~ In id (ab_codes a)).
      { intros Hi. apply NoDup_remove_2 in Hf1. apply Hf1. rewrite app_nil_r. exact Hi. }
      pose proof (list_step body IH HB pre B (ab_enter H id v) [] v2 HI1 Hd1 E2) as HL. rewrite Ea in HL. cbn [fst] in HL.
      destruct HL as (B1 & ps & new & A1 & A2 & A3 & A4 & A5 & A6 & A7 & A8).
      { eapply good_prefix; exact Hg. }
      { split; [eapply NoDup_app_l; exact Hf1|]. intros i Hi. destruct (Hf2 i) as [F1 F2]; [apply in_or_app; auto|].
        split; [|exact F2]. intros [X|X]; [subst i; contradiction|]. exact (F1 X). }
      { exact Hs. }
      change (c_stack (v_ext (ab_enter H id v))) with (id :: c_stack (v_ext v)) in *. cbn [tl] in A6. cbn [app] in A4.
      assert (Hstk : c_stack (v_ext (ab_leave H id v2)) = c_stack (v_ext v)).
      { unfold ab_leave. cbn. rewrite A3. reflexivity. }
      assert (Hbs : bufs (ab_leave H id v2) = bufs v2) by reflexivity.
      assert (Hst2 : c_stamps (v_ext (ab_leave H id v2)) = c_stamps (v_ext v2)) by reflexivity.
      assert (Hsb : s_blocks (v_state (ab_leave H id v2)) = d_set id id (s_blocks (v_state v2))) by reflexivity.
      assert (HB1 : d_get id B1 = None).
      { destruct (d_get id B1) as [l|] eqn:El; [|reflexivity]. destruct (A8 id l El) as [X|X]; [congruence|contradiction]. }
      assert (Hbuf : exists b, d_get id (bufs v2) = Some b /\ bf_cmds b = new).
      { unfold drawn, current in A4. rewrite A3 in A4. destruct (d_get id (bufs v2)) as [b|]; [|discriminate]. injection A4 as A4. eauto. }
      pose proof (I_nodup _ _ _ A2) as Hnd. rewrite A3 in Hnd. inversion Hnd as [|? ? Hnin Hnd']; subst.
      exists ((id, ps) :: B1), [], []. split; [apply np_block; exact A1|]. split; [|split; [exact Hstk|split; [|split; [constructor|split; [|split]]]]].
      + constructor.
        * apply np_ab_leave; [exact (I_point _ _ _ A2)|exact Hid].
        * rewrite Hstk, Hst2. intros i Hi. apply (I_stack _ _ _ A2). rewrite A3. right. exact Hi.
        * rewrite Hstk. exact Hnd'.
        * intros i. rewrite Hsb, d_get_set. cbn [d_get]. destruct (str_eqb i id) eqn:Ei; [|apply (I_blocks _ _ _ A2)].
          apply str_eqb_eq in Ei. subst i. split; [reflexivity|discriminate].
        * intros i l. rewrite Hstk, Hbs. cbn [d_get]. destruct (str_eqb i id) eqn:Ei.
          -- apply str_eqb_eq in Ei. subst i. intros X; injection X as <-. split; [exact Hid|]. split; [exact Hnin|].
             destruct Hbuf as (b & Eb & <-). exists b. auto.
          -- intros El. destruct (I_defs _ _ _ A2 i l El) as (D1 & D2 & D3). split; [exact D1|]. split; [|exact D3].
             intros X. apply D2. rewrite A3. right. exact X.
        * intros i M b Ha HM. rewrite Hbs. intros Eb. destruct (I_copies _ _ _ A2 i M b Ha HM Eb) as (l & l' & D1 & D2 & D3).
          exists l, l'. split; [|auto]. cbn [d_get]. destruct (str_eqb i id) eqn:Ei; [|exact D1].
          apply str_eqb_eq in Ei. subst i. congruence.
      + rewrite app_nil_r, <- Hd. unfold drawn, current. rewrite Hstk, Hbs. destruct (c_stack (v_ext v)) as [|k st] eqn:Est; [reflexivity|].
        rewrite A6 by (left; reflexivity). rewrite Hbel1 by (left; reflexivity). reflexivity.
      + intros k Hk. rewrite Hbs. assert (Hin : In k (c_stack (v_ext v))) by (destruct (c_stack (v_ext v)); [destruct Hk|right; exact Hk]).
        rewrite A6 by exact Hin. apply Hbel1. exact Hin.
      + rewrite Hbs. intros k b X Y. apply A7; [exact X|apply Hpr1; assumption].
      + intros i l. cbn [d_get]. destruct (str_eqb i id) eqn:Ei.
        * apply str_eqb_eq in Ei. subst i. intros _. right. apply in_or_app. right. left. reflexivity.
        * intros El. destruct (A8 i l El) as [X|X]; [auto|right; apply in_or_app; auto].
    - (* step and repeat *)
      assert (HB : forall k, In k body -> block_codes ABs k).
      { intros k Hk m Hm. apply HC. right. apply in_flat_map. exists k. auto. }
      rewrite visit_SR in E. set (v1 := snd (sr_enter H u v)) in *. set (tmp := fst (sr_enter H u v)) in *.
      destruct (visits H body v1) as [v2|v2|] eqn:E2; cbn [obind] in E; try discriminate.
      pose proof (np_sr_enter H compiler_init ABs pre v u Hp) as Hp1. fold v1 in Hp1.
      cbn [executed] in *. destruct Hf as [Hf1 Hf2].
      assert (Ex1 : c_stack (v_ext v1) = tmp :: c_stack (v_ext v) /\ c_stamps (v_ext v1) = tmp :: c_stamps (v_ext v) /\
        bufs v1 = d_set tmp (empty_buffer tmp) (bufs v) /\ v_state v1 = v_state v /\
        tmp = lit "%%SR%" ++ z_repr u ++ lit "%" ++ z_repr (clock (length (c_stamps (v_ext v))))) by (repeat split; reflexivity).
      destruct Ex1 as (X1 & X2 & X3 & X4 & X5). clearbody v1 tmp.
      assert (Hsrt : sr_tmp tmp) by (rewrite X5; exists u, (clock (length (c_stamps (v_ext v)))); reflexivity).
      assert (Hs2 : NoDup (c_stamps (v_ext v2)) /\ v_state v' = v_state v2 /\ sr_close tmp h (v_state v2) (v_ext v2) = Ok (v_ext v')).
      { unfold sr_leave in E. pose proof E as E0. apply lift_done in E as (Q1 & _ & _ & _ & Q2). cbn [compiler_hooks hk_sr_close] in Q2.
        split; [|auto]. pose proof Q2 as Q3. apply sr_close_inv in Q3 as (b & nx & ny & dx & dy & x1 & _ & _ & _ & _ & _ & Ea & Q3).
        rewrite Q3 in Hs. cbn [set_buffers c_stamps] in Hs. rewrite (append_all_stamps _ _ _ Ea) in Hs. exact Hs. }
      destruct Hs2 as (Hs2 & Hstate & Ecl).
      destruct (stamps_file _ _ _ _ (visits_on_file body v1 v2 E2)) as (ls & Els).
      assert (Hs1 : NoDup (c_stamps (v_ext v1))) by (rewrite Els in Hs2; eapply NoDup_app_r; exact Hs2).
      assert (Htb : blocky ABs tmp) by (right; right; exact Hsrt).
      assert (Htn : ~ In tmp (c_stack (v_ext v))).
      { intros Hi. rewrite X2 in Hs1. apply NoDup_cons_iff in Hs1 as [Hs1 _]. destruct (I_stack _ _ _ HI _ Hi) as [X|[X|[X Y]]].
        - rewrite X in Hsrt. destruct Hsrt as (w & t & Hsrt). discriminate Hsrt.
        - exact (sr_not_AB tmp Hsrt X).
        - contradiction. }
      assert (HBn : d_get tmp B = None).
      { destruct (d_get tmp B) as [l|] eqn:El; [|reflexivity]. destruct (sr_not_AB tmp Hsrt). apply (I_defs _ _ _ HI tmp l El). }
      destruct (I_open pre B v v1 tmp HI Hp1 Htb HBn Htn) as (HI1 & Hd1 & Hpr1 & Hbel1).
      { right. split; [exact Hsrt|]. rewrite X2. left. reflexivity. }
      { rewrite X4. reflexivity. } { exact X1. } { exists [tmp]. exact X2. } { exact X3. }
      destruct (list_step body IH HB pre B v1 [] v2 HI1 Hd1 E2 Hg) as (B1 & ps & new & A1 & A2 & A3 & A4 & A5 & A6 & A7 & A8); [|exact Hs2|].
      { split; [exact Hf1|]. intros i Hi. destruct (Hf2 i Hi) as [F1 F2]. split; [|exact F2]. rewrite X1. intros [X|X]; [|exact (F1 X)].
        subst i. apply (sr_not_AB tmp Hsrt). eapply ab_codes_ABs; [|exact Hi]. exact HB. }
      rewrite X1 in A3, A6. cbn [tl] in A6. cbn [app] in A4.
      set (pre' := pre ++ fst (exec_list executed body)) in *.
      assert (Hp' : point pre' v').
      { rewrite X5 in E. eapply np_sr_leave; [exact (I_point _ _ _ A2)|exact E]. }
      apply sr_close_inv in Ecl as (b & nx & ny & dx & dy & x1 & Eb & C1 & C2 & C3 & C4 & Ea & Ex').
      assert (Hpen : pen_vec pre' = MkVec (coordinate_x (v_state v2)) (coordinate_y (v_state v2))).
      { pose proof (settled_point H _ _ _ (atp _ _ (I_point _ _ _ A2))) as (_ & Hat & Hsx & Hsy).
        rewrite pen_vec_of. rewrite <- Hat. unfold vec_of, coordinate_x, coordinate_y. cbn [fst snd].
        f_equal; [destruct (s_x (v_state v2)) eqn:Q; [exact (Hsx _ eq_refl)|reflexivity]|destruct (s_y (v_state v2)) eqn:Q; [exact (Hsy _ eq_refl)|reflexivity]]. }
      pose proof (Hcopies (MkVec (coordinate_x (v_state v2)) (coordinate_y (v_state v2))) nx ny dx dy (bf_cmds b)) as Hcp.
      cbn [vx vy] in Hcp. rewrite <- Hpen in Hcp. rewrite Hcp in Ea.
      assert (Hcmds : bf_cmds b = new).
      { unfold drawn, current in A4. rewrite A3 in A4. rewrite Eb in A4. injection A4 as A4. exact A4. }
      subst new. pose proof (append_all_grows _ _ _ Ea) as (G1 & _ & G3). cbn [pop c_stack] in G1. rewrite A3 in G1. cbn [tl] in G1.
      pose proof (append_all_frame _ _ _ Ea) as Hfr. cbn [pop c_stack c_buffers] in Hfr. rewrite A3 in Hfr. cbn [tl] in Hfr.
      pose proof (I_nodup _ _ _ A2) as Hnd. rewrite A3 in Hnd. apply NoDup_cons_iff in Hnd as [Hnin Hnd'].
      assert (Hstk : c_stack (v_ext v') = c_stack (v_ext v)) by (rewrite Ex'; exact G1).
      assert (Hoff : forall k, k <> tmp -> (forall st, c_stack (v_ext v) <> k :: st) -> d_get k (bufs v') = d_get k (bufs v2)).
      { intros k Hk1 Hk2. rewrite Ex'. cbn [set_buffers c_buffers]. rewrite d_get_del. apply str_eqb_neq in Hk1. rewrite Hk1.
        apply Hfr. exact Hk2. }
      assert (Hst2 : c_stamps (v_ext v') = c_stamps (v_ext v2)).
      { rewrite Ex'. cbn [set_buffers c_stamps]. rewrite (append_all_stamps _ _ _ Ea). reflexivity. }
      assert (Hbl : forall k, In k (c_stack (v_ext v)) -> blocky ABs k) by (intros k; apply stack_blocky with (1 := HI)).
      assert (Hpr2 : pres (bufs v2) (bufs v')).
      { intros k b0 Hn Hg0. rewrite Hoff; [exact Hg0| |].
        - intros ->. exact (nb_blocky tmp Hn Htb).
        - intros st Es. apply (nb_blocky k Hn). apply Hbl. rewrite Es. left. reflexivity. }
      exists B1, (repeated (pen_vec pre') nx ny dx dy ps), (copies (pen_vec pre') nx ny dx dy (bf_cmds b)).
      split; [|split; [|split; [exact Hstk|split; [|split; [|split; [|split]]]]]].
      + eapply np_repeat; [exact A1|]. repeat split; [apply count_ok; exact C1|apply count_ok; exact C2|apply delta_ok; exact C3|apply delta_ok; exact C4].
      + eapply I_move; [exact A2|exact Hp'| | | | | |exact Hpr2].
        * rewrite Hstk, Hst2. intros i Hi. apply (I_stack _ _ _ A2). rewrite A3. right. exact Hi.
        * rewrite Hstk. exact Hnd'.
        * rewrite Hstate. reflexivity.
        * intros i l El. destruct (I_defs _ _ _ A2 i l El) as (_ & D2 & _). rewrite A3 in D2. rewrite Hstk.
          split; [intros X; apply D2; right; exact X|]. apply Hoff.
          -- intros ->. apply D2. left. reflexivity.
          -- intros st Es. apply D2. right. rewrite Es. left. reflexivity.
        * intros i M Ha. apply Hoff.
          -- intros X. rewrite <- X in Htb. exact (key_not_blocky i M Htb).
          -- intros st Es. apply (key_not_blocky i M). apply Hbl. rewrite Es. left. reflexivity.
      + unfold drawn, current in Hd |- *. rewrite Hstk. unfold current in G3. rewrite G1 in G3. cbn [pop c_stack c_buffers] in G3. rewrite A3 in G3. cbn [tl] in G3.
        destruct (c_stack (v_ext v)) as [|k st] eqn:Est; [discriminate|].
        assert (Hkt : k <> tmp) by (intros ->; apply Hnin; left; reflexivity). apply str_eqb_neq in Hkt.
        rewrite Ex'. cbn [set_buffers c_buffers]. rewrite d_get_del, Hkt.
        assert (Ek : d_get k (bufs v2) = d_get k (bufs v)) by (rewrite A6 by (left; reflexivity); apply Hbel1; left; reflexivity).
        rewrite Ek in G3. destruct (d_get k (bufs v)) as [bk|]; [|discriminate]. injection Hd as Hd.
        destruct (G3 bk eq_refl) as (bk' & -> & ->). rewrite Hd. reflexivity.
      + eapply sreps_pres; [exact Hpr2|]. apply sreps_copies. exact A5.
      + intros k Hk. assert (Hin : In k (c_stack (v_ext v))) by (destruct (c_stack (v_ext v)); [destruct Hk|right; exact Hk]).
        rewrite Hoff, A6 by (exact Hin || (intros ->; contradiction) || (intros st Es; rewrite Es in *; cbn [tl] in Hk; apply NoDup_cons_iff in Hnd' as [Hnd' _]; contradiction)).
        apply Hbel1. exact Hin.
      + intros k b0 Y Z. apply Hpr2; [exact Y|]. apply A7; [exact Y|apply Hpr1; assumption].
      + exact A8.
    - rewrite (visit_is_leaf H n v Hleaf) in E. rewrite (executed_leaf n Hleaf) in *. cbn [fst] in *.
      destruct (leaf_step pre B v out n v' HI Hd Hleaf Hg Hs (or_introl E)) as (B' & ps & new & (-> & A1) & A2 & A3 & A4 & A5 & A6 & A7 & A8).
      exists B, ps, new. split; [apply np_command; [exact Hleaf|exact A1]|]. repeat (split; [assumption|]). auto.
  Qed.

  (** Whole files. *)
  Definition whole (n : node K) : Prop := is_leaf n \/ snd (executed n) = false.
  Lemma top_step n pre B v out v' : whole n -> block_codes ABs n ->
    I pre B v -> drawn v = Some out -> visit H n v = Done v' \/ visit H n v = Stop v' -> good (pre ++ fst (executed n)) ->
    fresh (ab_codes (fst (executed n))) B v -> NoDup (c_stamps (v_ext v')) ->
    steps (fun B' ps => node_pics width md clock pre B n (pre ++ fst (executed n)) B' ps) (pre ++ fst (executed n))
          (ab_codes (fst (executed n))) B v out v'.
  Proof.
    intros Hw HC HI Hd E Hg Hf Hs. destruct E as [E|E]; [eapply node_step; eauto|]. destruct Hw as [Hleaf|Hst].
    - rewrite (visit_is_leaf H n v Hleaf) in E. rewrite (executed_leaf n Hleaf) in *. cbn [fst] in *.
      destruct (leaf_step pre B v out n v' HI Hd Hleaf Hg Hs (or_intror E)) as (B' & ps & new & (-> & A1) & A2 & A3 & A4 & A5 & A6 & A7 & A8).
      exists B, ps, new. split; [apply np_command; [exact Hleaf|exact A1]|]. repeat (split; [assumption|]). auto.
    - destruct (named_visit md clock ABs n HC pre v v' (I_point _ _ _ HI) (or_intror E)) as [_ Hx]. rewrite (proj2 Hx E) in Hst. discriminate.
  Qed.

  Lemma file_step ips ns : (forall n, In n ns -> whole n) -> (forall n, In n ns -> block_codes ABs n) -> forall pre B v out v',
    I pre B v -> drawn v = Some out -> on_file H ips ns v = Ok v' -> good (pre ++ executed_file ips ns) ->
    fresh (ab_codes (executed_file ips ns)) B v -> NoDup (c_stamps (v_ext v')) ->
    steps (fun B' ps => list_pics width md clock pre B (reached ips ns) (pre ++ executed_file ips ns) B' ps)
          (pre ++ executed_file ips ns) (ab_codes (executed_file ips ns)) B v out v'.
  Proof.
    induction ns as [|n r IH]; intros HW HC pre B v out v' HI Hd E Hg Hf Hs.
    - cbn [on_file executed_file reached] in *. injection E as <-. rewrite app_nil_r in *.
      exists B, [], []. rewrite app_nil_r. split; [constructor|]. split; [exact HI|]. split; [reflexivity|]. split; [exact Hd|].
      split; [constructor|]. split; [reflexivity|]. split; [intros k b _ X; exact X|auto].
    - assert (HCn : block_codes ABs n) by (apply HC; left; reflexivity). assert (HWn : whole n) by (apply HW; left; reflexivity).
      assert (Hone : exists v1, (visit H n v = Done v1 \/ visit H n v = Stop v1) /\
        (if snd (executed n) && ips then v' = v1 else on_file H ips r v1 = Ok v')).
      { cbn [on_file] in E. destruct (visit H n v) as [v1|v1|] eqn:Ev; [| |discriminate]; exists v1; (split; [auto|]).
        - rewrite (not_stopped n pre v v1 HCn (I_point _ _ _ HI) Ev). exact E.
        - destruct (named_visit md clock ABs n HCn pre v v1 (I_point _ _ _ HI) (or_intror Ev)) as [_ Hx]. rewrite (proj2 Hx Ev).
          destruct ips; cbn [andb]; [congruence|exact E]. }
      destruct Hone as (v1 & Ev & Er). clear E.
      assert (Hre : reached ips (n :: r) = n :: (if snd (executed n) && ips then [] else reached ips r)).
      { cbn [reached]. f_equal. destruct HWn as [Hl|Hst].
        - rewrite (executed_leaf n Hl). cbn [snd]. destruct n; try reflexivity; destruct ips; reflexivity.
        - rewrite Hst. destruct n; try reflexivity; discriminate Hst. }
      cbn [executed_file] in *. destruct (executed n) as [a st] eqn:Ea. cbn [fst snd] in *.
      pose proof (top_step n pre B v out v1 HWn HCn HI Hd Ev) as HT. rewrite Ea in HT. cbn [fst] in HT. rewrite Hre.
      destruct (st && ips) eqn:Est.
      + subst v1. destruct (HT Hg Hf Hs) as (B1 & ps & new & A1 & A). exists B1, ps, new. split; [|exact A].
        rewrite <- (app_nil_r ps). econstructor; [exact A1|constructor].
      + rewrite app_assoc in *. rewrite ab_codes_app in *. destruct (stamps_file _ _ _ _ Er) as (ls & Els).
        assert (Hs1 : NoDup (c_stamps (v_ext v1))) by (rewrite Els in Hs; eapply NoDup_app_r; exact Hs).
        destruct Hf as [Hf1 Hf2].
        destruct (HT (good_prefix _ _ Hg)) as (B1 & ps1 & new1 & A1 & A2 & A3 & A4 & A5 & A6 & A7 & A8); [|exact Hs1|].
        { split; [eapply NoDup_app_l; exact Hf1|]. intros id Hi. apply Hf2. apply in_or_app. auto. }
        destruct (IH (fun k Hk => HW k (or_intror Hk)) (fun k Hk => HC k (or_intror Hk)) (pre ++ a) B1 v1 (out ++ new1) v' A2 A4 Er Hg) as
          (B2 & ps2 & new2 & C1 & C2 & C3 & C4 & C5 & C6 & C7 & C8); [|exact Hs|].
        { split; [eapply NoDup_app_r; exact Hf1|]. intros id Hi. destruct (Hf2 id) as [F1 F2]; [apply in_or_app; auto|].
          rewrite A3. split; [exact F1|]. destruct (d_get id B1) as [l|] eqn:El; [|reflexivity]. exfalso.
          destruct (A8 id l El) as [X|X]; [congruence|]. exact (NoDup_both _ _ id Hf1 X Hi). }
        exists B2, (ps1 ++ ps2), (new1 ++ new2). split; [econstructor; eassumption|]. split; [exact C2|]. split; [congruence|].
        split; [rewrite C4, app_assoc; reflexivity|]. split; [apply Forall2_app; [eapply sreps_pres; eauto|exact C5]|].
        split; [intros k Hk; rewrite C6 by (rewrite A3; exact Hk); apply A6; exact Hk|].
        split; [intros k b0 X Y; apply C7; [exact X|apply A7; assumption]|].
        intros id l El. destruct (C8 id l El) as [X|X]; [|right; apply in_or_app; auto].
        destruct (A8 id l X) as [Y|Y]; [auto|right; apply in_or_app; auto].
  Qed.

  Lemma I_start : I [] [] (visitor_init compiler_init).
  Proof.
    constructor.
    - constructor.
    - intros i [<-|[]]. auto.
    - repeat constructor. intros [].
    - intros id. reflexivity.
    - intros id l E. discriminate E.
    - intros id M b Ha _ E. change (d_get (layer_key id M) (bufs (visitor_init (NK := NK) compiler_init))) with
        (if str_eqb (layer_key id M) main_id then Some (empty_buffer (K := K) main_id) else None) in E. destruct (str_eqb (layer_key id M) main_id) eqn:Ek.
      + apply str_eqb_eq in Ek. destruct (key_not_blocky id M). left. exact Ek.
      + discriminate E.
  Qed.

  Lemma file_drawn ips ns v : (forall n, In n ns -> whole n) -> (forall n, In n ns -> block_codes ABs n) ->
    on_file H ips ns (visitor_init compiler_init) = Ok v -> good (executed_file ips ns) -> NoDup (ab_codes (executed_file ips ns)) ->
    NoDup (c_stamps (v_ext v)) ->
    exists ps b, file_pics width md clock ips ns ps /\ d_get main_id (bufs v) = Some b /\ Forall2 (srep (bufs v)) (bf_cmds b) ps /\
      N (bufs v) (c_stamps (v_ext v)) (ad_codes (executed_file ips ns)).
  Proof.
    intros HW HC E Hg Hd Hs.
    assert (Hf : fresh (ab_codes (executed_file ips ns)) [] (visitor_init compiler_init)).
    { split; [exact Hd|]. intros id Hi. split; [|reflexivity]. cbn. intros [X|[]]. subst id.
      assert (Ha : ABs main_id).
      { revert HC Hi. clear. induction ns as [|n r IH]; intros HC Hi; [destruct Hi|]. cbn [executed_file] in Hi.
        pose proof (ab_codes_node n main_id (HC n (or_introl eq_refl))) as Hn.
        destruct (executed n) as [a st]. cbn [fst] in Hn. destruct (st && ips); [auto|].
        rewrite ab_codes_app in Hi. apply in_app_or in Hi as [Hi|Hi]; [auto|]. apply IH; [|exact Hi].
        intros m Hm. apply HC. right. exact Hm. }
      destruct (AB_code _ Ha) as (m & Hm). apply dcode_chars in Hm as (r & Hr & _). discriminate Hr. }
    destruct (file_step ips ns HW HC [] [] (visitor_init compiler_init) [] v I_start eq_refl E Hg Hf Hs)
      as (B & ps & new & A1 & A2 & A3 & A4 & A5 & _).
    pose proof (proj1 (proj2 (inv _ _ (I_point _ _ _ A2) Hg Hs))) as A6.
    cbn [app] in *. unfold drawn, current in A4. rewrite A3 in A4. cbn [visitor_init v_ext compiler_init c_stack] in A4.
    destruct (d_get main_id (bufs v)) as [b|] eqn:Eb; [|discriminate]. injection A4 as A4.
    exists ps, b. split; [exists B; exact A1|]. split; [reflexivity|]. split; [rewrite A4; exact A5|exact A6].
  Qed.
End Blocks.

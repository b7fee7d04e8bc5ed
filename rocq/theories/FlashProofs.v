(** C16: transformed layers are copies of the layers they are made from. *)
From Verif Require Import Base Num Dict CoordModel CoordSpec CoordProofs Ast StateModel StateSpec StateProofs GeomModel
  ExprModel CompilerModel LayerSpec LayerProofs LayerInv LayerOut DrawSpec DrawProofs FlashSpec.

Section Names.
  Context {K : Type} {NK : Num K}.
  Hypothesis Hrepr : good_repr (K := K).

  Lemma good_no_pct (k : K) : no_pct (n_repr k).
  Proof. apply (proj2 Hrepr). cbn. auto 6. Qed.

  Lemma cut_at c (a a' : str) t t' : ~ In c a -> ~ In c a' -> a ++ c :: t = a' ++ c :: t' -> a = a' /\ t = t'.
  Proof.
    revert a'. induction a as [|x a IH]; intros [|y a'] H1 H2 E; cbn [app] in E.
    - injection E as ->. auto.
    - injection E as -> _. exfalso. apply H2. left; reflexivity.
    - injection E as -> _. exfalso. apply H1. left; reflexivity.
    - injection E as -> E. destruct (IH a') with (3 := E) as [-> ->]; auto.
      + intros Hi. apply H1. right; exact Hi.
      + intros Hi. apply H2. right; exact Hi.
  Qed.
  Lemma cut_comma (a b : K) t t' : n_repr a ++ lit ", " ++ t = n_repr b ++ lit ", " ++ t' -> a = b /\ t = t'.
  Proof.
    destruct Hrepr as [Hi Hs]. intros E. apply (cut_at ","%char) in E as [E1 E2]; try (apply Hs; cbn; auto).
    injection E2 as ->. split; [apply Hi; exact E1|reflexivity].
  Qed.
  Lemma cut_paren (a b : K) p t t' : n_repr a ++ lit (String ")" p) ++ t = n_repr b ++ lit (String ")" p) ++ t' -> a = b /\ t = t'.
  Proof.
    destruct Hrepr as [Hi Hs]. intros E. apply (cut_at ")"%char) in E as [E1 E2]; try (apply Hs; cbn; auto).
    apply app_inv_head in E2. split; [apply Hi; exact E1|exact E2].
  Qed.
  Lemma mtag_inj (m m' : mat K) : mtag m = mtag m' -> m = m'.
  Proof.
    destruct m as [a b c d e f g h i], m' as [a' b' c' d' e' f' g' h' i'].
    unfold mtag. cbn [GeomModel.m00 GeomModel.m01 GeomModel.m02 GeomModel.m10 GeomModel.m11 GeomModel.m12 GeomModel.m20 GeomModel.m21 GeomModel.m22].
    intros E. apply app_inv_head in E.
    repeat first [apply cut_comma in E as [<- E] | apply cut_paren in E as [<- E]].
    rewrite <- (app_nil_r (lit "))")) in E.
    apply (cut_paren _ _ ")") in E as [<- _]. reflexivity.
  Qed.
End Names.

(** ** The invariant *)
Section Inv.
  Context {K : Type} {NK : Num K} (md : bool) (clock : nat -> Z) (Ms : mat K -> Prop).
  Hypothesis nopct : forall k : K, no_pct (n_repr k).
  Hypothesis Ms_inj : forall m m', Ms m -> Ms m' -> mtag m = mtag m' -> m = m'.
  Context (ADs ABs : str -> Prop).
  Hypothesis AD_code : forall id, ADs id -> exists n, dcode id n.
  Hypothesis AB_code : forall id, ABs id -> exists n, dcode id n.
  Hypothesis AD_AB : forall id, ADs id -> ABs id -> False.
  Implicit Types (bs : dict (buffer K)) (x : cstate K).
  Notation tags := (tags (K := K)).

  (** Layers of definitions: an AD code or a thermal, extended by transformations. *)
  Definition base (b0 : str) : Prop := ADs b0 \/ thermal b0.
  Definition nb (k : str) : Prop := exists b0 ts, base b0 /\ tags ts /\ k = ext b0 ts.
  Definition tnb (k : str) : Prop := exists c ts, thermal c /\ tags ts /\ k = ext c ts.

  Lemma base_plain b0 : base b0 -> plain (K := K) b0.
  Proof. intros [H|H]; [exact (plain_ad ADs AD_code b0 H)|exact (plain_thermal b0 H)]. Qed.
  Lemma tnb_nb k : tnb k -> nb k.
  Proof. intros (c & ts & H1 & H2 & H3). exists c, ts. split; [right; exact H1|auto]. Qed.
  Lemma classic_tnb k : nb k -> tnb k \/ ~ tnb k.
  Proof.
    intros (b0 & ts & [H1|H1] & H2 & ->).
    - right. intros (c & us & T1 & T2 & T3). apply (ext_inj nopct) in T3 as [-> _]; auto; [|apply base_plain; left; exact H1|apply base_plain; right; exact T1].
      exact (ad_not_thermal ADs AD_code _ H1 T1).
    - left. exists b0, ts. auto.
  Qed.
  Lemma tnb_key k (m : mat K) : tnb k -> tnb (layer_key k m).
  Proof.
    intros (c & ts & H1 & H2 & ->). exists c, (ts ++ [mtag m]). split; [exact H1|]. split; [apply tags_snoc; exact H2|apply layer_key_ext].
  Qed.
  Lemma nb_key k (m : mat K) : nb (layer_key k m) -> nb k.
  Proof.
    intros (b0 & ts & H1 & H2 & H3). destruct ts as [|t ts _] using rev_ind.
    - exfalso. apply (base_plain b0 H1 k (mtag m)); [exists m; reflexivity|]. symmetry. exact H3.
    - rewrite ext_snoc in H3. apply Forall_app in H2 as [H2 H4]. inversion H4 as [|? ? [m' ->] _]; subst.
      apply last_pct_inj in H3 as [-> _]; try (apply mtag_no_pct; exact nopct). exists b0, ts. auto.
  Qed.
  Lemma ext_key b0 ts k (m : mat K) : base b0 -> tags ts -> ext b0 ts = layer_key k m -> exists us, tags us /\ k = ext b0 us.
  Proof.
    intros Hb Ht E. destruct ts as [|t ts _] using rev_ind.
    - exfalso. apply (base_plain b0 Hb k (mtag m)); [exists m; reflexivity|exact E].
    - rewrite ext_snoc in E. apply Forall_app in Ht as [Ht H4]. inversion H4 as [|? ? [m' ->] _]; subst.
      apply last_pct_inj in E as [<- _]; try (apply mtag_no_pct; exact nopct). eauto.
  Qed.
  Lemma tnb_unkey k (m : mat K) : tnb (layer_key k m) -> tnb k.
  Proof.
    intros (c & ts & H1 & H2 & H3). destruct (ext_key c ts k m (or_intror H1) H2 (eq_sym H3)) as (us & U1 & ->).
    exists c, us. auto.
  Qed.
  Lemma base_not_blocky b0 ts : base b0 -> tags ts -> forall id, blocky ABs id -> ext b0 ts <> id.
  Proof.
    intros Hb Ht id Hi E. change id with (ext id []) in E.
    apply (ext_inj nopct) in E as [-> _]; [|apply base_plain; exact Hb|exact (plain_blocky ABs AB_code id Hi)|exact Ht|constructor].
    destruct Hb as [Hb|Hb]; [exact (ad_not_blocky ADs ABs AD_code AD_AB _ Hb Hi)|exact (thermal_not_blocky ABs AB_code _ Hb Hi)].
  Qed.
  Lemma nb_not_blocky k id : nb k -> blocky ABs id -> k <> id.
  Proof. intros (b0 & ts & H1 & H2 & ->) Hi. apply base_not_blocky; auto. Qed.
  Lemma thermal_not_ad c ts b0 : thermal c -> tags ts -> ADs b0 -> ext c ts <> b0.
  Proof.
    intros Hc Ht Hb E. change b0 with (ext b0 []) in E.
    apply (ext_inj nopct) in E as [-> _]; [|apply base_plain; right; exact Hc|apply base_plain; left; exact Hb|exact Ht|constructor].
    exact (ad_not_thermal ADs AD_code _ Hb Hc).
  Qed.

  (** [codes]: AD codes defined so far; [used]: thermals made so far. *)
  Record N bs (used codes : list str) : Prop := {
    N_pastes : forall k b src, nb k -> d_get k bs = Some b -> pastes (bf_cmds b) src -> tnb src /\ mem src bs;
    N_leaf : forall k b src, tnb k -> d_get k bs = Some b -> ~ pastes (bf_cmds b) src;
    N_src : forall b0 ts, tags ts -> mem (ext b0 ts) bs ->
              (ADs b0 -> In b0 codes) /\ (thermal b0 -> In b0 used);
    N_copy : forall b0 ts (m : mat K), Ms m -> base b0 -> tags ts -> mem (ext b0 (ts ++ [mtag m])) bs ->
              copy_of bs m (ext b0 ts) (ext b0 (ts ++ [mtag m])) }.

  Lemma copy_mono (S : str -> Prop) bs bs' (m : mat K) :
    (forall k b src, S k -> d_get k bs = Some b -> pastes (bf_cmds b) src -> S src) ->
    (forall k b, S k -> d_get k bs = Some b -> d_get k bs' = Some b) ->
    forall k k', copy_of bs m k k' -> S k -> S k' -> copy_of bs' m k k'.
  Proof.
    intros HS Hg.
    apply (copy_of_mind K NK bs m
      (fun k k' _ => S k -> S k' -> copy_of bs' m k k')
      (fun ds ds' _ => (forall src, pastes ds src -> S src) -> (forall src, pastes ds' src -> S src) -> copy_cmds bs' m ds ds')).
    - intros k k' b b' G1 G2 _ IH Hk Hk'. apply co_layer with b b'; auto. apply IH; intros src Hs; eauto.
    - intros _ _. constructor.
    - intros s s' r r' Hi _ IH H1 H2. constructor; [exact Hi|]. apply IH; intros src (p & Hp & E).
      + apply H1. exists p. split; [right; exact Hp|exact E].
      + apply H2. exists p. split; [right; exact Hp|exact E].
    - intros p p' r r' _ IHp E1 E2 _ IH H1 H2. constructor; auto.
      + apply IHp; [apply H1; exists p|apply H2; exists p']; split; auto; left; reflexivity.
      + apply IH; intros src (q & Hq & E).
        * apply H1. exists q. split; [right; exact Hq|exact E].
        * apply H2. exists q. split; [right; exact Hq|exact E].
  Qed.

  Definition same_nb bs bs' : Prop := forall k, nb k -> d_get k bs' = d_get k bs.
  Lemma N_same bs bs' used codes used' : N bs used codes -> same_nb bs bs' -> (forall c, In c used -> In c used') -> N bs' used' codes.
  Proof.
    intros [H1 H0 H2 H3] HS Hu.
    assert (Hm : forall k, nb k -> mem k bs' -> mem k bs) by (intros k Hk [b Hb]; exists b; rewrite <- (HS k Hk); exact Hb).
    split.
    - intros k b src Hk Hg Hs. rewrite (HS k Hk) in Hg. destruct (H1 k b src Hk Hg Hs) as [T [b1 B]].
      split; [exact T|]. exists b1. rewrite (HS src (tnb_nb src T)). exact B.
    - intros k b src Hk Hg. rewrite (HS k (tnb_nb k Hk)) in Hg. eapply H0; eauto.
    - intros b0 ts Ht Hm'. split; intros Hb.
      + apply (H2 b0 ts Ht); [|exact Hb]. apply Hm; [|exact Hm']. exists b0, ts. split; [left; exact Hb|auto].
      + apply Hu, (H2 b0 ts Ht); [|exact Hb]. apply Hm; [|exact Hm']. exists b0, ts. split; [right; exact Hb|auto].
    - intros b0 ts m Hms Hb Ht Hm'.
      assert (Hk' : nb (ext b0 (ts ++ [mtag m]))) by (exists b0, (ts ++ [mtag m]); split; [exact Hb|split; [apply tags_snoc; exact Ht|reflexivity]]).
      apply (copy_mono nb bs bs').
      + intros k b src Hk Hg Hs. apply tnb_nb. eapply H1; eauto.
      + intros k b Hk Hg. rewrite (HS k Hk). exact Hg.
      + apply H3; auto.
      + exists b0, ts. auto.
      + exact Hk'.
  Qed.

  (** Storing a base layer of which there are no copies. *)
  Lemma N_set bs used codes b0 b : N bs used codes -> base b0 ->
    (forall ts, tags ts -> mem (ext b0 ts) bs -> ts = []) -> (thermal b0 -> ~ mem b0 bs) ->
    (forall src, pastes (bf_cmds b) src -> tnb src /\ mem src bs /\ ~ thermal b0) ->
    (ADs b0 -> In b0 codes) -> (thermal b0 -> In b0 used) ->
    N (d_set b0 b bs) used codes.
  Proof.
    intros [H1 H0 H2 H3] Hb Hno Hth Hp Hc Hu.
    assert (Hpl := base_plain b0 Hb).
    assert (Hcase : forall b1 ts, base b1 -> tags ts -> mem (ext b1 ts) (d_set b0 b bs) -> (b1 = b0 /\ ts = []) \/ mem (ext b1 ts) bs).
    { intros b1 ts Hb1 Ht Hm. apply mem_set in Hm as [E|Hm]; [left|right; exact Hm].
      change b0 with (ext b0 []) in E at 1. apply (ext_inj nopct) in E; auto; [apply base_plain; exact Hb1|constructor]. }
    split.
    - intros k b1 src Hk Hg Hs. rewrite d_get_set in Hg. destruct (str_eqb k b0) eqn:E.
      + injection Hg as <-. destruct (Hp src Hs) as (T & M & _). split; [exact T|]. apply mem_set. auto.
      + destruct (H1 k b1 src Hk Hg Hs) as [T M]. split; [exact T|]. apply mem_set. auto.
    - intros k b1 src Hk Hg Hs. rewrite d_get_set in Hg. destruct (str_eqb k b0) eqn:E; [|eapply H0; eauto].
      injection Hg as <-. apply str_eqb_eq in E. subst k. destruct (Hp src Hs) as (_ & _ & Hnt). apply Hnt.
      destruct Hk as (c & ts & T1 & T2 & T3). change b0 with (ext b0 []) in T3 at 1.
      apply (ext_inj nopct) in T3 as [-> _]; auto; [apply base_plain; right; exact T1|constructor].
    - intros b1 ts Ht Hm. split; intros Hb1.
      + destruct (Hcase b1 ts (or_introl Hb1) Ht Hm) as [[-> _]|Hm']; [auto|]. apply (H2 b1 ts Ht Hm'); exact Hb1.
      + destruct (Hcase b1 ts (or_intror Hb1) Ht Hm) as [[-> _]|Hm']; [auto|]. apply (H2 b1 ts Ht Hm'); exact Hb1.
    - intros b1 ts m Hms Hb1 Ht Hm.
      destruct (Hcase b1 (ts ++ [mtag m]) Hb1 (tags_snoc _ _ Ht) Hm) as [[_ E]|Hm'].
      { destruct ts; discriminate E. }
      assert (Hk' : nb (ext b1 (ts ++ [mtag m]))) by (exists b1, (ts ++ [mtag m]); split; [exact Hb1|split; [apply tags_snoc; exact Ht|reflexivity]]).
      pose proof (H3 b1 ts m Hms Hb1 Ht Hm') as HC.
      assert (Hne : forall ts', tags ts' -> mem (ext b1 ts') bs -> ext b1 (ts ++ [mtag m]) <> b0 -> ext b1 ts' = b0 -> False).
      { intros ts' Ht' _ _ E. change b0 with (ext b0 []) in E. apply (ext_inj nopct) in E as [-> _]; auto; [|apply base_plain; exact Hb1|constructor].
        apply Hno in Hm'; [|apply tags_snoc; exact Ht]. destruct ts; discriminate Hm'. }
      assert (Hk0 : ext b1 (ts ++ [mtag m]) <> b0).
      { intros E. change b0 with (ext b0 []) in E. apply (ext_inj nopct) in E as [_ E]; auto; [destruct ts; discriminate E|apply base_plain; exact Hb1|apply tags_snoc; exact Ht|constructor]. }
      assert (Hm1 : mem (ext b1 ts) bs) by (inversion HC; subst; eexists; eauto).
      apply (copy_mono (fun k => nb k /\ k <> b0) bs).
      + intros k b2 src [Hk _] Hg Hs. destruct (H1 k b2 src Hk Hg Hs) as [T M]. split; [apply tnb_nb; exact T|].
        intros ->. destruct Hb as [Hb|Hb]; [|exact (Hth Hb M)]. destruct T as (c & us & T1 & T2 & T3). symmetry in T3. revert T3. apply thermal_not_ad; auto.
      + intros k b2 [Hk Hne'] Hg. rewrite d_get_set. apply str_eqb_neq in Hne'. rewrite Hne'. exact Hg.
      + exact HC.
      + split; [exists b1, ts; auto|]. intros E. exact (Hne ts Ht Hm1 Hk0 E).
      + split; [exact Hk'|exact Hk0].
  Qed.

  (** ** Making copies *)
  Lemma shape_image (m : mat K) sh : image m sh (shape_transform m sh).
  Proof.
    split; [destruct sh; reflexivity|]. split; [destruct sh; reflexivity|].
    destruct sh as [segs n me]. cbn [shape_transform sh_segs]. induction segs as [|s r IH]; cbn [map]; constructor; auto.
    destruct s; cbn [seg_image seg_transform]; [auto|]. destruct (n_ltb _ _); auto.
  Qed.

  Lemma copy_cmds_app bs (m : mat K) a a' c c' : copy_cmds bs m a a' -> copy_cmds bs m c c' -> copy_cmds bs m (a ++ c) (a' ++ c').
  Proof. induction 1; intros Hc; cbn [app]; [exact Hc|constructor; auto|constructor; auto]. Qed.

  Lemma copy_cmds_mono (S : str -> Prop) bs bs' (m : mat K) :
    (forall k b src, S k -> d_get k bs = Some b -> pastes (bf_cmds b) src -> S src) ->
    (forall k b, S k -> d_get k bs = Some b -> d_get k bs' = Some b) ->
    forall ds ds', copy_cmds bs m ds ds' -> (forall src, pastes ds src -> S src) -> (forall src, pastes ds' src -> S src) ->
    copy_cmds bs' m ds ds'.
  Proof.
    intros HS Hg. induction 1 as [|s s' r r' Hi _ IH|p p' r r' Hc E1 E2 _ IH]; intros H1 H2.
    - constructor.
    - constructor; [exact Hi|]. apply IH; intros src (q & Hq & E); [apply H1|apply H2]; exists q; (split; [right; exact Hq|exact E]).
    - constructor; auto.
      + apply (copy_mono S bs bs' m HS Hg); [exact Hc|apply H1; exists p|apply H2; exists p']; (split; [left; reflexivity|reflexivity]).
      + apply IH; intros src (q & Hq & E); [apply H1|apply H2]; exists q; (split; [right; exact Hq|exact E]).
  Qed.

  Lemma transformed_key_stored (m : mat K) f id bs b bs' : keyed bs -> transformed f m id bs = Ok (b, bs') ->
    d_get (layer_key id m) bs' = Some b /\ bf_id b = layer_key id m.
  Proof.
    intros Hk E. pose proof (keyed_transformed f m id bs b bs' Hk E) as Hk'. rewrite transformed_eq in E.
    assert (G : d_get (layer_key id m) bs' = Some b).
    { destruct (d_get (layer_key id m) bs) as [b0|] eqn:Ek; [injection E as <- <-; exact Ek|].
      destruct f; [discriminate|]. dbind E. destruct a0 as [[cmds deps] bs1]. injection E as <- <-.
      rewrite d_get_set, str_eqb_refl. reflexivity. }
    split; [exact G|exact (Hk' _ _ G)].
  Qed.

  (** Copying a thermal stores at most its copy. *)
  Lemma copy_loop_shapes f (m : mat K) cs : (forall src, ~ pastes cs src) -> forall acc deps bs,
    exists r, copy_loop f m cs acc deps bs = Ok r /\ snd r = bs.
  Proof.
    induction cs as [|[sh|p] cs IH]; intros H acc deps bs; cbn [copy_loop].
    - eexists; split; reflexivity.
    - apply IH. intros src (p & Hp & E). apply (H src). exists p. split; [right; exact Hp|exact E].
    - exfalso. apply (H (pa_src p)). exists p. split; [left; reflexivity|reflexivity].
  Qed.
  Lemma transformed_tnb (m : mat K) used codes f id bs b bs' : N bs used codes -> tnb id ->
    transformed f m id bs = Ok (b, bs') -> forall k, ~ tnb k -> d_get k bs' = d_get k bs.
  Proof.
    intros HN Hid E k Hk. rewrite transformed_eq in E.
    destruct (d_get (layer_key id m) bs); [injection E as _ <-; reflexivity|]. destruct f; [discriminate|].
    destruct (get_buffer id bs) as [base0|] eqn:Eb; [|discriminate]. cbn [bind] in E. apply get_buffer_ok in Eb.
    destruct (copy_loop_shapes f m (bf_cmds base0) (fun src => N_leaf _ _ _ HN id base0 src Hid Eb) [] [] bs) as (r & Er & Es).
    rewrite Er in E. cbn [bind] in E. destruct r as [[cmds deps] bs1]. cbn [snd] in Es. subst bs1. injection E as _ <-.
    rewrite d_get_set. destruct (str_eqb k (layer_key id m)) eqn:E2; [|reflexivity].
    apply str_eqb_eq in E2. subst k. exfalso. apply Hk. apply tnb_key. exact Hid.
  Qed.

  Lemma transformed_N (m : mat K) used codes : Ms m -> forall f id bs b bs', keyed bs -> N bs used codes ->
    transformed f m id bs = Ok (b, bs') -> N bs' used codes.
  Proof.
    intros Hms. induction f as [|f IH]; intros id bs b bs' Hk HN; rewrite transformed_eq;
      (destruct (d_get (layer_key id m) bs) as [b0|] eqn:Ek; [intros E; injection E as _ <-; exact HN|]); [discriminate|].
    destruct (get_buffer id bs) as [base0|] eqn:Eb; [|discriminate]. cbn [bind]. apply get_buffer_ok in Eb.
    (* the loop copies the commands *)
    assert (HL : forall cs acc deps bs0 r, keyed bs0 -> N bs0 used codes ->
      copy_loop f m cs acc deps bs0 = Ok r ->
      N (snd r) used codes /\ keyed (snd r) /\ (forall k b0, d_get k bs0 = Some b0 -> d_get k (snd r) = Some b0) /\
      exists new, fst (fst r) = acc ++ new /\
        (forall src, pastes new src -> exists s0, pastes cs s0 /\ src = layer_key s0 m /\ mem src (snd r)) /\
        ((forall src, pastes cs src -> tnb src) -> copy_cmds (snd r) m cs new) /\
        ((forall src, pastes cs src -> tnb src) -> forall k, ~ tnb k -> d_get k (snd r) = d_get k bs0)).
    { induction cs as [|[sh|p] cs IHc]; intros acc deps bs0 r K0 N0; cbn [copy_loop].
      - intros E; injection E as <-. cbn [fst snd]. repeat (split; [auto|]). exists []. rewrite app_nil_r.
        split; [reflexivity|]. split; [intros src Hs; destruct (pastes_nil _ Hs)|]. split; [intros _; constructor|reflexivity].
      - intros E. destruct (IHc _ _ _ _ K0 N0 E) as (A & B & C & new & D1 & D2 & D3 & D4).
        repeat (split; [auto|]). exists (DShape (shape_transform m sh) :: new). rewrite D1, <- app_assoc. split; [reflexivity|].
        split; [|split].
        + intros src (p & [Hp|Hp] & Ep); [discriminate|]. destruct (D2 src) as (s0 & (q & Q1 & Q2) & Q3); [exists p; auto|].
          exists s0. split; [exists q; split; [right; exact Q1|exact Q2]|exact Q3].
        + intros Hs. constructor; [apply shape_image|]. apply D3. intros src (q & Q1 & Q2). apply Hs. exists q. split; [right; exact Q1|exact Q2].
        + intros Hs. apply D4. intros src (q & Q1 & Q2). apply Hs. exists q. split; [right; exact Q1|exact Q2].
      - destruct (transformed f m (pa_src p) bs0) as [[b1 bs1]|] eqn:Et; [|discriminate]. cbn [bind].
        pose proof (IH _ _ _ _ K0 N0 Et) as N1. pose proof (keyed_transformed f m _ _ _ _ K0 Et) as K1.
        destruct (transformed_key_stored m f _ _ _ _ K0 Et) as [S1 S2]. pose proof (transformed_old f m _ _ _ _ Et) as O1.
        intros E. destruct (IHc _ _ _ _ K1 N1 E) as (A & B & C & new & D1 & D2 & D3 & D4).
        split; [exact A|]. split; [exact B|]. split; [intros k b2 G; apply C; apply O1; exact G|].
        exists (DPaste (MkPaste (bf_id b1) (v_transform m (pa_center p)) (pa_neg p) (pa_meta p)) :: new).
        rewrite D1, <- app_assoc. split; [reflexivity|]. split; [|split].
        + intros src (q & [Hq|Hq] & Eq).
          * injection Hq as <-. cbn [pa_src] in Eq. subst src. exists (pa_src p). split; [exists p; split; [left; reflexivity|reflexivity]|].
            split; [exact S2|]. exists b1. rewrite S2. apply C. exact S1.
          * destruct (D2 src) as (s0 & (q' & Q1 & Q2) & Q3); [exists q; auto|].
            exists s0. split; [exists q'; split; [right; exact Q1|exact Q2]|exact Q3].
        + intros Hs. constructor; [|reflexivity|reflexivity|].
          * cbn [pa_src]. rewrite S2. destruct (Hs (pa_src p)) as (c & ts & T1 & T2 & T3); [exists p; split; [left; reflexivity|reflexivity]|].
            rewrite T3. rewrite layer_key_ext. apply (N_copy _ _ _ A); [exact Hms|right; exact T1|exact T2|]. exists b1. rewrite <- layer_key_ext, <- T3.
            apply C. exact S1.
          * apply D3. intros src (q & Q1 & Q2). apply Hs. exists q. split; [right; exact Q1|exact Q2].
        + intros Hs k Hk0. rewrite D4; [|intros src (q & Q1 & Q2); apply Hs; exists q; split; [right; exact Q1|exact Q2]|exact Hk0].
          eapply transformed_tnb; [exact N0| |exact Et|exact Hk0]. apply Hs. exists p. split; [left; reflexivity|reflexivity]. }
    destruct (copy_loop f m (bf_cmds base0) [] [] bs) as [[[cmds deps] bs1]|] eqn:El; [|discriminate].
    cbn [bind]. intros E; injection E as <- <-.
    destruct (HL _ _ _ _ _ Hk HN El) as (A & B & C & new & D1 & D2 & D3 & D4). cbn [fst snd app] in *. subst new.
    set (key := layer_key id m) in *. set (nbf := MkBuf key cmds deps).
    destruct A as [A1 A0 A2 A3].
    assert (Hnone : nb key -> d_get key bs1 = None).
    { intros Hn. pose proof (nb_key _ _ Hn) as Hn0.
      destruct (classic_tnb id Hn0) as [Ht|Ht].
      - destruct (copy_loop_shapes f m (bf_cmds base0) (fun src => N_leaf _ _ _ HN id base0 src Ht Eb) [] [] bs) as (r & Er & Es).
        rewrite El in Er. apply Ok_inj in Er. subst r. cbn [snd] in Es. subst bs1. exact Ek.
      - rewrite D4; [exact Ek| |intros T; apply Ht; eapply tnb_unkey; exact T].
        intros src Hs. apply (N_pastes _ _ _ HN id base0 src Hn0 Eb Hs). }
    (* the new layer is the only one stored *)
    assert (Hold : forall k b0, nb k -> d_get k bs1 = Some b0 -> (k = key -> False) -> d_get k (d_set key nbf bs1) = Some b0).
    { intros k b0 _ G Hne. rewrite d_get_set. destruct (str_eqb k key) eqn:E2; [apply str_eqb_eq in E2; contradiction|exact G]. }
    assert (Hpk : nb key -> forall src, pastes cmds src -> tnb src).
    { intros Hn src Hs. destruct (D2 src Hs) as (s0 & P1 & -> & _). apply tnb_key.
      apply nb_key in Hn. destruct (N_pastes _ _ _ HN id base0 s0 Hn Eb P1) as [T _]. exact T. }
    assert (Hself : nb key -> copy_of (d_set key nbf bs1) m id key).
    { intros Hn. pose proof (nb_key _ _ Hn) as Hn0.
      assert (Hne : id <> key) by (unfold key, layer_key; intros E2; apply (f_equal (@length ascii)) in E2; rewrite !app_length in E2; cbn in E2; lia).
      apply co_layer with base0 nbf.
      - rewrite d_get_set. apply str_eqb_neq in Hne. rewrite Hne. apply C. exact Eb.
      - rewrite d_get_set, str_eqb_refl. reflexivity.
      - cbn [nbf bf_cmds].
        apply (copy_cmds_mono (fun k => nb k /\ mem k bs1) bs1).
        + intros k b0 src [K1 _] G Hs. destruct (A1 k b0 src K1 G Hs) as [T M]. split; [apply tnb_nb; exact T|exact M].
        + intros k b0 [K1 [bb M]] G. apply Hold; auto. intros ->. rewrite (Hnone Hn) in M. discriminate M.
        + apply D3. intros src Hs. destruct (N_pastes _ _ _ HN id base0 src Hn0 Eb Hs) as [T _]. exact T.
        + intros src Hs. destruct (N_pastes _ _ _ HN id base0 src Hn0 Eb Hs) as [T [bb M]]. split; [apply tnb_nb; exact T|]. exists bb. apply C. exact M.
        + intros src Hs. split; [apply tnb_nb, Hpk; auto|]. destruct (D2 src Hs) as (s0 & _ & _ & M). exact M. }
    split.
    - intros k b0 src Hkn G Hs. rewrite d_get_set in G. destruct (str_eqb k key) eqn:E2.
      + apply str_eqb_eq in E2. subst k. injection G as <-. cbn [nbf bf_cmds] in Hs. split; [apply Hpk; auto|].
        destruct (D2 src Hs) as (s0 & _ & _ & M). apply mem_set. auto.
      + destruct (A1 k b0 src Hkn G Hs) as [T M]. split; [exact T|apply mem_set; auto].
    - intros k b0 src Hkn G Hs. rewrite d_get_set in G. destruct (str_eqb k key) eqn:E2; [|exact (A0 k b0 src Hkn G Hs)].
      apply str_eqb_eq in E2. subst k. injection G as <-. cbn [nbf bf_cmds] in Hs. destruct (D2 src Hs) as (s0 & P1 & _).
      eapply (N_leaf _ _ _ HN id base0 s0); eauto. eapply tnb_unkey; eauto.
    - intros b0 ts Ht Hm. apply mem_set in Hm as [E2|Hm]; [|apply (A2 b0 ts Ht Hm)].
      assert (Hu : base b0 -> exists us, tags us /\ id = ext b0 us).
      { intros Hb. apply (ext_key b0 ts id m Hb Ht). exact E2. }
      split; intros Hb.
      + destruct (Hu (or_introl Hb)) as (us & U1 & ->). apply (N_src _ _ _ HN b0 us U1); [eexists; exact Eb|exact Hb].
      + destruct (Hu (or_intror Hb)) as (us & U1 & ->). apply (N_src _ _ _ HN b0 us U1); [eexists; exact Eb|exact Hb].
    - intros b0 ts m' Hms' Hb Ht Hm.
      assert (Hk' : nb (ext b0 (ts ++ [mtag m']))) by (exists b0, (ts ++ [mtag m']); split; [exact Hb|split; [apply tags_snoc; exact Ht|reflexivity]]).
      apply mem_set in Hm as [E2|Hm].
      + rewrite <- layer_key_ext in E2. apply last_pct_inj in E2 as [E3 E4]; try (apply mtag_no_pct; exact nopct).
        apply (Ms_inj _ _ Hms' Hms) in E4. subst m'. rewrite <- layer_key_ext, E3. apply Hself.
        rewrite <- layer_key_ext, E3 in Hk'. exact Hk'.
      + pose proof (A3 b0 ts m' Hms' Hb Ht Hm) as HC.
        assert (Hm0 : mem (ext b0 ts) bs1) by (inversion HC; subst; eexists; eauto).
        apply (copy_mono (fun k => nb k /\ mem k bs1) bs1); [..|exact HC|split; [exists b0, ts; auto|exact Hm0]|split; [exact Hk'|exact Hm]].
        * intros k b1 src [K1 _] G Hs. destruct (A1 k b1 src K1 G Hs) as [T M]. split; [apply tnb_nb; exact T|exact M].
        * intros k b1 [K1 [bb M]] G. apply Hold; auto. intros ->. rewrite (Hnone K1) in M. discriminate M.
  Qed.

  (** ** Compiler steps *)
  Definition ok x : Prop := (forall id, In id (c_stack x) -> blocky ABs id) /\ keyed (c_buffers x).
  Definition pres bs bs' : Prop := forall k b, nb k -> d_get k bs = Some b -> d_get k bs' = Some b.
  Definition evolves codes x x' : Prop := ok x -> ok x' /\
    (NoDup (c_stamps x') -> NoDup (c_stamps x) /\
       (N (c_buffers x) (c_stamps x) codes -> N (c_buffers x') (c_stamps x') codes /\ pres (c_buffers x) (c_buffers x'))).

  Lemma evolves_refl codes x : evolves codes x x.
  Proof. intros H. split; [exact H|]. intros HN. split; [exact HN|]. intros H1. split; [exact H1|]. intros k b _ G. exact G. Qed.
  Lemma evolves_trans codes x y z : evolves codes x y -> evolves codes y z -> evolves codes x z.
  Proof.
    intros H1 H2 Hx. destruct (H1 Hx) as [Hy A1]. destruct (H2 Hy) as [Hz A2]. split; [exact Hz|].
    intros HN. destruct (A2 HN) as [N2 B2]. destruct (A1 N2) as [N1 B1]. split; [exact N1|].
    intros HNx. destruct (B1 HNx) as [C1 P1]. destruct (B2 C1) as [C2 P2]. split; [exact C2|].
    intros k b Hk G. apply P2, P1; auto.
  Qed.
  Lemma evolves_same codes x x' : (ok x -> ok x') -> (ok x -> same_nb (c_buffers x) (c_buffers x')) ->
    (c_stamps x' = c_stamps x \/ exists i, c_stamps x' = i :: c_stamps x) -> evolves codes x x'.
  Proof.
    intros Hok Hs Hst Hx. specialize (Hs Hx). split; [auto|]. intros HN.
    split; [destruct Hst as [E|[i E]]; rewrite E in HN; [exact HN|inversion HN; auto]|].
    intros H1. split.
    - apply N_same with (c_buffers x) (c_stamps x); [exact H1|exact Hs|].
      intros c Hc. destruct Hst as [E|[i E]]; rewrite E; [exact Hc|right; exact Hc].
    - intros k b Hk G. rewrite (Hs k Hk). exact G.
  Qed.
  Lemma ev_append codes d x x' : append_current d x = Ok x' -> evolves codes x x'.
  Proof.
    intros E. pose proof E as E0. apply append_current_inv in E as (id & st & b & Es & Eb & ->).
    apply evolves_same; [|intros [Hs Hk] k Hk'|left; reflexivity].
    - intros [Hs Hk]. split; [exact Hs|]. exact (keyed_append _ _ _ Hk E0).
    - cbn [set_buffers c_buffers]. rewrite d_get_set.
      assert (k <> id) as Hne by (apply nb_not_blocky; [exact Hk'|]; apply Hs; rewrite Es; left; reflexivity).
      apply str_eqb_neq in Hne. rewrite Hne. reflexivity.
  Qed.
  Lemma ev_append_all codes ds : forall x x', append_all ds x = Ok x' -> evolves codes x x'.
  Proof.
    induction ds as [|d r IH]; intros x x'; cbn [append_all].
    - intros E; injection E as <-. apply evolves_refl.
    - destruct (append_current d x) as [x1|] eqn:E1; [|discriminate]. cbn [bind]. intros E.
      eapply evolves_trans; [eapply ev_append; exact E1|apply IH; exact E].
  Qed.
  Lemma ev_contour codes c x : evolves codes x (set_contour c x).
  Proof. apply evolves_same; [auto|intros _ k _; reflexivity|left; reflexivity]. Qed.
  Lemma ev_aperture codes s id x b x' : Ms (state_matrix s) -> aperture_buffer s id x = Ok (b, x') -> evolves codes x x'.
  Proof.
    intros Hms E. apply aperture_buffer_inv in E as (bs' & Et & ->). intros [Hs Hk].
    split; [split; [exact Hs|]; cbn [set_buffers c_buffers]; eapply keyed_transformed; eauto|].
    cbn [set_buffers c_stamps c_buffers]. intros HN. split; [exact HN|]. intros H1.
    split; [eapply transformed_N; eauto|]. intros k b0 _ G. eapply transformed_old; eauto.
  Qed.
  Lemma ev_flash codes h a s x x' : Ms (state_matrix s) -> on_flash md h a s x = Ok x' -> evolves codes x x'.
  Proof.
    intros Hms E. apply on_flash_cases in E as [(ad & -> & E)|(id & -> & E)].
    - apply flash_aperture_inv in E as (b & x1 & E1 & E2).
      eapply evolves_trans; [eapply ev_aperture; eauto|eapply ev_append; eauto].
    - apply flash_block_inv in E as (b & x1 & E1 & E2).
      eapply evolves_trans; [eapply ev_aperture; eauto|eapply ev_append_all; eauto].
  Qed.
  Lemma ev_draw codes h s x x' : on_draw md h s x = Ok x' -> evolves codes x x'.
  Proof.
    apply (P_draw md (fun y => evolves codes x y)).
    - intros sh y y' Hy E. eapply evolves_trans; [exact Hy|eapply ev_append; eauto].
    - intros c y Hy. eapply evolves_trans; [exact Hy|apply ev_contour].
    - apply evolves_refl.
  Qed.
  Lemma ev_flush codes s x x' : flush_region s x = Ok x' -> evolves codes x x'.
  Proof.
    apply (P_flush (fun y => evolves codes x y)).
    - intros sh y y' Hy E. eapply evolves_trans; [exact Hy|eapply ev_append; eauto].
    - intros c y Hy. eapply evolves_trans; [exact Hy|apply ev_contour].
    - apply evolves_refl.
  Qed.
  Lemma ev_block_buffer codes id x : blocky ABs id -> evolves codes x (set_buffer (empty_buffer id) x).
  Proof.
    intros Hb. apply evolves_same; [|intros _ k Hk|left; reflexivity].
    - intros [Hs Hk]. split; [exact Hs|]. cbn [set_buffer c_buffers]. apply keyed_set; [exact Hk|reflexivity].
    - cbn [set_buffer c_buffers empty_buffer bf_id]. rewrite d_get_set.
      pose proof (nb_not_blocky k id Hk Hb) as Hne. apply str_eqb_neq in Hne. rewrite Hne. reflexivity.
  Qed.
  Lemma ev_ab_open codes id s x : ABs id -> evolves codes x (ab_open id s x).
  Proof.
    intros Hid. assert (Hb : blocky ABs id) by (right; left; exact Hid).
    eapply evolves_trans; [apply ev_block_buffer; exact Hb|].
    apply evolves_same; [intros [Hs Hk]; split; [intros i [<-|Hi]; auto|exact Hk]|intros _ k _; reflexivity|left; reflexivity].
  Qed.
  Lemma ev_pop codes x : evolves codes x (pop x).
  Proof.
    apply evolves_same; [intros [Hs Hk]; split; [|exact Hk]|intros _ k _; reflexivity|left; reflexivity].
    intros i Hi. apply Hs. cbn [pop c_stack] in Hi. destruct (c_stack x); [exact Hi|right; exact Hi].
  Qed.
  Lemma ev_sr_open codes uid s x : evolves codes x (snd (sr_open clock uid s x)).
  Proof.
    unfold sr_open. cbn [snd]. set (id := stamp clock (lit "%%SR%") uid x).
    assert (Hb : blocky ABs id) by (right; right; exists uid, (clock (length (c_stamps x))); reflexivity).
    eapply evolves_trans; [apply (ev_block_buffer codes id x Hb)|].
    apply evolves_same; [intros [Hs Hk]; split; [intros i [<-|Hi]; auto|exact Hk]|intros _ k _; reflexivity|right; eexists; reflexivity].
  Qed.
  Lemma ev_sr_close codes tmp h s x x' : sr_tmp tmp -> sr_close tmp h s x = Ok x' -> evolves codes x x'.
  Proof.
    intros Ht E. apply sr_close_inv in E as (b & nx & ny & dx & dy & x1 & Eb & _ & _ & _ & _ & Ea & ->).
    eapply evolves_trans; [apply ev_pop|]. eapply evolves_trans; [eapply ev_append_all; eauto|].
    apply evolves_same; [intros [Hs Hk]; split; [exact Hs|apply keyed_del; exact Hk]|intros _ k Hk|left; reflexivity].
    cbn [set_buffers c_buffers]. rewrite d_get_del.
    assert (k <> tmp) as Hne by (apply nb_not_blocky; [exact Hk|]; right; right; exact Ht).
    apply str_eqb_neq in Hne. rewrite Hne. reflexivity.
  Qed.

  (** Aperture definitions. *)
  Definition MN codes a (m : mstate (K := K)) : Prop :=
    ok (ms_c m) /\ bf_id (ms_buf m) = a /\
    (NoDup (c_stamps (ms_c m)) ->
       N (c_buffers (ms_c m)) (c_stamps (ms_c m)) (a :: codes) /\
       (forall ts, tags ts -> mem (ext a ts) (c_buffers (ms_c m)) -> ts = []) /\
       forall src, pastes (bf_cmds (ms_buf m)) src -> tnb src /\ mem src (c_buffers (ms_c m))).

  Lemma MN_step codes a m m' : ADs a -> MN codes a m -> prim_step clock m m' ->
    MN codes a m' /\ (NoDup (c_stamps (ms_c m')) -> NoDup (c_stamps (ms_c m)) /\ pres (c_buffers (ms_c m)) (c_buffers (ms_c m'))).
  Proof.
    intros Ha (Hok & Hid & HI) [ds Ec Eb Hds|uid ds c Ec Eb Hds]; unfold MN; rewrite Ec, Eb.
    - split; [|intros HN; split; [exact HN|intros k b _ G; exact G]].
      split; [exact Hok|]. split; [rewrite append_draws_id; exact Hid|]. intros HN. destruct (HI HN) as (A & B & C).
      split; [exact A|]. split; [exact B|]. intros src Hs. rewrite append_draws_cmds in Hs.
      apply pastes_app in Hs as [Hs|Hs]; [auto|]. destruct (no_pastes _ Hds _ Hs).
    - set (id := thermal_id clock uid (ms_c m)) in *. unfold with_thermal, set_buffer. cbn [c_buffers c_stack c_stamps].
      rewrite append_draws_id. cbn [empty_buffer bf_id].
      assert (Hth : thermal id) by (exists uid, (clock (length (c_stamps (ms_c m)))); reflexivity).
      assert (HF : NoDup (id :: c_stamps (ms_c m)) -> forall ts, tags ts -> ~ mem (ext id ts) (c_buffers (ms_c m))).
      { intros HN ts Ht Hm. inversion HN as [|? ? Hf HN']; subst. destruct (HI HN') as (A & _ & _).
        apply Hf. apply (N_src _ _ _ A id ts Ht Hm). exact Hth. }
      split.
      + split; [|split].
        * destruct Hok as [Hs Hk]. split; [exact Hs|]. cbn [c_buffers]. apply keyed_set; [exact Hk|]. rewrite append_draws_id. reflexivity.
        * rewrite append_draw_id. exact Hid.
        * intros HN. pose proof (HF HN) as HF'. inversion HN as [|? ? Hf HN']; subst. destruct (HI HN') as (A & B & C).
          assert (Hne : forall ts, tags ts -> ext (bf_id (ms_buf m)) ts <> id).
          { intros ts Ht E. change id with (ext id []) in E. apply (ext_inj nopct) in E as [E _]; [|apply base_plain; left; exact Ha|apply base_plain; right; exact Hth|exact Ht|constructor].
            rewrite E in Ha. exact (ad_not_thermal ADs AD_code _ Ha Hth). }
          split; [|split].
          -- apply N_set; auto.
             ++ apply N_same with (c_buffers (ms_c m)) (c_stamps (ms_c m)); [exact A|intros k _; reflexivity|intros; right; assumption].
             ++ right; exact Hth.
             ++ intros ts Ht Hm. destruct (HF' ts Ht Hm).
             ++ intros _ Hm. apply (HF' []); [constructor|exact Hm].
             ++ intros src Hs. rewrite append_draws_cmds in Hs. destruct (no_pastes _ Hds _ Hs).
             ++ intros Hb. destruct (ad_not_thermal ADs AD_code _ Hb Hth).
             ++ intros _. left; reflexivity.
          -- intros ts Ht Hm. apply mem_set in Hm as [E|Hm]; [destruct (Hne ts Ht E)|eauto].
          -- intros src Hs. rewrite append_draw_cmds in Hs. apply pastes_app in Hs as [Hs|Hs].
             ++ destruct (C src Hs) as [T M]. split; [exact T|apply mem_set; auto].
             ++ apply pastes_one in Hs as (p & E & <-). injection E as <-. cbn [pa_src]. split; [exists id, []; split; [exact Hth|split; [constructor|reflexivity]]|apply mem_set; auto].
      + intros HN. pose proof (HF HN) as HF'. inversion HN as [|? ? Hf HN']; subst. split; [exact HN'|].
        intros k b Hk G. rewrite d_get_set. destruct (str_eqb k id) eqn:E; [|exact G].
        apply str_eqb_eq in E. subst k. exfalso. apply (HF' []); [constructor|exists b; exact G].
  Qed.

  Lemma ad_step codes a s x x' : ADs (ad_id a) -> on_aperture md clock a s x = Ok x' -> ok x ->
    ok x' /\ (NoDup (c_stamps x') -> NoDup (c_stamps x) /\
      (N (c_buffers x) (c_stamps x) codes -> ~ In (ad_id a) codes ->
         N (c_buffers x') (c_stamps x') (ad_id a :: codes) /\ pres (c_buffers x) (c_buffers x') /\
         exists b, d_get (ad_id a) (c_buffers x') = Some b)).
  Proof.
    intros Ha E Hok. set (id := ad_id a) in *.
    (* storing the layer of a fresh code *)
    assert (Fresh : N (c_buffers x) (c_stamps x) codes -> ~ In id codes -> forall ts, tags ts -> ~ mem (ext id ts) (c_buffers x)).
    { intros HN Hf ts Ht Hm. apply Hf. apply (N_src _ _ _ HN id ts Ht Hm). exact Ha. }
    assert (Weak : forall bs u, N bs u codes -> N bs u (id :: codes)).
    { intros bs u [A B C D]. split; auto. intros b0 ts Ht Hm. destruct (C b0 ts Ht Hm) as [C1 C2]. split; [|exact C2]. intros H; right; auto. }
    assert (First : forall ds, (forall d, In d ds -> exists sh, d = DShape sh) ->
      N (c_buffers x) (c_stamps x) codes -> ~ In id codes ->
      N (d_set id (append_draws ds (empty_buffer id)) (c_buffers x)) (c_stamps x) (id :: codes) /\
      pres (c_buffers x) (d_set id (append_draws ds (empty_buffer id)) (c_buffers x))).
    { intros ds Hds HN Hf. pose proof (Fresh HN Hf) as HF. split.
      - apply N_set; auto.
        + left; exact Ha.
        + intros ts Ht Hm. destruct (HF ts Ht Hm).
        + intros Ht. destruct (ad_not_thermal ADs AD_code _ Ha Ht).
        + intros src Hs. rewrite append_draws_cmds in Hs. destruct (no_pastes _ Hds _ Hs).
        + intros _. left; reflexivity.
        + intros Ht. destruct (ad_not_thermal ADs AD_code _ Ha Ht).
      - intros k b Hk G. rewrite d_get_set. destruct (str_eqb k id) eqn:E2; [|exact G].
        apply str_eqb_eq in E2. subst k. exfalso. apply (HF []); [constructor|exists b; exact G]. }
    apply on_aperture_inv in E as [(ds & -> & Hds)|(sc & m & Hm & ->)].
    - split; [|cbn [set_buffer c_stamps c_buffers]; rewrite append_draws_id; intros HN; split; [exact HN|]; intros HN0 Hf].
      + destruct Hok as [Hs Hk]. split; [exact Hs|]. cbn [set_buffer c_buffers]. apply keyed_set; [exact Hk|reflexivity].
      + destruct (First ds Hds HN0 Hf) as [A B]. split; [exact A|]. split; [exact B|]. cbn [empty_buffer bf_id].
        rewrite d_get_set, str_eqb_refl. eauto.
    - set (m0 := MkM sc (empty_buffer (ad_id a)) (set_buffer (empty_buffer (ad_id a)) x)) in *.
      assert (HM : forall mm, prims_steps clock m0 mm ->
        ok (ms_c mm) /\ bf_id (ms_buf mm) = id /\ (NoDup (c_stamps (ms_c mm)) -> NoDup (c_stamps x) /\
          (N (c_buffers x) (c_stamps x) codes -> ~ In id codes ->
             N (c_buffers (ms_c mm)) (c_stamps (ms_c mm)) (id :: codes) /\
             (forall ts, tags ts -> mem (ext id ts) (c_buffers (ms_c mm)) -> ts = []) /\
             (forall src, pastes (bf_cmds (ms_buf mm)) src -> tnb src /\ mem src (c_buffers (ms_c mm))) /\
             forall k b, nb k -> d_get k (c_buffers x) = Some b -> k <> id /\ d_get k (c_buffers (ms_c mm)) = Some b))).
      { intros mm Hmm. induction Hmm as [|m1 m2 _ (I1 & I2 & I3) Hstep].
        - cbn [m0 ms_c ms_buf]. split; [|split; [reflexivity|]].
          + destruct Hok as [Hs Hk]. split; [exact Hs|]. cbn [set_buffer c_buffers]. apply keyed_set; [exact Hk|reflexivity].
          + cbn [set_buffer c_stamps c_buffers empty_buffer bf_id]. intros HN. split; [exact HN|]. intros HN0 Hf.
            pose proof (Fresh HN0 Hf) as HF. destruct (First [] (fun d (H : In d []) => match H with end) HN0 Hf) as [A B].
            split; [exact A|]. split; [|split; [intros src Hs; destruct (pastes_nil _ Hs)|]].
            * intros ts Ht Hmem. apply mem_set in Hmem as [E|Hmem]; [|destruct (HF ts Ht Hmem)].
              change (ad_id a) with id in E. change id with (ext id []) in E at 2. apply (ext_inj nopct) in E as [_ E]; auto; try (apply base_plain; left; exact Ha). constructor.
            * intros k b Hk G. split; [|exact (B k b Hk G)]. intros ->. apply (HF []); [constructor|exists b; exact G].
        - assert (HS : ok (ms_c m2) /\ bf_id (ms_buf m2) = id).
          { destruct Hstep as [ds0 Ec Eb _|uid ds0 c Ec Eb _]; rewrite Ec, Eb.
            - split; [exact I1|rewrite append_draws_id; exact I2].
            - split; [|rewrite append_draw_id; exact I2]. destruct I1 as [Hs Hk]. split; [exact Hs|].
              unfold with_thermal, set_buffer. cbn [c_buffers]. apply keyed_set; [exact Hk|reflexivity]. }
          destruct HS as [HS1 HS2]. split; [exact HS1|]. split; [exact HS2|]. intros HN2.
          assert (HN1 : NoDup (c_stamps (ms_c m1))).
          { destruct Hstep as [ds0 Ec _ _|uid ds0 c Ec _ _]; rewrite Ec in HN2; [exact HN2|]. cbn [with_thermal set_buffer c_stamps] in HN2. inversion HN2; auto. }
          destruct (I3 HN1) as [HNx I4]. split; [exact HNx|]. intros HN0 Hf. destruct (I4 HN0 Hf) as (A & B & C & D).
          assert (HMN : MN codes id m1) by (split; [exact I1|split; [exact I2|auto]]).
          destruct (MN_step codes id m1 m2 Ha HMN Hstep) as [(_ & _ & M3) M4].
          destruct (M3 HN2) as (A' & B' & C'). destruct (M4 HN2) as [_ P]. split; [exact A'|]. split; [exact B'|]. split; [exact C'|].
          intros k b Hk G. destruct (D k b Hk G) as [D1 D2]. split; [exact D1|exact (P k b Hk D2)]. }
      destruct (HM m Hm) as (I1 & I2 & I3). split; [|].
      + destruct I1 as [Hs Hk]. split; [exact Hs|]. cbn [set_buffer c_buffers]. apply keyed_set; [exact Hk|reflexivity].
      + cbn [set_buffer c_stamps c_buffers]. rewrite I2. intros HN. destruct (I3 HN) as [HNx I4]. split; [exact HNx|].
        intros HN0 Hf. destruct (I4 HN0 Hf) as (A & B & C & D). split; [|split].
        * apply N_set; auto.
          -- left; exact Ha.
          -- intros Ht. destruct (ad_not_thermal ADs AD_code _ Ha Ht).
          -- intros src Hs. destruct (C src Hs) as [T M]. split; [exact T|]. split; [exact M|]. intros Ht. exact (ad_not_thermal ADs AD_code _ Ha Ht).
          -- intros _. left; reflexivity.
          -- intros Ht. destruct (ad_not_thermal ADs AD_code _ Ha Ht).
        * intros k b Hk G. destruct (D k b Hk G) as [D1 D2]. rewrite d_get_set. apply str_eqb_neq in D1. rewrite D1. exact D2.
        * rewrite d_get_set, str_eqb_refl. eauto.
  Qed.

  (** ** Points *)
  Notation H := (compiler_hooks (K := K) md clock).
  Lemma named_at pre v : named_point H compiler_init ABs pre v -> at_point H compiler_init pre v.
  Proof.
    induction 1; [apply pt_start|eapply pt_leaf; eauto|apply pt_ab_enter; auto|apply pt_ab_leave; auto|apply pt_sr_enter; auto|eapply pt_sr_leave; eauto].
  Qed.
  Lemma matrix_point pre v : at_point H compiler_init pre v -> state_matrix (v_state v) = matrix_at pre.
  Proof.
    intros Hp. unfold state_matrix, matrix_at.
    pose proof (pl_mirroring H _ _ _ Hp) as P1. pose proof (pl_rotation H _ _ _ Hp) as P2. pose proof (pl_scaling H _ _ _ Hp) as P3.
    unfold p_mirroring, p_rotation, p_scaling in P1, P2, P3. rewrite P1, P2, P3. reflexivity.
  Qed.
  Lemma N_codes bs used codes codes' : N bs used codes -> (forall c, In c codes -> In c codes') -> N bs used codes'.
  Proof. intros [A B C D] Hc. split; auto. intros b0 ts Ht Hm. destruct (C b0 ts Ht Hm) as [C1 C2]. auto. Qed.
  Definition Defs (pre : list (node K)) bs : Prop := forall a, In (NAD a) pre ->
    exists p q s x0 x1 b u c, pre = p ++ NAD a :: q /\ (forall name, d_get name (s_macros s) = macros_of p name) /\
      on_aperture md clock a s x0 = Ok x1 /\ d_get (ad_id a) (c_buffers x1) = Some b /\
      N (c_buffers x1) u c /\ NoDup (c_stamps x1) /\ pres (c_buffers x1) bs.
  Lemma Defs_pres pre bs bs' : Defs pre bs -> pres bs bs' -> Defs pre bs'.
  Proof.
    intros HD HP a Ha. destruct (HD a Ha) as (p & q & s & x0 & x1 & b & u & c & D5 & D6 & D1 & D2 & D3 & D7 & D4). exists p, q, s, x0, x1, b, u, c.
    repeat (split; [assumption|]). intros k b0 Hk G. apply HP, D4; auto.
  Qed.
  Lemma Defs_more pre t bs : Defs pre bs -> (forall a, In (NAD a) (pre ++ t) -> In (NAD a) pre) -> Defs (pre ++ t) bs.
  Proof.
    intros HD Hin a Ha. destruct (HD a (Hin a Ha)) as (p & q & s & x0 & x1 & b & u & c & D5 & D6).
    exists p, (q ++ t), s, x0, x1, b, u, c. split; [rewrite D5, <- app_assoc; reflexivity|exact D6].
  Qed.
  Lemma macros_point pre v : at_point H compiler_init pre v -> forall name, d_get name (s_macros (v_state v)) = macros_of pre name.
  Proof.
    intros Hp name. unfold macros_of.
    refine (point_inv H compiler_init (fun v o => d_get name (s_macros (v_state v)) = o)
      (fun o n => match n with NAM m ps => if str_eqb name m then Some ps else o | _ => o end) None _ _ _ _ _ _ pre v Hp).
    - reflexivity.
    - intros n v1 v2 o Hl IH E. pose proof (leaf_state_spec H n v1 v2 E) as Es. rewrite <- IH. clear IH Hp.
      leaf_cases n (v_state v1) (v_state v2) Es; try reflexivity. all: try (cbn [set_store s_macros]; rewrite d_get_set; reflexivity).
    - auto.
    - auto.
    - intros u v1 o IH. unfold sr_enter. destruct (hk_sr_open H u _ _). exact IH.
    - intros tmp hdr v1 v2 o IH E. unfold sr_leave in E. apply lift_done in E as (-> & _). exact IH.
  Qed.
  Definition G pre (v : visitor K (cstate K)) : Prop := ok (v_ext v) /\
    (NoDup (c_stamps (v_ext v)) -> N (c_buffers (v_ext v)) (c_stamps (v_ext v)) (ad_codes pre) /\ Defs pre (c_buffers (v_ext v))).
  Lemma G_evolves pre t v v' : ad_codes (pre ++ t) = ad_codes pre -> (forall a, In (NAD a) (pre ++ t) -> In (NAD a) pre) ->
    evolves (ad_codes pre) (v_ext v) (v_ext v') -> G pre v -> G (pre ++ t) v'.
  Proof.
    intros Ec Hin He [Hok HI]. destruct (He Hok) as [Hok' He']. split; [exact Hok'|]. intros HN.
    destruct (He' HN) as [HN0 He'']. destruct (HI HN0) as [A B]. destruct (He'' A) as [A' P]. rewrite Ec. split; [exact A'|].
    apply Defs_more; [exact (Defs_pres pre _ _ B P)|exact Hin].
  Qed.
  Lemma N_init : N (c_buffers (compiler_init (K := K))) [] [].
  Proof.
    assert (Hnb : forall k, nb k -> d_get k (c_buffers (compiler_init (K := K))) = None).
    { intros k Hk. cbn [compiler_init c_buffers d_get]. destruct (str_eqb k main_id) eqn:E; [|reflexivity].
      apply str_eqb_eq in E. exfalso. revert E. apply nb_not_blocky; [exact Hk|left; reflexivity]. }
    split.
    - intros k b src Hk E. rewrite (Hnb k Hk) in E. discriminate.
    - intros k b src Hk E. rewrite (Hnb k (tnb_nb k Hk)) in E. discriminate.
    - intros b0 ts Ht [b E]. split; intros Hb; rewrite Hnb in E; try discriminate; exists b0, ts; (split; [|auto]); [left|right]; exact Hb.
    - intros b0 ts m _ Hb Ht [b E]. rewrite Hnb in E; [discriminate|]. exists b0, (ts ++ [mtag m]). split; [exact Hb|]. split; [apply tags_snoc; exact Ht|reflexivity].
  Qed.

  Lemma ad_codes_snoc (pre : list (node K)) n : ad_codes (pre ++ [n]) = ad_codes pre ++ ad_code n.
  Proof. unfold ad_codes. rewrite flat_map_app. cbn [flat_map]. rewrite app_nil_r. reflexivity. Qed.
  Lemma leaf_evolves codes n v v' : (forall a, n <> NAD a) -> Ms (state_matrix (v_state v)) ->
    visit_leaf H n v = Done v' \/ visit_leaf H n v = Stop v' -> evolves codes (v_ext v) (v_ext v').
  Proof.
    intros Hn Hms E. destruct (leaf_ext_spec H n v v' E) as [|x y i j h s x' -> Er -> Ed|x y h a s x' -> Er Ea Eh Ef|s x' Ef|s|s s' x' Ef|a s x' -> Ea].
    - apply evolves_refl.
    - exact (ev_draw codes _ _ _ _ Ed).
    - apply read_coords_inv in Er as (x2 & y2 & i2 & j2 & _ & _ & _ & _ & ->). refine (ev_flash codes _ _ _ _ _ _ Ef). exact Hms.
    - exact (ev_flush codes _ _ _ Ef).
    - apply ev_contour.
    - eapply evolves_trans; [exact (ev_flush codes _ _ _ Ef)|apply ev_contour].
    - destruct (Hn a eq_refl).
  Qed.
  Lemma NoDup_app_l {A} (a b : list A) : NoDup (a ++ b) -> NoDup a.
  Proof.
    induction a as [|x a IH]; cbn [app]; intros HD; [constructor|]. inversion HD as [|? ? Hx HD']; subst.
    constructor; [|auto]. intros Hi. apply Hx, in_or_app. left; exact Hi.
  Qed.
  Lemma named_inv pre v : named_point H compiler_init ABs pre v ->
    (forall a, In (NAD a) pre -> ADs (ad_id a)) -> NoDup (ad_codes pre) ->
    (forall p q, pre = p ++ q -> Ms (matrix_at p)) -> G pre v.
  Proof.
    induction 1 as [|pre v n v' Hp IH Hl E|pre v id _ IH Hid|pre v id _ IH Hid|pre v uid _ IH|pre v uid t hdr v' _ IH E]; intros HA HD HM.
    - split; [|intros _; split; [apply N_init|intros a []]].
      split; [|intros k b; cbn [visitor_init v_ext compiler_init c_buffers d_get]].
      + intros i [<-|[]]. left; reflexivity.
      + destruct (str_eqb k main_id) eqn:E; [|discriminate]. apply str_eqb_eq in E. intros E'; injection E' as <-. subst; reflexivity.
    - assert (HA' : forall a, In (NAD a) pre -> ADs (ad_id a)) by (intros a Ha; apply HA, in_or_app; left; exact Ha).
      rewrite ad_codes_snoc in HD. specialize (IH HA' (NoDup_app_l _ _ HD) (fun p q Eq => HM p (q ++ [n]) (eq_trans (f_equal (fun l => l ++ [n]) Eq) (eq_sym (app_assoc p q [n]))))).
      assert (Hc : (exists a, n = NAD a) \/ forall a, n <> NAD a) by (destruct n; try (right; intros a0 E0; discriminate E0); left; eauto).
      destruct Hc as [[a ->]|Hn].
      + destruct E as [E|E]; [|destruct (leaf_stop _ _ _ _ E) as [[E'|E'] _]; discriminate E'].
        destruct (leaf_adef H a v v' E) as (s & Ea & Es0). cbn [compiler_hooks hk_ad] in Ea. destruct IH as [Hok HI].
        assert (Ha : ADs (ad_id a)) by (apply HA, in_or_app; right; left; reflexivity).
        destruct (ad_step (ad_codes pre) a s _ _ Ha Ea Hok) as [Hok' He]. split; [exact Hok'|]. intros HN.
        destruct (He HN) as [HN0 He']. destruct (HI HN0) as [A B].
        assert (Hf : ~ In (ad_id a) (ad_codes pre)).
        { apply NoDup_remove_2 in HD. rewrite app_nil_r in HD. exact HD. }
        destruct (He' A Hf) as (A' & P & b & Gb). split.
        * rewrite ad_codes_snoc. apply N_codes with (1 := A'). intros c [<-|Hc]; apply in_or_app; [right; left; reflexivity|left; exact Hc].
        * intros a' Ha'. apply in_app_or in Ha' as [Ha'|[Ha'|[]]]; [|].
          { destruct (Defs_pres pre _ _ B P a' Ha') as (p & q & s1 & x0 & x1 & b1 & u & c & D5 & D6).
            exists p, (q ++ [NAD a]), s1, x0, x1, b1, u, c. split; [rewrite D5, <- app_assoc; reflexivity|exact D6]. }
         
          injection Ha' as <-. exists pre, [], s, (v_ext v), (v_ext v'), b, (c_stamps (v_ext v')), (ad_id a :: ad_codes pre).
          split; [reflexivity|]. split; [intros name; rewrite Es0, (macros_point _ _ (pt_leaf _ _ _ _ (NAD a) _ (named_at _ _ Hp) I (or_introl E))); unfold macros_of; rewrite fold_left_app; reflexivity|].
          split; [exact Ea|]. split; [exact Gb|]. split; [exact A'|]. split; [exact HN|]. intros k b0 _ G0. exact G0.
      + apply (G_evolves pre [n] v v'); [| |apply leaf_evolves with n; auto; rewrite (matrix_point _ _ (named_at _ _ Hp)); exact (HM pre [n] eq_refl)|exact IH].
        * rewrite ad_codes_snoc. destruct n; try apply app_nil_r. exfalso. exact (Hn _ eq_refl).
        * intros a Ha. apply in_app_or in Ha as [Ha|[Ha|[]]]; [exact Ha|]. destruct (Hn a Ha).
    - rewrite <- (app_nil_r pre); apply (G_evolves pre [] v); rewrite ?app_nil_r; [reflexivity|auto| |auto]. exact (ev_ab_open _ id (v_state v) (v_ext v) Hid).
    - rewrite ad_codes_snoc in HD. cbn [ad_code] in HD. rewrite app_nil_r in HD.
      apply (G_evolves pre [NAB id []] v).
      + rewrite ad_codes_snoc. apply app_nil_r.
      + intros a Ha. apply in_app_or in Ha as [Ha|[Ha|[]]]; [exact Ha|discriminate Ha].
      + exact (ev_pop _ (v_ext v)).
      + apply IH; [intros a Ha; apply HA, in_or_app; left; exact Ha|exact HD|].
        intros p q ->. apply (HM p (q ++ [NAB id []])). rewrite <- app_assoc. reflexivity.
    - rewrite <- (app_nil_r pre); apply (G_evolves pre [] v); rewrite ?app_nil_r; [reflexivity|auto| |auto]. unfold sr_enter. cbn [compiler_hooks hk_sr_open].
      pose proof (ev_sr_open (ad_codes pre) uid (v_state v) (v_ext v)) as He.
      destruct (sr_open clock uid (v_state v) (v_ext v)) as [tmp x']. exact He.
    - rewrite <- (app_nil_r pre); apply (G_evolves pre [] v); rewrite ?app_nil_r; [reflexivity|auto| |auto]. unfold sr_leave in E. apply lift_done in E as (_ & _ & _ & _ & E).
      eapply ev_sr_close; [|exact E]. exists uid, t. reflexivity.
  Qed.

  Lemma flash_copy pre v a (x y : option str) v' : named_point H compiler_init ABs pre v ->
    (forall a, In (NAD a) pre -> ADs (ad_id a)) -> NoDup (ad_codes pre) -> (forall p q, pre = p ++ q -> Ms (matrix_at p)) ->
    NoDup (c_stamps (v_ext v)) ->
    drawn v <> None -> In (NAD a) pre -> latest_selection pre = Some (ad_id a) ->
    visit_leaf H (ND03 x y) v = Done v' ->
    let src := layer_key (ad_id a) (matrix_at pre) in
    exists me, adds v v' [DPaste (MkPaste src (pen_vec (pre ++ [ND03 x y])) (clear_at pre) me)] /\
      copy_of (c_buffers (v_ext v')) (matrix_at pre) (ad_id a) src /\ defined_as md clock pre a (c_buffers (v_ext v')).
  Proof.
    intros Hnp HA HD HM HN Hd Ha Hsel E. pose proof (named_at _ _ Hnp) as Hp.
    destruct (named_inv _ _ Hnp HA HD HM) as [[Hs Hk] HI]. destruct (HI HN) as [HNv HDv].
    destruct (leaf_d03 H _ _ _ _ E) as (s & ap & h & Hr & Hap & _ & Hf & Hst).
    destruct (read_neg _ _ _ _ _ _ Hr) as (Hn & Hid & Haps & _). rewrite (negative_point H _ _ _ Hp) in Hn.
    pose proof (settled_point H _ _ _ Hp) as Hset. pose proof (end_vec _ _ _ _ _ _ _ Hset Hr) as He.
    unfold current_aperture in Hap. rewrite Hid, (pl_apid md clock _ _ Hp), Hsel, Haps in Hap.
    destruct (selected_apertures md clock pre v a Hp Ha) as (a' & Ea'). rewrite Ea' in Hap. apply Ok_inj in Hap. subst ap.
    cbn [compiler_hooks hk_flash] in Hf.
    assert (Ida : ad_id a' = ad_id a).
    { assert (Hinv : forall i b, d_get i (s_apertures (v_state v)) = Some b -> ad_id b = i); [|exact (Hinv _ _ Ea')].
      clear - Hp. revert Hp. intros Hp.
      refine (point_inv H compiler_init (fun v (_ : unit) => forall i b, d_get i (s_apertures (v_state v)) = Some b -> ad_id b = i) (fun u _ => u) tt _ _ _ _ _ _ pre v Hp).
      - intros i b E. discriminate E.
      - intros n v1 v2 _ Hl IH E i b. destruct (frame_leaf H n v1 v2 E) as (F & _).
        destruct n; rewrite F; try apply IH. rewrite d_get_set. destruct (str_eqb i (ad_id a)) eqn:Ei; [|apply IH].
        intros E'; injection E' as <-. apply str_eqb_eq in Ei. auto.
      - auto.
      - auto.
      - intros u v1 _ IH. unfold sr_enter. destruct (hk_sr_open H u _ _). exact IH.
      - intros tmp hdr v1 v2 _ IH E. unfold sr_leave in E. apply lift_done in E as (-> & _). exact IH. }
    apply on_flash_cases in Hf as [(ad & Ead & Hf)|(id & Hx & _)]; [|discriminate]. injection Ead as <-. rewrite Ida in Hf.
    apply flash_aperture_inv in Hf as (b & x1 & Eb & Ea2).
    pose proof Eb as Eb0. apply aperture_buffer_inv in Eb0 as (bs' & Et & Ex1).
    assert (Em : state_matrix s = matrix_at pre).
    { rewrite <- (matrix_point _ _ Hp). apply read_coords_inv in Hr as (x2 & y2 & i2 & j2 & _ & _ & _ & _ & ->). reflexivity. }
    assert (Hms : Ms (matrix_at pre)) by (apply (HM pre []); symmetry; apply app_nil_r).
    assert (Hev : evolves (ad_codes pre) x1 (v_ext v')) by (eapply ev_append; exact Ea2).
    assert (Hev0 : evolves (ad_codes pre) (v_ext v) x1) by (eapply ev_aperture; [rewrite Em; exact Hms|exact Eb]).
    destruct (Hev0 (conj Hs Hk)) as [Hok1 He1].
    assert (HN1 : NoDup (c_stamps x1)) by (rewrite Ex1; exact HN). destruct (He1 HN1) as [_ He1']. destruct (He1' HNv) as [HNx1 P1].
    destruct (Hev Hok1) as [_ He2].
    assert (HN2 : NoDup (c_stamps (v_ext v'))).
    { pose proof Ea2 as Ea3. apply append_current_inv in Ea3 as (id & st & b1 & _ & _ & ->). exact HN1. }
    destruct (He2 HN2) as [_ He2']. destruct (He2' HNx1) as [HNx2 P2].
    destruct (transformed_key_stored _ _ _ _ _ _ Hk Et) as [S1 S2].
    intros key. assert (Ekey : bf_id b = key) by (rewrite S2, Em; reflexivity). rewrite <- Ekey.
    exists (meta_of md (s_obj_attrs s)). split; [|split].
    - apply aperture_buffer_grows in Eb. apply append_current_grows in Ea2.
      pose proof (grows_trans _ _ _ _ _ Eb Ea2) as Hg. cbn [app] in Hg.
      pose proof (grows_adds v v' _ Hg Hd) as Hadd. rewrite Hn, He in Hadd. rewrite pen_vec_of, pen_of_snoc. exact Hadd.
    - rewrite S2, Em. clear key Ekey. change (ad_id a) with (ext (ad_id a) []) at 2. change (ad_id a) with (ext (ad_id a) []) at 1.
      rewrite layer_key_ext. apply (N_copy _ _ _ HNx2); [exact Hms|left; apply HA; exact Ha|constructor|].
      rewrite <- layer_key_ext. exists b. apply P2.
      + exists (ad_id a), [mtag (matrix_at pre)]. split; [left; apply HA; exact Ha|]. split; [apply (tags_snoc []); constructor|reflexivity].
      + rewrite Ex1. cbn [set_buffers c_buffers]. rewrite <- Em. exact S1.
    - destruct (HDv a Ha) as (p & q & s0 & x0 & xd & bd & u & c & D5 & D6 & D1 & D2 & D3 & _ & D4). exists p, q, s0, x0, xd, bd. split; [exact D5|]. split; [exact D6|]. split; [exact D1|]. split; [exact D2|].
      assert (Hpres : forall k b0, nb k -> d_get k (c_buffers xd) = Some b0 -> d_get k (c_buffers (v_ext v')) = Some b0).
      { intros k b0 Hkn G0. apply P2; [exact Hkn|]. apply P1; [exact Hkn|]. apply D4; auto. }
      assert (Hnid : nb (ad_id a)) by (exists (ad_id a), []; split; [left; apply HA; exact Ha|split; [constructor|reflexivity]]).
      split; [apply Hpres; auto|]. intros src Hsrc.
      destruct (N_pastes _ _ _ D3 _ _ _ Hnid D2 Hsrc) as [T [b1 M]]. exists b1. split; [exact M|]. apply Hpres; [apply tnb_nb; exact T|exact M].
  Qed.
End Inv.

(** Walks of files are made of named points. *)
Section Walks.
  Context {K : Type} {NK : Num K} (md : bool) (clock : nat -> Z) (ABs : str -> Prop).
  Notation H := (compiler_hooks (K := K) md clock).
  Notation point := (named_point H compiler_init ABs).
  Definition block_codes (n : node K) : Prop := forall m, In m (subnodes n) -> match m with NAB id _ => ABs id | _ => True end.

  Lemma named_visits body : Forall (fun n => block_codes n -> forall pre v v', point pre v ->
      visit H n v = Done v' \/ visit H n v = Stop v' -> point (pre ++ fst (executed n)) v' /\
      (snd (executed n) = true <-> visit H n v = Stop v')) body ->
    (forall n, In n body -> block_codes n) ->
    forall pre v v', point pre v -> visits H body v = Done v' \/ visits H body v = Stop v' ->
    point (pre ++ fst (exec_list executed body)) v' /\
    (snd (exec_list executed body) = true <-> visits H body v = Stop v').
  Proof.
    induction 1 as [|n r Hn _ IH]; intros HC pre v v' Hp; cbn [visits exec_list].
    - rewrite app_nil_r. cbn [snd]. intros [E|E]; [|discriminate]. injection E as <-.
      split; [exact Hp|]. split; discriminate.
    - specialize (Hn (HC n (or_introl eq_refl))). specialize (IH (fun k Hk => HC k (or_intror Hk))).
      destruct (visit H n v) as [v1|v1|e] eqn:Ev; cbn [obind].
      + destruct (Hn pre v v1 Hp (or_introl Ev)) as [Hp1 Hs].
        destruct (executed n) as [a st]. cbn [fst snd] in *.
        destruct st; [destruct Hs as [Hs _]; specialize (Hs eq_refl); rewrite Ev in Hs; discriminate Hs|].
        intros E. destruct (IH _ _ _ Hp1 E) as [Hp2 Hs2].
        destruct (exec_list executed r) as [b st']. cbn [fst snd] in *. rewrite app_assoc. auto.
      + intros [E|E]; [discriminate|]. injection E as <-.
        destruct (Hn pre v v1 Hp (or_intror Ev)) as [Hp1 Hs].
        destruct (executed n) as [a st]. cbn [fst snd] in *. rewrite (proj2 Hs Ev). cbn [fst snd].
        split; [exact Hp1|]. tauto.
      + intros [E|E]; discriminate.
  Qed.

  Lemma named_visit n : block_codes n -> forall pre v v', point pre v ->
    visit H n v = Done v' \/ visit H n v = Stop v' ->
    point (pre ++ fst (executed n)) v' /\ (snd (executed n) = true <-> visit H n v = Stop v').
  Proof.
    induction n as [id body IH|u h body IH|n Hleaf] using node_ind'; intros HC pre v v' Hp.
    - assert (Hid : ABs id) by (apply (HC (NAB id body)); left; reflexivity).
      assert (HB : forall k, In k body -> block_codes k).
      { intros k Hk m Hm. apply HC. right. apply in_flat_map. exists k. auto. }
      rewrite visit_AB. pose proof (named_visits body IH HB pre (ab_enter H id v)) as HV. cbn [executed].
      destruct (visits H body (ab_enter H id v)) as [v1|v1|e]; cbn [obind].
      + intros [E|E]; [|discriminate]. injection E as <-.
        destruct (HV v1 (np_ab_enter _ _ _ _ _ _ Hp Hid) (or_introl eq_refl)) as [Hp1 Hs].
        destruct (exec_list executed body) as [l st]. cbn [fst snd] in *.
        destruct st; [destruct Hs as [Hs _]; specialize (Hs eq_refl); discriminate Hs|]. cbn [fst snd].
        rewrite app_assoc. split; [apply np_ab_leave; [exact Hp1|exact Hid]|]. split; discriminate.
      + intros [E|E]; [discriminate|]. injection E as <-.
        destruct (HV v1 (np_ab_enter _ _ _ _ _ _ Hp Hid) (or_intror eq_refl)) as [Hp1 Hs].
        destruct (exec_list executed body) as [l st]. cbn [fst snd] in *.
        rewrite (proj2 Hs eq_refl). cbn [fst snd]. split; [exact Hp1|]. tauto.
      + intros [E|E]; discriminate.
    - assert (HB : forall k, In k body -> block_codes k).
      { intros k Hk m Hm. apply HC. right. apply in_flat_map. exists k. auto. }
      rewrite visit_SR. pose proof (named_visits body IH HB pre (snd (sr_enter H u v))) as HV. cbn [executed].
      destruct (visits H body (snd (sr_enter H u v))) as [v1|v1|e]; cbn [obind].
      + intros [E|E]; [|unfold sr_leave in E; apply lift_not_stop in E; contradiction].
        destruct (HV v1 (np_sr_enter _ _ _ _ _ _ Hp) (or_introl eq_refl)) as [Hp1 Hs].
        split; [|rewrite Hs; rewrite E; split; discriminate].
        eapply (np_sr_leave H compiler_init ABs _ v1 u (clock (length (c_stamps (v_ext v)))) h v' Hp1).
        revert E. unfold sr_enter. cbn [compiler_hooks hk_sr_open]. unfold sr_open. cbn [fst]. auto.
      + intros [E|E]; [discriminate|]. injection E as <-.
        apply HV; [apply np_sr_enter; exact Hp|auto].
      + intros [E|E]; discriminate.
    - rewrite (visit_is_leaf H n v Hleaf). rewrite (executed_leaf n Hleaf). cbn [fst snd]. intros E.
      split; [eapply np_leaf; eauto|]. destruct E as [E|E].
      + rewrite E. split; [|discriminate]. destruct n; try discriminate; cbn [visit_leaf] in E; discriminate.
      + destruct (leaf_stop _ _ _ _ E) as [[-> | ->] _]; rewrite E; tauto.
  Qed.

  Lemma named_file b ns : (forall n, In n ns -> block_codes n) -> forall pre v v', point pre v -> on_file H b ns v = Ok v' ->
    point (pre ++ executed_file b ns) v'.
  Proof.
    induction ns as [|n r IH]; intros HC pre v v' Hp; cbn [on_file executed_file].
    - rewrite app_nil_r. intros E; injection E as <-. exact Hp.
    - pose proof (named_visit n (HC n (or_introl eq_refl))) as HV. specialize (IH (fun k Hk => HC k (or_intror Hk))).
      destruct (visit H n v) as [v1|v1|e] eqn:Ev; [| |discriminate].
      + destruct (HV pre v v1 Hp (or_introl Ev)) as [Hp1 Hs].
        destruct (executed n) as [a st]. cbn [fst snd] in *.
        destruct st; [rewrite (proj1 Hs eq_refl) in Ev; discriminate|]. cbn [andb].
        rewrite app_assoc. apply IH. exact Hp1.
      + destruct (HV pre v v1 Hp (or_intror Ev)) as [Hp1 Hs].
        destruct (executed n) as [a st]. cbn [fst snd] in *. rewrite (proj2 Hs Ev). cbn [andb].
        destruct b; [intros E; injection E as <-; exact Hp1|]. rewrite app_assoc. apply IH. exact Hp1.
  Qed.
End Walks.

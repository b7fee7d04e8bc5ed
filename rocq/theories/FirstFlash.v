(** Proofs for C16: what the first flash of a code with a transformation shows. *)
From Verif Require Import Base Num Dict CoordModel CoordSpec CoordProofs Ast StateModel StateSpec StateProofs GeomModel
  ExprModel CompilerModel LayerSpec LayerProofs LayerInv LayerOut DrawSpec DrawProofs FlashSpec FlashProofs StaleSpec Stale.

(** ** Where copies of apertures come from *)
Section Moves.
  Context {K : Type} {NK : Num K} (md : bool) (clock : nat -> Z) (ABs : str -> Prop).
  Hypothesis nopct : forall k : K, no_pct (n_repr k).
  Hypothesis AB_code : forall id, ABs id -> exists n, dcode id n.
  Notation H := (compiler_hooks (K := K) md clock).
  Notation plain := (plain (K := K)).
  Implicit Types (bs : dict (buffer K)) (x : cstate K).

  Definition code (id : str) : Prop := (exists n, dcode id n) /\ ~ ABs id.
  Lemma code_plain id : code id -> plain id.
  Proof. intros [[n Hn] _]. eapply plain_dcode; exact Hn. Qed.
  Lemma key_not_code id (m : mat K) : ~ code (layer_key id m).
  Proof. intros Hc. exact (plain_key _ _ (code_plain _ Hc)). Qed.
  Lemma thermal_not_code id : thermal id -> ~ code id.
  Proof. intros (u & t & ->) [[n Hn] _]. apply dcode_chars in Hn as (r & E & _). discriminate E. Qed.
  Lemma blocky_not_code id : blocky ABs id -> ~ code id.
  Proof.
    intros [->|[Hb|(u & t & ->)]] [[n Hn] Hx]; [|exact (Hx Hb)|]; apply dcode_chars in Hn as (r & E & _); discriminate E.
  Qed.
  Lemma key_inj i j (m m' : mat K) : layer_key i m = layer_key j m' -> i = j /\ mtag m = mtag m'.
  Proof. intros E. apply last_pct_inj in E; [exact E|apply mtag_no_pct; exact nopct|apply mtag_no_pct; exact nopct]. Qed.

  Definition unpasted bs : Prop := forall k b src, d_get k bs = Some b -> pastes (bf_cmds b) src -> ~ code src.
  Definition clean x : Prop := (forall id, In id (c_stack x) -> blocky ABs id) /\ keyed (c_buffers x) /\ unpasted (c_buffers x).
  (** Layers of codes are written only in [W], copies of them made only in [S]. *)
  Definition changes (W : str -> Prop) (S : str -> str -> Prop) bs bs' : Prop :=
    (forall id, code id -> ~ W id -> d_get id bs' = d_get id bs) /\
    (forall id (m : mat K), code id -> mem (layer_key id m) bs' -> mem (layer_key id m) bs \/ S id (mtag m)).
  Definition moves W S x x' : Prop := clean x -> clean x' /\ changes W S (c_buffers x) (c_buffers x').

  Lemma ch_refl W S bs : changes W S bs bs.
  Proof. split; auto. Qed.
  Lemma ch_trans W S a b c : changes W S a b -> changes W S b c -> changes W S a c.
  Proof.
    intros [A1 A2] [B1 B2]. split.
    - intros id Hc Hw. rewrite B1, A1; auto.
    - intros id m Hc M. destruct (B2 id m Hc M) as [M'|M']; [apply A2; auto|auto].
  Qed.
  Lemma mv_refl W S x : moves W S x x.
  Proof. intros C. split; [exact C|apply ch_refl]. Qed.
  Lemma mv_trans W S x y z : moves W S x y -> moves W S y z -> moves W S x z.
  Proof. intros A B C. destruct (A C) as [C1 X1]. destruct (B C1) as [C2 X2]. split; [exact C2|eapply ch_trans; eauto]. Qed.
  (** Storing a layer that is not a code outside of [W] and not a copy. *)
  Lemma ch_set (W : str -> Prop) S bs k b : plain k -> (code k -> W k) -> changes W S bs (d_set k b bs).
  Proof.
    intros Hp Hw. split.
    - intros id Hc Hn. rewrite d_get_set. destruct (str_eqb id k) eqn:E; [|reflexivity].
      apply str_eqb_eq in E. subst k. destruct (Hn (Hw Hc)).
    - intros id m Hc M. left. apply mem_set in M as [E|M]; [|exact M]. subst k. destruct (plain_key _ _ Hp).
  Qed.
  Lemma unpasted_set bs k b : unpasted bs -> (forall src, pastes (bf_cmds b) src -> ~ code src) -> unpasted (d_set k b bs).
  Proof.
    intros Hu Hb j b' src. rewrite d_get_set. destruct (str_eqb j k).
    - intros E; injection E as <-. apply Hb.
    - apply Hu.
  Qed.
  Lemma mv_append W S d x x' : (forall p, d = DPaste p -> ~ code (pa_src p)) -> append_current d x = Ok x' -> moves W S x x'.
  Proof.
    intros Hd E (C1 & C2 & C3). pose proof E as E0. apply append_current_inv in E as (id & st & b & Es & Eb & ->).
    assert (Hb : blocky ABs id) by (apply C1; rewrite Es; left; reflexivity).
    split; [split; [exact C1|split; [exact (keyed_append _ _ _ C2 E0)|]]|]; cbn [set_buffers c_buffers].
    - apply unpasted_set; [exact C3|]. intros src. rewrite append_draw_cmds. intros P. apply pastes_app in P as [P|P]; [eapply C3; eauto|].
      apply pastes_one in P as (p & -> & <-). apply Hd. reflexivity.
    - apply ch_set; [exact (plain_blocky ABs AB_code id Hb)|]. intros Hc. destruct (blocky_not_code _ Hb Hc).
  Qed.
  Lemma mv_append_all W S ds : (forall src, pastes ds src -> ~ code src) -> forall x x', append_all ds x = Ok x' -> moves W S x x'.
  Proof.
    induction ds as [|d r IH]; intros Hd x x'; cbn [append_all].
    - intros E; injection E as <-. apply mv_refl.
    - destruct (append_current d x) as [x1|] eqn:E1; [|discriminate]. cbn [bind]. intros E. eapply mv_trans.
      + eapply mv_append; [|exact E1]. intros p ->. apply Hd. exists p. split; [left; reflexivity|reflexivity].
      + apply IH; [|exact E]. intros src (p & Hp & Es). apply Hd. exists p. split; [right; exact Hp|exact Es].
  Qed.
  Lemma mv_shape W S sh x x' : append_current (DShape sh) x = Ok x' -> moves W S x x'.
  Proof. apply mv_append. discriminate. Qed.
  Lemma mv_contour W S c x : moves W S x (set_contour c x).
  Proof. intros C. split; [exact C|apply ch_refl]. Qed.
  Lemma pastes_shift (m : mat K) ds src : pastes (map (shift_draw m) ds) src -> pastes ds src.
  Proof.
    intros (p & Hp & E). apply in_map_iff in Hp as (d & Ed & Hd). destruct d as [sh|q]; [discriminate Ed|].
    cbn [shift_draw] in Ed. injection Ed as <-. exists q. auto.
  Qed.

  Lemma ch_transformed (W : str -> Prop) (S : str -> str -> Prop) f : forall (m : mat K) id bs b bs', keyed bs -> unpasted bs ->
    (code id -> S id (mtag m)) -> transformed f m id bs = Ok (b, bs') -> unpasted bs' /\ changes W S bs bs'.
  Proof.
    induction f as [|f IH]; intros m id bs b bs' Hk Hu HS; rewrite transformed_eq;
      (destruct (d_get (layer_key id m) bs) as [b1|] eqn:Ek; [intros E; injection E as _ <-; split; [exact Hu|apply ch_refl]|]); [discriminate|].
    destruct (get_buffer id bs) as [base0|] eqn:Eb; [|discriminate]. cbn [bind]. apply get_buffer_ok in Eb.
    assert (HL : forall cs acc deps bs r, keyed bs -> unpasted bs -> (forall src, pastes cs src -> ~ code src) ->
      (forall src, pastes acc src -> ~ code src) -> copy_loop f m cs acc deps bs = Ok r ->
      unpasted (snd r) /\ changes W S bs (snd r) /\ forall src, pastes (fst (fst r)) src -> ~ code src).
    { induction cs as [|[sh|p] cs IHc]; intros acc deps bs0 r Hk0 Hu0 Hcs Ha; cbn [copy_loop].
      - intros E; injection E as <-. split; [exact Hu0|]. split; [apply ch_refl|exact Ha].
      - apply IHc; auto.
        + intros src (q & Hq & Es). apply Hcs. exists q. split; [right; exact Hq|exact Es].
        + intros src P. apply pastes_app in P as [P|P]; [apply Ha; exact P|]. apply pastes_one in P as (q & E & _). discriminate E.
      - destruct (transformed f m (pa_src p) bs0) as [[b2 bs2]|] eqn:E2; [|discriminate]. cbn [bind].
        destruct (transformed_key_stored m f _ _ _ _ Hk0 E2) as [S1 S2].
        destruct (IH _ _ _ _ _ Hk0 Hu0 (fun Hc => False_ind _ (Hcs (pa_src p) (ex_intro _ p (conj (or_introl eq_refl) eq_refl)) Hc)) E2) as [U2 X2].
        intros E. edestruct IHc as (A & B & C); [| | | |exact E|].
        + eapply keyed_transformed; eauto.
        + exact U2.
        + intros src (q & Hq & Es). apply Hcs. exists q. split; [right; exact Hq|exact Es].
        + intros src P. apply pastes_app in P as [P|P]; [apply Ha; exact P|]. apply pastes_one in P as (q & E3 & <-). injection E3 as <-.
          cbn [pa_src]. rewrite S2. apply key_not_code.
        + split; [exact A|]. split; [eapply ch_trans; eauto|exact C]. }
    destruct (copy_loop f m (bf_cmds base0) [] [] bs) as [[[cmds deps] bs1]|] eqn:El; [|discriminate]. cbn [bind].
    intros E; injection E as _ <-.
    destruct (HL _ _ _ _ _ Hk Hu (fun src P => Hu id base0 src Eb P) (fun src P => False_ind _ (pastes_nil _ P)) El) as (A1 & A2 & A3).
    cbn [fst snd] in *. split; [apply unpasted_set; [exact A1|exact A3]|]. eapply ch_trans; [exact A2|]. split.
    - intros j Hc _. rewrite d_get_set. destruct (str_eqb j (layer_key id m)) eqn:E; [|reflexivity].
      apply str_eqb_eq in E. subst j. destruct (key_not_code _ _ Hc).
    - intros j m' Hc M. apply mem_set in M as [E|M]; [|left; exact M]. right. apply key_inj in E as [-> ->]. auto.
  Qed.
  Lemma mv_aperture W (S : str -> str -> Prop) s id x b x' : S id (mtag (state_matrix s)) -> aperture_buffer s id x = Ok (b, x') -> moves W S x x'.
  Proof.
    intros HS E. apply aperture_buffer_inv in E as (bs' & Et & ->). intros (C1 & C2 & C3).
    destruct (ch_transformed W S _ _ _ _ _ _ C2 C3 (fun _ => HS) Et) as [U X].
    split; [split; [exact C1|split; [eapply keyed_transformed; eauto|exact U]]|exact X].
  Qed.
  Lemma mv_flash W (S : str -> str -> Prop) h a s x x' :
    S match a with ApAD ad => ad_id ad | ApAB id => id end (mtag (state_matrix s)) -> on_flash md h a s x = Ok x' -> moves W S x x'.
  Proof.
    intros HS E C. apply on_flash_cases in E as [(ad & -> & E)|(id & -> & E)].
    - apply flash_aperture_inv in E as (b & x1 & E1 & E2). pose proof E1 as E0. apply aperture_buffer_inv in E0 as (bs' & Et & _).
      destruct (transformed_key_stored _ _ _ _ _ _ (proj1 (proj2 C)) Et) as [_ S2]. revert C.
      apply mv_trans with x1; [eapply mv_aperture; eauto|eapply mv_append; [|exact E2]].
      intros p Ep. injection Ep as <-. cbn [pa_src]. rewrite S2. apply key_not_code.
    - apply flash_block_inv in E as (b & x1 & E1 & E2). pose proof E1 as E0. apply aperture_buffer_inv in E0 as (bs' & Et & Ex).
      destruct (transformed_key_stored _ _ _ _ _ _ (proj1 (proj2 C)) Et) as [S1 _].
      pose proof (mv_aperture W S s id x b x1 HS E1) as M1. destruct (M1 C) as [(_ & _ & U) _]. revert C.
      apply mv_trans with x1; [exact M1|eapply mv_append_all; [|exact E2]].
      intros src P. apply pastes_shift in P. subst x1. eapply U; [exact S1|exact P].
  Qed.
  Lemma mv_draw W S h s x x' : on_draw md h s x = Ok x' -> moves W S x x'.
  Proof.
    apply (P_draw md (fun y => moves W S x y)).
    - intros sh y y' Hy E. eapply mv_trans; [exact Hy|eapply mv_shape; eauto].
    - intros c y Hy. eapply mv_trans; [exact Hy|apply mv_contour].
    - apply mv_refl.
  Qed.
  Lemma mv_flush W S s x x' : flush_region s x = Ok x' -> moves W S x x'.
  Proof.
    apply (P_flush (fun y => moves W S x y)).
    - intros sh y y' Hy E. eapply mv_trans; [exact Hy|eapply mv_shape; eauto].
    - intros c y Hy. eapply mv_trans; [exact Hy|apply mv_contour].
    - apply mv_refl.
  Qed.
  Lemma mv_pop W S x : moves W S x (pop x).
  Proof.
    intros (C1 & C2 & C3). split; [split; [|split; [exact C2|exact C3]]|apply ch_refl].
    intros i Hi. apply C1. cbn [pop c_stack] in Hi. destruct (c_stack x); [exact Hi|right; exact Hi].
  Qed.
  Lemma mv_open W S id x x' : blocky ABs id -> c_stack x' = id :: c_stack x ->
    c_buffers x' = d_set id (empty_buffer id) (c_buffers x) -> moves W S x x'.
  Proof.
    intros Hb Es Eb (C1 & C2 & C3). unfold clean. rewrite Es, Eb. split; [split; [|split]|].
    - intros i [<-|Hi]; auto.
    - apply keyed_set; [exact C2|reflexivity].
    - apply unpasted_set; [exact C3|]. intros src P. destruct (pastes_nil _ P).
    - apply ch_set; [exact (plain_blocky ABs AB_code id Hb)|]. intros Hc. destruct (blocky_not_code _ Hb Hc).
  Qed.
  Lemma mv_ab_open W S id s x : ABs id -> moves W S x (ab_open id s x).
  Proof. intros Hi. apply mv_open with id; [right; left; exact Hi|reflexivity|reflexivity]. Qed.
  Lemma mv_sr_open W S uid s x : moves W S x (snd (sr_open clock uid s x)).
  Proof.
    apply mv_open with (stamp clock (lit "%%SR%") uid x); [|reflexivity|reflexivity].
    right; right. exists uid, (clock (length (c_stamps x))). reflexivity.
  Qed.
  Lemma mv_sr_close W S tmp h s x x' : sr_tmp tmp -> sr_close tmp h s x = Ok x' -> moves W S x x'.
  Proof.
    intros Ht E C. apply sr_close_inv in E as (b & nx & ny & dx & dy & x1 & Eb & _ & _ & _ & _ & Ea & ->).
    assert (Hb : forall src, pastes (bf_cmds b) src -> ~ code src) by (intros src; apply (proj2 (proj2 C) _ _ _ Eb)).
    assert (M1 : moves W S x x1).
    { eapply mv_trans; [apply mv_pop|]. eapply mv_append_all; [|exact Ea]. intros src (p & Hp & Es).
      apply in_flat_map in Hp as (ix & _ & Hp). apply in_flat_map in Hp as (iy & _ & Hp). apply Hb. eapply pastes_shift. exists p. split; [exact Hp|exact Es]. }
    destruct (M1 C) as [(D1 & D2 & D3) X]. split; [split; [exact D1|split; [apply keyed_del; exact D2|]]|].
    - intros k b' src. cbn [set_buffers c_buffers]. rewrite d_get_del. destruct (str_eqb k tmp); [discriminate|apply D3].
    - eapply ch_trans; [exact X|]. cbn [set_buffers c_buffers]. split.
      + intros i Hc _. rewrite d_get_del. destruct (str_eqb i tmp) eqn:E; [|reflexivity].
        apply str_eqb_eq in E. subst i. exfalso. apply (blocky_not_code tmp); [right; right; exact Ht|exact Hc].
      + intros i m _ [b' M]. left. rewrite d_get_del in M. destruct (str_eqb _ tmp); [discriminate M|]. exists b'; exact M.
  Qed.
  Lemma mv_ad (W : str -> Prop) S a s x x' : code (ad_id a) -> W (ad_id a) -> on_aperture md clock a s x = Ok x' -> moves W S x x'.
  Proof.
    intros Hc Hw E. pose proof (code_plain _ Hc) as Hp.
    assert (Put : forall b y, bf_id b = ad_id a -> (forall src, pastes (bf_cmds b) src -> ~ code src) -> moves W S y (set_buffer b y)).
    { intros b y Eb Hb (C1 & C2 & C3). unfold set_buffer. split; [split; [exact C1|split]|]; cbn [c_buffers].
      - apply keyed_set; [exact C2|reflexivity].
      - apply unpasted_set; auto.
      - rewrite Eb. apply ch_set; auto. }
    apply on_aperture_inv in E as [(ds & -> & Hds)|(sc & m & Hm & ->)].
    - apply Put; [apply append_draws_id|]. intros src P. rewrite append_draws_cmds in P. destruct (no_pastes _ Hds _ P).
    - enough (X : moves W S x (ms_c m) /\ bf_id (ms_buf m) = ad_id a /\ forall src, pastes (bf_cmds (ms_buf m)) src -> ~ code src).
      { destruct X as (X1 & X2 & X3). eapply mv_trans; [exact X1|apply Put; auto]. }
      induction Hm as [|m1 m2 _ (I1 & I2 & I3) Hs].
      + split; [apply Put; [reflexivity|]; intros src P; destruct (pastes_nil _ P)|]. split; [reflexivity|]. intros src P. destruct (pastes_nil _ P).
      + destruct Hs as [ds Ec Eb Hds|uid ds c Ec Eb Hds]; rewrite Ec, Eb.
        * split; [exact I1|]. split; [rewrite append_draws_id; exact I2|]. intros src P. rewrite append_draws_cmds in P.
          apply pastes_app in P as [P|P]; [auto|]. destruct (no_pastes _ Hds _ P).
        * set (id := thermal_id clock uid (ms_c m1)).
          assert (Ht : thermal id) by (exists uid, (clock (length (c_stamps (ms_c m1)))); reflexivity).
          split; [|split; [rewrite append_draw_id; exact I2|]].
          -- eapply mv_trans; [exact I1|]. intros (C1 & C2 & C3). unfold with_thermal, set_buffer. split; [split; [exact C1|split]|]; cbn [c_buffers].
             ++ apply keyed_set; [exact C2|reflexivity].
             ++ apply unpasted_set; [exact C3|]. intros src P. rewrite append_draws_cmds in P. destruct (no_pastes _ Hds _ P).
             ++ rewrite append_draws_id. apply ch_set; [exact (plain_thermal id Ht)|]. intros Hi. destruct (thermal_not_code _ Ht Hi).
          -- intros src P. rewrite append_draw_cmds in P. apply pastes_app in P as [P|P]; [auto|].
             apply pastes_one in P as (p & E & <-). injection E as <-. exact (thermal_not_code _ Ht).
  Qed.
End Moves.

(** ** Thermals stay and are copied; the layers of definitions *)
Section Defined.
  Context {K : Type} {NK : Num K} (md : bool) (clock : nat -> Z) (Ms : mat K -> Prop) (ABs : str -> Prop).
  Hypothesis nopct : forall k : K, no_pct (n_repr k).
  Hypothesis Ms_inj : forall m m', Ms m -> Ms m' -> mtag m = mtag m' -> m = m'.
  Hypothesis AB_code : forall id, ABs id -> exists n, dcode id n.
  Notation H := (compiler_hooks (K := K) md clock).
  Notation bufs v := (c_buffers (v_ext v)).
  Notation code := (code ABs).
  Notation tnb := (tnb (K := K)).
  Implicit Types (bs : dict (buffer K)) (x : cstate K).
  Definition none (_ : str) : Prop := False.
  Definition none2 (_ _ : str) : Prop := False.
  Lemma none_code id : none id -> exists n, dcode id n. Proof. intros []. Qed.
  Lemma none_AB id : none id -> ABs id -> False. Proof. intros []. Qed.
  Notation T bs used := (N Ms none bs used []).
  Notation tok := (ok ABs).

  Lemma tnb_none k : nb none k -> tnb k.
  Proof. intros (b0 & ts & [[]|H1] & H2 & H3). exists b0, ts. auto. Qed.
  Lemma code_not_tnb id : code id -> ~ tnb id.
  Proof.
    intros Hc (c & ts & H1 & H2 & E). change id with (ext id []) in E.
    apply (ext_inj nopct) in E as [-> _]; [|exact (code_plain ABs _ Hc)|exact (plain_thermal c H1)|constructor|exact H2].
    exact (thermal_not_code ABs _ H1 Hc).
  Qed.
  Lemma code_key_not_tnb id (m : mat K) : code id -> ~ tnb (layer_key id m).
  Proof. intros Hc Ht. exact (code_not_tnb id Hc (tnb_unkey nopct none none_code id m Ht)). Qed.
  Lemma T_more bs used u : T bs used -> T bs (u :: used).
  Proof. intros HT. apply N_same with bs used; [exact HT|intros k _; reflexivity|intros c Hc; right; exact Hc]. Qed.
  Lemma T_set bs used k b : T bs used -> ~ tnb k -> T (d_set k b bs) used.
  Proof.
    intros HT Hk. apply N_same with bs used; [exact HT| |auto]. intros j Hj. rewrite d_get_set.
    destruct (str_eqb j k) eqn:E; [|reflexivity]. apply str_eqb_eq in E. subst j. destruct (Hk (tnb_none _ Hj)).
  Qed.

  (** A definition. *)
  Definition own_thermals bs (b : buffer K) : Prop := forall src, pastes (bf_cmds b) src -> tnb src /\ mem src bs.
  Lemma ad_defines a s x x' : code (ad_id a) -> on_aperture md clock a s x = Ok x' -> tok x ->
    tok x' /\ (NoDup (c_stamps x') -> NoDup (c_stamps x) /\ (T (c_buffers x) (c_stamps x) ->
      T (c_buffers x') (c_stamps x') /\ (forall k b, tnb k -> d_get k (c_buffers x) = Some b -> d_get k (c_buffers x') = Some b) /\
      exists b, d_get (ad_id a) (c_buffers x') = Some b /\ own_thermals (c_buffers x') b)).
  Proof.
    intros Hc E [O1 O2]. set (id := ad_id a) in *. pose proof (code_not_tnb id Hc) as Hn.
    assert (Keep : forall bs b k b', tnb k -> d_get k bs = Some b' -> d_get k (d_set id b bs) = Some b').
    { intros bs b k b' Hk G. rewrite d_get_set. destruct (str_eqb k id) eqn:E1; [|exact G]. apply str_eqb_eq in E1. subst k. destruct (Hn Hk). }
    apply on_aperture_inv in E as [(ds & -> & Hds)|(sc & m & Hm & ->)].
    - split; [split; [exact O1|apply keyed_set; [exact O2|reflexivity]]|]. cbn [set_buffer c_stamps c_buffers]. rewrite append_draws_id. cbn [empty_buffer bf_id]. fold id.
      intros HD. split; [exact HD|]. intros HT. split; [apply T_set; auto|]. split; [intros k b; apply Keep|].
      exists (append_draws ds (empty_buffer id)). split; [rewrite d_get_set, str_eqb_refl; reflexivity|].
      intros src P. rewrite append_draws_cmds in P. destruct (no_pastes _ Hds _ P).
    - enough (X : tok (ms_c m) /\ bf_id (ms_buf m) = id /\ (NoDup (c_stamps (ms_c m)) -> NoDup (c_stamps x) /\ (T (c_buffers x) (c_stamps x) ->
        T (c_buffers (ms_c m)) (c_stamps (ms_c m)) /\ (forall k b, tnb k -> d_get k (c_buffers x) = Some b -> d_get k (c_buffers (ms_c m)) = Some b) /\
        own_thermals (c_buffers (ms_c m)) (ms_buf m)))).
      { destruct X as ([P1 P2] & X2 & X3). split; [split; [exact P1|apply keyed_set; [exact P2|reflexivity]]|]. cbn [set_buffer c_stamps c_buffers]. rewrite X2.
        intros HD. destruct (X3 HD) as [HD0 X4]. split; [exact HD0|]. intros HT. destruct (X4 HT) as (Y1 & Y2 & Y3).
        split; [apply T_set; auto|]. split; [intros k b Hk G; apply Keep; auto|]. exists (ms_buf m). split; [rewrite d_get_set, str_eqb_refl; reflexivity|].
        intros src P. destruct (Y3 src P) as [Z1 Z2]. split; [exact Z1|]. apply mem_set. auto. }
      induction Hm as [|m1 m2 _ (I1 & I2 & I3) Hs].
      + cbn [ms_c ms_buf set_buffer c_stamps c_buffers empty_buffer bf_id]. split; [split; [exact O1|apply keyed_set; [exact O2|reflexivity]]|]. split; [reflexivity|].
        intros HD. split; [exact HD|]. intros HT. split; [apply T_set; auto|]. split; [intros k b; apply Keep|]. intros src P. destruct (pastes_nil _ P).
      + destruct Hs as [ds Ec Eb Hds|uid ds c Ec Eb Hds]; rewrite Ec, Eb.
        * split; [exact I1|]. split; [rewrite append_draws_id; exact I2|]. intros HD. destruct (I3 HD) as [HD0 I4]. split; [exact HD0|].
          intros HT. destruct (I4 HT) as (Y1 & Y2 & Y3). split; [exact Y1|]. split; [exact Y2|]. intros src P. rewrite append_draws_cmds in P.
          apply pastes_app in P as [P|P]; [auto|]. destruct (no_pastes _ Hds _ P).
        * set (i := thermal_id clock uid (ms_c m1)) in *. unfold with_thermal, set_buffer. cbn [c_buffers c_stack c_stamps].
          rewrite append_draws_id. cbn [empty_buffer bf_id].
          assert (Ht : thermal i) by (exists uid, (clock (length (c_stamps (ms_c m1)))); reflexivity).
          split; [destruct I1 as [J1 J2]; split; [exact J1|apply keyed_set; [exact J2|rewrite append_draws_id; reflexivity]]|].
          split; [rewrite append_draw_id; exact I2|]. intros HD. inversion HD as [|? ? Hf HD1]; subst. destruct (I3 HD1) as [HD0 I4]. split; [exact HD0|].
          intros HT. destruct (I4 HT) as (Y1 & Y2 & Y3).
          assert (HF : forall ts, tags (K := K) ts -> ~ mem (ext i ts) (c_buffers (ms_c m1))).
          { intros ts Hts M. apply Hf. apply (N_src _ _ _ _ _ Y1 i ts Hts M). exact Ht. }
          split; [|split].
          -- apply (N_set Ms nopct none none_code); auto.
             ++ apply T_more; exact Y1.
             ++ right; exact Ht.
             ++ intros ts Hts M. destruct (HF ts Hts M).
             ++ intros _ M. apply (HF []); [constructor|exact M].
             ++ intros src P. rewrite append_draws_cmds in P. destruct (no_pastes _ Hds _ P).
             ++ intros _. left; reflexivity.
          -- intros k b Hk G. rewrite d_get_set. destruct (str_eqb k i) eqn:E1; [|auto]. apply str_eqb_eq in E1. subst k.
             exfalso. apply (HF []); [constructor|]. exists b. apply Y2; auto.
          -- intros src P. rewrite append_draw_cmds in P. apply pastes_app in P as [P|P].
             ++ destruct (Y3 src P) as [Z1 Z2]. split; [exact Z1|apply mem_set; auto].
             ++ apply pastes_one in P as (p & E & <-). injection E as <-. cbn [pa_src].
                split; [exists i, []; split; [exact Ht|split; [constructor|reflexivity]]|apply mem_set; auto].
  Qed.

  (** The copy made of a layer that pastes thermals only. *)
  Lemma first_copy f (m : mat K) id bs b bs' used base0 : Ms m -> keyed bs -> T bs used -> code id ->
    d_get id bs = Some base0 -> own_thermals bs base0 -> ~ mem (layer_key id m) bs ->
    transformed f m id bs = Ok (b, bs') -> copy_of bs' m id (layer_key id m) /\
    forall b' src, d_get (layer_key id m) bs' = Some b' -> pastes (bf_cmds b') src -> tnb src.
  Proof.
    intros Hm Hk HT Hc Eb Ho Hno. rewrite transformed_eq.
    destruct (d_get (layer_key id m) bs) as [b0|] eqn:Ek; [destruct Hno; exists b0; exact Ek|]. destruct f as [|f]; [discriminate|].
    unfold get_buffer. rewrite Eb. cbn [bind].
    assert (HL : forall cs acc deps bs r, keyed bs -> T bs used -> (forall src, pastes cs src -> tnb src /\ mem src bs) ->
      copy_loop f m cs acc deps bs = Ok r ->
      T (snd r) used /\ (forall k b0, d_get k bs = Some b0 -> d_get k (snd r) = Some b0) /\
      exists new, fst (fst r) = acc ++ new /\ copy_cmds (snd r) m cs new /\ forall src, pastes new src -> tnb src).
    { clear - nopct Ms_inj Hm. induction cs as [|[sh|p] cs IHc]; intros acc deps bs0 r Hk0 HT0 Hcs; cbn [copy_loop].
      - intros E; injection E as <-. split; [exact HT0|]. split; [auto|]. exists []. rewrite app_nil_r. split; [reflexivity|].
        split; [constructor|]. intros src P. destruct (pastes_nil _ P).
      - intros E. edestruct IHc as (A & B & new & C1 & C2 & C3); [exact Hk0|exact HT0| |exact E|].
        + intros src (q & Hq & Es). apply Hcs. exists q. split; [right; exact Hq|exact Es].
        + split; [exact A|]. split; [exact B|]. exists (DShape (shape_transform m sh) :: new). rewrite C1, <- app_assoc. split; [reflexivity|].
          split; [constructor; [apply shape_image|exact C2]|]. intros src (q & [Hq|Hq] & Es); [discriminate Hq|]. apply C3. exists q. auto.
      - destruct (transformed f m (pa_src p) bs0) as [[b1 bs1]|] eqn:Et; [|discriminate]. cbn [bind].
        pose proof (transformed_N Ms nopct Ms_inj none none_code m used [] Hm _ _ _ _ _ Hk0 HT0 Et) as HT1.
        pose proof (keyed_transformed f m _ _ _ _ Hk0 Et) as Hk1.
        destruct (transformed_key_stored m f _ _ _ _ Hk0 Et) as [S1 S2]. pose proof (transformed_old f m _ _ _ _ Et) as O1.
        destruct (Hcs (pa_src p)) as [(c & ts & T1 & T2 & T3) _]; [exists p; split; [left; reflexivity|reflexivity]|].
        intros E. edestruct IHc as (A & B & new & C1 & C2 & C3); [exact Hk1|exact HT1| |exact E|].
        + intros src (q & Hq & Es). destruct (Hcs src) as [Z1 [b2 Z2]]; [exists q; split; [right; exact Hq|exact Es]|]. split; [exact Z1|]. exists b2. auto.
        + split; [exact A|]. split; [auto|]. exists (DPaste (MkPaste (bf_id b1) (v_transform m (pa_center p)) (pa_neg p) (pa_meta p)) :: new).
          rewrite C1, <- app_assoc. split; [reflexivity|]. split.
          * constructor; [|reflexivity|reflexivity|exact C2]. cbn [pa_src]. rewrite S2, T3, layer_key_ext.
            apply (N_copy _ _ _ _ _ A); [exact Hm|right; exact T1|exact T2|]. rewrite <- layer_key_ext, <- T3. exists b1. apply B. exact S1.
          * intros src (q & [Hq|Hq] & Es); [|apply C3; exists q; auto]. injection Hq as <-. cbn [pa_src] in Es. subst src. rewrite S2.
            apply tnb_key. exists c, ts. auto. }
    destruct (copy_loop f m (bf_cmds base0) [] [] bs) as [[[cmds deps] bs1]|] eqn:El; [|discriminate]. cbn [bind].
    intros E; injection E as _ <-. destruct (HL _ _ _ _ _ Hk HT Ho El) as (A & B & new & C1 & C2 & C3). cbn [fst snd app] in *. subst new.
    pose proof (code_key_not_tnb id m Hc) as Hkey.
    assert (Keep : forall k b0, k <> layer_key id m -> d_get k bs1 = Some b0 -> d_get k (d_set (layer_key id m) (MkBuf (layer_key id m) cmds deps) bs1) = Some b0).
    { intros k b0 Hne G. rewrite d_get_set. apply str_eqb_neq in Hne. rewrite Hne. exact G. }
    split; [|intros b' src; rewrite d_get_set, str_eqb_refl; intros E; injection E as <-; apply C3].
    apply co_layer with base0 (MkBuf (layer_key id m) cmds deps).
    - apply Keep; [|apply B; exact Eb]. intros E. rewrite E in Hc. exact (key_not_code ABs _ _ Hc).
    - rewrite d_get_set, str_eqb_refl. reflexivity.
    - cbn [bf_cmds]. apply (copy_cmds_mono tnb bs1).
      + intros k b0 src Hk' G P. apply (N_pastes _ _ _ _ _ A k b0 src (tnb_nb none k Hk') G P).
      + intros k b0 Hk' G. apply Keep; [|exact G]. intros ->. exact (Hkey Hk').
      + exact C2.
      + intros src P. exact (proj1 (Ho src P)).
      + exact C3.
  Qed.

  (** ** Points *)
  Definition flashed (pre : list (node K)) (id t : str) : Prop := exists p cx cy q,
    pre = p ++ ND03 cx cy :: q /\ latest_selection p = Some id /\ mtag (matrix_at p) = t.
  Lemma flashed_app pre n id t : flashed pre id t -> flashed (pre ++ n) id t.
  Proof. intros (p & x & y & q & -> & A). exists p, x, y, (q ++ n). split; [rewrite <- app_assoc; reflexivity|exact A]. Qed.
  Lemma blocks_named pre v : named_point H compiler_init ABs pre v ->
    forall i b, d_get i (s_blocks (v_state v)) = Some b -> b = i /\ ABs i.
  Proof.
    induction 1 as [|pre v n v' _ IH _ E|pre v id _ IH _|pre v id _ IH Hid|pre v uid _ IH|pre v uid t hdr v' _ IH E]; intros i b.
    - discriminate.
    - destruct (frame_leaf H n v v' E) as (_ & -> & _). apply IH.
    - apply IH.
    - cbn [ab_leave with_state with_ext v_state register_block set_store s_blocks]. rewrite d_get_set.
      destruct (str_eqb i id) eqn:Ei; [|apply IH]. apply str_eqb_eq in Ei. subst i. intros E; injection E as <-. auto.
    - unfold sr_enter. destruct (hk_sr_open H uid _ _). apply IH.
    - unfold sr_leave in E. apply lift_done in E as (-> & _). apply IH.
  Qed.
  Lemma apertures_from pre v : named_point H compiler_init ABs pre v ->
    forall i a, d_get i (s_apertures (v_state v)) = Some a -> ad_id a = i /\ In (NAD a) pre.
  Proof.
    induction 1 as [|pre v n v' _ IH _ E|pre v id _ IH _|pre v id _ IH Hid|pre v uid _ IH|pre v uid t hdr v' _ IH E]; intros i a.
    - discriminate.
    - destruct (frame_leaf H n v v' E) as (F & _).
      assert (Old : d_get i (s_apertures (v_state v)) = Some a -> ad_id a = i /\ In (NAD a) (pre ++ [n])).
      { intros G. destruct (IH i a G) as [A B]. split; [exact A|apply in_or_app; left; exact B]. }
      destruct n; rewrite F; try exact Old. rewrite d_get_set. destruct (str_eqb i (ad_id a0)) eqn:Ei; [|exact Old].
      intros E'; injection E' as <-. apply str_eqb_eq in Ei. split; [auto|apply in_or_app; right; left; reflexivity].
    - apply IH.
    - intros G. destruct (IH i a G) as [A B]. split; [exact A|apply in_or_app; left; exact B].
    - unfold sr_enter. destruct (hk_sr_open H uid _ _). apply IH.
    - unfold sr_leave in E. apply lift_done in E as (-> & _). apply IH.
  Qed.

  Lemma leaf_moves pre v n v' : named_point H compiler_init ABs pre v -> (forall a, n <> NAD a) ->
    visit_leaf H n v = Done v' \/ visit_leaf H n v = Stop v' ->
    moves ABs none (flashed (pre ++ [n])) (v_ext v) (v_ext v').
  Proof.
    intros Hnp Hn E. destruct (leaf_ext_spec H n v v' E) as [|x y i j h s x' -> Er -> Ed|x y h a s x' -> Er Ea Eh Ef|s x' Ef|s|s s' x' Ef|a s x' -> Ea].
    - apply mv_refl.
    - exact (mv_draw md ABs AB_code _ _ _ _ _ _ Ed).
    - refine (mv_flash md ABs nopct AB_code _ _ _ _ _ _ _ _ Ef).
      exists pre, x, y, []. split; [reflexivity|]. pose proof (named_at md clock ABs _ _ Hnp) as Hp.
      rewrite <- (pl_apid md clock _ _ Hp), <- (matrix_point md clock _ _ Hp).
      apply read_coords_inv in Er as (x2 & y2 & i2 & j2 & _ & _ & _ & _ & ->). split; [|reflexivity].
      unfold current_aperture in Ea. cbn [set_xyij s_apid s_apertures s_blocks] in Ea.
      destruct (s_apid (v_state v)) as [i|]; [|discriminate].
      destruct (d_get i (s_apertures (v_state v))) as [a0|] eqn:E1; [apply Ok_inj in Ea; subst a; destruct (apertures_from _ _ Hnp _ _ E1) as [-> _]; reflexivity|].
      destruct (d_get i (s_blocks (v_state v))) as [b0|] eqn:E2; [apply Ok_inj in Ea; subst a; destruct (blocks_named _ _ Hnp _ _ E2) as [-> _]; reflexivity|discriminate].
    - exact (mv_flush ABs AB_code _ _ _ _ _ Ef).
    - apply mv_contour.
    - eapply mv_trans; [exact (mv_flush ABs AB_code _ _ _ _ _ Ef)|apply mv_contour].
    - destruct (Hn a eq_refl).
  Qed.

  (** [a], defined after [p], is what the layers of its code were made from. *)
  Definition made p a bs : Prop := exists s x0 x1 b,
    (forall name, d_get name (s_macros s) = macros_of p name) /\ on_aperture md clock a s x0 = Ok x1 /\ NoDup (c_stamps x1) /\
    d_get (ad_id a) (c_buffers x1) = Some b /\ d_get (ad_id a) bs = Some b /\ own_thermals (c_buffers x1) b /\
    forall src, pastes (bf_cmds b) src -> exists b1, d_get src (c_buffers x1) = Some b1 /\ d_get src bs = Some b1.
  Definition Made (pre : list (node K)) bs : Prop := forall p a q,
    pre = p ++ NAD a :: q -> ~ In (ad_id a) (ad_codes q) -> made p a bs.
  Lemma made_kept p a bs bs' : made p a bs -> d_get (ad_id a) bs' = d_get (ad_id a) bs ->
    (forall k b, tnb k -> d_get k bs = Some b -> d_get k bs' = Some b) -> made p a bs'.
  Proof.
    intros (s & x0 & x1 & b & A1 & A2 & A0 & A3 & A4 & A5 & A6) E Hk. exists s, x0, x1, b. repeat (split; [assumption|]).
    split; [rewrite E; exact A4|]. split; [exact A5|]. intros src P. destruct (A6 src P) as (b1 & B1 & B2). exists b1. split; [exact B1|].
    apply Hk; [exact (proj1 (A5 src P))|exact B2].
  Qed.
  Definition known pre (v : visitor K (cstate K)) : Prop :=
    clean ABs (v_ext v) /\ (forall id (m : mat K), code id -> mem (layer_key id m) (bufs v) -> flashed pre id (mtag m)) /\
    (NoDup (c_stamps (v_ext v)) -> T (bufs v) (c_stamps (v_ext v)) /\ Made pre (bufs v)).

  Lemma snoc_split (pre t p q : list (node K)) n : pre ++ t = p ++ n :: q ->
    (exists q', pre = p ++ n :: q' /\ q = q' ++ t) \/ (exists t', t = t' ++ n :: q /\ p = pre ++ t').
  Proof.
    revert p. induction pre as [|a pre IH]; intros p E.
    - right. exists p. auto.
    - destruct p as [|b p]; cbn [app] in E.
      + injection E as -> <-. left. exists pre. auto.
      + injection E as -> E. destruct (IH p E) as [(q' & -> & ->)|(t' & -> & ->)]; [left; exists q'; auto|right; exists t'; auto].
  Qed.
  Lemma known_step pre t v v' : (forall a, ~ In (NAD a) t) -> (forall a, In (NAD a) pre -> code (ad_id a)) ->
    moves ABs none (flashed (pre ++ t)) (v_ext v) (v_ext v') -> evolves Ms none ABs [] (v_ext v) (v_ext v') ->
    known pre v -> known (pre ++ t) v'.
  Proof.
    intros Ht HA Hmv Hev (C & F & D). destruct (Hmv C) as (C' & X1 & X2). split; [exact C'|]. split.
    - intros id m Hc M. destruct (X2 id m Hc M) as [M'|M']; [apply flashed_app; auto|exact M'].
    - intros HN. destruct (Hev (conj (proj1 C) (proj1 (proj2 C)))) as [_ He]. destruct (He HN) as [HN0 He'].
      destruct (D HN0) as [HT HMa]. destruct (He' HT) as [HT' P]. split; [exact HT'|].
      intros p a q E Hl. apply snoc_split in E as [(q' & E & ->)|(t' & E & _)].
      + apply made_kept with (bufs v).
        * apply HMa with q'; [exact E|]. intros Hi. apply Hl. unfold ad_codes. rewrite flat_map_app. apply in_or_app. left; exact Hi.
        * apply X1; [|intros []]. apply HA. rewrite E. apply in_or_app. right; left; reflexivity.
        * intros k b Hk G. apply P; [apply tnb_nb; exact Hk|exact G].
      + destruct (Ht a). rewrite E. apply in_or_app. right; left; reflexivity.
  Qed.
  Lemma known_point pre v : named_point H compiler_init ABs pre v ->
    (forall a, In (NAD a) pre -> code (ad_id a)) -> (forall p q, pre = p ++ q -> Ms (matrix_at p)) -> known pre v.
  Proof.
    induction 1 as [|pre v n v' Hp IH Hl E|pre v id _ IH Hid|pre v id _ IH Hid|pre v uid _ IH|pre v uid t hdr v' _ IH E]; intros HA HM.
    - assert (Hg : forall k b, d_get k (c_buffers (compiler_init (K := K))) = Some b -> k = main_id /\ b = empty_buffer main_id).
      { intros k b. cbn [compiler_init c_buffers d_get]. destruct (str_eqb k main_id) eqn:E; [|discriminate].
        apply str_eqb_eq in E. intros E'; injection E' as <-. auto. }
      split; [split; [|split]|split].
      + intros i [<-|[]]. left; reflexivity.
      + intros k b G. apply Hg in G as [-> ->]. reflexivity.
      + intros k b src G P. apply Hg in G as [_ ->]. destruct (pastes_nil _ P).
      + intros id m _ [b G]. apply Hg in G as [E _]. pose proof (plain_main (K := K)) as Hpm. rewrite <- E in Hpm. destruct (plain_key _ _ Hpm).
      + intros _. split; [apply (N_init Ms nopct none ABs none_code AB_code none_AB)|]. intros p a q E. destruct p; discriminate E.
    - assert (HA' : forall a, In (NAD a) pre -> code (ad_id a)) by (intros a Ha; apply HA, in_or_app; left; exact Ha).
      specialize (IH HA' (fun p q Eq => HM p (q ++ [n]) (eq_trans (f_equal (fun l => l ++ [n]) Eq) (eq_sym (app_assoc p q [n]))))).
      assert (Hc : (exists a, n = NAD a) \/ forall a, n <> NAD a) by (destruct n; try (right; intros a0 E0; discriminate E0); left; eauto).
      destruct Hc as [[a ->]|Hn].
      + destruct E as [E|E]; [|destruct (leaf_stop _ _ _ _ E) as [[E'|E'] _]; discriminate E'].
        destruct (leaf_adef H a v v' E) as (s & Ea & Es0). cbn [compiler_hooks hk_ad] in Ea. destruct IH as (C & F & D).
        assert (Ha : code (ad_id a)) by (apply HA, in_or_app; right; left; reflexivity).
        destruct (mv_ad md clock ABs (fun i => i = ad_id a) none2 a s _ _ Ha eq_refl Ea C) as (C' & X1 & X2).
        split; [exact C'|]. split; [intros id m Hc M; apply flashed_app; destruct (X2 id m Hc M) as [M'|[]]; auto|]. intros HN.
        destruct (ad_defines a s _ _ Ha Ea (conj (proj1 C) (proj1 (proj2 C)))) as [_ Hd]. destruct (Hd HN) as [HN0 Hd'].
        destruct (D HN0) as [HT HMa]. destruct (Hd' HT) as (HT' & P & b & G & Ho). split; [exact HT'|].
        intros p a' q Eq Hlast. apply snoc_split in Eq as [(q' & Eq & ->)|(t' & Eq & ->)].
        * unfold ad_codes in Hlast. rewrite flat_map_app in Hlast. apply made_kept with (bufs v).
          -- apply HMa with q'; [exact Eq|]. intros Hi. apply Hlast, in_or_app. left; exact Hi.
          -- apply X1; [apply HA'; rewrite Eq; apply in_or_app; right; left; reflexivity|]. intros Ei. apply Hlast, in_or_app. right; left; auto.
          -- exact P.
        * destruct t' as [|n0 t']; cbn [app] in Eq; [|injection Eq as _ Eq; destruct t'; discriminate Eq].
          injection Eq as <- <-. rewrite app_nil_r. exists s, (v_ext v), (v_ext v'), b.
          split; [intros name; rewrite Es0, (macros_point md clock _ _ (pt_leaf _ _ _ _ (NAD a) _ (named_at md clock ABs _ _ Hp) Logic.I (or_introl E))); unfold macros_of; rewrite fold_left_app; reflexivity|].
          repeat (split; [assumption|]). intros src Ps. destruct (Ho src Ps) as [_ [b1 M]]. exists b1. auto.
      + apply known_step with v; auto.
        * intros a [Ea|[]]. destruct (Hn a Ea).
        * apply leaf_moves; auto.
        * apply (leaf_evolves md clock Ms nopct Ms_inj none ABs none_code AB_code none_AB [] n v v' Hn); [|exact E].
          rewrite (matrix_point md clock _ _ (named_at md clock ABs _ _ Hp)). exact (HM pre [n] eq_refl).
    - rewrite <- (app_nil_r pre). apply known_step with v; rewrite ?app_nil_r; auto.
      + exact (mv_ab_open ABs AB_code _ _ id (v_state v) (v_ext v) Hid).
      + exact (ev_ab_open Ms nopct none ABs none_code AB_code none_AB [] id (v_state v) (v_ext v) Hid).
    - assert (HA' : forall a, In (NAD a) pre -> code (ad_id a)) by (intros a Ha; apply HA, in_or_app; left; exact Ha).
      apply known_step with v; auto.
      + intros a [Ea|[]]. discriminate Ea.
      + exact (mv_pop ABs _ _ (v_ext v)).
      + exact (ev_pop Ms none ABs [] (v_ext v)).
      + apply IH; [exact HA'|]. intros p q ->. apply (HM p (q ++ [NAB id []])). rewrite <- app_assoc. reflexivity.
    - rewrite <- (app_nil_r pre). apply known_step with v; rewrite ?app_nil_r; auto; unfold sr_enter; cbn [compiler_hooks hk_sr_open].
      + pose proof (mv_sr_open clock ABs AB_code none (flashed pre) uid (v_state v) (v_ext v)) as He.
        destruct (sr_open clock uid (v_state v) (v_ext v)) as [tmp x']. exact He.
      + pose proof (ev_sr_open clock Ms nopct none ABs none_code AB_code none_AB [] uid (v_state v) (v_ext v)) as He.
        destruct (sr_open clock uid (v_state v) (v_ext v)) as [tmp x']. exact He.
    - unfold sr_leave in E. apply lift_done in E as (_ & _ & _ & _ & E).
      assert (Ht : sr_tmp (lit "%%SR%" ++ z_repr uid ++ lit "%" ++ z_repr t)) by (exists uid, t; reflexivity).
      rewrite <- (app_nil_r pre). apply known_step with v; rewrite ?app_nil_r; auto.
      + exact (mv_sr_close ABs AB_code _ _ _ _ _ _ _ Ht E).
      + exact (ev_sr_close Ms nopct none ABs none_code AB_code none_AB [] _ _ _ _ _ Ht E).
  Qed.

  (** What the flash of a code shows that was not flashed under the transformation before. *)
  Lemma flash_made pre v p a q (x y : option str) v' : named_point H compiler_init ABs pre v ->
    (forall a, In (NAD a) pre -> code (ad_id a)) -> (forall p q, pre = p ++ q -> Ms (matrix_at p)) ->
    NoDup (c_stamps (v_ext v)) -> pre = p ++ NAD a :: q -> ~ In (ad_id a) (ad_codes q) ->
    latest_selection pre = Some (ad_id a) -> ~ flashed pre (ad_id a) (mtag (matrix_at pre)) ->
    visit_leaf H (ND03 x y) v = Done v' ->
    copy_of (bufs v') (matrix_at pre) (ad_id a) (layer_key (ad_id a) (matrix_at pre)) /\
    made p a (bufs v') /\
    forall b src b1, d_get (ad_id a) (bufs v') = Some b -> pastes (bf_cmds b) src -> d_get src (bufs v') = Some b1 -> forall k, ~ pastes (bf_cmds b1) k.
  Proof.
    intros Hnp HA HM HN Epre Hlast Hsel Hno E. pose proof (named_at md clock ABs _ _ Hnp) as Hp.
    destruct (known_point _ _ Hnp HA HM) as ((C1 & C2 & C3) & F & D). destruct (D HN) as [HT HMa].
    assert (Ha : In (NAD a) pre) by (rewrite Epre; apply in_or_app; right; left; reflexivity). pose proof (HA a Ha) as Hc.
    destruct (HMa p a q Epre Hlast) as (s0 & x0 & x1 & b & M1 & M2 & M0 & M3 & M4 & M5 & M6).
    destruct (leaf_d03 H _ _ _ _ E) as (s & ap & h & Hr & Hap & _ & Hf & Hst).
    apply read_coords_inv in Hr as (x2 & y2 & i2 & j2 & _ & _ & _ & _ & Es).
    assert (Em : state_matrix s = matrix_at pre) by (rewrite <- (matrix_point md clock _ _ Hp), Es; reflexivity).
    unfold current_aperture in Hap. rewrite Es in Hap. cbn [set_xyij s_apid s_apertures s_blocks] in Hap.
    rewrite (pl_apid md clock _ _ Hp), Hsel in Hap.
    destruct (selected_apertures md clock pre v a Hp Ha) as (a' & Ea'). rewrite Ea' in Hap. apply Ok_inj in Hap. subst ap.
    destruct (apertures_from _ _ Hnp _ _ Ea') as [Ida _]. cbn [compiler_hooks hk_flash] in Hf.
    apply on_flash_cases in Hf as [(ad & Ead & Hf)|(id & Hx & _)]; [|discriminate]. injection Ead as <-. rewrite Ida in Hf.
    apply flash_aperture_inv in Hf as (b2 & y1 & Eb & Ea2). apply aperture_buffer_inv in Eb as (bs' & Et & Ey1). rewrite Em in Et.
    set (m := matrix_at pre) in *. set (id := ad_id a) in *.
    assert (Hms : Ms m) by (apply (HM pre []); symmetry; apply app_nil_r).
    pose proof (transformed_N Ms nopct Ms_inj none none_code m _ [] Hms _ _ _ _ _ C2 HT Et) as HT1.
    pose proof (transformed_old _ _ _ _ _ _ Et) as O1.
    assert (Ho : own_thermals (bufs v) b).
    { intros src P. split; [exact (proj1 (M5 src P))|]. destruct (M6 src P) as (b1 & _ & G). exists b1; exact G. }
    destruct (first_copy _ m id _ _ _ _ b Hms C2 HT Hc M4 Ho (fun M => Hno (F id m Hc M)) Et) as [Hcopy Hown].
    apply append_current_inv in Ea2 as (top & st & tb & Etop & Etb & Ev').
    assert (Hb : blocky ABs top) by (apply C1; rewrite Ey1 in Etop; cbn [set_buffers c_stack] in Etop; rewrite Etop; left; reflexivity).
    assert (Kept : forall k b0, k = id \/ k = layer_key id m \/ tnb k -> d_get k bs' = Some b0 -> d_get k (bufs v') = Some b0).
    { intros k b0 Hk G. rewrite Ev', Ey1. cbn [set_buffers c_buffers]. rewrite d_get_set.
      assert (Hne : k <> top).
      { intros ->. destruct Hk as [->|[->|Hk]].
        - exact (blocky_not_code ABs _ Hb Hc).
        - exact (plain_key _ _ (plain_blocky ABs AB_code _ Hb)).
        - exact (nb_not_blocky nopct none ABs none_code AB_code none_AB top top (tnb_nb none top Hk) Hb eq_refl). }
      apply str_eqb_neq in Hne. rewrite Hne. exact G. }
    split.
    - apply (copy_mono (fun k => k = id \/ k = layer_key id m \/ tnb k) bs'); auto.
      intros k b0 src [->|[->|Hk]] G P; right; right.
      + rewrite (O1 _ _ M4) in G. injection G as <-. exact (proj1 (M5 src P)).
      + exact (Hown _ _ G P).
      + exact (proj1 (N_pastes _ _ _ _ _ HT1 k b0 src (tnb_nb none k Hk) G P)).
    - split.
      + exists s0, x0, x1, b. repeat (split; [assumption|]). split; [apply Kept; [auto|apply O1; exact M4]|]. split; [exact M5|].
        intros src P. destruct (M6 src P) as (b1 & G1 & G2). exists b1. split; [exact G1|]. apply Kept; [right; right; exact (proj1 (M5 src P))|apply O1; exact G2].
      + intros c src b1 G P G1. pose proof (Kept _ _ (or_introl eq_refl) (O1 _ _ M4)) as G'. rewrite G' in G. injection G as <-.
        destruct (M6 src P) as (b2' & _ & G2). pose proof (Kept src _ (or_intror (or_intror (proj1 (M5 src P)))) (O1 _ _ G2)) as G3.
        rewrite G3 in G1. injection G1 as <-. intros k. exact (N_leaf _ _ _ _ _ HT _ _ _ (proj1 (M5 src P)) G2).
  Qed.
  Lemma flash_first pre v p a q (x y : option str) v' : named_point H compiler_init ABs pre v ->
    (forall a, In (NAD a) pre -> code (ad_id a)) -> (forall p q, pre = p ++ q -> Ms (matrix_at p)) ->
    NoDup (c_stamps (v_ext v)) -> pre = p ++ NAD a :: q -> ~ In (ad_id a) (ad_codes q) ->
    latest_selection pre = Some (ad_id a) -> ~ flashed pre (ad_id a) (mtag (matrix_at pre)) ->
    visit_leaf H (ND03 x y) v = Done v' ->
    copy_of (bufs v') (matrix_at pre) (ad_id a) (layer_key (ad_id a) (matrix_at pre)) /\
    defined_as md clock pre a (bufs v').
  Proof.
    intros Hnp HA HM HN Epre Hlast Hsel Hno E.
    destruct (flash_made _ _ _ _ _ _ _ _ Hnp HA HM HN Epre Hlast Hsel Hno E) as (A & (s & x0 & x1 & b & M1 & M2 & _ & M3 & M4 & _ & M6) & _).
    split; [exact A|]. exists p, q, s, x0, x1, b. repeat (split; [assumption|]). exact M6.
  Qed.

  (** The first of the flashes. *)
  Lemma flashed_dec (pre : list (node K)) id t : flashed pre id t \/ ~ flashed pre id t.
  Proof.
    induction pre as [|n pre [IH|IH]] using rev_ind.
    - right. intros (p & ? & ? & q & E & _). destruct p; discriminate E.
    - left. apply flashed_app. exact IH.
    - assert (Inv : flashed (pre ++ [n]) id t -> exists cx cy, n = ND03 cx cy /\ latest_selection pre = Some id /\ mtag (matrix_at pre) = t).
      { intros (p & cx & cy & q & E & A). apply snoc_split in E as [(q' & E & _)|(t' & E & ->)].
        - exfalso. apply IH. exists p, cx, cy, q'. auto.
        - destruct t' as [|n0 t']; cbn [app] in E; [|injection E as _ E; destruct t'; discriminate E]. injection E as -> _.
          rewrite app_nil_r in A. exists cx, cy. auto. }
      assert (Hn : (exists cx cy, n = ND03 cx cy) \/ ~ exists cx cy, n = ND03 cx cy).
      { destruct n; try (right; intros (cx & cy & E); discriminate E). left; eauto. }
      destruct Hn as [(cx & cy & ->)|Hn]; [|right; intros Hf; destruct (Inv Hf) as (cx & cy & -> & _); apply Hn; eauto].
      destruct (latest_selection pre) as [i|] eqn:Es; [|right; intros Hf; destruct (Inv Hf) as (? & ? & _ & A & _); discriminate A].
      destruct (str_eqb i id) eqn:Ei; [|right; intros Hf; destruct (Inv Hf) as (? & ? & _ & A & _); injection A as ->; rewrite str_eqb_refl in Ei; discriminate Ei].
      destruct (str_eqb (mtag (matrix_at pre)) t) eqn:Et; [|right; intros Hf; destruct (Inv Hf) as (? & ? & _ & _ & A); rewrite A, str_eqb_refl in Et; discriminate Et].
      apply str_eqb_eq in Ei, Et. subst i. left. exists pre, cx, cy, []. auto.
  Qed.
  Lemma flashed_first (pre : list (node K)) id t : flashed pre id t -> exists p cx cy q,
    pre = p ++ ND03 cx cy :: q /\ latest_selection p = Some id /\ mtag (matrix_at p) = t /\ ~ flashed p id t.
  Proof.
    induction pre as [|n pre IH] using rev_ind.
    - intros (p & ? & ? & q & E & _). destruct p; discriminate E.
    - intros Hf. destruct (flashed_dec pre id t) as [Hd|Hd].
      + destruct (IH Hd) as (p & cx & cy & q & -> & A). exists p, cx, cy, (q ++ [n]). split; [rewrite <- app_assoc; reflexivity|exact A].
      + destruct Hf as (p & cx & cy & q & E & A1 & A2). exists p, cx, cy, q. split; [exact E|]. split; [exact A1|]. split; [exact A2|].
        apply snoc_split in E as [(q' & E & _)|(t' & E & ->)].
        * destruct Hd. exists p, cx, cy, q'. auto.
        * destruct t' as [|n0 t']; cbn [app] in E; [|injection E as _ E; destruct t'; discriminate E]. rewrite app_nil_r. exact Hd.
  Qed.
  Lemma point_split pre v : named_point H compiler_init ABs pre v -> forall p cx cy q, pre = p ++ ND03 cx cy :: q ->
    exists v0 v1, named_point H compiler_init ABs p v0 /\ visit_leaf H (ND03 cx cy) v0 = Done v1 /\
      walk H ABs (p ++ [ND03 cx cy]) v1 pre v.
  Proof.
    induction 1 as [|pre v n v' Hp IH Hl E|pre v id _ IH Hid|pre v id _ IH Hid|pre v uid _ IH|pre v uid t hdr v' _ IH E]; intros p cx cy q Eq.
    - destruct p; discriminate Eq.
    - apply snoc_split in Eq as [(q' & Eq & ->)|(t' & Eq & ->)].
      + destruct (IH _ _ _ _ Eq) as (v0 & v1 & A & B & C). exists v0, v1. split; [exact A|]. split; [exact B|]. eapply wk_leaf; eauto.
      + destruct t' as [|n0 t']; cbn [app] in Eq; [|injection Eq as _ Eq; destruct t'; discriminate Eq]. injection Eq as -> _. rewrite app_nil_r.
        destruct E as [E|E]; [|destruct (leaf_stop _ _ _ _ E) as [[E'|E'] _]; discriminate E'].
        exists v, v'. split; [exact Hp|]. split; [exact E|apply wk_here].
    - destruct (IH _ _ _ _ Eq) as (v0 & v1 & A & B & C). exists v0, v1. split; [exact A|]. split; [exact B|]. apply wk_ab_enter; auto.
    - apply snoc_split in Eq as [(q' & Eq & ->)|(t' & Eq & ->)].
      + destruct (IH _ _ _ _ Eq) as (v0 & v1 & A & B & C). exists v0, v1. split; [exact A|]. split; [exact B|]. apply wk_ab_leave; auto.
      + destruct t' as [|n0 t']; cbn [app] in Eq; [discriminate Eq|]. injection Eq as _ Eq. destruct t'; discriminate Eq.
    - destruct (IH _ _ _ _ Eq) as (v0 & v1 & A & B & C). exists v0, v1. split; [exact A|]. split; [exact B|]. apply wk_sr_enter; auto.
    - destruct (IH _ _ _ _ Eq) as (v0 & v1 & A & B & C). exists v0, v1. split; [exact A|]. split; [exact B|]. eapply wk_sr_leave; eauto.
  Qed.
  (** At a flash of a code that no block has there is a latest definition. *)
  Lemma flash_has_definition pre v id (x y : option str) v' : named_point H compiler_init ABs pre v -> latest_selection pre = Some id -> code id ->
    visit_leaf H (ND03 x y) v = Done v' -> exists p a q, pre = p ++ NAD a :: q /\ ad_id a = id /\ ~ In id (ad_codes q).
  Proof.
    intros Hnp Hsel Hc E. pose proof (named_at md clock ABs _ _ Hnp) as Hp.
    assert (Hin : In id (ad_codes pre)).
    { destruct (leaf_d03 H _ _ _ _ E) as (s & ap & h & Hr & Hap & _).
      apply read_coords_inv in Hr as (x2 & y2 & i2 & j2 & _ & _ & _ & _ & ->).
      unfold current_aperture in Hap. cbn [set_xyij s_apid s_apertures s_blocks] in Hap. rewrite (pl_apid md clock _ _ Hp), Hsel in Hap.
      destruct (d_get id (s_apertures (v_state v))) as [a|] eqn:E1.
      - destruct (apertures_from _ _ Hnp _ _ E1) as [<- Ha]. unfold ad_codes. apply in_flat_map. exists (NAD a). split; [exact Ha|left; reflexivity].
      - destruct (d_get id (s_blocks (v_state v))) as [b|] eqn:E2; [|discriminate]. destruct (blocks_named _ _ Hnp _ _ E2) as [_ Hb]. destruct (proj2 Hc Hb). }
    clear - Hin. induction pre as [|n pre IH] using rev_ind; [destruct Hin|].
    assert (Hn : (exists a, n = NAD a /\ ad_id a = id) \/ ~ In id (ad_code n)).
    { destruct n; try (right; intros []; fail). destruct (str_eqb (ad_id a) id) eqn:Ei.
      - apply str_eqb_eq in Ei. left; eauto.
      - apply str_eqb_neq in Ei. right. intros [Hi|[]]. auto. }
    destruct Hn as [(a & -> & Ei)|Hn].
    - exists pre, a, []. split; [reflexivity|]. split; [exact Ei|intros []].
    - unfold ad_codes in Hin. rewrite flat_map_app in Hin. apply in_app_or in Hin as [Hin|Hin].
      + destruct (IH Hin) as (p & a & q & -> & A & B). exists p, a, (q ++ [n]). split; [rewrite <- app_assoc; reflexivity|]. split; [exact A|].
        unfold ad_codes. rewrite flat_map_app. cbn [flat_map]. rewrite app_nil_r. intros Hi. apply in_app_or in Hi as [Hi|Hi]; auto.
      + cbn [flat_map] in Hin. rewrite app_nil_r in Hin. destruct (Hn Hin).
  Qed.
  Lemma walk_extends pre v pre' v' : walk H ABs pre v pre' v' -> exists q, pre' = pre ++ q.
  Proof.
    induction 1 as [|? ? n ? _ [q ->]| |? ? i _ [q ->] _| |]; auto.
    - exists []. rewrite app_nil_r. reflexivity.
    - exists (q ++ [n]). rewrite <- app_assoc. reflexivity.
    - exists (q ++ [NAB i []]). rewrite <- app_assoc. reflexivity.
  Qed.
  Lemma walk_stamps pre v pre' v' : walk H ABs pre v pre' v' -> named_point H compiler_init ABs pre v ->
    (forall a, In (NAD a) pre' -> code (ad_id a)) -> (forall p q, pre' = p ++ q -> Ms (matrix_at p)) ->
    NoDup (c_stamps (v_ext v')) -> NoDup (c_stamps (v_ext v)).
  Proof.
    induction 1 as [|pre1 v1 n v2 Hw IH Hl E|pre1 v1 id Hw IH Hid|pre1 v1 id Hw IH Hid|pre1 v1 uid Hw IH|pre1 v1 uid t hdr v2 Hw IH E]; intros Hp HA HM HN.
    - exact HN.
    - assert (HA' : forall a, In (NAD a) pre1 -> code (ad_id a)) by (intros a Ha; apply HA, in_or_app; left; exact Ha).
      assert (HM' : forall p q, pre1 = p ++ q -> Ms (matrix_at p)) by (intros p q ->; apply (HM p (q ++ [n])); rewrite <- app_assoc; reflexivity).
      apply IH; auto. pose proof (walk_point md clock ABs _ _ _ _ Hw Hp) as Hp1.
      destruct (known_point _ _ Hp1 HA' HM') as ((C1 & C2 & _) & _).
      assert (Hc : (exists a, n = NAD a) \/ forall a, n <> NAD a) by (destruct n; try (right; intros a0 E0; discriminate E0); left; eauto).
      destruct Hc as [[a ->]|Hn].
      + destruct E as [E|E]; [|destruct (leaf_stop _ _ _ _ E) as [[E'|E'] _]; discriminate E'].
        destruct (leaf_adef H a v1 v2 E) as (s & Ea & _). cbn [compiler_hooks hk_ad] in Ea.
        assert (Ha : code (ad_id a)) by (apply HA, in_or_app; right; left; reflexivity).
        destruct (ad_defines a s _ _ Ha Ea (conj C1 C2)) as [_ Hd]. exact (proj1 (Hd HN)).
      + assert (Hev : evolves Ms none ABs [] (v_ext v1) (v_ext v2)).
        { apply (leaf_evolves md clock Ms nopct Ms_inj none ABs none_code AB_code none_AB [] n v1 v2 Hn); [|exact E].
          rewrite (matrix_point md clock _ _ (named_at md clock ABs _ _ Hp1)). exact (HM pre1 [n] eq_refl). }
        exact (proj1 (proj2 (Hev (conj C1 C2)) HN)).
    - apply IH; auto.
    - apply IH; auto.
      + intros a Ha; apply HA, in_or_app; left; exact Ha.
      + intros p q ->; apply (HM p (q ++ [NAB id []])); rewrite <- app_assoc; reflexivity.
    - apply IH; auto. unfold sr_enter in HN. cbn [compiler_hooks hk_sr_open] in HN. unfold sr_open in HN. cbn [snd with_ext v_ext c_stamps] in HN. inversion HN; assumption.
    - apply IH; auto. pose proof (walk_point md clock ABs _ _ _ _ Hw Hp) as Hp1. destruct (known_point _ _ Hp1 HA HM) as ((C1 & C2 & _) & _).
      unfold sr_leave in E. apply lift_done in E as (_ & _ & _ & _ & E).
      assert (Ht : sr_tmp (lit "%%SR%" ++ z_repr uid ++ lit "%" ++ z_repr t)) by (exists uid, t; reflexivity).
      pose proof (ev_sr_close Ms nopct none ABs none_code AB_code none_AB [] _ _ _ _ _ Ht E) as Hev.
      exact (proj1 (proj2 (Hev (conj C1 C2)) HN)).
  Qed.
End Defined.

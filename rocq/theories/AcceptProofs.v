(** Proofs for C82: the compiler fails exactly at the commands that are not acceptable. *)
From Coq Require Import Reals Permutation.
From Verif Require Import Base Num NumReal Dict CoordModel CoordSpec Ast StateModel StateSpec StateProofs ExprSpec MacroSpec MacroProofs GeomModel CompilerModel
  LayerSpec LayerProofs LayerInv LayerOut DrawSpec DrawProofs FlashSpec FlashProofs RenderProofs PlaceSpec PlaceProofs RenderSpec AcceptSpec AcceptMacro.

(** ** What a command leaves in place *)
Section Stays.
  Context {K : Type} {NK : Num K} (md : bool) (clock : nat -> Z).
  Notation H := (compiler_hooks md clock).
  Implicit Types (x : cstate K).
  Definition stays x x' : Prop := c_stack x' = c_stack x /\
    (forall i, mem i (c_buffers x) -> mem i (c_buffers x')) /\ incl (c_stamps x) (c_stamps x').
  Lemma stays_refl x : stays x x.
  Proof. repeat split; auto. apply incl_refl. Qed.
  Lemma stays_trans x y z : stays x y -> stays y z -> stays x z.
  Proof. intros (A & B & C) (D & E & F). split; [congruence|]. split; [auto|]. eapply incl_tran; eauto. Qed.
  Lemma stays_set k b x : stays x (set_buffers (d_set k b (c_buffers x)) x).
  Proof. split; [reflexivity|]. split; [intros i Hi; apply mem_set; auto|apply incl_refl]. Qed.
  Lemma stays_append d x x' : append_current d x = Ok x' -> stays x x'.
  Proof. intros E. apply append_current_inv in E as (? & ? & ? & _ & _ & ->). apply stays_set. Qed.
  Lemma stays_all ds : forall x x', append_all ds x = Ok x' -> stays x x'.
  Proof.
    induction ds as [|d r IH]; intros x x'; cbn [append_all]; intros E; [injection E as <-; apply stays_refl|].
    destruct (append_current d x) as [x1|] eqn:E1; [|discriminate]. eapply stays_trans; [eapply stays_append; eauto|apply IH; exact E].
  Qed.
  Lemma stays_contour c x : stays x (set_contour c x).
  Proof. repeat split; auto. apply incl_refl. Qed.
  Lemma stays_aperture s id x b x' : aperture_buffer s id x = Ok (b, x') -> stays x x'.
  Proof.
    intros E. apply aperture_buffer_inv in E as (bs' & E & ->). split; [reflexivity|]. split; [|apply incl_refl].
    intros i Hi. eapply transformed_mem; eauto.
  Qed.
  Lemma stays_flash h a s x x' : on_flash md h a s x = Ok x' -> stays x x'.
  Proof.
    intros E. apply on_flash_cases in E as [(ad & -> & E)|(id & -> & E)].
    - apply flash_aperture_inv in E as (b & x1 & Ea & E). eapply stays_trans; [eapply stays_aperture; eauto|eapply stays_append; eauto].
    - apply flash_block_inv in E as (b & x1 & Ea & E). eapply stays_trans; [eapply stays_aperture; eauto|eapply stays_all; eauto].
  Qed.
  Lemma stays_draw h s x x' : on_draw md h s x = Ok x' -> stays x x'.
  Proof.
    apply (P_draw md (fun y => stays x y)); [|intros c y Hy; eapply stays_trans; [exact Hy|apply stays_contour]|apply stays_refl].
    intros sh y y' Hy E. eapply stays_trans; [exact Hy|eapply stays_append; eauto].
  Qed.
  Lemma stays_flush s x x' : flush_region s x = Ok x' -> stays x x'.
  Proof.
    apply (P_flush (fun y => stays x y)); [|intros c y Hy; eapply stays_trans; [exact Hy|apply stays_contour]|apply stays_refl].
    intros sh y y' Hy E. eapply stays_trans; [exact Hy|eapply stays_append; eauto].
  Qed.
  Lemma stays_def a s x x' : on_aperture md clock a s x = Ok x' -> stays x x' /\ mem (ad_id a) (c_buffers x').
  Proof.
    assert (S0 : forall b y, stays y (set_buffer b y)) by (intros b y; apply (stays_set (bf_id b) b y)).
    intros E. apply on_aperture_inv in E as [(ds & -> & _)|(sc & m & Hm & ->)].
    - split; [apply S0|]. cbn [set_buffer c_buffers]. apply mem_set. rewrite append_draws_id. auto.
    - split.
      + eapply stays_trans; [|apply S0]. eapply stays_trans; [apply (S0 (empty_buffer (ad_id a)))|].
        match type of Hm with prims_steps _ ?m0 _ => change (stays (ms_c m0) (ms_c m)) end.
        induction Hm as [|m1 m2 _ IH [ds E1 _ _|uid ds c E1 _ _]]; [apply stays_refl|rewrite E1; exact IH|].
        eapply stays_trans; [exact IH|]. rewrite E1. split; [reflexivity|]. split; [|intros i Hi; right; exact Hi].
        intros i Hi. cbn [with_thermal set_buffer c_buffers]. apply mem_set. auto.
      + cbn [set_buffer c_buffers]. apply mem_set. left. symmetry.
        match type of Hm with prims_steps _ ?m0 _ => change (bf_id (ms_buf m) = bf_id (ms_buf m0)) end.
        induction Hm as [|m1 m2 _ IH [ds _ E1 _|uid ds c _ E1 _]]; [reflexivity| |]; rewrite E1, <- IH; [apply append_draws_id|apply append_draw_id].
  Qed.
  Lemma leaf_stays n v v' : visit_leaf H n v = Done v' \/ visit_leaf H n v = Stop v' -> stays (v_ext v) (v_ext v').
  Proof.
    intros E. destruct (leaf_ext_spec H n v v' E) as [|x y i j h s x' -> Er -> Ed|x y h a s x' -> Er Ea Eh Ef|s x' Ef|s|s s' x' Ef|a s x' -> Ea].
    - apply stays_refl.
    - exact (stays_draw _ _ _ _ Ed).
    - exact (stays_flash _ _ _ _ _ Ef).
    - exact (stays_flush _ _ _ Ef).
    - apply stays_contour.
    - eapply stays_trans; [exact (stays_flush _ _ _ Ef)|apply stays_contour].
    - apply (stays_def _ _ _ _ Ea).
  Qed.

  (** The contour is open or closed. *)
  Definition openb x : bool := match c_contour x with Some _ => true | None => false end.
  Lemma open_append d x x' : append_current d x = Ok x' -> openb x' = openb x.
  Proof. intros E. apply append_current_inv in E as (? & ? & ? & _ & _ & ->). reflexivity. Qed.
  Lemma open_all ds : forall x x', append_all ds x = Ok x' -> openb x' = openb x.
  Proof.
    induction ds as [|d r IH]; intros x x'; cbn [append_all]; intros E; [injection E as <-; reflexivity|].
    destruct (append_current d x) as [x1|] eqn:E1; [|discriminate]. rewrite (IH _ _ E). eapply open_append; eauto.
  Qed.
  Lemma open_flash h a s x x' : on_flash md h a s x = Ok x' -> openb x' = openb x.
  Proof.
    intros E. apply on_flash_cases in E as [(ad & -> & E)|(id & -> & E)].
    - apply flash_aperture_inv in E as (b & x1 & Ea & E). rewrite (open_append _ _ _ E). apply aperture_buffer_inv in Ea as (bs' & _ & ->). reflexivity.
    - apply flash_block_inv in E as (b & x1 & Ea & E). rewrite (open_all _ _ _ E). apply aperture_buffer_inv in Ea as (bs' & _ & ->). reflexivity.
  Qed.
  Lemma open_draw h s x x' : on_draw md h s x = Ok x' -> openb x' = openb x.
  Proof.
    intros E. destruct h; cbn [on_draw] in E; try (injection E as <-; reflexivity).
    1: unfold draw_line in E.
    2,3: unfold draw_arc in E. 4: unfold region_line in E. 5,6: unfold region_arc in E.
    1-3: destruct (line_thickness _ s); [|discriminate]; cbn [bind] in E; cbv zeta in E; try destruct (v_eqb _ _); eapply open_all; exact E.
    all: unfold openb; destruct (c_contour x); [|discriminate]; injection E as <-; reflexivity.
  Qed.
  Lemma open_flush s x x' : flush_region s x = Ok x' -> openb x = true /\ openb x' = true.
  Proof.
    unfold flush_region, openb. intros E. destruct (c_contour x) as [[|g l]|]; [injection E as <-; auto| |discriminate].
    destruct (append_current _ x) as [x1|]; [|discriminate]. injection E as <-. auto.
  Qed.
  Lemma open_leaf n v v' : visit_leaf H n v = Done v' \/ visit_leaf H n v = Stop v' -> is_leaf n ->
    openb (v_ext v') = match sets_region n with Some b => b | None => openb (v_ext v) end.
  Proof.
    intros E Hl. destruct (calls_back n) eqn:Ec.
    2: { rewrite (leaf_quiet H n v v' Ec E). destruct n; try reflexivity. destruct g; try reflexivity; discriminate Ec. }
    destruct n; try discriminate Ec; cbn [sets_region].
    1-4: destruct E as [E|E]; [|apply leaf_stop in E as [[D|D] _]; discriminate D].
    - apply leaf_adef in E as (s & E & _). cbn [compiler_hooks hk_ad] in E. unfold openb. rewrite (on_aperture_contour md clock _ _ _ _ E). reflexivity.
    - apply leaf_d01 in E as (s & _ & E & _). exact (open_draw _ _ _ _ E).
    - apply leaf_d02 in E as (s & _ & _ & E). destruct (s_region (v_state v)); [|rewrite E; reflexivity]. apply open_flush in E as [-> ->]. reflexivity.
    - apply leaf_d03 in E as (s & a & h & _ & _ & _ & E & _). exact (open_flash _ _ _ _ _ E).
    - destruct E as [E|E]; [|apply leaf_stop in E as [[D|D] _]; discriminate D]. destruct g; try discriminate Ec.
      + apply leaf_g36 in E as (s & ->). reflexivity.
      + apply leaf_g37 in E as (x & s & _ & ->). reflexivity.
  Qed.

  (** Appending works while the stack has a buffer on top. *)
  Definition stacked x : Prop := exists id st, c_stack x = id :: st /\ mem id (c_buffers x).
  Lemma stacked_stays x x' : stays x x' -> stacked x -> stacked x'.
  Proof. intros (A & B & _) (id & st & C & D). exists id, st. split; [congruence|auto]. Qed.
  Lemma append_ok d x : stacked x -> exists x', append_current d x = Ok x'.
  Proof. intros (id & st & E & b & Eb). unfold append_current, get_buffer. rewrite E, Eb. cbn [bind]. eauto. Qed.
  Lemma append_all_ok ds : forall x, stacked x -> exists x', append_all ds x = Ok x'.
  Proof.
    induction ds as [|d r IH]; intros x Hx; cbn [append_all]; [eauto|].
    destruct (append_ok d x Hx) as [x1 E]. rewrite E. cbn [bind]. apply IH. eapply stacked_stays; [eapply stays_append; eauto|exact Hx].
  Qed.
  Lemma flush_ok s x : stacked x -> openb x = true -> exists x', flush_region s x = Ok x'.
  Proof.
    intros Hx Ho. unfold flush_region, openb in *. destruct (c_contour x) as [[|g l]|]; [eauto| |discriminate].
    match goal with |- context [append_current ?d x] => destruct (append_ok d x Hx) as [x1 E] end. rewrite E. cbn [bind]. eauto.
  Qed.
End Stays.

(** ** Copies of layers can be made *)
Section Copies.
  Context {K : Type} {NK : Num K} (md : bool) (clock : nat -> Z).
  Hypothesis repr_no_pct : forall k : K, no_pct (n_repr k).
  Context (ADs ABs : str -> Prop).
  Hypothesis AD_code : forall id, ADs id -> exists n, dcode id n.
  Hypothesis AB_code : forall id, ABs id -> exists n, dcode id n.
  Hypothesis AD_AB : forall id, ADs id -> ABs id -> False.
  Notation Inv := (Inv ADs ABs).
  Notation tags := (tags (K := K)).

  Lemma loop_ok (P : str -> Prop) f m used own : (forall id bs, Inv bs used own -> mem id bs -> P id -> exists r, transformed f m id bs = Ok r) ->
    forall cs acc deps bs, Inv bs used own -> (forall src, pastes cs src -> mem src bs /\ P src) -> exists r, copy_loop f m cs acc deps bs = Ok r.
  Proof.
    intros HT. induction cs as [|[sh|p] cs IH]; intros acc deps bs HI Hs; cbn [copy_loop]; [eauto| |].
    - apply IH; [exact HI|]. intros src (q & Hq & E). apply Hs. exists q. split; [right; exact Hq|exact E].
    - destruct (Hs (pa_src p)) as [A B]; [exists p; split; [left; reflexivity|reflexivity]|].
      destruct (HT _ _ HI A B) as [[b bs1] E]. rewrite E. cbn [bind].
      destruct (transformed_Inv ADs ABs m used own _ _ _ _ _ HI E) as (I1 & _ & _ & I4).
      apply IH; [exact I1|]. intros src (q & Hq & Eq). destruct (Hs src) as [C D]; [exists q; split; [right; exact Hq|exact Eq]|]. auto.
  Qed.
  Lemma copy_ok (P : str -> Prop) f m used own id bs : (forall id bs, Inv bs used own -> mem id bs -> P id -> exists r, transformed f m id bs = Ok r) ->
    Inv bs used own -> (exists b, d_get id bs = Some b /\ forall src, pastes (bf_cmds b) src -> mem src bs /\ P src) -> exists r, transformed (S f) m id bs = Ok r.
  Proof.
    intros HT HI (b & Hb & Hs). rewrite transformed_eq. destruct (d_get (layer_key id m) bs); [eauto|].
    unfold get_buffer. rewrite Hb. cbn [bind]. destruct (loop_ok P f m used own HT (bf_cmds b) [] [] bs HI Hs) as [[[c d] bs1] E]. rewrite E. cbn [bind]. eauto.
  Qed.
  Definition thermal_key (id : str) : Prop := exists c ts, thermal c /\ tags ts /\ id = ext c ts.
  Definition ad_key (id : str) : Prop := exists a ts, ADs a /\ tags ts /\ id = ext a ts.
  Lemma thermal_ok f m used own id bs : Inv bs used own -> mem id bs -> thermal_key id -> exists r, transformed (S f) m id bs = Ok r.
  Proof.
    intros HI [b Hb] (c & ts & Hc & Ht & ->). apply (copy_ok (fun _ => False) f m used own); [intros ? ? _ _ []|exact HI|]. exists b. split; [exact Hb|].
    intros src Hs. destruct (kind_thermal repr_no_pct ADs ABs AD_code AB_code _ _ _ _ b c ts HI Hb Hc Ht eq_refl src Hs).
  Qed.
  Lemma ad_ok f m used own id bs : Inv bs used own -> mem id bs -> ad_key id -> exists r, transformed (S (S f)) m id bs = Ok r.
  Proof.
    intros HI [b Hb] (a & ts & Ha & Ht & ->). apply (copy_ok thermal_key (S f) m used own); [intros; eapply thermal_ok; eauto|exact HI|]. exists b. split; [exact Hb|].
    intros src Hs. destruct (kind_ad repr_no_pct ADs ABs AD_code AB_code AD_AB _ _ _ _ b a ts HI Hb Ha Ht eq_refl src Hs) as (c & A & _ & _ & B & C).
    split; [exact C|]. exists c, ts. auto.
  Qed.
  Lemma block_ok f m used own id bs : Inv bs used own -> mem id bs -> blocky ABs id -> exists r, transformed (S (S (S f))) m id bs = Ok r.
  Proof.
    intros HI [b Hb] Hk. apply (copy_ok ad_key (S (S f)) m used own); [intros; eapply ad_ok; eauto|exact HI|]. exists b. split; [exact Hb|].
    intros src Hs. destruct (kind_blocky repr_no_pct ADs ABs AD_code AB_code AD_AB _ _ _ _ b id [] HI Hb Hk (Forall_nil _) eq_refl src Hs) as (a & ts & A & B & C & D).
    split; [exact D|]. exists a, ts. auto.
  Qed.

  Lemma two_buffers id (bs : dict (buffer K)) : mem main_id bs -> mem id bs -> id <> main_id -> exists n, length bs = S (S n).
  Proof.
    intros [a Ha] [b Hb] Hne. destruct bs as [|[k1 b1] [|[k2 b2] r]]; [discriminate| |cbn [length]; eauto].
    cbn [d_get] in Ha, Hb. destruct (str_eqb main_id k1) eqn:E1; [|discriminate]. destruct (str_eqb id k1) eqn:E2; [|discriminate].
    apply str_eqb_eq in E1, E2. congruence.
  Qed.
  Lemma aperture_ok s id x : CInv ADs ABs x -> NoDup (c_stamps x) -> mem id (c_buffers x) -> ADs id \/ ABs id -> exists r, aperture_buffer s id x = Ok r.
  Proof.
    intros (Hm & _ & HI) HN Hid Hk. destruct (HI HN) as [own HI'].
    assert (Hne : id <> main_id).
    { intros ->. assert (D : exists n, dcode main_id n) by (destruct Hk; auto). destruct D as [n D]. apply dcode_chars in D as (r & D & _). discriminate D. }
    destruct (two_buffers id _ Hm Hid Hne) as [n Hn]. unfold aperture_buffer. rewrite Hn.
    assert (R : exists r, transformed (S (S (S n))) (state_matrix s) id (c_buffers x) = Ok r).
    { destruct Hk as [Hk|Hk]; [eapply ad_ok; eauto; exists id, []; split; [exact Hk|split; [constructor|reflexivity]]|].
      eapply block_ok; eauto. right; left; exact Hk. }
    destruct R as [[b bs] E]. rewrite E. cbn [bind]. eauto.
  Qed.
  Lemma flash_ok h a s x : CInv ADs ABs x -> NoDup (c_stamps x) -> stacked x ->
    match a with ApAD d => mem (ad_id d) (c_buffers x) /\ ADs (ad_id d) /\ h <> FBlock | ApAB id => mem id (c_buffers x) /\ ABs id /\ h = FBlock end ->
    exists x', on_flash md h a s x = Ok x'.
  Proof.
    intros HC HN Hs Ha.
    destruct a as [d|id].
    - destruct Ha as (A & B & C). assert (E0 : on_flash md h (ApAD d) s x = flash_aperture md (ad_id d) s x) by (destruct h; try reflexivity; destruct (C eq_refl)).
      rewrite E0. unfold flash_aperture. destruct (aperture_ok s (ad_id d) x HC HN A (or_introl B)) as [[b x1] E]. rewrite E. cbn [bind].
      apply append_ok. eapply stacked_stays; [eapply stays_aperture; eauto|exact Hs].
    - destruct Ha as (A & B & ->). cbn [on_flash]. unfold flash_block. destruct (aperture_ok s id x HC HN A (or_intror B)) as [[b x1] E]. rewrite E. cbn [bind].
      apply append_all_ok. eapply stacked_stays; [eapply stays_aperture; eauto|exact Hs].
  Qed.
End Copies.

(** ** Points of a file *)
Lemma region_default {K} (pre : list (node K)) : last_set sets_region false pre = true -> last_set sets_region true pre = true.
Proof.
  unfold last_set. assert (L : forall l a b, (a = true -> b = true) ->
    fold_left (fun a n => match sets_region n with Some b => b | None => a end) l a = true ->
    fold_left (fun a (n : node K) => match sets_region n with Some b => b | None => a end) l b = true).
  { induction l as [|n l IH]; intros a b Hab; cbn [fold_left]; [exact Hab|]. apply IH. destruct (sets_region n); auto. }
  apply L. discriminate.
Qed.

Section Points.
  Variable text : R -> str.
  Notation NT := (with_text NumR text).
  Local Existing Instance NumR | 100.
  Variable (md : bool) (clock : nat -> Z).
  Hypothesis text_pct : forall k : R, ~ In "%"%char (text k).
  Hypothesis clock_inj : forall i j, clock i = clock j -> i = j.
  Context (ADs ABs : str -> Prop).
  Hypothesis AD_code : forall id, ADs id -> exists n, dcode id n.
  Hypothesis AB_code : forall id, ABs id -> exists n, dcode id n.
  Hypothesis AD_AB : forall id, ADs id -> ABs id -> False.
  Notation H := (compiler_hooks (NK := NT) md clock).
  Notation init := (compiler_init (K := R)).
  Notation vis := (visitor R (cstate R)).

  Lemma repr_pct : forall k : R, no_pct (n_repr (Num := NT) k).
  Proof. exact text_pct. Qed.

  Record G (pre : list (node R)) (v : vis) : Prop := {
    g_point : at_point (NK := NT) H init pre v;
    g_c : CInv (NK := NT) ADs ABs (v_ext v);
    g_b : BInv ADs ABs (v_state v);
    g_akeys : forall id a, d_get id (s_apertures (v_state v)) = Some a -> ad_id a = id;
    g_bkeys : forall id b, d_get id (s_blocks (v_state v)) = Some b -> b = id;
    g_defs : forall id, looked_up (v_state v) id = latest_def id pre;
    g_mem : forall id, latest_def id pre <> None -> mem id (c_buffers (v_ext v));
    g_stamps : stamped clock (c_stamps (v_ext v));
    g_some : c_stack (v_ext v) <> [];
    g_stack : forall id, In id (c_stack (v_ext v)) -> mem id (c_buffers (v_ext v)) /\ (sr_tmp id -> In id (c_stamps (v_ext v)));
    g_open : openb (v_ext v) = last_set sets_region true pre;
    g_sel : forall id, latest_selection pre = Some id -> latest_def id pre <> None /\ exists h, v_d03 v = Some h /\ (h = FBlock <-> ABs id) }.

  Lemma G_init : G [] (visitor_init (NK := NT) init).
  Proof.
    split; try discriminate.
    - constructor.
    - apply CInv_init.
    - split; intros ? ? E; discriminate E.
    - reflexivity.
    - intros id E. destruct (E eq_refl).
    - intros n Hn. inversion Hn.
    - intros id [<-|[]]. split; [exists (empty_buffer main_id); reflexivity|]. intros (u & t & E). discriminate E.
    - reflexivity.
  Qed.

  Lemma G_stacked pre v : G pre v -> stacked (v_ext v).
  Proof.
    intros HG. pose proof (g_some _ _ HG) as A. destruct (c_stack (v_ext v)) as [|id st] eqn:E; [destruct (A eq_refl)|].
    exists id, st. split; [exact E|]. apply (g_stack _ _ HG). rewrite E. left; reflexivity.
  Qed.
  Lemma G_nodup pre v : G pre v -> NoDup (c_stamps (v_ext v)).
  Proof. intros HG. eapply stamped_nodup; [exact clock_inj|apply (g_stamps _ _ HG)]. Qed.
  Lemma G_kind pre v id : G pre v -> match latest_def id pre with None => True | Some (DefAD a) => ad_id a = id /\ ADs id | Some (DefAB b) => b = id /\ ABs id end.
  Proof.
    intros HG. rewrite <- (g_defs _ _ HG id). unfold looked_up. destruct (g_b _ _ HG) as [B1 B2].
    destruct (d_get id (s_apertures (v_state v))) as [a|] eqn:E1.
    - pose proof (g_akeys _ _ HG _ _ E1) as <-. split; [reflexivity|]. eapply B1; eauto.
    - destruct (d_get id (s_blocks (v_state v))) as [b|] eqn:E2; [|exact I].
      pose proof (g_bkeys _ _ HG _ _ E2) as ->. split; [reflexivity|]. eapply B2; eauto.
  Qed.
  Lemma G_code pre v id : G pre v -> latest_def id pre <> None -> exists n, dcode id n.
  Proof.
    intros HG Hd. pose proof (G_kind pre v id HG) as K. destruct (latest_def id pre) as [[a|b]|]; [| |destruct (Hd eq_refl)]; destruct K as [_ K]; auto.
  Qed.
  (** The aperture that is current after the coordinates were read. *)
  Lemma G_current pre v s : G pre v -> s_apid s = s_apid (v_state v) -> s_apertures s = s_apertures (v_state v) -> s_blocks s = s_blocks (v_state v) ->
    match latest_selection pre with
    | None => current_aperture s = Err EApertureNotSelected
    | Some id => exists d, latest_def id pre = Some d /\ current_aperture s = Ok (def_aperture d)
    end.
  Proof.
    intros HG E1 E2 E3. unfold current_aperture. rewrite E1, E2, E3, (pl_apid (NK := NT) md clock _ _ (g_point _ _ HG)).
    destruct (latest_selection pre) as [id|] eqn:Es; [|reflexivity].
    pose proof (proj1 (g_sel _ _ HG id Es)) as Hd. rewrite <- (g_defs _ _ HG id) in Hd |- *. unfold looked_up in *.
    destruct (d_get id (s_apertures (v_state v))) as [a|]; [exists (DefAD a); auto|].
    destruct (d_get id (s_blocks (v_state v))) as [b|]; [exists (DefAB b); auto|destruct (Hd eq_refl)].
  Qed.
  Lemma read_frame x y i j (s s' : state R) : read_coords (NK := NT) x y i j s = Ok s' ->
    s_apid s' = s_apid s /\ s_apertures s' = s_apertures s /\ s_blocks s' = s_blocks s /\ s_region s' = s_region s.
  Proof. intros E. apply read_coords_inv in E as (? & ? & ? & ? & _ & _ & _ & _ & ->). auto. Qed.

  Lemma on_leaf n (v v' : vis) : is_leaf n -> visit_leaf (NK := NT) H n v = Done v' \/ visit_leaf (NK := NT) H n v = Stop v' -> on_file (NK := NT) H false [n] v = Ok v'.
  Proof. intros Hl E. cbn [on_file]. rewrite (visit_is_leaf (NK := NT) H n v Hl). destruct E as [-> | ->]; reflexivity. Qed.
  Lemma leaf_sub (n m : node R) : is_leaf n -> In m (subnodes n) -> m = n.
  Proof. intros Hl Hm. destruct n; destruct Hl; cbn [subnodes] in Hm; destruct Hm as [<-|[]]; reflexivity. Qed.

  Lemma handler_block a : handler_for (K := R) a = FBlock <-> exists id, a = ApAB id.
  Proof.
    destruct a as [a|id]; cbn [handler_for]; [|split; eauto]. destruct (ad_template a); split; try discriminate; intros [id E]; discriminate.
  Qed.

  Lemma G_leaf pre v n v' : G pre v -> is_leaf n -> QInv ADs ABs n ->
    visit_leaf (NK := NT) H n v = Done v' \/ visit_leaf (NK := NT) H n v = Stop v' -> G (pre ++ [n]) v' /\ stays (v_ext v) (v_ext v').
  Proof.
    intros HG Hl HQ E. pose proof (leaf_stays (NK := NT) md clock n v v' E) as HS. split; [|exact HS].
    destruct (frame_leaf (NK := NT) H n v v' E) as (F1 & F2 & F3 & F4 & _).
    assert (Hmem : forall id, latest_def id (pre ++ [n]) <> None -> mem id (c_buffers (v_ext v'))).
    { intros id. rewrite latest_def_snoc. destruct n; cbn [defines]; try (intros Hd; apply HS; apply (g_mem _ _ HG); exact Hd); [destruct Hl|].
      destruct (str_eqb id (ad_id a)) eqn:Ei; [|intros Hd; apply HS; apply (g_mem _ _ HG); exact Hd]. intros _. apply str_eqb_eq in Ei. subst id.
      destruct E as [E|E]; [|apply leaf_stop in E as [[D|D] _]; discriminate D]. apply leaf_adef in E as (s & E & _). cbn [compiler_hooks hk_ad] in E.
      apply (stays_def (NK := NT) md clock _ _ _ _ E). }
    assert (Hdef : forall id, looked_up (v_state v') id = latest_def id (pre ++ [n])).
    { intros id. rewrite latest_def_snoc, <- (g_defs _ _ HG id). unfold looked_up. rewrite F2.
      destruct n; cbn [defines]; try (rewrite F1; reflexivity); [destruct Hl|]. rewrite F1, d_get_set. destruct (str_eqb id (ad_id a)); reflexivity. }
    split.
    - eapply pt_leaf; [apply (g_point _ _ HG)| |exact E]. destruct n; exact Hl || exact I.
    - eapply (CInv_file (NK := NT) md clock repr_pct ADs ABs AD_code AB_code AD_AB false [n] v); [|apply (g_c _ _ HG)|apply (g_b _ _ HG)|apply on_leaf; assumption].
      intros n' m [<-|[]] Hm. rewrite (leaf_sub n m Hl Hm). exact HQ.
    - eapply (BInv_leaf (NK := NT) ADs ABs n); [exact HQ|exact Hl|apply (g_b _ _ HG)|]. eapply leaf_state_spec; exact E.
    - intros id a. destruct n; try (rewrite F1; apply (g_akeys _ _ HG)). rewrite F1, d_get_set. destruct (str_eqb id (ad_id a0)) eqn:Ei; [|apply (g_akeys _ _ HG)].
      intros X; injection X as <-. apply str_eqb_eq in Ei. auto.
    - rewrite F2. apply (g_bkeys _ _ HG).
    - exact Hdef.
    - exact Hmem.
    - eapply (stamped_file (NK := NT) md clock false [n] v); [apply (g_stamps _ _ HG)|apply on_leaf; assumption].
    - destruct HS as (A & _). rewrite A. apply (g_some _ _ HG).
    - destruct HS as (A & B & C). rewrite A. intros id Hi. destruct (g_stack _ _ HG id Hi). split; [auto|]. intros T. apply C. auto.
    - rewrite (open_leaf (NK := NT) md clock n v v' E Hl), (g_open _ _ HG). unfold last_set. rewrite fold_left_app. cbn [fold_left]. destruct (sets_region n); reflexivity.
    - intros id. rewrite latest_selection_snoc. intros Es.
      assert (D : (exists i, n = NDnn i) \/ sets_aperture n = None /\ v_d03 v' = v_d03 v) by (destruct n; eauto).
      destruct D as [[i ->]|[D1 D2]].
      + cbn [sets_aperture] in Es. injection Es as <-. destruct E as [E|E]; [|apply leaf_stop in E as [[D|D] _]; discriminate D].
        cbn [visit_leaf] in E. unfold on_dnn in E. cbn [with_state v_state] in E. destruct (current_aperture _) as [a|] eqn:Ea; [|discriminate]. injection E as <-.
        rewrite <- (Hdef i). cbn [v_state v_d03]. unfold current_aperture in Ea. cbn [set_apid s_apid s_apertures s_blocks] in Ea.
        unfold looked_up. cbn [set_apid s_apertures s_blocks]. pose proof (G_kind pre v i HG) as Hk. rewrite <- (g_defs _ _ HG i) in Hk. unfold looked_up in Hk.
        destruct (d_get i (s_apertures (v_state v))) as [d|].
        * injection Ea as <-. split; [discriminate|]. eexists. split; [reflexivity|]. rewrite handler_block. split; [intros [? X]; discriminate X|].
          intros X. destruct (AD_AB i (proj2 Hk) X).
        * destruct (d_get i (s_blocks (v_state v))) as [b|]; [|discriminate]. injection Ea as <-. split; [discriminate|]. eexists. split; [reflexivity|].
          rewrite handler_block. split; [intros _; apply Hk|eauto].
      + rewrite D1 in Es. rewrite D2. destruct (g_sel _ _ HG id Es) as [A B]. split; [|exact B].
        rewrite latest_def_snoc. destruct (defines n) as [[i d]|]; [|exact A]. destruct (str_eqb id i); [discriminate|exact A].
  Qed.

  Lemma format_point pre v : G pre v -> s_cf (v_state v) = format_of pre.
  Proof.
    intros HG. destruct (settled_point (NK := NT) H init pre v (g_point _ _ HG)) as (A & _). rewrite A. unfold pen_of, format_of.
    assert (L : forall l p, pen_fmt (fold_left (pen_step (NK := NT)) l p) = fold_left format_step l (pen_fmt p)).
    { induction l as [|n l IH]; intros p; cbn [fold_left]; [reflexivity|]. rewrite IH. f_equal. destruct n; reflexivity. }
    apply L.
  Qed.

  (** Drawing works if the pen is ready. *)
  Lemma thickness_iff pre v s dir : G pre v -> s_apid s = s_apid (v_state v) -> s_apertures s = s_apertures (v_state v) -> s_blocks s = s_blocks (v_state v) ->
    (exists k, line_thickness (NK := NT) dir s = Ok k) <->
    exists id a, latest_selection pre = Some id /\ latest_def id pre = Some (DefAD a) /\ match ad_template a with TMacro _ _ => False | _ => True end.
  Proof.
    intros HG E1 E2 E3. pose proof (G_current pre v s HG E1 E2 E3) as C. unfold line_thickness.
    destruct (latest_selection pre) as [id|].
    2: { rewrite C. cbn [bind]. split; [intros [k E]; discriminate|intros (? & ? & E & _); discriminate]. }
    destruct C as (d & Ed & C). rewrite C. cbn [bind]. destruct d as [a|b]; cbn [def_aperture].
    - split.
      + intros [k E]. exists id, a. split; [reflexivity|]. split; [exact Ed|]. destruct (ad_template a); trivial. discriminate.
      + intros (id' & a' & X1 & X2 & X3). injection X1 as <-. rewrite Ed in X2. injection X2 as <-. destruct (ad_template a); eauto. destruct X3.
    - split; [intros [k E]; discriminate|]. intros (id' & a' & X1 & X2 & _). injection X1 as <-. rewrite Ed in X2. discriminate.
  Qed.
  Lemma draw_iff pre v s : G pre v -> s_apid s = s_apid (v_state v) -> s_apertures s = s_apertures (v_state v) -> s_blocks s = s_blocks (v_state v) ->
    (exists x, on_draw (NK := NT) md (v_d01 v) s (v_ext v) = Ok x) <-> pen_ready pre.
  Proof.
    intros HG E1 E2 E3. destruct (coherent_point (NK := NT) H init pre v (g_point _ _ HG)) as [Hc _]. rewrite Hc.
    rewrite (pl_plot (NK := NT) H init _ _ (g_point _ _ HG)), (pl_arc (NK := NT) H init _ _ (g_point _ _ HG)), (pl_region (NK := NT) H init _ _ (g_point _ _ HG)).
    unfold pen_ready, in_region, plot_of. destruct (last_set sets_region false pre) eqn:Er.
    - split; [auto|]. intros _. pose proof (g_open _ _ HG) as Ho. rewrite (region_default pre Er) in Ho. unfold openb in Ho.
      destruct (last_set sets_plot PmLinear pre), (last_set sets_arc SingleQuadrant pre); cbn [callback_for on_draw]; eauto;
        unfold region_line, region_arc; destruct (c_contour (v_ext v)); try discriminate; eauto.
    - pose proof (fun dir => thickness_iff pre v s dir HG E1 E2 E3) as T. pose proof (G_stacked pre v HG) as Hst.
      assert (L : (exists x, draw_line (NK := NT) md s (v_ext v) = Ok x) <-> exists k, line_thickness (NK := NT) (end_point s) s = Ok k).
      { unfold draw_line. split; [intros [x E]; dbind E; eauto|]. intros [k E]. rewrite E. cbn [bind]. apply append_all_ok. exact Hst. }
      assert (A : forall cw, (exists x, draw_arc (NK := NT) md cw s (v_ext v) = Ok x) <-> exists k, line_thickness (NK := NT) (end_point s) s = Ok k).
      { intros cw. unfold draw_arc. split; [intros [x E]; dbind E; eauto|]. intros [k E]. rewrite E. cbn [bind]. cbv zeta. destruct (v_eqb _ _); apply append_all_ok; exact Hst. }
      destruct (last_set sets_plot PmLinear pre), (last_set sets_arc SingleQuadrant pre); cbn [callback_for on_draw]; rewrite ?L, ?A, ?T.
      all: split; [first [intros (id & a & X); right; right; exists id, a; exact X|intros _; right; left; split; [discriminate|reflexivity]]|].
      all: intros [X|[[X Y]|X]]; [discriminate X| |]; first [exact X|destruct (X eq_refl)|discriminate Y|eauto].
  Qed.

  Lemma lift_ok (v : vis) r : (exists v', lift v r = Done v' \/ lift v r = Stop v') <-> exists x, r = Ok x.
  Proof. destruct r; cbn [lift]; split; intros [z E]; [eauto|eauto|destruct E; discriminate|discriminate]. Qed.
  Lemma then_ok (v : vis) r k : (exists v', obind (lift v r) (fun v => Done (k v)) (fun v => v) = Done v' \/ obind (lift v r) (fun v => Done (k v)) (fun v => v) = Stop v') <-> exists x, r = Ok x.
  Proof. destruct r; cbn [lift obind]; split; intros [z E]; [eauto|eauto|destruct E; discriminate|discriminate]. Qed.
  Lemma fail_ok (e : exc) : (exists v' : vis, Fail e = Done v' \/ Fail e = Stop v') <-> False.
  Proof. split; [intros [? [E|E]]; discriminate|intros []]. Qed.

  Lemma coords_iff pre v x y i j : G pre v -> (exists s, read_coords (NK := NT) x y i j (v_state v) = Ok s) <->
    readable (format_of pre) true x /\ readable (format_of pre) false y /\ readable (format_of pre) true i /\ readable (format_of pre) false j.
  Proof. intros HG. rewrite <- (format_point pre v HG). apply read_coords_iff. Qed.

  Lemma leaf_iff pre v n : G pre v -> is_leaf n -> (exists v', visit_leaf (NK := NT) H n v = Done v' \/ visit_leaf (NK := NT) H n v = Stop v') <-> acceptable pre n.
  Proof.
    intros HG Hl. pose proof (G_stacked pre v HG) as Hst. pose proof (G_nodup pre v HG) as HN.
    destruct n; try destruct Hl; try (cbn [acceptable]; split; [trivial|intros _; cbn [visit_leaf]; eauto; fail]).
    - (* AD *)
      cbn [visit_leaf]. unfold on_ad. rewrite lift_ok. cbn [compiler_hooks hk_ad]. apply (aperture_iff text).
      intros name. cbn [with_state v_state set_store s_macros]. apply (macros_point (NK := NT) md clock _ _ (g_point _ _ HG)).
    - (* D01 *)
      cbn [visit_leaf acceptable]. unfold on_d01, on_coords. pose proof (coords_iff pre v x y i j HG) as C.
      destruct (read_coords (NK := NT) x y i j (v_state v)) as [s|e] eqn:Er.
      + destruct (read_frame _ _ _ _ _ _ Er) as (F1 & F2 & F3 & _). cbn [with_state v_state v_ext v_d01]. rewrite then_ok. cbn [compiler_hooks hk_draw].
        rewrite (draw_iff pre v s HG F1 F2 F3). destruct C as [C _]. destruct (C (ex_intro _ s eq_refl)) as (A & B & D & E). tauto.
      + rewrite fail_ok. split; [intros []|]. intros (A & B & D & E & _). destruct (proj2 C) as [s X]; [tauto|discriminate X].
    - (* D02 *)
      cbn [visit_leaf acceptable]. unfold on_d02, on_coords. pose proof (coords_iff pre v x y None None HG) as C. cbn [readable] in C.
      destruct (read_coords (NK := NT) x y None None (v_state v)) as [s|e] eqn:Er.
      + destruct (read_frame _ _ _ _ _ _ Er) as (_ & _ & _ & F4). cbn beta zeta. cbn [with_state v_state v_ext].
        destruct C as [C _]. destruct (C (ex_intro _ s eq_refl)) as (A & B & _). split; [tauto|]. intros _.
        change (s_region (update_coordinates s)) with (s_region s). rewrite F4, (pl_region (NK := NT) H init _ _ (g_point _ _ HG)).
        destruct (last_set sets_region false pre) eqn:E; [|eauto]. apply lift_ok. cbn [compiler_hooks hk_flush_region]. apply flush_ok; [exact Hst|].
        rewrite (g_open _ _ HG). apply region_default. exact E.
      + rewrite fail_ok. split; [intros []|]. intros (A & B). destruct (proj2 C) as [s X]; [tauto|discriminate X].
    - (* D03 *)
      cbn [visit_leaf acceptable]. unfold on_d03, on_coords. pose proof (coords_iff pre v x y None None HG) as C. cbn [readable] in C.
      destruct (read_coords (NK := NT) x y None None (v_state v)) as [s|e] eqn:Er.
      + destruct (read_frame _ _ _ _ _ _ Er) as (F1 & F2 & F3 & _). cbn [with_state v_state v_ext v_d03].
        destruct C as [C _]. destruct (C (ex_intro _ s eq_refl)) as (A & B & _). pose proof (G_current pre v s HG F1 F2 F3) as Cu.
        destruct (latest_selection pre) as [id|] eqn:Es.
        2: { rewrite Cu. rewrite fail_ok. split; [intros []|intros (_ & _ & X); destruct (X eq_refl)]. }
        split; [intros _; repeat split; try tauto; discriminate|]. intros _. destruct Cu as (d & Ed & ->).
        destruct (g_sel _ _ HG id Es) as (Hd & h & Eh & Hh). rewrite Eh. apply then_ok. cbn [compiler_hooks hk_flash].
        pose proof (G_kind pre v id HG) as Hk. rewrite Ed in Hk. pose proof (g_mem _ _ HG id Hd) as Hm.
        apply (flash_ok (NK := NT) md repr_pct ADs ABs AD_code AB_code AD_AB); [apply (g_c _ _ HG)|exact HN|exact Hst|].
        destruct d as [a|b]; destruct Hk as [Hk1 Hk2]; cbn [def_aperture].
        * rewrite Hk1. split; [exact Hm|]. split; [exact Hk2|]. intros X. apply Hh in X. exact (AD_AB id Hk2 X).
        * rewrite Hk1. split; [exact Hm|]. split; [exact Hk2|]. apply Hh. exact Hk2.
      + rewrite fail_ok. split; [intros []|]. intros (A & B & _). destruct (proj2 C) as [s X]; [tauto|discriminate X].
    - (* Dnn *)
      cbn [visit_leaf acceptable]. unfold on_dnn. cbn beta zeta. rewrite <- (g_defs _ _ HG id). unfold current_aperture, looked_up. cbn [with_state v_state set_apid s_apid s_apertures s_blocks].
      destruct (d_get id (s_apertures (v_state v))); [split; [discriminate|eauto]|].
      destruct (d_get id (s_blocks (v_state v))); [split; [discriminate|eauto]|]. rewrite fail_ok. split; [intros []|]. intros X. exact (X eq_refl).
    - (* G *)
      destruct g; try (cbn [acceptable]; split; [trivial|intros _; cbn [visit_leaf on_g]; eauto; fail]).
      cbn [visit_leaf on_g acceptable]. rewrite <- (g_open _ _ HG). split.
      + intros [v' [E|E]].
        * apply obind_done in E as (v1 & E1 & _). apply lift_done in E1 as (_ & _ & _ & _ & E1). apply open_flush in E1. apply E1.
        * match type of E with obind (lift ?a ?b) _ _ = _ => destruct b end; discriminate E.
      + intros Ho. destruct (flush_ok (v_state v) (v_ext v) Hst Ho) as [x' Ef]. cbn [compiler_hooks hk_flush_region]. rewrite Ef. cbn [lift obind]. eauto.
  Qed.

  (** *** Walks *)
  Definition valid_from (pre l : list (node R)) : Prop := forall a n b, l = a ++ n :: b -> acceptable (pre ++ a) n.
  Lemma valid_nil pre : valid_from pre [].
  Proof. intros a k b E. destruct a; discriminate E. Qed.
  Lemma valid_one pre n : valid_from pre [n] <-> acceptable pre n.
  Proof.
    split; [intros Hv; rewrite <- (app_nil_r pre); apply (Hv [] n []); reflexivity|]. intros Ha [|m a] k b E.
    - injection E as <- <-. rewrite app_nil_r. exact Ha.
    - injection E as _ E. destruct a; discriminate E.
  Qed.
  Lemma valid_app pre l r : valid_from pre (l ++ r) <-> valid_from pre l /\ valid_from (pre ++ l) r.
  Proof.
    split.
    - intros Hv. split; intros a n b E.
      + apply (Hv a n (b ++ r)). rewrite E, <- app_assoc. reflexivity.
      + rewrite <- app_assoc. apply (Hv (l ++ a) n b). rewrite E, <- app_assoc. reflexivity.
    - intros [H1 H2] a n b E. destruct (Nat.lt_ge_cases (length a) (length l)) as [L|L].
      + assert (El : l = a ++ n :: firstn (length l - S (length a)) b).
        { apply (f_equal (firstn (length l))) in E. rewrite firstn_app, Nat.sub_diag, firstn_all in E. cbn [firstn] in E. rewrite app_nil_r in E.
          rewrite E at 1. rewrite firstn_app, firstn_all2 by lia. replace (length l - length a)%nat with (S (length l - S (length a))) by lia. reflexivity. }
        exact (H1 _ _ _ El).
      + assert (Ea : a = l ++ skipn (length l) a /\ r = skipn (length l) a ++ n :: b).
        { split.
          - rewrite <- (firstn_skipn (length l) a) at 1. f_equal. apply (f_equal (firstn (length l))) in E.
            rewrite firstn_app, Nat.sub_diag, firstn_all, firstn_app in E. cbn [firstn] in E. rewrite app_nil_r in E.
            replace (length l - length a)%nat with 0%nat in E by lia. cbn [firstn] in E. rewrite app_nil_r in E. congruence.
          - apply (f_equal (skipn (length l))) in E. rewrite skipn_app, skipn_all, Nat.sub_diag, skipn_app in E.
            replace (length l - length a)%nat with 0%nat in E by lia. exact E. }
        destruct Ea as [Ea Er]. rewrite Ea, app_assoc. exact (H2 _ _ _ Er).
  Qed.

  Notation fine := (Forall fine_header).
  Definition fits (pre : list (node R)) (l : list (node R) * bool) (hs : list sropen) (v : vis) (o : outcome vis) : Prop :=
    match o with
    | Done v' => valid_from pre (fst l) /\ fine hs /\ snd l = false /\ G (pre ++ fst l) v' /\ c_stack (v_ext v') = c_stack (v_ext v)
    | Stop v' => valid_from pre (fst l) /\ fine hs /\ snd l = true /\ G (pre ++ fst l) v'
    | Fail _ => ~ (valid_from pre (fst l) /\ fine hs)
    end.
  Definition walks (n : node R) : Prop := (forall m, In m (subnodes n) -> QInv ADs ABs m) ->
    forall pre v, G pre v -> fits pre (executed n) (done_sr n) v (visit (NK := NT) H n v).

  Lemma walks_list body : Forall walks body -> (forall n m, In n body -> In m (subnodes n) -> QInv ADs ABs m) ->
    forall pre v, G pre v -> fits pre (exec_list executed body) (done_list done_sr body) v (visits (NK := NT) H body v).
  Proof.
    induction 1 as [|n r Hn _ IH]; intros HQ pre v HG; cbn [visits exec_list done_list].
    - cbn [fits fst snd]. rewrite app_nil_r. auto using valid_nil.
    - assert (HQr : forall k m, In k r -> In m (subnodes k) -> QInv ADs ABs m) by (intros k m Hk; apply HQ; right; exact Hk).
      pose proof (Hn (fun m => HQ n m (or_introl eq_refl)) pre v HG) as W. destruct (executed n) as [a st]. cbn [snd].
      destruct (visit (NK := NT) H n v) as [v1|v1|e]; cbn [obind fits fst snd] in *.
      + destruct W as (W1 & W0 & -> & W3 & W4). pose proof (IH HQr (pre ++ a) v1 W3) as W. destruct (exec_list executed r) as [b st'].
        destruct (visits (NK := NT) H r v1) as [v2|v2|e]; cbn [fits fst snd] in *; rewrite valid_app, Forall_app, ?app_assoc.
        * destruct W as (X1 & X0 & X2 & X3 & X4). rewrite <- W4. auto.
        * destruct W as (X1 & X0 & X2 & X3). auto.
        * tauto.
      + destruct W as (W1 & W0 & -> & W3). cbn [fst snd]. rewrite app_nil_r. auto.
      + destruct st; cbn [fst]; [rewrite app_nil_r; exact W|]. destruct (exec_list executed r) as [b st']. cbn [fst]. rewrite valid_app, Forall_app. tauto.
  Qed.

  Lemma G_ab_enter pre v id : G pre v -> ABs id -> G pre (ab_enter H id v).
  Proof.
    intros HG Hid. assert (Hb : blocky ABs id) by (right; left; exact Hid).
    assert (Hm : forall i, mem i (c_buffers (v_ext v)) -> mem i (c_buffers (v_ext (ab_enter H id v)))).
    { intros i Hi. cbn [ab_enter with_ext v_ext compiler_hooks hk_ab_open ab_open set_buffer c_buffers]. apply mem_set. auto. }
    split.
    - apply pt_ab_enter. apply (g_point _ _ HG).
    - apply (CInv_push (NK := NT) ADs ABs id (set_buffer (empty_buffer id) (v_ext v)) Hb).
      exact (CInv_set_fresh (NK := NT) ADs ABs id [] (v_ext v) (or_introl Hb) (fun d (X : In d []) => match X with end) (g_c _ _ HG)).
    - apply (g_b _ _ HG).
    - apply (g_akeys _ _ HG).
    - apply (g_bkeys _ _ HG).
    - apply (g_defs _ _ HG).
    - intros i Hi. apply Hm. apply (g_mem _ _ HG). exact Hi.
    - apply (g_stamps _ _ HG).
    - discriminate.
    - cbn [ab_enter with_ext v_ext compiler_hooks hk_ab_open ab_open c_stack]. intros i [<-|Hi].
      + split; [cbn [c_buffers set_buffer]; apply mem_set; auto|]. intros (u & t & E). destruct (AB_code _ Hid) as [n Hn]. rewrite E in Hn.
        apply dcode_chars in Hn as (r & X & _). discriminate X.
      + destruct (g_stack _ _ HG i Hi). split; [apply Hm; assumption|assumption].
    - apply (g_open _ _ HG).
    - apply (g_sel _ _ HG).
  Qed.
  Lemma G_ab_leave pre v id st : G pre v -> ABs id -> mem id (c_buffers (v_ext v)) -> c_stack (v_ext v) = id :: st -> st <> [] -> G (pre ++ [NAB id []]) (ab_leave H id v).
  Proof.
    intros HG Hid Hm Hst Hne.
    assert (Hnone : d_get id (s_apertures (v_state v)) = None).
    { destruct (d_get id (s_apertures (v_state v))) as [a|] eqn:E; [|reflexivity]. exfalso. apply (AD_AB id); [|exact Hid].
      rewrite <- (g_akeys _ _ HG _ _ E). apply (proj1 (g_b _ _ HG) _ _ E). }
    split.
    - apply pt_ab_leave. apply (g_point _ _ HG).
    - apply (CInv_pop (NK := NT)). apply (g_c _ _ HG).
    - destruct (g_b _ _ HG) as [B1 B2]. split; [exact B1|]. cbn [ab_leave with_ext with_state v_state register_block set_store s_blocks].
      intros i b. rewrite d_get_set. destruct (str_eqb i id); [|apply B2]. intros E; injection E as <-. exact Hid.
    - apply (g_akeys _ _ HG).
    - cbn [ab_leave with_ext with_state v_state register_block set_store s_blocks]. intros i b. rewrite d_get_set.
      destruct (str_eqb i id) eqn:E; [|apply (g_bkeys _ _ HG)]. apply str_eqb_eq in E. intros X; injection X as <-. auto.
    - intros i. rewrite latest_def_snoc. cbn [defines]. rewrite <- (g_defs _ _ HG i). unfold looked_up.
      cbn [ab_leave with_ext with_state v_state register_block set_store s_blocks s_apertures]. rewrite d_get_set.
      destruct (str_eqb i id) eqn:E; [|reflexivity]. apply str_eqb_eq in E. subst i. rewrite Hnone. reflexivity.
    - intros i. rewrite latest_def_snoc. cbn [defines]. destruct (str_eqb i id) eqn:E; [|apply (g_mem _ _ HG)]. apply str_eqb_eq in E. subst i. intros _. exact Hm.
    - apply (g_stamps _ _ HG).
    - cbn [ab_leave with_ext with_state v_ext compiler_hooks hk_ab_close ab_close pop c_stack]. rewrite Hst. exact Hne.
    - cbn [ab_leave with_ext with_state v_ext compiler_hooks hk_ab_close ab_close pop c_stack c_buffers c_stamps]. rewrite Hst. cbn [tl]. intros i Hi. apply (g_stack _ _ HG). rewrite Hst. right; exact Hi.
    - unfold last_set. rewrite fold_left_app. apply (g_open _ _ HG).
    - intros i. rewrite latest_selection_snoc, latest_def_snoc. cbn [sets_aperture defines]. intros E. destruct (g_sel _ _ HG i E) as [A B]. split; [|exact B].
      destruct (str_eqb i id); [discriminate|exact A].
  Qed.
  Lemma G_sr_enter pre v uid : G pre v -> G pre (snd (sr_enter H uid v)) /\
    c_stack (v_ext (snd (sr_enter H uid v))) = fst (sr_enter H uid v) :: c_stack (v_ext v) /\
    sr_tmp (fst (sr_enter H uid v)) /\ ~ In (fst (sr_enter H uid v)) (c_stack (v_ext v)).
  Proof.
    intros HG. destruct (CInv_sr (NK := NT) clock ADs ABs uid (v_state v) (v_ext v) (g_c _ _ HG)) as [HC Ht].
    set (tmp := stamp clock (lit "%%SR%") uid (v_ext v)) in *.
    assert (Hst : stamped clock (tmp :: c_stamps (v_ext v))).
    { unfold tmp, stamp. rewrite !app_assoc. change (lit "%") with [pct]. rewrite <- (app_assoc _ [pct]). apply stamped_cons. apply (g_stamps _ _ HG). }
    assert (Hm : forall i, mem i (c_buffers (v_ext v)) -> mem i (c_buffers (v_ext (snd (sr_enter H uid v))))).
    { intros i Hi. cbn. apply mem_set. auto. }
    split; [|split; [reflexivity|]; split; [exact Ht|]].
    - split.
      + apply pt_sr_enter. apply (g_point _ _ HG).
      + exact HC.
      + apply (g_b _ _ HG).
      + apply (g_akeys _ _ HG).
      + apply (g_bkeys _ _ HG).
      + apply (g_defs _ _ HG).
      + intros i Hi. apply Hm. apply (g_mem _ _ HG). exact Hi.
      + exact Hst.
      + discriminate.
      + change (forall i, In i (tmp :: c_stack (v_ext v)) -> mem i (c_buffers (v_ext (snd (sr_enter H uid v)))) /\ (sr_tmp i -> In i (tmp :: c_stamps (v_ext v)))).
        intros i [<-|Hi]; [split; [apply mem_set; left; reflexivity|intros _; left; reflexivity]|].
        destruct (g_stack _ _ HG i Hi) as [A B]. split; [apply Hm; exact A|]. intros T. right. auto.
      + apply (g_open _ _ HG).
      + apply (g_sel _ _ HG).
    - change (~ In tmp (c_stack (v_ext v))). intros Hi. apply (stamped_nodup clock _ clock_inj) in Hst. inversion Hst as [|? ? X _]. apply X.
      apply (g_stack _ _ HG tmp Hi). exact Ht.
  Qed.

  Lemma count_iff t : (exists n, sr_count t = Ok n) <-> forall t', t = Some t' -> exists z, int_text t' z /\ (0 < z)%Z.
  Proof.
    unfold sr_count. destruct t as [t|]; [|split; [intros _ t' E; discriminate|eauto]]. split.
    - intros [n E] t' X. injection X as <-. destruct (parse_int t) as [z|] eqn:Ez; [|discriminate]. destruct (0 <? z)%Z eqn:Ep; [|discriminate].
      exists z. split; [apply int_text_iff; exact Ez|apply Z.ltb_lt; exact Ep].
    - intros Ht. destruct (Ht t eq_refl) as (z & Hz & Hp). apply int_text_iff in Hz. rewrite Hz. apply Z.ltb_lt in Hp. rewrite Hp. eauto.
  Qed.
  Lemma step_iff t : (exists k, sr_delta (NK := NT) t = Ok k) <-> forall t', t = Some t' -> exists q, dec_text t' q.
  Proof.
    unfold sr_delta. destruct t as [t|]; [|split; [intros _ t' E; discriminate|eauto]]. split.
    - intros [k E] t' X. injection X as <-. destruct (parse_dec t) as [q|] eqn:Eq; [|discriminate]. exists q. apply dec_text_iff. exact Eq.
    - intros Ht. destruct (Ht t eq_refl) as (q & Hq). apply dec_text_iff in Hq. rewrite Hq. eauto.
  Qed.
  Lemma header_iff h : fine_header h <-> (exists n, sr_count (sr_x h) = Ok n) /\ (exists n, sr_count (sr_y h) = Ok n) /\
    (exists k, sr_delta (NK := NT) (sr_i h) = Ok k) /\ (exists k, sr_delta (NK := NT) (sr_j h) = Ok k).
  Proof. rewrite !count_iff, !step_iff. unfold fine_header. firstorder. Qed.

  Lemma G_sr_leave pre v tmp hdr st : G pre v -> sr_tmp tmp -> c_stack (v_ext v) = tmp :: st -> st <> [] -> ~ In tmp st ->
    match sr_leave H tmp hdr v with
    | Done v' => fine_header hdr /\ G pre v' /\ c_stack (v_ext v') = st
    | Stop _ => False
    | Fail _ => ~ fine_header hdr
    end.
  Proof.
    intros HG Ht Hst Hne Hf. unfold sr_leave. cbn [compiler_hooks hk_sr_close].
    destruct (g_stack _ _ HG tmp) as [[b Hb] _]; [rewrite Hst; left; reflexivity|].
    assert (S0 : stacked (pop (v_ext v))).
    { destruct st as [|i r]; [destruct (Hne eq_refl)|]. exists i, r. split; [cbn [pop c_stack]; rewrite Hst; reflexivity|].
      apply (g_stack _ _ HG i). rewrite Hst. right; left; reflexivity. }
    destruct (sr_close (NK := NT) tmp hdr (v_state v) (v_ext v)) as [x'|e] eqn:Es; cbn [lift].
    2: { rewrite header_iff. intros ([nx Ex] & [ny Ey] & [dx Ei] & [dy Ej]). unfold sr_close in Es. cbn beta zeta in Es. unfold get_buffer in Es. change (c_buffers (pop (v_ext v))) with (c_buffers (v_ext v)) in Es. rewrite Hb in Es. cbn [bind] in Es.
         rewrite Ei, Ej, Ex, Ey in Es. cbn [bind] in Es.
         match type of Es with context [append_all ?ds ?y] => destruct (append_all_ok ds y S0) as [x1 E1]; rewrite E1 in Es end. discriminate Es. }
    split; [apply header_iff; apply sr_close_inv in Es as (b' & nx & ny & dx & dy & x1 & _ & E1 & E2 & E3 & E4 & _); eauto 10|].
    pose proof (CInv_sr_close (NK := NT) repr_pct ADs ABs AD_code AB_code AD_AB tmp hdr _ _ _ Ht (g_c _ _ HG) Es) as HC.
    assert (Hp : at_point (NK := NT) H init pre (with_ext x' v)).
    { eapply pt_sr_leave; [apply (g_point _ _ HG)|]. unfold sr_leave. cbn [compiler_hooks hk_sr_close]. rewrite Es. reflexivity. }
    pose proof (sr_close_contour (NK := NT) tmp hdr _ _ _ Es) as Ec.
    apply sr_close_inv in Es as (b' & nx' & ny' & dx' & dy' & x1 & _ & _ & _ & _ & _ & Ea & ->).
    pose proof (append_all_stamps (K := R) _ _ _ Ea) as Est. apply stays_all in Ea as (A & B & C).
    assert (Hm : forall i, i <> tmp -> mem i (c_buffers (v_ext v)) -> mem i (d_del tmp (c_buffers x1))) by (intros i Hi Hm; apply mem_del; [exact Hi|apply B; exact Hm]).
    assert (Hs : c_stack x1 = st) by (rewrite A; cbn [pop c_stack]; rewrite Hst; reflexivity).
    split; [|cbn [with_ext v_ext set_buffers c_stack]; exact Hs].
    split.
    - exact Hp.
    - exact HC.
    - apply (g_b _ _ HG).
    - apply (g_akeys _ _ HG).
    - apply (g_bkeys _ _ HG).
    - apply (g_defs _ _ HG).
    - intros i Hi. cbn [with_ext v_ext set_buffers c_buffers]. apply Hm; [|apply (g_mem _ _ HG); exact Hi]. intros ->.
      destruct (G_code _ _ _ HG Hi) as [n Hn]. destruct Ht as (u & t & ->). apply dcode_chars in Hn as (r & X & _). discriminate X.
    - cbn [with_ext v_ext set_buffers c_stamps]. rewrite Est. apply (g_stamps _ _ HG).
    - cbn [with_ext v_ext set_buffers c_stack]. rewrite Hs. exact Hne.
    - cbn [with_ext v_ext set_buffers c_stack c_buffers c_stamps]. rewrite Hs. intros i Hi.
      destruct (g_stack _ _ HG i) as [X Y]; [rewrite Hst; right; exact Hi|]. split; [apply Hm; [intros ->; contradiction|exact X]|]. intros T. apply C. apply Y. exact T.
    - rewrite <- (g_open _ _ HG). unfold openb. cbn [with_ext v_ext]. rewrite Ec. reflexivity.
    - apply (g_sel _ _ HG).
  Qed.

  Lemma walks_all n : walks n.
  Proof.
    induction n as [id body IH|u h body IH|n Hleaf] using node_ind'; intros HQ pre v HG.
    - rewrite visit_AB. cbn [executed done_sr].
      assert (Hid : ABs id) by (apply (HQ (NAB id body)); left; reflexivity).
      assert (HQb : forall n m, In n body -> In m (subnodes n) -> QInv ADs ABs m) by (intros n m H1 H2; apply HQ; right; apply in_flat_map; eauto).
      pose proof (walks_list body IH HQb pre (ab_enter H id v) (G_ab_enter pre v id HG Hid)) as W.
      destruct (exec_list executed body) as [l st]. destruct (visits (NK := NT) H body (ab_enter H id v)) as [v1|v1|e]; cbn [obind fits fst snd] in *.
      + destruct W as (W1 & W0 & -> & W3 & W4). cbn [fst snd]. rewrite valid_app, valid_one, app_assoc. split; [split; [exact W1|exact I]|]. split; [exact W0|]. split; [reflexivity|].
        assert (Es : c_stack (v_ext v1) = id :: c_stack (v_ext v)) by (rewrite W4; reflexivity).
        split; [|cbn [ab_leave with_ext with_state v_ext compiler_hooks hk_ab_close ab_close pop c_stack]; rewrite Es; reflexivity].
        eapply G_ab_leave; [exact W3|exact Hid| |exact Es|apply (g_some _ _ HG)]. apply (g_stack _ _ W3 id). rewrite Es. left; reflexivity.
      + destruct W as (W1 & W0 & -> & W3). cbn [fst snd]. auto.
      + destruct st; cbn [fst]; [exact W|]. rewrite valid_app. tauto.
    - rewrite visit_SR. cbn [executed done_sr].
      assert (HQb : forall n m, In n body -> In m (subnodes n) -> QInv ADs ABs m) by (intros n m H1 H2; apply HQ; right; apply in_flat_map; eauto).
      destruct (G_sr_enter pre v u HG) as (G1 & G2 & G3 & G4).
      pose proof (walks_list body IH HQb pre _ G1) as W.
      destruct (exec_list executed body) as [l st]. destruct (visits (NK := NT) H body (snd (sr_enter H u v))) as [v1|v1|e]; cbn [obind fits fst snd] in *.
      + destruct W as (W1 & W0 & -> & W3 & W4). rewrite G2 in W4.
        pose proof (G_sr_leave _ v1 _ h _ W3 G3 W4 (g_some _ _ HG) G4) as W.
        destruct (sr_leave H (fst (sr_enter H u v)) h v1) as [v'|v'|e]; cbn [fits fst snd].
        * destruct W as (X & Y & Z). rewrite Forall_app. auto 8.
        * destruct W.
        * rewrite Forall_app. intros (_ & _ & X). inversion X. contradiction.
      + destruct W as (W1 & W0 & -> & W3). rewrite app_nil_r. auto.
      + rewrite Forall_app. tauto.
    - rewrite (visit_is_leaf (NK := NT) H n v Hleaf), (executed_leaf n Hleaf).
      assert (Hn : QInv ADs ABs n) by (apply HQ; destruct n; left; reflexivity).
      assert (Hd : done_sr n = []) by (destruct n; try reflexivity; destruct Hleaf). rewrite Hd.
      pose proof (leaf_iff pre v n HG Hleaf) as L. pose proof (G_leaf pre v n) as GL.
      destruct (visit_leaf (NK := NT) H n v) as [v1|v1|e] eqn:E; cbn [fits fst snd]; rewrite valid_one.
      + destruct (GL v1 HG Hleaf Hn (or_introl eq_refl)) as [G1 (G2 & _)]. split; [apply L; eauto|]. split; [constructor|]. split; [|auto].
        destruct n; try reflexivity; cbn [visit_leaf] in E; discriminate E.
      + destruct (GL v1 HG Hleaf Hn (or_intror eq_refl)) as [G1 _]. split; [apply L; eauto|]. split; [constructor|]. split; [|auto].
        destruct (leaf_stop (NK := NT) _ _ _ _ E) as [[-> | ->] _]; reflexivity.
      + intros [X _]. apply L in X as [v' [X|X]]; discriminate X.
  Qed.

  Lemma file_iff ips ns : (forall n m, In n ns -> In m (subnodes n) -> QInv ADs ABs m) -> forall pre v, G pre v ->
    match on_file (NK := NT) H ips ns v with
    | Ok v' => valid_from pre (executed_file ips ns) /\ fine (done_file ips ns) /\ G (pre ++ executed_file ips ns) v'
    | Err _ => ~ (valid_from pre (executed_file ips ns) /\ fine (done_file ips ns))
    end.
  Proof.
    induction ns as [|n r IH]; intros HQ pre v HG; cbn [on_file executed_file done_file].
    - rewrite app_nil_r. auto using valid_nil.
    - assert (HQr : forall k m, In k r -> In m (subnodes k) -> QInv ADs ABs m) by (intros k m Hk; apply HQ; right; exact Hk).
      pose proof (walks_all n (fun m => HQ n m (or_introl eq_refl)) pre v HG) as W. destruct (executed n) as [a st]. cbn [snd].
      destruct (visit (NK := NT) H n v) as [v1|v1|e]; cbn [fits fst snd] in W.
      + destruct W as (W1 & W0 & -> & W3 & _). cbn [andb]. pose proof (IH HQr _ _ W3) as W.
        destruct (on_file (NK := NT) H ips r v1); rewrite valid_app, Forall_app, ?app_assoc; tauto.
      + destruct W as (W1 & W0 & -> & W3). cbn [andb]. destruct ips; [rewrite app_nil_r; auto|]. pose proof (IH HQr _ _ W3) as W.
        destruct (on_file (NK := NT) H false r v1); rewrite valid_app, Forall_app, ?app_assoc; tauto.
      + rewrite Forall_app. destruct (st && ips); [tauto|]. rewrite valid_app. tauto.
  Qed.
End Points.

(** C12: the dependency structure of the buffers a compilation can reach. *)
From Coq Require Import Permutation.
From Verif Require Import Base Num Dict CoordModel CoordSpec CoordProofs Ast StateModel StateSpec
  StateProofs GeomModel ExprModel CompilerModel LayerSpec LayerProofs.

(** ** Layer names *)
Definition pct : ascii := "%"%char.
Definition no_pct (s : str) : Prop := ~ In pct s.

Lemma no_pct_app a b : no_pct (a ++ b) <-> no_pct a /\ no_pct b.
Proof. unfold no_pct. rewrite in_app_iff. tauto. Qed.
Lemma last_pct_inj a t a' t' :
  no_pct t -> no_pct t' -> a ++ pct :: t = a' ++ pct :: t' -> a = a' /\ t = t'.
Proof.
  intros Ht Ht' E. apply app_eq_app in E as (l & [[E1 E2]|[E1 E2]]).
  - destruct l as [|c l]; cbn [app] in E2.
    + injection E2 as ->. rewrite app_nil_r in E1. auto.
    + injection E2 as _ E2. exfalso. apply Ht'. rewrite E2. apply in_or_app. right. left. reflexivity.
  - destruct l as [|c l]; cbn [app] in E2.
    + injection E2 as ->. rewrite app_nil_r in E1. auto.
    + injection E2 as _ E2. exfalso. apply Ht. rewrite E2. apply in_or_app. right. left. reflexivity.
Qed.

Lemma snoc_inj {A} (a b : list A) x y : a ++ [x] = b ++ [y] -> a = b /\ x = y.
Proof. intros E. apply app_inj_tail in E. exact E. Qed.

Lemma int_digits_all' n : all_digits (int_digits n) /\ int_digits n <> [].
Proof.
  unfold int_digits, str_or. destruct (lstrip ch_zero _) as [|c t] eqn:E.
  - split; [|discriminate]. apply all_digits_cons. split; [reflexivity|apply all_digits_nil].
  - split; [|discriminate]. destruct (lstrip_spec (fixed_digits (S (Z.to_nat (Z.log2 n))) n)) as [k Hk].
    rewrite E in Hk. pose proof (fixed_digits_all (S (Z.to_nat (Z.log2 n))) n) as HA.
    rewrite Hk in HA. apply all_digits_app in HA. tauto.
Qed.
Definition int_digits_all n := proj1 (int_digits_all' n).
Lemma int_digits_last n : exists p c, int_digits n = p ++ [c] /\ is_digit c = true.
Proof.
  destruct (int_digits_all' n) as [H1 H2]. destruct (exists_last H2) as (p & c & E). exists p, c. split; [exact E|].
  rewrite E in H1. apply H1. apply in_or_app. right. left. reflexivity.
Qed.
Lemma z_repr_last z : exists p c, z_repr z = p ++ [c] /\ is_digit c = true.
Proof.
  unfold z_repr. destruct (z <? 0)%Z.
  - destruct (int_digits_last (- z)) as (p & c & -> & Hc). exists (ch_minus :: p), c. auto.
  - apply int_digits_last.
Qed.

Section Names.
  Context {K : Type} {NK : Num K}.
  (** The texts of numbers contain no percent sign. *)
  Hypothesis repr_no_pct : forall k : K, no_pct (n_repr k).

  Lemma mtag_no_pct (m : mat K) : no_pct (mtag m).
  Proof.
    unfold mtag. repeat (apply no_pct_app; split); try apply repr_no_pct;
      intros Hin; cbn in Hin; repeat (destruct Hin as [Hin|Hin]; [discriminate Hin|]); exact Hin.
  Qed.
  Lemma mtag_last (m : mat K) : exists p, mtag m = p ++ [")"%char].
  Proof.
    unfold mtag. eexists. rewrite !app_assoc.
    change (lit "))") with ([")"%char] ++ [")"%char]). rewrite !app_assoc. reflexivity.
  Qed.

  Definition is_tag (t : str) : Prop := exists m : mat K, t = mtag m.
  Definition tags (ts : list str) : Prop := Forall is_tag ts.
  Definition ext (base : str) (ts : list str) : str := fold_left (fun i t => i ++ pct :: t) ts base.
  Definition plain (base : str) : Prop := forall a t, is_tag t -> base <> a ++ pct :: t.

  Lemma ext_snoc base ts t : ext base (ts ++ [t]) = ext base ts ++ pct :: t.
  Proof. unfold ext. rewrite fold_left_app. reflexivity. Qed.
  Lemma layer_key_ext base ts (m : mat K) : layer_key (ext base ts) m = ext base (ts ++ [mtag m]).
  Proof. rewrite ext_snoc. reflexivity. Qed.
  Lemma tags_snoc ts (m : mat K) : tags ts -> tags (ts ++ [mtag m]).
  Proof. intros H. apply Forall_app. split; [exact H|]. constructor; [exists m; reflexivity|constructor]. Qed.

  Lemma ext_inj b b' : plain b -> plain b' -> forall ts ts', tags ts -> tags ts' ->
    ext b ts = ext b' ts' -> b = b' /\ ts = ts'.
  Proof.
    intros Hb Hb'. induction ts as [|t ts IH] using rev_ind; intros ts' Ht Ht' E.
    - destruct ts' as [|t' ts' _] using rev_ind; [auto|].
      exfalso. apply Forall_app in Ht' as [_ Ht']. inversion Ht'; subst.
      rewrite ext_snoc in E. eapply Hb; eauto.
    - apply Forall_app in Ht as [Ht1 Ht2]. inversion Ht2 as [|? ? [m Hm] _]; subst.
      destruct ts' as [|t' ts' _] using rev_ind.
      + exfalso. rewrite ext_snoc in E. symmetry in E. eapply Hb'; [|exact E]. exists m; reflexivity.
      + apply Forall_app in Ht' as [Ht1' Ht2']. inversion Ht2' as [|? ? [m' Hm'] _]; subst.
        rewrite !ext_snoc in E. apply last_pct_inj in E as [E1 E2]; try apply mtag_no_pct.
        destruct (IH ts' Ht1 Ht1' E1) as [-> ->]. rewrite E2. auto.
  Qed.

  Definition is_stamp (prefix id : str) : Prop := exists u t, id = prefix ++ z_repr u ++ lit "%" ++ z_repr t.
  Definition thermal : str -> Prop := is_stamp (lit "%%Code7%").
  Definition sr_tmp : str -> Prop := is_stamp (lit "%%SR%").

  Lemma plain_last base p c : base = p ++ [c] -> c <> ")"%char -> plain base.
  Proof.
    intros -> Hc a t (m & ->) E. destruct (mtag_last m) as [q Hq]. rewrite Hq in E.
    rewrite app_comm_cons, app_assoc in E. apply snoc_inj in E as [_ E]. auto.
  Qed.
  Lemma plain_main : plain main_id.
  Proof. apply (plain_last main_id (lit "%main") "%"%char); [reflexivity|discriminate]. Qed.
  Lemma plain_stamp prefix id : is_stamp prefix id -> plain id.
  Proof.
    intros (u & t & ->). destruct (z_repr_last t) as (p & c & -> & Hc).
    eapply plain_last with (c := c); [rewrite !app_assoc; reflexivity|]. intros ->. discriminate Hc.
  Qed.
  Lemma dcode_chars id n : dcode id n -> exists r, id = "D"%char :: r /\ all_digits r.
  Proof. intros (ds & -> & _ & Hd). apply spec_value_model in Hd as [Hd _]. eauto. Qed.
  Lemma plain_dcode id n : dcode id n -> plain id.
  Proof.
    intros H. apply dcode_chars in H as (r & -> & Hr). intros a t _ E.
    assert (Hin : In pct ("D"%char :: r)) by (rewrite E; apply in_or_app; right; left; reflexivity).
    destruct Hin as [Hin|Hin]; [discriminate Hin|]. apply Hr in Hin. discriminate Hin.
  Qed.
End Names.

(** ** The invariant *)
Section Inv.
  Context {K : Type} {NK : Num K} (md : bool) (clock : nat -> Z).
  Hypothesis repr_no_pct : forall k : K, no_pct (n_repr k).
  (** Codes defined by AD and by AB. *)
  Context (ADs ABs : str -> Prop).
  Hypothesis AD_code : forall id, ADs id -> exists n, dcode id n.
  Hypothesis AB_code : forall id, ABs id -> exists n, dcode id n.
  Hypothesis AD_AB : forall id, ADs id -> ABs id -> False.
  Implicit Types (bs : dict (buffer K)) (x : cstate K) (own : str -> str).
  Notation tags := (tags (K := K)).

  Definition blocky (id : str) : Prop := id = main_id \/ ABs id \/ sr_tmp id.

  Lemma plain_ad id : ADs id -> plain (K := K) id.
  Proof. intros H. destruct (AD_code id H) as [n Hn]. eapply plain_dcode; eauto. Qed.
  Lemma plain_blocky id : blocky id -> plain (K := K) id.
  Proof.
    intros [->|[H|H]]; [apply plain_main| |eapply plain_stamp; eauto].
    destruct (AB_code id H) as [n Hn]. eapply plain_dcode; eauto.
  Qed.
  Lemma plain_thermal id : thermal id -> plain (K := K) id.
  Proof. apply plain_stamp. Qed.
  Lemma ad_not_blocky id : ADs id -> blocky id -> False.
  Proof.
    intros H. destruct (AD_code id H) as [n Hn]. apply dcode_chars in Hn as (r & -> & _).
    intros [E|[E|(u & t & E)]]; [discriminate E|eauto|discriminate E].
  Qed.
  Lemma ad_not_thermal id : ADs id -> thermal id -> False.
  Proof.
    intros H. destruct (AD_code id H) as [n Hn]. apply dcode_chars in Hn as (r & -> & _).
    intros (u & t & E). discriminate E.
  Qed.
  Lemma thermal_not_blocky id : thermal id -> blocky id -> False.
  Proof.
    intros (u & t & ->) [E|[H|(u' & t' & E)]]; [discriminate E| |discriminate E].
    destruct (AB_code _ H) as [n Hn]. apply dcode_chars in Hn as (r & E & _). discriminate E.
  Qed.

  Definition kind bs (used : list str) own (k : str) (b : buffer K) : Prop :=
    (exists b0 ts, blocky b0 /\ tags ts /\ k = ext b0 ts /\
       forall src, pastes (bf_cmds b) src -> exists a us, ADs a /\ tags us /\ src = ext a us /\ mem src bs) \/
    (exists a ts, ADs a /\ tags ts /\ k = ext a ts /\
       forall src, pastes (bf_cmds b) src ->
         exists c, thermal c /\ In c used /\ own c = a /\ src = ext c ts /\ mem src bs) \/
    (exists c ts, thermal c /\ tags ts /\ k = ext c ts /\ forall src, ~ pastes (bf_cmds b) src).

  Definition Inv bs used own : Prop :=
    keyed bs /\ forall k b, d_get k bs = Some b -> deps_ok b /\ kind bs used own k b.

  Lemma kind_mono bs used own bs' used' own' k b :
    (forall i, mem i bs -> mem i bs') -> (forall c, In c used -> In c used' /\ own' c = own c) ->
    kind bs used own k b -> kind bs' used' own' k b.
  Proof.
    intros Hm Hu [(b0 & ts & H1 & H2 & H3 & H4)|[(a & ts & H1 & H2 & H3 & H4)|H]].
    - left. exists b0, ts. repeat (split; [assumption|]). intros src Hs.
      destruct (H4 src Hs) as (a & us & A1 & A2 & A3 & A4). exists a, us. auto.
    - right; left. exists a, ts. repeat (split; [assumption|]). intros src Hs.
      destruct (H4 src Hs) as (c & A1 & A2 & A3 & A4 & A5). exists c.
      destruct (Hu c A2) as [U1 U2]. rewrite U2. repeat split; auto.
    - right; right. exact H.
  Qed.

  Lemma mem_set k b bs i : mem i (d_set k b bs) <-> i = k \/ mem i bs.
  Proof.
    unfold mem. rewrite d_get_set. destruct (str_eqb i k) eqn:E.
    - apply str_eqb_eq in E. split; eauto.
    - apply str_eqb_neq in E. split; [auto|intros [H|H]; [contradiction|exact H]].
  Qed.

  Lemma Inv_set bs used own used' own' k b :
    Inv bs used own -> (forall c, In c used -> In c used' /\ own' c = own c) ->
    bf_id b = k -> deps_ok b -> kind (d_set k b bs) used' own' k b -> Inv (d_set k b bs) used' own'.
  Proof.
    intros [Hk Hb] Hu Hid Hd Hkind. split; [apply keyed_set; auto|].
    intros k' b'. rewrite d_get_set. destruct (str_eqb k' k) eqn:E.
    - apply str_eqb_eq in E; subst k'. intros E'; injection E' as <-. auto.
    - intros Hg. destruct (Hb k' b' Hg) as [H1 H2]. split; [exact H1|].
      eapply kind_mono; [| |exact H2]; [|exact Hu]. intros i Hi. apply mem_set. auto.
  Qed.
  Lemma Inv_used bs used own used' own' :
    Inv bs used own -> (forall c, In c used -> In c used' /\ own' c = own c) -> Inv bs used' own'.
  Proof.
    intros [Hk Hb] Hu. split; [exact Hk|]. intros k b Hg. destruct (Hb k b Hg) as [H1 H2]. split; [exact H1|].
    eapply kind_mono; [| |exact H2]; auto.
  Qed.

  (** Appending to a block buffer. *)
  Definition good_draw bs (d : draw K) : Prop :=
    match d with DShape _ => True | DPaste p => exists a us, ADs a /\ tags us /\ pa_src p = ext a us /\ mem (pa_src p) bs end.

  Lemma kind_blocky bs used own k b b0 ts : Inv bs used own -> d_get k bs = Some b -> blocky b0 -> tags ts ->
    k = ext b0 ts -> forall src, pastes (bf_cmds b) src -> exists a us, ADs a /\ tags us /\ src = ext a us /\ mem src bs.
  Proof.
    intros [_ Hb] Hg H0 Ht -> src Hs. destruct (Hb _ _ Hg) as [_ [(b1 & us & H1 & H2 & H3 & H4)|[(a & us & H1 & H2 & H3 & H4)|(c & us & H1 & H2 & H3 & H4)]]].
    - auto.
    - exfalso. apply ext_inj in H3 as [-> _]; auto using plain_ad, plain_blocky. eapply ad_not_blocky; eauto.
    - exfalso. apply ext_inj in H3 as [-> _]; auto using plain_thermal, plain_blocky. eapply thermal_not_blocky; eauto.
  Qed.
  Lemma kind_ad bs used own k b a ts : Inv bs used own -> d_get k bs = Some b -> ADs a -> tags ts ->
    k = ext a ts -> forall src, pastes (bf_cmds b) src ->
      exists c, thermal c /\ In c used /\ own c = a /\ src = ext c ts /\ mem src bs.
  Proof.
    intros [_ Hb] Hg H0 Ht -> src Hs. destruct (Hb _ _ Hg) as [_ [(b1 & us & H1 & H2 & H3 & H4)|[(a' & us & H1 & H2 & H3 & H4)|(c & us & H1 & H2 & H3 & H4)]]].
    - exfalso. apply ext_inj in H3 as [-> _]; auto using plain_ad, plain_blocky. eapply ad_not_blocky; eauto.
    - apply ext_inj in H3 as [-> ->]; auto using plain_ad.
    - exfalso. apply ext_inj in H3 as [-> _]; auto using plain_thermal, plain_ad. eapply ad_not_thermal; eauto.
  Qed.
  Lemma kind_thermal bs used own k b c ts : Inv bs used own -> d_get k bs = Some b -> thermal c -> tags ts ->
    k = ext c ts -> forall src, ~ pastes (bf_cmds b) src.
  Proof.
    intros [_ Hb] Hg H0 Ht -> src Hs. destruct (Hb _ _ Hg) as [_ [(b1 & us & H1 & H2 & H3 & H4)|[(a' & us & H1 & H2 & H3 & H4)|(c' & us & H1 & H2 & H3 & H4)]]].
    - apply ext_inj in H3 as [-> _]; auto using plain_thermal, plain_blocky. eapply thermal_not_blocky; eauto.
    - apply ext_inj in H3 as [-> _]; auto using plain_thermal, plain_ad. eapply ad_not_thermal; eauto.
    - eapply H4; eauto.
  Qed.

  Lemma Inv_append bs used own id b d : Inv bs used own -> blocky id -> d_get id bs = Some b -> good_draw bs d ->
    Inv (d_set id (append_draw d b) bs) used own.
  Proof.
    intros HI Hid Hg Hd. destruct HI as [Hk Hb] eqn:EI. clear EI.
    assert (Hm : forall i, mem i bs -> mem i (d_set id (append_draw d b) bs)) by (intros i Hi; apply mem_set; auto).
    apply Inv_set with (used := used) (own := own); auto.
    - rewrite append_draw_id. auto.
    - apply deps_append. apply (Hb id b Hg).
    - left. exists id, []. repeat (split; [first [assumption|reflexivity|constructor]|]).
      intros src Hs. rewrite append_draw_cmds in Hs. apply pastes_app in Hs as [Hs|Hs].
      + destruct (kind_blocky bs used own id b id [] HI Hg Hid (Forall_nil _) eq_refl src Hs) as (a & us & A1 & A2 & A3 & A4).
        exists a, us. auto.
      + apply pastes_one in Hs as (p & -> & <-). destruct Hd as (a & us & A1 & A2 & A3 & A4). exists a, us. auto.
  Qed.

  (** The state-level invariant: some owner assignment works, and only blocks are drawn on. *)
  Definition CInv x : Prop :=
    mem main_id (c_buffers x) /\
    (forall id, In id (c_stack x) -> blocky id) /\
    (NoDup (c_stamps x) -> exists own, Inv (c_buffers x) (c_stamps x) own).

  Lemma good_mono bs bs' d : (forall i, mem i bs -> mem i bs') -> good_draw bs d -> good_draw bs' d.
  Proof.
    intros Hm. destruct d as [|p]; [auto|]. intros (a & us & A1 & A2 & A3 & A4). exists a, us. auto.
  Qed.
  Lemma CInv_append d x x' : CInv x -> (NoDup (c_stamps x) -> good_draw (c_buffers x) d) ->
    append_current d x = Ok x' ->
    CInv x' /\ (forall i, mem i (c_buffers x) -> mem i (c_buffers x')) /\ c_stamps x' = c_stamps x.
  Proof.
    intros (Hmain & Hs & HI) Hd E. apply append_current_inv in E as (id & st & b & Es & Eb & ->).
    assert (Hm : forall i, mem i (c_buffers x) -> mem i (d_set id (append_draw d b) (c_buffers x)))
      by (intros i Hi; apply mem_set; auto).
    split; [|split; [exact Hm|reflexivity]].
    split; [apply Hm; exact Hmain|]. split; [exact Hs|].
    cbn [set_buffers c_stamps c_buffers]. intros HN. destruct (HI HN) as [own HI']. exists own.
    apply Inv_append; auto. apply Hs. rewrite Es. left; reflexivity.
  Qed.
  Lemma CInv_append_all ds : forall x x', CInv x ->
    (NoDup (c_stamps x) -> forall d, In d ds -> good_draw (c_buffers x) d) ->
    append_all ds x = Ok x' ->
    CInv x' /\ (forall i, mem i (c_buffers x) -> mem i (c_buffers x')) /\ c_stamps x' = c_stamps x.
  Proof.
    induction ds as [|d r IH]; intros x x' HC Hd; cbn [append_all].
    - intros E; injection E as <-. auto.
    - destruct (append_current d x) as [x1|] eqn:E1; [|discriminate]. cbn [bind]. intros E.
      destruct (CInv_append d x x1 HC (fun HN => Hd HN d (or_introl eq_refl)) E1) as (H1 & H2 & H3).
      destruct (IH x1 x' H1) as (H4 & H5 & H6); [|exact E|].
      + rewrite H3. intros HN d' Hd'. eapply good_mono; [exact H2|]. apply Hd; [exact HN|right; exact Hd'].
      + rewrite H6, H3. auto.
  Qed.

  (** Copies: [transformed] keeps the invariant and returns a stored buffer. *)
  Lemma transformed_Inv (m : mat K) used own : forall f id bs b bs', Inv bs used own ->
    transformed f m id bs = Ok (b, bs') ->
    Inv bs' used own /\ d_get (layer_key id m) bs' = Some b /\ bf_id b = layer_key id m /\
    (forall i, mem i bs -> mem i bs').
  Proof.
    induction f as [|f IH]; intros id bs b bs' HI; rewrite transformed_eq;
      (destruct (d_get (layer_key id m) bs) as [b0|] eqn:Ek;
       [intros E; injection E as <- <-; split; [exact HI|]; split; [exact Ek|]; split; [apply (proj1 HI); exact Ek|auto]|]);
      [discriminate|].
    destruct (get_buffer id bs) as [base|] eqn:Eb; [|discriminate]. cbn [bind]. apply get_buffer_ok in Eb.
    (* the loop *)
    assert (HL : forall cs acc deps bs r, Inv bs used own ->
      deps_ok (MkBuf (layer_key id m) acc deps) ->
      copy_loop f m cs acc deps bs = Ok r ->
      Inv (snd r) used own /\ deps_ok (MkBuf (layer_key id m) (fst (fst r)) (snd (fst r))) /\
      (forall i, mem i bs -> mem i (snd r)) /\
      (forall src, pastes (fst (fst r)) src -> pastes acc src \/
         exists s0, pastes cs s0 /\ src = layer_key s0 m /\ mem src (snd r))).
    { induction cs as [|[sh|p] cs IHc]; intros acc deps bs0 r H0 Hd; cbn [copy_loop].
      - intros E; injection E as <-. cbn [fst snd]. auto 6.
      - intros E. destruct (IHc (acc ++ [DShape (shape_transform m sh)]) deps bs0 r H0) as (A & B & C & D); [|exact E|].
        + apply (deps_append (DShape (shape_transform m sh)) (MkBuf (layer_key id m) acc deps) Hd).
        + split; [exact A|]. split; [exact B|]. split; [exact C|]. intros src Hs.
          destruct (D src Hs) as [Hs'|(s0 & H1 & H2 & H3)].
          * apply pastes_app in Hs' as [Hs'|Hs']; [auto|]. apply pastes_one in Hs' as (p & E' & _). discriminate.
          * right. exists s0. split; [|auto]. destruct H1 as (p & Hp & Ep). exists p. split; [right; exact Hp|exact Ep].
      - destruct (transformed f m (pa_src p) bs0) as [[b1 bs1]|] eqn:Et; [|discriminate]. cbn [bind].
        destruct (IH _ _ _ _ H0 Et) as (I1 & I2 & I3 & I4). intros E.
        set (q := MkPaste (bf_id b1) (v_transform m (pa_center p)) (pa_neg p) (pa_meta p)) in *.
        destruct (IHc (acc ++ [DPaste q]) (add_dep (bf_id b1) deps) bs1 r I1) as (A & B & C & D); [|exact E|].
        + apply (deps_append (DPaste q) (MkBuf (layer_key id m) acc deps) Hd).
        + split; [exact A|]. split; [exact B|]. split; [auto|]. intros src Hs.
          destruct (D src Hs) as [Hs'|(s0 & H1 & H2 & H3)].
          * apply pastes_app in Hs' as [Hs'|Hs']; [auto|]. apply pastes_one in Hs' as (p' & E' & <-).
            injection E' as <-. right. exists (pa_src p). split; [exists p; split; [left; reflexivity|reflexivity]|].
            cbn [q pa_src]. split; [exact I3|]. apply C. rewrite I3. exists b1. exact I2.
          * right. exists s0. split; [|auto]. destruct H1 as (p' & Hp & Ep). exists p'. split; [right; exact Hp|exact Ep]. }
    destruct (copy_loop f m (bf_cmds base) [] [] bs) as [[[cmds deps] bs1]|] eqn:El; [|discriminate].
    cbn [bind]. intros E; injection E as <- <-.
    destruct (HL _ _ _ _ _ HI (deps_empty (layer_key id m)) El) as (A & B & C & D). cbn [fst snd] in *.
    set (nb := MkBuf (layer_key id m) cmds deps) in *.
    split; [|split; [rewrite d_get_set, str_eqb_refl; reflexivity|split; [reflexivity|intros i Hi; apply mem_set; auto]]].
    apply Inv_set with (used := used) (own := own); auto.
    assert (Hm : forall i, mem i bs1 -> mem i (d_set (layer_key id m) nb bs1)) by (intros i Hi; apply mem_set; auto).
    assert (Hp : forall src, pastes cmds src -> exists s0, pastes (bf_cmds base) s0 /\ src = layer_key s0 m /\
                   mem src (d_set (layer_key id m) nb bs1)).
    { intros src Hs. destruct (D src Hs) as [Hs'|(s0 & H1 & H2 & H3)]; [destruct (pastes_nil _ Hs')|]. eauto. }
    destruct (proj2 HI id base Eb) as [_ [(b0 & ts & H1 & H2 & -> & H4)|[(a & ts & H1 & H2 & -> & H4)|(c & ts & H1 & H2 & -> & H4)]]].
    - left. exists b0, (ts ++ [mtag m]). split; [exact H1|]. split; [apply tags_snoc; exact H2|].
      split; [apply layer_key_ext|]. intros src Hs. destruct (Hp src Hs) as (s0 & P1 & -> & P3).
      destruct (H4 s0 P1) as (a & us & A1 & A2 & -> & A4). exists a, (us ++ [mtag m]).
      split; [exact A1|]. split; [apply tags_snoc; exact A2|]. split; [apply layer_key_ext|exact P3].
    - right; left. exists a, (ts ++ [mtag m]). split; [exact H1|]. split; [apply tags_snoc; exact H2|].
      split; [apply layer_key_ext|]. intros src Hs. destruct (Hp src Hs) as (s0 & P1 & -> & P3).
      destruct (H4 s0 P1) as (c & A1 & A2 & A3 & -> & A5). exists c.
      repeat (split; [assumption|]). split; [apply layer_key_ext|exact P3].
    - right; right. exists c, (ts ++ [mtag m]). split; [exact H1|]. split; [apply tags_snoc; exact H2|].
      split; [apply layer_key_ext|]. intros src Hs. destruct (Hp src Hs) as (s0 & P1 & _). eapply H4; eauto.
  Qed.

  Lemma transformed_mem (m : mat K) k f id bs b bs' : mem k bs -> transformed f m id bs = Ok (b, bs') -> mem k bs'.
  Proof. apply (transformed_keeps (mem k) m). intros. apply mem_set. auto. Qed.

  (** Flashes. *)
  Lemma CInv_aperture s id x b x1 : CInv x -> aperture_buffer s id x = Ok (b, x1) ->
    CInv x1 /\ c_stamps x1 = c_stamps x /\
    (NoDup (c_stamps x) -> d_get (layer_key id (state_matrix s)) (c_buffers x1) = Some b /\
       bf_id b = layer_key id (state_matrix s) /\ exists own, Inv (c_buffers x1) (c_stamps x1) own).
  Proof.
    intros (Hmain & Hs & HI) E. apply aperture_buffer_inv in E as (bs' & Et & ->).
    split; [split; [|split]|split; [reflexivity|]]; cbn [set_buffers c_buffers c_stack c_stamps].
    - eapply transformed_mem; eauto.
    - exact Hs.
    - intros HN. destruct (HI HN) as [own HI']. exists own. eapply transformed_Inv; eauto.
    - intros HN. destruct (HI HN) as [own HI'].
      destruct (transformed_Inv _ _ _ _ _ _ _ _ HI' Et) as (A & B & C & _). eauto.
  Qed.
  Lemma CInv_flash h a s x x' : CInv x ->
    match a with ApAD ad => ADs (ad_id ad) | ApAB id => ABs id end ->
    on_flash md h a s x = Ok x' -> CInv x'.
  Proof.
    intros HC Ha E. apply on_flash_cases in E as [(ad & -> & E)|(id & -> & E)].
    - apply flash_aperture_inv in E as (b & x1 & Ea & E).
      destruct (CInv_aperture _ _ _ _ _ HC Ea) as (H1 & H2 & H3).
      apply (CInv_append _ _ _ H1) in E; [apply E|]. rewrite H2. intros HN.
      destruct (H3 HN) as (G1 & G2 & _). exists (ad_id ad), [mtag (state_matrix s)].
      split; [exact Ha|]. split; [apply (tags_snoc [] (state_matrix s)); constructor|].
      cbn [pa_src]. rewrite G2. split; [reflexivity|]. exists b. exact G1.
    - apply flash_block_inv in E as (b & x1 & Ea & E).
      destruct (CInv_aperture _ _ _ _ _ HC Ea) as (H1 & H2 & H3).
      apply (CInv_append_all _ _ _ H1) in E; [apply E|]. rewrite H2. intros HN d Hd.
      destruct (H3 HN) as (G1 & G2 & own & HI). apply in_map_iff in Hd as (d0 & <- & Hd).
      destruct d0 as [sh|p]; [exact I|]. cbn [shift_draw good_draw pa_src].
      eapply (kind_blocky _ _ _ _ _ id [mtag (state_matrix s)] HI G1).
      + right; left. exact Ha.
      + apply (tags_snoc [] (state_matrix s)); constructor.
      + reflexivity.
      + exists p. auto.
  Qed.

  (** Storing a buffer without pastes. *)
  Lemma no_pastes ds : (forall d, In d ds -> exists sh, d = DShape sh) -> forall src, ~ pastes (K := K) ds src.
  Proof. intros H src (p & Hp & _). destruct (H _ Hp) as [sh E]. discriminate. Qed.
  Lemma kind_fresh bs used own id b : blocky id \/ ADs id \/ thermal id ->
    (forall src, ~ pastes (bf_cmds b) src) -> kind bs used own id b.
  Proof.
    intros [H|[H|H]] Hp.
    - left. exists id, []. repeat (split; [first [assumption|reflexivity|constructor]|]). intros src Hs. destruct (Hp src Hs).
    - right; left. exists id, []. repeat (split; [first [assumption|reflexivity|constructor]|]). intros src Hs. destruct (Hp src Hs).
    - right; right. exists id, []. repeat (split; [first [assumption|reflexivity|constructor]|]). exact Hp.
  Qed.
  Lemma CInv_set_fresh id ds x : blocky id \/ ADs id -> (forall d, In d ds -> exists sh, d = DShape sh) ->
    CInv x -> CInv (set_buffer (append_draws ds (empty_buffer id)) x).
  Proof.
    intros Hid Hds (Hmain & Hs & HI). split; [|split].
    - cbn [set_buffer c_buffers]. apply mem_set. auto.
    - exact Hs.
    - cbn [set_buffer c_buffers c_stamps]. intros HN. destruct (HI HN) as [own HI']. exists own.
      rewrite append_draws_id. apply Inv_set with (used := c_stamps x) (own := own); auto.
      + apply append_draws_id.
      + apply deps_append_all, deps_empty.
      + apply kind_fresh; [tauto|]. rewrite append_draws_cmds. apply no_pastes. exact Hds.
  Qed.

  (** Macros. *)
  Definition MInv a (m : mstate (K := K)) : Prop :=
    mem main_id (c_buffers (ms_c m)) /\ (forall id, In id (c_stack (ms_c m)) -> blocky id) /\
    bf_id (ms_buf m) = a /\ deps_ok (ms_buf m) /\
    (NoDup (c_stamps (ms_c m)) -> exists own,
      Inv (c_buffers (ms_c m)) (c_stamps (ms_c m)) own /\
      forall src, pastes (bf_cmds (ms_buf m)) src ->
        thermal src /\ In src (c_stamps (ms_c m)) /\ own src = a /\ mem src (c_buffers (ms_c m))).

  Lemma MInv_step a m m' : MInv a m -> prim_step clock m m' -> MInv a m'.
  Proof.
    intros (Hmain & Hst & Hid & Hd & HI) [ds Ec Eb Hds|uid ds c Ec Eb Hds]; unfold MInv; rewrite Ec, Eb.
    - split; [exact Hmain|]. split; [exact Hst|]. split; [rewrite append_draws_id; exact Hid|].
      split; [apply deps_append_all; exact Hd|]. intros HN. destruct (HI HN) as (own & HI1 & HI2).
      exists own. split; [exact HI1|]. intros src Hs. rewrite append_draws_cmds in Hs.
      apply pastes_app in Hs as [Hs|Hs]; [auto|]. destruct (no_pastes _ Hds _ Hs).
    - set (id := thermal_id clock uid (ms_c m)) in *. unfold with_thermal, set_buffer. cbn [c_buffers c_stack c_stamps].
      rewrite append_draws_id. cbn [empty_buffer bf_id].
      assert (Hm : forall i, mem i (c_buffers (ms_c m)) -> mem i (d_set id (append_draws ds (empty_buffer id)) (c_buffers (ms_c m))))
        by (intros i Hi; apply mem_set; auto).
      split; [auto|]. split; [exact Hst|]. split; [rewrite append_draw_id; exact Hid|].
      split; [apply deps_append; exact Hd|]. intros HN. inversion HN as [|? ? Hfresh HN']; subst.
      destruct (HI HN') as (own & HI1 & HI2).
      assert (Hth : thermal id) by (exists uid, (clock (length (c_stamps (ms_c m)))); reflexivity).
      exists (fun i => if str_eqb i id then bf_id (ms_buf m) else own i).
      assert (Hu : forall c0, In c0 (c_stamps (ms_c m)) -> In c0 (id :: c_stamps (ms_c m)) /\
                 (if str_eqb c0 id then bf_id (ms_buf m) else own c0) = own c0).
      { intros c0 Hc0. split; [right; exact Hc0|]. destruct (str_eqb c0 id) eqn:E; [|reflexivity].
        apply str_eqb_eq in E. subst c0. contradiction. }
      split.
      + apply Inv_set with (used := c_stamps (ms_c m)) (own := own); auto.
        * apply append_draws_id.
        * apply deps_append_all, deps_empty.
        * apply kind_fresh; [auto|]. rewrite append_draws_cmds. apply no_pastes. exact Hds.
      + intros src Hs. rewrite append_draw_cmds in Hs. apply pastes_app in Hs as [Hs|Hs].
        * destruct (HI2 src Hs) as (A1 & A2 & A3 & A4). destruct (Hu src A2) as [U1 U2]. rewrite U2. auto.
        * apply pastes_one in Hs as (p & E & <-). injection E as <-. cbn [pa_src].
          split; [exact Hth|]. split; [left; reflexivity|]. rewrite str_eqb_refl. split; [reflexivity|].
          apply mem_set. auto.
  Qed.

  Lemma CInv_aperture_def a s x x' : ADs (ad_id a) -> CInv x -> on_aperture md clock a s x = Ok x' -> CInv x'.
  Proof.
    intros Ha HC E. apply on_aperture_inv in E as [(ds & -> & Hds)|(sc & m & Hm & ->)].
    - apply CInv_set_fresh; auto.
    - assert (HM : MInv (ad_id a) m).
      { induction Hm as [|m1 m2 _ IH Hstep]; [|eapply MInv_step; eauto].
        destruct (CInv_set_fresh (ad_id a) [] x (or_intror Ha) (fun d (H : In d []) => match H with end) HC) as (A & B & C).
        unfold MInv. cbn [ms_c ms_buf]. split; [exact A|]. split; [exact B|]. split; [reflexivity|].
        split; [apply deps_empty|]. intros HN. destruct (C HN) as [own HI]. exists own. split; [exact HI|].
        intros src Hs. destruct (pastes_nil _ Hs). }
      destruct HM as (A & B & C & D & HI). unfold set_buffer. split; [|split]; cbn [c_buffers c_stack c_stamps].
      + apply mem_set. auto.
      + exact B.
      + intros HN. destruct (HI HN) as (own & HI1 & HI2). exists own.
        apply Inv_set with (used := c_stamps (ms_c m)) (own := own); auto.
        right; left. exists (ad_id a), []. split; [exact Ha|]. split; [constructor|]. split; [exact C|].
        intros src Hs. destruct (HI2 src Hs) as (A1 & A2 & A3 & A4). exists src.
        split; [exact A1|]. split; [exact A2|]. split; [exact A3|]. split; [reflexivity|]. apply mem_set. auto.
  Qed.

  (** Blocks and step-and-repeat. *)
  Lemma CInv_push id x : blocky id -> CInv x ->
    CInv (MkC (c_buffers x) (id :: c_stack x) (c_contour x) (c_stamps x)).
  Proof. intros Hid (A & B & C). split; [exact A|]. split; [intros i [<-|Hi]; auto|exact C]. Qed.
  Lemma CInv_pop x : CInv x -> CInv (pop x).
  Proof.
    intros (A & B & C). split; [exact A|]. split; [|exact C]. cbn [pop c_stack]. intros i Hi. apply B.
    destruct (c_stack x); [exact Hi|right; exact Hi].
  Qed.
  Lemma CInv_sr uid s x : CInv x -> CInv (snd (sr_open clock uid s x)) /\ sr_tmp (fst (sr_open clock uid s x)).
  Proof.
    intros HC. unfold sr_open. cbn [fst snd]. set (id := stamp clock (lit "%%SR%") uid x).
    assert (Ht : sr_tmp id) by (exists uid, (clock (length (c_stamps x))); reflexivity).
    split; [|exact Ht].
    assert (Hb : blocky id) by (right; right; exact Ht).
    pose proof (CInv_set_fresh id [] x (or_introl Hb) (fun d (H : In d []) => match H with end) HC) as HC1.
    change (append_draws [] (empty_buffer id)) with (empty_buffer (K := K) id) in HC1.
    destruct HC1 as (A & B & C). split; [exact A|]. split; [intros i [<-|Hi]; auto|].
    cbn [c_stamps c_buffers] in *. intros HN. inversion HN as [|? ? Hf HN']; subst.
    destruct (C HN') as [own HI]. exists own. eapply Inv_used; [exact HI|]. intros c Hc. split; [right; exact Hc|reflexivity].
  Qed.

  Lemma mem_del k bs i : i <> k -> mem i bs -> mem i (d_del k bs).
  Proof. intros Hne [b Hb]. exists b. rewrite d_get_del. apply str_eqb_neq in Hne. rewrite Hne. exact Hb. Qed.
  Lemma CInv_del tmp x : sr_tmp tmp -> CInv x -> CInv (set_buffers (d_del tmp (c_buffers x)) x).
  Proof.
    intros Ht (A & B & C). split; [|split; [exact B|]]; cbn [set_buffers c_buffers c_stamps].
    - apply mem_del; [|exact A]. destruct Ht as (u & t & ->). discriminate.
    - intros HN. destruct (C HN) as [own [Hk HI]]. exists own. split; [apply keyed_del; exact Hk|].
      assert (Hbt : blocky tmp) by (right; right; exact Ht).
      intros k b. rewrite d_get_del. destruct (str_eqb k tmp); [discriminate|]. intros Hg.
      destruct (HI k b Hg) as [Hd Hkind]. split; [exact Hd|].
      destruct Hkind as [(b0 & ts & H1 & H2 & H3 & H4)|[(a & ts & H1 & H2 & H3 & H4)|H]].
      + left. exists b0, ts. repeat (split; [assumption|]). intros src Hs.
        destruct (H4 src Hs) as (a & us & A1 & A2 & A3 & A4). exists a, us. repeat (split; [assumption|]).
        apply mem_del; [|exact A4]. intros E. rewrite E in A3. change tmp with (ext tmp []) in A3.
        apply ext_inj in A3 as [<- _]; auto using plain_ad, plain_blocky; [|constructor]. eapply ad_not_blocky; eauto.
      + right; left. exists a, ts. repeat (split; [assumption|]). intros src Hs.
        destruct (H4 src Hs) as (c & A1 & A2 & A3 & A4 & A5). exists c. repeat (split; [assumption|]).
        apply mem_del; [|exact A5]. intros E. rewrite E in A4. change tmp with (ext tmp []) in A4.
        apply ext_inj in A4 as [<- _]; auto using plain_thermal, plain_blocky; [|constructor]. eapply thermal_not_blocky; eauto.
      + right; right. exact H.
  Qed.
  Lemma CInv_sr_close tmp h s x x' : sr_tmp tmp -> CInv x -> sr_close tmp h s x = Ok x' -> CInv x'.
  Proof.
    intros Ht HC E. apply sr_close_inv in E as (b & nx & ny & dx & dy & x1 & Eb & _ & _ & _ & _ & Ea & ->).
    apply CInv_del; [exact Ht|].
    apply (CInv_append_all _ _ _ (CInv_pop _ HC)) in Ea; [apply Ea|]. cbn [pop c_stamps c_buffers]. intros HN d Hd.
    apply in_flat_map in Hd as (ix & _ & Hd). apply in_flat_map in Hd as (iy & _ & Hd).
    apply in_map_iff in Hd as (d0 & <- & Hd). destruct d0 as [sh|p]; [exact I|].
    cbn [shift_draw good_draw pa_src]. destruct HC as (_ & _ & HI). destruct (HI HN) as [own HI'].
    eapply (kind_blocky _ _ _ _ _ tmp [] HI' Eb); [right; right; exact Ht|constructor|reflexivity|].
    exists p. auto.
  Qed.

  (** The tracked state only holds AD codes as apertures and AB codes as blocks. *)
  Definition BInv (s : state K) : Prop :=
    (forall id a, d_get id (s_apertures s) = Some a -> ADs (ad_id a)) /\
    (forall id b, d_get id (s_blocks s) = Some b -> ABs b).
  Definition QInv (n : node K) : Prop :=
    match n with NAD a => ADs (ad_id a) | NAB id _ => ABs id | _ => True end.

  Lemma BInv_leaf n s s' : QInv n -> is_leaf n -> BInv s -> leaf_state n s = Some s' -> BInv s'.
  Proof.
    intros HQ Hl HB E. leaf_cases n s s' E; try exact HB.
    destruct HB as [H1 H2]. split; cbn [set_store s_apertures s_blocks].
    - intros id a0. rewrite d_get_set. destruct (str_eqb id (ad_id a)); [|apply H1].
      intros E; injection E as <-. exact HQ.
    - exact H2.
  Qed.

  Lemma CInv_file ips ns v v' : (forall n m, In n ns -> In m (subnodes n) -> QInv m) ->
    CInv (v_ext v) -> BInv (v_state v) -> on_file (compiler_hooks md clock) ips ns v = Ok v' ->
    CInv (v_ext v').
  Proof.
    intros HQ HC HB E.
    refine (proj1 (walk_file md clock CInv sr_tmp QInv BInv _ _ _ _ _ _ _ _ _ _ _ ips ns HQ v v' (conj HC HB) E)).
    - exact BInv_leaf.
    - intros id body s Hn [H1 H2]. split; [exact H1|]. cbn [register_block set_store s_blocks].
      intros id0 b. rewrite d_get_set. destruct (str_eqb id0 id); [|apply H2]. intros E'; injection E' as <-. exact Hn.
    - intros x y i j s s1 Hs Er. apply read_coords_inv in Er as (? & ? & ? & ? & _ & _ & _ & _ & ->). exact Hs.
    - intros sh x x' Hx Ea. apply (CInv_append _ _ _ Hx) in Ea; [apply Ea|]. intros _. exact I.
    - intros c x Hx. exact Hx.
    - intros h a s x x' [HB1 HB2] Ea Hx Ef. eapply CInv_flash; [exact Hx| |exact Ef].
      unfold current_aperture in Ea. destruct (s_apid s) as [i|]; [|discriminate].
      destruct (d_get i (s_apertures s)) as [a0|] eqn:E1; [injection Ea as <-; eauto|].
      destruct (d_get i (s_blocks s)) as [b0|] eqn:E2; [injection Ea as <-; eauto|discriminate].
    - intros a s x x' Hn Hx Ea. exact (CInv_aperture_def a s x x' Hn Hx Ea).
    - intros id body s x Hn Hx. unfold ab_open.
      assert (Hb : blocky id) by (right; left; exact Hn).
      apply (CInv_push id (set_buffer (empty_buffer id) x) Hb).
      exact (CInv_set_fresh id [] x (or_introl Hb) (fun d (H : In d []) => match H with end) Hx).
    - exact CInv_pop.
    - intros uid s x Hx. apply CInv_sr. exact Hx.
    - exact CInv_sr_close.
  Qed.

  Lemma CInv_init : CInv (compiler_init (K := K)).
  Proof.
    split; [exists (empty_buffer main_id); reflexivity|]. split.
    - intros i [<-|[]]. left; reflexivity.
    - intros _. exists (fun i => i). split.
      + intros k b. cbn [compiler_init c_buffers d_get]. destruct (str_eqb k main_id) eqn:E; [|discriminate].
        apply str_eqb_eq in E. intros E'; injection E' as <-. subst; reflexivity.
      + intros k b. cbn [compiler_init c_buffers d_get]. destruct (str_eqb k main_id) eqn:E; [|discriminate].
        apply str_eqb_eq in E. intros E'; injection E' as <-. split; [apply deps_empty|]. subst k.
        apply kind_fresh; [left; left; reflexivity|]. apply pastes_nil.
  Qed.
End Inv.

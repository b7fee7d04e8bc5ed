(** Proofs for C64 in files that define codes again. *)
From Coq Require Import Reals Lra Permutation.
From Verif Require Import Base Num NumReal Dict CoordModel CoordSpec Ast StateModel StateSpec StateProofs GeomModel CompilerModel LayerSpec LayerProofs LayerInv LayerOut LayerProps
  BoxModel ArcModel VmModel VmSpec VmProps DrawSpec DrawProofs FlashSpec FlashProofs PaintModel PaintSpec PaintProofs PaintProps RenderSpec RenderProofs
  StaleSpec Stale FirstFlash RedefSpec.

(** ** A flash, at the end of the walk *)
Section Final.
  Context {K : Type} {NK : Num K} (md : bool) (clock : nat -> Z) (ABs : str -> Prop).
  Hypothesis AB_code : forall id, ABs id -> exists n, dcode id n.
  Notation H := (compiler_hooks (K := K) md clock).
  Notation bufs v := (c_buffers (v_ext v)).

  Lemma flash_stamps x y (v v' : visitor K (cstate K)) : visit_leaf H (ND03 x y) v = Done v' -> c_stamps (v_ext v') = c_stamps (v_ext v).
  Proof.
    intros E. destruct (leaf_d03 _ _ _ _ _ E) as (s & ap & h & _ & _ & _ & Hf & _). cbn [compiler_hooks hk_flash] in Hf.
    assert (Hst : forall ds y1 y2, append_all (K := K) ds y1 = Ok y2 -> c_stamps y2 = c_stamps y1).
    { induction ds as [|d ds IH]; intros y1 y2; cbn [append_all]; [intros E1; injection E1 as <-; reflexivity|].
      destruct (append_current d y1) as [y3|] eqn:E1; [|discriminate]. cbn [bind]. intros E2. rewrite (IH _ _ E2).
      apply append_current_inv in E1 as (? & ? & ? & _ & _ & ->). reflexivity. }
    apply on_flash_cases in Hf as [(ad & _ & Hf)|(i & _ & Hf)].
    - apply flash_aperture_inv in Hf as (b & y1 & E1 & E2). apply aperture_buffer_inv in E1 as (bs' & _ & ->).
      apply append_current_inv in E2 as (? & ? & ? & _ & _ & ->). reflexivity.
    - apply flash_block_inv in Hf as (b & y1 & E1 & E2). apply aperture_buffer_inv in E1 as (bs' & _ & ->). rewrite (Hst _ _ _ E2). reflexivity.
  Qed.

  Lemma final_flash whole v : named_point H compiler_init ABs whole v -> tells_apart whole ->
    (forall a, In (NAD a) whole -> code ABs (ad_id a)) -> NoDup (c_stamps (v_ext v)) ->
    forall pre x y post id, whole = pre ++ ND03 x y :: post -> latest_selection pre = Some id -> code ABs id ->
    exists p pd a qd (v1 : visitor K (cstate K)), first_use pre id p /\ p = pd ++ NAD a :: qd /\ ad_id a = id /\ ~ In id (ad_codes qd) /\
      copy_of (bufs v1) (matrix_at pre) id (layer_key id (matrix_at pre)) /\ made md clock pd a (bufs v1) /\
      (forall b src b1, d_get id (bufs v1) = Some b -> pastes (bf_cmds b) src -> d_get src (bufs v1) = Some b1 -> forall k, ~ pastes (bf_cmds b1) k) /\
      (forall b src, d_get (layer_key id (matrix_at pre)) (bufs v1) = Some b -> pastes (bf_cmds b) src -> mem src (bufs v1)) /\
      forall k, shows (bufs v1) (layer_key id (matrix_at pre)) k -> d_get k (bufs v) = d_get k (bufs v1).
  Proof.
    intros Hp Ht HA HN pre x y post id Ew Hsel Hc.
    set (Ms := fun m : mat K => exists p q, whole = p ++ q /\ m = matrix_at p).
    assert (Mi : forall m m', Ms m -> Ms m' -> mtag m = mtag m' -> m = m').
    { intros m m' (p1 & q1 & E1 & ->) (p2 & q2 & E2 & ->). destruct Ht as [_ Ht]. eauto. }
    assert (HM : forall p1 q1, whole = p1 ++ q1 -> Ms (matrix_at p1)) by (intros p1 q1 E1; exists p1, q1; auto).
    set (m := matrix_at pre) in *.
    assert (HF : flashed (pre ++ [ND03 x y]) id (mtag m)) by (exists pre, x, y, []; split; [reflexivity|split; [exact Hsel|reflexivity]]).
    destruct (flashed_first _ _ _ HF) as (p & x0 & y0 & q & Ep & S1 & S2 & S3).
    assert (Ew' : whole = p ++ ND03 x0 y0 :: (q ++ post)).
    { rewrite Ew. change (ND03 x y :: post) with ([ND03 x y] ++ post). rewrite app_assoc, Ep, <- app_assoc. reflexivity. }
    destruct (point_split md clock ABs _ _ Hp _ _ _ _ Ew') as (v0 & v1 & P0 & E0 & Hw).
    assert (P1 : named_point H compiler_init ABs (p ++ [ND03 x0 y0]) v1) by (eapply np_leaf; [exact P0|exact Logic.I|left; exact E0]).
    pose proof (walk_stamps md clock Ms ABs (proj1 Ht) Mi AB_code _ _ _ _ Hw P1 HA HM HN) as N1.
    assert (N0 : NoDup (c_stamps (v_ext v0))) by (rewrite <- (flash_stamps _ _ _ _ E0); exact N1).
    assert (Pre : p = pre \/ exists x y q, pre = p ++ ND03 x y :: q).
    { apply snoc_split in Ep as [(q' & Ep & _)|(t' & Ep & ->)]; [right; eexists _, _, _; exact Ep|left].
      destruct t' as [|n0 t']; cbn [app] in Ep; [apply app_nil_r|injection Ep as _ Ep; destruct t'; discriminate Ep]. }
    assert (Hm : matrix_at p = m) by (apply Mi; [eapply HM; exact Ew'|eapply HM; exact Ew|exact S2]).
    destruct (flash_has_definition md clock ABs p v0 id x0 y0 v1 P0 S1 Hc E0) as (pd & a & qd & Ed & Ia & Ld). subst id.
    assert (HAp : forall b, In (NAD b) p -> code ABs (ad_id b)) by (intros b Hb; apply HA; rewrite Ew'; apply in_or_app; left; exact Hb).
    destruct (flash_made md clock Ms ABs (proj1 Ht) Mi AB_code p v0 pd a qd x0 y0 v1 P0 HAp) as (F1 & F2 & F3); auto.
    { intros p1 q1 E1. apply HM with (q1 ++ ND03 x0 y0 :: q ++ post). rewrite app_assoc, <- E1. exact Ew'. }
    { rewrite Hm. exact S3. }
    rewrite Hm in F1. exists p, pd, a, qd, v1. split.
    { split; [exact Pre|]. split; [exact S1|]. split; [exact Hm|]. intros (p1 & a1 & b1 & q1 & G1 & G2 & G3).
      apply S3. exists p1, a1, b1, q1. split; [exact G1|]. split; [exact G2|]. rewrite G3. reflexivity. }
    split; [exact Ed|]. split; [reflexivity|]. split; [exact Ld|]. split; [exact F1|]. split; [exact F2|]. split; [exact F3|].
    assert (Hcd : coded whole) by (intros b Hb; exact (proj1 (HA b Hb))).
    assert (R1 : ready (v_ext v1)).
    { apply (ready_point md clock ABs AB_code _ _ P1). intros b Hb. apply Hcd. rewrite Ew'.
      apply in_app_or in Hb as [Hb|[Hb|[]]]; [apply in_or_app; left; exact Hb|discriminate Hb]. }
    destruct (walk_goes md clock ABs AB_code _ _ _ _ Hw Hcd R1) as [_ L].
    split; [intros b src G P; exact (proj2 (proj2 (proj2 R1) _ _ _ _ G P))|]. intros k Hk.
    destruct (shown_keys _ _ _ (proj2 (proj2 R1)) Hk) as (k1 & m1 & -> & [b M]); [eauto|]. rewrite M. apply L, M.
  Qed.
End Final.

(** ** Pictures *)
Section Pictures.
  Context (inside : shape R -> vec R -> Prop) (text : R -> str) (md : bool) (clock : nat -> Z).
  Notation NT := (with_text NumR text).

  Lemma run_repicture (shows : str -> vec R -> Prop) whole ds : run_shown (NK := NT) whole ds ->
    (forall pre x y post a, whole = pre ++ ND03 x y :: post -> selected_as pre a -> forall c neg m,
       In (DPaste (MkPaste (layer_key (NK := NT) (ad_id a) (matrix_at (NK := NT) pre)) c neg m)) ds ->
       exists p a' os, first_use (NK := NT) pre (ad_id a) p /\ selected_as p a' /\ aperture_figure inside text md clock p a' (matrix_at (NK := NT) pre) os /\
         forall p, shows (layer_key (NK := NT) (ad_id a) (matrix_at (NK := NT) pre)) p <-> seen os p) ->
    exists os, repicture inside text md clock whole os /\ Forall2 (stands inside shows) ds os.
  Proof.
    induction 1 as [|pre out n new HR IH [Hd Hs]]; intros Hf; [exists []; split; constructor|].
    destruct IH as (os & P1 & P2); [intros pre0 x y post a E Ha c neg m Hin; apply (Hf pre0 x y (post ++ [n]) a) with (c := c) (neg := neg) (m := m);
      [rewrite E, <- app_assoc; reflexivity|exact Ha|apply in_or_app; left; exact Hin]|].
    assert (Hnew : exists os', repictured inside text md clock pre n os' /\ Forall2 (stands inside shows) new os').
    { assert (Hc : (exists x y, n = ND03 x y) \/ match n with ND03 _ _ => False | _ => True end) by (destruct n; eauto).
      destruct Hc as [(x & y & ->)|Hc].
      - destruct Hs as (a & m & Ha & ->). destruct (Hf pre x y [] a eq_refl Ha (pen_vec (NK := NT) (pre ++ [ND03 x y])) (clear_at pre) m) as (p & a' & fs & F0 & F3 & F1 & F2);
          [apply in_or_app; right; left; reflexivity|].
        eexists. split; [exists (ad_id a), p, a', fs; split; [exact (proj1 Ha)|]; split; [exact F0|]; split; [exact F3|]; split; [exact F1|]; reflexivity|]. constructor; [|constructor].
        apply paste_stands. exact F2.
      - destruct (emitted_shapes text pre n new Hc Hd) as (neg & Hsh). destruct (shape_objects inside neg new Hsh) as (os' & Ho).
        exists os'. split; [|apply shape_stands; exact Ho]. destruct n; try contradiction; exists new; split; try exact Ho; split; try exact Hd; try exact Hs.
        intros H1 H2. destruct (Hs H1 H2) as (a & th & m & A1 & A2 & A3). exists a, th, m. split; [exact A1|]. split; [apply thick_wide, (thick_text text); exact A2|exact A3]. }
    destruct Hnew as (os' & N1 & N2). exists (os ++ os'). split; [constructor; assumption|]. apply Forall2_app; assumption.
  Qed.

  Lemma flash_refigure shows ips ns v (l : list (buffer R)) : Forall is_leaf ns ->
    (forall a, In (NAD a) ns -> exists n, dcode (ad_id a) n) -> tells_apart (NK := NT) (executed_file ips ns) ->
    on_file (NK := NT) (@compiler_hooks R NT md clock) ips ns (visitor_init (NK := NT) compiler_init) = Ok v -> NoDup (c_stamps (v_ext v)) ->
    ordered l -> (forall b, In b l -> d_get (bf_id b) (c_buffers (v_ext v)) = Some b) ->
    (forall b, In b l -> forall p, shows (bf_id b) p <-> dark (plane_covers inside (fun _ => MkVec 0%R 0%R) shows (bf_id b)) (bf_cmds b) p) ->
    forall pre x y post a b, executed_file ips ns = pre ++ ND03 x y :: post -> selected_as pre a -> In b l ->
    bf_id b = layer_key (NK := NT) (ad_id a) (matrix_at (NK := NT) pre) ->
    exists p a' os, first_use (NK := NT) pre (ad_id a) p /\ selected_as p a' /\ aperture_figure inside text md clock p a' (matrix_at (NK := NT) pre) os /\
      forall p, shows (bf_id b) p <-> seen os p.
  Proof.
    intros Hl Hc Ht E HN Ho Hg Hs pre x y post a b Ew Ha Hb Hid.
    set (whole := executed_file ips ns) in *. set (bs := c_buffers (v_ext v)) in *.
    assert (Hsub : forall a, In (NAD a) whole -> In (NAD a) ns).
    { clear - Hl. unfold whole. induction Hl as [|n r Hn _ IH]; intros a Ha; [destruct Ha|]. cbn [executed_file] in Ha. rewrite (executed_leaf n Hn) in Ha.
      destruct (match n with NM00 | NM02 => true | _ => false end && ips)%bool; cbn [app In] in Ha; destruct Ha as [Ha|Ha]; try (left; exact Ha); [destruct Ha|right; apply IH; exact Ha]. }
    assert (Hp : named_point (NK := NT) (@compiler_hooks R NT md clock) compiler_init none whole v).
    { refine (named_file (NK := NT) md clock none ips ns _ [] _ _ (np_start _ _ _) E). intros n Hn m Hmm. rewrite Forall_forall in Hl.
      specialize (Hl n Hn). destruct n; try contradiction; destruct Hmm as [<-|[]]; exact I. }
    assert (HA : forall a, In (NAD a) whole -> code none (ad_id a)) by (intros a0 Ha0; split; [apply Hc, Hsub; exact Ha0|intros []]).
    assert (Hca : code none (ad_id a)).
    { apply HA. destruct Ha as [_ (p1 & q1 & -> & _)]. rewrite Ew, <- app_assoc. apply in_or_app; right; left; reflexivity. }
    destruct (final_flash (NK := NT) md clock none none_code whole v Hp Ht HA HN pre x y post (ad_id a) Ew (proj1 Ha) Hca)
      as (p & pd & a' & qd & v1 & A1 & A2 & A3 & A4 & A5 & A6 & A7 & A9 & A8).
    set (M := matrix_at (NK := NT) pre) in *. set (key := layer_key (NK := NT) (ad_id a) M) in *.
    destruct A6 as (s & x0 & x1 & b0 & D2 & D3 & D7 & D4 & G0 & _ & D6). rewrite A3 in D4, G0.
    inversion A5 as [k k' c0 c1 C1 C2 C3]; subst k k'. rewrite G0 in C1. injection C1 as <-.
    assert (Hshow : forall k c, d_get k (c_buffers (v_ext v1)) = Some c -> StaleSpec.shows (c_buffers (v_ext v1)) key k -> d_get k bs = Some c).
    { intros k c G Hk. exact (eq_trans (A8 k Hk) G). }
    assert (Eb : c1 = b).
    { pose proof (Hshow _ _ C2 (sh_self _ _ _ C2)) as X. pose proof (Hg b Hb) as Y. rewrite Hid in Y. rewrite X in Y. injection Y as <-. reflexivity. }
    subst c1. apply in_split in Hb as Hb0. destruct Hb0 as (l1 & l2 & El).
    destruct (copy_figure inside shows text (c_buffers (v_ext v1)) M l Hs (c_buffers x1) (bf_cmds b0) (bf_cmds b) C3) as (os & F1 & F2).
    - intros src Hsrc. destruct (D6 src Hsrc) as (b1 & G1 & G2). exists b1. split; [exact G1|]. split; [exact G2|]. exact (A7 _ _ _ G0 Hsrc G2).
    - intros src Hsrc. pose proof (Ho l1 b l2 src El Hsrc) as Hi. apply in_map_iff in Hi as (b1 & E1 & H1).
      assert (Hin : In b1 l) by (rewrite El; apply in_or_app; left; exact H1). exists b1. split; [exact Hin|]. split; [exact E1|].
      destruct (A9 b src C2 Hsrc) as [b2 G2]. rewrite <- (A8 src); [rewrite <- E1; apply Hg; exact Hin|].
      eapply sh_paste; [exact C2|exact Hsrc|]. eapply sh_self; exact G2.
    - exists p, a', os. split; [exact A1|]. split; [split; [rewrite A3; exact (proj1 (proj2 A1))|exists pd, qd; rewrite A3; auto]|]. split.
      + exists pd, qd, s, x0, x1, b0. rewrite A3. auto 10.
      + intros p0. rewrite (Hs b Hb). symmetry. apply seen_dark. exact F2.
  Qed.
End Pictures.

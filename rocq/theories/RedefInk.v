(** Property theorems C85 and C86 in files that define codes again (specification in
    [RedefSpec]). *)
From Coq Require Import Reals Lra Lia Permutation.
From Verif Require Import Base Num NumReal Dict CoordModel CoordSpec Ast StateModel StateSpec StateProofs GeomModel CompilerModel LayerSpec LayerProofs LayerInv LayerOut LayerProps
  BoxModel ArcModel VmModel VmSpec VmProps DrawSpec DrawProofs FlashSpec FlashProofs PaintModel PaintSpec PaintProofs PaintProps RenderSpec RenderProofs RenderProps
  InkSpec InkVm InkProofs InkProps AcceptProps PixelSpec PixelProofs PixelProps StaleSpec Stale FirstFlash RedefSpec RedefProofs RedefProps.
Open Scope R_scope.

Lemma last_def_unique {K} (p q p' q' : list (node K)) (a a' : ad K) : p ++ NAD a :: q = p' ++ NAD a' :: q' -> ad_id a' = ad_id a ->
  ~ In (ad_id a) (ad_codes q) -> ~ In (ad_id a) (ad_codes q') -> p' = p /\ a' = a /\ q' = q.
Proof.
  intros E Hi H1 H2. apply snoc_split in E as [(q2 & -> & ->)|(t & E & ->)].
  - destruct H2. unfold ad_codes. rewrite flat_map_app. apply in_or_app. right. left. reflexivity.
  - destruct t as [|n t]; cbn [app] in E; injection E as E1 E2.
    + subst. rewrite app_nil_r. auto.
    + destruct H1. rewrite E2. unfold ad_codes. rewrite flat_map_app. apply in_or_app. right. left. exact Hi.
Qed.

Section Files.
  Context (text : R -> str) (md : bool) (clock : nat -> Z) (iter : str -> list str -> list str).
  Notation NT := (with_text NumR text).
  Hypothesis iter_perm : forall id l, Permutation (iter id l) l.
  Hypothesis clock_inj : forall i j, clock i = clock j -> i = j.
  Notation leaf_file := (leaf_file text).

  Lemma leaf_codes ips ns : leaf_file ips ns -> codes_valid ns /\ codes_disjoint ns.
  Proof.
    intros (Hl & Hc & _).
    assert (Hsub : forall n m, In n ns -> In m (subnodes n) -> m = n).
    { intros n m Hn Hi. rewrite Forall_forall in Hl. specialize (Hl n Hn). destruct n; try contradiction; destruct Hi as [<-|[]]; reflexivity. }
    assert (Hnab : forall id body, ~ In (NAB id body) ns) by (intros id body Hi; rewrite Forall_forall in Hl; exact (Hl _ Hi)).
    split; [split|].
    - intros n a Hn Hi. apply Hc. rewrite (Hsub n _ Hn Hi). exact Hn.
    - intros n id body Hn Hi. exfalso. apply (Hnab id body). rewrite (Hsub n _ Hn Hi). exact Hn.
    - intros n n' a id body Hn Hn' Hi Hi' _. apply (Hnab id body). rewrite (Hsub n' _ Hn' Hi'). exact Hn'.
  Qed.
  Lemma flash_remarks ips ns v (l : list (buffer R)) : leaf_file ips ns ->
    on_file (NK := NT) (@compiler_hooks R NT md clock) ips ns (visitor_init (NK := NT) compiler_init) = Ok v -> NoDup (c_stamps (v_ext v)) ->
    (forall b, In b l -> d_get (bf_id b) (c_buffers (v_ext v)) = Some b) ->
    forall pre x y post a0 b, executed_file ips ns = pre ++ ND03 x y :: post -> selected_as pre a0 -> In b l ->
    bf_id b = layer_key (NK := NT) (ad_id a0) (matrix_at (NK := NT) pre) ->
    (exists p pd a qd, first_use (NK := NT) pre (ad_id a0) p /\ p = pd ++ NAD a :: qd /\ ad_id a = ad_id a0 /\ ~ In (ad_id a0) (ad_codes qd) /\
      (bf_cmds b <> [] <-> marks_aperture pd a)) /\
    forall src b', pastes (bf_cmds b) src -> d_get src (c_buffers (v_ext v)) = Some b' -> bf_cmds b' <> [] /\ forall src', ~ pastes (bf_cmds b') src'.
  Proof.
    intros (Hl & Hc & Ht) E HN Hg pre x y post a0 b Ew Ha Hb Hid.
    set (whole := executed_file ips ns) in *. set (bs := c_buffers (v_ext v)) in *.
    assert (Hsub : forall a, In (NAD a) whole -> In (NAD a) ns).
    { clear - Hl. unfold whole. induction Hl as [|n r Hn _ IH]; intros a Ha; [destruct Ha|]. cbn [executed_file] in Ha. rewrite (executed_leaf n Hn) in Ha.
      destruct (match n with NM00 | NM02 => true | _ => false end && ips)%bool; cbn [app In] in Ha; destruct Ha as [Ha|Ha]; try (left; exact Ha); [destruct Ha|right; apply IH; exact Ha]. }
    assert (Hp : named_point (NK := NT) (@compiler_hooks R NT md clock) compiler_init none whole v).
    { refine (named_file (NK := NT) md clock none ips ns _ [] _ _ (np_start _ _ _) E). intros n Hn m Hmm. rewrite Forall_forall in Hl.
      specialize (Hl n Hn). destruct n; try contradiction; destruct Hmm as [<-|[]]; exact I. }
    assert (HA : forall a, In (NAD a) whole -> code none (ad_id a)) by (intros a1 Ha1; split; [apply Hc, Hsub; exact Ha1|intros []]).
    assert (Hca : code none (ad_id a0)).
    { apply HA. destruct Ha as [_ (p1 & q1 & -> & _)]. rewrite Ew, <- app_assoc. apply in_or_app; right; left; reflexivity. }
    destruct (final_flash (NK := NT) md clock none none_code whole v Hp Ht HA HN pre x y post (ad_id a0) Ew (proj1 Ha) Hca)
      as (p & pd & a & qd & v1 & A1 & A2 & A3 & A4 & A5 & A6 & A7 & A9 & A8).
    set (M := matrix_at (NK := NT) pre) in *. set (key := layer_key (NK := NT) (ad_id a0) M) in *.
    destruct A6 as (s & x0 & x1 & b0 & D2 & D3 & D7 & D4 & G0 & _ & D6).
    inversion A5 as [k k' c0 c1 C1 C2 C3]; subst k k'. rewrite <- A3, G0 in C1. injection C1 as <-.
    assert (Eb : c1 = b).
    { pose proof (eq_trans (A8 _ (sh_self _ _ _ C2)) C2) as X. pose proof (Hg b Hb) as Y. rewrite Hid in Y. fold bs in X. rewrite X in Y. injection Y as <-. reflexivity. }
    subst c1. destruct (aperture_marks text clock md a s x0 x1 pd D2 D3) as (b1 & M1 & M2 & M3). rewrite D4 in M1. injection M1 as <-.
    destruct (copy_same (NK := NT) _ _ _ _ C3) as [S1 S2]. split.
    - exists p, pd, a, qd. repeat (split; [assumption|]). rewrite S1. exact M2.
    - intros src b' Hsrc Hg'. destruct (S2 src Hsrc) as (src0 & Hp0 & Hcp). destruct (M3 src0 Hp0) as (bt & T1 & T2 & _).
      destruct (D6 src0 Hp0) as (bt' & T1' & G1). rewrite T1 in T1'. injection T1' as <-.
      inversion Hcp as [k k' c0 c1 C1 C4 C5]; subst k k'. rewrite G1 in C1. injection C1 as <-.
      assert (Eb' : c1 = b').
      { assert (Hk : StaleSpec.shows (c_buffers (v_ext v1)) key src) by (eapply sh_paste; [exact C2|exact Hsrc|]; eapply sh_self; exact C4).
        pose proof (eq_trans (A8 _ Hk) C4) as X. fold bs in X. rewrite X in Hg'. injection Hg' as <-. reflexivity. }
      subst c1. destruct (copy_same (NK := NT) _ _ _ _ C5) as [S3 S4]. split; [apply S3; exact T2|]. intros src' Hs'. destruct (S4 src' Hs') as (src1 & Hp1 & _).
      rewrite A3 in G0. exact (A7 _ _ _ G0 Hp0 G1 src1 Hp1).
  Qed.

  (** What the main layer pastes. *)
  Lemma main_flashes whole ds : run_shown (NK := NT) whole ds ->
    (forall src, pastes ds src -> exists pre x y post a, whole = pre ++ ND03 x y :: post /\ selected_as pre a /\ src = layer_key (NK := NT) (ad_id a) (matrix_at (NK := NT) pre)) /\
    (forall pre x y post, whole = pre ++ ND03 x y :: post -> exists a, selected_as pre a /\ pastes ds (layer_key (NK := NT) (ad_id a) (matrix_at (NK := NT) pre))).
  Proof.
    induction 1 as [|pre out n new HR [IH1 IH2] [Hdr Hs]].
    - split; [intros src (q & [] & _)|]. intros pre x y post X. destruct pre; discriminate X.
    - split.
      + intros src (q & Hq & Es). apply in_app_or in Hq as [Hq|Hq].
        * destruct (IH1 src) as (p & x & y & post & a & X1 & X2 & X3); [exists q; auto|]. exists p, x, y, (post ++ [n]), a. rewrite X1, <- app_assoc. auto.
        * assert (Dec : (exists x y, n = ND03 x y) \/ match n with ND03 _ _ => False | _ => True end) by (destruct n; eauto).
          destruct Dec as [(x & y & ->)|Dec].
          -- destruct Hs as (a & m & Ha & ->). destruct Hq as [Hq|[]]. injection Hq as <-. exists pre, x, y, [], a. auto.
          -- destruct (emitted_shapes text pre n new Dec Hdr) as (neg & Hsh). unfold all_shapes in Hsh. rewrite Forall_forall in Hsh. destruct (Hsh _ Hq) as (s & X & _). discriminate X.
      + intros p x y post X. destruct (exists_last (l := ND03 x y :: post)) as (q' & z & Eq); [discriminate|].
        assert (E' : pre ++ [n] = (p ++ q') ++ [z]) by (rewrite <- app_assoc, <- Eq; exact X). apply app_inj_tail in E' as [-> <-].
        destruct q' as [|m' q']; cbn [app] in Eq; injection Eq as <- ->.
        * rewrite app_nil_r in Hs. destruct Hs as (a & m & Ha & ->). exists a. split; [exact Ha|]. eexists. split; [apply in_or_app; right; left; reflexivity|reflexivity].
        * destruct (IH2 p x y q' eq_refl) as (a & Ha & (q & Hq & Es)). exists a. split; [exact Ha|]. exists q. split; [apply in_or_app; left; exact Hq|exact Es].
  Qed.

  (** C85 for files without blocks that may define codes again: only the definitions count
      that are the latest ones when a code is flashed for the first time under a
      transformation.  Partial: as [C85_rendered_partial] without the condition that no code is
      defined twice.  Missing: blocks, see [C85_blocks_partial]. *)
  Theorem C85_redefined_partial :
    forall paints fl ips ns cmds, (forall s, paints s = None) -> leaf_file ips ns -> compile (NK := NT) md clock iter ips ns = Ok cmds ->
      ((exists r, vm_run (NK := NumR) (shapely paints) fl cmds = Ok r) <-> remarked (executed_file ips ns)).
  Proof.
    intros paints fl ips ns cmds Hpaint Hf E. destruct (leaf_codes ips ns Hf) as [HV HD]. pose proof Hf as (Hl & Hc & Ht). pose proof (proj1 Ht) as Hpct.
    destruct (C85_layers text md clock iter Hpct clock_inj iter_perm paints fl ips ns cmds HV HD E) as (ls & A1 & A2 & _). rewrite A2. clear A2.
    destruct (compiled_all text md clock iter Hpct clock_inj iter_perm ips ns cmds HV HD E) as (v & l & E1 & HN & -> & L2 & L3 & L4 & L5 & L6 & L7 & (lp & mx & Elp & Emx)).
    rewrite L2 in A1. injection A1 as <-.
    assert (Hid : forall a, In (NAD a) ns -> ad_id a <> main_id).
    { intros a Ha Em. destruct (Hc a Ha) as (n & ds & Hn & _). rewrite Em in Hn. discriminate Hn. }
    destruct (flat_main (NK := NT) md clock ips ns v Hl Hid E1) as (mb & G1 & HR).
    destruct (main_marks (NK := NT) md clock ips ns v Hl Hid E1) as (mb' & G2 & HM). rewrite G1 in G2. injection G2 as <-.
    assert (Hmx : In mx l) by (rewrite Elp; apply in_or_app; right; left; reflexivity).
    assert (mx = mb) as -> by (pose proof (L5 mx Hmx) as G; rewrite Emx, G1 in G; congruence).
    pose proof (flash_remarks ips ns v l Hf E1 HN L5) as HF. destruct (main_flashes _ _ HR) as [F1 F2].
    assert (Hlayer : forall id b, In b l -> bf_id b = id -> In (id, bf_cmds b) (map layer_of l)) by (intros id b Hb <-; apply in_map_iff; exists b; auto).
    split.
    - intros Hfit. split.
      + apply HM. apply (Hfit main_id). apply Hlayer; assumption.
      + intros pre x y post p a q Ew Hsel Hfirst Epre Hnq. destruct (F2 pre x y post Ew) as (a' & Ha' & Hp).
        assert (X : ad_id a' = ad_id a) by (destruct Ha' as [Y _]; congruence).
        assert (Hin : In (layer_key (NK := NT) (ad_id a') (matrix_at (NK := NT) pre)) (map bf_id lp)) by apply (L3 lp mb [] _ Elp Hp).
        apply in_map_iff in Hin as (b & B1 & B2). assert (Hb : In b l) by (rewrite Elp; apply in_or_app; left; exact B2).
        destruct (HF pre x y post a' b Ew Ha' Hb B1) as [(p0 & pd & a1 & qd & U & Ep0 & I1 & I2 & I3) _]. rewrite X in U, I1, I2.
        destruct U as ([->|(x0 & y0 & q0 & Eq0)] & U1 & U2 & _).
        * rewrite Epre in Ep0. destruct (last_def_unique p q pd qd a a1 Ep0 I1 Hnq I2) as (-> & -> & _).
          apply I3. apply (Hfit (bf_id b)). apply Hlayer; auto.
        * destruct Hfirst. exists p0, x0, y0, q0. auto.
    - intros [Hany Hfl] id ds Hi. split; [|intros s _; apply Hpaint]. apply in_map_iff in Hi as (z & Ez & Hz). injection Ez as <- <-.
      set (flash := fun b : buffer R => exists pre x y post a, executed_file ips ns = pre ++ ND03 x y :: post /\ selected_as pre a /\ bf_id b = layer_key (NK := NT) (ad_id a) (matrix_at (NK := NT) pre)).
      set (part := fun b : buffer R => bf_cmds b <> [] /\ forall src, ~ pastes (bf_cmds b) src).
      assert (Hkind : forall l2 l1, l = l1 ++ l2 -> forall b, In b l2 -> b = mb \/ flash b \/ part b).
      { induction l2 as [|w l2 IH]; intros l1 El b Hb; [destruct Hb|]. assert (IH' : forall b, In b l2 -> b = mb \/ flash b \/ part b) by (apply (IH (l1 ++ [w])); rewrite <- app_assoc; exact El).
        destruct Hb as [<-|Hb]; [|exact (IH' b Hb)]. destruct l2 as [|u l2].
        - left. rewrite Elp in El. apply app_inj_tail in El as [_ El]. symmetry. exact El.
        - destruct (L7 (map layer_of l1) (bf_id w) (bf_cmds w) (layer_of u) (map layer_of l2)) as (id' & ds' & Hin & Hp); [rewrite El, map_app; reflexivity|].
          change (layer_of u :: map layer_of l2) with (map layer_of (u :: l2)) in Hin. apply in_map_iff in Hin as (t & Et & Hti). injection Et as <- <-.
          destruct (IH' t Hti) as [->|[(pre & x & y & post & a & W1 & W2 & W3)|[_ P2]]].
          + right. left. destruct (F1 _ Hp) as (pre & x & y & post & a & W1 & W2 & W3). exists pre, x, y, post, a. auto.
          + right. right. assert (Htl : In t l) by (rewrite El; apply in_or_app; right; right; exact Hti).
            apply (proj2 (HF pre x y post a t W1 W2 Htl W3) (bf_id w) w Hp). apply L5. rewrite El. apply in_or_app. right. left. reflexivity.
          + destruct (P2 _ Hp). }
      destruct (Hkind l [] eq_refl z Hz) as [->|[(pre & x & y & post & a & W1 & W2 & W3)|[P1 _]]].
      + apply HM. exact Hany.
      + destruct (HF pre x y post a z W1 W2 Hz W3) as [(p0 & pd & a1 & qd & (U0 & U1 & U2 & U3) & Ep0 & I1 & I2 & I3) _]. apply I3.
        rewrite <- I1 in U1, U3, I2. rewrite <- U2 in U3.
        destruct U0 as [->|(x0 & y0 & q0 & Eq0)].
        * exact (Hfl pre x y post pd a1 qd W1 U1 U3 Ep0 I2).
        * refine (Hfl p0 x0 y0 (q0 ++ ND03 x y :: post) pd a1 qd _ U1 U3 Ep0 I2). rewrite W1, Eq0, <- app_assoc. reflexivity.
      + exact P1.
  Qed.

  (** C86 for such files.  Partial: as [C86_picture_partial] without the condition that no code
      is defined twice. *)
  Theorem C86_redefined_partial :
    forall fill fillR dpmm r fuel paints fl ips ns cmds m b, (0 < dpmm)%Z -> 1 <= r -> spanned fillR -> rasterizes dpmm r fill fillR ->
      leaf_file ips ns -> compile (NK := NT) md clock iter ips ns = Ok cmds -> vm_run (pillow paints) fl cmds = Ok (m, Some b) ->
      exists ls os, layers cmds = Some ls /\ repicture (filled_in (Pillow dpmm) fuel fillR) text md clock (executed_file ips ns) os /\
        (all_fair ls ->
         let '((width, height), pixel) := pillow_result fill dpmm fuel m in
         forall x y p, (0 <= x < width)%Z -> (0 <= y < height)%Z -> close dpmm 1 (point_of dpmm b (x, height - 1 - y)%Z) p ->
           off_edges dpmm (filled_in (Pillow dpmm) fuel fillR) (3 + r) ls main_id p ->
           pixel (x, y) = true <-> seen os p).
  Proof.
    intros fill fillR dpmm r fuel paints fl ips ns cmds m b Hd Hr Hspan Hrast Hf E Er. destruct (leaf_codes ips ns Hf) as [HV HD]. pose proof Hf as (Hl & Hc & Ht).
    destruct (compiled_all text md clock iter (proj1 Ht) clock_inj iter_perm ips ns cmds HV HD E) as (v & l & E1 & HN & -> & L2 & L3 & L4 & L5 & L6 & L7 & (lp & mx & Elp & Emx)).
    pose proof (layers_shown (filled_in (Pillow dpmm) fuel fillR) _ (ordered_layers l L3) ltac:(unfold defined_once; rewrite layer_ids; exact L4)) as Hs.
    set (shows := fold_left _ _ _) in Hs. set (inside := filled_in (Pillow dpmm) fuel fillR) in *.
    destruct (flat_main (NK := NT) md clock ips ns v Hl) as (mb & G1 & HR); [|exact E1|].
    { intros a Ha Em. destruct (Hc a Ha) as (n & ds & Hn & _). rewrite Em in Hn. discriminate Hn. }
    assert (Hmx : In mx l) by (rewrite Elp; apply in_or_app; right; left; reflexivity).
    assert (mx = mb) as -> by (pose proof (L5 mx Hmx) as G; rewrite Emx, G1 in G; congruence).
    assert (Hsh : forall b, In b l -> forall p, shows (bf_id b) p <-> dark (plane_covers inside (fun _ => MkVec 0%R 0%R) shows (bf_id b)) (bf_cmds b) p).
    { intros b0 Hb. apply Hs. apply in_map_iff. exists b0. auto. }
    destruct (run_repicture inside text md clock shows _ _ HR) as (os & O1 & O2).
    { intros pre x y post a Ew Ha c neg me Hin. apply in_split in Hmx as Hsp. destruct Hsp as (l1 & l2 & El).
      pose proof (L3 l1 mb l2 _ El (ex_intro _ _ (conj Hin eq_refl))) as Hi. cbn [pa_src] in Hi. apply in_map_iff in Hi as (b1 & B1 & B2).
      assert (Hb1 : In b1 l) by (rewrite El; apply in_or_app; left; exact B2).
      rewrite <- B1. exact (flash_refigure inside text md clock shows ips ns v l Hl Hc Ht E1 HN L3 L5 Hsh pre x y post a b1 Ew Ha Hb1 B1). }
    pose proof (flash_remarks ips ns v l Hf E1 HN L5) as HF. destruct (main_flashes _ _ HR) as [F1 _].
    destruct (two_deep l lp mb (fun k => exists pre x y post a, executed_file ips ns = pre ++ ND03 x y :: post /\ selected_as pre a /\ k = layer_key (NK := NT) (ad_id a) (matrix_at (NK := NT) pre))
      (fun k => forall b, In b l -> bf_id b = k -> forall src, ~ pastes (bf_cmds b) src)) as (rank & Hrank & R2); try assumption.
    - intros b0 src (pre & x & y & post & a & W1 & W2 & W3) Hb Hp b' Hb' <-.
      exact (proj2 (proj2 (HF pre x y post a b0 W1 W2 Hb W3) (bf_id b') b' Hp (L5 b' Hb'))).
    - intros b0 src Hk Hb. exact (Hk b0 Hb eq_refl src).
    - exists (map layer_of l), os. split; [exact L2|]. split; [exact O1|]. intros Hfair.
      pose proof (pixels_run fill fillR dpmm r fuel paints fl l m b Hd Hr Hspan Hrast L3 L6 Er Hfair rank Hrank shows Hs) as H.
      destruct (pillow_result fill dpmm fuel m) as [[width height] pixel]. cbn [fst snd] in H. intros x y p Hx Hy Hcl Ho.
      assert (O3 : shows main_id p <-> seen os p) by (rewrite <- Emx, (Hsh mb Hmx); symmetry; apply seen_dark; exact O2).
      rewrite <- O3. apply H; [split; assumption|exact Hcl|].
      rewrite R2. replace (1 + r + INR 2) with (3 + r) by (cbn; lra). exact Ho.
  Qed.
End Files.
Print Assumptions C85_redefined_partial.
Print Assumptions C86_redefined_partial.

(** *** Cases *)
(** A disc and a macro without a figure under the same code, each flashed: only the definition
    at the first flash counts.  *)
Definition hollow : list (node R) := [NAM (lit "E") [PCode0 (lit "nothing")]].
Definition hollowed (t1 t2 : template R) : list (node R) :=
  hollow ++ [NAD (MkAD (lit "D10") t1); NDnn (lit "D10"); ND03 None None; NAD (MkAD (lit "D10") t2); ND03 None None].
Definition disc : template R := TCircle 2 None.
Definition empty : template R := TMacro (lit "E") None.
Lemma hollowed_file t1 t2 : leaf_file plain_text false (hollowed t1 t2).
Proof.
  split; [repeat constructor|]. split; [|apply untransformed_file; cbn; repeat constructor].
  intros a Ha. cbn [hollowed hollow app In] in Ha. repeat (destruct Ha as [Ha|Ha]; [try discriminate Ha; injection Ha as <-; eexists _, _; repeat split; discriminate|]). destruct Ha.
Qed.
Lemma hollowed_marked t1 t2 : remarked (hollowed t1 t2) <-> marks_aperture hollow (MkAD (lit "D10") t1).
Proof.
  split.
  - intros [_ H]. refine (H (firstn 3 (hollowed t1 t2)) None None (skipn 4 (hollowed t1 t2)) hollow (MkAD (lit "D10") t1) [NDnn (lit "D10")] eq_refl eq_refl _ eq_refl _); [|intros []].
    intros (p & x & y & q & E & _). cbn in E. repeat (destruct p as [|? p]; cbn [app] in E; [discriminate E|injection E as _ E]). destruct p; discriminate E.
  - intros H. split.
    + exists (firstn 3 (hollowed t1 t2)), (ND03 None None), (skipn 4 (hollowed t1 t2)). split; [reflexivity|exact I].
    + intros pre x y post p a q E Hs Hf Ep Hn. cbn in E.
      do 3 (destruct pre as [|? pre]; cbn [app] in E; [discriminate E|injection E as <- E]).
      destruct pre as [|? pre]; cbn [app] in E.
      * clear - Ep H. destruct p as [|? p]; cbn [app] in Ep; [discriminate Ep|injection Ep as <- Ep].
        destruct p as [|? p]; cbn [app] in Ep; [injection Ep as <- <-; exact H|injection Ep as <- Ep]. destruct p as [|? p]; cbn [app] in Ep; [discriminate Ep|injection Ep as <- Ep]. destruct p; discriminate Ep.
      * exfalso. injection E as <- E. destruct pre as [|? pre]; cbn [app] in E; [discriminate E|injection E as <- E]. destruct pre as [|? pre]; cbn [app] in E.
        -- apply Hf. cbn in Hs. injection Hs as Hs. exists (firstn 3 (hollowed t1 t2)), None, None, [NAD (MkAD (lit "D10") t2)].
           split; [reflexivity|]. split; [cbn; rewrite <- Hs; reflexivity|].
           change (matrix_at (NK := NumR)) with (matrix_at (NK := PT)). rewrite !(untransformed plain_text) by (cbn; repeat constructor). reflexivity.
        -- injection E as _ E. destruct pre; discriminate E.
Qed.
Lemma hollowed_compiles t1 t2 : (t1 = disc /\ t2 = empty) \/ (t1 = empty /\ t2 = disc) ->
  exists cmds, compile (NK := PT) false running same_order false (hollowed t1 t2) = Ok cmds.
Proof.
  intros H. destruct (compile (NK := PT) false running same_order false (hollowed t1 t2)) as [cmds|] eqn:E; [exists cmds; reflexivity|]. exfalso.
  assert (X : match compile (NK := PT) false running same_order false (hollowed t1 t2) with Ok _ => True | Err _ => False end) by (destruct H as [[-> ->]|[-> ->]]; vm_compute; exact I).
  rewrite E in X. exact X.
Qed.
Example C85_redefined_case :
  (exists cmds, compile (NK := PT) false running same_order false (hollowed disc empty) = Ok cmds /\ exists r, vm_run (NK := NumR) (shapely (fun _ => None)) false cmds = Ok r) /\
  (exists cmds, compile (NK := PT) false running same_order false (hollowed empty disc) = Ok cmds /\ ~ exists r, vm_run (NK := NumR) (shapely (fun _ => None)) false cmds = Ok r).
Proof.
  assert (G : forall t1 t2 cmds, compile (NK := PT) false running same_order false (hollowed t1 t2) = Ok cmds ->
    ((exists r, vm_run (NK := NumR) (shapely (fun _ => None)) false cmds = Ok r) <-> marks_aperture hollow (MkAD (lit "D10") t1))).
  { intros t1 t2 cmds E. rewrite (C85_redefined_partial plain_text false running same_order same_order_ok running_inj (fun _ => None) false false _ cmds (fun _ => eq_refl) (hollowed_file t1 t2) E).
    exact (hollowed_marked t1 t2). }
  split.
  - destruct (hollowed_compiles disc empty) as [cmds E]; [auto|]. exists cmds. split; [exact E|]. apply (G _ _ _ E). exact I.
  - destruct (hollowed_compiles empty disc) as [cmds E]; [auto|]. exists cmds. split; [exact E|]. rewrite (G _ _ _ E).
    intros (prims & env & M & _ & B). injection M as <-. cbn in B. destruct B as [[]|[]].
Qed.
(** The pixels of the file [revised]. *)
Example C86_redefined_case : exists cmds ls,
  compile (NK := PT) false running same_order false revised = Ok cmds /\ layers cmds = Some ls /\ length ls = 2%nat /\ ~ NoDup (ad_codes (executed_file false revised)) /\
  forall dpmm fuel paints fl m b, (0 < dpmm)%Z -> vm_run (pillow paints) fl cmds = Ok (m, Some b) ->
    exists os, repicture (filled_in (Pillow dpmm) fuel around) plain_text false running revised os /\ (all_fair ls ->
    let '((width, height), pixel) := pillow_result around_px dpmm fuel m in
    forall x y p, (0 <= x < width)%Z -> (0 <= y < height)%Z -> close dpmm 1 (point_of dpmm b (x, height - 1 - y)%Z) p ->
      off_edges dpmm (filled_in (Pillow dpmm) fuel around) 4 ls main_id p -> pixel (x, y) = true <-> seen os p).
Proof.
  set (probe := fun c => match layers (K := R) c with Some ls => length ls | None => 0%nat end).
  assert (X : match compile (NK := PT) false running same_order false revised with Ok c => probe c | Err _ => 0%nat end = 2%nat) by (vm_compute; reflexivity).
  destruct (compile (NK := PT) false running same_order false revised) as [cmds|e] eqn:E; [|discriminate X].
  unfold probe in X. destruct (layers cmds) as [ls|] eqn:L; [|discriminate X]. exists cmds, ls. do 3 (split; [auto|]).
  split. { intros H. cbn in H. inversion H as [|? ? Hn _]; subst. apply Hn. left; reflexivity. }
  intros dpmm fuel paints fl m b Hd Er. replace 4 with (3 + 1) by lra.
  destruct (C86_redefined_partial plain_text false running same_order same_order_ok running_inj around_px around dpmm 1 fuel paints fl false revised cmds m b Hd ltac:(lra) around_spanned (around_rasterizes dpmm Hd) revised_file E Er) as (ls' & os & L' & P & H).
  rewrite L in L'. injection L' as <-. exists os. split; [exact P|exact H].
Qed.

(** C85: which files can be rendered. *)
From Coq Require Import Reals Lra Lia Permutation.
From Verif Require Import Base Num NumReal Dict CoordModel CoordSpec Ast StateModel StateSpec StateProofs GeomModel CompilerModel LayerSpec LayerProofs LayerInv LayerOut
  LayerProps VmModel VmSpec DrawSpec DrawProofs FlashSpec PlaceSpec RenderSpec RenderProofs RenderProps ExprSpec MacroSpec AcceptSpec AcceptProofs AcceptProps InkSpec InkVm InkProofs.

Section Ink.
  Context (text : R -> str) (md : bool) (clock : nat -> Z) (iter : str -> list str -> list str).
  Notation NT := (with_text NumR text).
  Hypothesis text_pct : forall k : R, ~ In "%"%char (text k).
  Hypothesis clock_inj : forall i j, clock i = clock j -> i = j.
  Hypothesis iter_perm : forall id l, Permutation (iter id l) l.

  Lemma compiled_all ips ns cmds : codes_valid ns -> codes_disjoint ns -> compile (NK := NT) md clock iter ips ns = Ok cmds ->
    exists v l, on_file (NK := NT) (@compiler_hooks R NT md clock) ips ns (visitor_init (NK := NT) compiler_init) = Ok v /\ NoDup (c_stamps (v_ext v)) /\
      cmds = blocks_r l /\ layers cmds = Some (map layer_of l) /\ ordered l /\ NoDup (map bf_id l) /\
      (forall b, In b l -> d_get (bf_id b) (c_buffers (v_ext v)) = Some b) /\ In main_id (map bf_id l) /\
      all_needed (map layer_of l) /\ exists pre x, l = pre ++ [x] /\ bf_id x = main_id.
  Proof.
    intros HV HD E. destruct (compiled_layers text md clock iter iter_perm ips ns cmds E) as (v & l & E1 & L1 & L2 & L3 & L4 & L5).
    assert (HN : NoDup (c_stamps (v_ext v))).
    { apply (stamped_nodup clock _ clock_inj). eapply (stamped_file (NK := NT) md clock ips); [|exact E1]. intros n Hn. inversion Hn. }
    destruct (file_program (NK := NT) md clock iter iter_perm ips ns v text_pct HV HD E1 HN) as (cmds' & ls & P1 & P2 & _ & P4 & P5 & pre & ds & P6).
    rewrite E in P1. injection P1 as <-. rewrite L2 in P2. injection P2 as <-. unfold defined_once in P4. rewrite layer_ids in P4.
    exists v, l. repeat (split; [assumption|]).
    apply map_eq_app in P6 as (l1 & l2 & -> & _ & P6). apply map_eq_cons in P6 as (x & l3 & -> & P6 & P7). apply map_eq_nil in P7. subst l3.
    exists l1, x. split; [reflexivity|]. injection P6 as P6 _. exact P6.
  Qed.
  Definition fit (paints : shape R -> option exc) (ls : list (str * list (draw R))) : Prop :=
    forall id ds, In (id, ds) ls -> ds <> [] /\ forall s, In (DShape s) ds -> paints s = None.
  Lemma needed_fit be fl l m b : be_strict be = true -> ordered l -> NoDup (map bf_id l) -> all_needed (map layer_of l) ->
    (exists pre x, l = pre ++ [x] /\ bf_id x = main_id) ->
    vm_run (NK := NumR) be fl (blocks_r l) = Ok (m, Some b) -> fit (be_shape be) (map layer_of l).
  Proof.
    intros Hs Ho HN Hall (pre & x & El & Ex) E. destruct (blocks_ran (NK := NumR) be fl Hs l m b Ho HN E) as [(y & Y1 & Y2 & Y3) B].
    assert (Huniq : forall y z, In y l -> In z l -> bf_id y = bf_id z -> y = z).
    { clear - HN. induction l as [|w l IH]; intros y z [] []; try subst w; cbn [map] in HN; inversion HN as [|? ? N1 N2]; subst; auto; intros Eid; exfalso; apply N1.
      - rewrite Eid. apply in_map. assumption.
      - rewrite <- Eid. apply in_map. assumption. }
    intros id ds Hi. apply in_map_iff in Hi as (z & Ez & Hz). injection Ez as <- <-. split; [|apply (B z Hz)].
    apply in_split in Hz as Hz'. destruct Hz' as (l1 & l2 & Hl). destruct l2 as [|w l2].
    - rewrite El in Hl. apply app_inj_tail in Hl as [_ <-]. assert (y = x) as <- by (apply Huniq; [assumption|rewrite El; apply in_or_app; right; left; reflexivity|congruence]). exact Y3.
    - destruct (Hall (map layer_of l1) (bf_id z) (bf_cmds z) (layer_of w) (map layer_of l2)) as (id' & ds' & Hin & Hp); [rewrite Hl, map_app; reflexivity|].
      change (layer_of w :: map layer_of l2) with (map layer_of (w :: l2)) in Hin. apply in_map_iff in Hin as (u & Eu & Hu). injection Eu as <- <-.
      assert (Hul : In u l) by (rewrite Hl; apply in_or_app; right; right; exact Hu).
      destruct (proj2 (B u Hul) (bf_id z) Hp) as (b' & B1 & B2 & B3). assert (b' = z) as <- by (apply Huniq; auto). exact B3.
  Qed.

  (** C85.  The shapely machine renders a compiled file iff no layer of its program is empty and
      every shape can be painted; the pillow machine only if. *)
  Theorem C85_layers : forall paints fl ips ns cmds, codes_valid ns -> codes_disjoint ns -> compile (NK := NT) md clock iter ips ns = Ok cmds ->
    exists ls, layers cmds = Some ls /\
      ((exists r, vm_run (NK := NumR) (shapely paints) fl cmds = Ok r) <-> fit paints ls) /\
      forall m b, vm_run (NK := NumR) (pillow paints) fl cmds = Ok (m, Some b) -> fit paints ls.
  Proof.
    intros paints fl ips ns cmds HV HD E. destruct (compiled_all ips ns cmds HV HD E) as (v & l & _ & _ & -> & L2 & L3 & L4 & _ & L6 & L7 & L8).
    exists (map layer_of l). split; [exact L2|]. split.
    - split.
      + intros [[m [b|]] Er].
        * exact (needed_fit (shapely paints) fl l m b eq_refl L3 L4 L7 L8 Er).
        * exfalso. unfold vm_run in Er. destruct (exec _ _ _ _) as [m0|]; [|discriminate]. cbn [bind] in Er. unfold vm_result in Er.
          destruct (d_get main_id (vm_layers m0)) as [[]|]; try discriminate. cbn [shapely be_needs_main] in Er. rewrite orb_true_r in Er. discriminate.
      + intros F. destruct (layers_run paints fl l L3 L4 L6) as (m & b & Er); [|eauto]. intros x Hx. apply (F (bf_id x)). apply in_map_iff. exists x. auto.
    - intros m b Er. exact (needed_fit (pillow paints) fl l m b eq_refl L3 L4 L7 L8 Er).
  Qed.

  (** C85.  For files without blocks, in terms of the commands.  Partial: codes are not defined twice, the transformations used have different
      names, and every shape can be painted.  Missing: blocks; redefinitions are in [C85_redefined_partial]. *)
  Definition C85_statement (ok : bool -> list (node R) -> Prop) : Prop :=
    forall paints fl ips ns cmds, (forall s, paints s = None) -> ok ips ns -> compile (NK := NT) md clock iter ips ns = Ok cmds ->
      ((exists r, vm_run (NK := NumR) (shapely paints) fl cmds = Ok r) <-> marked (executed_file ips ns)).
  Theorem C85_rendered_partial :
    C85_statement (fun ips ns => Forall is_leaf ns /\ (forall a, In (NAD a) ns -> exists n, dcode (ad_id a) n) /\
      NoDup (ad_codes (executed_file ips ns)) /\ tells_apart (NK := NT) (executed_file ips ns)).
  Proof.
    intros paints fl ips ns cmds Hpaint (Hl & Hc & Hd & Ht) E.
    assert (Hsub : forall n m, In n ns -> In m (subnodes n) -> m = n).
    { intros n m Hn Hi. rewrite Forall_forall in Hl. specialize (Hl n Hn). destruct n; try contradiction; destruct Hi as [<-|[]]; reflexivity. }
    assert (Hnab : forall id body, ~ In (NAB id body) ns) by (intros id body Hi; rewrite Forall_forall in Hl; exact (Hl _ Hi)).
    assert (HV : codes_valid ns).
    { split.
      - intros n a Hn Hi. apply Hc. rewrite (Hsub n _ Hn Hi). exact Hn.
      - intros n id body Hn Hi. exfalso. apply (Hnab id body). rewrite (Hsub n _ Hn Hi). exact Hn. }
    assert (HD : codes_disjoint ns) by (intros n n' a id body Hn Hn' Hi Hi' _; apply (Hnab id body); rewrite (Hsub n' _ Hn' Hi'); exact Hn').
    destruct (C85_layers paints fl ips ns cmds HV HD E) as (ls & A1 & A2 & _). rewrite A2. clear A2.
    destruct (compiled_all ips ns cmds HV HD E) as (v & l & E1 & HN & -> & L2 & L3 & L4 & L5 & L6 & L7 & (lp & mx & Elp & Emx)).
    rewrite L2 in A1. injection A1 as <-.
    assert (Hid : forall a, In (NAD a) ns -> ad_id a <> main_id).
    { intros a Ha Em. destruct (Hc a Ha) as (n & ds & Hn & _). rewrite Em in Hn. discriminate Hn. }
    destruct (flat_main (NK := NT) md clock ips ns v Hl Hid E1) as (mb & G1 & HR).
    destruct (main_marks (NK := NT) md clock ips ns v Hl Hid E1) as (mb' & G2 & HM). rewrite G1 in G2. injection G2 as <-.
    assert (Hmx : In mx l) by (rewrite Elp; apply in_or_app; right; left; reflexivity).
    assert (mx = mb) as -> by (pose proof (L5 mx Hmx) as G; rewrite Emx, G1 in G; congruence).
    pose proof (flash_marks text md clock ips ns v l Hl Hc Hd Ht E1 HN L5) as HF.
    (* what the main layer pastes *)
    assert (Hflash : forall whole ds, run_shown (NK := NT) whole ds -> 
      (forall src, pastes ds src -> exists pre x y post a, whole = pre ++ ND03 x y :: post /\ selected_as pre a /\ src = layer_key (NK := NT) (ad_id a) (matrix_at (NK := NT) pre)) /\
      (forall pre x y post, whole = pre ++ ND03 x y :: post -> exists a, selected_as pre a /\ pastes ds (layer_key (NK := NT) (ad_id a) (matrix_at (NK := NT) pre)))).
    { clear. induction 1 as [|pre out n new HR [IH1 IH2] [Hdr Hs]].
      - split; [intros src (q & [] & _)|]. intros pre x y post X. destruct pre; discriminate X.
      - split.
        + intros src (q & Hq & Es). apply in_app_or in Hq as [Hq|Hq].
          * destruct (IH1 src) as (p & x & y & post & a & X1 & X2 & X3); [exists q; auto|]. exists p, x, y, (post ++ [n]), a. rewrite X1, <- app_assoc. auto.
          * assert (Dec : (exists x y, n = ND03 x y) \/ match n with ND03 _ _ => False | _ => True end) by (destruct n; eauto).
            destruct Dec as [(x & y & ->)|Dec].
            -- destruct Hs as (a & m & Ha & ->). destruct Hq as [Hq|[]]. injection Hq as <-. exists pre, x, y, [], a. auto.
            -- destruct (emitted_shapes text pre n new Dec Hdr) as (neg & Hsh). unfold all_shapes in Hsh. rewrite Forall_forall in Hsh. destruct (Hsh _ Hq) as (s & X & _). discriminate X.
        + intros p x y post X. destruct (exists_last (l := ND03 x y :: post)) as (q' & z & Eq); [discriminate|].
          assert (E' : pre ++ [n] = (p ++ q') ++ [z]) by (rewrite <- app_assoc, <- Eq; exact X). apply app_inj_tail in E' as [-> <-].
          destruct q' as [|m' q']; cbn [app] in Eq; injection Eq as <- ->.
          * rewrite app_nil_r in Hs. destruct Hs as (a & m & Ha & ->). exists a. split; [exact Ha|]. eexists. split; [apply in_or_app; right; left; reflexivity|reflexivity].
          * destruct (IH2 p x y q' eq_refl) as (a & Ha & (q & Hq & Es)). exists a. split; [exact Ha|]. exists q. split; [apply in_or_app; left; exact Hq|exact Es]. }
    destruct (Hflash _ _ HR) as [F1 F2]. clear Hflash.
    assert (Hlayer : forall id b, In b l -> bf_id b = id -> In (id, bf_cmds b) (map layer_of l)) by (intros id b Hb <-; apply in_map_iff; exists b; auto).
    split.
    - intros Hfit. split.
      + apply HM. apply (Hfit main_id). apply Hlayer; assumption.
      + intros pre x y post p a q Ew Hsel Epre Hnq. destruct (F2 pre x y post Ew) as (a' & [Hsel' (p' & q' & Ep' & Hnq')] & Hp).
        assert (X : ad_id a' = ad_id a) by congruence.
        assert (Hin : In (layer_key (NK := NT) (ad_id a) (matrix_at (NK := NT) pre)) (map bf_id lp)) by (rewrite <- X; apply (L3 lp mb [] _ Elp Hp)).
        apply in_map_iff in Hin as (b & B1 & B2). assert (Hb : In b l) by (rewrite Elp; apply in_or_app; left; exact B2).
        apply (proj1 (HF pre (ND03 x y :: post) p a q b Ew Epre Hb B1)). apply (Hfit (bf_id b)). apply Hlayer; auto.
    - intros [Hany Hfl] id ds Hi. split; [|intros s _; apply Hpaint]. apply in_map_iff in Hi as (z & Ez & Hz). injection Ez as <- <-.
      (* every layer is the main layer, a flash, or part of one *)
      set (flash := fun b : buffer R => exists pre x y post a, executed_file ips ns = pre ++ ND03 x y :: post /\ selected_as pre a /\ bf_id b = layer_key (NK := NT) (ad_id a) (matrix_at (NK := NT) pre)).
      set (part := fun b : buffer R => bf_cmds b <> [] /\ forall src, ~ pastes (bf_cmds b) src).
      assert (Hkind : forall l2 l1, l = l1 ++ l2 -> forall b, In b l2 -> b = mb \/ flash b \/ part b).
      { induction l2 as [|w l2 IH]; intros l1 El b Hb; [destruct Hb|]. assert (IH' : forall b, In b l2 -> b = mb \/ flash b \/ part b) by (apply (IH (l1 ++ [w])); rewrite <- app_assoc; exact El).
        destruct Hb as [<-|Hb]; [|exact (IH' b Hb)]. destruct l2 as [|u l2].
        - left. rewrite Elp in El. apply app_inj_tail in El as [_ El]. symmetry. exact El.
        - destruct (L7 (map layer_of l1) (bf_id w) (bf_cmds w) (layer_of u) (map layer_of l2)) as (id' & ds' & Hin & Hp); [rewrite El, map_app; reflexivity|].
          change (layer_of u :: map layer_of l2) with (map layer_of (u :: l2)) in Hin. apply in_map_iff in Hin as (t & Et & Hti). injection Et as <- <-.
          destruct (IH' t Hti) as [->|[(pre & x & y & post & a & W1 & W2 & W3)|[_ P2]]].
          + right. left. destruct (F1 _ Hp) as (pre & x & y & post & a & W1 & W2 & W3). exists pre, x, y, post, a. auto.
          + right. right. destruct W2 as [_ (p & q & Ep & _)]. assert (Htl : In t l) by (rewrite El; apply in_or_app; right; right; exact Hti).
            apply (proj2 (HF pre (ND03 x y :: post) p a q t W1 Ep Htl W3) (bf_id w) w Hp). apply L5. rewrite El. apply in_or_app. right. left. reflexivity.
          + destruct (P2 _ Hp). }
      destruct (Hkind l [] eq_refl z Hz) as [->|[(pre & x & y & post & a & W1 & [W2 (p & q & Ep & Hnq)] & W3)|[P1 _]]].
      + apply HM. exact Hany.
      + apply (proj1 (HF pre (ND03 x y :: post) p a q z W1 Ep Hz W3)). exact (Hfl pre x y post p a q W1 W2 Ep Hnq).
      + exact P1.
  Qed.
End Ink.
Print Assumptions C85_layers.
Print Assumptions C85_rendered_partial.

(** ** Cases *)
(** A line and a thermal with gap [g]: the file compiles whatever the gap is, and can be
    rendered iff the gap leaves something of the thermal. *)
Definition thermal_file (g : R) : list (node R) :=
  [NAM (lit "T") [PCode0 (lit "gap"); PCode7 1 (EConst 0) (EConst 0) (EConst 3) (EConst 2) (EConst g) (EConst 0)]%R;
   NAD (MkAD (lit "D10") (TMacro (lit "T") None)); r_ad "D11"; NDnn (lit "D11"); ND01 None None None None;
   NDnn (lit "D10"); ND03 None None; NM02].
Fixpoint each (P : list (node R) -> node R -> list (node R) -> Prop) (pre l : list (node R)) : Prop :=
  match l with [] => True | n :: r => P pre n r /\ each P (pre ++ [n]) r end.
Lemma each_split P pre l : each P pre l -> forall p n q, l = p ++ n :: q -> P (pre ++ p) n q.
Proof.
  revert pre. induction l as [|x l IH]; intros pre H p n q E; [destruct p; discriminate E|]. destruct H as [H1 H2]. destruct p as [|y p]; injection E as -> E.
  - subst l. rewrite app_nil_r. exact H1.
  - specialize (IH _ H2 p n q E). rewrite <- app_assoc in IH. exact IH.
Qed.
Lemma thermal_unmoved text g : (forall k : R, ~ In "%"%char (text k)) -> tells_apart (NK := with_text NumR text) (executed_file true (thermal_file g)).
Proof.
  intros Ht. split; [exact Ht|]. intros p q p' q' E1 E2 _.
  assert (Hu : forall p q, executed_file true (thermal_file g) = p ++ q -> matrix_at (NK := with_text NumR text) p = matrix_at (NK := with_text NumR text) []).
  { clear. intros p q Eq. apply untransformed. assert (H : Forall (fun n : node R => match n with NLM _ | NLR _ | NLS _ => False | _ => True end) (p ++ q)).
    { rewrite <- Eq. cbn. repeat constructor. }
    apply Forall_app in H. apply H. }
  rewrite (Hu p q E1), (Hu p' q' E2). reflexivity.
Qed.
Example C85_thermal : forall g, exists cmds, compile (NK := with_text NumR plain_text) false running same_order true (thermal_file g) = Ok cmds /\
  ((exists r, vm_run (NK := NumR) (shapely (fun _ => None)) false cmds = Ok r) <-> (g * sqrt 2 < 2)%R).
Proof.
  intros g. destruct (codes_checked (thermal_file g) ltac:(vm_compute; reflexivity)) as [V D].
  assert (Hv : forall env k x, value env (meaning (EConst k)) x -> x = k) by (intros env k x X; inversion X; reflexivity).
  assert (Hh : forall env k, has env (EConst k)) by (intros env k; exists k; constructor).
  destruct (proj2 (C82_accepted_partial plain_text false running same_order plain_pct running_inj same_order_ok true _ V D)) as [cmds C].
  { split; [|constructor]. intros pre n post E. revert pre n post E.
    assert (X : each (fun pre n _ => acceptable pre n) [] (executed_file true (thermal_file g))); [|intros pre n post E; exact (each_split _ [] _ X pre n post E)].
    cbn [thermal_file executed_file executed r_ad snd fst app andb each]. repeat split; try exact I; try discriminate.
    - eexists _, (fun _ => None). split; [reflexivity|]. split.
      + intros v k. split; [discriminate|]. intros ([|i] & _ & X); discriminate X.
      + cbn [runs fine_prim]. split; [exact I|]. split; [|exact I]. split; [repeat constructor; apply Hh|]. intros o i Ho Hi _. split; [repeat constructor; apply Hh|]. intros g' _ _. apply Hv in Hi. subst i. lra.
    - right. right. eexists (lit "D11"), _. repeat split. }
  exists cmds. split; [exact C|].
  rewrite (C85_rendered_partial plain_text false running same_order plain_pct running_inj same_order_ok (fun _ => None) false true (thermal_file g) cmds (fun _ => eq_refl)); [| |exact C].
  - split.
    + intros [_ H]. destruct (H (removelast (removelast (thermal_file g))) None None [NM02] [hd NM02 (thermal_file g)] (MkAD (lit "D10") (TMacro (lit "T") None)) (removelast (removelast (tl (tl (thermal_file g)))))) as (prims & env & M & _ & B);
        [reflexivity|reflexivity|reflexivity|vm_compute; intuition discriminate|].
      injection M as <-. cbn [marks_body marks_prim] in B. destruct B as [[]|[(o & i & g' & _ & Hi & Hg & _ & X)|[]]]. apply Hv in Hi, Hg. subst. exact X.
    + intros Hg. split.
      * exists (firstn 4 (thermal_file g)), (ND01 None None None None), (skipn 5 (thermal_file g)). split; [reflexivity|]. split; [reflexivity|]. left. reflexivity.
      * intros pre x y post p a q E Hs Ep _.
        assert (X : each (fun pre n _ => match n with ND03 _ _ => pre = removelast (removelast (thermal_file g)) | _ => True end) [] (executed_file true (thermal_file g))) by (cbn; repeat split).
        pose proof (each_split _ [] _ X pre _ post E) as Y. cbn [app] in Y. rewrite Y in Hs, Ep. clear X Y. vm_compute in Hs.
        assert (X : each (fun pre n _ => match n with NAD a => ad_id a = lit "D10" -> marks_aperture pre a | _ => True end) [] (removelast (removelast (thermal_file g)))).
        { cbn. repeat split; try discriminate. intros _. eexists _, (fun _ => None). split; [reflexivity|]. split.
          - intros v k. split; [discriminate|]. intros ([|i] & _ & X); discriminate X.
          - cbn [marks_body marks_prim]. right. left. exists 3%R, 2%R, g. repeat split; try constructor; try exact Hg; lra. }
        apply (each_split _ [] _ X p _ q Ep). injection Hs as Hs. symmetry. exact Hs.
  - split; [repeat constructor|]. split; [|split].
    + intros a Ha. apply (proj1 V (NAD a)); [exact Ha|left; reflexivity].
    + vm_compute. repeat constructor; cbn; intuition discriminate.
    + apply thermal_unmoved, plain_pct.
Qed.

(** C85 with blocks: which files can be rendered. *)
From Coq Require Import Reals Lra Lia Permutation.
From Verif Require Import Base Num NumReal Dict CoordModel CoordSpec Ast StateModel StateSpec StateProofs GeomModel CompilerModel LayerSpec LayerProofs LayerInv LayerOut
  LayerProps VmModel VmSpec DrawSpec DrawProofs FlashSpec FlashProofs PlaceSpec PlaceProofs RenderSpec RenderProofs RenderProps ExprSpec MacroSpec AcceptSpec AcceptProofs AcceptProps
  BlockSpec BlockProofs BlockProps InkSpec InkVm InkProofs InkProps InkBlockSpec InkBlockProofs.

(** Groups inside of pictures. *)
Inductive holds {K} : list (pic K) -> list (pic K) -> Prop :=
| ho_here l : holds l l
| ho_deeper l neg c g m : holds l g -> In (PGroup neg c m) g -> holds l m.
Lemma holds_solid {K} (l g : list (pic K)) : holds l g -> l <> [] -> forallb solid l = true -> g <> [] /\ forallb solid g = true.
Proof.
  induction 1 as [l|l neg c g m _ IH Hm]; intros H1 H2; [auto|]. destruct (IH H1 H2) as [_ Hs]. rewrite forallb_forall in Hs. specialize (Hs _ Hm).
  cbn [solid] in Hs. destruct m as [|p m]; [discriminate|]. split; [discriminate|exact Hs].
Qed.

Section Ink.
  Context (text : R -> str) (md : bool) (clock : nat -> Z) (iter : str -> list str -> list str).
  Notation NT := (with_text NumR text).
  Hypothesis clock_inj : forall i j, clock i = clock j -> i = j.
  Hypothesis iter_perm : forall id l, Permutation (iter id l) l.

  Lemma srep_group ADs bs ds ps src : Forall2 (srep (NK := NT) ADs bs) ds ps -> pastes ds src ->
    exists neg c b g, In (PGroup neg c g) ps /\ d_get src bs = Some b /\ Forall2 (srep (NK := NT) ADs bs) (bf_cmds b) g.
  Proof.
    induction 1 as [|d p ds ps Hd _ IH]; intros (q & Hq & Es); [destruct Hq|]. destruct Hq as [->|Hq].
    - inversion Hd as [|q' b l H1 H2 H3]; subst. exists (pa_neg q), (pa_center q), b, l. split; [left; reflexivity|auto].
    - destruct IH as (neg & c & b & g & A & B); [exists q; auto|]. exists neg, c, b, g. split; [right; exact A|exact B].
  Qed.

  (** C85 with blocks.  A compiled file can be rendered iff it leaves something and every
      flashed aperture that is left has a figure.  Partial: codes are D-codes used either by AD
      or by AB and not defined twice, no M00 or M02 inside of blocks, the transformations used
      have different names, and every shape can be painted.  Missing: redefinitions; for
      programs stopped inside of blocks see C85_stopped_partial. *)
  Definition C85_blocks_statement (ok : bool -> list (node R) -> Prop) : Prop :=
    forall paints fl ips ns cmds, (forall s, paints s = None) -> ok ips ns -> compile (NK := NT) md clock iter ips ns = Ok cmds ->
      exists i, file_ink ips ns i /\ (forall j, file_ink ips ns j -> j = i) /\
        ((exists r, vm_run (NK := NumR) (shapely paints) fl cmds = Ok r) <-> i = Ink true true).
  Theorem C85_blocks_partial : C85_blocks_statement (block_file text).
  Proof.
    intros paints fl ips ns cmds Hpaint Hblock E. pose proof Hblock as (HV & HD & _ & Hda & _ & Ht).
    destruct (C85_layers text md clock iter (proj1 Ht) clock_inj iter_perm paints fl ips ns cmds HV HD E) as (ls & A1 & A2 & _).
    destruct (compiled_all text md clock iter (proj1 Ht) clock_inj iter_perm ips ns cmds HV HD E) as (v & l & E1 & HN & -> & L2 & L3 & L4 & L5 & L6 & L7 & (lp & mx & Elp & Emx)).
    rewrite L2 in A1. injection A1 as <-.
    destruct (file_drawings text md clock ips ns v Hblock E1 HN) as (Ms & ADs & ps & mb & F1 & G1 & F3 & _).
    destruct F1 as (B & F1). pose proof (list_inked text wide md clock _ _ _ _ _ _ F1 Hda) as HI.
    exists (inked ps). split; [exists (executed_file ips ns), (inks B); exact HI|]. split; [intros j (pre2 & B2 & Hj); apply (list_ink_fun _ _ _ _ _ _ HI) in Hj; apply Hj|].
    rewrite A2. clear A2.
    assert (Hmx : In mx l) by (rewrite Elp; apply in_or_app; right; left; reflexivity).
    assert (mx = mb) as -> by (pose proof (L5 mx Hmx) as G; rewrite Emx, G1 in G; congruence).
    assert (Hsome : inked ps = Ink true true <-> ps <> [] /\ forallb solid ps = true).
    { unfold inked. destruct ps as [|p ps']; [split; [discriminate|intros [X _]; congruence]|]. split; [intros X; injection X as X; split; [discriminate|exact X]|intros [_ ->]; reflexivity]. }
    rewrite Hsome. clear Hsome.
    assert (Hpaste : forall b src, In b l -> pastes (bf_cmds b) src -> exists b', In b' l /\ d_get src (c_buffers (v_ext v)) = Some b').
    { intros b src Hb Hs. apply in_split in Hb as (l1 & l2 & El). pose proof (L3 l1 b l2 src El Hs) as Hi. apply in_map_iff in Hi as (b' & <- & Hb').
      assert (Hl : In b' l) by (rewrite El; apply in_or_app; left; exact Hb'). exists b'. auto. }
    split.
    - intros Hfit. assert (Hne : forall b, In b l -> bf_cmds b <> []) by (intros b Hb; apply (Hfit (bf_id b)); apply in_map_iff; exists b; auto).
      assert (Hs : forall p d, srep (NK := NT) ADs (c_buffers (v_ext v)) d p -> (forall src, pastes [d] src -> exists b, In b l /\ d_get src (c_buffers (v_ext v)) = Some b) -> solid p = true).
      { clear - Hne Hpaste. induction p as [s|neg c g IH] using pic_ind'; intros d Hd Hin; [reflexivity|]. inversion Hd as [|q b g' Hn Hb Hg]; subst.
        destruct (Hin (pa_src q)) as (b' & Hb' & Eb); [exists q; split; [left; reflexivity|reflexivity]|]. rewrite Hb in Eb. injection Eb as <-.
        specialize (Hne b Hb'). specialize (Hpaste b). cbn [solid]. destruct g as [|p0 g]; [inversion Hg as [X|]; symmetry in X; contradiction|].
        assert (Hp : forall src, pastes (bf_cmds b) src -> exists b, In b l /\ d_get src (c_buffers (v_ext v)) = Some b) by (intros src; apply Hpaste; exact Hb').
        clear - IH Hg Hp. revert Hg Hp IH. generalize (bf_cmds b), (p0 :: g). induction 1 as [|d p ds ps Hd _ IHl]; intros Hp IH; [reflexivity|]. inversion IH; subst. cbn [forallb].
        rewrite (H1 d Hd), IHl; auto.
        - intros src (q & Hq & Es). apply Hp. exists q. split; [right; exact Hq|exact Es].
        - intros src (q & [Hq|[]] & Es). apply Hp. exists q. split; [left; exact Hq|exact Es]. }
      split; [intros ->; inversion F3 as [X|]; exact (Hne mb Hmx (eq_sym X))|].
      assert (Hp : forall src, pastes (bf_cmds mb) src -> exists b, In b l /\ d_get src (c_buffers (v_ext v)) = Some b) by (intros src; apply Hpaste; exact Hmx).
      clear - F3 Hs Hp. induction F3 as [|d p ds ps Hd _ IHl]; [reflexivity|]. cbn [forallb]. rewrite (Hs p d Hd), IHl; auto.
      + intros src (q & Hq & Es). apply Hp. exists q. split; [right; exact Hq|exact Es].
      + intros src (q & [Hq|[]] & Es). apply Hp. exists q. split; [left; exact Hq|exact Es].
    - intros [Hne Hso] id ds Hi. split; [|intros s _; apply Hpaint]. apply in_map_iff in Hi as (z & Ez & Hz). injection Ez as <- <-.
      assert (Hkind : forall l2 l1, l = l1 ++ l2 -> forall b, In b l2 -> exists g, holds ps g /\ Forall2 (srep (NK := NT) ADs (c_buffers (v_ext v))) (bf_cmds b) g).
      { induction l2 as [|w l2 IH]; intros l1 El b Hb; [destruct Hb|].
        assert (IH' : forall b, In b l2 -> exists g, holds ps g /\ Forall2 (srep (NK := NT) ADs (c_buffers (v_ext v))) (bf_cmds b) g) by (apply (IH (l1 ++ [w])); rewrite <- app_assoc; exact El).
        destruct Hb as [<-|Hb]; [|exact (IH' b Hb)]. destruct l2 as [|u l2].
        - rewrite Elp in El. apply app_inj_tail in El as [_ <-]. exists ps. split; [constructor|exact F3].
        - destruct (L7 (map layer_of l1) (bf_id w) (bf_cmds w) (layer_of u) (map layer_of l2)) as (id' & ds' & Hin & Hp); [rewrite El, map_app; reflexivity|].
          change (layer_of u :: map layer_of l2) with (map layer_of (u :: l2)) in Hin. apply in_map_iff in Hin as (t & Et & Hti). injection Et as <- <-.
          destruct (IH' t Hti) as (g & Hg & Hr). destruct (srep_group _ _ _ _ _ Hr Hp) as (neg & c & b & g' & P1 & P2 & P3).
          assert (Hw : In w l) by (rewrite El; apply in_or_app; right; left; reflexivity). pose proof (L5 w Hw) as Gw. rewrite P2 in Gw. injection Gw as ->.
          exists g'. split; [econstructor; eassumption|exact P3]. }
      destruct (Hkind l [] eq_refl z Hz) as (g & Hg & Hr). destruct (holds_solid ps g Hg Hne Hso) as [X _]. intros Y. rewrite Y in Hr. inversion Hr. congruence.
  Qed.
End Ink.
Print Assumptions C85_blocks_partial.

(** ** Case *)
(** A thermal with gap [g] in a block aperture D20, a line in another one, D21; one of them is
    flashed twice.  The file compiles whatever the gap is; it can be rendered iff the gap
    leaves something of the thermal or D20 is not flashed. *)
Definition stamped_file (g : R) (b : bool) : list (node R) :=
  [NAM (lit "T") [PCode7 1 (EConst 0) (EConst 0) (EConst 3) (EConst 2) (EConst g) (EConst 0)]%R;
   NAD (MkAD (lit "D10") (TMacro (lit "T") None)); r_ad "D11";
   NAB (lit "D20") [NDnn (lit "D10"); ND03 None None]; NAB (lit "D21") [NDnn (lit "D11"); ND01 None None None None];
   NSR 1%Z (MkSR (Some (lit "2")) None (Some (lit "5")) None) [NDnn (if b then lit "D20" else lit "D21"); ND03 None None]].
Lemma stamped_blocks g b : block_file plain_text true (stamped_file g b).
Proof.
  destruct (codes_checked (stamped_file g b) ltac:(destruct b; vm_compute; reflexivity)) as [V D].
  split; [exact V|]. split; [exact D|]. split; [|split; [|split]].
  - intros n Hin. cbn [stamped_file In] in Hin. repeat (destruct Hin as [<-|Hin]; [first [left; exact Logic.I|right; reflexivity]|]). destruct Hin.
  - destruct b; vm_compute; repeat constructor; cbn; intuition discriminate.
  - destruct b; vm_compute; repeat constructor; cbn; intuition discriminate.
  - split; [exact plain_pct|]. intros p q p' q' E1 E2 _.
    assert (Hu : forall p q, executed_file true (stamped_file g b) = p ++ q -> matrix_at (NK := with_text NumR plain_text) p = matrix_at (NK := with_text NumR plain_text) []).
    { clear. intros p q Eq. apply untransformed. assert (H : Forall (fun n : node R => match n with NLM _ | NLR _ | NLS _ => False | _ => True end) (p ++ q)).
      { rewrite <- Eq. cbn. repeat constructor. }
      apply Forall_app in H. apply H. }
    rewrite (Hu p q E1), (Hu p' q' E2). reflexivity.
Qed.
Example C85_stamped : forall g b, exists cmds, compile (NK := with_text NumR plain_text) false running same_order true (stamped_file g b) = Ok cmds /\
  ((exists r, vm_run (NK := NumR) (shapely (fun _ => None)) false cmds = Ok r) <-> (b = true -> (g * sqrt 2 < 2)%R)).
Proof.
  intros g b. pose proof (stamped_blocks g b) as HB. pose proof HB as (V & D & _).
  assert (Hv : forall env k x, value env (meaning (EConst k)) x -> x = k) by (intros env k x X; inversion X; reflexivity).
  assert (Hh : forall env k, has env (EConst k)) by (intros env k; exists k; constructor).
  destruct (proj2 (C82_accepted_partial plain_text false running same_order plain_pct running_inj same_order_ok true _ V D)) as [cmds C].
  { split.
    - intros pre n post E. revert pre n post E.
      assert (X : each (fun pre n _ => acceptable pre n) [] (executed_file true (stamped_file g b))); [|intros pre n post E; exact (each_split _ [] _ X pre n post E)].
      cbn [stamped_file executed_file executed exec_list r_ad snd fst app andb each]. destruct b; repeat split; try exact Logic.I; try discriminate.
      all: try (eexists _, (fun _ => None); split; [reflexivity|]; split;
        [intros v k; split; [discriminate|]; intros ([|i] & _ & X); discriminate X
        |cbn [runs fine_prim]; split; [|exact Logic.I]; split; [repeat constructor; apply Hh|]; intros o i Ho Hi _; split; [repeat constructor; apply Hh|]; intros g' _ _; apply Hv in Hi; subst i; lra]).
      all: right; right; eexists (lit "D11"), _; repeat split.
    - constructor; [|constructor]. split; intros t [X|X]; try discriminate X; injection X as <-.
      + exists 2%Z. split; [apply int_text_iff; reflexivity|lia].
      + eexists. apply dec_text_iff. reflexivity. }
  exists cmds. split; [exact C|].
  destruct (C85_blocks_partial plain_text false running same_order running_inj same_order_ok (fun _ => None) false true (stamped_file g b) cmds (fun _ => eq_refl) HB C) as (i & _ & I2 & ->).
  (* what the commands leave *)
  set (ok := if Rlt_dec (g * sqrt 2) 2 then true else false).
  assert (Hok : ok = true <-> (g * sqrt 2 < 2)%R) by (unfold ok; destruct (Rlt_dec (g * sqrt 2) 2); split; auto; discriminate || contradiction).
  assert (Hmark : ok = true <-> marks_aperture [hd NM02 (stamped_file g b)] (MkAD (lit "D10") (TMacro (lit "T") None))).
  { rewrite Hok. split.
    - intros Hg. eexists _, (fun _ => None). split; [reflexivity|]. split.
      + intros v k. split; [discriminate|]. intros ([|k0] & _ & X); discriminate X.
      + left. exists 3%R, 2%R, g. repeat split; try constructor; try exact Hg; lra.
    - intros (prims & env & M & _ & X). injection M as <-. destruct X as [(o & j & g' & _ & Hi & Hg & _ & X)|[]]. apply Hv in Hi, Hg. subst. exact X. }
  assert (Quiet : forall pre B n, match n with NAM _ _ | NAD _ | NDnn _ => True | _ => False end -> node_ink pre B n (pre ++ [n]) B blank).
  { intros pre B n Hn. destruct n; try contradiction; (apply ni_command; [exact Logic.I|]; split; [split; [intros X; cbv in X; discriminate X|intros []]|reflexivity]). }
  assert (Hb : forall k, both blank k = k) by (intros []; reflexivity).
  assert (F : file_ink true (stamped_file g b) (if b then Ink true ok else Ink true true)).
  { eexists _, _. cbn [reached stamped_file r_ad].
    rewrite <- (Hb (if b then Ink true ok else Ink true true)). eapply li_cons; [apply Quiet; exact Logic.I|].
    rewrite <- (Hb (if b then Ink true ok else Ink true true)). eapply li_cons; [apply Quiet; exact Logic.I|].
    rewrite <- (Hb (if b then Ink true ok else Ink true true)). eapply li_cons; [apply Quiet; exact Logic.I|].
    rewrite <- (Hb (if b then Ink true ok else Ink true true)). eapply li_cons.
    { apply ni_block. eapply li_cons; [apply Quiet; exact Logic.I|]. eapply li_cons; [|apply li_nil]. apply (ni_command _ _ _ (Ink true ok)); [exact Logic.I|]. left.
      exists (MkAD (lit "D10") (TMacro (lit "T") None)), [hd NM02 (stamped_file g b)], [r_ad "D11"; NDnn (lit "D10")]. split; [reflexivity|]. split; [reflexivity|]. split; [vm_compute; intuition discriminate|]. split; [reflexivity|]. exact Hmark. }
    rewrite <- (Hb (if b then Ink true ok else Ink true true)). eapply li_cons.
    { apply ni_block. eapply li_cons; [apply Quiet; exact Logic.I|]. eapply li_cons; [|apply li_nil]. apply (ni_command _ _ _ (Ink true true)); [exact Logic.I|]. split; [|reflexivity].
      split; [intros _; split; [reflexivity|left; reflexivity]|reflexivity]. }
    assert (X : (if b then Ink true ok else Ink true true) = both (both blank (both (if b then Ink true ok else Ink true true) blank)) blank) by (destruct b, ok; reflexivity). rewrite X. clear X.
    eapply li_cons; [|apply li_nil]. apply ni_repeat. eapply li_cons; [apply Quiet; exact Logic.I|]. eapply li_cons; [|apply li_nil].
    apply ni_command; [exact Logic.I|]. right. exists (if b then lit "D20" else lit "D21"). destruct b; (split; [reflexivity|]; split; [vm_compute; intuition discriminate|]); destruct ok; reflexivity. }
  rewrite <- (I2 _ F). destruct b.
  - split; [intros X _; injection X as X; apply Hok; exact X|]. intros X. rewrite (proj2 Hok (X eq_refl)). reflexivity.
  - split; [discriminate|reflexivity].
Qed.

(** C85 and C80 for builders: which of their files can be rendered, and what is seen then. *)
From Coq Require Import Reals Qreals Lra Lia Permutation.
From Verif Require Import Base Num NumReal Dict CoordModel CoordSpec Ast StateModel StateSpec StateProofs GeomModel CompilerModel LayerSpec LayerProofs LayerInv LayerOut
  LayerProps BoxModel ArcModel VmModel VmSpec DrawSpec FlashSpec PaintModel PaintSpec RenderSpec RenderProps GbModel GbSpec GbRead GbProps.
From Verif Require GramAst GramModel GramRead NumTextProofs CoordProofs.
From Verif Require Import FmtModel GramNum LinkModel DumpModel DumpSpec DumpProofs DumpRead DumpProps DepictSpec DepictNodes DepictTrack DepictProofs DepictProps.
From Verif Require Import AcceptSpec AcceptMacro AcceptProofs AcceptProps AgreeSpec AgreeBuild AgreeProofs AgreeProps InkSpec InkProps InkBuildSpec InkBuild.
Local Existing Instance NumQ.

Section Built.
  Context (text : R -> str) (md : bool) (clock : nat -> Z) (iter : str -> list str -> list str).
  Notation NT := (with_text NumR text).
  Hypothesis text_pct : forall k : R, ~ In "%"%char (text k).
  Hypothesis clock_inj : forall i j, clock i = clock j -> i = j.
  Hypothesis iter_perm : forall id l, Permutation (iter id l) l.

  (** Full statement: for every sequence of calls of a builder, its file can be rendered iff
      something is asked for and every pad that is used has a figure.  Missing: what C83 leaves out;
      transformations with equal texts. *)
  Theorem C85_builder_partial : forall paints fl ips u fa ff fo cs, let h := happened cs gb_init [] in
    (forall s, paints s = None) -> Forall legal cs -> Forall agreeable cs -> clean cs gb_init -> regions_left_alone h ->
    exists f, parse (dumps (build cs)) = Ok f /\ let ns := map real_node (nodes u fa ff fo f) in
      (tells_apart (NK := NT) (executed_file ips ns) -> exists cmds, compile (NK := NT) md clock iter ips ns = Ok cmds /\
        ((exists r, vm_run (NK := NumR) (shapely paints) fl cmds = Ok r) <-> worth_seeing h)).
  Proof.
    intros paints fl ips u fa ff fo cs h Hpaint HL HA HC HR. exists (map sign_cmd (get_file (build cs))).
    pose proof (build_fine cs HL) as Hfine. pose proof (dumps_read _ Hfine) as Hp. split; [exact Hp|]. intros ns Ht.
    destruct (read_nodes cs ips u fa ff fo _ HL HA HC HR Hp) as (V & D & A & B).
    destruct (proj2 (C82_accepted_partial text md clock iter text_pct clock_inj iter_perm ips _ V D) (conj A B)) as [cmds C].
    exists cmds. split; [exact C|]. subst ns.
    set (qs := nodes u fa ff fo (map sign_cmd (get_file (build cs)))) in *.
    pose proof (same_code u fa ff fo _ Hfine) as S. fold qs in S.
    assert (Hleaf : Forall is_leaf qs).
    { pose proof (code_leaf _ Hfine) as L. apply (proj2 (leaf_map _)) in L. rewrite <- S in L. apply (proj1 (leaf_map _)) in L. exact L. }
    destruct (C39_ids cs) as (_ & _ & I3 & I4). unfold ids_of, names_of in *.
    assert (C1 : ad_codes qs = ids_of (get_code (build cs))) by (rewrite <- codes_e, S, codes_e; reflexivity).
    assert (C2 : names_of qs = names_of (get_code (build cs))) by (rewrite <- names_e, S, names_e; reflexivity).
    destruct (executed_prefix ips qs Hleaf) as [rest Er].
    assert (D1 : NoDup (ad_codes (executed_file ips qs))).
    { assert (X : NoDup (ad_codes qs)) by (rewrite C1; exact I3). rewrite Er in X. unfold ad_codes in X. rewrite flat_map_app in X. exact (nodup_left _ _ X). }
    assert (D2 : NoDup (names_of (executed_file ips qs))).
    { assert (X : NoDup (names_of qs)) by (rewrite C2; exact I4). rewrite Er in X. unfold names_of in X. rewrite flat_map_app in X. exact (nodup_left _ _ X). }
    assert (Hl : Forall is_leaf (map real_node qs)) by (apply Forall_map; eapply Forall_impl; [|exact Hleaf]; intros n; destruct n; exact (fun x => x)).
    rewrite (C85_rendered_partial text md clock iter text_pct clock_inj iter_perm paints fl ips (map real_node qs) cmds Hpaint); [| |exact C].
    - destruct (C76_drawn_partial cs ips u fa ff fo HL HC HR) as (f' & w & Hf' & Ew & Hd).
      assert (f' = map sign_cmd (get_file (build cs))) as -> by congruence. fold qs in Ew.
      apply (marked_worth text ips qs w h Hleaf Ew D1 D2 A Hd).
    - split; [exact Hl|]. split; [|split; [|exact Ht]].
      + intros a Ha. apply (proj1 V (NAD a)); [exact Ha|left; reflexivity].
      + rewrite (executed_file_real ips qs Hleaf), codes_real. exact D1.
  Qed.

  (** C80 once more, with nothing asked of the compiler or the machine. *)
  Theorem C80_rendered_partial :
    forall fill (meets : PaintModel.region R -> PaintModel.region R -> bool) fuel paints fl ips u fa ff fo cs, let h := happened cs gb_init [] in
      Forall legal cs -> Forall agreeable cs -> clean cs gb_init -> regions_left_alone h -> in_step (wishes h) -> Forall (sound_wish h) (wishes h) -> worth_seeing h ->
      fills_anywhere fill -> (forall g g' p, meets g g' = false -> g p -> g' p -> False) -> (forall s, paints s = None) ->
      exists f, parse (dumps (build cs)) = Ok f /\ let ns := map real_node (nodes u fa ff fo f) in
      (tells_apart (NK := NT) (executed_file ips ns) ->
       exists cmds m b os, compile (NK := NT) md clock iter ips ns = Ok cmds /\ vm_run (NK := NumR) (shapely paints) fl cmds = Ok (m, b) /\
         depicts (filled fill fuel) h (wishes h) os /\ forall p, shapely_result fill meets fuel m p <-> seen os p).
  Proof.
    intros fill meets fuel paints fl ips u fa ff fo cs h HL HA HC HR HS HW Hwo Hf Hm Hpaint.
    destruct (C80_seen_partial text md clock iter text_pct clock_inj iter_perm fill meets fuel paints fl ips u fa ff fo cs HL HA HC HR HS HW Hf Hm) as (f & Hp & H1).
    destruct (C85_builder_partial paints fl ips u fa ff fo cs Hpaint HL HA HC HR) as (f' & Hp' & H2). assert (f' = f) as -> by congruence.
    exists f. split; [exact Hp|]. intros ns Ht. destruct (H1 Ht) as (cmds & os & C1 & C2 & C3). destruct (H2 Ht) as (cmds' & D1 & D2).
    fold ns in C1, D1. assert (cmds' = cmds) as -> by congruence. destruct (proj2 D2 Hwo) as [[m b] Hr]. exists cmds, m, b, os. repeat (split; [assumption|]). exact (C3 m b Hr).
  Qed.
End Built.
Print Assumptions C85_builder_partial.
Print Assumptions C80_rendered_partial.

(** ** Cases *)
Example C85_sketch : worth_seeing (happened sketch gb_init []).
Proof.
  split.
  - exists (WPad 0 (1, 2)%Q Dark 0 false false 1). split; [vm_compute; left; reflexivity|exact I].
  - intros n l pol rot mx my sc fs Hi Hl. exfalso. vm_compute in Hi. destruct Hi as [Hi|[Hi|[Hi|[]]]]; try discriminate Hi. injection Hi as <- _ _ _ _ _ _. vm_compute in Hl. discriminate Hl.
Qed.
(** A line and a custom pad to which nothing was added: the file compiles, but it cannot be
    rendered.  The same for a thermal whose gaps cover it. *)
Definition blank_pad (fs : list figure) : list bcall :=
  NewCustom :: map (AddFigure 0) fs ++ [CreateCustom 0; AddLine (1#2) (At (0, 0))%Q (At (1, 1))%Q; AddPad (S (length fs)) (At (1, 2))%Q false 0 false false 1].
Lemma untold (ns : list (node R)) : Forall (fun n : node R => match n with NLM _ | NLR _ | NLS _ => False | _ => True end) ns -> tells_apart (NK := PT) ns.
Proof.
  intros H. split; [intros k [Hk|[]]; discriminate Hk|]. intros p q p' q' E1 E2 _.
  assert (Hu : forall p q, ns = p ++ q -> matrix_at (NK := PT) p = matrix_at (NK := PT) []).
  { clear - H. intros p q Eq. apply untransformed. rewrite Eq in H. apply Forall_app in H. apply H. }
  rewrite (Hu p q E1), (Hu p' q' E2). reflexivity.
Qed.
Example C85_blank_pad : forall fs, In fs [[]; [FgThermal (0, 0)%Q 3 2 2 0]] -> exists f cmds, parse (dumps (build (blank_pad fs))) = Ok f /\
  compile (NK := PT) false running same_order false (map real_node (nodes (fun _ => 5%Z) no_info no_info no_info f)) = Ok cmds /\
  forall r, vm_run (NK := NumR) (shapely (fun _ => None)) false cmds <> Ok r.
Proof.
  intros fs Hfs.
  assert (HL : Forall legal (blank_pad fs)) by (destruct Hfs as [<-|[<-|[]]]; unfold blank_pad; cbn [map app]; repeat (apply Forall_cons; [split; [apply all_good; vm_compute; reflexivity|]; exact I|]); apply Forall_nil).
  assert (HA : Forall agreeable (blank_pad fs)) by (destruct Hfs as [<-|[<-|[]]]; unfold blank_pad; cbn [map app]; repeat (apply Forall_cons; [try exact I; cbn; intros; reflexivity|]); apply Forall_nil).
  assert (HC : clean (blank_pad fs) gb_init) by (destruct Hfs as [<-|[<-|[]]]; vm_compute; repeat split).
  assert (HR : regions_left_alone (happened (blank_pad fs) gb_init [])) by (destruct Hfs as [<-|[<-|[]]]; vm_compute; repeat split).
  destruct (C85_builder_partial plain_text false running same_order plain_pct running_inj same_order_ok (fun _ => None) false false (fun _ => 5%Z) no_info no_info no_info (blank_pad fs) (fun _ => eq_refl) HL HA HC HR) as (f & Hp & H).
  assert (Ef : f = map sign_cmd (get_file (build (blank_pad fs)))) by (pose proof (dumps_read _ (build_fine _ HL)); congruence).
  destruct H as (cmds & C & W); [apply untold; rewrite Ef; destruct Hfs as [<-|[<-|[]]]; vm_compute; repeat constructor|].
  exists f, cmds. split; [exact Hp|]. split; [exact C|]. intros r Hr. destruct (proj1 W (ex_intro _ r Hr)) as [_ Hpads].
  destruct Hfs as [<-|[<-|[]]].
  - assert (X : Exists leaves []) by (apply (Hpads 1%nat (1, 2)%Q Dark 0%Q false false 1%Q []); vm_compute; [right; left; reflexivity|reflexivity]). inversion X.
  - assert (X : Exists leaves [FgThermal (0, 0)%Q 3 2 2 0]) by (apply (Hpads 2%nat (1, 2)%Q Dark 0%Q false false 1%Q); vm_compute; [right; left; reflexivity|reflexivity]).
    inversion X as [? ? L|? ? L]; [|inversion L]. destruct L as [_ L]. unfold Q2R in L. cbn in L. pose proof (sqrt_lt_1 1 2 ltac:(lra) ltac:(lra) ltac:(lra)) as S. rewrite sqrt_1 in S. lra.
Qed.

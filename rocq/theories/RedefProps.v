(** Property theorem C64 in files that define codes again (specification in [RedefSpec]). *)
From Coq Require Import Reals Lra Permutation.
From Verif Require Import Base Num NumReal Dict CoordModel CoordSpec Ast StateModel StateSpec StateProofs GeomModel CompilerModel LayerSpec LayerProofs LayerInv LayerOut LayerProps
  BoxModel ArcModel VmModel VmSpec VmProps DrawSpec DrawProofs FlashSpec PaintModel PaintSpec PaintProofs PaintProps RenderSpec RenderProofs RenderProps
  StaleSpec RedefSpec RedefProofs.

Section Compiled.
  Context (text : R -> str) (md : bool) (clock : nat -> Z) (iter : str -> list str -> list str).
  Hypothesis iter_perm : forall id l, Permutation (iter id l) l.
  Notation NT := (with_text NumR text).

  (** The files: no blocks, codes are D-codes, the transformations used have different names. *)
  Definition leaf_file (ips : bool) (ns : list (node R)) : Prop :=
    Forall is_leaf ns /\ (forall a, In (NAD a) ns -> exists n, dcode (ad_id a) n) /\ tells_apart (NK := NT) (executed_file ips ns).

  (** C64 for files that may define codes again: flashes show the definition that was the
      latest one when the code was flashed under the transformation for the first time; strokes
      are as wide as the latest definition says.  Partial: files without blocks whose codes are
      D-codes.  Missing: AB and SR blocks, see [C64_blocks_partial], where codes are not
      defined again. *)
  Theorem C64_redefined_partial :
    forall fill (meets : region R -> region R -> bool) fuel paints fl ips ns v,
      fills_anywhere fill -> (forall g h p, meets g h = false -> g p -> h p -> False) -> leaf_file ips ns ->
      on_file (NK := NT) (@compiler_hooks R NT md clock) ips ns (visitor_init (NK := NT) compiler_init) = Ok v -> NoDup (c_stamps (v_ext v)) ->
      exists cmds os, compile (NK := NT) md clock iter ips ns = Ok cmds /\
        repicture (filled fill fuel) text md clock (executed_file ips ns) os /\
        forall m b, vm_run (shapely paints) fl cmds = Ok (m, b) -> forall p, shapely_result fill meets fuel m p <-> seen os p.
  Proof.
    intros fill meets fuel paints fl ips ns v Hf Hm (Hl & Hc & Ht) E HN.
    assert (Hsub : forall n m, In n ns -> In m (subnodes n) -> m = n).
    { intros n m Hn Hi. rewrite Forall_forall in Hl. specialize (Hl n Hn). destruct n; try contradiction; destruct Hi as [<-|[]]; reflexivity. }
    assert (Hnab : forall id body, ~ In (NAB id body) ns) by (intros id body Hi; rewrite Forall_forall in Hl; exact (Hl _ Hi)).
    destruct (file_program (NK := NT) md clock iter iter_perm ips ns v) as (cmds & ls & P1 & P2 & P3 & P4 & _); try assumption.
    - exact (proj1 Ht).
    - split.
      + intros n a Hn Hi. apply Hc. rewrite (Hsub n _ Hn Hi). exact Hn.
      + intros n id body Hn Hi. exfalso. apply (Hnab id body). rewrite (Hsub n _ Hn Hi). exact Hn.
    - intros n n' a id body Hn Hn' Hi Hi' _. apply (Hnab id body). rewrite (Hsub n' _ Hn' Hi'). exact Hn'.
    - destruct (compiled_layers text md clock iter iter_perm ips ns cmds P1) as (v' & l & E' & -> & L2 & L3 & L4 & L5). rewrite E in E'. injection E' as <-.
      rewrite P2 in L2. injection L2 as ->. pose proof (layers_shown (filled fill fuel) _ P3 P4) as Hs.
      set (shows := fold_left _ _ _) in Hs. unfold defined_once in P4. rewrite layer_ids in P4.
      destruct (flat_main (NK := NT) md clock ips ns v Hl) as (mb & G1 & HR); [|exact E|].
      { intros a Ha Em. destruct (Hc a Ha) as (n & ds & Hn & _). rewrite Em in Hn. discriminate Hn. }
      assert (Hmb : In mb l).
      { apply in_map_iff in L5 as (x & Ex & Hx). pose proof (L4 x Hx) as G. rewrite Ex, G1 in G. injection G as <-. exact Hx. }
      assert (Hsh : forall b, In b l -> forall p, shows (bf_id b) p <-> dark (plane_covers (filled fill fuel) (fun _ => MkVec 0%R 0%R) shows (bf_id b)) (bf_cmds b) p).
      { intros b Hb. apply Hs. apply in_map_iff. exists b. auto. }
      destruct (run_repicture (filled fill fuel) text md clock shows _ _ HR) as (os & O1 & O2).
      { intros pre x y post a Ew Ha c neg me Hin. apply in_split in Hmb as Hsp. destruct Hsp as (l1 & l2 & El).
        pose proof (L3 l1 mb l2 _ El (ex_intro _ _ (conj Hin eq_refl))) as Hi. cbn [pa_src] in Hi. apply in_map_iff in Hi as (b1 & E1 & H1).
        assert (Hb1 : In b1 l) by (rewrite El; apply in_or_app; left; exact H1).
        rewrite <- E1. exact (flash_refigure (filled fill fuel) text md clock shows ips ns v l Hl Hc Ht E HN L3 L4 Hsh pre x y post a b1 Ew Ha Hb1 E1). }
      exists (blocks_r l), os. split; [exact P1|]. split; [exact O1|]. intros m b Er p.
      rewrite (layers_painted paints fl fill meets fuel l m b shows Hf Hm L3 P4 Er Hs p).
      assert (Eid : bf_id mb = main_id).
      { apply in_map_iff in L5 as (x & Ex & Hx). pose proof (L4 x Hx) as G. rewrite Ex, G1 in G. injection G as <-. exact Ex. }
      rewrite <- Eid, (Hsh mb Hmb). symmetry. apply seen_dark. exact O2.
  Qed.

  (** If no code is defined again after it was flashed, flashes show the latest definition. *)
  Lemma steady_picture inside (whole : list (node R)) os : repicture inside text md clock whole os -> steady whole -> picture inside text md clock whole os.
  Proof.
    induction 1 as [|pre os n new _ IH Hn]; intros Hst; [constructor|].
    constructor.
    - apply IH. intros p x y q a r E. apply (Hst p x y q a (r ++ [n])). rewrite E, <- !app_assoc. cbn [app]. rewrite <- !app_assoc. reflexivity.
    - assert (Hc : (exists x y, n = ND03 x y) \/ match n with ND03 _ _ => False | _ => True end) by (destruct n; eauto).
      destruct Hc as [(x & y & ->)|Hc]; [|destruct n; try exact Hn; destruct Hc].
      destruct Hn as (id & p & a & fs & Hs & ([->|(x0 & y0 & q & Ep)] & S1 & _ & _) & [Sa (pd & qd & Ed & Hd)] & (p1 & q1 & s & x1 & x2 & b & A1 & A2) & ->).
      + exists a, fs. split; [split; [exact Sa|exists pd, qd; auto]|]. split; [exists p1, q1, s, x1, x2, b; auto|reflexivity].
      + assert (Ei : id = ad_id a) by (rewrite S1 in Sa; injection Sa as ->; reflexivity). subst id.
        exists a, fs. split; [|split; [|reflexivity]].
        * split; [exact Hs|]. exists pd, (qd ++ ND03 x0 y0 :: q). split; [rewrite Ep, Ed, <- app_assoc; reflexivity|].
          unfold ad_codes. rewrite flat_map_app. cbn [flat_map ad_code app]. intros Hi. apply in_app_or in Hi as [Hi|Hi]; [exact (Hd Hi)|].
          apply in_flat_map in Hi as (n & Hn & Hi).
          assert (Hx : exists a0, n = NAD a0 /\ ad_id a0 = ad_id a) by (destruct n; try (destruct Hi; fail); destruct Hi as [Hi|[]]; eauto).
          destruct Hx as (a0 & -> & Hx). apply in_split in Hn as (q2 & q3 & ->).
          apply (Hst p x0 y0 q2 a0 (q3 ++ [ND03 x y])); [|rewrite Hx; exact Sa].
          rewrite Ep, <- !app_assoc. cbn [app]. rewrite <- !app_assoc. reflexivity.
        * exists p1, (q1 ++ ND03 x0 y0 :: q), s, x1, x2, b. split; [rewrite Ep, A1, <- app_assoc; reflexivity|exact A2].
  Qed.
  (** So the condition of [C64_picture_partial] that no code is defined twice can be weakened:
      no code is defined again after it was flashed.  Partial as there. *)
  Theorem C64_steady_partial : C64_statement text md clock iter (fun ips ns => leaf_file ips ns /\ steady (executed_file ips ns)).
  Proof.
    intros fill meets fuel paints fl ips ns v Hf Hm [Hp Hs] E HN.
    destruct (C64_redefined_partial fill meets fuel paints fl ips ns v Hf Hm Hp E HN) as (cmds & os & A & B & C).
    exists cmds, os. split; [exact A|]. split; [apply steady_picture; assumption|exact C].
  Qed.
End Compiled.
Print Assumptions C64_redefined_partial.
Print Assumptions C64_steady_partial.

(** *** Cases *)
Notation PT := (with_text NumR plain_text).
Notation walked ns := (on_file (NK := PT) (@compiler_hooks R PT false running) false ns (visitor_init (NK := PT) compiler_init)).
Lemma untransformed_file (ns : list (node R)) : Forall (fun n => match n with NLM _ | NLR _ | NLS _ => False | _ => True end) ns -> tells_apart (NK := PT) ns.
Proof.
  intros H. split; [intros k [Hk|[]]; discriminate Hk|].
  intros p q p' q' E1 E2 _. transitivity (matrix_at (NK := PT) []); [|symmetry]; apply untransformed.
  - rewrite E1 in H. apply Forall_app in H. apply H.
  - rewrite E2 in H. apply Forall_app in H. apply H.
Qed.
(** A disc of diameter 2, then one of diameter 1 under the same code, to be taken away: the
    larger one is shown again and everything is taken away. *)
Definition revised : list (node R) :=
  [NAD (MkAD (lit "D10") (TCircle 2%R None)); NDnn (lit "D10"); ND03 None None;
   NAD (MkAD (lit "D10") (TCircle 1%R None)); NLP Clear; ND03 None None].
(** The same, defined again before the first flash. *)
Definition corrected : list (node R) :=
  [NAD (MkAD (lit "D10") (TCircle 2%R None)); NAD (MkAD (lit "D10") (TCircle 1%R None)); NDnn (lit "D10"); ND03 None None].
Lemma revised_file : leaf_file plain_text false revised.
Proof.
  split; [repeat constructor|]. split; [|apply untransformed_file; cbn; repeat constructor].
  intros a Ha. cbn [revised In] in Ha. repeat (destruct Ha as [Ha|Ha]; [try discriminate Ha; injection Ha as <-; eexists _, _; repeat split; discriminate|]). destruct Ha.
Qed.
Lemma corrected_file : leaf_file plain_text false corrected.
Proof.
  split; [repeat constructor|]. split; [|apply untransformed_file; cbn; repeat constructor].
  intros a Ha. cbn [corrected In] in Ha. repeat (destruct Ha as [Ha|Ha]; [try discriminate Ha; injection Ha as <-; eexists _, _; repeat split; discriminate|]). destruct Ha.
Qed.
Lemma corrected_steady : steady (executed_file false corrected).
Proof.
  intros p x y q a r E. exfalso. cbn in E. repeat (destruct p as [|? p]; cbn [app] in E; [try discriminate E; injection E as _ _ E; destruct q; discriminate E|injection E as _ E]).
  destruct p; discriminate E.
Qed.
Lemma walked_case ns : match walked ns with Ok v => c_stamps (v_ext v) | Err _ => [lit "failed"] end = [] ->
  exists v, walked ns = Ok v /\ NoDup (c_stamps (v_ext v)).
Proof. destruct (walked ns) as [v|]; [|discriminate]. intros E. exists v. split; [reflexivity|]. rewrite E. constructor. Qed.
(** The first file is painted as [repicture] says; the second flash is that of the first
    definition. *)
Example C64_redefined_case : forall fill (meets : region R -> region R -> bool) fuel, fills_anywhere fill -> (forall g h p, meets g h = false -> g p -> h p -> False) ->
  exists cmds m b os, compile (NK := PT) false running (fun _ l => l) false revised = Ok cmds /\ vm_run (shapely (fun _ => None)) false cmds = Ok (m, Some b) /\
    repicture (filled fill fuel) plain_text false running revised os /\
    (forall p, shapely_result fill meets fuel m p <-> seen os p) /\ ~ steady (executed_file false revised) /\
    first_use (NK := PT) (removelast revised) (lit "D10") (firstn 2 revised) /\ selected_as (firstn 2 revised) (MkAD (lit "D10") (TCircle 2%R None)).
Proof.
  intros fill meets fuel Hf Hm.
  assert (Hi : forall (id : str) (l : list str), Permutation l l) by (intros; apply Permutation_refl).
  destruct (walked_case revised) as (v & E & HN); [vm_compute; reflexivity|].
  destruct (C64_redefined_partial plain_text false running (fun _ l => l) Hi fill meets fuel (fun _ => None) false false revised v Hf Hm revised_file E HN) as (cmds & os & C1 & C2 & C3).
  assert (Hr : exists m b, vm_run (shapely (fun _ => None)) false cmds = Ok (m, Some b)).
  { destruct (C56_runs_partial plain_text false running (fun _ l => l) Hi (fun _ => None) false false revised v) as (cmds' & ls & R1 & R2 & R3); try assumption.
    - intros k [Hk|[]]. discriminate Hk.
    - split; intros n a; [|intros body]; cbn [revised In]; intros Hn Ha;
        repeat (destruct Hn as [<-|Hn]; [cbn in Ha; destruct Ha as [Ha|[]]; try discriminate Ha; injection Ha as <-; eexists _, _; repeat split; discriminate|]); destruct Hn.
    - intros n n' a id body _ Hn'. cbn [revised In] in Hn'. repeat (destruct Hn' as [<-|Hn']; [intros _ Ha; cbn in Ha; destruct Ha as [Ha|[]]; discriminate Ha|]). destruct Hn'.
    - rewrite C1 in R1. injection R1 as <-. apply R3. intros id ds Hi2. split; [|reflexivity].
      assert (X : match compile (NK := PT) false running (fun _ l => l) false revised with
        | Ok c => match layers c with Some ls => forallb (fun l => match snd l with [] => false | _ => true end) ls | None => false end | Err _ => false end = true) by (vm_compute; reflexivity).
      rewrite C1, R2 in X. rewrite forallb_forall in X. specialize (X _ Hi2). cbn [snd] in X. destruct ds; discriminate. }
  destruct Hr as (m & b & Er). exists cmds, m, b, os. split; [exact C1|]. split; [exact Er|]. split; [exact C2|]. split; [intros p; exact (C3 m (Some b) Er p)|].
  split.
  { intros Hs. apply (Hs (firstn 2 revised) None None [] (MkAD (lit "D10") (TCircle 1%R None)) [NLP Clear; ND03 None None]); reflexivity. }
  split.
  - split; [right; exists None, None, [NAD (MkAD (lit "D10") (TCircle 1%R None)); NLP Clear]; reflexivity|]. split; [reflexivity|].
    split; [rewrite !untransformed by (repeat constructor); reflexivity|].
    intros (p & x & y & q & Eq & _). cbn in Eq. repeat (destruct p as [|? p]; cbn [app] in Eq; [discriminate Eq|injection Eq as _ Eq]). destruct p; discriminate Eq.
  - split; [reflexivity|]. exists [], [NDnn (lit "D10")]. split; [reflexivity|intros []].
Qed.
(** The second file shows its second definition although the code is defined twice. *)
Example C64_steady_case : leaf_file plain_text false corrected /\ steady (executed_file false corrected) /\ ~ NoDup (ad_codes (executed_file false corrected)) /\
  selected_as (removelast corrected) (MkAD (lit "D10") (TCircle 1%R None)) /\ exists v, walked corrected = Ok v /\ NoDup (c_stamps (v_ext v)).
Proof.
  split; [exact corrected_file|]. split; [exact corrected_steady|]. split.
  { intros H. cbn in H. inversion H as [|? ? Hn _]; subst. apply Hn. left; reflexivity. }
  split; [|apply walked_case; vm_compute; reflexivity].
  split; [reflexivity|]. exists [NAD (MkAD (lit "D10") (TCircle 2%R None))], [NDnn (lit "D10")]. split; [reflexivity|intros []].
Qed.

(** C83: the files of a builder can be compiled.  With C80, what is asked of a builder is what its file looks like. *)
From Coq Require Import Reals Qreals Lra Lia Permutation.
From Verif Require Import Base Num NumReal Dict CoordModel CoordSpec Ast StateModel StateSpec StateProofs GeomModel CompilerModel LayerSpec LayerProofs LayerInv LayerOut
  LayerProps BoxModel ArcModel VmModel VmSpec DrawSpec FlashSpec PaintModel PaintSpec RenderSpec RenderProps GbModel GbSpec GbRead GbProps.
From Verif Require GramAst GramModel GramRead NumTextProofs CoordProofs.
From Verif Require Import FmtModel GramNum LinkModel DumpModel DumpSpec DumpProofs DumpRead DumpProps DepictSpec DepictNodes DepictTrack DepictProofs DepictProps.
From Verif Require Import AcceptSpec AcceptMacro AcceptProofs AcceptProps AgreeSpec AgreeBuild AgreeProofs.
Local Existing Instance NumQ.

Section Agree.
  Context (text : R -> str) (md : bool) (clock : nat -> Z) (iter : str -> list str -> list str).
  Notation NT := (with_text NumR text).
  Hypothesis text_pct : forall k : R, ~ In "%"%char (text k).
  Hypothesis clock_inj : forall i j, clock i = clock j -> i = j.
  Hypothesis iter_perm : forall id l, Permutation (iter id l) l.

  Lemma read_nodes cs ips u fa ff fo f : Forall legal cs -> Forall agreeable cs -> clean cs gb_init -> regions_left_alone (happened cs gb_init []) ->
    parse (dumps (build cs)) = Ok f -> let ns := map real_node (nodes u fa ff fo f) in
    codes_valid ns /\ codes_disjoint ns /\ accepted ips ns /\ repeated ips ns.
  Proof.
    intros HL HA HC HR Hp ns. pose proof (build_fine cs HL) as Hfine. assert (f = map sign_cmd (get_file (build cs))) as -> by (pose proof (dumps_read _ Hfine); congruence).
    set (qs := nodes u fa ff fo (map sign_cmd (get_file (build cs)))) in *.
    pose proof (same_code u fa ff fo _ Hfine) as S. fold qs in S.
    assert (Hleaf : Forall is_leaf qs).
    { pose proof (code_leaf _ Hfine) as L. apply (proj2 (leaf_map _)) in L. rewrite <- S in L. apply (proj1 (leaf_map _)) in L. exact L. }
    destruct (C39_ids cs) as (I1 & _ & I3 & I4). unfold ids_of, names_of in *.
    assert (C1 : ad_codes qs = ids_of (get_code (build cs))) by (rewrite <- codes_e, S, codes_e; reflexivity).
    assert (Hcode : forall a, In (NAD a) qs -> exists n, dcode (ad_id a) n).
    { intros a Ha. assert (Hi : In (ad_id a) (ad_codes qs)) by (apply in_flat_map; exists (NAD a); split; [exact Ha|left; reflexivity]).
      rewrite C1 in Hi. apply In_nth_error in Hi as [i Hi]. apply I1 in Hi. rewrite Hi. eexists. apply made_code. lia. }
    assert (Hl : Forall is_leaf ns) by (apply Forall_map; eapply Forall_impl; [|exact Hleaf]; intros n; destruct n; exact (fun x => x)).
    assert (Hsub : forall n m, In n ns -> In m (subnodes n) -> m = n).
    { intros n m Hn Hi. rewrite Forall_forall in Hl. specialize (Hl n Hn). destruct n; try contradiction; destruct Hi as [<-|[]]; reflexivity. }
    assert (Hnab : forall id body, ~ In (NAB id body) ns) by (intros id body Hi; rewrite Forall_forall in Hl; exact (Hl _ Hi)).
    split; [split|split; [|split; [|apply done_leaves, Hl]]].
    - intros n a Hn Hi. pose proof (Hsub n _ Hn Hi) as <-. apply in_map_iff in Hn as (q & En & Hq). destruct q; try discriminate En. injection En as <-. exact (Hcode _ Hq).
    - intros n id body Hn Hi. pose proof (Hsub n _ Hn Hi) as <-. destruct (Hnab _ _ Hn).
    - intros n n' a id body _ Hn' _ Hi. pose proof (Hsub n' _ Hn' Hi) as <-. destruct (Hnab _ _ Hn').
    - destruct (C76_drawn_partial cs ips u fa ff fo HL HC HR) as (f' & w & Hf' & Ew & Hd).
      assert (f' = map sign_cmd (get_file (build cs))) as -> by (pose proof (dumps_read _ Hfine); congruence). fold qs in Ew.
      exact (code_accepted _ qs ips w _ _ (build_sane cs HA) Hfine S Hleaf Ew Hd).
  Qed.

  (** Full statement of C83: for every sequence of calls of a builder, the text of its file can
      be read and compiled.  Missing: what C38 and C76 leave out; calls that are not agreeable,
      for which it is false; macros compiled at the same time. *)
  Theorem C83_compiled_partial : forall cs ips u fa ff fo, let h := happened cs gb_init [] in
    Forall legal cs -> Forall agreeable cs -> clean cs gb_init -> regions_left_alone h ->
    exists f cmds, parse (dumps (build cs)) = Ok f /\ compile (NK := NT) md clock iter ips (map real_node (nodes u fa ff fo f)) = Ok cmds.
  Proof.
    intros cs ips u fa ff fo h HL HA HC HR. exists (map sign_cmd (get_file (build cs))). pose proof (dumps_read _ (build_fine cs HL)) as Hp.
    destruct (read_nodes cs ips u fa ff fo _ HL HA HC HR Hp) as (V & D & A & B).
    destruct (proj2 (C82_accepted_partial text md clock iter text_pct clock_inj iter_perm ips _ V D) (conj A B)) as [cmds C]. eauto.
  Qed.

  (** C80 for agreeable calls: nothing is asked of the compiler. *)
  Theorem C80_seen_partial :
    forall fill (meets : PaintModel.region R -> PaintModel.region R -> bool) fuel paints fl ips u fa ff fo cs, let h := happened cs gb_init [] in
      Forall legal cs -> Forall agreeable cs -> clean cs gb_init -> regions_left_alone h -> in_step (wishes h) -> Forall (sound_wish h) (wishes h) ->
      fills_anywhere fill -> (forall g g' p, meets g g' = false -> g p -> g' p -> False) ->
      exists f, parse (dumps (build cs)) = Ok f /\ let ns := map real_node (nodes u fa ff fo f) in
      (tells_apart (NK := NT) (executed_file ips ns) ->
       exists cmds os, compile (NK := NT) md clock iter ips ns = Ok cmds /\ depicts (filled fill fuel) h (wishes h) os /\
         forall m b, vm_run (shapely paints) fl cmds = Ok (m, b) -> forall p, shapely_result fill meets fuel m p <-> seen os p).
  Proof.
    intros fill meets fuel paints fl ips u fa ff fo cs h HL HA HC HR HS HW Hf Hm. exists (map sign_cmd (get_file (build cs))).
    pose proof (dumps_read _ (build_fine cs HL)) as Hp. split; [exact Hp|]. intros ns Ht.
    destruct (read_nodes cs ips u fa ff fo _ HL HA HC HR Hp) as (V & D & A & B).
    destruct (proj2 (C82_accepted_partial text md clock iter text_pct clock_inj iter_perm ips _ V D) (conj A B)) as [cmds C].
    apply compile_inv in C as (v & E & _).
    apply (C80_depicted_partial text md clock iter iter_perm fill meets fuel paints fl ips u fa ff fo cs _ v HL HC HR HS HW Hf Hm Hp Ht E).
    apply (stamped_nodup clock _ clock_inj). eapply (stamped_file (NK := NT) md clock ips); [|exact E]. intros n Hn. inversion Hn.
  Qed.
End Agree.
Print Assumptions C83_compiled_partial.
Print Assumptions C80_seen_partial.

(** ** Cases *)
(** One pad with two vertices that is never used makes the file useless, whatever the clock. *)
Definition two_sided : list bcall := [NewPolygon 1 2 0 None; AddLine 1 (At (0, 0))%Q (At (1, 1))%Q].
Theorem C83_two_sided_refuted : Forall legal two_sided /\ clean two_sided gb_init /\ regions_left_alone (happened two_sided gb_init []) /\
  exists f, parse (dumps (build two_sided)) = Ok f /\ forall text md clock iter ips u fa ff fo cmds,
    compile (NK := with_text NumR text) md clock iter ips (map real_node (nodes u fa ff fo f)) <> Ok cmds.
Proof.
  assert (HL : Forall legal two_sided) by (unfold two_sided; repeat (apply Forall_cons; [split; [apply all_good; vm_compute; reflexivity|]; exact I|]); apply Forall_nil).
  split; [exact HL|]. split; [vm_compute; repeat split|]. split; [vm_compute; repeat split|].
  exists (map sign_cmd (get_file (build two_sided))). split; [apply dumps_read, build_fine, HL|]. intros text md clock iter ips u fa ff fo cmds E.
  apply compile_inv in E as (v & E & _).
  assert (X : match on_file (NK := with_text NumR text) (@compiler_hooks R (with_text NumR text) md clock) ips (map real_node (nodes u fa ff fo (map sign_cmd (get_file (build two_sided)))))
    (visitor_init (NK := with_text NumR text) compiler_init) with Ok _ => False | Err _ => True end) by (vm_compute; exact I).
  rewrite E in X. exact X.
Qed.
Print Assumptions C83_two_sided_refuted.
(** Pads that are used, unused, custom and with holes; nothing has to be compiled to know. *)
Definition agreed : list bcall := sketch ++ [NewPolygon 1 3 0 None; NewCustom; AddFigure 9 (FgPolygon true 5 (0, 0) (-1) 45)%Q; AddFigure 9 (FgThermal (0, 0) 0 1 1 0)%Q; CreateCustom 9].
Example C83_agreed : forall md iter ips u fa ff fo, (forall id l, Permutation (iter id l) l) -> exists f cmds, parse (dumps (build agreed)) = Ok f /\
  compile (NK := PT) md running iter ips (map real_node (nodes u fa ff fo f)) = Ok cmds.
Proof.
  intros md iter ips u fa ff fo Hi. apply (C83_compiled_partial plain_text md running iter plain_pct running_inj Hi agreed ips u fa ff fo).
  - unfold agreed, sketch. cbn [app]. repeat (apply Forall_cons; [split; [apply all_good; vm_compute; reflexivity|]; exact I|]). apply Forall_nil.
  - unfold agreed, sketch. cbn [app]. repeat (apply Forall_cons; [try exact I; cbn; try lia; intros X; exfalso; revert X; apply Qle_not_lt; discriminate|]). apply Forall_nil.
  - vm_compute. repeat split.
  - vm_compute. repeat split.
Qed.

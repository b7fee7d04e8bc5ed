(** C80: what is asked of a builder is what its file looks like. *)
From Coq Require Import Reals Qreals Lra Lia Permutation.
From Verif Require Import Base Num NumReal Dict CoordModel CoordSpec Ast StateModel StateSpec StateProofs GeomModel CompilerModel LayerSpec LayerProofs
  LayerProps BoxModel ArcModel VmModel VmSpec DrawSpec FlashSpec PaintModel PaintSpec RenderSpec RenderProps GbModel GbSpec GbRead GbProps.
From Verif Require GramAst GramModel GramRead NumTextProofs CoordProofs.
From Verif Require Import FmtModel GramNum LinkModel DumpModel DumpSpec DumpProofs DumpRead DumpProps DepictSpec DepictNodes DepictTrack DepictProofs.
Local Existing Instance NumQ.

Lemma codes_e ns : ad_codes (map e_node ns) = ad_codes ns.
Proof. unfold ad_codes. induction ns as [|n ns IH]; [reflexivity|]. cbn [map flat_map]. rewrite IH. destruct n; reflexivity. Qed.
Lemma names_e ns : names_of (map e_node ns) = names_of ns.
Proof. unfold names_of. induction ns as [|n ns IH]; [reflexivity|]. cbn [map flat_map]. rewrite IH. destruct n; reflexivity. Qed.
Lemma codes_real ns : ad_codes (map real_node ns) = ad_codes ns.
Proof. unfold ad_codes. induction ns as [|n ns IH]; [reflexivity|]. cbn [map flat_map]. rewrite IH. destruct n; reflexivity. Qed.
Lemma executed_prefix (b : bool) (ns : list (node Q)) : Forall is_leaf ns -> exists r, ns = executed_file b ns ++ r.
Proof.
  induction 1 as [|n r Hn _ (r' & IH)]; [exists []; reflexivity|]. cbn [executed_file].
  assert (E : exists st, executed n = ([n], st)) by (destruct n; try contradiction; eexists; reflexivity). destruct E as [st ->].
  destruct (st && b); [exists r; reflexivity|]. exists r'. cbn [app]. rewrite <- IH. reflexivity.
Qed.
Lemma made_code z : (0 <= z)%Z -> dcode (lit "D" ++ z_repr z) z.
Proof.
  intros Hz. rewrite (repr_pos z Hz). destruct (CoordProofs.int_digits_spec z Hz) as (Hv & Ha & Hne). exists (int_digits z).
  split; [reflexivity|]. split; [exact Hne|]. rewrite (NumTextProofs.digits_spec _ Ha), Hv. reflexivity.
Qed.

Section Depicted.
  Context (text : R -> str) (md : bool) (clock : nat -> Z) (iter : str -> list str -> list str).
  Hypothesis iter_perm : forall id l, Permutation (iter id l) l.
  Notation NT := (with_text NumR text).
  (** Full statement of C80: for every sequence of calls of a builder, the picture rendered from
      the text of its file is made of the pads, traces and regions asked for, in this order, at
      the places asked for rounded to six decimals.  Missing: what C38 and C76 leave out; pads that
      are not drawn as documented ([sound_wish]); files the compiler rejects; transformations
      with equal texts and macros compiled at the same time ([C16_flash_shapes_partial]). *)
  Theorem C80_depicted_partial :
    forall fill (meets : PaintModel.region R -> PaintModel.region R -> bool) fuel paints fl ips u fa ff fo cs f v, let h := happened cs gb_init [] in let ns := map real_node (nodes u fa ff fo f) in
      Forall legal cs -> clean cs gb_init -> regions_left_alone h -> in_step (wishes h) -> Forall (sound_wish h) (wishes h) ->
      fills_anywhere fill -> (forall g g' p, meets g g' = false -> g p -> g' p -> False) ->
      parse (dumps (build cs)) = Ok f -> tells_apart (NK := NT) (executed_file ips ns) ->
      on_file (NK := NT) (@compiler_hooks R NT md clock) ips ns (visitor_init (NK := NT) compiler_init) = Ok v -> NoDup (c_stamps (v_ext v)) ->
      exists cmds os, compile (NK := NT) md clock iter ips ns = Ok cmds /\ depicts (filled fill fuel) h (wishes h) os /\
        forall m b, vm_run (shapely paints) fl cmds = Ok (m, b) -> forall p, shapely_result fill meets fuel m p <-> seen os p.
  Proof.
    intros fill meets fuel paints fl ips u fa ff fo cs f v h ns HL HC HR HS HW Hf Hm Hp Ht E HN.
    pose proof (build_fine cs HL) as Hfine. assert (f = map sign_cmd (get_file (build cs))) as -> by (pose proof (dumps_read _ Hfine); congruence).
    set (qs := nodes u fa ff fo (map sign_cmd (get_file (build cs)))) in *.
    pose proof (same_code u fa ff fo _ Hfine) as S. fold qs in S.
    assert (Hleaf : Forall is_leaf qs).
    { pose proof (code_leaf _ Hfine) as L. apply (proj2 (leaf_map _)) in L. rewrite <- S in L. apply (proj1 (leaf_map _)) in L. exact L. }
    destruct (C39_ids cs) as (I1 & _ & I3 & I4). unfold ids_of, names_of in *.
    assert (C1 : ad_codes qs = ids_of (get_code (build cs))) by (rewrite <- codes_e, S, codes_e; reflexivity).
    assert (C2 : names_of qs = names_of (get_code (build cs))) by (rewrite <- names_e, S, names_e; reflexivity).
    assert (Hcode : forall a, In (NAD a) qs -> exists n, dcode (ad_id a) n).
    { intros a Ha. assert (Hi : In (ad_id a) (ad_codes qs)) by (apply in_flat_map; exists (NAD a); split; [exact Ha|left; reflexivity]).
      rewrite C1 in Hi. apply In_nth_error in Hi as [i Hi]. apply I1 in Hi. rewrite Hi. eexists. apply made_code. lia. }
    destruct (executed_prefix ips qs Hleaf) as [rest Er].
    assert (D1 : NoDup (ad_codes (executed_file ips qs))).
    { assert (X : NoDup (ad_codes qs)) by (rewrite C1; exact I3). rewrite Er in X. unfold ad_codes in X. rewrite flat_map_app in X. exact (nodup_left _ _ X). }
    assert (D2 : NoDup (names_of (executed_file ips qs))).
    { assert (X : NoDup (names_of qs)) by (rewrite C2; exact I4). rewrite Er in X. unfold names_of in X. rewrite flat_map_app in X. exact (nodup_left _ _ X). }
    destruct (C76_drawn_partial cs ips u fa ff fo HL HC HR) as (f' & w & Hf' & Ew & Hd). assert (f' = map sign_cmd (get_file (build cs))) as -> by (pose proof (dumps_read _ Hfine); congruence).
    fold h in Hd. unfold in_step in HS. rewrite HS in Hd. fold qs in Ew.
    destruct (C64_picture_partial text md clock iter iter_perm fill meets fuel paints fl ips ns v Hf Hm) as (cmds & os & P1 & P2 & P3); [|exact E|exact HN|].
    - split; [|split; [|split; [|exact Ht]]].
      + apply Forall_map. eapply Forall_impl; [|exact Hleaf]. intros n. destruct n; exact (fun x => x).
      + intros a Ha. apply in_map_iff in Ha as (n & En & Hn). destruct n; try discriminate. injection En as <-. exact (Hcode _ Hn).
      + unfold ns. rewrite (executed_file_real ips qs Hleaf), codes_real. exact D1.
    - exists cmds, os. split; [exact P1|]. split; [|exact P3]. unfold ns in P2. rewrite (executed_file_real ips qs Hleaf) in P2.
      pose proof (walk_file ips qs Hleaf [] _ _ ltac:(constructor) Ew) as Hwk. cbn [app] in Hwk.
      eapply (renders_depicts _ text md clock h (wishes h)); [apply wishes_aimed|exact HW|exact Hd|].
      eapply walk_renders; [exact Hwk| |exact D1|exact D2|exact P2].
      intros a Ha. apply Hcode. rewrite Er. apply in_or_app. left. exact Ha.
  Qed.
End Depicted.
Print Assumptions C80_depicted_partial.

(** ** Cases *)
(** A pad, a line to it, and a region, none of them turned. *)
Definition sketch : list bcall :=
  [NewCircle 2 None; AddPad 0 (At (1, 2))%Q false 0 false false 1; AddLine (1#2) (At (0, 0))%Q (Of 1);
   NewRegion (5, 5)%Q; AddSegment 3 (SgLine (7, 5))%Q; AddSegment 3 (SgLine (7, 6))%Q; AddSegment 3 (SgLine (1#3, 6))%Q; CreateRegion 3].
Definition no_info {A} (_ : A) : list str := [].
Notation PT := (with_text NumR plain_text).
Lemma sketch_legal : Forall legal sketch.
Proof. unfold sketch. repeat (apply Forall_cons; [split; [apply all_good; vm_compute; reflexivity|]; exact I|]). apply Forall_nil. Qed.
Example C80_sketch : forall fill (meets : PaintModel.region R -> PaintModel.region R -> bool) fuel,
  fills_anywhere fill -> (forall g g' p, meets g g' = false -> g p -> g' p -> False) ->
  let ws := [WPad 0 (1, 2) Dark 0 false false 1; WTrace PmLinear (1#2) (0, 0) (1, 2) None; WRegion (5, 5) [SgLine (7, 5); SgLine (7, 6); SgLine (1#3, 6); SgLine (5, 5)]]%Q in
  exists f cmds m b os, parse (dumps (build sketch)) = Ok f /\
    compile (NK := PT) false running (fun _ l => l) false (map real_node (nodes (fun _ => 5%Z) no_info no_info no_info f)) = Ok cmds /\
    vm_run (shapely (fun _ => None)) false cmds = Ok (m, Some b) /\
    depicts (filled fill fuel) (happened sketch gb_init []) ws os /\ forall p, shapely_result fill meets fuel m p <-> seen os p.
Proof.
  intros fill meets fuel Hf Hm ws. set (f := map sign_cmd (get_file (build sketch))). set (ns := map real_node (nodes (fun _ => 5%Z) no_info no_info no_info f)).
  assert (Hi : forall (id : str) (l : list str), Permutation l l) by (intros; apply Permutation_refl).
  assert (Hp : parse (dumps (build sketch)) = Ok f) by (apply dumps_read, build_fine, sketch_legal).
  assert (Ew : wishes (happened sketch gb_init []) = ws) by (vm_compute; reflexivity).
  destruct (on_file (NK := PT) (@compiler_hooks R PT false running) false ns (visitor_init (NK := PT) compiler_init)) as [v|] eqn:E.
  2: { exfalso. assert (X : match on_file (NK := PT) (@compiler_hooks R PT false running) false ns (visitor_init (NK := PT) compiler_init)
         with Ok v => True | Err _ => False end) by (vm_compute; exact I). rewrite E in X. exact X. }
  assert (HN : NoDup (c_stamps (v_ext v))).
  { assert (X : match on_file (NK := PT) (@compiler_hooks R PT false running) false ns (visitor_init (NK := PT) compiler_init)
         with Ok v => c_stamps (v_ext v) | Err _ => [] end = []) by (vm_compute; reflexivity). rewrite E in X. rewrite X. constructor. }
  assert (Ht : tells_apart (NK := PT) (executed_file false ns)).
  { split; [intros k [Hk|[]]; discriminate Hk|]. intros p q p' q' E1 E2 _.
    assert (Hu : forall p q, executed_file false ns = p ++ q -> matrix_at (NK := PT) p = matrix_at (NK := PT) []).
    { clear. intros p q Eq. apply untransformed. assert (H : Forall (fun n : node R => match n with NLM _ | NLR _ | NLS _ => False | _ => True end) (p ++ q)).
      { rewrite <- Eq. clear Eq. vm_compute. repeat constructor. }
      apply Forall_app in H. apply H. }
    rewrite (Hu p q E1), (Hu p' q' E2). reflexivity. }
  destruct (C80_depicted_partial plain_text false running (fun _ l => l) Hi fill meets fuel (fun _ => None) false false (fun _ => 5%Z) no_info no_info no_info
              sketch f v sketch_legal ltac:(vm_compute; repeat split) ltac:(vm_compute; repeat split) ltac:(vm_compute; reflexivity)) as (cmds & os & C1 & C2 & C3); try assumption.
  - rewrite Ew. repeat constructor; vm_compute; auto.
  - rewrite Ew in C2. change (compile (NK := PT) false running (fun _ l => l) false ns = Ok cmds) in C1.
    assert (Hr : exists m b, vm_run (shapely (fun _ => None)) false cmds = Ok (m, Some b)).
    { destruct (C56_runs_partial plain_text false running (fun _ l => l) Hi (fun _ => None) false false ns v) as (cmds' & ls & R1 & R2 & R3); try assumption.
      - exact (proj1 Ht).
      - split; intros n a; [|intros body]; intros Hn Ha; unfold ns in Hn; vm_compute in Hn;
          repeat (destruct Hn as [<-|Hn]; [cbn in Ha; destruct Ha as [Ha|[]]; try discriminate Ha; injection Ha as <-; eexists _, _; repeat split; discriminate|]); destruct Hn.
      - intros n n' a id body _ Hn'. unfold ns in Hn'. vm_compute in Hn'. repeat (destruct Hn' as [<-|Hn']; [intros _ Ha; cbn in Ha; destruct Ha as [Ha|[]]; discriminate Ha|]). destruct Hn'.
      - rewrite C1 in R1. injection R1 as <-. apply R3. intros id ds Hi2. split; [|reflexivity].
        assert (X : match compile (NK := PT) false running (fun _ l => l) false ns with
          | Ok c => match layers c with Some ls => forallb (fun l => match snd l with [] => false | _ => true end) ls | None => false end | Err _ => false end = true) by (vm_compute; reflexivity).
        rewrite C1, R2 in X. rewrite forallb_forall in X. specialize (X _ Hi2). cbn [snd] in X. destruct ds; discriminate. }
    destruct Hr as (m & b & Er). exists f, cmds, m, b, os. split; [exact Hp|]. split; [exact C1|]. split; [exact Er|]. split; [exact C2|]. intros p. exact (C3 m (Some b) Er p).
Qed.

(** Property theorems C56 and C64: the image of a compiled file (specification in
    [RenderSpec]). *)
From Coq Require Import Reals Lra Permutation.
From Verif Require Import Base Num NumReal Dict CoordModel CoordSpec Ast StateModel StateSpec StateProofs GeomModel CompilerModel LayerSpec LayerProofs LayerInv LayerOut LayerProps
  BoxModel ArcModel VmModel VmSpec VmProps DrawSpec DrawProofs FlashSpec PaintModel PaintSpec PaintProofs PaintProps RenderSpec RenderProofs.

(** The inside of a shape, as the shapely backend fills it. *)
Definition filled (fill : list (vec R) -> vec R -> Prop) (fuel : nat) (s : shape R) (p : vec R) : Prop :=
  exists pts, shape_points Shapely fuel s = Ok pts /\ fill pts p.

Section Compiled.
  Context (text : R -> str) (md : bool) (clock : nat -> Z) (iter : str -> list str -> list str).
  Hypothesis iter_perm : forall id l, Permutation (iter id l) l.
  Notation NT := (with_text NumR text).

  Lemma compiled_layers ips ns cmds : compile (NK := NT) md clock iter ips ns = Ok cmds ->
    exists v l, on_file (NK := NT) (@compiler_hooks R NT md clock) ips ns (visitor_init (NK := NT) compiler_init) = Ok v /\
      cmds = blocks_r l /\ layers cmds = Some (map layer_of l) /\ ordered l /\
      (forall b, In b l -> d_get (bf_id b) (c_buffers (v_ext v)) = Some b) /\ In main_id (map bf_id l).
  Proof.
    intros E. apply compile_inv in E as (v & E1 & E2 & E3). destruct (convert_blocks (NK := NT) iter iter_perm _ _ E3 E2) as (l & L1 & L2).
    exists v, l. split; [exact E1|]. split; [exact L1|exact L2].
  Qed.
  Lemma ordered_layers (l : list (buffer R)) : ordered l -> defined_before_use (map layer_of l).
  Proof.
    intros Ho pre id ds post src E Hp. apply map_eq_app in E as (l1 & r & -> & <- & Er). apply map_eq_cons in Er as (b & l2 & -> & Eb & <-).
    injection Eb as <- <-. rewrite map_map. cbn [layer_of fst]. exact (Ho l1 b l2 src eq_refl Hp).
  Qed.
  Lemma layer_ids (l : list (buffer R)) : map fst (map layer_of l) = map bf_id l.
  Proof. rewrite map_map. reflexivity. Qed.
  Lemma ran_once be fl l m b : vm_run (NK := NumR) be fl (blocks_r l) = Ok (m, b) -> NoDup (map bf_id l).
  Proof.
    intros E. destruct (C23_layers_partial _ _ _ _ _ E) as (_ & _ & _ & Hd & _). unfold blocks_r in Hd. rewrite blocks_started in Hd. exact Hd.
  Qed.

  (** C56, shapely.  If the program of a file runs, there is one image of its layers, made by
      light and dark rules, and the result is the image of the main layer. *)
  Theorem C56_shapely :
    forall fill (meets : region R -> region R -> bool) fuel paints fl ips ns cmds m b,
      fills_anywhere fill -> (forall g h p, meets g h = false -> g p -> h p -> False) ->
      compile (NK := NT) md clock iter ips ns = Ok cmds -> vm_run (shapely paints) fl cmds = Ok (m, b) ->
      exists ls, layers cmds = Some ls /\ (exists shows, layered (filled fill fuel) ls shows) /\
        forall shows, layered (filled fill fuel) ls shows -> forall p, shapely_result fill meets fuel m p <-> shows main_id p.
  Proof.
    intros fill meets fuel paints fl ips ns cmds m b Hf Hm E Er. destruct (compiled_layers ips ns cmds E) as (v & l & _ & -> & L2 & L3 & L4 & L5).
    pose proof (ran_once _ _ _ _ _ Er) as Hd. exists (map layer_of l). split; [exact L2|]. split.
    - eexists. apply layers_shown; [apply ordered_layers; exact L3|]. unfold defined_once. rewrite layer_ids. exact Hd.
    - intros shows Hs. exact (layers_painted paints fl fill meets fuel l m b shows Hf Hm L3 Hd Er Hs).
  Qed.
  (** The same for the pixels of the pillow backend. *)
  Theorem C56_pillow :
    forall fill dpmm fuel paints fl ips ns cmds m b,
      compile (NK := NT) md clock iter ips ns = Ok cmds -> vm_run (pillow paints) fl cmds = Ok (m, Some b) ->
      exists ls, layers cmds = Some ls /\
        let covers := pixel_covers (size_of dpmm m) (filled_by fill dpmm fuel m) (corner_of dpmm m) in
        let right shows := forall id ds, In (id, ds) ls -> painted m id -> forall xy, shows id xy <-> dark (covers shows id) ds xy in
        (exists shows, right shows) /\
        fst (pillow_result fill dpmm fuel m) = layer_size dpmm b /\
        forall shows, right shows -> forall x y,
          snd (pillow_result fill dpmm fuel m) (x, y) = true <-> shows main_id (x, snd (layer_size dpmm b) - 1 - y)%Z.
  Proof.
    intros fill dpmm fuel paints fl ips ns cmds m b E Er. destruct (compiled_layers ips ns cmds E) as (v & l & _ & -> & L2 & L3 & L4 & L5).
    pose proof (ran_once _ _ _ _ _ Er) as Hd. exists (map layer_of l). split; [exact L2|]. cbv zeta.
    pose proof (C61_pillow R NumR fill dpmm fuel paints fl (blocks_r l) m (Some b) (ordered_pastes l L3) Er) as H. cbv zeta in H.
    destruct (pillow_result fill dpmm fuel m) as [size pixel]. cbn [fst snd]. destruct H as [(shows & H1) [-> H2]].
    assert (Hgiven : forall id ds, In (id, ds) (map layer_of l) -> given [] id (blocks_r l) = ds).
    { intros id ds Hi. apply in_map_iff in Hi as (x & Ex & Hx). injection Ex as <- <-. exact (given_layer l x Hd Hx). }
    split; [|split; [reflexivity|]].
    - exists shows. intros id ds Hi Hp xy. rewrite (H1 id Hp), (Hgiven id ds Hi). reflexivity.
    - intros sh Hs x y. apply H2. intros id Hp xy.
      assert (Hin : In id (map bf_id l)).
      { rewrite <- (blocks_started (NK := NumR)). destruct (C23_layers_partial _ _ _ _ _ Er) as (_ & _ & _ & _ & _ & _ & _ & Hl & _). apply Hl.
        destruct Hp as (b0 & o & cs & ->). discriminate. }
      apply in_map_iff in Hin as (x0 & <- & Hx). assert (Hi : In (bf_id x0, bf_cmds x0) (map layer_of l)) by (apply in_map_iff; exists x0; auto).
      rewrite (Hgiven _ _ Hi). apply Hs; assumption.
  Qed.

  (** Partial: programs whose layers are all drawn on run (missing: programs with an empty
      layer do not, see below).  The codes of a file are D-codes used either by AD or by AB,
      and temporary names are distinct. *)
  Theorem C56_runs_partial :
    forall paints fl ips ns v,
      (forall k, ~ In "%"%char (text k)) -> codes_valid ns -> codes_disjoint ns ->
      on_file (NK := NT) (@compiler_hooks R NT md clock) ips ns (visitor_init (NK := NT) compiler_init) = Ok v -> NoDup (c_stamps (v_ext v)) ->
      exists cmds ls, compile (NK := NT) md clock iter ips ns = Ok cmds /\ layers cmds = Some ls /\
        ((forall id ds, In (id, ds) ls -> ds <> [] /\ forall s, In (DShape s) ds -> paints s = None) ->
           (exists m b, vm_run (shapely paints) fl cmds = Ok (m, Some b)) /\
           ((forall id ds s, In (id, ds) ls -> In (DShape s) ds -> area (shape_box s)) -> exists m b, vm_run (pillow paints) fl cmds = Ok (m, Some b))).
  Proof.
    intros paints fl ips ns v Ht Hv Hdj E HN. destruct (file_program (NK := NT) md clock iter iter_perm ips ns v Ht Hv Hdj E HN) as (cmds & ls & P1 & P2 & _ & P4 & _).
    exists cmds, ls. split; [exact P1|]. split; [exact P2|]. destruct (compiled_layers ips ns cmds P1) as (v' & l & _ & -> & L2 & L3 & L4 & L5).
    rewrite P2 in L2. injection L2 as ->. unfold defined_once in P4. rewrite layer_ids in P4. intros Hb.
    assert (Hb' : forall b, In b l -> bf_cmds b <> [] /\ forall s, In (DShape s) (bf_cmds b) -> paints s = None).
    { intros b Hi. apply (Hb (bf_id b)). apply in_map_iff. exists b. auto. }
    split; [exact (layers_run paints fl l L3 P4 L5 Hb')|]. intros Ha.
    destruct (C23_pillow_accepts paints fl (blocks_r l)) as (m & b & Er & _); [| |eauto].
    - apply ordered_proper; auto. intros x Hx. destruct (Hb' x Hx) as [A B]. split; [exact A|]. intros s Hs. split; [apply B; exact Hs|].
      apply (Ha (bf_id x) (bf_cmds x)); [apply in_map_iff; exists x; auto|exact Hs].
    - eexists. split; [apply blocks_closed|]. apply -> in_rev. exact L5.
  Qed.

  (** C64.  For files without blocks (AB, SR), the result is the picture of the executed commands:
      strokes of the selected apertures, regions, and flashes of the selected apertures'
      figures, transformed as set, in the order of the commands, dark or clear as set.
      Partial: codes are D-codes and not defined twice, the transformations used have
      different names.  Missing: redefinitions after a flash, see [C64_redefined_partial] in [RedefProps]; for block apertures and
      step and repeat see [C64_blocks_partial] in [BlockProps]. *)
  Definition C64_statement (ok : bool -> list (node R) -> Prop) : Prop :=
    forall fill (meets : region R -> region R -> bool) fuel paints fl ips ns v,
      fills_anywhere fill -> (forall g h p, meets g h = false -> g p -> h p -> False) -> ok ips ns ->
      on_file (NK := NT) (@compiler_hooks R NT md clock) ips ns (visitor_init (NK := NT) compiler_init) = Ok v -> NoDup (c_stamps (v_ext v)) ->
      exists cmds os, compile (NK := NT) md clock iter ips ns = Ok cmds /\
        picture (filled fill fuel) text md clock (executed_file ips ns) os /\
        forall m b, vm_run (shapely paints) fl cmds = Ok (m, b) -> forall p, shapely_result fill meets fuel m p <-> seen os p.
  Theorem C64_picture_partial :
    C64_statement (fun ips ns => Forall is_leaf ns /\ (forall a, In (NAD a) ns -> exists n, dcode (ad_id a) n) /\
      NoDup (ad_codes (executed_file ips ns)) /\ tells_apart (NK := NT) (executed_file ips ns)).
  Proof.
    intros fill meets fuel paints fl ips ns v Hf Hm (Hl & Hc & Hd & Ht) E HN.
    assert (Hsub : forall n m, In n ns -> In m (subnodes n) -> m = n).
    { intros n m Hn Hi. rewrite Forall_forall in Hl. specialize (Hl n Hn). destruct n; try contradiction; destruct Hi as [<-|[]]; reflexivity. }
    assert (Hnab : forall id body, ~ In (NAB id body) ns) by (intros id body Hi; rewrite Forall_forall in Hl; exact (Hl _ Hi)).
    destruct (file_program (NK := NT) md clock iter iter_perm ips ns v) as (cmds & ls & P1 & P2 & P3 & P4 & _); try assumption.
    - exact (proj1 Ht).
    - split.
      + intros n a Hn Hi. apply Hc. rewrite (Hsub n _ Hn Hi). exact Hn.
      + intros n id body Hn Hi. exfalso. apply (Hnab id body). rewrite (Hsub n _ Hn Hi). exact Hn.
    - intros n n' a id body Hn Hn' Hi Hi' _. apply (Hnab id body). rewrite (Hsub n' _ Hn' Hi'). exact Hn'.
    - destruct (compiled_layers ips ns cmds P1) as (v' & l & E' & -> & L2 & L3 & L4 & L5). rewrite E in E'. injection E' as <-.
      rewrite P2 in L2. injection L2 as ->. pose proof (layers_shown (filled fill fuel) _ P3 P4) as Hs.
      set (shows := fold_left _ _ _) in Hs. unfold defined_once in P4. rewrite layer_ids in P4.
      destruct (flat_main (NK := NT) md clock ips ns v Hl) as (mb & G1 & HR); [|exact E|].
      { intros a Ha Em. destruct (Hc a Ha) as (n & ds & Hn & _). rewrite Em in Hn. discriminate Hn. }
      assert (Hmb : In mb l).
      { apply in_map_iff in L5 as (x & Ex & Hx). pose proof (L4 x Hx) as G. rewrite Ex, G1 in G. injection G as <-. exact Hx. }
      assert (Hsh : forall b, In b l -> forall p, shows (bf_id b) p <-> dark (plane_covers (filled fill fuel) (fun _ => MkVec 0%R 0%R) shows (bf_id b)) (bf_cmds b) p).
      { intros b Hb. apply Hs. apply in_map_iff. exists b. auto. }
      destruct (run_picture (filled fill fuel) text md clock shows _ _ HR) as (os & O1 & O2).
      { intros pre x y post a Ew Ha c neg me Hin. apply in_split in Hmb as Hsp. destruct Hsp as (l1 & l2 & El).
        pose proof (L3 l1 mb l2 _ El (ex_intro _ _ (conj Hin eq_refl))) as Hi. cbn [pa_src] in Hi. apply in_map_iff in Hi as (b1 & E1 & H1).
        assert (Hb1 : In b1 l) by (rewrite El; apply in_or_app; left; exact H1).
        destruct (flash_figure (filled fill fuel) text md clock shows ips ns v l Hl Hc Hd Ht E HN L3 L4 Hsh pre (ND03 x y :: post) a b1 Ew Ha Hb1 E1) as (fs & F1 & F2).
        exists fs. rewrite <- E1. auto. }
      exists (blocks_r l), os. split; [exact P1|]. split; [exact O1|]. intros m b Er p.
      rewrite (layers_painted paints fl fill meets fuel l m b shows Hf Hm L3 P4 Er Hs p).
      assert (Eid : bf_id mb = main_id).
      { apply in_map_iff in L5 as (x & Ex & Hx). pose proof (L4 x Hx) as G. rewrite Ex, G1 in G. injection G as <-. exact Ex. }
      rewrite <- Eid, (Hsh mb Hmb). symmetry. apply seen_dark. exact O2.
  Qed.
End Compiled.

(** *** Cases *)
(** A disc of diameter 2 with a disc of diameter 1 taken away. *)
Definition ring : list (node R) :=
  [NAD (MkAD (lit "D10") (TCircle 2%R None)); NAD (MkAD (lit "D11") (TCircle 1%R None));
   NDnn (lit "D10"); ND03 None None; NLP Clear; NDnn (lit "D11"); ND03 None None].
Definition plain_text : R -> str := fun _ => lit "n".
Lemma untransformed text (pre : list (node R)) :
  Forall (fun n => match n with NLM _ | NLR _ | NLS _ => False | _ => True end) pre -> matrix_at (NK := with_text NumR text) pre = matrix_at (NK := with_text NumR text) [].
Proof.
  intros H. unfold matrix_at.
  assert (E : forall A (f : node R -> option A) d, (forall n, (match n with NLM _ | NLR _ | NLS _ => False | _ => True end) -> f n = None) -> last_set f d pre = d).
  { intros A f d Hf. revert d. induction H as [|n pre Hn _ IH]; intros d; [reflexivity|]. unfold last_set in *. cbn [fold_left]. rewrite (Hf n Hn). apply IH. }
  rewrite !E; [reflexivity| | |]; intros n; destruct n; try reflexivity; intros [].
Qed.
Example C64_case : forall fill (meets : region R -> region R -> bool) fuel, fills_anywhere fill -> (forall g h p, meets g h = false -> g p -> h p -> False) ->
  exists cmds m b os,
    compile (NK := with_text NumR plain_text) false running (fun _ l => l) false ring = Ok cmds /\ vm_run (shapely (fun _ => None)) false cmds = Ok (m, Some b) /\
    picture (filled fill fuel) plain_text false running ring os /\
    forall p, shapely_result fill meets fuel m p <-> seen os p.
Proof.
  intros fill meets fuel Hf Hm.
  assert (Hi : forall (id : str) (l : list str), Permutation l l) by (intros; apply Permutation_refl).
  destruct (on_file (NK := with_text NumR plain_text) (@compiler_hooks R (with_text NumR plain_text) false running) false ring (visitor_init (NK := with_text NumR plain_text) compiler_init)) as [v|] eqn:E.
  2: { exfalso. assert (X : match on_file (NK := with_text NumR plain_text) (@compiler_hooks R (with_text NumR plain_text) false running) false ring (visitor_init (NK := with_text NumR plain_text) compiler_init)
         with Ok v => True | Err _ => False end) by (vm_compute; exact I). rewrite E in X. exact X. }
  assert (HN : NoDup (c_stamps (v_ext v))).
  { assert (X : match on_file (NK := with_text NumR plain_text) (@compiler_hooks R (with_text NumR plain_text) false running) false ring (visitor_init (NK := with_text NumR plain_text) compiler_init)
         with Ok v => c_stamps (v_ext v) | Err _ => [] end = []) by (vm_compute; reflexivity). rewrite E in X. rewrite X. constructor. }
  destruct (C64_picture_partial plain_text false running (fun _ l => l) Hi fill meets fuel (fun _ => None) false false ring v Hf Hm) as (cmds & os & C1 & C2 & C3); [|exact E|exact HN|].
  - repeat split.
    + repeat constructor.
    + intros a Ha. cbn [ring In] in Ha.
      repeat (destruct Ha as [Ha|Ha]; [try discriminate Ha; injection Ha as <-; eexists _, _; repeat split; discriminate|]). destruct Ha.
    + vm_compute. repeat constructor; cbn; intuition discriminate.
    + intros k Hk. destruct Hk as [Hk|[]]. discriminate Hk.
    + intros p q p' q' E1 E2 _.
      assert (Hu : forall p q, executed_file false ring = p ++ q -> matrix_at (NK := with_text NumR plain_text) p = matrix_at (NK := with_text NumR plain_text) []).
      { clear. intros p q Eq. apply untransformed. assert (H : Forall (fun n : node R => match n with NLM _ | NLR _ | NLS _ => False | _ => True end) (p ++ q)).
        { rewrite <- Eq. cbn. repeat constructor. }
        apply Forall_app in H. apply H. }
      rewrite (Hu p q E1), (Hu p' q' E2). reflexivity.
  - assert (Hr : exists m b, vm_run (shapely (fun _ => None)) false cmds = Ok (m, Some b)).
    { destruct (C56_runs_partial plain_text false running (fun _ l => l) Hi (fun _ => None) false false ring v) as (cmds' & ls & R1 & R2 & R3); try assumption.
      - intros k [Hk|[]]. discriminate Hk.
      - split; intros n a; [|intros body]; cbn [ring In]; intros Hn Ha;
          repeat (destruct Hn as [<-|Hn]; [cbn in Ha; destruct Ha as [Ha|[]]; try discriminate Ha; injection Ha as <-; eexists _, _; repeat split; discriminate|]); destruct Hn.
      - intros n n' a id body _ Hn'. cbn [ring In] in Hn'. repeat (destruct Hn' as [<-|Hn']; [intros _ Ha; cbn in Ha; destruct Ha as [Ha|[]]; discriminate Ha|]). destruct Hn'.
      - rewrite C1 in R1. injection R1 as <-. apply R3. intros id ds Hi2. split; [|reflexivity].
        assert (X : match compile (NK := with_text NumR plain_text) false running (fun _ l => l) false ring with
          | Ok c => match layers c with Some ls => forallb (fun l => match snd l with [] => false | _ => true end) ls | None => false end | Err _ => false end = true) by (vm_compute; reflexivity).
        rewrite C1, R2 in X. rewrite forallb_forall in X. specialize (X _ Hi2). cbn [snd] in X. destruct ds; discriminate. }
    destruct Hr as (m & b & Er). exists cmds, m, b, os. split; [exact C1|]. split; [exact Er|]. split; [exact C2|]. intros p. exact (C3 m (Some b) Er p).
Qed.

Local Existing Instance NumQ.
(** A file without drawings compiles, but its program does not run. *)
Theorem C56_blank_refuted :
  exists ns cmds, compile false running (fun _ l => l) false ns = Ok cmds /\ layers cmds = Some [(main_id, [])] /\
    forall fl : bool, let e := if fl then VEmptyLayer main_id else VAssertion in
      vm_run (shapely (K := Q) (fun _ => None)) fl cmds = Err e /\ vm_run (pillow (K := Q) (fun _ => None)) fl cmds = Err e.
Proof. exists [NM02]. eexists. split; [vm_compute; reflexivity|]. split; [vm_compute; reflexivity|]. intros []; split; vm_compute; reflexivity. Qed.
(** Neither does that of a file flashing an aperture without shapes (a macro made of a
    comment), although other things are drawn. *)
Theorem C56_empty_aperture_refuted :
  exists ns cmds ls, compile false running (fun _ l => l) false ns = Ok cmds /\ layers cmds = Some ls /\
    (exists ds, In (main_id, ds) ls /\ length ds = 2%nat) /\
    forall fl, exists e, vm_run (shapely (K := Q) (fun _ => None)) fl cmds = Err e.
Proof.
  exists [NAM (lit "M") []; NAD (MkAD (lit "D10") (TMacro (lit "M") None)); NAD (MkAD (lit "D11") (TCircle 1%Q None));
          NDnn (lit "D11"); ND03 None None; NDnn (lit "D10"); ND03 None None]. do 2 eexists. split; [vm_compute; reflexivity|].
  split; [vm_compute; reflexivity|]. split; [eexists; split; [vm_compute; right; right; left; reflexivity|reflexivity]|]. intros []; eexists; vm_compute; reflexivity.
Qed.
Print Assumptions C56_shapely. Print Assumptions C56_pillow. Print Assumptions C56_runs_partial.
Print Assumptions C64_picture_partial. Print Assumptions C56_blank_refuted. Print Assumptions C56_empty_aperture_refuted.

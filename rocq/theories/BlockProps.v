(** Property theorem C64 with blocks (specification in [BlockSpec]). *)
From Coq Require Import Reals Lra Permutation.
From Verif Require Import Base Num NumReal Dict CoordModel CoordSpec Ast StateModel StateSpec StateProofs GeomModel CompilerModel LayerSpec LayerProofs LayerInv LayerOut LayerProps
  BoxModel ArcModel VmModel VmSpec VmProps DrawSpec DrawProofs FlashSpec FlashProofs PaintModel PaintSpec PaintProofs PaintProps PlaceSpec PlaceProofs RenderSpec RenderProofs RenderProps
  BlockSpec BlockProofs.

Section Compiled.
  Context (text : R -> str) (md : bool) (clock : nat -> Z) (iter : str -> list str -> list str).
  Hypothesis iter_perm : forall id l, Permutation (iter id l) l.
  Notation NT := (with_text NumR text).

  (** Layers show the pictures of their drawings. *)
  Lemma srep_shown inside shows ADs bs (l : list (buffer R)) : ordered l -> (forall b, In b l -> d_get (bf_id b) bs = Some b) ->
    (forall b, In b l -> forall p, shows (bf_id b) p <-> dark (plane_covers inside (fun _ => MkVec 0%R 0%R) shows (bf_id b)) (bf_cmds b) p) ->
    forall p d, srep (NK := NT) ADs bs d p -> (forall src, pastes [d] src -> In src (map bf_id l)) ->
      stands inside shows d (pic_object inside p).
  Proof.
    intros L3 L4 Hsh. induction p as [s|neg c g IH] using pic_ind'; intros d Hd Hsrc; inversion Hd as [s0|q b g0 Hn Hb Hg]; subst; cbn [pic_object].
    - split; [reflexivity|]. intros id p. reflexivity.
    - apply paste_stands. intros p.
      assert (Hin : In (pa_src q) (map bf_id l)) by (apply Hsrc; exists q; split; [left; reflexivity|reflexivity]).
      apply in_map_iff in Hin as (b1 & E1 & H1). pose proof (L4 b1 H1) as G. rewrite E1, Hb in G. injection G as <-.
      rewrite <- E1, (Hsh b H1). symmetry. apply seen_dark.
      assert (Hps : forall src, pastes (bf_cmds b) src -> In src (map bf_id l)).
      { intros src Hs. apply in_split in H1 as (l1 & l2 & ->). rewrite map_app. apply in_or_app. left. exact (L3 l1 b l2 src eq_refl Hs). }
      clear - IH Hg Hps. induction Hg as [|d p ds ps Hd _ IHg]; cbn [map]; [constructor|]. inversion IH; subst. constructor.
      + apply H1; [exact Hd|]. intros src (q & [Hq|[]] & Eq). apply Hps. exists q. split; [left; exact Hq|exact Eq].
      + apply IHg; [assumption|]. intros src (q & Hq & Eq). apply Hps. exists q. split; [right; exact Hq|exact Eq].
  Qed.

  (** Files whose blocks are told apart. *)
  Definition block_file (ips : bool) (ns : list (node R)) : Prop :=
    codes_valid ns /\ codes_disjoint ns /\
      (forall n, In n ns -> is_leaf n \/ snd (executed n) = false) /\
      NoDup (ad_codes (executed_file ips ns)) /\ NoDup (ab_codes (executed_file ips ns)) /\
      tells_apart (NK := NT) (executed_file ips ns).
  (** The pictures of a file and the drawings of its main layer. *)
  Lemma file_drawings ips ns v : block_file ips ns ->
    on_file (NK := NT) (@compiler_hooks R NT md clock) ips ns (visitor_init (NK := NT) compiler_init) = Ok v -> NoDup (c_stamps (v_ext v)) ->
    exists Ms ADs ps mb, file_pics (NK := NT) wide md clock ips ns ps /\ d_get main_id (c_buffers (v_ext v)) = Some mb /\
      Forall2 (srep (NK := NT) ADs (c_buffers (v_ext v))) (bf_cmds mb) ps /\
      FlashProofs.N (NK := NT) Ms ADs (c_buffers (v_ext v)) (c_stamps (v_ext v)) (ad_codes (executed_file ips ns)).
  Proof.
    intros (Hv & Hdj & Hw & Hd & Hdb & Ht) E HN.
    set (w := executed_file ips ns) in *.
    set (Ms := fun m => exists p q, w = p ++ q /\ matrix_at (NK := NT) p = m).
    set (ADs := fun id => exists n a, In n ns /\ In (NAD a) (subnodes n) /\ ad_id a = id).
    set (ABs := fun id => exists n body, In n ns /\ In (NAB id body) (subnodes n)).
    assert (Ms_inj : forall m m', Ms m -> Ms m' -> mtag (NK := NT) m = mtag (NK := NT) m' -> m = m').
    { intros m m' (p & q & E1 & <-) (p' & q' & E2 & <-). exact (proj2 Ht p q p' q' E1 E2). }
    assert (AD_code : forall id, ADs id -> exists n, dcode id n).
    { intros id (n & a & Hn & Ha & <-). exact (proj1 Hv n a Hn Ha). }
    assert (AB_code : forall id, ABs id -> exists n, dcode id n).
    { intros id (n & body & Hn & Hb). exact (proj2 Hv n id body Hn Hb). }
    assert (AD_AB : forall id, ADs id -> ABs id -> False).
    { intros id (n & a & Hn & Ha & <-) (n' & body & Hn' & Hb). exact (Hdj n n' a (ad_id a) body Hn Hn' Ha Hb eq_refl). }
    destruct (file_drawn (K := R) (NK := NT) md clock Ms (proj1 Ht) Ms_inj ADs ABs AD_code AB_code AD_AB
      (translate_draw : forall a b d, @shift_draw R NT (@mtranslate R NT a b) d = @move R NT (MkVec a b) d) copies_loop wide
      (fun e a th X => thick_wide e a th (thick_text text e a th X)) ips ns v) as (ps & mb & F1 & G1 & F3 & F4); auto.
    - intros n Hn m Hm0. destruct m; auto. exists n, body. auto.
    - split; [|split; [exact Hd|]].
      + intros a Ha. destruct (executed_file_sub ips ns (NAD a) Logic.I Ha) as (n & Hn & Hi). exists n, a. auto.
      + intros p q Eq. exists p, q. auto.
    - exists Ms, ADs, ps, mb. auto.
  Qed.
  (** The pictures of a file, for any inside of shapes; pastes are at most two levels deep. *)
  Lemma file_shown ips ns v : block_file ips ns ->
    on_file (NK := NT) (@compiler_hooks R NT md clock) ips ns (visitor_init (NK := NT) compiler_init) = Ok v -> NoDup (c_stamps (v_ext v)) ->
    exists ps mb, file_pics (NK := NT) wide md clock ips ns ps /\ d_get main_id (c_buffers (v_ext v)) = Some mb /\
      (forall inside shows (l : list (buffer R)), ordered l -> (forall b, In b l -> d_get (bf_id b) (c_buffers (v_ext v)) = Some b) ->
        In main_id (map bf_id l) -> layered inside (map layer_of l) shows ->
        forall p, shows main_id p <-> seen (map (pic_object inside) ps) p) /\
      exists flashed part : str -> Prop, (forall src, pastes (bf_cmds mb) src -> flashed src) /\
        (forall k b src, flashed k -> d_get k (c_buffers (v_ext v)) = Some b -> pastes (bf_cmds b) src -> part src) /\
        (forall k b src, part k -> d_get k (c_buffers (v_ext v)) = Some b -> ~ pastes (bf_cmds b) src).
  Proof.
    intros HB E HN. destruct (file_drawings ips ns v HB E HN) as (Ms & ADs & ps & mb & F1 & G1 & F3 & F4).
    exists ps, mb. split; [exact F1|]. split; [exact G1|]. split.
    - intros inside shows l L3 L4 L5 Hs p.
      assert (Hmb : In mb l /\ bf_id mb = main_id).
      { apply in_map_iff in L5 as (x & Ex & Hx). pose proof (L4 x Hx) as G. rewrite Ex, G1 in G. injection G as <-. auto. }
      destruct Hmb as [Hmb Eid].
      assert (Hsh : forall b, In b l -> forall p, shows (bf_id b) p <-> dark (plane_covers inside (fun _ => MkVec 0%R 0%R) shows (bf_id b)) (bf_cmds b) p).
      { intros b Hb. apply Hs. apply in_map_iff. exists b. auto. }
      rewrite <- Eid, (Hsh mb Hmb). symmetry. apply seen_dark.
      assert (Hps : forall src, pastes (bf_cmds mb) src -> In src (map bf_id l)).
      { intros src Hp. apply in_split in Hmb as (l1 & l2 & ->). rewrite map_app. apply in_or_app. left. exact (L3 l1 mb l2 src eq_refl Hp). }
      clear - F3 Hps L3 L4 Hsh. induction F3 as [|d p ds ps Hd _ IH]; cbn [map]; [constructor|]. constructor.
      + eapply srep_shown; [exact L3|exact L4|exact Hsh|exact Hd|]. intros src (q & [Hq|[]] & Eq). apply Hps. exists q. split; [left; exact Hq|exact Eq].
      + apply IH. intros src (q & Hq & Eq). apply Hps. exists q. split; [right; exact Hq|exact Eq].
    - exists (nb (NK := NT) ADs), (tnb (NK := NT)). split; [intros src Hs; exact (srep_pastes (NK := NT) ADs _ _ _ src F3 Hs)|]. split.
      + intros k b src Hk Hb Hs. exact (proj1 (N_pastes _ _ _ _ _ F4 k b src Hk Hb Hs)).
      + intros k b src Hk Hb. exact (N_leaf _ _ _ _ _ F4 k b src Hk Hb).
  Qed.

  (** C64 with blocks.  The result is the picture of the executed commands, where an AB block
      adds nothing by itself, a flash of its code adds its pictures, transformed as set and
      moved to the current point, and an SR block adds copies of its pictures.
      Partial: codes are D-codes used either by AD or by AB and not defined twice, no M00 or
      M02 inside of blocks, the transformations used have different names.  Missing:
      redefinitions; for programs stopped inside of blocks see C64_stopped_partial. *)
  Definition C64_blocks_statement (ok : bool -> list (node R) -> Prop) : Prop :=
    forall fill (meets : region R -> region R -> bool) fuel paints fl ips ns v,
      fills_anywhere fill -> (forall g h p, meets g h = false -> g p -> h p -> False) -> ok ips ns ->
      on_file (NK := NT) (@compiler_hooks R NT md clock) ips ns (visitor_init (NK := NT) compiler_init) = Ok v -> NoDup (c_stamps (v_ext v)) ->
      exists cmds ps, compile (NK := NT) md clock iter ips ns = Ok cmds /\ file_pics (NK := NT) wide md clock ips ns ps /\
        forall m b, vm_run (shapely paints) fl cmds = Ok (m, b) -> forall p,
          shapely_result fill meets fuel m p <-> seen (map (pic_object (filled fill fuel)) ps) p.
  Theorem C64_blocks_partial : C64_blocks_statement block_file.
  Proof.
    intros fill meets fuel paints fl ips ns v Hf Hm Hb E HN. destruct (file_shown ips ns v Hb E HN) as (ps & mb & F1 & G1 & F3 & _).
    destruct Hb as (Hv & Hdj & _ & _ & _ & Ht).
    destruct (file_program (NK := NT) md clock iter iter_perm ips ns v (proj1 Ht) Hv Hdj E HN) as (cmds & ls & P1 & P2 & P3 & P4 & _).
    destruct (compiled_layers text md clock iter iter_perm ips ns cmds P1) as (v' & l & E' & -> & L2 & L3 & L4 & L5). rewrite E in E'. injection E' as <-.
    rewrite P2 in L2. injection L2 as ->. pose proof (layers_shown (filled fill fuel) _ P3 P4) as Hs.
    set (shows := fold_left _ _ _) in Hs. unfold defined_once in P4. rewrite layer_ids in P4.
    exists (blocks_r l), ps. split; [exact P1|]. split; [exact F1|]. intros m b Er p.
    rewrite (layers_painted paints fl fill meets fuel l m b shows Hf Hm L3 P4 Er Hs p). exact (F3 _ shows l L3 L4 L5 Hs p).
  Qed.
End Compiled.

(** *** Case *)
(** A block aperture with a disc and a smaller clear disc, put down at two places. *)
Definition stamped_rings : list (node R) :=
  [NAD (MkAD (lit "D10") (TCircle 2%R None)); NAD (MkAD (lit "D11") (TCircle 1%R None));
   NAB (lit "D20") [NDnn (lit "D10"); ND03 None None; NLP Clear; NDnn (lit "D11"); ND03 None None; NLP Dark];
   NSR 1%Z (MkSR (Some (lit "2")) (Some (lit "1")) (Some (lit "5")) (Some (lit "0"))) [NDnn (lit "D20"); ND03 None None]].

Lemma rings_file : block_file plain_text false stamped_rings.
Proof.
  assert (Hn : forall n m, In n stamped_rings -> In m (subnodes n) ->
    match m with NAD a => In (ad_id a) [lit "D10"; lit "D11"] | NAB id _ => id = lit "D20" | _ => True end).
  { intros n m Hn Hm0. cbn [stamped_rings In] in Hn.
    repeat (destruct Hn as [<-|Hn]; [cbn in Hm0; repeat (destruct Hm0 as [<-|Hm0]; [cbn; tauto|]); destruct Hm0|]). destruct Hn. }
  assert (Hv : codes_valid stamped_rings).
  { split.
    - intros n a H1 H2. destruct (Hn n _ H1 H2) as [<-|[<-|[]]]; eexists _; eexists _; repeat split; discriminate.
    - intros n id body H1 H2. pose proof (Hn n _ H1 H2) as ->. eexists _; eexists _; repeat split; discriminate. }
  assert (Hdj : codes_disjoint stamped_rings).
  { intros n n' a id body H1 H2 H3 H4 Eq. pose proof (Hn n _ H1 H3) as A. pose proof (Hn n' _ H2 H4) as B. cbn beta iota in A, B. rewrite Eq, B in A.
    destruct A as [A|[A|[]]]; discriminate A. }
  split; [exact Hv|]. split; [exact Hdj|]. split; [|split; [|split]].
  - intros n Hin. cbn [stamped_rings In] in Hin. repeat (destruct Hin as [<-|Hin]; [first [left; exact Logic.I|right; reflexivity]|]). destruct Hin.
  - vm_compute. repeat constructor; cbn; intuition discriminate.
  - vm_compute. repeat constructor; cbn; intuition discriminate.
  - split; [intros k Hk; destruct Hk as [Hk|[]]; discriminate Hk|].
    intros p q p' q' E1 E2 _.
    assert (Hu : forall p q, executed_file false stamped_rings = p ++ q -> matrix_at (NK := with_text NumR plain_text) p = matrix_at (NK := with_text NumR plain_text) []).
    { clear. intros p q Eq. apply untransformed. assert (H : Forall (fun n : node R => match n with NLM _ | NLR _ | NLS _ => False | _ => True end) (p ++ q)).
      { rewrite <- Eq. cbn. repeat constructor. }
      apply Forall_app in H. apply H. }
    rewrite (Hu p q E1), (Hu p' q' E2). reflexivity.
Qed.

Example C64_blocks_case : forall fill (meets : region R -> region R -> bool) fuel, fills_anywhere fill -> (forall g h p, meets g h = false -> g p -> h p -> False) ->
  exists cmds m b ps,
    compile (NK := with_text NumR plain_text) false running (fun _ l => l) false stamped_rings = Ok cmds /\ vm_run (shapely (fun _ => None)) false cmds = Ok (m, Some b) /\
    file_pics (NK := with_text NumR plain_text) wide false running false stamped_rings ps /\ length ps = 4%nat /\
    forall p, shapely_result fill meets fuel m p <-> seen (map (pic_object (filled fill fuel)) ps) p.
Proof.
  intros fill meets fuel Hf Hm.
  assert (Hi : forall (id : str) (l : list str), Permutation l l) by (intros; apply Permutation_refl).
  destruct (on_file (NK := with_text NumR plain_text) (@compiler_hooks R (with_text NumR plain_text) false running) false stamped_rings (visitor_init (NK := with_text NumR plain_text) compiler_init)) as [v|] eqn:E.
  2: { exfalso. assert (X : match on_file (NK := with_text NumR plain_text) (@compiler_hooks R (with_text NumR plain_text) false running) false stamped_rings (visitor_init (NK := with_text NumR plain_text) compiler_init)
         with Ok v => True | Err _ => False end) by (vm_compute; exact Logic.I). rewrite E in X. exact X. }
  assert (HN : NoDup (c_stamps (v_ext v))).
  { assert (X : match on_file (NK := with_text NumR plain_text) (@compiler_hooks R (with_text NumR plain_text) false running) false stamped_rings (visitor_init (NK := with_text NumR plain_text) compiler_init)
         with Ok v => length (c_stamps (v_ext v)) | Err _ => 0%nat end = 1%nat) by (vm_compute; reflexivity). rewrite E in X.
    destruct (c_stamps (v_ext v)) as [|a [|]]; try discriminate X. constructor; [intros []|constructor]. }
  destruct (C64_blocks_partial plain_text false running (fun _ l => l) Hi fill meets fuel (fun _ => None) false false stamped_rings v Hf Hm) as (cmds & ps & C1 & C2 & C3); [exact rings_file|exact E|exact HN|].
  pose proof rings_file as (Hv & Hdj & _).
  assert (Hr : exists m b, vm_run (shapely (fun _ => None)) false cmds = Ok (m, Some b)).
  { destruct (C56_runs_partial plain_text false running (fun _ l => l) Hi (fun _ => None) false false stamped_rings v) as (cmds' & ls & R1 & R2 & R3); try assumption.
    - intros k [Hk|[]]. discriminate Hk.
    - rewrite C1 in R1. injection R1 as <-. apply R3. intros id ds Hi2. split; [|reflexivity].
      assert (X : match compile (NK := with_text NumR plain_text) false running (fun _ l => l) false stamped_rings with
        | Ok c => match layers c with Some ls => forallb (fun l => match snd l with [] => false | _ => true end) ls | None => false end | Err _ => false end = true) by (vm_compute; reflexivity).
      rewrite C1, R2 in X. rewrite forallb_forall in X. specialize (X _ Hi2). cbn [snd] in X. destruct ds; discriminate. }
  destruct Hr as (m & b & Er). exists cmds, m, b, ps. split; [exact C1|]. split; [exact Er|]. split; [exact C2|]. split; [|intros p; exact (C3 m (Some b) Er p)].
  clear - C2. destruct C2 as (B & H). cbn [reached stamped_rings] in H.
  assert (Quiet : forall pre B n pre1 B1 a, node_pics (NK := with_text NumR plain_text) wide false running pre B n pre1 B1 a ->
    match n with NAD _ | NDnn _ | NLP _ => True | _ => False end -> pre1 = pre ++ [n] /\ B1 = B /\ a = []).
  { clear. intros pre B n pre1 B1 a H Hk. inversion H; subst; try (exfalso; exact Hk). split; [reflexivity|]. split; [reflexivity|].
    destruct n; try destruct Hk; match goal with X : leaf_pics _ _ _ _ _ _ _ |- _ => destruct X as (ds & X & (Z & _) & _); cbn in Z; subst ds; inversion X; reflexivity end. }
  assert (Lp : forall pre B n r pre2 B2 l, list_pics (NK := with_text NumR plain_text) wide false running pre B (n :: r) pre2 B2 l ->
    exists pre1 B1 a b, node_pics (NK := with_text NumR plain_text) wide false running pre B n pre1 B1 a /\ list_pics (NK := with_text NumR plain_text) wide false running pre1 B1 r pre2 B2 b /\ l = a ++ b).
  { clear. intros pre B n r pre2 B2 l H. inversion H; subst. eexists _, _, _, _. eauto. }
  assert (Lq : forall pre B0 n r pre2 B2 l, list_pics (NK := with_text NumR plain_text) wide false running pre B0 (n :: r) pre2 B2 l ->
    match n with NAD _ | NDnn _ | NLP _ => True | _ => False end -> list_pics (NK := with_text NumR plain_text) wide false running (pre ++ [n]) B0 r pre2 B2 l).
  { intros pre B0 n r pre2 B2 l H0 Hk. apply Lp in H0 as (pre1 & B1 & a & b & X & Y & ->). apply Quiet in X as (-> & -> & ->); assumption. }
  assert (Fl : forall pre B n pre1 B1 a, node_pics (NK := with_text NumR plain_text) wide false running pre B n pre1 B1 a -> n = ND03 None None ->
    pre1 = pre ++ [n] /\ B1 = B /\
    forall id, latest_selection pre = Some id ->
      (In id (ad_codes pre) -> length a = 1%nat) /\ (~ In id (ad_codes pre) -> exists l, d_get id B = Some l /\ length a = length l)).
  { clear. intros pre B n pre1 B1 a H ->. inversion H; subst. split; [reflexivity|]. split; [reflexivity|]. intros id Hid.
    match goal with X : leaf_pics _ _ _ _ _ _ _ |- _ => destruct X as [(a0 & l & l' & (S1 & p & q & S2 & _) & _ & _ & ->)|(id' & l & l' & S1 & S2 & S3 & S4 & ->)] end;
      rewrite Hid in S1; injection S1 as ->.
    - split; [reflexivity|]. intros X. exfalso. apply X. rewrite S2. unfold ad_codes. rewrite flat_map_app. apply in_or_app. right. left. reflexivity.
    - split; [intros X; contradiction|]. intros _. exists l. split; [exact S3|]. rewrite map_length. symmetry. clear - S4. induction S4; cbn; congruence. }
  apply Lq in H; [|exact Logic.I]. apply Lq in H; [|exact Logic.I]. cbn [app] in H.
  apply Lp in H as (pre1 & B1 & a & b & X & Y & ->). inversion X; subst; try contradiction. clear X.
  match goal with X : list_pics _ _ _ _ _ [NDnn _; _; _; _; _; _] _ _ _ |- _ => rename X into Z end.
  apply Lq in Z; [|exact Logic.I]. cbn [app] in Z. apply Lp in Z as (pre2 & B2 & a & b2 & X & Z & ->). apply Fl in X as (-> & -> & X); [|reflexivity]. cbn [app] in Z.
  assert (L1 : length a = 1%nat) by (apply (proj1 (X _ eq_refl)); cbn; tauto). clear X.
  apply Lq in Z; [|exact Logic.I]. apply Lq in Z; [|exact Logic.I]. cbn [app] in Z. apply Lp in Z as (pre3 & B3 & a2 & b3 & X & Z & ->). apply Fl in X as (-> & -> & X); [|reflexivity]. cbn [app] in Z.
  assert (L2 : length a2 = 1%nat) by (apply (proj1 (X _ eq_refl)); cbn; tauto). clear X.
  apply Lq in Z; [|exact Logic.I]. inversion Z; subst. clear Z. cbn [app] in *.
  apply Lp in Y as (pre4 & B4 & a4 & b4 & X & Y & ->). inversion Y; subst. clear Y. inversion X; subst; try contradiction. clear X.
  match goal with X : header_means _ _ _ _ _ |- _ => destruct X as (N1 & N2 & _) end.
  destruct N1 as [N1 _], N2 as [N2 _]. apply int_text_iff in N1, N2. cbn in N1, N2. injection N1 as N1. injection N2 as N2.
  assert (nx = 2%nat) as -> by lia. assert (ny = 1%nat) as -> by lia.
  match goal with X : list_pics _ _ _ _ _ [NDnn _; _] _ _ _ |- _ => rename X into Z end.
  apply Lq in Z; [|exact Logic.I]. cbn [app] in Z. apply Lp in Z as (pre5 & B5 & a5 & b5 & X & Z & ->). inversion Z; subst. clear Z. apply Fl in X as (-> & -> & X); [|reflexivity].
  destruct (proj2 (X _ eq_refl)) as (l & Hl & L5); [cbn; intuition discriminate|]. cbn in Hl. injection Hl as <-.
  rewrite !app_nil_r in *. rewrite app_length, L1, L2 in L5. cbn [repeated seq list_prod flat_map map app]. rewrite !app_length, !map_length. cbn [length]. lia.
Qed.

Print Assumptions C64_blocks_partial.

(** Property theorems C86: the pixels of the pillow image show the picture (specification in
    [PixelSpec]). *)
From Coq Require Import Reals Lra Lia Permutation.
From Verif Require Import Base Num NumReal Dict CoordModel CoordSpec Ast StateModel StateSpec StateProofs GeomModel CompilerModel LayerSpec LayerProofs LayerInv LayerOut LayerProps
  BoxModel ArcModel VmModel VmSpec VmProps DrawSpec DrawProofs FlashSpec PaintModel PaintSpec PaintProofs PaintProps RenderSpec RenderProofs RenderProps InkProofs InkProps AcceptProps BlockSpec BlockProps PixelSpec PixelProofs.
Open Scope R_scope.

(** Layers look the same where their shapes do. *)
Lemma shows_agree in1 in2 ls rank sh1 sh2 : ranks ls rank -> (forall id ds q, In (id, ds) ls -> In (DPaste q) ds -> exists ds', In (pa_src q, ds') ls) ->
  layered in1 ls sh1 -> layered in2 ls sh2 ->
  forall n id ds p, (rank id < n)%nat -> In (id, ds) ls -> (forall s p', placed ls id p s p' -> in1 s p' <-> in2 s p') -> sh1 id p <-> sh2 id p.
Proof.
  intros Hr Hsrc H1 H2. induction n as [|n IH]; intros id ds p Hn Hi Ha; [lia|]. rewrite (H1 id ds Hi), (H2 id ds Hi). apply dark_iff. intros [s|q] Hin; cbn [plane_covers].
  - apply Ha. apply (placed_here ls id ds s p Hi Hin).
  - replace (plus_v (less_v p (pa_center q)) (MkVec 0 0)) with (less_v p (pa_center q)) by (destruct p as [p1 p2]; unfold plus_v, less_v; cbn [vx vy]; f_equal; lra).
    destruct (Hsrc id ds q Hi Hin) as (ds' & Hi'). apply (IH _ ds'); [pose proof (Hr id ds q Hi Hin); lia|exact Hi'|].
    intros s p' Hp. apply Ha. exact (placed_paste ls id ds q p s p' Hi Hin Hp).
Qed.

Section Compiled.
  Context (text : R -> str) (md : bool) (clock : nat -> Z) (iter : str -> list str -> list str).
  Hypothesis iter_perm : forall id l, Permutation (iter id l) l.
  Notation NT := (with_text NumR text).

  Lemma block_start (l : list (buffer R)) b : In b l -> In (KStart (bf_id b) None (MkVec 0 0)) (blocks_r l).
  Proof.
    intros Hb. unfold blocks_r. apply in_flat_map. exists b. split; [exact Hb|]. unfold block_of. left. rewrite r_n0. reflexivity.
  Qed.
  Lemma ordered_source (l : list (buffer R)) : ordered l -> forall id ds q, In (id, ds) (map layer_of l) -> In (DPaste q) ds -> exists ds', In (pa_src q, ds') (map layer_of l).
  Proof.
    intros Ho id ds q Hi Hq. apply in_map_iff in Hi as (b & Eb & Hb). injection Eb as <- <-. apply in_split in Hb as (l1 & l2 & ->).
    pose proof (Ho l1 b l2 (pa_src q) eq_refl (ex_intro _ q (conj Hq eq_refl))) as Hs. apply in_map_iff in Hs as (b' & Eb' & Hb'). exists (bf_cmds b').
    apply in_map_iff. exists b'. split; [unfold layer_of; rewrite Eb'; reflexivity|apply in_or_app; left; exact Hb'].
  Qed.
  (** The pixels of a run. *)
  Lemma pixels_run fill fillR dpmm r fuel paints fl (l : list (buffer R)) m b :
    (0 < dpmm)%Z -> 1 <= r -> spanned fillR -> rasterizes dpmm r fill fillR ->
    ordered l -> In main_id (map bf_id l) -> vm_run (pillow paints) fl (blocks_r l) = Ok (m, Some b) ->
    all_fair (map layer_of l) -> forall rank, ranks (map layer_of l) rank -> forall shows, layered (filled_in (Pillow dpmm) fuel fillR) (map layer_of l) shows ->
    forall x y p, inside_image (fst (pillow_result fill dpmm fuel m)) (x, y) ->
      close dpmm 1 (point_of dpmm b (x, snd (fst (pillow_result fill dpmm fuel m)) - 1 - y)%Z) p ->
      off_edges dpmm (filled_in (Pillow dpmm) fuel fillR) (1 + r + INR (rank main_id)) (map layer_of l) main_id p ->
      snd (pillow_result fill dpmm fuel m) (x, y) = true <-> shows main_id p.
  Proof.
    intros Hd Hr Hspan Hrast Ho Hmain Er Hfair rank Hrank shows Hshows x y p Hxy Hc Hoff. pose proof (ran_once _ _ _ _ _ Er) as HN.
    destruct (run_exec _ _ _ _ _ Er) as [Ex Eres].
    pose proof (C61_pillow R NumR fill dpmm fuel paints fl (blocks_r l) m (Some b) (ordered_pastes l Ho) Er) as H. cbv zeta in H.
    destruct (pillow_result fill dpmm fuel m) as [size pixel]. cbn [fst snd] in *. destruct H as [(px & H1) [-> H2]].
    assert (Hgiven : forall id ds, In (id, ds) (map layer_of l) -> given [] id (blocks_r l) = ds /\ In (KStart id None (MkVec 0 0)) (blocks_r l)).
    { intros id ds Hi. apply in_map_iff in Hi as (w & Ew & Hw). injection Ew as <- <-. split; [exact (given_layer l w HN Hw)|apply block_start; exact Hw]. }
    apply in_map_iff in Hmain as (mb & Em & Hmb).
    assert (Hi : In (main_id, bf_cmds mb) (map layer_of l)) by (apply in_map_iff; exists mb; split; [unfold layer_of; rewrite Em; reflexivity|exact Hmb]).
    assert (Hp : painted m main_id /\ exists o, frame (vm_layers m) main_id = Some (b, o)).
    { unfold vm_result in Eres. unfold painted, frame. destruct (d_get main_id (vm_layers m)) as [[b0 o0 l0|]|]; [|discriminate|destruct (fl || be_needs_main (pillow paints))%bool; discriminate].
      injection Eres as ->. split; [exists b, o0, l0; reflexivity|exists o0; reflexivity]. }
    destruct Hp as [Hp (o & Hf)].
    assert (Hf0 : frame (vm_layers m) main_id = Some (b, MkVec 0 0)).
    { destruct (layer_box (pillow paints) fl (blocks_r l) m Ex _ Hgiven main_id _ Hi Hp) as (b' & Hf' & _). rewrite Hf' in Hf. injection Hf as -> _. exact Hf'. }
    rewrite (H2 px H1).
    apply (pixel_point fill fillR dpmm r fuel Hd Hr Hspan Hrast (pillow paints) fl (blocks_r l) m Ex (map layer_of l) Hgiven (ordered_source l Ho) Hfair rank Hrank shows px Hshows)
      with (n := S (rank main_id)) (ds := bf_cmds mb) (b := b) (e := 1) (k := 1 + r + INR (rank main_id)); try assumption; try lra; try lia.
    - intros id ds Hid Hpd xy. rewrite (H1 id Hpd). rewrite (proj1 (Hgiven id ds Hid)). reflexivity.
    - unfold inside_image in *. cbn [fst snd] in *. lia.
  Qed.

  (** C86.  The filling of pixels ([fill]) may differ from filling the polygon ([fillR]) up to [r] pixels off its edge.  Then
      every pixel of the image of a compiled file has the colour of all the points it stands for, if none of the program's
      shapes has an edge close to them: within [1 + r] pixels, and one more for every level of pasting. *)
  Theorem C86_pixels :
    forall fill fillR dpmm r fuel paints fl ips ns cmds m b, (0 < dpmm)%Z -> 1 <= r -> spanned fillR -> rasterizes dpmm r fill fillR ->
      compile (NK := NT) md clock iter ips ns = Ok cmds -> vm_run (pillow paints) fl cmds = Ok (m, Some b) ->
      exists ls, layers cmds = Some ls /\ (exists shows, layered (filled_in (Pillow dpmm) fuel fillR) ls shows) /\
        (all_fair ls -> forall rank shows, ranks ls rank -> layered (filled_in (Pillow dpmm) fuel fillR) ls shows ->
         let '((width, height), pixel) := pillow_result fill dpmm fuel m in
         forall x y p, (0 <= x < width)%Z -> (0 <= y < height)%Z -> close dpmm 1 (point_of dpmm b (x, height - 1 - y)%Z) p ->
           off_edges dpmm (filled_in (Pillow dpmm) fuel fillR) (1 + r + INR (rank main_id)) ls main_id p ->
           pixel (x, y) = true <-> shows main_id p).
  Proof.
    intros fill fillR dpmm r fuel paints fl ips ns cmds m b Hd Hr Hspan Hrast E Er.
    destruct (compiled_layers text md clock iter iter_perm ips ns cmds E) as (v & l & _ & -> & L2 & L3 & L4 & L5). exists (map layer_of l). split; [exact L2|].
    split; [eexists; apply layers_shown; [apply ordered_layers; exact L3|unfold defined_once; rewrite layer_ids; exact (ran_once _ _ _ _ _ Er)]|].
    intros Hfair rank shows Hrank Hs. pose proof (pixels_run fill fillR dpmm r fuel paints fl l m b Hd Hr Hspan Hrast L3 L5 Er Hfair rank Hrank shows Hs) as H.
    destruct (pillow_result fill dpmm fuel m) as [[width height] pixel]. cbn [fst snd] in H. intros x y p Hx Hy. apply H. split; assumption.
  Qed.
  (** Programs have such ranks. *)
  Theorem C86_ranks : forall ips ns cmds ls, compile (NK := NT) md clock iter ips ns = Ok cmds -> layers cmds = Some ls -> defined_once ls -> exists rank, ranks ls rank.
  Proof.
    intros ips ns cmds ls E El Hd. destruct (compiled_layers text md clock iter iter_perm ips ns cmds E) as (v & l & _ & -> & L2 & L3 & _ & _). rewrite L2 in El. injection El as <-.
    unfold defined_once in Hd. rewrite layer_ids in Hd. clear - L3 Hd.
    assert (G : forall l2 l1, l = l1 ++ l2 -> exists rank, ranks (map layer_of l1) rank /\ forall j, (rank j <= length l1)%nat).
    { intros l2 l1. revert l2. induction l1 as [|b l1 IH] using rev_ind; intros l2 El; [exists (fun _ => 0%nat); split; [intros ? ? ? []|auto]|].
      rewrite <- app_assoc in El. destruct (IH _ El) as (rank & Hr & Hb). exists (fun j => if str_eqb j (bf_id b) then S (length l1) else rank j). split.
      - intros id ds q Hi Hq. rewrite map_app in Hi. apply in_app_or in Hi as [Hi|[Hi|[]]].
        + assert (N : forall j, In j (map bf_id l1) -> str_eqb j (bf_id b) = false).
          { intros j Hj. destruct (str_eqb j (bf_id b)) eqn:Ej; [|reflexivity]. apply str_eqb_eq in Ej. subst j. exfalso. rewrite El, map_app in Hd. cbn [app map] in Hd.
            apply NoDup_remove_2 in Hd. apply Hd. apply in_or_app. left. exact Hj. }
          apply in_map_iff in Hi as Hi2. destruct Hi2 as (w & Ew & Hw). injection Ew as <- <-. rewrite (N (bf_id w)) by (apply in_map; exact Hw).
          apply in_split in Hw as (a1 & a2 & Ea). pose proof (L3 a1 w (a2 ++ [b] ++ l2) (pa_src q)) as Hs. rewrite El, Ea, <- app_assoc in Hs. specialize (Hs eq_refl (ex_intro _ q (conj Hq eq_refl))).
          rewrite (N (pa_src q)) by (rewrite Ea, map_app; apply in_or_app; left; exact Hs). exact (Hr (bf_id w) (bf_cmds w) q Hi Hq).
        + injection Hi as <- <-. rewrite str_eqb_refl. pose proof (L3 l1 b l2 (pa_src q) El (ex_intro _ q (conj Hq eq_refl))) as Hs.
          destruct (str_eqb (pa_src q) (bf_id b)) eqn:Ej; [|specialize (Hb (pa_src q)); lia]. apply str_eqb_eq in Ej. exfalso. rewrite Ej in Hs.
          rewrite El, map_app in Hd. cbn [app map] in Hd. apply NoDup_remove_2 in Hd. apply Hd. apply in_or_app. left. exact Hs.
      - intros j. rewrite app_length. cbn [length]. specialize (Hb j). destruct (str_eqb j (bf_id b)); lia. }
    destruct (G [] l (eq_sym (app_nil_r l))) as (rank & Hr & _). exists rank. exact Hr.
  Qed.

  (** C86.  So both backends show the same, where there are no edges close by and the two ways to cut arcs into lines do not differ. *)
  Theorem C86_backends :
    forall fill fillR meets dpmm r fuel fuel' paints paints' fl fl' ips ns cmds m b m' b', (0 < dpmm)%Z -> 1 <= r -> spanned fillR -> rasterizes dpmm r fill fillR ->
      fills_anywhere fillR -> (forall g h p, meets g h = false -> g p -> h p -> False) ->
      compile (NK := NT) md clock iter ips ns = Ok cmds -> vm_run (pillow paints) fl cmds = Ok (m, Some b) -> vm_run (shapely paints') fl' cmds = Ok (m', b') ->
      exists ls, layers cmds = Some ls /\
        (all_fair ls -> forall rank, ranks ls rank ->
         let '((width, height), pixel) := pillow_result fill dpmm fuel m in
         forall x y p, (0 <= x < width)%Z -> (0 <= y < height)%Z -> close dpmm 1 (point_of dpmm b (x, height - 1 - y)%Z) p ->
           off_edges dpmm (filled_in (Pillow dpmm) fuel fillR) (1 + r + INR (rank main_id)) ls main_id p ->
           (forall s p', placed ls main_id p s p' -> filled_in (Pillow dpmm) fuel fillR s p' <-> filled_in Shapely fuel' fillR s p') ->
           pixel (x, y) = true <-> shapely_result fillR meets fuel' m' p).
  Proof.
    intros fill fillR meets dpmm r fuel fuel' paints paints' fl fl' ips ns cmds m b m' b' Hd Hr Hspan Hrast Hany Hmeets E Er Er'.
    destruct (compiled_layers text md clock iter iter_perm ips ns cmds E) as (v & l & _ & -> & L2 & L3 & L4 & L5). exists (map layer_of l). split; [exact L2|].
    intros Hfair rank Hrank. pose proof (ran_once _ _ _ _ _ Er) as HN.
    assert (Honce : defined_once (map layer_of l)) by (unfold defined_once; rewrite layer_ids; exact HN).
    pose proof (layers_shown (filled_in (Pillow dpmm) fuel fillR) _ (ordered_layers l L3) Honce) as Hs1.
    pose proof (layers_shown (filled fillR fuel') _ (ordered_layers l L3) Honce) as Hs2.
    set (sh1 := fold_left _ _ _) in Hs1. set (sh2 := fold_left _ _ _) in Hs2.
    pose proof (pixels_run fill fillR dpmm r fuel paints fl l m b Hd Hr Hspan Hrast L3 L5 Er Hfair rank Hrank sh1 Hs1) as H.
    destruct (pillow_result fill dpmm fuel m) as [[width height] pixel]. cbn [fst snd] in H. intros x y p Hx Hy Hc Ho Hag.
    rewrite (H x y p (conj Hx Hy) Hc Ho), (layers_painted paints' fl' fillR meets fuel' l m' b' sh2 Hany Hmeets L3 HN Er' Hs2 p).
    apply in_map_iff in L5 as (mb & Em & Hmb).
    apply (shows_agree _ _ (map layer_of l) rank sh1 sh2 Hrank (ordered_source l L3) Hs1 Hs2 (S (rank main_id)) main_id (bf_cmds mb) p); [lia| |exact Hag].
    apply in_map_iff. exists mb. split; [unfold layer_of; rewrite Em; reflexivity|exact Hmb].
  Qed.
End Compiled.

(** Layers pasted two levels deep: flashes into the picture, and parts into flashes. *)
Lemma two_deep (l lp : list (buffer R)) mb (flashed part : str -> Prop) : l = lp ++ [mb] -> bf_id mb = main_id -> ordered l -> NoDup (map bf_id l) -> all_needed (map layer_of l) ->
  (forall src, pastes (bf_cmds mb) src -> flashed src) -> (forall b src, flashed (bf_id b) -> In b l -> pastes (bf_cmds b) src -> part src) ->
  (forall b src, part (bf_id b) -> In b l -> ~ pastes (bf_cmds b) src) -> exists rank, ranks (map layer_of l) rank /\ rank main_id = 2%nat.
Proof.
  intros Elp Emx L3 L4 L7 F1 F2 F3. assert (Hmx : In mb l) by (rewrite Elp; apply in_or_app; right; left; reflexivity).
  assert (Huniq : forall y z, In y l -> In z l -> bf_id y = bf_id z -> y = z).
  { clear - L4. induction l as [|a l IH]; intros y z Hy Hz Eq; [destruct Hy|]. cbn [map] in L4. inversion L4; subst.
    destruct Hy as [<-|Hy], Hz as [<-|Hz]; auto; exfalso; [apply H1; rewrite Eq; apply in_map; exact Hz|apply H1; rewrite <- Eq; apply in_map; exact Hy]. }
  assert (Hkind : forall l2 l1, l = l1 ++ l2 -> forall b, In b l2 -> b = mb \/ flashed (bf_id b) \/ part (bf_id b)).
  { induction l2 as [|w l2 IH]; intros l1 El b Hb; [destruct Hb|].
    assert (IH' : forall b, In b l2 -> b = mb \/ flashed (bf_id b) \/ part (bf_id b)) by (apply (IH (l1 ++ [w])); rewrite <- app_assoc; exact El).
    destruct Hb as [<-|Hb]; [|exact (IH' b Hb)]. destruct l2 as [|u l2].
    - left. rewrite Elp in El. apply app_inj_tail in El as [_ El]. symmetry. exact El.
    - destruct (L7 (map layer_of l1) (bf_id w) (bf_cmds w) (layer_of u) (map layer_of l2)) as (id' & ds' & Hin & Hp); [rewrite El, map_app; reflexivity|].
      change (layer_of u :: map layer_of l2) with (map layer_of (u :: l2)) in Hin. apply in_map_iff in Hin as (t & Et & Hti). injection Et as <- <-.
      assert (Htl : In t l) by (rewrite El; apply in_or_app; right; right; exact Hti).
      destruct (IH' t Hti) as [->|[Hf|P2]].
      + right. left. exact (F1 _ Hp).
      + right. right. exact (F2 t _ Hf Htl Hp).
      + destruct (F3 t _ P2 Htl Hp). }
  set (pasting := fun b : buffer R => existsb (fun d => match d with DPaste _ => true | _ => false end) (bf_cmds b)).
  exists (fun id => if str_eqb id main_id then 2%nat else if existsb (fun b => str_eqb (bf_id b) id && pasting b)%bool l then 1%nat else 0%nat).
  split; [|rewrite str_eqb_refl; reflexivity].
  intros id ds q Hi Hq. apply in_map_iff in Hi as (b & Eb & Hb). injection Eb as <- <-.
  assert (Hp : pastes (bf_cmds b) (pa_src q)) by (exists q; auto).
  assert (Hnm : str_eqb (pa_src q) main_id = false).
  { destruct (str_eqb (pa_src q) main_id) eqn:Ej; [|reflexivity]. apply str_eqb_eq in Ej. exfalso. apply in_split in Hb as (a1 & a2 & Ea).
    pose proof (L3 a1 b a2 _ Ea Hp) as Hs. rewrite Ej, <- Emx in Hs. apply in_map_iff in Hs as (w & Ew & Hw).
    assert (w = mb) as -> by (apply Huniq; [rewrite Ea; apply in_or_app; left; exact Hw|exact Hmx|exact Ew]).
    apply in_split in Hw as (c1 & c2 & ->). rewrite Elp in Ea.
    assert (HNl : NoDup (map bf_id (lp ++ [mb]))) by (rewrite <- Elp; exact L4).
    rewrite map_app in HNl. cbn [map] in HNl. apply NoDup_remove_2 in HNl. rewrite app_nil_r in HNl. apply HNl. apply in_map.
    assert (Hex : exists t z, b :: a2 = t ++ [z]) by (destruct (exists_last (l := b :: a2)) as (t & z & Et); [discriminate|eauto]). destruct Hex as (t & z & Et).
    rewrite Et, app_assoc in Ea. apply app_inj_tail in Ea as [-> _]. apply in_or_app. left. apply in_or_app. right. left. reflexivity. }
  rewrite Hnm. destruct (Hkind l [] eq_refl b Hb) as [->|[Hf|P]].
  - rewrite Emx, str_eqb_refl. destruct (existsb _ l); lia.
  - assert (P : existsb (fun b0 => str_eqb (bf_id b0) (pa_src q) && pasting b0)%bool l = false).
    { apply Bool.not_true_is_false. intros X. apply existsb_exists in X as (w & Hw & X). apply andb_prop in X as [X1 X2]. apply str_eqb_eq in X1.
      pose proof (F2 b (pa_src q) Hf Hb Hp) as Pw. rewrite <- X1 in Pw. unfold pasting in X2. apply existsb_exists in X2 as (d & Hd' & X2). destruct d as [s|q']; [discriminate|].
      apply (F3 w (pa_src q') Pw Hw). exists q'. auto. }
    rewrite P. destruct (str_eqb (bf_id b) main_id); [lia|].
    assert (X : existsb (fun b0 => str_eqb (bf_id b0) (bf_id b) && pasting b0)%bool l = true).
    { apply existsb_exists. exists b. split; [exact Hb|]. rewrite str_eqb_refl. apply existsb_exists. exists (DPaste q). auto. }
    rewrite X. lia.
  - destruct (F3 b _ P Hb Hp).
Qed.

(** Files. *)
Section Leaves.
  Context (text : R -> str) (md : bool) (clock : nat -> Z) (iter : str -> list str -> list str).
  Notation NT := (with_text NumR text).
  Hypothesis iter_perm : forall id l, Permutation (iter id l) l.
  Hypothesis clock_inj : forall i j, clock i = clock j -> i = j.
  Definition plain_file (ips : bool) (ns : list (node R)) : Prop :=
    Forall is_leaf ns /\ (forall a, In (NAD a) ns -> exists n, dcode (ad_id a) n) /\
      NoDup (ad_codes (executed_file ips ns)) /\ tells_apart (NK := NT) (executed_file ips ns).
  Lemma plain_codes ips ns : plain_file ips ns -> codes_valid ns /\ codes_disjoint ns.
  Proof.
    intros (Hl & Hc & _).
    assert (Hsub : forall n m, In n ns -> In m (subnodes n) -> m = n).
    { intros n m Hn Hi. rewrite Forall_forall in Hl. specialize (Hl n Hn). destruct n; try contradiction; destruct Hi as [<-|[]]; reflexivity. }
    assert (Hnab : forall id body, ~ In (NAB id body) ns) by (intros id body Hi; rewrite Forall_forall in Hl; exact (Hl _ Hi)).
    split; [split|].
    - intros n a Hn Hi. apply Hc. rewrite (Hsub n _ Hn Hi). exact Hn.
    - intros n id body Hn Hi. exfalso. apply (Hnab id body). rewrite (Hsub n _ Hn Hi). exact Hn.
    - intros n n' a id body Hn Hn' Hi Hi' _. apply (Hnab id body). rewrite (Hsub n' _ Hn' Hi'). exact Hn'.
  Qed.
  (** The picture of a file, for any inside of shapes. *)
  Lemma file_picture inside ips ns v (l : list (buffer R)) shows : plain_file ips ns ->
    on_file (NK := NT) (@compiler_hooks R NT md clock) ips ns (visitor_init (NK := NT) compiler_init) = Ok v -> NoDup (c_stamps (v_ext v)) ->
    ordered l -> (forall b, In b l -> d_get (bf_id b) (c_buffers (v_ext v)) = Some b) -> In main_id (map bf_id l) ->
    layered inside (map layer_of l) shows ->
    exists os, picture inside text md clock (executed_file ips ns) os /\ forall p, shows main_id p <-> seen os p.
  Proof.
    intros (Hl & Hc & Hd & Ht) E HN L3 L4 L5 Hs.
    destruct (flat_main (NK := NT) md clock ips ns v Hl) as (mb & G1 & HR); [|exact E|].
    { intros a Ha Em. destruct (Hc a Ha) as (n & ds & Hn & _). rewrite Em in Hn. discriminate Hn. }
    assert (Hmb : In mb l /\ bf_id mb = main_id).
    { apply in_map_iff in L5 as (x & Ex & Hx). pose proof (L4 x Hx) as G. rewrite Ex, G1 in G. injection G as <-. auto. }
    destruct Hmb as [Hmb Eid].
    assert (Hsh : forall b, In b l -> forall p, shows (bf_id b) p <-> dark (plane_covers inside (fun _ => MkVec 0%R 0%R) shows (bf_id b)) (bf_cmds b) p).
    { intros b Hb. apply Hs. apply in_map_iff. exists b. auto. }
    destruct (run_picture inside text md clock shows _ _ HR) as (os & O1 & O2).
    { intros pre x y post a Ew Ha c neg me Hin. apply in_split in Hmb as Hsp. destruct Hsp as (l1 & l2 & El).
      pose proof (L3 l1 mb l2 _ El (ex_intro _ _ (conj Hin eq_refl))) as Hi. cbn [pa_src] in Hi. apply in_map_iff in Hi as (b1 & E1 & H1).
      assert (Hb1 : In b1 l) by (rewrite El; apply in_or_app; left; exact H1).
      destruct (flash_figure inside text md clock shows ips ns v l Hl Hc Hd Ht E HN L3 L4 Hsh pre (ND03 x y :: post) a b1 Ew Ha Hb1 E1) as (fs & F1 & F2).
      exists fs. rewrite <- E1. auto. }
    exists os. split; [exact O1|]. intros p. rewrite <- Eid, (Hsh mb Hmb). symmetry. apply seen_dark. exact O2.
  Qed.
  (** Flashes are pasted, and parts of macros into flashes; nothing else is. *)
  Lemma leaf_ranks ips ns v (l : list (buffer R)) : plain_file ips ns ->
    on_file (NK := NT) (@compiler_hooks R NT md clock) ips ns (visitor_init (NK := NT) compiler_init) = Ok v -> NoDup (c_stamps (v_ext v)) ->
    ordered l -> NoDup (map bf_id l) -> (forall b, In b l -> d_get (bf_id b) (c_buffers (v_ext v)) = Some b) -> all_needed (map layer_of l) ->
    (exists pre x, l = pre ++ [x] /\ bf_id x = main_id) -> exists rank, ranks (map layer_of l) rank /\ rank main_id = 2%nat.
  Proof.
    intros (Hl & Hc & Hd & Ht) E1 HN L3 L4 L5 L7 (lp & mb & Elp & Emx).
    assert (Hid : forall a, In (NAD a) ns -> ad_id a <> main_id).
    { intros a Ha Em. destruct (Hc a Ha) as (n & ds & Hn & _). rewrite Em in Hn. discriminate Hn. }
    destruct (flat_main (NK := NT) md clock ips ns v Hl Hid E1) as (mb' & G1 & HR).
    assert (Hmx : In mb l) by (rewrite Elp; apply in_or_app; right; left; reflexivity).
    assert (mb = mb') as <- by (pose proof (L5 mb Hmx) as G; rewrite Emx, G1 in G; congruence).
    pose proof (flash_marks text md clock ips ns v l Hl Hc Hd Ht E1 HN L5) as HF.
    assert (F1 : forall whole ds, run_shown (NK := NT) whole ds -> forall src, pastes ds src ->
      exists pre x y post a, whole = pre ++ ND03 x y :: post /\ selected_as pre a /\ src = layer_key (NK := NT) (ad_id a) (matrix_at (NK := NT) pre)).
    { clear. induction 1 as [|pre out n new HR IH1 [Hdr Hs]]; [intros src (q & [] & _)|].
      intros src (q & Hq & Es). apply in_app_or in Hq as [Hq|Hq].
      - destruct (IH1 src) as (p & x & y & post & a & X1 & X2 & X3); [exists q; auto|]. exists p, x, y, (post ++ [n]), a. rewrite X1, <- app_assoc. auto.
      - assert (Dec : (exists x y, n = ND03 x y) \/ match n with ND03 _ _ => False | _ => True end) by (destruct n; eauto).
        destruct Dec as [(x & y & ->)|Dec].
        + destruct Hs as (a & m & Ha & ->). destruct Hq as [Hq|[]]. injection Hq as <-. exists pre, x, y, [], a. auto.
        + destruct (emitted_shapes text pre n new Dec Hdr) as (neg & Hsh). unfold all_shapes in Hsh. rewrite Forall_forall in Hsh. destruct (Hsh _ Hq) as (s & X & _). discriminate X. }
    apply (two_deep l lp mb (fun k => exists pre x y post a, executed_file ips ns = pre ++ ND03 x y :: post /\ selected_as pre a /\ k = layer_key (NK := NT) (ad_id a) (matrix_at (NK := NT) pre))
      (fun k => forall b, In b l -> bf_id b = k -> forall src, ~ pastes (bf_cmds b) src)); try assumption.
    - exact (F1 _ _ HR).
    - intros b src (pre & x & y & post & a & W1 & W2 & W3) Hb Hp b' Hb' <-. destruct W2 as [_ (p & q & Ep & _)].
      exact (proj2 (proj2 (HF pre (ND03 x y :: post) p a q b W1 Ep Hb W3) (bf_id b') b' Hp (L5 b' Hb'))).
    - intros b src Hk Hb. exact (Hk b Hb eq_refl src).
  Qed.
  (** C86.  For files without blocks, in terms of the picture of the file ([picture], as in C64, of shapes as the pillow
      backend cuts them into lines).  Partial: as in C64, codes are not defined twice and the transformations used have different names; pixels with an edge
      within [3 + r] pixels are not told.  Missing: what becomes of the pixels at edges, which the code leaves to the image library. *)
  Theorem C86_picture_partial :
    forall fill fillR dpmm r fuel paints fl ips ns cmds m b, (0 < dpmm)%Z -> 1 <= r -> spanned fillR -> rasterizes dpmm r fill fillR ->
      plain_file ips ns -> compile (NK := NT) md clock iter ips ns = Ok cmds -> vm_run (pillow paints) fl cmds = Ok (m, Some b) ->
      exists ls os, layers cmds = Some ls /\ picture (filled_in (Pillow dpmm) fuel fillR) text md clock (executed_file ips ns) os /\
        (all_fair ls ->
         let '((width, height), pixel) := pillow_result fill dpmm fuel m in
         forall x y p, (0 <= x < width)%Z -> (0 <= y < height)%Z -> close dpmm 1 (point_of dpmm b (x, height - 1 - y)%Z) p ->
           off_edges dpmm (filled_in (Pillow dpmm) fuel fillR) (3 + r) ls main_id p ->
           pixel (x, y) = true <-> seen os p).
  Proof.
    intros fill fillR dpmm r fuel paints fl ips ns cmds m b Hd Hr Hspan Hrast Hp E Er. destruct (plain_codes ips ns Hp) as [HV HD].
    destruct (compiled_all text md clock iter (proj1 (proj2 (proj2 (proj2 Hp)))) clock_inj iter_perm ips ns cmds HV HD E) as (v & l & E1 & HN & -> & L2 & L3 & L4 & L5 & L6 & L7 & L8).
    pose proof (layers_shown (filled_in (Pillow dpmm) fuel fillR) _ (ordered_layers l L3) ltac:(unfold defined_once; rewrite layer_ids; exact L4)) as Hs.
    set (shows := fold_left _ _ _) in Hs. destruct (file_picture _ ips ns v l shows Hp E1 HN L3 L5 L6 Hs) as (os & O1 & O2).
    destruct (leaf_ranks ips ns v l Hp E1 HN L3 L4 L5 L7 L8) as (rank & Hrank & R2).
    exists (map layer_of l), os. split; [exact L2|]. split; [exact O1|]. intros Hfair.
    pose proof (pixels_run fill fillR dpmm r fuel paints fl l m b Hd Hr Hspan Hrast L3 L6 Er Hfair rank Hrank shows Hs) as H.
    destruct (pillow_result fill dpmm fuel m) as [[width height] pixel]. cbn [fst snd] in H. intros x y p Hx Hy Hc Ho. rewrite <- O2. apply H; [split; assumption|exact Hc|].
    rewrite R2. replace (1 + r + INR 2) with (3 + r) by (cbn; lra). exact Ho.
  Qed.
  (** C86.  For files with blocks, in terms of the pictures of the commands ([file_pics], as in C64 with blocks).
      Partial: files as in C64 with blocks; pixels with an edge within [3 + r] pixels are not told. *)
  Theorem C86_blocks_partial :
    forall ips ns cmds, block_file text ips ns -> compile (NK := NT) md clock iter ips ns = Ok cmds ->
      exists ls ps, layers cmds = Some ls /\ file_pics (NK := NT) wide md clock ips ns ps /\
        forall fill fillR dpmm r fuel paints fl m b, (0 < dpmm)%Z -> 1 <= r -> spanned fillR -> rasterizes dpmm r fill fillR ->
          vm_run (pillow paints) fl cmds = Ok (m, Some b) -> all_fair ls ->
          let '((width, height), pixel) := pillow_result fill dpmm fuel m in
          forall x y p, (0 <= x < width)%Z -> (0 <= y < height)%Z -> close dpmm 1 (point_of dpmm b (x, height - 1 - y)%Z) p ->
            off_edges dpmm (filled_in (Pillow dpmm) fuel fillR) (3 + r) ls main_id p ->
            pixel (x, y) = true <-> seen (map (pic_object (filled_in (Pillow dpmm) fuel fillR)) ps) p.
  Proof.
    intros ips ns cmds Hp E. pose proof Hp as (HV & HD & _ & _ & _ & Ht).
    destruct (compiled_all text md clock iter (proj1 Ht) clock_inj iter_perm ips ns cmds HV HD E) as (v & l & E1 & HN & -> & L2 & L3 & L4 & L5 & L6 & L7 & lp & mb & L8 & L9).
    destruct (file_shown text md clock ips ns v Hp E1 HN) as (ps & mb' & O1 & G1 & O2 & flashed & part & K1 & K2 & K3).
    assert (Hmx : In mb l) by (rewrite L8; apply in_or_app; right; left; reflexivity).
    assert (mb' = mb) as -> by (pose proof (L5 mb Hmx) as G; rewrite L9, G1 in G; congruence).
    destruct (two_deep l lp mb flashed part L8 L9 L3 L4 L7 K1 (fun b src Hf Hb => K2 _ b src Hf (L5 b Hb)) (fun b src Hf Hb => K3 _ b src Hf (L5 b Hb))) as (rank & Hrank & R2).
    exists (map layer_of l), ps. split; [exact L2|]. split; [exact O1|]. intros fill fillR dpmm r fuel paints fl m b Hd Hr Hspan Hrast Er Hfair.
    pose proof (layers_shown (filled_in (Pillow dpmm) fuel fillR) _ (ordered_layers l L3) ltac:(unfold defined_once; rewrite layer_ids; exact L4)) as Hs.
    set (shows := fold_left _ _ _) in Hs.
    pose proof (pixels_run fill fillR dpmm r fuel paints fl l m b Hd Hr Hspan Hrast L3 L6 Er Hfair rank Hrank shows Hs) as H.
    destruct (pillow_result fill dpmm fuel m) as [[width height] pixel]. cbn [fst snd] in H. intros x y p Hx Hy Hc Ho.
    rewrite <- (O2 _ shows l L3 L5 L6 Hs p). apply H; [split; assumption|exact Hc|].
    rewrite R2. replace (1 + r + INR 2) with (3 + r) by (cbn; lra). exact Ho.
  Qed.
End Leaves.

(** *** Cases *)
(** Filling with the box around the corners, of points and of pixels. *)
Definition around (ps : list (vec R)) (p : vec R) : Prop :=
  (exists a, In a ps /\ vx a <= vx p) /\ (exists a, In a ps /\ vx p <= vx a) /\ (exists a, In a ps /\ vy a <= vy p) /\ (exists a, In a ps /\ vy p <= vy a).
Definition around_px (ps : list (Z * Z)) : bitmap := fun xy =>
  (existsb (fun a => fst a <=? fst xy) ps && existsb (fun a => fst xy <=? fst a) ps && existsb (fun a => snd a <=? snd xy) ps && existsb (fun a => snd xy <=? snd a) ps)%Z.
Lemma around_spanned : spanned around.
Proof.
  intros pts p ((a & Ha & H1) & (b & Hb & H2) & (c & Hc & H3) & (d & Hd & H4)) bx Hbx. pose proof (Hbx a Ha) as A. pose proof (Hbx b Hb) as B. pose proof (Hbx c Hc) as C. pose proof (Hbx d Hd) as D.
  destruct bx as [|x0 y0 x1 y1]; [destruct A|]. cbn in *. lra.
Qed.
Lemma around_rasterizes dpmm : (0 < dpmm)%Z -> rasterizes dpmm 1 around_px around.
Proof.
  intros Hd x0 y0 x1 y1 pts xy Hin at_. pose proof (IZR_lt 0 dpmm Hd) as Hd'. set (px := polygon_pixels dpmm x0 y0 x1 y1 pts).
  set (f := fun q => hd (0, 0)%Z (polygon_pixels dpmm x0 y0 x1 y1 [q])). assert (Epx : px = map f pts) by reflexivity.
  assert (Hf : forall q, In q pts -> IZR (fst (f q)) <= (vx q - x0) * IZR dpmm < IZR (fst (f q)) + 1 /\ IZR (snd (f q)) <= (vy q - y0) * IZR dpmm < IZR (snd (f q)) + 1).
  { intros q Hq. destruct (ArcProps.C57_pixel_of_point dpmm x0 y0 x1 y1 q ltac:(lia) (Hin q Hq)) as (i & j & E & B). unfold f. rewrite E. exact B. }
  assert (P : forall q, In q pts -> exists i j, In (i, j) px /\ IZR i <= (vx q - x0) * IZR dpmm < IZR i + 1 /\ IZR j <= (vy q - y0) * IZR dpmm < IZR j + 1).
  { intros q Hq. exists (fst (f q)), (snd (f q)). split; [rewrite Epx, <- surjective_pairing; apply in_map; exact Hq|apply Hf; exact Hq]. }
  assert (Q : forall z, In z px -> exists q, In q pts /\ IZR (fst z) <= (vx q - x0) * IZR dpmm < IZR (fst z) + 1 /\ IZR (snd z) <= (vy q - y0) * IZR dpmm < IZR (snd z) + 1).
  { intros z Hz. rewrite Epx in Hz. apply in_map_iff in Hz as (q & <- & Hq). exists q. split; [exact Hq|apply Hf; exact Hq]. }
  assert (Kd : / IZR dpmm * IZR dpmm = 1) by (apply Rinv_l; lra). pose proof (Rinv_0_lt_compat _ Hd') as Hi.
  assert (Kx : (vx at_ - x0) * IZR dpmm = IZR (fst xy)) by (unfold at_; cbn; field; lra).
  assert (Ky : (vy at_ - y0) * IZR dpmm = IZR (snd xy)) by (unfold at_; cbn; field; lra).
  assert (One : Rabs (/ IZR dpmm) = / IZR dpmm) by (apply Rabs_right; lra).
  assert (Near : forall s t, (s = 1 \/ s = -1) -> (t = 1 \/ t = -1) -> close dpmm 1 at_ (MkVec (vx at_ + s * / IZR dpmm) (vy at_ + t * / IZR dpmm))).
  { intros s t Hs Ht. split; cbn [vx vy]; [replace (vx at_ - (vx at_ + s * / IZR dpmm)) with (- s * / IZR dpmm) by ring|replace (vy at_ - (vy at_ + t * / IZR dpmm)) with (- t * / IZR dpmm) by ring];
      rewrite Rabs_mult, One; [assert (Rabs (- s) = 1) as -> by (destruct Hs as [-> | ->]; unfold Rabs; destruct (Rcase_abs _); lra)|assert (Rabs (- t) = 1) as -> by (destruct Ht as [-> | ->]; unfold Rabs; destruct (Rcase_abs _); lra)]; lra. }
  split.
  - intros Hall. destruct (Hall _ (Near 1 1 ltac:(auto) ltac:(auto))) as (_ & (b & Hb & B) & _ & (d & Hdd & D)). destruct (Hall _ (Near (-1) (-1) ltac:(auto) ltac:(auto))) as ((a & Ha & A) & _ & (c & Hc & C) & _).
    cbn [vx vy] in A, B, C, D. unfold around_px. rewrite !andb_true_iff, !existsb_exists.
    destruct (P a Ha) as (ia & ja & Pa & Ia & Ja), (P b Hb) as (ib & jb & Pb & Ib & Jb), (P c Hc) as (ic & jc & Pc & Ic & Jc), (P d Hdd) as (id & jd & Pd & Id & Jd).
    assert (Lo : forall u w o, u <= w + -1 * / IZR dpmm -> (u - o) * IZR dpmm <= (w - o) * IZR dpmm - 1).
    { intros u w o H. replace ((w - o) * IZR dpmm - 1) with ((w + -1 * / IZR dpmm - o) * IZR dpmm) by (field; lra). apply Rmult_le_compat_r; lra. }
    assert (Up : forall u w o, w + 1 * / IZR dpmm <= u -> (w - o) * IZR dpmm + 1 <= (u - o) * IZR dpmm).
    { intros u w o H. replace ((w - o) * IZR dpmm + 1) with ((w + 1 * / IZR dpmm - o) * IZR dpmm) by (field; lra). apply Rmult_le_compat_r; lra. }
    apply (fun H => Lo _ _ x0 H) in A. apply (fun H => Up _ _ x0 H) in B. apply (fun H => Lo _ _ y0 H) in C. apply (fun H => Up _ _ y0 H) in D.
    split; [split; [split|]|]; [exists (ia, ja)|exists (ib, jb)|exists (ic, jc)|exists (id, jd)]; (split; [assumption|]); cbn [fst snd]; apply Z.leb_le; apply Z.lt_succ_r; apply lt_IZR; rewrite succ_IZR; lra.
  - intros Hnone. apply Bool.not_true_is_false. unfold around_px. rewrite !andb_true_iff, !existsb_exists. intros [[[(a & Ha & A) (b & Hb & B)] (c & Hc & C)] (d & Hdd & D)].
    apply Z.leb_le, IZR_le in A, B, C, D. destruct (Q a Ha) as (qa & Qa & Ia & _), (Q b Hb) as (qb & Qb & Ib & _), (Q c Hc) as (qc & Qc & _ & Jc), (Q d Hdd) as (qd & Qd & _ & Jd).
    apply (Hnone (MkVec (Rmax (vx at_) (vx qa)) (Rmax (vy at_) (vy qc)))).
    + assert (G : forall u w o i, (u - o) * IZR dpmm = i -> (w - o) * IZR dpmm < i + 1 -> Rabs (u - Rmax u w) * IZR dpmm <= 1).
      { intros u w o i E1 E2. unfold Rmax. destruct (Rle_dec u w); [|rewrite Rminus_eq_0, Rabs_R0; lra]. rewrite Rabs_left1 by lra. nra. }
      split; cbn [vx vy]; [apply (G _ _ x0 (IZR (fst xy)) Kx); lra|apply (G _ _ y0 (IZR (snd xy)) Ky); lra].
    + assert (G : forall u w z o i, (u - o) * IZR dpmm = i -> i <= (z - o) * IZR dpmm -> Rmax u w <= z \/ Rmax u w <= w).
      { intros u w z o i E1 E2. unfold Rmax. destruct (Rle_dec u w); [right; lra|left; nra]. }
      unfold around. cbn [vx vy]. split; [exists qa; split; [exact Qa|apply Rmax_r]|]. split.
      * destruct (G (vx at_) (vx qa) (vx qb) x0 (IZR (fst xy)) Kx ltac:(lra)) as [X|X]; [exists qb|exists qa]; auto.
      * split; [exists qc; split; [exact Qc|apply Rmax_r]|]. destruct (G (vy at_) (vy qc) (vy qd) y0 (IZR (snd xy)) Ky ltac:(lra)) as [X|X]; [exists qd|exists qc]; auto.
Qed.

(** A square of 40 pixels on a layer, pasted half a pixel off, and a square of 10 pixels cleared. *)
Section Case.
  Let bar (a b : R) (neg : bool) : draw R := DShape (MkShape [SLine (MkVec a a) (MkVec b b)] neg None).
  Let A := lit "a".
  Let pasted : draw R := DPaste (MkPaste A (MkVec (11 / 2) (11 / 2)) false None).
  Let l : list (buffer R) := [MkBuf A [bar 0 40 false] []; MkBuf main_id [pasted; bar 20 30 true] []].
  Let sq (lo hi : R) (p : vec R) : Prop := (lo <= vx p <= hi) /\ (lo <= vy p <= hi).
  Notation inside := (filled_in (Pillow 1) 0 around).
  Lemma bar_inside lo hi neg p : lo <= hi -> inside (MkShape [SLine (MkVec lo lo) (MkVec hi hi)] neg None) p <-> sq lo hi p.
  Proof.
    intros Hl. unfold sq, filled_in. split.
    - intros (pts & E & H). injection E as <-. destruct (around_spanned _ _ H (BoxOf lo lo hi hi)) as [X Y]; [|auto]. intros q Hq. cbn [In] in Hq.
      repeat destruct Hq as [<-|Hq]; try contradiction; cbn; lra.
    - intros [X Y]. eexists. split; [reflexivity|]. unfold around. split; [|split; [|split]];
        [exists (MkVec lo lo)|exists (MkVec hi hi)|exists (MkVec lo lo)|exists (MkVec hi hi)]; (split; [cbn; tauto|cbn; lra]).
  Qed.
  Let shows (id : str) (p : vec R) : Prop :=
    if str_eqb id A then sq 0 40 p else if str_eqb id main_id then sq (11 / 2) (91 / 2) p /\ ~ sq 20 30 p else False.
  Lemma case_layered : layered inside (map layer_of l) shows.
  Proof.
    intros id ds Hi p. destruct Hi as [Hi|[Hi|[]]]; injection Hi as <- <-.
    - change (shows A p) with (sq 0 40 p). split.
      + intros H. exists [], (bar 0 40 false), []. split; [reflexivity|]. split; [reflexivity|]. split; [apply bar_inside; [lra|exact H]|constructor].
      + intros (bf & d & af & E & _ & Hc & _). destruct bf as [|? [|? ?]]; try discriminate E. injection E as <- _. apply bar_inside in Hc; [exact Hc|lra].
    - change (shows main_id p) with (sq (11 / 2) (91 / 2) p /\ ~ sq 20 30 p).
      assert (Pasted : plane_covers inside (fun _ => MkVec 0 0) shows main_id pasted p <-> sq (11 / 2) (91 / 2) p).
      { cbn [plane_covers pasted pa_src pa_center]. match goal with |- shows A ?q <-> _ => change (shows A q) with (sq 0 40 q) end. unfold sq, plus_v, less_v. cbn [vx vy]. lra. }
      split.
      + intros [H1 H2]. exists [], pasted, [bar 20 30 true]. split; [reflexivity|]. split; [reflexivity|]. split; [apply Pasted; exact H1|].
        constructor; [|constructor]. intros _ X. apply bar_inside in X; [exact (H2 X)|lra].
      + intros (bf & d & af & E & Hn & Hc & Hf). destruct bf as [|? [|? [|? ?]]]; try discriminate E.
        * injection E as <- <-. split; [apply Pasted; exact Hc|]. inversion Hf as [|? ? X _]; subst. intros Y. apply (X eq_refl). apply bar_inside; [lra|exact Y].
        * injection E as _ <- _. discriminate Hn.
  Qed.
  Lemma case_placed p s p' : placed (map layer_of l) main_id p s p' ->
    (s = MkShape [SLine (MkVec 20 20) (MkVec 30 30)] true None /\ p' = p) \/
    (s = MkShape [SLine (MkVec 0 0) (MkVec 40 40)] false None /\ p' = MkVec (vx p - 11 / 2) (vy p - 11 / 2)).
  Proof.
    intros H. inversion H as [id ds s0 p0 Hi Hs E1 E2 E3 E4|id ds q p0 s0 p0' Hi Hq H' E1 E2 E3 E4]; subst.
    - destruct Hi as [Hi|[Hi|[]]]; [discriminate Hi|]. injection Hi as <-. destruct Hs as [X|[X|[]]]; [discriminate X|]. injection X as <-. left. auto.
    - destruct Hi as [Hi|[Hi|[]]]; [discriminate Hi|]. injection Hi as <-. destruct Hq as [X|[X|[]]]; [|discriminate X]. injection X as <-. cbn [pa_src pa_center vx vy] in H'.
      inversion H' as [id ds s0 p0 Hi Hs E1 E2 E3 E4|id ds q p0 s0 p0' Hi Hq _ E1 E2 E3 E4]; subst.
      + destruct Hi as [Hi|[Hi|[]]]; [|discriminate Hi]. injection Hi as <-. destruct Hs as [X|[]]. injection X as <-. right. auto.
      + destruct Hi as [Hi|[Hi|[]]]; [|discriminate Hi]. injection Hi as <-. destruct Hq as [X|[]]. discriminate X.
  Qed.
  Example C86_case : exists m b, vm_run (pillow (fun _ => None)) true (blocks_r l) = Ok (m, Some b) /\
    let '((width, height), pixel) := pillow_result around_px 1 0 m in
    forall x y p, (0 <= x < width)%Z -> (0 <= y < height)%Z -> close 1 1 (point_of 1 b (x, height - 1 - y)%Z) p ->
      (sq 9 16 p -> pixel (x, y) = true) /\ (sq 24 26 p -> pixel (x, y) = false).
  Proof.
    assert (Ho : ordered l).
    { intros l1 b l2 src E (q & Hq & <-). destruct l1 as [|? [|? [|? ?]]]; try discriminate E.
      - injection E as <- <-. destruct Hq as [X|[]]. discriminate X.
      - injection E as <- <- <-. destruct Hq as [X|[X|[]]]; [|discriminate X]. injection X as <-. left. reflexivity. }
    assert (HN : NoDup (map bf_id l)) by (constructor; [intros [X|[]]; discriminate X|constructor; [intros []|constructor]]).
    destruct (C23_pillow_accepts (fun _ => None) true (blocks_r l)) as (m & b & Er & _).
    { apply ordered_proper; auto. intros w [<-|[<-|[]]]; (split; [discriminate|]); intros s Hs; (split; [reflexivity|]); cbn [bf_cmds In] in Hs;
        repeat destruct Hs as [X|Hs]; try contradiction; try discriminate X; injection X as <-; unfold shape_box, seg_box, b_of_vecs; cbn [sh_segs fold_left b_extend area vx vy]; rewrite !r_min, !r_max;
        unfold Rmin, Rmax; destruct (Rle_dec _ _); lra. }
    { eexists. split; [apply blocks_closed|]. left. reflexivity. }
    exists m, b. split; [exact Er|].
    assert (Hrank : ranks (map layer_of l) (fun id => if str_eqb id A then 0%nat else 1%nat)).
    { intros id ds q [Hi|[Hi|[]]] Hq; injection Hi as <- <-; [destruct Hq as [X|[]]; discriminate X|]. destruct Hq as [X|[X|[]]]; [|discriminate X]. injection X as <-. cbn. lia. }
    assert (Hfair : all_fair (map layer_of l)).
    { intros id ds s g [Hi|[Hi|[]]] Hs Hg; injection Hi as <- <-; cbn [In bf_cmds] in Hs; repeat destruct Hs as [X|Hs]; try contradiction; try discriminate X; injection X as <-; destruct Hg as [<-|[]]; exact I. }
    pose proof (pixels_run around_px around 1 1 0 (fun _ => None) true l m b ltac:(lia) ltac:(lra) around_spanned (around_rasterizes 1 ltac:(lia)) Ho (or_intror (or_introl eq_refl)) Er Hfair _ Hrank shows case_layered) as H.
    destruct (pillow_result around_px 1 0 m) as [[width height] pixel]. cbn [fst snd] in H. intros x y p Hx Hy Hc.
    specialize (H x y p (conj Hx Hy) Hc). change (shows main_id p) with (sq (11 / 2) (91 / 2) p /\ ~ sq 20 30 p) in H.
    change (INR (if str_eqb main_id A then 0%nat else 1%nat)) with (INR 1) in H. cbn [INR] in H.
    assert (Ball : forall k p q, close 1 k p q -> vx p - k <= vx q <= vx p + k /\ vy p - k <= vy q <= vy p + k).
    { intros k u q [H1 H2]. rewrite Rmult_1_r in H1, H2. unfold Rabs in H1, H2. destruct (Rcase_abs (vx u - vx q)), (Rcase_abs (vy u - vy q)); lra. }
    split; intros Hp; unfold sq in Hp.
    - apply H; [|unfold sq; lra]. intros s p' Hpl. apply case_placed in Hpl as [[-> ->]|[-> ->]].
      + right. intros q Hq X. apply bar_inside in X; [|lra]. apply Ball in Hq. unfold sq in X. lra.
      + left. intros q Hq. apply bar_inside; [lra|]. apply Ball in Hq. cbn [vx vy] in Hq. unfold sq. lra.
    - apply Bool.not_true_is_false. intros X. apply H in X; [unfold sq in X; lra|]. intros s p' Hpl. apply case_placed in Hpl as [[-> ->]|[-> ->]].
      + left. intros q Hq. apply bar_inside; [lra|]. apply Ball in Hq. unfold sq. lra.
      + left. intros q Hq. apply bar_inside; [lra|]. apply Ball in Hq. cbn [vx vy] in Hq. unfold sq. lra.
  Qed.
End Case.
(** Two copies of a block of two rings. *)
Example C86_blocks_case : exists cmds ls ps,
  compile (NK := with_text NumR plain_text) false running same_order false stamped_rings = Ok cmds /\ layers cmds = Some ls /\ length ls = 3%nat /\
  file_pics (NK := with_text NumR plain_text) wide false running false stamped_rings ps /\
  forall dpmm fuel paints fl m b, (0 < dpmm)%Z -> vm_run (pillow paints) fl cmds = Ok (m, Some b) -> all_fair ls ->
    let '((width, height), pixel) := pillow_result around_px dpmm fuel m in
    forall x y p, (0 <= x < width)%Z -> (0 <= y < height)%Z -> close dpmm 1 (point_of dpmm b (x, height - 1 - y)%Z) p ->
      off_edges dpmm (filled_in (Pillow dpmm) fuel around) 4 ls main_id p -> pixel (x, y) = true <-> seen (map (pic_object (filled_in (Pillow dpmm) fuel around)) ps) p.
Proof.
  destruct (compile (NK := with_text NumR plain_text) false running same_order false stamped_rings) as [cmds|e] eqn:E.
  2: { exfalso. assert (X : match compile (NK := with_text NumR plain_text) false running same_order false stamped_rings with Ok _ => True | Err _ => False end) by (vm_compute; exact Logic.I). rewrite E in X. exact X. }
  destruct (C86_blocks_partial plain_text false running same_order same_order_ok running_inj false stamped_rings cmds rings_file E) as (ls & ps & L & P & H).
  exists cmds, ls, ps. split; [reflexivity|]. split; [exact L|]. split; [|split; [exact P|]].
  - assert (X : match compile (NK := with_text NumR plain_text) false running same_order false stamped_rings with
      | Ok c => match layers c with Some ls => length ls | None => 0%nat end | Err _ => 0%nat end = 3%nat) by (vm_compute; reflexivity).
    rewrite E, L in X. exact X.
  - intros dpmm fuel paints fl m b Hd. replace 4 with (3 + 1) by lra. apply H; [exact Hd|lra|exact around_spanned|apply around_rasterizes; exact Hd].
Qed.
Print Assumptions C86_pixels. Print Assumptions C86_ranks. Print Assumptions C86_backends. Print Assumptions C86_picture_partial. Print Assumptions C86_blocks_partial.

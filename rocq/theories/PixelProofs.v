(** C86: pixels and points. *)
From Coq Require Import Reals Lra Lia.
From Verif Require Import Base Num NumReal Dict Ast StateModel GeomModel CompilerModel BoxModel ArcModel VmModel LayerSpec BoxSpec BoxProps VmSpec VmProofs VmProps
  GeoSpec GeoProps ArcProps PaintModel PaintSpec PaintProofs PaintProps RenderSpec PixelSpec.
Open Scope R_scope.

(** ** Boxes *)
Definition upright (b : box R) : Prop := match b with BoxNone => True | BoxOf x0 y0 x1 y1 => x0 <= x1 /\ y0 <= y1 end.
Lemma extend_upright (b : box R) v : upright b -> upright (b_extend b v).
Proof.
  destruct b as [|x0 y0 x1 y1]; cbn [b_extend upright]; [intros _; lra|]. rewrite !r_min, !r_max.
  pose proof (Rmin_l x0 (vx v)). pose proof (Rmax_l x1 (vx v)). pose proof (Rmin_l y0 (vy v)). pose proof (Rmax_l y1 (vy v)). lra.
Qed.
Lemma vecs_upright l : forall b : box R, upright b -> upright (fold_left (b_extend (K := R)) l b).
Proof. induction l as [|v l IH]; intros b H; [exact H|]. cbn [fold_left]. apply IH. apply extend_upright. exact H. Qed.
Lemma seg_upright (s : seg R) : upright (seg_box s).
Proof. destruct s; cbn [seg_box]; unfold b_of_vecs; apply vecs_upright; cbn [upright]; lra. Qed.
Lemma join_upright (a b : box R) : upright a -> upright b -> upright (b_join a b).
Proof.
  destruct a as [|x0 y0 x1 y1], b as [|u0 v0 u1 v1]; cbn [b_join upright]; auto. rewrite !r_min, !r_max.
  pose proof (Rmin_l x0 u0). pose proof (Rmax_l x1 u1). pose proof (Rmin_l y0 v0). pose proof (Rmax_l y1 v1). lra.
Qed.
Lemma shape_upright (s : shape R) : upright (shape_box s).
Proof.
  unfold shape_box. destruct (sh_segs s) as [|x l]; [exact I|]. pose proof (seg_upright x) as H. revert H. generalize (seg_box x). induction l as [|y l IH]; intros b H; [exact H|].
  cbn [fold_left]. apply IH. apply join_upright; [exact H|apply seg_upright].
Qed.

(** Which points a layer has. *)
Section Frames.
  Context (be : VmModel.backend R) (fl : bool) (cs : list (cmd R)) (m : vm R).
  Hypothesis Ex : exec be fl cs vm_init = Ok m.
  Context (ls : list (str * list (draw R))).
  Let zero : vec R := MkVec 0 0.
  Hypothesis Hgiven : forall id ds, In (id, ds) ls -> given [] id cs = ds /\ In (KStart id None zero) cs.
  (** The box of a painted layer. *)
  Lemma layer_box id ds : In (id, ds) ls -> painted m id ->
    exists b, frame (vm_layers m) id = Some (b, zero) /\
      (forall s, In (DShape s) ds -> within Rle (embed (shape_box s)) (embed b)) /\
      (forall q, In (DPaste q) ds -> painted m (pa_src q) /\
         forall sb so, frame (vm_layers m) (pa_src q) = Some (sb, so) -> within Rle (box_unshift (box_shift (embed sb) (pa_center q)) so) (embed b)) /\
      ((forall s, In (DShape s) ds -> shape_box s = BoxNone) -> (forall q sb so, In (DPaste q) ds -> frame (vm_layers m) (pa_src q) = Some (sb, so) -> sb = BoxNone) -> b = BoxNone).
  Proof.
    intros Hi (b & o & l & Hg). destruct (Hgiven id ds Hi) as [Hd Hk].
    destruct (C25_exact_hull Rle r_ordered be fl cs m id zero b o l Ex Hk Hg) as (-> & El & _ & Hc & HP & Hl). rewrite Hd in El. subst l.
    rewrite Forall_forall in Hc, HP. exists b. split; [unfold frame; rewrite Hg; reflexivity|]. split; [|split].
    - intros s Hs. apply (HP _ Hs). reflexivity.
    - intros q Hq. split.
      + destruct (Hc _ Hq) as (c & sb & so & sl & Hsg & _). exists sb, so, sl. exact Hsg.
      + intros sb so Hf. apply (HP _ Hq). unfold frame in Hf. destruct (d_get (pa_src q) (vm_layers m)) as [[b1 o1 l1|]|] eqn:E; try discriminate Hf. injection Hf as -> ->.
        exists sb, so, l1. auto.
    - intros H1 H2. destruct b as [|x0 y0 x1 y1]; [reflexivity|]. exfalso.
      assert (W : within Rle (embed (BoxOf x0 y0 x1 y1)) (embed BoxNone)).
      { apply Hl. apply Forall_forall. intros [s|q] Hin a Ha.
        - cbn [covers] in Ha. rewrite (H1 s Hin) in Ha. subst a. repeat split.
        - destruct Ha as (sb & so & sl & Hsg & ->). assert (sb = BoxNone) as -> by (apply (H2 q sb so Hin); unfold frame; rewrite Hsg; reflexivity). repeat split. }
      destruct W as (W & _). exact W.
  Qed.
End Frames.

Lemma dark_iff {K P Q : Type} (c1 : draw K -> P -> Prop) (c2 : draw K -> Q -> Prop) ds p q :
  (forall d, In d ds -> c1 d p <-> c2 d q) -> dark c1 ds p <-> dark c2 ds q.
Proof.
  intros H. split; intros (bf & d & af & -> & Hn & Hc & Hf); exists bf, d, af; (split; [reflexivity|]); (split; [exact Hn|]);
    (split; [apply H; [apply in_or_app; right; left; reflexivity|exact Hc]|]); rewrite Forall_forall in *; intros e He Hce X;
    apply (Hf e He Hce); apply H; [apply in_or_app; right; right; exact He|exact X|apply in_or_app; right; right; exact He|exact X].
Qed.
Lemma close_refl dpmm k p : 0 <= k -> close dpmm k p p.
Proof. intros H. unfold close. rewrite !Rminus_eq_0, !Rabs_R0. lra. Qed.
Lemma close_sym dpmm k p q : close dpmm k p q -> close dpmm k q p.
Proof. unfold close. rewrite (Rabs_minus_sym (vx q)), (Rabs_minus_sym (vy q)). auto. Qed.
Lemma close_le dpmm j k p q : j <= k -> close dpmm j p q -> close dpmm k p q.
Proof. unfold close. lra. Qed.
Lemma close_trans dpmm j k p q r : (0 < dpmm)%Z -> close dpmm j p q -> close dpmm k q r -> close dpmm (j + k) p r.
Proof.
  intros Hd [A1 A2] [B1 B2]. apply (IZR_lt 0) in Hd. unfold close.
  assert (T : forall a b c, Rabs (a - c) * IZR dpmm <= Rabs (a - b) * IZR dpmm + Rabs (b - c) * IZR dpmm).
  { intros a b c. pose proof (Rabs_triang (a - b) (b - c)) as X. replace (a - b + (b - c)) with (a - c) in X by ring. nra. }
  pose proof (T (vx p) (vx q) (vx r)). pose proof (T (vy p) (vy q) (vy r)). lra.
Qed.
Lemma close_move dpmm k p q c : close dpmm k p q -> close dpmm k (less_v p c) (less_v q c).
Proof. unfold close, less_v. cbn [vx vy]. replace (vx p - vx c - (vx q - vx c)) with (vx p - vx q) by ring. replace (vy p - vy c - (vy q - vy c)) with (vy p - vy q) by ring. auto. Qed.

(** A pixel whose surroundings are in the box is a pixel of the image. *)
Lemma surrounded dpmm b p e k xy : (0 < dpmm)%Z -> 0 <= e -> e + 1 <= k -> (forall q, close dpmm k p q -> in_box b q) ->
  close dpmm e (point_of dpmm b xy) p -> inside_image (layer_size dpmm b) xy.
Proof.
  intros Hd He Hk Hb [Hx Hy]. pose proof (IZR_lt 0 dpmm Hd) as Hd'. destruct b as [|x0 y0 x1 y1]; [destruct (Hb p (close_refl dpmm k p ltac:(lra)))|].
  cbn [point_of vx vy] in Hx, Hy.
  assert (Kp : k / IZR dpmm * IZR dpmm = k) by (field; lra). assert (K0 : 0 <= k / IZR dpmm) by (unfold Rdiv; apply Rmult_le_pos; [lra|left; apply Rinv_0_lt_compat; lra]).
  assert (C : forall sx sy, (sx = 1 \/ sx = -1) -> (sy = 1 \/ sy = -1) -> close dpmm k p (MkVec (vx p + sx * (k / IZR dpmm)) (vy p + sy * (k / IZR dpmm)))).
  { assert (A : forall a s, (s = 1 \/ s = -1) -> Rabs (a - (a + s * (k / IZR dpmm))) * IZR dpmm <= k).
    { intros a s Hs. replace (a - (a + s * (k / IZR dpmm))) with (- s * (k / IZR dpmm)) by ring. rewrite Rabs_mult, (Rabs_right (k / IZR dpmm)) by lra.
      assert (Rabs (- s) = 1) as -> by (destruct Hs as [-> | ->]; [rewrite Rabs_Ropp, Rabs_R1|replace (- -1) with 1 by ring; rewrite Rabs_R1]; reflexivity). lra. }
    intros sx sy Hsx Hsy. split; cbn [vx vy]; apply A; assumption. }
  pose proof (Hb _ (C 1 1 ltac:(auto) ltac:(auto))) as [A1 A2]. pose proof (Hb _ (C (-1) (-1) ltac:(auto) ltac:(auto))) as [B1 B2]. cbn [vx vy] in *.
  rewrite size_pixels by lra. unfold inside_image. cbn [fst snd].
  assert (G : forall lo hi a i, a + 1 * (k / IZR dpmm) <= hi -> lo <= a + -1 * (k / IZR dpmm) -> Rabs (lo + IZR i / IZR dpmm - a) * IZR dpmm <= e ->
    (0 <= i < r_trunc ((hi - lo) * IZR dpmm))%Z).
  { intros lo hi a i H1 H2 H3. assert (Ki : IZR i / IZR dpmm * IZR dpmm = IZR i) by (field; lra).
    assert (Hr : - e <= (lo + IZR i / IZR dpmm - a) * IZR dpmm <= e) by (unfold Rabs in H3; destruct (Rcase_abs _); nra).
    assert (H4 : 0 <= (hi - lo) * IZR dpmm) by (apply Rmult_le_pos; lra). pose proof (r_trunc_bounds _ H4).
    assert (H5 : (lo + k / IZR dpmm) * IZR dpmm <= a * IZR dpmm) by (apply Rmult_le_compat_r; lra).
    assert (H6 : a * IZR dpmm <= (hi - k / IZR dpmm) * IZR dpmm) by (apply Rmult_le_compat_r; lra).
    split; [apply Z.lt_succ_r; apply lt_IZR; rewrite succ_IZR; nra|apply lt_IZR; nra]. }
  split; eapply G; try eassumption; lra.
Qed.

(** ** Layers *)
Section Layers.
  Context (fill : list (Z * Z) -> bitmap) (fillR : list (vec R) -> vec R -> Prop) (dpmm : Z) (r : R) (fuel : nat).
  Hypothesis Hd : (0 < dpmm)%Z.
  Hypothesis Hr : 1 <= r.
  Hypothesis Hspan : spanned fillR.
  Hypothesis Hrast : rasterizes dpmm r fill fillR.
  Notation inside := (filled_in (Pillow dpmm) fuel fillR).
  Context (be : VmModel.backend R) (fl : bool) (cs : list (cmd R)) (m : vm R).
  Hypothesis Ex : exec be fl cs vm_init = Ok m.
  Context (ls : list (str * list (draw R))).
  Let zero : vec R := MkVec 0 0.
  Hypothesis Hgiven : forall id ds, In (id, ds) ls -> given [] id cs = ds /\ In (KStart id None zero) cs.
  Hypothesis Hsrc : forall id ds q, In (id, ds) ls -> In (DPaste q) ds -> exists ds', In (pa_src q, ds') ls.
  Hypothesis Hfair : all_fair ls.
  Context (rank : str -> nat).
  Hypothesis Hrank : ranks ls rank.
  Context (shows : str -> vec R -> Prop) (px : str -> Z * Z -> Prop).
  Hypothesis Hshows : layered inside ls shows.
  Hypothesis Hpx : forall id ds, In (id, ds) ls -> painted m id ->
    forall xy, px id xy <-> dark (pixel_covers (size_of dpmm m) (filled_by fill dpmm fuel m) (corner_of dpmm m) px id) ds xy.

  Lemma boxes_upright : forall n id ds b o, (rank id < n)%nat -> In (id, ds) ls -> frame (vm_layers m) id = Some (b, o) -> upright b.
  Proof.
    induction n as [|n IH]; intros id ds b o Hn Hi Hf; [lia|].
    assert (Hp : painted m id) by (unfold frame in Hf; destruct (d_get id (vm_layers m)) as [[b0 o0 l0|]|] eqn:E; try discriminate; exists b0, o0, l0; exact E).
    destruct (layer_box be fl cs m Ex ls Hgiven id ds Hi Hp) as (b' & Hf' & B1 & B2 & B3). rewrite Hf in Hf'. injection Hf' as <- ->.
    destruct b as [|x0 y0 x1 y1]; [exact I|].
    assert (T : forall e, within Rle (embed e) (embed (BoxOf x0 y0 x1 y1)) -> upright e -> e = BoxNone \/ upright (BoxOf x0 y0 x1 y1)).
    { intros [|a c a' c'] W U; [auto|right]. unfold within in W. cbn in W, U |- *. lra. }
    assert (D : forall d, In d ds -> upright (BoxOf x0 y0 x1 y1) \/ match d with DShape s => shape_box s = BoxNone | DPaste q => forall sb so, frame (vm_layers m) (pa_src q) = Some (sb, so) -> sb = BoxNone end).
    { intros [s|q] Hin.
      - destruct (T _ (B1 s Hin) (shape_upright s)); auto.
      - destruct (B2 q Hin) as ((sb & so & sl & Hg) & W). specialize (W sb so ltac:(unfold frame; rewrite Hg; reflexivity)).
        destruct (Hsrc id ds q Hi Hin) as (ds' & Hi'). pose proof (Hrank id ds q Hi Hin) as Hk.
        pose proof (IH (pa_src q) ds' sb so ltac:(lia) Hi' ltac:(unfold frame; rewrite Hg; reflexivity)) as U.
        destruct sb as [|a c a' c']; [right; intros sb so'; unfold frame; rewrite Hg; congruence|]. left. unfold within in W. cbn in W, U |- *. lra. }
    assert (X : upright (BoxOf x0 y0 x1 y1) \/ forall d, In d ds -> match d with DShape s => shape_box s = BoxNone | DPaste q => forall sb so, frame (vm_layers m) (pa_src q) = Some (sb, so) -> sb = BoxNone end).
    { clear - D. induction ds as [|d ds IH]; [right; intros ? []|]. destruct (IH (fun d Hin => D d (or_intror Hin))) as [U|H]; [auto|].
      destruct (D d (or_introl eq_refl)) as [U|H']; [auto|]. right. intros d' [<-|Hd']; [exact H'|exact (H d' Hd')]. }
    destruct X as [U|H]; [exact U|]. exfalso. discriminate (B3 (fun s Hs => H _ Hs) (fun q sb so Hq => H _ Hq sb so)).
  Qed.
  Lemma box_of id ds : In (id, ds) ls -> painted m id -> exists b, frame (vm_layers m) id = Some (b, zero) /\ upright b /\
    (forall s p, In (DShape s) ds -> in_box (shape_box s) p -> in_box b p) /\
    (forall q, In (DPaste q) ds -> painted m (pa_src q) /\ exists ds' sb, In (pa_src q, ds') ls /\ frame (vm_layers m) (pa_src q) = Some (sb, zero) /\
       forall p, in_box sb (less_v p (pa_center q)) -> in_box b p).
  Proof.
    intros Hi Hp. destruct (layer_box be fl cs m Ex ls Hgiven id ds Hi Hp) as (b & Hf & B1 & B2 & B3). exists b. split; [exact Hf|].
    split; [exact (boxes_upright (S (rank id)) id ds b zero ltac:(lia) Hi Hf)|]. split.
    - intros s p Hs Hin. specialize (B1 s Hs). destruct (shape_box s) as [|a c a' c']; [destruct Hin|]. unfold within in B1. destruct b as [|x0 y0 x1 y1]; cbn in B1, Hin |- *; [tauto|lra].
    - intros q Hq. destruct (B2 q Hq) as (Hps & W). split; [exact Hps|]. destruct (Hsrc id ds q Hi Hq) as (ds' & Hi').
      destruct (layer_box be fl cs m Ex ls Hgiven _ _ Hi' Hps) as (sb & Hsf & _). exists ds', sb. split; [exact Hi'|]. split; [exact Hsf|].
      specialize (W sb _ Hsf). intros p Hin. destruct sb as [|a c a' c']; [destruct Hin|]. unfold within, zero, less_v in *. destruct b as [|x0 y0 x1 y1]; cbn in W, Hin |- *; [tauto|lra].
  Qed.
  Lemma inside_box s p : (forall g, In g (sh_segs s) -> fair g) -> inside s p -> in_box (shape_box s) p.
  Proof. intros Hf (pts & E & H). apply (Hspan pts p H). intros q Hq. exact (C57_points_partial _ _ _ _ Hf E q Hq). Qed.

  (** What is seen of a layer off the edges lies well inside of its box. *)
  Lemma seen_inside : forall n id ds b k p, (rank id < n)%nat -> 0 <= k -> In (id, ds) ls -> painted m id -> frame (vm_layers m) id = Some (b, zero) ->
    off_edges dpmm inside k ls id p -> shows id p -> forall q, close dpmm k p q -> in_box b q.
  Proof.
    induction n as [|n IH]; intros id ds b k p Hn Hk Hi Hp Hf Ho Hs q Hq; [lia|].
    destruct (box_of id ds Hi Hp) as (b' & Hf' & _ & B1 & B2). rewrite Hf in Hf'. injection Hf' as <-.
    apply (Hshows id ds Hi) in Hs as (bf & d & af & Ed & _ & Hc & _). assert (Hin : In d ds) by (rewrite Ed; apply in_or_app; right; left; reflexivity).
    destruct d as [s|u]; cbn [plane_covers] in Hc.
    - apply (B1 s q Hin). apply inside_box; [intros g Hg; exact (Hfair id ds s g Hi Hin Hg)|].
      destruct (Ho s p (placed_here ls id ds s p Hi Hin)) as [H|H]; [exact (H q Hq)|]. destruct (H p (close_refl _ _ _ Hk) Hc).
    - destruct (B2 u Hin) as (Hps & ds' & sb & Hi' & Hsf & W). apply W. apply (IH (pa_src u) ds' sb k (less_v p (pa_center u))); try assumption.
      + pose proof (Hrank id ds u Hi Hin). lia.
      + intros s p' H. apply Ho. exact (placed_paste ls id ds u p s p' Hi Hin H).
      + replace (plus_v _ _) with (less_v p (pa_center u)) in Hc; [exact Hc|]. destruct p as [p1 p2]. unfold plus_v, less_v. cbn [vx vy]. f_equal; lra.
      + apply close_move. exact Hq.
  Qed.
  (** Where the pixels of a pasted layer come from. *)
  Lemma pasted_point b sb q xy : upright b -> upright sb -> (forall p, in_box sb (less_v p (pa_center q)) -> in_box b p) -> sb <> BoxNone ->
    let uv := (fst xy - fst (paste_corner dpmm b sb zero (pa_center q)), snd xy - snd (paste_corner dpmm b sb zero (pa_center q)))%Z in
    close dpmm 1 (point_of dpmm sb uv) (less_v (point_of dpmm b xy) (pa_center q)).
  Proof.
    intros Ub Us W Hne. cbv zeta. pose proof (IZR_lt 0 dpmm Hd) as Hd'. destruct sb as [|u0 v0 u1 v1]; [congruence|]. cbn [upright] in Us.
    assert (Hb : in_box b (MkVec (u0 + vx (pa_center q)) (v0 + vy (pa_center q)))) by (apply W; cbn; lra).
    destruct b as [|x0 y0 x1 y1]; [destruct Hb|]. cbn [upright] in Ub. cbn [in_box vx vy] in Hb. rewrite corner_pixel by lra. unfold zero. cbn [fst snd vx vy point_of less_v].
    assert (A : forall lo i u c, lo <= u + c -> Rabs (u + IZR (i - r_trunc ((u + c - 0 - lo) * IZR dpmm)) / IZR dpmm - (lo + IZR i / IZR dpmm - c)) * IZR dpmm <= 1).
    { intros lo i u c H. assert (P : 0 <= (u + c - 0 - lo) * IZR dpmm) by nra. pose proof (r_trunc_bounds _ P) as [P1 P2]. rewrite minus_IZR. set (t := IZR (r_trunc _)) in *.
      replace (u + (IZR i - t) / IZR dpmm - (lo + IZR i / IZR dpmm - c)) with (((u + c - 0 - lo) * IZR dpmm - t) / IZR dpmm) by (field; lra).
      unfold Rdiv. rewrite Rabs_mult, (Rabs_right (/ IZR dpmm)) by (left; apply Rinv_0_lt_compat; lra). rewrite Rmult_assoc, Rinv_l, Rmult_1_r by lra.
      rewrite Rabs_right by lra. lra. }
    split; cbn [vx vy]; apply A; lra.
  Qed.
  Lemma pixel_point : forall n id ds b xy e p, (rank id < n)%nat -> 0 <= e -> In (id, ds) ls -> painted m id -> frame (vm_layers m) id = Some (b, zero) ->
    inside_image (layer_size dpmm b) xy -> close dpmm e (point_of dpmm b xy) p ->
    forall k, e + r + INR (rank id) <= k -> off_edges dpmm inside k ls id p -> px id xy <-> shows id p.
  Proof.
    induction n as [|n IH]; intros id ds b xy e p Hn He Hi Hp Hf Hxy Hc k Hk Ho; [lia|].
    destruct (box_of id ds Hi Hp) as (b' & Hf' & Ub & B1 & B2). rewrite Hf in Hf'. injection Hf' as <-. pose proof (pos_INR (rank id)) as Hpos.
    rewrite (Hpx id ds Hi Hp), (Hshows id ds Hi). apply dark_iff. intros d Hin. unfold pixel_covers.
    assert (Hsz : size_of dpmm m id = layer_size dpmm b) by (unfold size_of; rewrite Hf; reflexivity).
    rewrite Hsz. destruct d as [s|u]; cbn [plane_covers].
    - assert (Hfs : forall g, In g (sh_segs s) -> fair g) by (intros g Hg; exact (Hfair id ds s g Hi Hin Hg)).
      assert (Near : forall q, close dpmm r (point_of dpmm b xy) q -> close dpmm k p q).
      { intros q Hq. apply (close_le dpmm (e + r)); [lra|]. apply (close_trans dpmm e r p (point_of dpmm b xy) q Hd); [apply close_sym; exact Hc|exact Hq]. }
      assert (Hkp : close dpmm k p p) by (apply close_refl; lra). pose proof (Ho s p (placed_here ls id ds s p Hi Hin)) as Hs. unfold filled_by. rewrite Hf. split.
      + intros [_ (b0 & o0 & pts & E0 & Ep & Ef)]. injection E0 as <- <-. destruct Hs as [Hs|Hs]; [exact (Hs p Hkp)|]. exfalso.
        assert (Hpts : forall q, In q pts -> in_box b q) by (intros q Hq; apply (B1 s q Hin); exact (C57_points_partial _ _ _ _ Hfs Ep q Hq)).
        destruct b as [|x0 y0 x1 y1]; [unfold inside_image in Hxy; cbn [layer_size fst snd] in Hxy; lia|].
        destruct (Hrast x0 y0 x1 y1 pts xy Hpts) as [_ H2]. cbn [layer_pixels] in Ef. rewrite H2 in Ef; [discriminate|].
        intros q Hq X. apply (Hs q (Near q Hq)). exists pts. auto.
      + intros (pts & Ep & Hpp). split; [exact Hxy|]. exists b, zero, pts. split; [reflexivity|]. split; [exact Ep|].
        assert (Hpts : forall q, In q pts -> in_box b q) by (intros q Hq; apply (B1 s q Hin); exact (C57_points_partial _ _ _ _ Hfs Ep q Hq)).
        destruct b as [|x0 y0 x1 y1]; [unfold inside_image in Hxy; cbn [layer_size fst snd] in Hxy; lia|].
        destruct (Hrast x0 y0 x1 y1 pts xy Hpts) as [H1 _]. apply H1. intros q Hq. destruct Hs as [Hs|Hs]; [|destruct (Hs p Hkp); exists pts; auto].
        destruct (Hs q (Near q Hq)) as (pts' & Ep' & X). congruence.
    - destruct (B2 u Hin) as (Hps & ds' & sb & Hi' & Hsf & W).
      assert (Hcorner : corner_of dpmm m id u = paste_corner dpmm b sb zero (pa_center u)) by (unfold corner_of; rewrite Hf, Hsf; reflexivity).
      assert (Hss : size_of dpmm m (pa_src u) = layer_size dpmm sb) by (unfold size_of; rewrite Hsf; reflexivity).
      rewrite Hcorner, Hss. cbv zeta. set (uv := (_, _)). pose proof (Hrank id ds u Hi Hin) as Hlt.
      replace (plus_v (less_v p (pa_center u)) (MkVec 0 0)) with (less_v p (pa_center u)) by (destruct p as [p1 p2]; unfold plus_v, less_v; cbn [vx vy]; f_equal; lra).
      assert (Hr1 : e + 1 + r + INR (rank (pa_src u)) <= k).
      { assert (INR (rank (pa_src u)) + 1 <= INR (rank id)) by (rewrite <- S_INR; apply le_INR; exact Hlt). lra. }
      assert (Ho' : off_edges dpmm inside k ls (pa_src u) (less_v p (pa_center u))) by (intros s p' H; apply Ho; exact (placed_paste ls id ds u p s p' Hi Hin H)).
      assert (Us : upright sb) by exact (boxes_upright (S (rank (pa_src u))) (pa_src u) ds' sb zero ltac:(lia) Hi' Hsf).
      assert (Hc' : sb <> BoxNone -> close dpmm (e + 1) (point_of dpmm sb uv) (less_v p (pa_center u))).
      { intros Hne. rewrite Rplus_comm. apply (close_trans dpmm 1 e _ (less_v (point_of dpmm b xy) (pa_center u)) _ Hd); [|apply close_move; exact Hc].
        exact (pasted_point b sb u xy Ub Us W Hne). }
      pose proof (pos_INR (rank (pa_src u))) as Hpos'.
      split.
      + intros [_ [Huv Hpu]].
        assert (Hne : sb <> BoxNone) by (intros ->; unfold inside_image in Huv; cbn [layer_size fst snd] in Huv; lia).
        apply (IH (pa_src u) ds' sb uv (e + 1) (less_v p (pa_center u)) ltac:(lia) ltac:(lra) Hi' Hps Hsf Huv (Hc' Hne) k Hr1 Ho'). exact Hpu.
      + intros Hsh. pose proof (seen_inside (S (rank (pa_src u))) (pa_src u) ds' sb k _ ltac:(lia) ltac:(lra) Hi' Hps Hsf Ho' Hsh) as Hin_sb.
        assert (Hne : sb <> BoxNone) by (intros ->; exact (Hin_sb _ (close_refl dpmm k _ ltac:(lra)))).
        assert (Huv : inside_image (layer_size dpmm sb) uv) by (apply (surrounded dpmm sb (less_v p (pa_center u)) (e + 1) k uv Hd); [lra|lra|exact Hin_sb|exact (Hc' Hne)]).
        split; [exact Hxy|]. split; [exact Huv|].
        apply (IH (pa_src u) ds' sb uv (e + 1) (less_v p (pa_center u)) ltac:(lia) ltac:(lra) Hi' Hps Hsf Huv (Hc' Hne) k Hr1 Ho'). exact Hsh.
  Qed.
End Layers.

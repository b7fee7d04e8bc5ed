(** Property theorems C61 and C62: what the backends paint. *)
From Coq Require Import Reals Lra Lia.
From Verif Require Import Base Num NumReal Dict Ast StateModel GeomModel CompilerModel BoxModel ArcModel VmModel BoxSpec BoxProofs BoxProps VmSpec VmProofs VmInv VmSim VmAccept VmProps PaintModel PaintSpec PaintProofs.
Open Scope R_scope.

Lemma run_exec {K} {NK : Num K} (be : backend K) fl cs m b : vm_run be fl cs = Ok (m, b) ->
  exec be fl cs vm_init = Ok m /\ vm_result be fl m = Ok b.
Proof.
  unfold vm_run. destruct (exec be fl cs vm_init) as [m0|]; [|discriminate]. cbn [bind].
  destruct (vm_result be fl m0) as [b0|] eqn:E; [|discriminate]. cbn [bind]. intros H. injection H as -> ->. auto.
Qed.

(** C61, shapely.  Every stream that runs and pastes only closed layers stands for exactly one
    image, made by light and dark rules from the fillings of its outlines, and the result of the
    run is the image of the main layer, moved to its origin. *)
Theorem C61_shapely :
  forall (fill : list (vec R) -> vec R -> Prop) (meets : region R -> region R -> bool) fuel paints fl cs m b,
    fills_anywhere fill -> (forall g h p, meets g h = false -> g p -> h p -> False) ->
    pastes_closed cs -> vm_run (shapely paints) fl cs = Ok (m, b) ->
    let inside s p := exists pts, shape_points Shapely fuel s = Ok pts /\ fill pts p in
    let origin := origin_of (MkVec 0 0) cs in
    let right := image (plane_covers inside origin) (painted m) cs in
    (exists shows, right shows) /\
    (forall shows, right shows -> forall p,
       shapely_result fill meets fuel m (less_v p (origin main_id)) <-> shows main_id p).
Proof.
  intros fill meets fuel paints fl cs m b Hfill Hmeets Hc E inside origin right. destruct (run_exec _ _ _ _ _ E) as [Ex Er].
  destruct (images (shapely paints) fl (list (region R)) (vec R) (shapely_put fill meets fuel) [] (lit_abs cs)
    (plane_covers inside origin) cs m eq_refl Hc Ex) as [H1 H2].
  - intros id p H. inversion H.
  - intros sh sh' id d p H. destruct d as [s|q]; cbn [plane_covers]; [reflexivity|]. apply H. reflexivity.
  - intros st id b0 o d p Hf Hq. apply (shapely_lit fill meets fuel Hfill Hmeets (shapely paints) fl cs m st id b0 o d p Ex Hf Hq).
  - split; [eexists; exact H1|]. intros shows Hs p.
    assert (Hm : painted m main_id).
    { unfold vm_result in Er. unfold painted. destruct (d_get main_id (vm_layers m)) as [[b0 o l|o l]|]; [eauto|discriminate Er|].
      cbn [shapely be_needs_main] in Er. rewrite orb_true_r in Er. discriminate Er. }
    rewrite <- (H2 _ _ H1 Hs main_id Hm p). reflexivity.
Qed.

(** C61, pillow, for any number type: the same with pixels.  The image has the size of the main
    layer's box in pixels, and its rows are counted from the top. *)
Theorem C61_pillow :
  forall (K : Type) (NK : Num K) (fill : list (Z * Z) -> bitmap) dpmm fuel paints fl (cs : list (cmd K)) m b,
    pastes_closed cs -> vm_run (pillow paints) fl cs = Ok (m, b) ->
    let right := image (pixel_covers (size_of dpmm m) (filled_by fill dpmm fuel m) (corner_of dpmm m)) (painted m) cs in
    let '(size, pixel) := pillow_result fill dpmm fuel m in
    (exists shows, right shows) /\
    match b with
    | None => size = (1, 1)%Z /\ forall xy, pixel xy = false
    | Some b => size = layer_size dpmm b /\
        forall shows, right shows -> forall x y, pixel (x, y) = true <-> shows main_id (x, snd size - 1 - y)%Z
    end.
Proof.
  intros K NK fill dpmm fuel paints fl cs m b Hc E right. destruct (run_exec _ _ _ _ _ E) as [Ex Er].
  destruct (images (pillow paints) fl bitmap (Z * Z) (pillow_put fill dpmm fuel) (fun _ => false) lit_px
    (pixel_covers (size_of dpmm m) (filled_by fill dpmm fuel m) (corner_of dpmm m)) cs m eq_refl Hc Ex) as [H1 H2].
  - intros id p H. discriminate H.
  - intros sh sh' id d p H. destruct d as [s|q]; unfold pixel_covers; [reflexivity|]. cbv zeta. rewrite (H q eq_refl). reflexivity.
  - intros st id b0 o d p Hf Hq. exact (pillow_lit fill dpmm fuel m st id b0 o d p Hf Hq).
  - unfold pillow_result, frame. unfold vm_result in Er. destruct (d_get main_id (vm_layers m)) as [[b0 o l|o l]|] eqn:Eg; [|discriminate Er|].
    + injection Er as <-. split; [eexists; exact H1|]. split; [reflexivity|]. intros shows Hs x y. cbn [fst snd].
      rewrite <- (H2 _ _ H1 Hs main_id); [reflexivity|]. exists b0, o, l. exact Eg.
    + split; [eexists; exact H1|]. destruct (fl || be_needs_main (pillow paints)); [discriminate Er|]. injection Er as <-. auto.
Qed.

(** *** C62 *)
Lemma trunc_add a b : 0 <= a -> 0 <= b -> (r_trunc a + r_trunc b <= r_trunc (a + b) <= r_trunc a + r_trunc b + 1)%Z.
Proof.
  intros Ha Hb. assert (B : forall x, 0 <= x -> IZR (r_trunc x) <= x < IZR (r_trunc x) + 1).
  { intros x H. unfold r_trunc. destruct (Rle_dec 0 x); [|contradiction]. destruct (base_Int_part x). lra. }
  pose proof (B a Ha). pose proof (B b Hb). pose proof (B (a + b) ltac:(lra)). split.
  - apply Z.lt_succ_r. apply lt_IZR. rewrite succ_IZR, plus_IZR. lra.
  - apply Z.lt_succ_r. apply lt_IZR. rewrite succ_IZR, !plus_IZR. lra.
Qed.
Lemma trunc_mono a b : 0 <= a <= b -> (r_trunc a <= r_trunc b)%Z.
Proof.
  intros [Ha Hb]. assert (B : forall x, 0 <= x -> IZR (r_trunc x) <= x < IZR (r_trunc x) + 1).
  { intros x H. unfold r_trunc. destruct (Rle_dec 0 x); [|contradiction]. destruct (base_Int_part x). lra. }
  pose proof (B a Ha). pose proof (B b ltac:(lra)). apply Z.lt_succ_r. apply lt_IZR. rewrite succ_IZR. lra.
Qed.
Lemma trunc_nonneg a : 0 <= a -> (0 <= r_trunc a)%Z.
Proof. intros H. pose proof (trunc_mono 0 a ltac:(lra)). unfold r_trunc in H0 at 1. destruct (Rle_dec 0 0); [|lra]. destruct (base_Int_part 0). 
  assert (Int_part 0 = 0)%Z; [|lia]. apply Z.le_antisymm; [apply le_IZR; lra|]. apply Z.lt_succ_r. apply lt_IZR. rewrite succ_IZR. lra. Qed.

(** Where the corner of a pasted image comes: the pixel of the shifted corner of its box. *)
Lemma corner_pixel dpmm (x0 y0 x1 y1 u0 v0 u1 v1 : R) so c : x0 <= x1 -> y0 <= y1 -> u0 <= u1 -> v0 <= v1 ->
  paste_corner dpmm (BoxOf x0 y0 x1 y1) (BoxOf u0 v0 u1 v1) so c =
  (r_trunc ((u0 + vx c - vx so - x0) * IZR dpmm), r_trunc ((v0 + vy c - vy so - y0) * IZR dpmm)).
Proof.
  intros H1 H2 H3 H4. unfold paste_corner, half_width, half_height, middle, to_pixel. cbn [n_trunc n_mul n_add n_sub n_abs n_div NumR vx vy].
  rewrite !r_of_Z, !r_n2. rewrite !(Rabs_right (_ - _)) by lra. f_equal; f_equal; field.
Qed.
Lemma size_pixels dpmm (x0 y0 x1 y1 : R) : x0 <= x1 -> y0 <= y1 ->
  layer_size dpmm (BoxOf x0 y0 x1 y1) = (r_trunc ((x1 - x0) * IZR dpmm), r_trunc ((y1 - y0) * IZR dpmm)).
Proof.
  intros H1 H2. unfold layer_size, image_size, to_pixel. cbn [n_trunc n_mul n_sub n_abs NumR]. rewrite !r_of_Z.
  rewrite !Rabs_right by lra. reflexivity.
Qed.
(** C62.  On a layer without declared box every pasted image lies inside of the image of the
    layer, so nothing of it is cut off. *)
Theorem C62_pasted_inside :
  forall dpmm be fl (cs : list (cmd R)) m id o b o' l q u0 v0 u1 v1 so sl, (0 <= dpmm)%Z ->
    exec be fl cs vm_init = Ok m -> In (KStart id None o) cs -> d_get id (vm_layers m) = Some (LEager b o' l) ->
    In (DPaste q) (given [] id cs) -> d_get (pa_src q) (vm_layers m) = Some (LEager (BoxOf u0 v0 u1 v1) so sl) -> u0 <= u1 -> v0 <= v1 ->
    let '(x, y) := corner_of dpmm m id q in
    (0 <= x /\ x + fst (size_of dpmm m (pa_src q)) <= fst (size_of dpmm m id))%Z /\
    (0 <= y /\ y + snd (size_of dpmm m (pa_src q)) <= snd (size_of dpmm m id))%Z.
Proof.
  intros dpmm be fl cs m id o b o' l q u0 v0 u1 v1 so sl Hd Ex Hin Hg Hq Hs Hu Hv. apply (IZR_le 0) in Hd.
  destruct (C25_exact_hull Rle r_ordered be fl cs m id o b o' l Ex Hin Hg) as (-> & El & _ & _ & HP & _).
  rewrite Forall_forall in HP. rewrite <- El in Hq.
  specialize (HP _ Hq (box_unshift (box_shift (embed (BoxOf u0 v0 u1 v1)) (pa_center q)) so)).
  destruct HP as (W1 & W2 & W3 & W4); [cbn [covers]; exists (BoxOf u0 v0 u1 v1), so, sl; auto|].
  unfold corner_of, size_of, frame. rewrite Hg, Hs.
  destruct b as [|x0 y0 x1 y1]; [exfalso; exact W1|].
  cbn in W1, W2, W3, W4.
  rewrite corner_pixel by lra. rewrite !size_pixels by lra. cbn [fst snd].
  assert (A : forall lo hi a b, 0 <= lo -> lo + (b - a) <= hi -> a <= b ->
    (0 <= r_trunc (lo * IZR dpmm) /\ r_trunc (lo * IZR dpmm) + r_trunc ((b - a) * IZR dpmm) <= r_trunc (hi * IZR dpmm))%Z).
  { intros lo hi a b L1 L2 L3. split; [apply trunc_nonneg; nra|].
    pose proof (trunc_add (lo * IZR dpmm) ((b - a) * IZR dpmm) ltac:(nra) ltac:(nra)) as [T _].
    eapply Z.le_trans; [exact T|]. apply trunc_mono. nra. }
  split; [apply (A _ (x1 - x0))|apply (A _ (y1 - y0))]; lra.
Qed.
(** C62.  A point of a pasted layer comes to the pixel it would have had if it had been drawn
    directly, or one to the left (below) of it: rounding is done twice. *)
Theorem C62_pixel_shift :
  forall dpmm (x0 y0 x1 y1 u0 v0 u1 v1 : R) so c (p : vec R) i j, (0 <= dpmm)%Z ->
    u0 <= vx p <= u1 -> v0 <= vy p <= v1 ->
    x0 <= u0 + vx c - vx so -> u1 + vx c - vx so <= x1 -> y0 <= v0 + vy c - vy so -> v1 + vy c - vy so <= y1 ->
    polygon_pixels dpmm u0 v0 u1 v1 [p] = [(i, j)] ->
    let '(x, y) := paste_corner dpmm (BoxOf x0 y0 x1 y1) (BoxOf u0 v0 u1 v1) so c in
    exists i' j', polygon_pixels dpmm x0 y0 x1 y1 [less_v (plus_v p c) so] = [(i', j')] /\
      (x + i <= i' <= x + i + 1)%Z /\ (y + j <= j' <= y + j + 1)%Z.
Proof.
  intros dpmm x0 y0 x1 y1 u0 v0 u1 v1 so c p i j Hd Hp Hp' H1 H2 H3 H4 E. apply (IZR_le 0) in Hd.
  rewrite corner_pixel by lra. do 2 eexists. split; [reflexivity|]. revert E.
  unfold to_pixel. cbv zeta. cbn [n_trunc n_mul n_add n_sub n_abs n_div NumR vx vy less_v plus_v map polygon_pixels].
  unfold to_pixel. cbn [n_trunc n_mul n_add n_sub n_abs n_div NumR vx vy]. rewrite !r_of_Z, !r_n2.
  rewrite !(Rabs_right (_ - _)) by lra.
  replace ((x1 + x0) / 2 - (x1 - x0) / 2) with x0 by field. replace ((y1 + y0) / 2 - (y1 - y0) / 2) with y0 by field.
  replace ((u1 + u0) / 2 - (u1 - u0) / 2) with u0 by field. replace ((v1 + v0) / 2 - (v1 - v0) / 2) with v0 by field.
  intros E. injection E as <- <-.
  replace ((vx p + vx c - vx so - x0) * IZR dpmm) with ((u0 + vx c - vx so - x0) * IZR dpmm + (vx p - u0) * IZR dpmm) by ring.
  replace ((vy p + vy c - vy so - y0) * IZR dpmm) with ((v0 + vy c - vy so - y0) * IZR dpmm + (vy p - v0) * IZR dpmm) by ring.
  split; apply trunc_add; nra.
Qed.
(** The pixel is not always the same one. *)
Theorem C62_same_pixel_refuted :
  exists dpmm (x0 y0 x1 y1 u0 v0 u1 v1 : Q) so c p i j i' j', let _ := NumQ in
    polygon_pixels dpmm u0 v0 u1 v1 [p] = [(i, j)] /\
    polygon_pixels dpmm x0 y0 x1 y1 [v_sub (v_add p c) so] = [(i', j')] /\
    (fst (paste_corner dpmm (BoxOf x0 y0 x1 y1) (BoxOf u0 v0 u1 v1) so c) + i <> i')%Z.
Proof.
  exists 1%Z, 0%Q, 0%Q, 4%Q, 4%Q, (1 # 2)%Q, (1 # 2)%Q, 2%Q, 2%Q, (MkVec 0%Q 0%Q), (MkVec 0%Q 0%Q), (MkVec 1%Q 1%Q), 0%Z, 0%Z, 1%Z, 1%Z.
  cbv zeta. split; [vm_compute; reflexivity|]. split; [vm_compute; reflexivity|]. vm_compute. discriminate.
Qed.

(** *** Cases *)
Section Cases.
  (** Filling with the bounding box of the corners. *)
  Let hull (ps : list (vec R)) (p : vec R) : Prop :=
    (exists a b, In a ps /\ In b ps /\ vx a <= vx p <= vx b) /\ (exists a b, In a ps /\ In b ps /\ vy a <= vy p <= vy b).
  Lemma hull_anywhere : fills_anywhere hull.
  Proof.
    intros ps v p. unfold hull, less_v. cbn [vx vy].
    split; intros [(a & b & Ha & Hb & H) (c & d & Hc & Hd & H')].
    - apply in_map_iff in Ha, Hb, Hc, Hd. destruct Ha as (a' & <- & Ha), Hb as (b' & <- & Hb), Hc as (c' & <- & Hc), Hd as (d' & <- & Hd).
      cbn in H, H'. split; [exists a', b'|exists c', d']; split; try assumption; split; try assumption; lra.
    - split; [exists (plus_v a v), (plus_v b v)|exists (plus_v c v), (plus_v d v)]; (split; [apply in_map_iff; eexists; split; [reflexivity|assumption]|]);
        (split; [apply in_map_iff; eexists; split; [reflexivity|assumption]|]); cbn; lra.
  Qed.
  Let bar (a b : R) (neg : bool) : draw R := DShape (MkShape [SLine (MkVec a a) (MkVec b b)] neg None).
  Let z : vec R := MkVec 0 0.
  Let A := lit "a".
  (** A dark square on layer a, pasted twice, then a clear square over the first copy. *)
  Let cs : list (cmd R) :=
    [KStart A None z; KDraw (bar 0 2 false); KEnd;
     KStart main_id None z; KDraw (DPaste (MkPaste A (MkVec 5 5) false None)); KDraw (DPaste (MkPaste A (MkVec 0 0) false None));
     KDraw (bar 6 7 true); KEnd].
  Lemma cs_closed : pastes_closed cs.
  Proof.
    intros pre p post E. unfold cs in E.
    do 4 (destruct pre as [|? pre]; [discriminate E|]; injection E as <- E). destruct pre as [|? pre].
    - injection E as <- <-. eexists _, [A]. split; [reflexivity|left; reflexivity].
    - injection E as <- E. destruct pre as [|? pre].
      + injection E as <- <-. eexists _, [A]. split; [reflexivity|left; reflexivity].
      + injection E as <- E. destruct pre as [|? pre]; [discriminate E|]. injection E as <- E. destruct pre as [|? pre]; [discriminate E|]. injection E as <- E. destruct pre; discriminate E.
  Qed.
  Let sq (lo hi : R) (p : vec R) : Prop := (lo <= vx p <= hi) /\ (lo <= vy p <= hi).
  Let shows (id : str) (p : vec R) : Prop :=
    if str_eqb id A then sq 0 2 p
    else if str_eqb id main_id then (sq 5 7 p \/ sq 0 2 p) /\ ~ sq 6 7 p
    else False.
  Lemma hull_bar lo hi neg p : lo <= hi -> (exists pts, shape_points Shapely 0 (MkShape [SLine (MkVec lo lo) (MkVec hi hi)] neg None) = Ok pts /\ hull pts p) <-> sq lo hi p.
  Proof.
    intros Hl. unfold sq. split.
    - intros (pts & E & [(a & b & Ha & Hb & H) (c & d & Hc & Hd & H')]). injection E as <-.
      cbn [In] in Ha, Hb, Hc, Hd. repeat destruct Ha as [<-|Ha]; try contradiction; repeat destruct Hb as [<-|Hb]; try contradiction;
      repeat destruct Hc as [<-|Hc]; try contradiction; repeat destruct Hd as [<-|Hd]; try contradiction; cbn in H, H'; lra.
    - intros [H H']. eexists. split; [reflexivity|].
      split; exists (MkVec lo lo), (MkVec hi hi); cbn; auto.
  Qed.
  Example C61_case : exists m b, vm_run (shapely (fun _ => None)) false cs = Ok (m, Some b) /\
    forall p, shapely_result hull (fun _ _ => true) 0 m p <-> shows main_id p.
  Proof.
    destruct (C23_shapely_accepts R NumR (fun _ => None) false cs) as (m & b & E & _).
    - intros pre c post E. unfold cs in E.
      do 8 (destruct pre as [|? pre];
        [injection E as <- <-; eexists _, _; (split; [reflexivity|]); cbn;
           solve [tauto | right; reflexivity | split; [discriminate|auto] | split; [intros [H|[]]; discriminate H|exact I] | split; [intros []|exact I]]
        |injection E as <- E]).
      destruct pre; discriminate E.
    - eexists. split; [reflexivity|left; reflexivity].
    - exists m, b. split; [exact E|]. intros p.
      destruct (C61_shapely hull (fun _ _ => true) 0 (fun _ => None) false cs m (Some b) hull_anywhere) as [_ H]; [discriminate|exact cs_closed|exact E|].
      specialize (H shows). cbv zeta in H. replace p with (less_v p (origin_of (MkVec 0 0) cs main_id)) at 1 by (apply vec_ext; cbn; ring).
      apply H. clear H. intros id _ q. unfold shows at 1.
      destruct (str_eqb id A) eqn:EA; [apply str_eqb_eq in EA; subst id|destruct (str_eqb id main_id) eqn:EM; [apply str_eqb_eq in EM; subst id|]].
      + change (given [] A cs) with ([] ++ [bar 0 2 false]). rewrite dark_snoc. pose proof (hull_bar 0 2 false q ltac:(lra)) as HB.
        cbn [is_clear sh_neg bar plane_covers]. split; [intros H; right; apply HB; exact H|].
        intros [(l1 & d & l2 & E1 & _)|H]; [destruct l1; discriminate E1|apply HB; exact H].
      + change (given [] main_id cs) with ((([] ++ [DPaste (MkPaste A (MkVec 5 5) false None)]) ++ [DPaste (MkPaste A (MkVec 0 0) false None)]) ++ [bar 6 7 true]).
        pose proof (hull_bar 6 7 true q ltac:(lra)) as HB.
        set (cv := plane_covers _ _ _ _).
        assert (N : ~ dark cv [] q) by (intros (l1 & d & l2 & E1 & _); destruct l1; discriminate E1).
        assert (C1 : cv (DPaste (MkPaste A (MkVec 5 5) false None)) q <-> sq 5 7 q).
        { unfold cv. cbn [plane_covers pa_src pa_center]. unfold shows. cbn. unfold sq. cbn. lra. }
        assert (C2 : cv (DPaste (MkPaste A (MkVec 0 0) false None)) q <-> sq 0 2 q).
        { unfold cv. cbn [plane_covers pa_src pa_center]. unfold shows. cbn. unfold sq. cbn. lra. }
        assert (C3 : cv (bar 6 7 true) q <-> sq 6 7 q) by exact HB.
        pose proof (dark_snoc cv [] (DPaste (MkPaste A (MkVec 5 5) false None)) q) as D1.
        pose proof (dark_snoc cv ([] ++ [DPaste (MkPaste A (MkVec 5 5) false None)]) (DPaste (MkPaste A (MkVec 0 0) false None)) q) as D2.
        pose proof (dark_snoc cv (([] ++ [DPaste (MkPaste A (MkVec 5 5) false None)]) ++ [DPaste (MkPaste A (MkVec 0 0) false None)]) (bar 6 7 true) q) as D3.
        cbn [is_clear pa_neg sh_neg bar] in D1, D2, D3. fold (bar 6 7 true) in D3. tauto.
      + assert (Hg : given [] id cs = []).
        { unfold cs. cbn [given tl]. destruct (str_eqb A id) eqn:E1; [apply str_eqb_eq in E1; subst id; rewrite str_eqb_refl in EA; discriminate EA|].
          destruct (str_eqb main_id id) eqn:E2; [apply str_eqb_eq in E2; subst id; rewrite str_eqb_refl in EM; discriminate EM|]. reflexivity. }
        rewrite Hg. split; [contradiction|]. intros (l1 & d & l2 & E1 & _). destruct l1; discriminate E1.
  Qed.
End Cases.
Section PixelCase.
  Local Existing Instance NumQ.
  (** Pixels: the bounding box of the corners. *)
  Let box_fill (ps : list (Z * Z)) : bitmap := fun xy =>
    existsb (fun a => (fst a <=? fst xy)%Z) ps && existsb (fun a => (fst xy <=? fst a)%Z) ps &&
    existsb (fun a => (snd a <=? snd xy)%Z) ps && existsb (fun a => (snd xy <=? snd a)%Z) ps.
  Let bar (a b : Q) (neg : bool) : draw Q := DShape (MkShape [SLine (MkVec a a) (MkVec b b)] neg None).
  Let z : vec Q := MkVec 0%Q 0%Q.
  Let A := lit "a".
  Let cs : list (cmd Q) :=
    [KStart A None z; KDraw (bar 0 2 false); KDraw (bar 1 2 true); KEnd;
     KStart main_id None z; KDraw (bar 2 4 false); KDraw (DPaste (MkPaste A (MkVec 2%Q 0%Q) false None));
     KDraw (DPaste (MkPaste A (MkVec 3%Q 2%Q) true None)); KEnd].
  (** Rows from the top. *)
  Let rows : list (list bool) :=
    match vm_run (pillow (fun _ => None)) false cs with
    | Ok (m, _) => let '((w, h), px) := pillow_result box_fill 1 0 m in
        map (fun y => map (fun x => px (Z.of_nat x, Z.of_nat y)) (seq 0 (Z.to_nat w))) (seq 0 (Z.to_nat h))
    | Err _ => []
    end.
  Example C61_pixel_case : pastes_closed cs /\
    rows = [[true; false; true]; [true; false; false]; [true; false; false]; [true; true; false]].
  Proof.
    split; [|vm_compute; reflexivity].
    intros pre p post E. unfold cs in E.
    do 6 (destruct pre as [|? pre]; [discriminate E|]; injection E as <- E). destruct pre as [|? pre].
    - injection E as <- <-. eexists _, [A]. split; [reflexivity|left; reflexivity].
    - injection E as <- E. destruct pre as [|? pre].
      + injection E as <- <-. eexists _, [A]. split; [reflexivity|left; reflexivity].
      + injection E as <- E. destruct pre as [|? pre]; [discriminate E|]. injection E as <- E. destruct pre; discriminate E.
  Qed.
End PixelCase.
Print Assumptions C61_shapely. Print Assumptions C61_pillow.
Print Assumptions C62_pasted_inside. Print Assumptions C62_pixel_shift. Print Assumptions C62_same_pixel_refuted.

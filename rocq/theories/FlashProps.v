(** Property theorem C16: what a flash shows (specification in [FlashSpec]). *)
From Coq Require Import Reals Lra.
From Verif Require Import Base Num NumReal Dict CoordModel CoordSpec CoordProofs Ast StateModel StateSpec StateProofs GeomModel
  ExprModel CompilerModel LayerSpec LayerProofs LayerInv LayerOut LayerProps DrawSpec DrawProofs DrawProps FlashSpec FlashProofs.

Section Theorems.
  Context {K : Type} {NK : Num K}.
  Notation point md clock ABs := (named_point (compiler_hooks (K := K) md clock) compiler_init ABs).

  (** Walks of files consist of such points. *)
  Theorem named_points_cover_files :
    forall (md : bool) (clock : nat -> Z) (ips : bool) (ns : list (node K)) (v : visitor K (cstate K)) (ABs : str -> Prop),
      (forall n id body, In n ns -> In (NAB id body) (subnodes n) -> ABs id) ->
      on_file (compiler_hooks md clock) ips ns (visitor_init compiler_init) = Ok v ->
      point md clock ABs (executed_file ips ns) v.
  Proof.
    intros md clock ips ns v ABs HA E. refine (named_file md clock ABs ips ns _ [] _ _ (np_start _ _ _) E).
    intros n Hn m Hm. destruct m; auto. eapply HA; eauto.
  Qed.

  (** The property: the layer pasted by a flash is a copy of the layer made when the selected
      aperture was defined last, transformed as set by LM, LR and LS. *)
  Definition latest_definition (pre : list (node K)) (a : ad K) : Prop :=
    exists p q, pre = p ++ NAD a :: q /\ ~ In (ad_id a) (ad_codes q).
  Definition C16_statement (ok : (str -> Prop) -> list (node K) -> visitor K (cstate K) -> Prop) : Prop :=
    forall md clock ABs pre v a x y v', point md clock ABs pre v -> ok ABs pre v ->
      drawn v <> None -> latest_definition pre a -> latest_selection pre = Some (ad_id a) ->
      visit_leaf (compiler_hooks md clock) (ND03 x y) v = Done v' ->
      exists src me, adds v v' [DPaste (MkPaste src (pen_vec (pre ++ [ND03 x y])) (clear_at pre) me)] /\
        copy_of (c_buffers (v_ext v')) (matrix_at pre) (ad_id a) src /\
        defined_as md clock pre a (c_buffers (v_ext v')).
  (** Partial: codes are D-codes, none is defined twice (neither by two ADs nor by AD and AB),
      temporary layer names are distinct, and the transformations used in the file have
      different names.  Missing: redefinitions, for which the property is false. *)
  Theorem C16_flash_shapes_partial :
    C16_statement (fun ABs pre v => tells_apart pre /\
      (forall a, In (NAD a) pre -> exists n, dcode (ad_id a) n) /\ (forall id, ABs id -> exists n, dcode id n) /\
      (forall a, In (NAD a) pre -> ~ ABs (ad_id a)) /\ NoDup (ad_codes pre) /\ NoDup (c_stamps (v_ext v))).
  Proof.
    intros md clock ABs pre v a x y v' Hp ((Hpct & Hm) & H1 & H2 & H3 & H4 & H5) Hd (p & q & Ea & _) Hs E.
    set (ADs := fun id => exists a, In (NAD a) pre /\ ad_id a = id).
    enough (X : let src := layer_key (ad_id a) (matrix_at pre) in
      exists me, adds v v' [DPaste (MkPaste src (pen_vec (pre ++ [ND03 x y])) (clear_at pre) me)] /\
        copy_of (c_buffers (v_ext v')) (matrix_at pre) (ad_id a) src /\ defined_as md clock pre a (c_buffers (v_ext v')))
      by (destruct X as (me & X); eexists; exists me; exact X).
    apply (flash_copy md clock (fun m => exists p q, pre = p ++ q /\ m = matrix_at p) Hpct) with (ADs := ADs) (ABs := ABs) (pre := pre) (v := v); auto.
    - intros m m' (p1 & q1 & E1 & ->) (p2 & q2 & E2 & ->). eauto.
    - intros id (a0 & Ha0 & <-). auto.
    - intros id (a0 & Ha0 & <-). exact (H3 a0 Ha0).
    - intros a0 Ha0. exists a0. auto.
    - eauto.
    - rewrite Ea. apply in_or_app. right; left; reflexivity.
  Qed.
  (** In particular faithful texts of numbers are enough. *)
  Theorem C16_faithful_texts : good_repr (K := K) -> forall pre : list (node K), tells_apart pre.
  Proof.
    intros Hr pre. split; [intros k; exact (good_no_pct Hr k)|]. intros p q p' q' _ _. exact (mtag_inj Hr _ _).
  Qed.
End Theorems.

(** With real numbers the transformation is scaling, then rotation, then mirroring. *)
Local Open Scope R_scope.
Theorem C16_transformation :
  forall (pre : list (node R)) (p : vec R),
    let k := last_set sets_scaling n1 pre in
    let t := last_set sets_rotation n0 pre * PI / 180 in
    let m := last_set sets_mirroring MirNone pre in
    let x := k * vx p in let y := k * vy p in
    let x1 := x * cos t - y * sin t in let y1 := x * sin t + y * cos t in
    v_transform (matrix_at pre) p =
    MkVec (match m with MirX | MirXY => - x1 | _ => x1 end) (match m with MirY | MirXY => - y1 | _ => y1 end).
Proof.
  intros pre p k t m x y x1 y1. unfold matrix_at. fold m. unfold v_transform, mmul, mreflect, mrotate, mscale, dot3.
  cbn [GeomModel.m00 GeomModel.m01 GeomModel.m02 GeomModel.m10 GeomModel.m11 GeomModel.m12 GeomModel.m20 GeomModel.m21 GeomModel.m22].
  change (n_cosd (last_set sets_rotation n0 pre)) with (cos t). change (n_sind (last_set sets_rotation n0 pre)) with (sin t).
  fold k. unfold x1, y1, x, y. cbn [n_add n_mul n_opp NumR]. rnum. destruct m; f_equal; ring.
Qed.

(** Arcs keep turning the way the transformation turns: three points in counter-clockwise order
    are mapped to points in counter-clockwise order exactly when arcs keep their direction.
    Partial: rotations whose cosine is not zero. *)
Definition turn (a b c : vec R) : R := (vx b - vx a) * (vy c - vy a) - (vy b - vy a) * (vx c - vx a).
Definition C16_arc_statement (usable : list (node R) -> Prop) : Prop :=
  forall (pre : list (node R)) (a b c d e f d' e' f' : vec R) (cw cw' : bool), usable pre ->
    let m := matrix_at pre in let i := v_transform m in
    seg_image m (SArc d e f cw) (SArc d' e' f' cw') -> 0 < turn a b c ->
    (cw' = cw -> 0 < turn (i a) (i b) (i c)) /\ (cw' <> cw -> turn (i a) (i b) (i c) < 0).
Theorem C16_arc_direction_partial :
  C16_arc_statement (fun pre => last_set sets_scaling n1 pre <> 0 /\ cos (last_set sets_rotation n0 pre * PI / 180) <> 0).
Proof.
  intros pre a b c d e f d' e' f' cw cw' (Hk & Ht) m i (_ & _ & _ & Hc) HT.
  assert (Hi : forall p, i p = v_transform (matrix_at pre) p) by reflexivity.
  setoid_rewrite C16_transformation in Hi. cbv zeta in Hi. rewrite !Hi. clear Hi.
  assert (Hm : n_mul (m00 m) (m11 m) = match last_set sets_mirroring MirNone pre with MirX | MirY => -1 | _ => 1 end *
    (last_set sets_scaling n1 pre * cos (last_set sets_rotation n0 pre * PI / 180)) ^ 2).
  { unfold m, matrix_at, mmul, mreflect, mrotate, mscale, dot3.
    cbn [GeomModel.m00 GeomModel.m01 GeomModel.m02 GeomModel.m10 GeomModel.m11 GeomModel.m12 GeomModel.m20 GeomModel.m21 GeomModel.m22].
    change (n_cosd (last_set sets_rotation n0 pre)) with (cos (last_set sets_rotation n0 pre * PI / 180)).
    change (n_sind (last_set sets_rotation n0 pre)) with (sin (last_set sets_rotation n0 pre * PI / 180)).
    cbn [n_add n_mul n_opp NumR]. rnum. destruct (last_set sets_mirroring MirNone pre); ring. }
  rewrite Hm in Hc. clear Hm. set (k := last_set sets_scaling n1 pre) in *. set (t := last_set sets_rotation n0 pre * PI / 180) in *.
  pose proof (sin2_cos2 t) as Hsc. unfold Rsqr in Hsc.
  assert (Hp : 0 < (k * cos t) ^ 2) by (assert (k * cos t <> 0) by (apply Rmult_integral_contrapositive_currified; assumption); nra).
  assert (Hk2 : 0 < k * k) by nra.
  assert (Hpos : 0 < k * k * turn a b c) by (apply Rmult_lt_0_compat; assumption).
  assert (Hc' : cw' = match last_set sets_mirroring MirNone pre with MirX | MirY => negb cw | _ => cw end).
  { cbn [n_ltb NumR] in Hc. rewrite r_n0 in Hc.
    destruct (last_set sets_mirroring MirNone pre);
      match type of Hc with if r_ltb 0 ?x then _ else _ => destruct (r_ltb 0 x) eqn:EL end; try exact Hc; exfalso; rdec; lra. }
  unfold turn in *. cbn [vx vy]. set (T := _ - _) in HT, Hpos.
  destruct (last_set sets_mirroring MirNone pre); subst cw'; (split; intros Hcw; [|try (exfalso; apply Hcw; reflexivity)]);
    try (exfalso; destruct cw; discriminate Hcw);
    match goal with |- 0 < ?x => replace x with (k * k * (sin t * sin t + cos t * cos t) * T) by (unfold T; ring) | |- ?x < 0 => replace x with (- (k * k * (sin t * sin t + cos t * cos t) * T)) by (unfold T; ring) end;
    rewrite Hsc; lra.
Qed.

(** A quarter turn: the product of the diagonal is zero, so arcs are reversed although a rotation
    keeps directions.  (With floating point numbers the cosine of a right angle happens not to
    be zero.) *)
Theorem C16_arc_direction_refuted : ~ C16_arc_statement (fun pre => last_set sets_scaling n1 pre <> 0).
Proof.
  intros S. specialize (S [NLR 90] (MkVec 0 0) (MkVec 1 0) (MkVec 0 1) (MkVec 0 0) (MkVec 0 0) (MkVec 0 0)).
  assert (Hc : cos (90 * PI / 180) = 0) by (replace (90 * PI / 180) with (PI / 2) by field; apply cos_PI2).
  assert (Hs : sin (90 * PI / 180) = 1) by (replace (90 * PI / 180) with (PI / 2) by field; apply sin_PI2).
  assert (Hm : n_mul (m00 (matrix_at [NLR 90])) (m11 (matrix_at [NLR 90])) = 0).
  { unfold matrix_at, mmul, mreflect, mrotate, mscale, dot3. cbn [last_set fold_left sets_rotation sets_scaling sets_mirroring GeomModel.m00 GeomModel.m01 GeomModel.m02 GeomModel.m10 GeomModel.m11 GeomModel.m12 GeomModel.m20 GeomModel.m21 GeomModel.m22].
    change (n_cosd 90) with (cos (90 * PI / 180)). rewrite Hc. cbn [n_add n_mul n_opp NumR]. rnum. ring. }
  destruct (S (v_transform (matrix_at [NLR 90]) (MkVec 0 0)) (v_transform (matrix_at [NLR 90]) (MkVec 0 0)) (v_transform (matrix_at [NLR 90]) (MkVec 0 0)) false true) as [_ F].
  - change (n1 <> 0). rnum. lra.
  - cbn [seg_image]. rewrite Hm. cbn [n_ltb NumR]. rewrite r_n0. destruct (r_ltb 0 0) eqn:E; [rdec; lra|auto].
  - unfold turn. cbn [vx vy]. lra.
  - specialize (F ltac:(discriminate)). revert F. cbv zeta. rewrite !C16_transformation. cbv zeta. unfold turn. cbn [vx vy].
    change (last_set sets_mirroring MirNone [NLR 90]) with MirNone. change (last_set sets_scaling n1 [NLR 90]) with (n1 : R). change (last_set sets_rotation n0 [NLR 90]) with 90.
    rewrite Hc, Hs. rnum. lra.
Qed.

(** *** Cases *)
Local Close Scope R_scope.
Local Existing Instance NumQ.
Local Open Scope Q_scope.

(** The hypothesis on number texts holds for the rational instance. *)
Lemma q_good : good_repr (K := Q).
Proof.
  assert (Hz : forall z c, In c (z_repr z) -> c = ch_minus \/ is_digit c = true).
  { intros z c Hc. unfold z_repr in Hc. destruct (z <? 0)%Z; [destruct Hc as [<-|Hc]; [auto|]|]; right; exact (int_digits_all _ c Hc). }
  assert (Hs : forall z, ~ In "/"%char (z_repr z)) by (intros z Hc; apply Hz in Hc as [Hc|Hc]; discriminate Hc).
  split.
  - intros [a b] [c d] E. cbn in E. unfold q_repr in E. cbn [Qnum Qden] in E. apply (cut_at "/"%char) in E as [E1 E2]; try apply Hs.
    apply z_repr_inj in E1. apply z_repr_inj in E2. injection E2 as ->. subst. reflexivity.
  - intros a c Hc Hin. cbn in Hin. unfold q_repr in Hin. apply in_app_or in Hin as [Hin|[Hin|Hin]].
    + apply Hz in Hin. cbn in Hc. destruct Hc as [<-|[<-|[<-|[<-|[]]]]], Hin as [Hin|Hin]; discriminate Hin.
    + subst c. cbn in Hc. destruct Hc as [Hc|[Hc|[Hc|[Hc|[]]]]]; discriminate Hc.
    + apply Hz in Hin. cbn in Hc. destruct Hc as [<-|[<-|[<-|[<-|[]]]]], Hin as [Hin|Hin]; discriminate Hin.
Qed.

Definition nprobe (ns : list (node Q)) (n : node Q)
  (P : visitor Q (cstate Q) -> visitor Q (cstate Q) -> Prop) : Prop :=
  match run ns with
  | Ok v => match visit_leaf (compiler_hooks false running) n v with Done v' => P v v' | _ => False end
  | Err _ => False
  end.
Lemma nprobe_point (ABs : str -> Prop) ns n P : executed_file false ns = ns ->
  (forall n id body, In n ns -> In (NAB id body) (subnodes n) -> ABs id) -> nprobe ns n P ->
  exists v v', named_point (compiler_hooks false running) compiler_init ABs ns v /\
    visit_leaf (compiler_hooks false running) n v = Done v' /\ P v v'.
Proof.
  unfold nprobe. intros Ee HA HP. destruct (run ns) as [v|] eqn:Ev; [|contradiction].
  destruct (visit_leaf _ n v) as [v'|v'|e] eqn:E; try contradiction. exists v, v'. split; [|auto].
  rewrite <- Ee. exact (named_points_cover_files false running false ns v ABs HA Ev).
Qed.
Definition first_pt (o : option (buffer Q)) : option (vec Q) :=
  match o with
  | Some b => match bf_cmds b with DShape s :: _ => match sh_segs s with g :: _ => Some (seg_start g) | [] => None end | _ => None end
  | None => None
  end.
Definition last_src (o : option (list (draw Q))) : option str :=
  match o with
  | Some l => match rev l with DPaste p :: _ => Some (pa_src p) | _ => None end
  | None => None
  end.
Lemma copy_first bs (m : mat Q) k k' p : copy_of bs m k k' -> first_pt (d_get k bs) = Some p ->
  first_pt (d_get k' bs) = Some (v_transform m p).
Proof.
  intros [k0 k0' b b' G1 G2 Hc]. rewrite G1, G2. unfold first_pt. destruct Hc as [|s s' r r' (_ & _ & Hi) _|]; try discriminate.
  destruct Hi as [|g g' l l' Hg _]; [discriminate|]. intros E. injection E as <-.
  destruct g, g'; cbn in Hg; try contradiction; destruct Hg as (-> & _); reflexivity.
Qed.

(** A flash of a macro with a thermal, scaled by 2 and mirrored: the hypotheses hold. *)
Definition scaled : list (node Q) :=
  [fs26; thermal_am; th "D11" 2; adc "D12" 1; NLS 2; NLM MirX; NDnn (lit "D11")].
Example C16_case : nprobe scaled (ND03 (Some (lit U)) (Some (lit U))) (fun v v' =>
  NoDup (ad_codes scaled) /\ c_stamps (v_ext v) = [lit "%%Code7%1%0"] /\
  matrix_at scaled = MkMat (-2) 0 0 0 2 0 0 0 1 /\
  match last_src (drawn v') with
  | Some k => match d_get k (c_buffers (v_ext v')) with
              | Some b => match bf_cmds b with
                          | [DPaste p] => first_pt (d_get (pa_src p) (c_buffers (v_ext v'))) = Some (pt (-2) 0) /\
                              first_pt (d_get (lit "%%Code7%1%0") (c_buffers (v_ext v'))) = Some (pt 1 0)
                          | _ => False
                          end
              | None => False
              end
  | None => False
  end).
Proof.
  vm_compute. split; [|repeat split].
  constructor; [intros [E|[]]; discriminate E|]. constructor; [intros []|constructor].
Qed.

(** Redefinition after a flash: the cached copy of the old layer is pasted. *)
Definition redefined : list (node Q) :=
  [fs26; adc "D10" 1; NDnn (lit "D10"); ND03 (Some (lit U)) (Some (lit U)); adc "D10" 2].
Theorem C16_redefinition_refuted :
  ~ C16_statement (K := Q) (fun ABs pre v =>
      (forall a, In (NAD a) pre -> exists n, dcode (ad_id a) n) /\ (forall id, ~ ABs id) /\ NoDup (c_stamps (v_ext v))).
Proof.
  intros S. destruct (nprobe_point (fun _ => False) redefined (ND03 (Some (lit "2000000")) (Some (lit U))) (fun v v' =>
    drawn v <> None /\ c_stamps (v_ext v) = [] /\ matrix_at redefined = MkMat 1 0 0 0 1 0 0 0 1 /\
    first_pt (d_get (lit "D10") (c_buffers (v_ext v'))) = Some (pt (-1) 0) /\
    match last_src (drawn v') with Some k => first_pt (d_get k (c_buffers (v_ext v'))) = Some (pt (-1 # 2) 0) | None => False end))
    as (v & v' & Hp & E & Hd & Hs & Hm & H1 & H2).
  - vm_compute. reflexivity.
  - intros n id body Hn Hb. repeat (destruct Hn as [<-|Hn]; [cbn in Hb; destruct Hb as [Hb|[]]; discriminate Hb|]). destruct Hn.
  - vm_compute. repeat split. discriminate.
  - destruct (S false running (fun _ => False) redefined v (MkAD (lit "D10") (TCircle 2 None)) (Some (lit "2000000")) (Some (lit U)) v' Hp)
      as (src & me & (old & _ & A2) & Hc & _); auto.
    + split; [|split; [auto|rewrite Hs; constructor]]. intros a Ha. cbn in Ha.
      repeat (destruct Ha as [Ha|Ha]; [try discriminate Ha; injection Ha as <-; eexists; eexists; (split; [reflexivity|]); (split; [discriminate|reflexivity])|]). destruct Ha.
    + exists [fs26; adc "D10" 1; NDnn (lit "D10"); ND03 (Some (lit U)) (Some (lit U))], []. split; [reflexivity|intros []].
    + rewrite A2 in H2. unfold last_src in H2. rewrite rev_app_distr in H2. cbn [rev app pa_src] in H2.
      rewrite (copy_first _ _ _ _ _ Hc H1), Hm in H2. vm_compute in H2. discriminate H2.
Qed.

Print Assumptions named_points_cover_files.
Print Assumptions C16_flash_shapes_partial.
Print Assumptions C16_faithful_texts.
Print Assumptions C16_transformation.
Print Assumptions C16_arc_direction_partial.
Print Assumptions C16_arc_direction_refuted.
Print Assumptions C16_redefinition_refuted.

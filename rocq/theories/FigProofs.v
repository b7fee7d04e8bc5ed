(** The figures drawn by macro primitives. *)
From Coq Require Import Reals Lra Lia Psatz Permutation.
From Verif Require Import Base Num NumReal Dict Ast StateModel ExprSpec ExprModel ExprProofs GeomModel CompilerModel
  LayerProofs GeoSpec GeoProofs ShapeProofs SimilarProofs PolyProofs OutlineProofs OutlineMore FigSpec.
Open Scope R_scope.

(** *** Turning segments *)
Definition seg_turn (r : R) (s : seg R) : seg R :=
  match s with
  | SLine a b => SLine (turn r a) (turn r b)
  | SArc a b c cw => SArc (turn r a) (turn r b) (turn r c) cw
  end.
Definition seg_flip (s : seg R) : seg R :=
  match s with SLine a b => SLine a b | SArc a b c cw => SArc a b c (negb cw) end.
Lemma rotate_turn r s :
  seg_transform (mrotate r) s =
  (if Req_EM_T (cos (deg r)) 0 then seg_flip (seg_turn r s) else seg_turn r s).
Proof.
  destruct s as [a b|a b c cw].
  - cbn [seg_transform]. rewrite !transform_rotate. destruct (Req_EM_T _ 0); reflexivity.
  - rewrite seg_transform_arc, !transform_rotate. unfold keeps. cbn [mrotate m00 m11 n_cosd NumR].
    destruct (Req_EM_T (cos (deg r)) 0) as [E|E].
    + rewrite E. replace (r_ltb 0 (0 * 0)) with false by (symmetry; apply r_ltb_ge; lra). reflexivity.
    + replace (r_ltb 0 (cos (deg r) * cos (deg r))) with true; [reflexivity|].
      symmetry; apply r_ltb_lt. nra.
Qed.
Lemma turn_turn r p : turn r (turn (- r) p) = p.
Proof. rewrite <- turn_plus. replace (r + - r) with 0 by ring. apply turn_0. Qed.
Lemma turn_lin r u v : turn r (plus u v) = plus (turn r u) (turn r v). Proof. vring. Qed.
Lemma turn_minus r u v : turn r (minus u v) = minus (turn r u) (turn r v). Proof. vring. Qed.
Lemma turn_comm s t v : turn s (turn t v) = turn t (turn s v).
Proof. rewrite <- !turn_plus. f_equal. ring. Qed.
Lemma turn_inj r u v : turn r u = turn r v -> u = v.
Proof. intros E. rewrite <- (turn_inv r u), E. apply turn_inv. Qed.
Lemma turns_turn r t u v : turns t (turn r u) (turn r v) <-> turns t u v.
Proof.
  split; intros (k & Hk & E); exists k; (split; [exact Hk|]).
  - apply (turn_inj r). rewrite E, turn_times, (turn_comm r t). reflexivity.
  - rewrite E, turn_times, (turn_comm r t). reflexivity.
Qed.
Lemma on_seg_turn r s p : on_seg (seg_turn r s) p <-> on_seg s (turn (- r) p).
Proof.
  rewrite <- (turn_turn r p) at 1. set (q := turn (- r) p).
  destruct s as [a b|a b c cw]; cbn [seg_turn on_seg].
  - unfold on_line. split; intros (t & Ht & E); exists t; (split; [exact Ht|]).
    + apply (turn_inj r). rewrite E, turn_lin, turn_times, turn_minus. reflexivity.
    + rewrite E, turn_lin, turn_times, turn_minus. reflexivity.
  - unfold on_arc, sweep. rewrite <- !turn_minus.
    split; intros (T & t & (HT & S) & Ht & E); exists T, t.
    + rewrite turns_turn in S. split; [split; assumption|]. split; [exact Ht|].
      apply (turn_inj r). rewrite E, turn_lin, (turn_comm r). reflexivity.
    + rewrite turns_turn. split; [split; assumption|]. split; [exact Ht|].
      rewrite E, turn_lin, (turn_comm r). reflexivity.
Qed.
Lemma ends_turn r s : ends (seg_turn r s) = (turn r (fst (ends s)), turn r (snd (ends s))).
Proof. destruct s; reflexivity. Qed.
Lemma ends_flip s : ends (seg_flip s) = ends s. Proof. destruct s; reflexivity. Qed.
Lemma joined_turn r ss : forall f,
  joined (turn r f) (map (seg_turn r) ss) = map (seg_turn r) (joined f ss).
Proof.
  induction ss as [|s ss IH]; intros f; [reflexivity|]. cbn [map joined]. rewrite ends_turn. cbn [fst snd seg_turn].
  rewrite IH. f_equal. f_equal. destruct ss as [|s' ss]; [reflexivity|]. cbn [map]. rewrite ends_turn. reflexivity.
Qed.
Lemma joined_flip ss : forall f, joined f (map seg_flip ss) = map seg_flip (joined f ss).
Proof.
  induction ss as [|s ss IH]; intros f; [reflexivity|]. cbn [map joined]. rewrite ends_flip. cbn [seg_flip].
  rewrite IH. f_equal. f_equal. destruct ss as [|s' ss]; [reflexivity|]. cbn [map]. rewrite ends_flip. reflexivity.
Qed.
Definition sh_turn (r : R) (s : shape R) := MkShape (map (seg_turn r) (sh_segs s)) (sh_neg s) (sh_meta s).
Definition sh_flip (s : shape R) := MkShape (map seg_flip (sh_segs s)) (sh_neg s) (sh_meta s).
Lemma outline_turn r s p : outline (sh_turn r s) p <-> outline s (turn (- r) p).
Proof.
  unfold outline, sh_turn. cbn [sh_segs]. destruct (sh_segs s) as [|s0 ss]; [reflexivity|].
  cbn [map]. rewrite ends_turn. cbn [fst]. rewrite <- (map_cons (seg_turn r) s0 ss), joined_turn.
  split.
  - intros (x & Hx & On). apply in_map_iff in Hx. destruct Hx as (y & <- & Hy). exists y.
    split; [exact Hy|]. apply on_seg_turn. exact On.
  - intros (y & Hy & On). exists (seg_turn r y). split; [apply in_map; exact Hy|]. apply on_seg_turn. exact On.
Qed.
Lemma rot_shape_turn r s :
  rot_shape r s = if Req_EM_T (cos (deg r)) 0 then sh_flip (sh_turn r s) else sh_turn r s.
Proof.
  unfold rot_shape, shape_transform, sh_flip, sh_turn. cbn [sh_segs sh_neg sh_meta].
  destruct (Req_EM_T (cos (deg r)) 0) as [E|E]; f_equal.
  - rewrite map_map. apply map_ext. intros x. rewrite rotate_turn.
    destruct (Req_EM_T _ 0); [reflexivity|contradiction].
  - apply map_ext. intros x. rewrite rotate_turn. destruct (Req_EM_T _ 0); [contradiction|reflexivity].
Qed.
Definition straight (s : shape R) : Prop := Forall (fun x => match x with SLine _ _ => True | SArc _ _ _ _ => False end) (sh_segs s).
Lemma flip_turn r s : sh_flip (sh_turn r s) = sh_turn r (sh_flip s).
Proof.
  unfold sh_flip, sh_turn. cbn [sh_segs sh_neg sh_meta]. f_equal. rewrite !map_map. apply map_ext.
  intros []; reflexivity.
Qed.
Lemma straight_flip s : straight s -> sh_flip s = s.
Proof.
  destruct s as [ss n m]. unfold straight, sh_flip. cbn [sh_segs sh_neg sh_meta]. intros H. f_equal.
  induction H as [|x l Hx H IH]; [reflexivity|]. cbn [map]. rewrite IH. destruct x; [reflexivity|contradiction].
Qed.
Lemma rot_straight r s p : straight s -> (outline (rot_shape r s) p <-> outline s (turn (- r) p)).
Proof.
  intros H. rewrite rot_shape_turn, flip_turn, (straight_flip s H).
  destruct (Req_EM_T _ 0); apply outline_turn.
Qed.

(** An arc walked backwards. *)
Lemma on_arc_rev a b c cw p : dist a c = dist b c -> (on_arc a b c cw p <-> on_arc b a c (negb cw) p).
Proof.
  rewrite !dist_norm. intros H.
  assert (forall a b cw, norm (minus a c) = norm (minus b c) -> on_arc a b c cw p -> on_arc b a c (negb cw) p) as G.
  { clear a b cw H. intros a b cw H (T & t & S & Ht & ->). exists T, (T - t).
    split; [apply sweep_back; assumption|]. split; [lra|]. f_equal.
    rewrite (turns_exact _ _ _ H (proj2 S)), <- turn_plus. f_equal. destruct cw; cbn; ring. }
  split; intros X.
  - apply G; assumption.
  - rewrite <- (negb_involutive cw). apply G; [symmetry; exact H|exact X].
Qed.
Lemma circle_flip c d neg m p : 0 < d -> (outline (sh_flip (new_circle c d neg m)) p <-> outline (new_circle c d neg m) p).
Proof.
  intros Hd. unfold outline, sh_flip, new_circle, at_. cbv zeta. rewrite half_n2.
  cbn [sh_segs map seg_flip joined ends fst snd n_add n_sub NumR negb].
  set (l := MkVec (vx c - d / 2) (vy c)). set (r := MkVec (vx c + d / 2) (vy c)).
  assert (dist l c = dist r c) as D.
  { unfold dist, norm, l, r. cbn. f_equal. ring. }
  split; intros (x & Hx & On); cbn [In] in Hx;
    destruct Hx as [<-|[<-|[<-|[<-|[]]]]]; cbn [on_seg] in On.
  - exists (SArc r l c true). split; [cbn; auto|]. apply (on_arc_rev l r c false p D). exact On.
  - eexists. split; [right; left; reflexivity|exact On].
  - exists (SArc l r c true). split; [cbn; auto|]. apply (on_arc_rev r l c false p (eq_sym D)). exact On.
  - eexists. split; [do 3 right; left; reflexivity|exact On].
  - exists (SArc r l c false). split; [cbn; auto|]. apply (on_arc_rev l r c true p D). exact On.
  - eexists. split; [right; left; reflexivity|exact On].
  - exists (SArc l r c false). split; [cbn; auto|]. apply (on_arc_rev r l c true p (eq_sym D)). exact On.
  - eexists. split; [do 3 right; left; reflexivity|exact On].
Qed.
Lemma rot_circle r c d neg m p : 0 < d ->
  (outline (rot_shape r (new_circle c d neg m)) p <-> outline (new_circle c d neg m) (turn (- r) p)).
Proof.
  intros H. rewrite rot_shape_turn. destruct (Req_EM_T _ 0).
  - rewrite flip_turn, outline_turn. apply circle_flip. exact H.
  - apply outline_turn.
Qed.
(** The flipped stroke is the stroke of the other part of the circle. *)
Lemma stroke_flip a b c th neg m p : a <> c -> dist a c = dist b c ->
  (outline (sh_flip (new_cw_arc a b c th neg m)) p <-> outline (new_cw_arc b a c th neg m) p).
Proof.
  intros Hac D. unfold outline, sh_flip, new_cw_arc. cbv zeta.
  cbn [sh_segs map seg_flip joined ends fst snd negb].
  set (ea := v_scale (v_norm (v_sub a c)) (n_div th n2)). set (eb := v_scale (v_norm (v_sub b c)) (n_div th n2)).
  assert (minus a c <> origin) as Na by (intros E; apply minus_0 in E; congruence).
  assert (minus b c <> origin) as Nb.
  { intros E. rewrite !dist_norm, E, (proj2 (norm_0 origin) eq_refl) in D. pose proof (norm_pos _ Na). lra. }
  assert (forall sg : bool, dist (if sg then v_add a ea else v_sub a ea) c = dist (if sg then v_add b eb else v_sub b eb) c) as DD.
  { intros sg. change (@v_add R NumR) with plus. change (@v_sub R NumR) with minus.
    pose proof (times_plus_radial c (minus a c) (norm (minus a c)) th Na eq_refl sg) as X.
    pose proof (times_plus_radial c (minus b c) (norm (minus b c)) th Nb eq_refl sg) as Y.
    rewrite plus_minus in X, Y. fold ea in X. fold eb in Y.
    change (v_scale (v_norm (minus a c)) (n_div th n2)) with ea in X.
    change (v_scale (v_norm (minus b c)) (n_div th n2)) with eb in Y.
    rewrite X, Y, !dist_norm, !minus_plus. rewrite !dist_norm in D. rewrite <- D.
    apply Rsqr_inj; try apply norm_ge0. unfold Rsqr. rewrite !norm_sq. cbn [times vx vy].
    pose proof (norm_sq (minus a c)) as A. pose proof (norm_sq (minus b c)) as B. rewrite <- D in B.
    set (k := if sg then _ else _). nra. }
  pose proof (DD true) as D1. pose proof (DD false) as D2. cbv iota in D1, D2.
  split; intros (x & Hx & On); cbn [In] in Hx;
    destruct Hx as [<-|[<-|[<-|[<-|[]]]]]; cbn [on_seg] in On.
  - eexists. split; [left; reflexivity|]. cbn [on_seg]. apply (on_arc_rev _ _ _ false p D1). exact On.
  - eexists. split; [do 3 right; left; reflexivity|]. cbn [on_seg]. apply on_line_flip. exact On.
  - eexists. split; [do 2 right; left; reflexivity|]. cbn [on_seg]. apply (on_arc_rev _ _ _ true p (eq_sym D2)). exact On.
  - eexists. split; [right; left; reflexivity|]. cbn [on_seg]. apply on_line_flip. exact On.
  - eexists. split; [left; reflexivity|]. cbn [on_seg]. apply (on_arc_rev _ _ _ true p (eq_sym D1)). exact On.
  - eexists. split; [do 3 right; left; reflexivity|]. cbn [on_seg]. apply on_line_flip. exact On.
  - eexists. split; [do 2 right; left; reflexivity|]. cbn [on_seg]. apply (on_arc_rev _ _ _ false p D2). exact On.
  - eexists. split; [right; left; reflexivity|]. cbn [on_seg]. apply on_line_flip. exact On.
Qed.

(** *** Rings *)
Lemma ring_drawn r c outer inner neg m : 0 < inner < outer ->
  exists ss fs, new_ring c outer inner neg m = Ok ss /\
    Permutation (map (shown_as r neg) (half_rings c outer inner)) fs /\
    Forall2 drawn (map (fun s => DShape (rot_shape r s)) ss) fs.
Proof.
  intros H. unfold new_ring. cbv zeta. rewrite !half_n2.
  cbn [n_ltb n_sub n_add NumR]. rewrite !r_n0.
  replace (r_ltb 0 ((outer - inner) / 2)) with true by (symmetry; apply r_ltb_lt; lra).
  replace (r_ltb 0 (inner / 2)) with true by (symmetry; apply r_ltb_lt; lra). cbn [negb].
  set (th := (outer - inner) / 2). unfold at_.
  replace (MkVec (vx c + inner / 2 + th / 2) (vy c)) with (plus c (MkVec ((outer + inner) / 4) 0))
    by (unfold th; apply vec_eq; cbn; field).
  replace (MkVec (vx c - inner / 2 - th / 2) (vy c)) with (plus c (MkVec (- ((outer + inner) / 4)) 0))
    by (unfold th; apply vec_eq; cbn; field).
  unfold half_rings. cbv zeta. fold th. set (R0 := (outer + inner) / 4).
  set (e := plus c (MkVec R0 0)). set (w := plus c (MkVec (- R0) 0)).
  assert (0 < R0) as HR by (unfold R0; lra).
  assert (e <> c) as Ne.
  { intros E. apply (f_equal vx) in E. unfold e in E. cbn in E. lra. }
  assert (w <> c) as Nw.
  { intros E. apply (f_equal vx) in E. unfold w in E. cbn in E. lra. }
  assert (dist e c = dist w c) as D.
  { unfold e, w. rewrite !dist_norm, !minus_plus, !norm_h, Rabs_Ropp. reflexivity. }
  assert (0 < th) as Ht by (unfold th; lra).
  destruct (Req_EM_T (cos (deg r)) 0) as [Z|Z].
  - eexists. exists [shown_as r neg (ring_line w e c th); shown_as r neg (ring_line e w c th)].
    split; [reflexivity|]. split; [apply perm_swap|].
    constructor; [|constructor; [|constructor]]; (eexists; split; [reflexivity|]; split; [reflexivity|]);
      intros p; rewrite rot_shape_turn; (destruct (Req_EM_T _ 0); [|contradiction]);
      cbn [shown_as snd]; unfold turned; rewrite flip_turn, outline_turn, stroke_flip by (auto; congruence);
      apply cw_arc_outline; auto; congruence.
  - eexists. exists [shown_as r neg (ring_line e w c th); shown_as r neg (ring_line w e c th)].
    split; [reflexivity|]. split; [apply Permutation_refl|].
    constructor; [|constructor; [|constructor]]; (eexists; split; [reflexivity|]; split; [reflexivity|]);
      intros p; rewrite rot_shape_turn; (destruct (Req_EM_T _ 0); [contradiction|]);
      cbn [shown_as snd]; unfold turned; rewrite outline_turn; apply cw_arc_outline; auto; congruence.
Qed.

Lemma rings_drawn r c ring gap n outer fs : 0 < ring -> moire_rings c ring gap n outer fs ->
  roomy ring gap n outer ->
  exists ss gs,
    rings n c ring (n_add (n_mul gap n2) (n_mul ring n2)) outer (n_sub outer (n_mul ring n2)) = Ok ss /\
    Permutation (map (shown_as r false) fs) gs /\
    Forall2 drawn (map (fun s => DShape (rot_shape r s)) ss) gs.
Proof.
  intros Hr H. cbn [n_add n_mul n_sub NumR]. rewrite !r_n2.
  induction H as [outer|n outer Ho|n outer Ho|n outer fs Ho H IH]; intros Y; cbn [roomy] in Y.
  - exists [], []. split; [reflexivity|]. split; constructor.
  - exfalso. lra.
  - cbn [rings n_leb NumR]. replace (r_leb outer ring) with true by (symmetry; apply r_leb_le; lra).
    exists [new_circle c outer false None], [shown_as r false (circle_line c outer)].
    split; [reflexivity|]. split; [apply Permutation_refl|]. constructor; [|constructor].
    eexists. split; [reflexivity|]. split; [reflexivity|]. intros p.
    rewrite rot_circle, circle_outline by lra. reflexivity.
  - cbn [rings n_leb n_sub NumR]. replace (r_leb outer ring) with false by (symmetry; apply r_leb_gt; lra).
    destruct IH as (ss & gs & E & P & F); [destruct Y as [Y|[_ Y]]; [lra|exact Y]|].
    destruct (ring_drawn r c outer (outer - ring * 2) false None) as (s1 & g1 & E1 & P1 & F1); [lra|].
    rewrite E1. cbn [bind].
    replace (outer - (gap * 2 + ring * 2)) with (outer - 2 * (ring + gap)) by ring.
    replace (outer - ring * 2 - (gap * 2 + ring * 2)) with (outer - 2 * (ring + gap) - ring * 2) by ring.
    rewrite E. cbn [bind]. exists (s1 ++ ss), (g1 ++ gs). split; [reflexivity|]. split.
    + rewrite map_app. apply Permutation_app; [|exact P]. replace (2 * ring) with (ring * 2) by ring. exact P1.
    + rewrite map_app. apply Forall2_app; assumption.
Qed.

(** *** Paths *)
Lemma path_cons a b l p : path_line (a :: b :: l) p <-> on_line a b p \/ path_line (b :: l) p.
Proof.
  split.
  - intros (i & x & y & Hx & Hy & On). destruct i as [|i]; [left|right].
    + cbn in Hx, Hy. congruence.
    + exists i, x, y. auto.
  - intros [On|(i & x & y & Hx & Hy & On)]; [exists 0%nat, a, b; auto|exists (S i), x, y; auto].
Qed.
Lemma path_one a p : ~ path_line [a] p.
Proof. intros (i & x & y & _ & H & _). destruct i; discriminate. Qed.
Lemma connect_outline first p ps : forall a,
  (exists x, In x (joined first (connect first a ps)) /\ on_seg x p) <-> path_line (a :: ps ++ [first]) p.
Proof.
  induction ps as [|b ps IH]; intros a; cbn [connect app].
  - rewrite path_cons. cbn [joined ends fst snd]. split.
    + intros (x & Hx & On). cbn [In] in Hx. destruct Hx as [<-|[<-|[]]]; cbn [on_seg] in On; [auto|].
      apply on_line_point in On. subst p. left. apply on_line_end.
    + intros [On|On]; [|destruct (path_one _ _ On)]. exists (SLine a first). cbn. auto.
  - rewrite path_cons, <- IH. cbn [joined ends fst snd].
    assert (exists s l, connect first b ps = s :: l /\ fst (ends s) = b) as (s & l & E & Eb).
    { destruct ps; cbn; eexists; eexists; split; reflexivity. }
    rewrite E, Eb. split.
    + intros (x & Hx & On). cbn [In] in Hx. destruct Hx as [<-|[<-|Hx]]; cbn [on_seg] in On; [auto| |right; exists x; auto].
      apply on_line_point in On. subst p. left. apply on_line_end.
    + intros [On|(x & Hx & On)]; [exists (SLine a b); cbn; auto|exists x; cbn; auto].
Qed.
Lemma points_outline a ps neg m p : outline (new_connected_points a ps neg m) p <-> path_line (a :: ps ++ [a]) p.
Proof.
  unfold outline, new_connected_points. cbn [sh_segs].
  assert (exists s l, connect a a ps = s :: l /\ fst (ends s) = a) as (s & l & E & Eb).
  { destruct ps; cbn; eexists; eexists; split; reflexivity. }
  rewrite <- connect_outline. rewrite E, Eb. reflexivity.
Qed.
Lemma connect_straight first ps neg m : forall a, straight (MkShape (connect first a ps) neg m).
Proof.
  unfold straight. cbn [sh_segs]. induction ps as [|b ps IH]; intros a; cbn [connect].
  - constructor; [exact I|constructor].
  - constructor; [exact I|apply IH].
Qed.
Lemma line_straight a b th neg m : straight (new_line a b th neg m).
Proof. unfold straight, new_line. cbn. repeat constructor. Qed.
Lemma rectangle_straight c w h neg m : straight (new_rectangle c w h neg m).
Proof. unfold straight, new_rectangle. cbn. repeat constructor. Qed.

(** *** Primitives *)
Lemma exposed_neg e off : exposed e off -> n_eqb e n0 = off.
Proof.
  intros []; cbn [n_eqb NumR]; rewrite r_n0; unfold r_eqb; destruct (Req_EM_T e 0); congruence.
Qed.
Lemma draws_appends ds : forall m : mstate (K := R),
  (forall d, In d ds -> exists s, d = DShape s) ->
  ms_scope (ms_appends ds m) = ms_scope m /\ ms_c (ms_appends ds m) = ms_c m /\
  bf_cmds (ms_buf (ms_appends ds m)) = bf_cmds (ms_buf m) ++ ds /\
  bf_id (ms_buf (ms_appends ds m)) = bf_id (ms_buf m).
Proof.
  induction ds as [|d ds IH]; intros m H; cbn [ms_appends fold_left].
  - rewrite app_nil_r. auto.
  - destruct (IH (ms_append d m)) as (A & B & C & D); [intros; apply H; right; assumption|].
    unfold ms_appends in *. rewrite A, B, C, D. destruct (H d (or_introl eq_refl)) as (s & ->).
    cbn. rewrite <- app_assoc. auto.
Qed.

Lemma r_trunc_INR n : Z.to_nat (r_trunc (INR n)) = n.
Proof.
  pose proof (pos_INR n). unfold r_trunc. destruct (Rle_dec 0 (INR n)) as [_|L]; [|lra].
  rewrite (Int_part_unique (INR n) (Z.of_nat n)).
  - apply Nat2Z.id.
  - rewrite <- INR_IZR_INZ. lra.
Qed.

Lemma draws_one m s f : drawn (DShape s) f -> draws m (ms_append (DShape s) m) [f].
Proof.
  intros H. split; [reflexivity|]. split; [reflexivity|]. split; [reflexivity|].
  exists [DShape s], [f]. split; [reflexivity|]. split; [apply Permutation_refl|]. constructor; [exact H|constructor].
Qed.

Ltac evs := repeat match goal with
  | H : val _ ?e ?k |- context [eval ?sc ?e] =>
      rewrite (proj2 (eval_value sc e k) H); cbn [bind] end.
Lemma prim_drawn clock md p (m : mstate (K := R)) fs :
  documented (fun v => d_get v (ms_scope m)) p fs ->
  exists m', on_prim clock md p m = Ok m' /\ draws m m' fs.
Proof.
  intros H. destruct H; try (destruct old); cbn [on_prim]; evs;
    try match goal with H : exposed _ _ |- _ => rewrite (exposed_neg _ _ H) end.
  - exists m. split; [reflexivity|]. split; [reflexivity|]. split; [reflexivity|]. split; [reflexivity|].
    exists [], []. rewrite app_nil_r. split; [reflexivity|]. split; constructor.
  - eexists. split; [reflexivity|]. apply draws_one. eexists. split; [reflexivity|]. split; [reflexivity|].
    intros q. apply circle_outline. assumption.
  - eexists. split; [reflexivity|]. apply draws_one. eexists. split; [reflexivity|]. split; [reflexivity|].
    intros q. rewrite rot_circle by assumption. apply circle_outline. assumption.
  - eexists. split; [reflexivity|]. apply draws_one. eexists. split; [reflexivity|]. split; [reflexivity|].
    intros q. rewrite rot_straight by apply line_straight. apply line_outline; assumption.
  - eexists. split; [reflexivity|]. apply draws_one. eexists. split; [reflexivity|]. split; [reflexivity|].
    intros q. rewrite rot_straight by apply line_straight. apply line_outline; assumption.
  - match goal with |- context [bind (?f pts) _] => assert (f pts = Ok ps) as -> end.
    { match goal with HF : Forall2 _ pts ps |- _ => induction HF as [|[a b] v l l' [Ha Hb] HF IH] end; [reflexivity|].
      cbn [fst snd] in Ha, Hb. evs. rewrite IH. cbn [bind]. destruct v. reflexivity. }
    cbn [bind]. evs.
    eexists. split; [reflexivity|]. apply draws_one. eexists. split; [reflexivity|]. split; [reflexivity|].
    intros q. rewrite rot_straight by apply connect_straight. apply points_outline.
  - eexists. split; [reflexivity|]. apply draws_one. eexists. split; [reflexivity|]. split; [reflexivity|].
    intros q. rewrite rot_straight by apply rectangle_straight. apply rectangle_outline; assumption.
  - eexists. split; [reflexivity|]. apply draws_one. eexists. split; [reflexivity|]. split; [reflexivity|].
    intros q. rewrite rot_straight by apply rectangle_straight. rewrite !half_n2. apply rectangle_outline; assumption.
Qed.
Lemma moire_drawn clock md p (m : mstate (K := R)) c outer ring gap n thick len r fs :
  moire (fun v => d_get v (ms_scope m)) p c outer ring gap n thick len r ->
  0 < thick -> 0 < len -> 0 < ring -> 0 < outer -> (0 < n)%nat -> moire_rings c ring gap n outer fs ->
  roomy ring gap n outer ->
  exists m', on_prim clock md p m = Ok m' /\
    draws m m' (map (shown_as r false) (cross_hair c thick len ++ fs)).
Proof.
  intros (x & y & o & t & g & k & ct & cl & rot & -> & V1 & V2 & V3 & V4 & V5 & V6 & V7 & V8 & V9)
    Ht Hl Hr Ho Hn HM Hroom.
  cbn [on_prim]; evs.
  cbn [n_ltb NumR]. rewrite !r_n0.
    replace (r_ltb 0 len) with true by (symmetry; apply r_ltb_lt; assumption).
    replace (r_ltb 0 thick) with true by (symmetry; apply r_ltb_lt; assumption).
    replace (r_ltb 0 ring) with true by (symmetry; apply r_ltb_lt; assumption).
    replace (r_ltb 0 outer) with true by (symmetry; apply r_ltb_lt; assumption).
    replace (r_ltb 0 (INR n)) with true by (symmetry; apply r_ltb_lt; apply lt_0_INR; assumption).
    cbn [andb]. cbn [n_trunc NumR]. rewrite r_trunc_INR.
    destruct (rings_drawn r _ _ _ _ _ _ Hr HM Hroom) as (ss & gs & E & P & F).
    assert (MkVec (vx c) (vy c) = c) as -> by (destruct c; reflexivity).
    rewrite E. cbn [bind].
    set (A := new_line _ _ thick false md) at 1. set (B := new_line _ _ thick false md).
    eexists. split; [reflexivity|].
    destruct (draws_appends (map (fun s => DShape (rot_shape r s)) ([A; B] ++ ss)) m) as (S1 & S2 & S3 & S4).
    { intros d Hd. apply in_map_iff in Hd. destruct Hd as (s & <- & _). eauto. }
    split; [exact S1|]. split; [exact S2|]. split; [exact S4|].
    exists (map (fun s => DShape (rot_shape r s)) ([A; B] ++ ss)).
    exists (map (shown_as r false) (cross_hair c thick len) ++ gs).
    split; [exact S3|]. split.
    + rewrite map_app. apply Permutation_app; [apply Permutation_refl|exact P].
    + rewrite map_app. apply Forall2_app; [|exact F].
      unfold cross_hair. cbn [map]. unfold A, B. rewrite half_n2.
      replace (MkVec (vx c) (n_sub (vy c) (len / 2))) with (plus c (MkVec 0 (- (len / 2)))) by vring.
      replace (MkVec (vx c) (n_add (vy c) (len / 2))) with (plus c (MkVec 0 (len / 2))) by vring.
      replace (MkVec (n_sub (vx c) (len / 2)) (vy c)) with (plus c (MkVec (- (len / 2)) 0)) by vring.
      replace (MkVec (n_add (vx c) (len / 2)) (vy c)) with (plus c (MkVec (len / 2) 0)) by vring.
      constructor; [|constructor; [|constructor]]; (eexists; split; [reflexivity|]; split; [reflexivity|]);
        intros q; rewrite rot_straight by apply line_straight; apply line_outline; try assumption;
        intros X; [apply (f_equal vy) in X|apply (f_equal vx) in X]; cbn in X; lra.
Qed.

(** *** Thermals *)
Lemma append_draws_cmds (ds : list (draw R)) : forall b, bf_cmds (append_draws ds b) = bf_cmds b ++ ds.
Proof.
  induction ds as [|d ds IH]; intros b; cbn; [rewrite app_nil_r; reflexivity|].
  unfold append_draws in IH. rewrite IH. destruct d; cbn; rewrite <- app_assoc; reflexivity.
Qed.
Lemma append_draws_id (ds : list (draw R)) : forall b, bf_id (append_draws ds b) = bf_id b.
Proof.
  induction ds as [|d ds IH]; intros b; cbn; [reflexivity|].
  unfold append_draws in IH. rewrite IH. destruct d; reflexivity.
Qed.
Lemma thermal_drawn clock md p (m : mstate (K := R)) c outer inner gap r :
  thermal (fun v => d_get v (ms_scope m)) p c outer inner gap r ->
  0 < gap -> gap * sqrt 2 < inner -> inner < outer ->
  exists m' id buf gs len, on_prim clock md p m = Ok m' /\ outer <= len /\
    bf_cmds (ms_buf m') = bf_cmds (ms_buf m) ++ [DPaste (MkPaste id (turn r c) false None)] /\
    d_get id (c_buffers (ms_c m')) = Some buf /\
    Permutation (map (shown_as r false) (half_rings origin outer inner)) gs /\
    Forall2 drawn (bf_cmds buf)
      (gs ++ map (shown_as r true)
               [band_line (MkVec (- (len / 2)) 0) (MkVec (len / 2) 0) gap;
                band_line (MkVec 0 (- (len / 2))) (MkVec 0 (len / 2)) gap]).
Proof.
  intros (uid & x & y & o & i & g & rot & -> & V1 & V2 & V3 & V4 & V5 & V6) Hg Hi Ho.
  assert (0 < inner) as Hpos.
  { pose proof (Rlt_sqrt2_0). nra. }
  cbn [on_prim]; evs. cbn [n_leb n_mul n_sqrt n_sub NumR]. rewrite r_n2, r_n0.
  replace (r_leb outer inner) with false by (symmetry; apply r_leb_gt; lra). cbn [bind]. evs.
  replace (r_leb inner (gap * sqrt 2)) with false by (symmetry; apply r_leb_gt; lra).
  replace (r_leb (outer - inner) 0) with false by (symmetry; apply r_leb_gt; lra).
  destruct (ring_drawn r origin outer inner false md) as (ss & gs & E & P & F); [lra|].
  change (MkVec 0 0) with origin. rewrite E. cbn [bind].
  cbv zeta. set (rd := n_add _ _).
  assert (outer / 2 <= rd) as Hrd.
  { unfold rd. cbn [n_add n_div n_of_Q NumR].
    assert (0 < Q2R (199 # 100)) by (unfold Q2R; cbn; lra).
    assert (0 < (outer - inner) / Q2R (199 # 100)) by (apply Rdiv_lt_0_compat; lra). lra. }
  clearbody rd. do 4 eexists. exists (2 * rd).
  split; [reflexivity|]. split; [lra|].
  split; [cbn [ms_append ms_buf bf_cmds append_draw]; rewrite transform_rotate; destruct c; reflexivity|].
  split; [cbn [ms_append ms_c]; unfold set_buffer; cbn; rewrite d_get_set; rewrite append_draws_id; cbn; rewrite str_eqb_refl; reflexivity|].
  split; [exact P|].
  rewrite append_draws_cmds. cbn [bf_cmds empty_buffer app]. rewrite map_app. apply Forall2_app; [exact F|].
  replace (2 * rd / 2) with rd by field. cbn [map n_add NumR].
  replace (0 + rd) with rd by ring. replace (0 - rd) with (- rd) by ring.
  constructor; [|constructor; [|constructor]]; (eexists; split; [reflexivity|]; split; [reflexivity|]);
    intros q; rewrite rot_straight by apply line_straight; apply line_outline; try assumption;
    intros X; [apply (f_equal vx) in X|apply (f_equal vy) in X]; cbn in X; lra.
Qed.

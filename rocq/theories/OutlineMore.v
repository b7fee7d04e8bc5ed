(** More outlines: obrounds, strokes, and transformed shapes. *)
From Coq Require Import Reals Lra Lia Psatz.
From Verif Require Import Base Num NumReal GeomModel GeoSpec GeoProofs ShapeProofs SimilarProofs PolyProofs OutlineProofs.
Open Scope R_scope.

(** *** Obrounds *)
Lemma on_line_v' x y0 y1 p : y0 <= y1 -> (on_line (MkVec x y0) (MkVec x y1) p <-> y0 <= vy p <= y1 /\ vx p = x).
Proof.
  intros H. destruct (Req_dec y0 y1) as [->|N]; [|apply on_line_v; lra].
  rewrite on_line_point. split; [intros ->; cbn; lra|]. intros [A B]. apply vec_eq; cbn; lra.
Qed.
Lemma on_line_h' x0 x1 y p : x0 <= x1 -> (on_line (MkVec x0 y) (MkVec x1 y) p <-> x0 <= vx p <= x1 /\ vy p = y).
Proof.
  intros H. destruct (Req_dec x0 x1) as [->|N]; [|apply on_line_h; lra].
  rewrite on_line_point. split; [intros ->; cbn; lra|]. intros [A B]. apply vec_eq; cbn; lra.
Qed.
Definition hyp (x y : R) : R := sqrt (x * x + y * y).
Lemma hyp_0 x : hyp x 0 = Rabs x.
Proof. unfold hyp. replace (x * x + 0 * 0) with (x * x) by ring. apply sqrt_Rsqr_abs. Qed.
Lemma hyp_le x y z : y * y <= z * z -> hyp x y <= hyp x z.
Proof. intros H. apply sqrt_le_1; nra. Qed.
Lemma clamp dx y b t r : b <= t ->
  ((exists q, b <= q <= t /\ hyp dx (y - q) = r) /\ (forall q, b <= q <= t -> r <= hyp dx (y - q))) <->
  (b <= y <= t /\ Rabs dx = r) \/ (y <= b /\ hyp dx (y - b) = r) \/ (t <= y /\ hyp dx (y - t) = r).
Proof.
  intros Hbt. split.
  - intros [(q & Hq & E) Min]. destruct (Rle_dec y b) as [L1|L1]; [|destruct (Rle_dec t y) as [L2|L2]].
    + right; left. split; [exact L1|]. apply Rle_antisym; [|apply Min; lra]. rewrite <- E. apply hyp_le. nra.
    + right; right. split; [exact L2|]. apply Rle_antisym; [|apply Min; lra]. rewrite <- E. apply hyp_le. nra.
    + left. split; [lra|]. rewrite <- hyp_0. apply Rle_antisym.
      * rewrite <- E. apply hyp_le. pose proof (Rle_0_sqr (y - q)) as S. unfold Rsqr in S. lra.
      * replace 0 with (y - y) by ring. apply Min. lra.
  - intros [(L & E)|[(L & E)|(L & E)]]; subst r.
    + split; [exists y; split; [exact L|]; replace (y - y) with 0 by ring; apply hyp_0|].
      intros q Hq. rewrite <- hyp_0. apply hyp_le. pose proof (Rle_0_sqr (y - q)) as S. unfold Rsqr in S. lra.
    + split; [exists b; split; [lra|reflexivity]|]. intros q Hq. apply hyp_le. nra.
    + split; [exists t; split; [lra|reflexivity]|]. intros q Hq. apply hyp_le. nra.
Qed.
Lemma capsule_v x b t r p : b <= t ->
  (capsule_line (MkVec x b) (MkVec x t) r p <->
   (b <= vy p <= t /\ Rabs (vx p - x) = r) \/ (vy p <= b /\ hyp (vx p - x) (vy p - b) = r)
   \/ (t <= vy p /\ hyp (vx p - x) (vy p - t) = r)).
Proof.
  intros H. rewrite <- (clamp (vx p - x) (vy p) b t r H). unfold capsule_line. split.
  - intros [(q & Hq & E) Min]. apply on_line_v' in Hq; [|exact H]. destruct Hq as [Hq Ex]. split.
    + exists (vy q). split; [exact Hq|]. rewrite <- Ex. exact E.
    + intros y Hy. apply (Min (MkVec x y)). apply on_line_v'; [exact H|]. cbn. auto.
  - intros [(q & Hq & E) Min]. split.
    + exists (MkVec x q). split; [apply on_line_v'; [exact H|]; cbn; auto|exact E].
    + intros v Hv. apply on_line_v' in Hv; [|exact H]. destruct Hv as [Hv Ex].
      specialize (Min _ Hv). rewrite <- Ex in Min. exact Min.
Qed.
Lemma hyp_comm x y : hyp x y = hyp y x.
Proof. unfold hyp. f_equal. ring. Qed.
Lemma capsule_h y b t r p : b <= t ->
  (capsule_line (MkVec b y) (MkVec t y) r p <->
   (b <= vx p <= t /\ Rabs (vy p - y) = r) \/ (vx p <= b /\ hyp (vx p - b) (vy p - y) = r)
   \/ (t <= vx p /\ hyp (vx p - t) (vy p - y) = r)).
Proof.
  intros H. rewrite (hyp_comm (vx p - b)), (hyp_comm (vx p - t)).
  rewrite <- (clamp (vy p - y) (vx p) b t r H). unfold capsule_line. split.
  - intros [(q & Hq & E) Min]. apply on_line_h' in Hq; [|exact H]. destruct Hq as [Hq Ex]. split.
    + exists (vx q). split; [exact Hq|]. rewrite <- Ex. rewrite hyp_comm. exact E.
    + intros z Hz. rewrite hyp_comm. apply (Min (MkVec z y)). apply on_line_h'; [exact H|]. cbn. auto.
  - intros [(q & Hq & E) Min]. split.
    + exists (MkVec q y). split; [apply on_line_h'; [exact H|]; cbn; auto|]. rewrite hyp_comm in E. exact E.
    + intros v Hv. apply on_line_h' in Hv; [|exact H]. destruct Hv as [Hv Ex].
      specialize (Min _ Hv). rewrite <- Ex in Min. rewrite hyp_comm in Min. exact Min.
Qed.

Lemma vec_nz x y : x <> 0 \/ y <> 0 -> MkVec x y <> origin.
Proof. intros H E. pose proof (f_equal vx E) as A. pose proof (f_equal vy E) as B. cbn in A, B. tauto. Qed.
Lemma dist_hyp p c : dist p c = hyp (vx p - vx c) (vy p - vy c). Proof. reflexivity. Qed.
Lemma norm_h x : norm (MkVec x 0) = Rabs x.
Proof. unfold norm. cbn. replace (x * x + 0 * 0) with (x * x) by ring. apply sqrt_Rsqr_abs. Qed.
Lemma norm_v y : norm (MkVec 0 y) = Rabs y.
Proof. unfold norm. cbn. replace (0 * 0 + y * y) with (y * y) by ring. apply sqrt_Rsqr_abs. Qed.

Lemma obround_outline c w h neg m p : 0 < w -> 0 < h ->
  (outline (new_obround c w h neg m) p <-> obround_line c w h p).
Proof.
  intros Hw Hh. unfold outline, new_obround, obround_line, at_. cbv zeta. rewrite !half_n2.
  cbn [n_leb NumR]. unfold r_leb. destruct (Rle_dec w h) as [L|L];
    cbn [sh_segs joined ends fst snd n_add n_sub NumR].
  - rewrite capsule_v by lra.
    replace (vy c - (h - w) / 2) with (vy c - h / 2 + w / 2) by lra.
    replace (vy c + (h - w) / 2) with (vy c + h / 2 - w / 2) by lra.
    set (l := vx c - w / 2). set (r := vx c + w / 2).
    set (b := vy c - h / 2 + w / 2). set (t := vy c + h / 2 - w / 2).
    assert (b <= t) as Hbt by (unfold b, t; lra).
    assert (minus (MkVec l b) (MkVec (vx c) b) = MkVec (- (w / 2)) 0) as E1 by (unfold l; vring).
    assert (minus (MkVec r b) (MkVec (vx c) b) = MkVec (w / 2) 0) as E2 by (unfold r; vring).
    assert (minus (MkVec r t) (MkVec (vx c) t) = MkVec (w / 2) 0) as E3 by (unfold r; vring).
    assert (minus (MkVec l t) (MkVec (vx c) t) = MkVec (- (w / 2)) 0) as E4 by (unfold l; vring).
    assert (on_arc (MkVec l b) (MkVec r b) (MkVec (vx c) b) false p <->
            hyp (vx p - vx c) (vy p - b) = w / 2 /\ vy p <= b) as A1.
    { rewrite (half_arc _ _ _ false p).
      - rewrite E1, norm_h, Rabs_Ropp, Rabs_right, dist_hyp by lra. cbn [vx vy].
        unfold cross. cbn. split; intros [A B]; split; auto; nra.
      - rewrite E1. apply vec_nz. lra.
      - rewrite E1, E2. vring. }
    assert (on_arc (MkVec r t) (MkVec l t) (MkVec (vx c) t) false p <->
            hyp (vx p - vx c) (vy p - t) = w / 2 /\ t <= vy p) as A2.
    { rewrite (half_arc _ _ _ false p).
      - rewrite E3, norm_h, Rabs_right, dist_hyp by lra. cbn [vx vy].
        unfold cross. cbn. split; intros [A B]; split; auto; nra.
      - rewrite E3. apply vec_nz. lra.
      - rewrite E3, E4. vring. }
    pose proof (on_line_v' r b t p Hbt) as B1.
    pose proof (on_line_v' l b t p Hbt) as B2. rewrite on_line_sym in B2.
    assert (Rabs (vx p - vx c) = w / 2 <-> vx p = r \/ vx p = l) as C.
    { rewrite Rabs_eq_iff by lra. unfold l, r. split; lra. }
    split.
    + intros (x & Hx & On). cbn [In] in Hx.
      destruct Hx as [<-|[<-|[<-|[<-|[<-|[<-|[<-|[<-|[]]]]]]]]]; cbn [on_seg] in On;
        try apply on_line_point in On.
      * apply A1 in On. tauto.
      * subst p. left. rewrite C. cbn. auto with real.
      * apply B1 in On. left. rewrite C. tauto.
      * subst p. left. rewrite C. cbn. auto with real.
      * apply A2 in On. tauto.
      * subst p. left. rewrite C. cbn. auto with real.
      * apply B2 in On. left. rewrite C. tauto.
      * subst p. left. rewrite C. cbn. auto with real.
    + rewrite C. intros [(A & [E|E])|[(A & E)|(A & E)]].
      * exists (SLine (MkVec r b) (MkVec r t)). split; [cbn; auto|]. apply B1. auto.
      * exists (SLine (MkVec l t) (MkVec l b)). split; [cbn; auto 10|]. apply B2. auto.
      * eexists. split; [left; reflexivity|]. apply A1. auto.
      * eexists. split; [right; right; right; right; left; reflexivity|]. apply A2. auto.
  - rewrite capsule_h by lra.
    replace (vx c - (w - h) / 2) with (vx c - w / 2 + h / 2) by lra.
    replace (vx c + (w - h) / 2) with (vx c + w / 2 - h / 2) by lra.
    set (l := vx c - w / 2 + h / 2). set (r := vx c + w / 2 - h / 2).
    set (b := vy c - h / 2). set (t := vy c + h / 2).
    assert (l <= r) as Hbt by (unfold l, r; lra).
    assert (minus (MkVec r b) (MkVec r (vy c)) = MkVec 0 (- (h / 2))) as E1 by (unfold b; vring).
    assert (minus (MkVec r t) (MkVec r (vy c)) = MkVec 0 (h / 2)) as E2 by (unfold t; vring).
    assert (minus (MkVec l t) (MkVec l (vy c)) = MkVec 0 (h / 2)) as E3 by (unfold t; vring).
    assert (minus (MkVec l b) (MkVec l (vy c)) = MkVec 0 (- (h / 2))) as E4 by (unfold b; vring).
    assert (on_arc (MkVec r b) (MkVec r t) (MkVec r (vy c)) false p <->
            hyp (vx p - r) (vy p - vy c) = h / 2 /\ r <= vx p) as A1.
    { rewrite (half_arc _ _ _ false p).
      - rewrite E1, norm_v, Rabs_Ropp, Rabs_right, dist_hyp by lra. cbn [vx vy].
        unfold cross. cbn. split; intros [A B]; split; auto; nra.
      - rewrite E1. apply vec_nz. lra.
      - rewrite E1, E2. vring. }
    assert (on_arc (MkVec l t) (MkVec l b) (MkVec l (vy c)) false p <->
            hyp (vx p - l) (vy p - vy c) = h / 2 /\ vx p <= l) as A2.
    { rewrite (half_arc _ _ _ false p).
      - rewrite E3, norm_v, Rabs_right, dist_hyp by lra. cbn [vx vy].
        unfold cross. cbn. split; intros [A B]; split; auto; nra.
      - rewrite E3. apply vec_nz. lra.
      - rewrite E3, E4. vring. }
    pose proof (on_line_h' l r b p Hbt) as B1.
    pose proof (on_line_h' l r t p Hbt) as B2. rewrite on_line_sym in B2.
    assert (Rabs (vy p - vy c) = h / 2 <-> vy p = t \/ vy p = b) as C.
    { rewrite Rabs_eq_iff by lra. unfold b, t. split; lra. }
    split.
    + intros (x & Hx & On). cbn [In] in Hx.
      destruct Hx as [<-|[<-|[<-|[<-|[<-|[<-|[<-|[<-|[]]]]]]]]]; cbn [on_seg] in On;
        try apply on_line_point in On.
      * apply B1 in On. left. rewrite C. tauto.
      * subst p. left. rewrite C. cbn. auto with real.
      * apply A1 in On. tauto.
      * subst p. left. rewrite C. cbn. auto with real.
      * apply B2 in On. left. rewrite C. tauto.
      * subst p. left. rewrite C. cbn. auto with real.
      * apply A2 in On. tauto.
      * subst p. left. rewrite C. cbn. auto with real.
    + rewrite C. intros [(A & [E|E])|[(A & E)|(A & E)]].
      * exists (SLine (MkVec r t) (MkVec l t)). split; [cbn; auto 10|]. apply B2. auto.
      * exists (SLine (MkVec l b) (MkVec r b)). split; [cbn; auto|]. apply B1. auto.
      * eexists. split; [do 6 right; left; reflexivity|]. apply A2. auto.
      * eexists. split; [right; right; left; reflexivity|]. apply A1. auto.
Qed.

(** *** Straight strokes *)
Lemma line_perp a b th : a <> b ->
  v_scale (MkVec (n_opp (vy (v_norm (v_sub b a)))) (vx (v_norm (v_sub b a)))) (n_div th n2)
  = times (th / 2 / dist b a) (turn 90 (minus b a)).
Proof.
  intros H. assert (minus b a <> origin) as N by (intros E; apply minus_0 in E; congruence).
  pose proof (norm_pos _ N) as P. change (v_sub b a) with (minus b a).
  rewrite (v_norm_spec _ N), half_n2, turn_90, dist_norm.
  apply vec_eq; unfold v_scale, times; cbn [vx vy n_mul n_opp NumR]; field; lra.
Qed.
Lemma line_outline a b th neg m p : a <> b -> 0 < th ->
  (outline (new_line a b th neg m) p <-> band_line a b th p).
Proof.
  intros Hab Hth. unfold outline, new_line. cbv zeta. rewrite (line_perp a b th Hab).
  assert (0 < dist b a) as HL.
  { apply norm_pos. intros E. apply minus_0 in E. congruence. }
  unfold band_line. set (L := dist b a) in *. set (d := minus b a). set (n := turn 90 d).
  cbn [sh_segs joined ends fst snd].
  change (@v_add R NumR) with plus. change (@v_sub R NumR) with minus.
  set (e := th / 2 / L).
  assert (forall s q, plus a (plus (times (s / L) d) (times (q / L) n)) =
    MkVec (vx a + s / L * vx d + q / L * vx n) (vy a + s / L * vy d + q / L * vy n)) as P
    by (intros; vring).
  assert (vx b = vx a + vx d) as Bx by (unfold d; cbn; ring).
  assert (vy b = vy a + vy d) as By by (unfold d; cbn; ring).
  assert (L / L = 1) as LL by (field; lra).
  split.
  - intros (x & Hx & On). cbn [In] in Hx.
    destruct Hx as [<-|[<-|[<-|[<-|[]]]]]; cbn [on_seg] in On; destruct On as (t & Ht & ->).
    + exists (t * L), (th / 2). rewrite P. repeat split; try nra.
      * rewrite Rabs_right by lra. lra.
      * right; right. rewrite Rabs_right by lra. reflexivity.
      * unfold e. apply vec_eq; cbn [plus minus times vx vy]; rewrite ?Bx, ?By; field; lra.
    + exists L, ((1 - 2 * t) * (th / 2)). rewrite P. repeat split; try lra.
      * apply Rabs_le_iff. nra.
      * unfold e. apply vec_eq; cbn [plus minus times vx vy]; rewrite ?Bx, ?By; field; lra.
    + exists ((1 - t) * L), (- (th / 2)). rewrite P. repeat split; try nra.
      * rewrite Rabs_Ropp, Rabs_right by lra. lra.
      * right; right. rewrite Rabs_Ropp, Rabs_right by lra. reflexivity.
      * unfold e. apply vec_eq; cbn [plus minus times vx vy]; rewrite ?Bx, ?By; field; lra.
    + exists 0, ((2 * t - 1) * (th / 2)). rewrite P. repeat split; try lra.
      * apply Rabs_le_iff. nra.
      * unfold e. apply vec_eq; cbn [plus minus times vx vy]; rewrite ?Bx, ?By; field; lra.
  - intros (s & q & Hs & Hq & C & ->). rewrite P. apply Rabs_le_iff in Hq.
    assert (0 <= s / L <= 1) as Hs'.
    { split; [apply Rmult_le_pos; [lra|left; apply Rinv_0_lt_compat; lra]|].
      apply (Rmult_le_reg_r L); [lra|]. unfold Rdiv. rewrite Rmult_assoc, Rinv_l by lra. lra. }
    assert (-1 <= q / (th / 2) <= 1) as Hq'.
    { split; apply (Rmult_le_reg_r (th / 2)); try lra; unfold Rdiv at 2; unfold Rdiv at 1;
        rewrite ?Rmult_assoc, ?Rinv_l by lra; lra. }
    destruct C as [->|[->|C]].
    + eexists. split; [do 3 right; left; reflexivity|].
      exists ((q / (th / 2) + 1) / 2). split; [lra|]. unfold e.
      apply vec_eq; cbn [plus minus times vx vy]; field; lra.
    + eexists. split; [right; left; reflexivity|].
      exists ((1 - q / (th / 2)) / 2). split; [lra|]. unfold e.
      apply vec_eq; cbn [plus minus times vx vy]; rewrite ?Bx, ?By; field; lra.
    + apply Rabs_eq_iff in C; [|lra]. destruct C as [->|C].
      * eexists. split; [left; reflexivity|]. exists (s / L). split; [lra|]. unfold e.
        apply vec_eq; cbn [plus minus times vx vy]; rewrite ?Bx, ?By; field; lra.
      * replace q with (- (th / 2)) by lra.
        eexists. split; [right; right; left; reflexivity|]. exists (1 - s / L). split; [lra|]. unfold e.
        apply vec_eq; cbn [plus minus times vx vy]; rewrite ?Bx, ?By; field; lra.
Qed.

(** *** Arc strokes *)
Lemma times_plus_radial c v r th : v <> origin -> norm v = r -> forall sg : bool,
  (if sg then plus (plus c v) (v_scale (v_norm v) (n_div th n2))
   else minus (plus c v) (v_scale (v_norm v) (n_div th n2)))
  = plus c (times (if sg then 1 + th / 2 / r else 1 - th / 2 / r) v).
Proof.
  intros N E sg. pose proof (norm_pos v N) as P. rewrite E in P.
  rewrite (v_norm_spec _ N), half_n2, E.
  destruct sg; apply vec_eq; cbn [plus minus times v_scale vx vy n_mul NumR]; field; lra.
Qed.
Lemma minus_plus c v : minus (plus c v) c = v. Proof. vring. Qed.
Lemma plus_minus a c : plus c (minus a c) = a. Proof. vring. Qed.
Lemma turns_times k t u v : k <> 0 -> (turns t (times k u) (times k v) <-> turns t u v).
Proof.
  intros H. split; intros (j & Hj & E); exists j; (split; [exact Hj|]).
  - rewrite turn_times in E. pose proof (f_equal vx E) as A. pose proof (f_equal vy E) as B.
    cbn [times vx vy] in A, B. apply vec_eq; cbn [times vx vy];
    apply (Rmult_eq_reg_l k); try exact H; lra.
  - rewrite turn_times, E. vring.
Qed.
Lemma sweep_exists u v : u <> origin -> v <> origin -> exists T, sweep true u v T.
Proof.
  intros Hu Hv. destruct (total_spec true u v Hu Hv) as (R & P & T). exists (total true u v).
  split; [|exact T]. specialize (P eq_refl). lra.
Qed.
Lemma sweep_back cw u v T : norm u = norm v -> sweep cw u v T -> sweep (negb cw) v u T.
Proof.
  intros N (HT & H). split; [exact HT|]. apply (turns_exact _ _ _ N) in H. subst v.
  exists 1. split; [lra|].
  replace (signed (negb cw) T) with (- signed cw T) by (destruct cw; cbn; lra).
  rewrite turn_inv. vring.
Qed.
Lemma sweep_unique cw u v S T : u <> origin -> sweep cw u v S -> sweep cw u v T -> S = T.
Proof. intros N (A & B) (C & D). exact (signed_unique cw S T u v N A C B D). Qed.

Lemma radial_line c k0 k1 w p : on_line (plus c (times k0 w)) (plus c (times k1 w)) p <->
  exists t, 0 <= t <= 1 /\ p = plus c (times (k0 + t * (k1 - k0)) w).
Proof.
  split; intros (t & Ht & ->); exists t; (split; [exact Ht|]); vring.
Qed.
Lemma cw_arc_outline' c u v th neg m p : u <> origin -> norm u = norm v -> 0 < th ->
  (outline (new_cw_arc (plus c u) (plus c v) c th neg m) p <-> ring_line (plus c u) (plus c v) c th p).
Proof.
  intros Nu Hd Hth. pose proof (norm_pos _ Nu) as Hr.
  assert (v <> origin) as Nv.
  { intros E. rewrite E in Hd. rewrite (proj2 (norm_0 origin) eq_refl) in Hd. lra. }
  unfold outline, new_cw_arc. cbv zeta. cbn [sh_segs joined ends fst snd].
  change (@v_add R NumR) with plus. change (@v_sub R NumR) with minus.
  unfold ring_line. rewrite dist_norm. rewrite !minus_plus.
  set (r := norm u) in *.
  pose proof (times_plus_radial c u r th Nu eq_refl true) as E1.
  pose proof (times_plus_radial c u r th Nu eq_refl false) as E2.
  pose proof (times_plus_radial c v r th Nv (eq_sym Hd) true) as E3.
  pose proof (times_plus_radial c v r th Nv (eq_sym Hd) false) as E4.
  cbv iota in E1, E2, E3, E4. rewrite ?E1, ?E2, ?E3, ?E4. clear E1 E2 E3 E4.
  set (h := th / 2) in *. assert (0 < h) as Hh by (unfold h; lra).
  set (ko := 1 + h / r). set (ki := 1 - h / r).
  assert (0 < h / r) as Hq by (apply Rmult_lt_0_compat; [lra|apply Rinv_0_lt_compat; lra]).
  assert (forall k, k * r - r = (k - 1) * r) as D by (intros; ring).
  assert (ko * r - r = h) as Do by (unfold ko; field; lra).
  assert (ki * r - r = - h) as Di by (unfold ki; field; lra).
  assert (Rabs h = h) as Ah by (apply Rabs_right; lra).
  assert (Rabs (- h) = h) as Am by (rewrite Rabs_Ropp; exact Ah).
  destruct (sweep_exists u v Nu Nv) as (T & S).
  pose proof (turns_exact _ _ _ Hd (proj2 S)) as V. cbn [signed] in V.
  assert (0 < T <= 360) as HT by apply S.
  split.
  - intros (x & Hx & On). cbn [In] in Hx.
    destruct Hx as [<-|[<-|[<-|[<-|[]]]]]; cbn [on_seg] in On.
    + destruct On as (T' & t & S' & Ht & ->). rewrite !minus_plus in S'. rewrite minus_plus.
      assert (0 < ko) as K by (unfold ko; lra).
      assert (T' = T) as ->.
      { apply (sweep_unique true u v); auto. split; [apply S'|].
        apply (turns_times ko); [lra|apply S']. }
      exists T, t, ko. rewrite Do, Ah. repeat split; try apply S; try lra; auto.
      cbn [signed]. rewrite turn_times. reflexivity.
    + apply radial_line in On. destruct On as (t & Ht & ->).
      exists T, T, (ko + t * (ki - ko)). rewrite <- V.
      replace ((ko + t * (ki - ko)) * r - r) with ((1 - 2 * t) * h) by (unfold ko, ki; field; lra).
      repeat split; try apply S; try lra.
      apply Rabs_le_iff. nra.
    + destruct On as (T' & t & S' & Ht & ->). rewrite !minus_plus in S'. rewrite minus_plus.
      destruct (Req_dec ki 0) as [Z|Z].
      * exists T, T, ki. rewrite Di, Am. repeat split; try apply S; try lra; auto.
        rewrite Z. cbn [signed]. rewrite turn_times. vring.
      * assert (T' = T) as ->.
        { apply (sweep_unique false v u); auto.
          - split; [apply S'|]. apply (turns_times ki); [exact Z|apply S'].
          - exact (sweep_back true u v T Hd S). }
        exists T, (T - t), ki. rewrite Di, Am. repeat split; try apply S; try lra; auto.
        cbn [signed]. rewrite turn_times, V, <- turn_plus.
        replace (- (T - t)) with (t + - T) by ring. reflexivity.
    + apply radial_line in On. destruct On as (t & Ht & ->).
      exists T, 0, (ki + t * (ko - ki)). rewrite Ropp_0, turn_0.
      replace ((ki + t * (ko - ki)) * r - r) with ((2 * t - 1) * h) by (unfold ko, ki; field; lra).
      repeat split; try apply S; try lra.
      apply Rabs_le_iff. nra.
  - intros (T' & t & k & S' & Ht & Hk & C & ->).
    assert (T' = T) as -> by (apply (sweep_unique true u v); auto).
    apply Rabs_le_iff in Hk.
    set (w := (k * r - r) / h).
    assert (k = 1 + w * (h / r)) as Kw by (unfold w; field; lra).
    assert (-1 <= w <= 1) as Hw.
    { unfold w. split; apply (Rmult_le_reg_r h); try lra; unfold Rdiv;
        rewrite ?Rmult_assoc, ?Rinv_l by lra; lra. }
    destruct C as [->|[->|C]].
    + eexists. split; [do 3 right; left; reflexivity|]. apply radial_line.
      exists ((1 + w) / 2). split; [lra|]. rewrite Ropp_0, turn_0, Kw. unfold ko, ki.
      f_equal. f_equal. field. lra.
    + eexists. split; [right; left; reflexivity|]. apply radial_line.
      exists ((1 - w) / 2). split; [lra|]. rewrite <- V, Kw. unfold ko, ki.
      f_equal. f_equal. field. lra.
    + apply Rabs_eq_iff in C; [|lra]. destruct C as [C|C].
      * assert (k = ko) as -> by (apply (Rmult_eq_reg_r r); lra).
        eexists. split; [left; reflexivity|]. exists T, t. rewrite !minus_plus.
        split; [split; [exact HT|]|split; [exact Ht|]].
        -- apply (turns_times ko); [unfold ko; lra|apply S].
        -- cbn [signed]. rewrite turn_times. reflexivity.
      * assert (k = ki) as -> by (apply (Rmult_eq_reg_r r); lra).
        eexists. split; [right; right; left; reflexivity|].
        exists T, (T - t). rewrite !minus_plus. cbn [signed].
        split; [split; [exact HT|]|split; [lra|]].
        -- destruct (Req_dec ki 0) as [Z|Z].
           ++ exists 1. split; [lra|]. rewrite Z. vring.
           ++ apply (turns_times ki); [exact Z|]. exact (proj2 (sweep_back true u v T Hd S)).
        -- rewrite turn_times, V, <- turn_plus. f_equal. f_equal. f_equal. ring.
Qed.
Lemma cw_arc_outline a b c th neg m p : a <> c -> dist a c = dist b c -> 0 < th ->
  (outline (new_cw_arc a b c th neg m) p <-> ring_line a b c th p).
Proof.
  intros H D. rewrite <- (plus_minus a c), <- (plus_minus b c). apply cw_arc_outline'.
  - intros E. apply minus_0 in E. congruence.
  - exact D.
Qed.

(** Proofs for C85: which files of builders can be rendered. *)
From Coq Require Import Reals Qreals Lra Lia.
From Verif Require Import Base Num NumReal Dict CoordModel Ast StateModel StateSpec StateProofs ExprSpec MacroSpec GeomModel CompilerModel LayerSpec LayerProofs
  DrawSpec DrawProofs FlashSpec GbModel GbSpec DepictSpec DepictNodes DepictTrack AcceptSpec AcceptMacro InkSpec InkProofs InkBuildSpec.
Local Existing Instance NumQ.

(** ** What the recorded calls say *)
(** A contour is open; something was drawn. *)
Definition ink_step (p : bool * bool) (c : @call Q) : bool * bool :=
  let (b, any) := p in
  match c with
  | CDraw h _ => if of_region h then (b || quadrants h, any) else (b, any || quadrants h)
  | CFlash _ _ _ => (b, true)
  | CStartRegion => (false, any)
  | CFlushRegion _ => (false, any || b)
  | CEndRegion => (false, any)
  end.
Definition ink_of (log : list (@call Q)) : bool * bool := fold_left ink_step log (false, false).
Lemma ink_snoc log c : ink_of (log ++ [c]) = ink_step (ink_of log) c.
Proof. unfold ink_of. apply fold_left_app. Qed.

Lemma any_snoc {K} (pre : list (node K)) n : any_mark (pre ++ [n]) <-> any_mark pre \/ marks pre n.
Proof.
  split.
  - intros (p & m & q & E & Hm). destruct (exists_last (l := m :: q)) as (q' & z & Eq); [discriminate|].
    assert (E' : pre ++ [n] = (p ++ q') ++ [z]) by (rewrite <- app_assoc, <- Eq; exact E). apply app_inj_tail in E' as [-> <-].
    destruct q' as [|m' q']; cbn [app] in Eq; injection Eq as <- ->; [right; rewrite app_nil_r; exact Hm|left; exists p, m, q'; auto].
  - intros [(p & m & q & -> & Hm)|Hm]; [exists p, m, (q ++ [n]); rewrite <- app_assoc; auto|exists pre, n, []; auto].
Qed.
Lemma strokes_quadrants (pre : list (node Q)) r : strokes pre <-> quadrants (callback_for (plot_of pre) (arc_mode pre) r) = true.
Proof. unfold strokes. destruct r, (plot_of pre), (arc_mode pre); cbn; intuition discriminate. Qed.
Lemma walk_ink pre v : walk pre v -> (fst (ink_of (v_ext v)) = true <-> outlined pre) /\ (snd (ink_of (v_ext v)) = true <-> any_mark pre).
Proof.
  induction 1 as [|pre v n v' Hw [IH1 IH2] Hl E].
  - split; (split; [discriminate|]); intros (p & m & q & X & _); destruct p; discriminate X.
  - pose proof (walk_point _ _ Hw) as Hp. rewrite outlined_snoc, any_snoc.
    assert (Hdone : calls_back n = true -> visit_leaf recorder n v = Done v').
    { intros Hc. destruct E as [E|E]; [exact E|]. destruct (leaf_stop _ _ _ _ E) as [[-> | ->] _]; discriminate Hc. }
    destruct (calls_back n) eqn:Hc.
    2:{ rewrite (leaf_quiet recorder n v v' Hc E). 
        assert (Q : ~ edge pre n /\ quiet n /\ ~ marks pre n) by (destruct n; try discriminate Hc; try (repeat split; intros []; fail); destruct g; try discriminate Hc; (repeat split; intros [])). tauto. }
    specialize (Hdone eq_refl). clear E. destruct (ink_of (v_ext v)) as [b any] eqn:Ei. cbn [fst snd] in *. destruct n; try discriminate Hc; try contradiction.
    + destruct (leaf_adef _ _ _ _ Hdone) as (s & Es & _). injection Es as Es. rewrite <- Es, Ei. cbn [fst snd edge quiet marks]. tauto.
    + destruct (leaf_d01 _ _ _ _ _ _ _ Hdone) as (s & Er & Eh & _). injection Eh as Eh. rewrite <- Eh, ink_snoc, Ei.
      destruct (coherent_point recorder [] _ _ Hp) as [Hcb _]. rewrite (pl_plot recorder [] _ _ Hp), (pl_arc recorder [] _ _ Hp), (pl_region recorder [] _ _ Hp) in Hcb.
      change (last_set sets_plot PmLinear pre) with (plot_of pre) in Hcb. change (last_set sets_arc SingleQuadrant pre) with (arc_mode pre) in Hcb.
      change (last_set sets_region false pre) with (in_region pre) in Hcb.
      assert (Ho : of_region (v_d01 v) = in_region pre) by (rewrite Hcb; destruct (in_region pre), (plot_of pre), (arc_mode pre); reflexivity).
      pose proof (strokes_quadrants pre (in_region pre)) as Hs. rewrite <- Hcb in Hs. cbn [ink_step edge quiet marks]. rewrite Ho.
      destruct (in_region pre); cbn [fst snd]; rewrite orb_true_iff, Hs; intuition discriminate.
    + destruct (leaf_d02 _ _ _ _ _ Hdone) as (s & _ & _ & Hf). rewrite (pl_region recorder [] _ _ Hp) in Hf. change (last_set sets_region false pre) with (in_region pre) in Hf.
      cbn [edge quiet marks]. destruct (in_region pre) eqn:Er.
      * injection Hf as Hf. rewrite <- Hf, ink_snoc, Ei. cbn [ink_step fst snd]. rewrite orb_true_iff. intuition discriminate.
      * rewrite Hf, Ei. cbn [fst snd]. assert (N : ~ outlined pre) by (intros Ho; apply outlined_region in Ho; congruence). tauto.
    + destruct (leaf_d03 _ _ _ _ _ Hdone) as (s & a & h & _ & _ & _ & Hf & _). injection Hf as Hf. rewrite <- Hf, ink_snoc, Ei. cbn [ink_step fst snd edge quiet marks]. tauto.
    + destruct g; try discriminate Hc; cbn [edge quiet marks].
      * destruct (leaf_g36 _ _ _ Hdone) as (s & Ex). cbn [recorder hk_start_region] in Ex. rewrite Ex, ink_snoc, Ei. cbn [ink_step fst snd]. intuition discriminate.
      * destruct (leaf_g37 _ _ _ Hdone) as (x & s & Ef & Ex). injection Ef as <-. cbn [recorder hk_end_region] in Ex. rewrite Ex, !ink_snoc, Ei. cbn [ink_step fst snd]. rewrite orb_true_iff. intuition discriminate.
Qed.

Definition nonempty (w : wish) : bool := match w with WRegion _ [] => false | _ => true end.
Lemma outline_ink b segs cs : GbSpec.outlined b segs cs -> forall o any,
  fold_left ink_step cs (o, any) = (o || match segs with [] => false | _ => true end, any).
Proof.
  induction 1 as [b|b s r st cs Hs Hr IH]; intros o any; cbn [fold_left]; [rewrite orb_false_r; reflexivity|].
  assert (E : ink_step (o, any) (CDraw (match seg_mode s with PmLinear => HRegionLine | PmArc => HRegionCwMq | PmCcwArc => HRegionCcwMq end) st) = (true, any))
    by (destruct (seg_mode s); cbn; rewrite orb_true_r; reflexivity).
  rewrite E, IH. rewrite orb_true_r. reflexivity.
Qed.
Lemma shown_ink h w cs any : shown h w cs -> fold_left ink_step cs (false, any) = (false, any || nonempty w).
Proof.
  intros Hs. destruct Hs as [n l pol rot mx my sc lk a s|m w b e c a w' s|b segs cs s0 s1 H0 H1 Ho].
  - cbn. rewrite orb_true_r. reflexivity.
  - destruct m; cbn; rewrite ?orb_true_r; reflexivity.
  - cbn [app fold_left ink_step]. rewrite fold_left_app, (outline_ink _ _ _ Ho). cbn [fold_left ink_step app]. rewrite orb_false_r. destruct segs; reflexivity.
Qed.
Lemma drawn_ink h ws log : GbSpec.drawn h ws log -> ink_of log = (false, existsb nonempty ws).
Proof.
  intros (parts & -> & HF). unfold ink_of. assert (G : forall any, fold_left ink_step (concat parts) (false, any) = (false, any || existsb nonempty ws)); [|apply (G false)].
  induction HF as [|w cs ws parts Hs _ IH]; intros any; cbn [concat fold_left existsb]; [rewrite orb_false_r; reflexivity|].
  rewrite fold_left_app, (shown_ink _ _ _ _ Hs), IH, orb_assoc. reflexivity.
Qed.
Lemma slip_nonempty ws : forall t r, existsb nonempty (slip t r ws) = existsb nonempty ws.
Proof. induction ws as [|w ws IH]; intros t r; [reflexivity|]. destruct w; cbn [slip existsb nonempty]; rewrite IH; reflexivity. Qed.
Lemma slip_pads ws n l pol rot mx my sc : forall t r, In (WPad n l pol rot mx my sc) (slip t r ws) <-> In (WPad n l pol rot mx my sc) ws.
Proof. induction ws as [|w ws IH]; intros t r; [reflexivity|]. destruct w; cbn [slip In]; rewrite IH; intuition (try discriminate; try congruence; auto). Qed.

(** ** Flashes *)
Definition flashed (pre p : list (node Q)) (h : d03_handler) (a : aperture Q) (s : state Q) : Prop :=
  exists x y q v, pre = p ++ ND03 x y :: q /\ walk p v /\ read_coords x y None None (v_state v) = Ok s /\ current_aperture s = Ok a.
Lemma walk_flashes pre v : walk pre v ->
  (forall h a s, In (CFlash h a s) (v_ext v) -> exists p, flashed pre p h a s) /\
  (forall p x y q, pre = p ++ ND03 x y :: q -> exists h a s, In (CFlash h a s) (v_ext v) /\ flashed pre p h a s).
Proof.
  induction 1 as [|pre v n v' Hw [IH1 IH2] Hl E].
  - split; [intros h a s []|]. intros p x y q X. destruct p; discriminate X.
  - assert (More : forall p h a s, flashed pre p h a s -> flashed (pre ++ [n]) p h a s).
    { intros p h a s (x & y & q & w & -> & R). exists x, y, (q ++ [n]), w. rewrite <- app_assoc. auto. }
    assert (Hdone : calls_back n = true -> visit_leaf recorder n v = Done v').
    { intros Hc. destruct E as [E|E]; [exact E|]. destruct (leaf_stop _ _ _ _ E) as [[-> | ->] _]; discriminate Hc. }
    assert (New : (exists l, v_ext v' = v_ext v ++ l /\ Forall (fun c => match c with CFlash _ _ _ => False | _ => True end) l) /\ match n with ND03 _ _ => False | _ => True end \/
       exists x y h a s, n = ND03 x y /\ v_ext v' = v_ext v ++ [CFlash h a s] /\ read_coords x y None None (v_state v) = Ok s /\ current_aperture s = Ok a).
    { destruct (calls_back n) eqn:Hc.
      2:{ left. split; [|destruct n; try exact I; discriminate Hc]. exists []. rewrite app_nil_r. split; [apply (leaf_quiet recorder n v v' Hc E)|constructor]. }
      specialize (Hdone eq_refl). destruct n; try discriminate Hc; try contradiction.
      - left. split; [|exact I]. destruct (leaf_adef _ _ _ _ Hdone) as (s & Es & _). injection Es as Es. exists []. rewrite app_nil_r. auto.
      - left. split; [|exact I]. destruct (leaf_d01 _ _ _ _ _ _ _ Hdone) as (s & Er & Eh & _). injection Eh as Eh. eexists. split; [symmetry; exact Eh|]. repeat constructor.
      - left. split; [|exact I]. destruct (leaf_d02 _ _ _ _ _ Hdone) as (s & _ & _ & Hf). destruct (s_region (v_state v)).
        + injection Hf as Hf. eexists. split; [symmetry; exact Hf|]. repeat constructor.
        + exists []. rewrite app_nil_r. auto.
      - right. destruct (leaf_d03 _ _ _ _ _ Hdone) as (s & a & h & R1 & R2 & _ & Hf & _). injection Hf as Hf. exists x, y, h, a, s. auto.
      - left. split; [|exact I]. destruct g; try discriminate Hc.
        + destruct (leaf_g36 _ _ _ Hdone) as (s & Ex). eexists. split; [exact Ex|]. repeat constructor.
        + destruct (leaf_g37 _ _ _ Hdone) as (x & s & Ef & Ex). injection Ef as <-. cbn [recorder hk_end_region] in Ex. eexists. split; [rewrite Ex, <- app_assoc; reflexivity|]. repeat constructor. }
    destruct New as [[(l & -> & Hf) Hn]|(x & y & h & a & s & -> & -> & R1 & R2)].
    + split.
      * intros h a s Hi. apply in_app_or in Hi as [Hi|Hi]; [|rewrite Forall_forall in Hf; destruct (Hf _ Hi)]. destruct (IH1 _ _ _ Hi) as [p Hp]. exists p. auto.
      * intros p x y q X. destruct (exists_last (l := ND03 x y :: q)) as (q' & z & Eq); [discriminate|].
        assert (E' : pre ++ [n] = (p ++ q') ++ [z]) by (rewrite <- app_assoc, <- Eq; exact X). apply app_inj_tail in E' as [E1 <-].
        destruct q' as [|m' q']; cbn [app] in Eq; injection Eq as <- ->; [contradiction Hn|].
        destruct (IH2 p x y q' E1) as (h & a & s & Hi & Hp). exists h, a, s. split; [apply in_or_app; left; exact Hi|auto].
    + assert (Hnew : flashed (pre ++ [ND03 x y]) pre h a s) by (exists x, y, [], v; auto). split.
      * intros h' a' s' Hi. apply in_app_or in Hi as [Hi|[Hi|[]]]; [destruct (IH1 _ _ _ Hi) as [p Hp]; exists p; auto|]. injection Hi as <- <- <-. exists pre. exact Hnew.
      * intros p x' y' q X. destruct (exists_last (l := ND03 x' y' :: q)) as (q' & z & Eq); [discriminate|].
        assert (E' : pre ++ [ND03 x y] = (p ++ q') ++ [z]) by (rewrite <- app_assoc, <- Eq; exact X). apply app_inj_tail in E' as [E1 <-].
        destruct q' as [|m' q']; cbn [app] in Eq.
        -- rewrite app_nil_r in E1. subst p. exists h, a, s. split; [apply in_or_app; right; left; reflexivity|exact Hnew].
        -- injection Eq as <- ->. destruct (IH2 p x' y' q' E1) as (h' & a' & s' & Hi & Hp). exists h', a', s'. split; [apply in_or_app; left; exact Hi|auto].
Qed.

Lemma figures_marks env fs prims : Forall2 draws_figure fs prims -> marks_body env (map real_prim prims) <-> Exists leaves fs.
Proof.
  induction 1 as [|f p fs prims Hd _ IH]; [split; [intros []|intros X; inversion X]|]. rewrite Exists_cons, <- IH. cbn [map].
  destruct f, p; try contradiction Hd; cbn [real_prim marks_body marks_prim leaves]; try (intuition; fail).
  destruct Hd as (_ & Ho & Hi & Hg & _). apply (const_real env) in Ho, Hi, Hg. unfold FigSpec.val in *.
  match type of Ho with value _ ?A _ => match type of Hi with value _ ?B _ => match type of Hg with value _ ?C _ => match type of Hg with value _ _ (Q2R ?g) => match type of Hi with value _ _ (Q2R ?i) => match type of Ho with value _ _ (Q2R ?o) =>
  assert (X : (exists o' i' g' : R, value env A o' /\ value env B i' /\ value env C g' /\ (i' < o')%R /\ (g' * sqrt 2 < i')%R) <->
              ((i < o)%Q /\ (Q2R g * sqrt 2 < Q2R i)%R)); [|tauto] end end end end end end.
  split.
  - intros (o' & i' & g' & V1 & V2 & V3 & C1 & C2). rewrite (value_det env _ _ V1 _ Ho), (value_det env _ _ V2 _ Hi) in C1. rewrite (value_det env _ _ V3 _ Hg), (value_det env _ _ V2 _ Hi) in C2.
    split; [apply Rlt_Qlt; exact C1|exact C2].
  - intros [C1 C2]. do 3 eexists. repeat split; eauto. apply Qlt_Rlt, C1.
Qed.

Lemma look_kind h n t : pad_look h n = Some (Plain t) -> match t with TMacro _ _ => False | _ => True end.
Proof. unfold pad_look. destruct (nth_call h n) as [[c r]|]; [|discriminate]. destruct c; try discriminate; intros X; injection X as <-; exact I. Qed.

Section Pads.
  Context (text : R -> str).
  Local Notation rns := (map real_node).
  Lemma pad_marks h pad lk p hd a s whole p1 a1 q1 : flashed whole p hd (ApAD a) s -> NoDup (ad_codes whole) -> NoDup (names_of whole) ->
    (forall pre n post, rns whole = pre ++ n :: post -> acceptable pre n) ->
    pad_look h pad = Some lk -> looks (s_macros s) a lk ->
    latest_selection (rns p) = Some (ad_id a1) -> rns p = p1 ++ NAD a1 :: q1 -> ~ In (ad_id a1) (ad_codes q1) ->
    marks_aperture p1 a1 <-> match lk with Plain _ => True | Custom fs => Exists leaves fs end.
  Proof.
    intros (x & y & q & v & Ew & Hw & Hr & Ha) Hd Hn Hacc Hlk Hl Hsel Ep Hq.
    assert (Hdp : NoDup (ad_codes p)) by (rewrite Ew in Hd; unfold ad_codes in Hd; rewrite flat_map_app in Hd; exact (nodup_left _ _ Hd)).
    assert (Hnp : NoDup (names_of p)) by (rewrite Ew in Hn; unfold names_of in Hn; rewrite flat_map_app in Hn; exact (nodup_left _ _ Hn)).
    destruct (selected_code text p v x y None None s Hw Hdp Hr (ApAD a) a1 Ha) as (a0 & E0 & -> & Hin); [split; [exact Hsel|exists p1, q1; auto]|]. injection E0 as <-.
    destruct (split_real _ _ _ _ Ep) as (p' & q' & a' & -> & -> & Ea').
    destruct (neg_state text _ _ _ _ _ _ _ (walk_point _ _ Hw) Hr) as (_ & _ & Em & _).
    unfold marks_aperture. unfold real_ad. cbn [ad_template]. destruct lk as [t|fs]; cbn [looks] in Hl.
    - apply look_kind in Hlk. rewrite Hl. destruct t; try contradiction; cbn [real_template]; tauto.
    - destruct Hl as (name & prims & Et & Eg & HF). rewrite Et. cbn [real_template option_map].
      rewrite Em, (known_macros _ _ (walk_point _ _ Hw)) in Eg.
      assert (Hac : acceptable (rns p') (NAD (real_ad a))).
      { apply (Hacc _ _ (rns (q' ++ ND03 x y :: q))). rewrite Ew, <- !app_assoc, map_app. cbn [app map real_node]. rewrite <- Ea'. reflexivity. }
      cbn [acceptable real_ad ad_template] in Hac. rewrite Et in Hac. cbn [real_template option_map] in Hac.
      destruct Hac as (prims0 & env & Hm & Hb & _). pose proof Hm as Hm'. rewrite macros_real in Hm'. destruct (macros_of p' name) as [pr|] eqn:Emp; [|discriminate].
      pose proof (macros_more p' _ name pr Hnp Emp) as Emm. rewrite Emm in Eg. injection Eg as ->. injection Hm' as <-.
      rewrite Hm. split.
      + intros (ps & env' & X & _ & B). injection X as <-. apply (figures_marks env' fs prims HF). exact B.
      + intros HE. exists (map real_prim prims), env. split; [reflexivity|]. split; [exact Hb|]. apply (figures_marks env fs prims HF). exact HE.
  Qed.
End Pads.

(** ** Reading numbers as reals *)
Section Reals.
  Local Notation rns := (map real_node).
  Lemma split_rns (pre : list (node Q)) p n q : rns pre = p ++ n :: q -> exists p' n' q', pre = p' ++ n' :: q' /\ p = rns p' /\ n = real_node n' /\ q = rns q'.
  Proof. intros E. apply map_eq_app in E as (p' & r & -> & <- & E). apply map_eq_cons in E as (n' & q' & -> & <- & <-). eauto 10. Qed.
  Lemma outlined_real (pre : list (node Q)) : InkSpec.outlined (rns pre) <-> InkSpec.outlined pre.
  Proof.
    assert (He : forall p n, edge (rns p) (real_node n) <-> edge p n) by (intros p n; destruct n; cbn [edge real_node]; try reflexivity; unfold strokes; rewrite region_real, plot_real, arc_real; reflexivity).
    assert (Hq : forall n, quiet (real_node n) <-> quiet n) by (intros n; destruct n; reflexivity).
    split.
    - intros (p & n & q & E & H1 & H2). destruct (split_rns _ _ _ _ E) as (p' & n' & q' & -> & -> & -> & ->). exists p', n', q'. split; [reflexivity|]. split; [apply He, H1|].
      rewrite Forall_map in H2. eapply Forall_impl; [|exact H2]. intros n. apply Hq.
    - intros (p & n & q & -> & H1 & H2). exists (rns p), (real_node n), (rns q). rewrite map_app. split; [reflexivity|]. split; [apply He, H1|].
      rewrite Forall_map. eapply Forall_impl; [|exact H2]. intros m. apply Hq.
  Qed.
  Lemma any_real (pre : list (node Q)) : any_mark (rns pre) <-> any_mark pre.
  Proof.
    assert (Hm : forall p n, marks (rns p) (real_node n) <-> marks p n).
    { intros p n. destruct n; cbn [marks real_node]; try reflexivity; try apply outlined_real; unfold strokes; rewrite ?region_real, ?plot_real, ?arc_real; try reflexivity. destruct g; try reflexivity; apply outlined_real. }
    split.
    - intros (p & n & q & E & H). destruct (split_rns _ _ _ _ E) as (p' & n' & q' & -> & -> & -> & ->). exists p', n', q'. split; [reflexivity|]. apply Hm, H.
    - intros (p & n & q & -> & H). exists (rns p), (real_node n), (rns q). rewrite map_app. split; [reflexivity|]. apply Hm, H.
  Qed.
End Reals.

Lemma shown_flash h w cs hd a s : shown h w cs -> In (CFlash hd a s) cs ->
  exists n l pol rot mx my sc lk a0, w = WPad n l pol rot mx my sc /\ pad_look h n = Some lk /\ a = ApAD a0 /\ looks (s_macros s) a0 lk.
Proof.
  intros Hs Hi. destruct Hs as [n l pol rot mx my sc lk a0 s' H1 H2 H3 H4|m w b e c a0 w' s'|b segs cs s0 s1 H0 H1 Ho].
  - destruct Hi as [Hi|[]]. injection Hi as <- <- <-. exists n, l, pol, rot, mx, my, sc, lk, a0. auto.
  - destruct Hi as [Hi|[]]. destruct m; discriminate Hi.
  - exfalso. cbn [app] in Hi. destruct Hi as [Hi|[Hi|Hi]]; try discriminate Hi. apply in_app_or in Hi as [Hi|Hi].
    + clear - Ho Hi. induction Ho as [|b s0 r st cs Hs Hr IH]; [destruct Hi|]. destruct Hi as [Hi|Hi]; auto. discriminate Hi.
    + destruct Hi as [Hi|[Hi|[]]]; discriminate Hi.
Qed.
Lemma last_def (a : ad Q) (pre : list (node Q)) : NoDup (ad_codes pre) -> In (NAD a) pre -> exists p q, pre = p ++ NAD a :: q /\ ~ In (ad_id a) (ad_codes q).
Proof.
  intros Hd Hi. apply in_split in Hi as (p & q & ->). exists p, q. split; [reflexivity|]. unfold ad_codes in *. rewrite flat_map_app in Hd. cbn [flat_map app] in Hd.
  apply NoDup_remove_2 in Hd. intros X. apply Hd. apply in_or_app. auto.
Qed.

Lemma pair_left {A B} (P : A -> B -> Prop) l m x : Forall2 P l m -> In x l -> exists y, In y m /\ P x y.
Proof. induction 1 as [|a b l m H _ IH]; intros Hi; [destruct Hi|]. destruct Hi as [->|Hi]; [exists b; cbn; auto|]. destruct (IH Hi) as (y & Y & Z). exists y. cbn. auto. Qed.
Lemma pair_right {A B} (P : A -> B -> Prop) l m y : Forall2 P l m -> In y m -> exists x, In x l /\ P x y.
Proof. induction 1 as [|a b l m H _ IH]; intros Hi; [destruct Hi|]. destruct Hi as [->|Hi]; [exists a; cbn; auto|]. destruct (IH Hi) as (x & Y & Z). exists x. cbn. auto. Qed.

Section Built.
  Context (text : R -> str).
  Local Notation rns := (map real_node).
  Lemma marked_worth b qs v h : Forall is_leaf qs -> on_file recorder b qs (visitor_init []) = Ok v ->
    NoDup (ad_codes (executed_file b qs)) -> NoDup (names_of (executed_file b qs)) -> accepted b (rns qs) ->
    GbSpec.drawn h (slip None PmLinear (wishes h)) (v_ext v) -> marked (executed_file b (rns qs)) <-> worth_seeing h.
  Proof.
    intros Hleaf E Hd Hn Hacc Hdr. unfold accepted in Hacc. rewrite (executed_file_real b qs Hleaf) in *. set (W := executed_file b qs) in *.
    pose proof (walk_file b qs Hleaf [] _ _ ltac:(constructor) E) as Hwk. cbn [app] in Hwk. fold W in Hwk.
    destruct (walk_ink _ _ Hwk) as [_ HI]. rewrite (drawn_ink _ _ _ Hdr), slip_nonempty in HI. cbn [snd] in HI. rewrite existsb_exists in HI.
    destruct (walk_flashes _ _ Hwk) as [F1 F2]. destruct Hdr as (parts & Elog & HF).
    assert (HA : any_mark (rns W) <-> exists w, In w (wishes h) /\ match w with WRegion _ [] => False | _ => True end).
    { rewrite any_real, <- HI. split; intros (w & Hw & Hk); exists w; (split; [exact Hw|]); destruct w as [| |b0 [|]]; try exact I; try reflexivity; try discriminate Hk; contradiction Hk. }
    unfold marked, worth_seeing. fold (any_mark (rns W)). rewrite HA. 
    assert (HB : (forall pre x y post p a q, rns W = pre ++ ND03 x y :: post -> latest_selection pre = Some (ad_id a) -> pre = p ++ NAD a :: q -> ~ In (ad_id a) (ad_codes q) -> marks_aperture p a) <->
      forall n l pol rot mx my sc fs, In (WPad n l pol rot mx my sc) (wishes h) -> pad_look h n = Some (Custom fs) -> Exists leaves fs); [|rewrite HB; reflexivity].
    split.
    - intros Hall n l pol rot mx my sc fs Hi Hlk. apply (proj2 (slip_pads _ _ _ _ _ _ _ _ None PmLinear)) in Hi.
      destruct (pair_left _ _ _ _ HF Hi) as (cs & Hcs & Hs). inversion Hs as [n' l' pol' rot' mx' my' sc' lk a s H1 H2 H3 H4| |]; subst.
      assert (lk = Custom fs) as -> by congruence.
      destruct (F1 FMacro (ApAD a) s) as (p & Hfl); [rewrite Elog; apply in_concat; eexists; split; [exact Hcs|left; reflexivity]|].
      pose proof Hfl as (x & y & q & v0 & Ew & Hw & Hr & Ha).
      assert (Hdp : NoDup (ad_codes p)) by (rewrite Ew in Hd; unfold ad_codes in Hd; rewrite flat_map_app in Hd; exact (nodup_left _ _ Hd)).
      destruct (neg_state text _ _ _ _ _ _ _ (walk_point _ _ Hw) Hr) as (_ & _ & _ & Ei & Ea & Eb).
      unfold current_aperture in Ha. rewrite Ei, Ea, Eb, (known_blocks _ _ Hw), (known_apid _ _ (walk_point _ _ Hw)) in Ha.
      destruct (latest_selection p) as [id|] eqn:Hsel; [|discriminate]. destruct (d_get id (s_apertures (v_state v0))) as [a0|] eqn:G; [|discriminate]. injection Ha as ->.
      destruct (known_apertures _ _ Hw _ _ G) as [Hin Eid]. destruct (last_def a p Hdp Hin) as (p1 & q1 & Ep & Hq1).
      assert (Sel : latest_selection (rns p) = Some (ad_id (real_ad a))) by (rewrite selection_real, Hsel; cbn [real_ad ad_id]; congruence).
      assert (Spl : rns p = rns p1 ++ NAD (real_ad a) :: rns q1) by (rewrite Ep, map_app; reflexivity).
      assert (Nin : ~ In (ad_id (real_ad a)) (ad_codes (rns q1))) by (rewrite codes_real; exact Hq1).
      apply (pad_marks text h n (Custom fs) p FMacro a s W (rns p1) (real_ad a) (rns q1) Hfl Hd Hn Hacc H1 H2 Sel Spl Nin).
      apply (Hall (rns p) x y (rns q) _ _ (rns q1)); auto. rewrite Ew, map_app. reflexivity.
    - intros Hall pre x y post p a q Ew Hsel Ep Hq. destruct (split_rns _ _ _ _ Ew) as (p' & n' & q' & EW & -> & En & ->).
      destruct n'; try discriminate En. injection En as <- <-.
      destruct (F2 p' x y q' EW) as (hd & ap & s & Hi & Hfl). rewrite Elog in Hi. apply in_concat in Hi as (cs & Hcs & Hi).
      destruct (pair_right _ _ _ _ HF Hcs) as (w & Hw & Hs). destruct (shown_flash _ _ _ _ _ _ Hs Hi) as (n & l & pol & rot & mx & my & sc & lk & a0 & -> & Hlk & -> & Hlo).
      apply (proj1 (slip_pads _ _ _ _ _ _ _ _ None PmLinear)) in Hw.
      apply (pad_marks text h n lk p' hd a0 s W p a q Hfl Hd Hn Hacc Hlk Hlo Hsel Ep Hq). destruct lk as [t|fs]; [exact I|]. exact (Hall _ _ _ _ _ _ _ _ Hw Hlk).
  Qed.
End Built.

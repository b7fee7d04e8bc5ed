(** Proofs for C83: the commands of a builder's file are acceptable. *)
From Coq Require Import Reals Qreals Lra Lia.
From Verif Require Import Base Num NumReal Dict CoordModel CoordSpec Ast ExprModel StateModel StateSpec StateProofs ExprSpec MacroSpec GeomModel CompilerModel
  LayerSpec LayerProofs DrawSpec DrawProofs FlashSpec RenderSpec PlaceSpec PlaceProofs GbModel GbSpec GbInv.
From Verif Require Import DumpProofs DumpRead.
From Verif Require Import DepictSpec DepictNodes DepictTrack AcceptSpec AcceptMacro AgreeSpec AgreeBuild.
Local Existing Instance NumQ.

(** ** Figures of custom pads have values *)
Section Consts.
  Local Existing Instance NumR.
  Context (env : str -> option R).
  Lemma const_has e q : is_const e q -> has env (real_expr e).
  Proof. intros H. exists (Q2R q). exact (const_real env e q H). Qed.
  Lemma const_det e q k : is_const e q -> value env (meaning (real_expr e)) k -> k = Q2R q.
  Proof. intros H Hk. eapply value_det; [exact Hk|]. exact (const_real env e q H). Qed.
  Lemma sane_fine p : sane_prim p -> AcceptSpec.fine_prim env (real_prim p) /\ forall v e, real_prim p <> PAssign v e.
  Proof.
    intros (f & Hf & Hd). destruct f as [on d c r|on w a b r|on w h c r|on ps r|on n c d r|c o i g r], p; try contradiction Hd;
      cbn [draws_figure real_prim AcceptSpec.fine_prim agreeable_figure] in *; (split; [|discriminate]).
    - destruct rotation as [r'|]; [|contradiction]. destruct Hd as (H1 & H2 & [H3 H4] & H5). cbn [option_map]. repeat constructor; eapply const_has; eassumption.
    - destruct Hd as (H1 & H2 & [H3 H4] & [H5 H6] & H7). repeat constructor; eapply const_has; eassumption.
    - destruct Hd as (H1 & H2 & H3 & [H4 H5] & H6). repeat constructor; eapply const_has; eassumption.
    - destruct Hd as (H1 & H2 & H3 & H4 & (front & l & El & [H5 H6])). constructor; [eapply const_has; eassumption|]. constructor; [eapply const_has; eassumption|].
      constructor; [eapply const_has; eassumption|]. apply Forall_app. split; [|constructor; [eapply const_has; eassumption|constructor]].
      clear -H4. induction H4 as [|q xy qs l [A B] _ IH]; cbn [map flat_map app fst snd]; [constructor|]. constructor; [eapply const_has; eassumption|]. constructor; [eapply const_has; eassumption|exact IH].
    - destruct Hd as (H1 & H2 & [H3 H4] & H5 & H6). split; [repeat constructor; eapply const_has; eassumption|].
      intros k Hk. rewrite (const_det _ _ _ H2 Hk). unfold Q2R, inject_Z. cbn [Qnum Qden]. rewrite Rinv_1, Rmult_1_r. apply IZR_le. exact Hf.
    - destruct Hd as ([H1 H2] & H3 & H4 & H5 & H6). split; [repeat constructor; eapply const_has; eassumption|]. intros o' i' Ho Hi Hlt.
      rewrite (const_det _ _ _ H3 Ho), (const_det _ _ _ H4 Hi) in *. split; [repeat constructor; eapply const_has; eassumption|].
      intros g' Hg. rewrite (const_det _ _ _ H5 Hg). intros Hs. apply Rlt_Qlt in Hlt. specialize (Hf Hlt Hs). apply Qlt_Rlt in Hf. rewrite RMicromega.Q2R_0 in Hf. exact Hf.
  Qed.
  Lemma sane_runs qs : Forall sane_prim qs -> runs env (map real_prim qs).
  Proof.
    induction 1 as [|p qs Hp _ IH]; [exact I|]. cbn [map]. destruct (sane_fine p Hp) as [A B]. destruct (real_prim p); try (split; [exact A|exact IH]). destruct (B v e eq_refl).
  Qed.
End Consts.

(** ** The code of a builder *)
Lemma e_sane p : sane_prim (e_prim p) <-> sane_prim p.
Proof. unfold sane_prim. split; intros (f & A & B); exists f; (split; [exact A|]); apply e_figure; exact B. Qed.
Lemma same_split qs code p n q : map e_node qs = map e_node code -> qs = p ++ n :: q ->
  exists p0 n0 q0, code = p0 ++ n0 :: q0 /\ map e_node p0 = map e_node p /\ e_node n0 = e_node n.
Proof.
  intros E ->. rewrite map_app in E. cbn [map] in E. symmetry in E. apply map_eq_app in E as (p0 & r & -> & E1 & E2).
  apply map_eq_cons in E2 as (n0 & q0 & -> & E2 & _). eauto 10.
Qed.
Lemma e_region l d : last_set sets_region d (map e_node l) = last_set sets_region d l.
Proof. unfold last_set. revert d. induction l as [|n l IH]; intros d; [reflexivity|]. cbn [map fold_left]. rewrite IH. destruct n; reflexivity. Qed.
Lemma e_macros l name : macros_of (map e_node l) name = option_map (map e_prim) (macros_of l name).
Proof.
  unfold macros_of. change (@None (list (prim Q))) with (option_map (map e_prim) None) at 1. generalize (@None (list (prim Q))).
  induction l as [|n l IH]; intros o; [reflexivity|]. cbn [map fold_left]. rewrite <- IH. destruct n; try reflexivity. cbn [e_node]. destruct (str_eqb name name0); reflexivity.
Qed.

Definition good_ad (pre : list (node Q)) (a : ad Q) : Prop :=
  match ad_template a with
  | TPolygon _ n _ _ => (3 <= n)%Z
  | TMacro name ps => ps = None /\ exists qs, macros_of pre name = Some qs /\ Forall sane_prim qs
  | _ => True
  end.
Lemma macros_am name ms : In name (map fst ms) -> forall d, exists qs,
  fold_left (fun o n => match n with NAM m ps => if str_eqb name m then Some ps else o | _ => o end) (map (fun m => NAM (K := Q) (fst m) (snd m)) ms) d = Some qs /\ In (name, qs) ms.
Proof.
  induction ms as [|m ms IH] using rev_ind; intros Hi d; [destruct Hi|]. rewrite !map_app in *. rewrite fold_left_app. cbn [map fold_left].
  destruct (str_eqb name (fst m)) eqn:E.
  - apply str_eqb_eq in E. subst name. exists (snd m). split; [reflexivity|]. apply in_or_app. right. left. destruct m; reflexivity.
  - apply in_app_or in Hi as [Hi|[Hi|[]]]; [|subst name; rewrite (proj2 (str_eqb_eq _ _) eq_refl) in E; discriminate E].
    destruct (IH Hi d) as (qs & -> & Hq). exists qs. split; [reflexivity|]. apply in_or_app. left. exact Hq.
Qed.
Lemma macros_none l : Forall (fun n : node Q => match n with NAM _ _ => False | _ => True end) l -> forall name o,
  fold_left (fun o n => match n with NAM m ps => if str_eqb name m then Some ps else o | _ => o end) l o = o.
Proof. induction 1 as [|n l Hn _ IH]; intros name o; [reflexivity|]. cbn [fold_left]. rewrite IH. destruct n; try reflexivity. destruct Hn. Qed.
Lemma pads_shape l : Forall (fun n : node Q => match n with NAM _ _ => False | NAD a => exists p, In p l /\ a = p_ad p | NG _ => False | _ => True end) (flat_map pad_nodes l).
Proof.
  apply Forall_forall. intros n Hn. apply in_flat_map in Hn as (p & Hp & Hn). unfold pad_nodes in Hn. repeat (apply in_app_or in Hn as [Hn|Hn]).
  - destruct (p_function p); [destruct Hn as [<-|[]]; exact I|destruct Hn].
  - destruct (p_drill p); [destruct Hn as [<-|[]]; exact I|destruct Hn].
  - apply in_map_iff in Hn as (a & <- & _). exact I.
  - destruct Hn as [<-|[]]. eauto.
  - destruct (p_function p), (p_drill p), (p_user p); try destruct Hn as [<-|[]]; try exact I; destruct Hn.
Qed.
Lemma code_good g : sane_gb g -> fine_gb g -> forall pre a post, get_code g = pre ++ NAD a :: post -> good_ad pre a.
Proof.
  intros Hs Hf pre a post E. unfold get_code in E.
  set (top := [NFS (MkFS SkipLeading Absolute 4 6 4 6); NMO Metric] : list (node Q)) in E.
  destruct (app_inv _ _ _ _ _ E) as [[b X]|(p1 & -> & E1)]; [destruct pre as [|? [|? [|? ?]]]; discriminate X|]. clear E.
  destruct (app_inv _ _ _ _ _ E1) as [[b X]|(p2 & -> & E2)].
  { exfalso. assert (Hi : In (NAD a) (map (fun m => NAM (K := Q) (fst m) (snd m)) (g_macros g))) by (rewrite X; apply in_or_app; right; left; reflexivity).
    apply in_map_iff in Hi as (m & Y & _). discriminate Y. }
  clear E1. destruct (app_inv _ _ _ _ _ E2) as [[b X]|(p3 & -> & E3)].
  - pose proof (pads_shape (g_pads g)) as P. rewrite X in P. apply Forall_app in P as [P1 P2]. apply Forall_inv in P2. cbn beta iota in P2. destruct P2 as (p & Hp & ->).
    pose proof (proj1 (Forall_forall _ _) (sn_pads g Hs) p Hp) as T. unfold good_ad. cbn beta in T. destruct (ad_template (p_ad p)) as [| | | |name ps]; try exact T.
    destruct T as [-> Hi]. split; [reflexivity|]. destruct (macros_am name (g_macros g) Hi (fold_left (fun o n => match n with NAM m ps => if str_eqb name m then Some ps else o | _ => o end) top None)) as (qs & Eq & Hq).
    exists qs. split; [|pose proof (proj1 (Forall_forall _ _) (sn_macros g Hs) _ Hq) as M; exact M].
    unfold macros_of. rewrite !fold_left_app, Eq. apply macros_none. eapply Forall_impl; [|exact P1]. intros n. destruct n; auto.
  - exfalso. clear E2. destruct p3 as [|n3 p3]; [discriminate E3|]. injection E3 as _ E3. pose proof (fi_draws g Hf) as F. apply Forall_concat in F.
    destruct (app_inv _ _ _ _ _ E3) as [[b X]|(p4 & -> & E4)].
    + rewrite X in F. apply Forall_app in F as [_ F]. inversion F as [|? ? Y _]. exact Y.
    + destruct p4 as [|? [|? ?]]; discriminate E4.
Qed.
Lemma code_paired g : sane_gb g -> paired (get_code g).
Proof.
  intros Hs. unfold get_code. repeat apply paired_app.
  - apply paired_free. repeat constructor; discriminate.
  - apply paired_free, Forall_map, Forall_forall. intros m _. discriminate.
  - apply paired_free. eapply Forall_impl; [|apply pads_shape]. intros n Hn ->. exact Hn.
  - apply paired_free. repeat constructor; discriminate.
  - apply paired_concat, (sn_draws g Hs).
  - apply paired_free. repeat constructor; discriminate.
Qed.

(** ** Walks of the recorder *)
Notation vis := (@visitor Q (list (@call Q))).
Lemma leaf_log n (v v' : vis) : visit_leaf recorder n v = Done v' \/ visit_leaf recorder n v = Stop v' -> exists e, v_ext v' = v_ext v ++ e.
Proof.
  intros E. destruct (calls_back n) eqn:C; [|rewrite (leaf_quiet recorder n v v' C E); exists []; symmetry; apply app_nil_r].
  assert (D : visit_leaf recorder n v = Done v') by (destruct E as [E|E]; [exact E|]; destruct (leaf_stop _ _ _ _ E) as [[-> | ->] _]; discriminate C). clear E.
  destruct n; try discriminate C.
  - destruct (leaf_adef _ _ _ _ D) as (s & E & _). injection E as <-. exists []. symmetry. apply app_nil_r.
  - destruct (leaf_d01 _ _ _ _ _ _ _ D) as (s & _ & E & _). injection E as <-. eauto.
  - destruct (leaf_d02 _ _ _ _ _ D) as (s & _ & _ & E). destruct (s_region (v_state v)); [injection E as <-; eauto|]. rewrite E. exists []. symmetry. apply app_nil_r.
  - destruct (leaf_d03 _ _ _ _ _ D) as (s & a & h & _ & _ & _ & E & _). injection E as <-. eauto.
  - destruct g; try discriminate C.
    + destruct (leaf_g36 _ _ _ D) as (s & ->). eexists. reflexivity.
    + destruct (leaf_g37 _ _ _ D) as (x & s & E & ->). injection E as <-. eexists. cbn. rewrite <- app_assoc. reflexivity.
Qed.
Lemma walk_split pre n post v : walk (pre ++ n :: post) v -> exists v0 v1 e, walk pre v0 /\ is_leaf n /\
  (visit_leaf recorder n v0 = Done v1 \/ visit_leaf recorder n v0 = Stop v1) /\ v_ext v = v_ext v1 ++ e.
Proof.
  revert v. induction post as [|m post IH] using rev_ind; intros v W.
  - inversion W as [E|p v0 k v1 W1 L V E]; [destruct pre; discriminate E|]. apply app_inj_tail in E as [-> ->]. exists v0, v, []. rewrite app_nil_r. auto.
  - rewrite app_comm_cons, app_assoc in W. inversion W as [E|p v0 k v1 W1 L V E]; [destruct pre; discriminate E|]. apply app_inj_tail in E as [-> ->].
    destruct (IH v0 W1) as (w0 & w1 & e & A & B & C & D). destruct (leaf_log _ _ _ V) as [e' E']. exists w0, w1, (e ++ e'). rewrite E', D, app_assoc. auto.
Qed.
Lemma known_defs pre (v : vis) : walk pre v -> forall id,
  latest_def id (map real_node pre) = option_map (fun a => DefAD (real_ad a)) (d_get id (s_apertures (v_state v))).
Proof.
  induction 1 as [|pre v n v' Hw IH Hl E]; intros id; [reflexivity|]. unfold latest_def in *. rewrite map_app, fold_left_app, IH. cbn [map fold_left]. clear IH.
  pose proof (leaf_state_spec recorder n v v' E) as Es. clear E Hw. revert Es. generalize (v_state v), (v_state v'). intros s s' Es.
  leaf_cases n s s' Es; try reflexivity. cbn [real_node StateSpec.defines real_ad ad_id set_store s_apertures]. rewrite d_get_set. destruct (str_eqb id (ad_id a)); reflexivity.
Qed.
Lemma known_format pre (v : vis) : at_point recorder [] pre v -> s_cf (v_state v) = format_of (map real_node pre).
Proof.
  intros Hp. destruct (settled_point recorder [] pre v Hp) as (A & _). rewrite A. unfold pen_of, format_of.
  assert (L : forall l p, pen_fmt (fold_left pen_step l p) = fold_left format_step (map real_node l) (pen_fmt p)).
  { induction l as [|n l IH]; intros p; cbn [fold_left map]; [reflexivity|]. rewrite IH. f_equal. destruct n; reflexivity. }
  apply L.
Qed.
Lemma drawn_draws h ws log h0 s : drawn h ws log -> In (CDraw h0 s) log -> of_region h0 = false ->
  exists a w, current_aperture s = Ok (ApAD a) /\ ad_template a = TCircle w None.
Proof.
  intros (ps & -> & H) Hi Hr. apply in_concat in Hi as (p & Hp & Hi). assert (X : exists w, shown h w p) by (clear -H Hp; induction H as [|w p' ws ps Hw _ IH]; [destruct Hp|]; destruct Hp as [->|Hp]; eauto). clear H. destruct X as [w H].
  destruct H as [n l pol rot mx my sc lk a s0 _ _ _ _|m w b e c a w' s0 Ha Ht _ _|b segs cs s0 s1 _ _ Ho].
  - destruct Hi as [X|[]]. discriminate X.
  - destruct Hi as [X|[]]. injection X as _ <-. eauto.
  - exfalso. cbn [app] in Hi. destruct Hi as [X|[X|Hi]]; try discriminate X. apply in_app_or in Hi as [Hi|[X|[X|[]]]]; try discriminate X.
    clear Hp. induction Ho as [|b s2 r st cs _ _ IH]; [exact Hi|]. destruct Hi as [X|Hi]; [|exact (IH Hi)]. injection X as <- _. destruct (seg_mode s2); discriminate Hr.
Qed.

Lemma code_accepted g qs ips w h ws : sane_gb g -> fine_gb g -> map e_node qs = map e_node (get_code g) -> Forall is_leaf qs ->
  on_file recorder ips qs (visitor_init []) = Ok w -> drawn h ws (v_ext w) -> accepted ips (map real_node qs).
Proof.
  intros Hs Hf S Hleaf Ew Hd. pose proof (walk_file ips qs Hleaf [] _ _ ltac:(constructor) Ew) as Hw. cbn [app] in Hw.
  assert (Hx : exists r, qs = executed_file ips qs ++ r).
  { clear -Hleaf. induction Hleaf as [|n r Hn _ (r' & IH)]; [exists []; reflexivity|]. cbn [executed_file]. rewrite (executed_leaf n Hn).
    match goal with |- context [if ?b then _ else _] => destruct b end; [exists r; reflexivity|]. exists r'. cbn [app]. rewrite <- IH. reflexivity. }
  destruct Hx as [rest Hx]. intros pre n post E. rewrite (executed_file_real ips qs Hleaf) in E.
  apply map_eq_app in E as (p & r & E & <- & Er). apply map_eq_cons in Er as (m & q & -> & <- & _). rewrite E in Hw, Hx.
  destruct (walk_split _ _ _ _ Hw) as (v0 & v1 & e & W0 & L & V & X). pose proof (walk_point _ _ W0) as P.
  rewrite <- app_assoc in Hx. cbn [app] in Hx. destruct (same_split _ _ _ _ _ S Hx) as (p0 & m0 & q0 & E0 & E1 & E2).
  destruct m; try exact I; try (destruct L; fail); cbn [real_node acceptable].
  - (* AD *)
    destruct m0; try discriminate E2. injection E2 as ->. pose proof (code_good g Hs Hf _ _ _ E0) as Hg. unfold good_ad in Hg. cbn [real_ad ad_template real_template].
    destruct (ad_template a) as [| | |d nv rt ho|name ps]; try exact I; [exact Hg|]. destruct Hg as [-> (ms & Em & Hm)].
    assert (Em' : exists ms', macros_of p name = Some ms' /\ Forall sane_prim ms').
    { pose proof (e_macros p0 name) as A. pose proof (e_macros p name) as B. rewrite E1, B, Em in A. destruct (macros_of p name) as [ms'|]; [|discriminate A].
      exists ms'. split; [reflexivity|]. injection A as A. apply Forall_forall. intros x Hx'. apply e_sane. apply (in_map e_prim) in Hx'. rewrite A in Hx'.
      apply in_map_iff in Hx' as (y & <- & Hy). apply e_sane. exact (proj1 (Forall_forall _ _) Hm y Hy). }
    destruct Em' as (ms' & Em' & Hm'). exists (map real_prim ms'), (fun _ => None). split; [rewrite macros_real, Em'; reflexivity|]. split; [|apply sane_runs, Hm'].
    intros v k. split; [discriminate|]. intros ([|i] & _ & Y); discriminate Y.
  - (* D01 *)
    assert (D : visit_leaf recorder (ND01 x y i j) v0 = Done v1) by (destruct V as [V|V]; [exact V|]; destruct (leaf_stop _ _ _ _ V) as [[Y|Y] _]; discriminate Y).
    destruct (leaf_d01 _ _ _ _ _ _ _ D) as (s & Er & Eh & _). pose proof (proj1 (read_coords_iff (v_state v0) x y i j) (ex_intro _ s Er)) as Rd. rewrite (known_format _ _ P) in Rd.
    destruct Rd as (R1 & R2 & R3 & R4). repeat (split; [assumption|]). unfold pen_ready. rewrite region_real. destruct (in_region p) eqn:Hr; [left; reflexivity|]. right. right.
    destruct (coherent_point recorder [] _ _ P) as [Hcb _]. rewrite (pl_region recorder [] _ _ P) in Hcb. change (last_set sets_region false p) with (in_region p) in Hcb. rewrite Hr in Hcb.
    destruct (drawn_draws h ws (v_ext w) (v_d01 v0) s Hd) as (a & wd & Ha & Ht).
    { rewrite X. injection Eh as <-. apply in_or_app. left. apply in_or_app. right. left. reflexivity. }
    { rewrite Hcb. destruct (s_plot (v_state v0)), (s_arc (v_state v0)); reflexivity. }
    apply read_coords_inv in Er as (x' & y' & i' & j' & _ & _ & _ & _ & ->). unfold current_aperture in Ha. cbn [set_xyij s_apid s_apertures s_blocks] in Ha.
    rewrite (known_apid _ _ P), (known_blocks _ _ W0) in Ha. rewrite selection_real. destruct (latest_selection p) as [id|]; [|discriminate Ha].
    destruct (d_get id (s_apertures (v_state v0))) as [a0|] eqn:Ea; [|discriminate Ha]. injection Ha as ->. exists id, (real_ad a). split; [reflexivity|].
    split; [rewrite (known_defs _ _ W0), Ea; reflexivity|]. cbn [real_ad ad_template]. rewrite Ht. exact I.
  - (* D02 *)
    assert (D : visit_leaf recorder (ND02 x y) v0 = Done v1) by (destruct V as [V|V]; [exact V|]; destruct (leaf_stop _ _ _ _ V) as [[Y|Y] _]; discriminate Y).
    destruct (leaf_d02 _ _ _ _ _ D) as (s & Er & _). pose proof (proj1 (read_coords_iff (v_state v0) x y None None) (ex_intro _ s Er)) as Rd. rewrite (known_format _ _ P) in Rd. tauto.
  - (* D03 *)
    assert (D : visit_leaf recorder (ND03 x y) v0 = Done v1) by (destruct V as [V|V]; [exact V|]; destruct (leaf_stop _ _ _ _ V) as [[Y|Y] _]; discriminate Y).
    destruct (leaf_d03 _ _ _ _ _ D) as (s & a & hf & Er & Ha & _). pose proof (proj1 (read_coords_iff (v_state v0) x y None None) (ex_intro _ s Er)) as Rd. rewrite (known_format _ _ P) in Rd.
    split; [tauto|]. split; [tauto|]. rewrite selection_real, <- (known_apid _ _ P). apply read_coords_inv in Er as (x' & y' & i' & j' & _ & _ & _ & _ & ->).
    unfold current_aperture in Ha. cbn [set_xyij s_apid] in Ha. destruct (s_apid (v_state v0)); [discriminate|discriminate Ha].
  - (* Dnn *)
    assert (D : visit_leaf recorder (NDnn id) v0 = Done v1) by (destruct V as [V|V]; [exact V|]; destruct (leaf_stop _ _ _ _ V) as [[Y|Y] _]; discriminate Y).
    cbn [visit_leaf] in D. unfold on_dnn in D. cbn beta zeta in D. unfold current_aperture in D. cbn [with_state v_state set_apid s_apid s_apertures s_blocks] in D.
    rewrite (known_defs _ _ W0). destruct (d_get id (s_apertures (v_state v0))); [discriminate|]. rewrite (known_blocks _ _ W0) in D. discriminate D.
  - (* G *)
    destruct g0; try exact I. assert (m0 = NG G37) as -> by (destruct m0; try discriminate E2; exact E2).
    pose proof (code_paired g Hs _ _ E0) as Hp. rewrite <- e_region, E1, e_region in Hp.
    assert (Hr : last_set sets_region false (map real_node p) = true) by (rewrite <- Hp; apply (region_real p)).
    revert Hr. unfold last_set. generalize (map real_node p). clear. intros l. induction l as [|n l IH] using rev_ind; [discriminate|]. rewrite !fold_left_app. cbn [fold_left].
    destruct (sets_region n); auto.
Qed.
Lemma done_leaves ips (ns : list (node R)) : Forall is_leaf ns -> repeated ips ns.
Proof.
  intros H. unfold repeated. assert (E : done_file ips ns = []).
  { induction H as [|n r Hn _ IH]; [reflexivity|]. cbn [done_file]. rewrite IH. assert (done_sr n = []) as -> by (destruct n; try reflexivity; destruct Hn). destruct (snd (executed n) && ips); reflexivity. }
  rewrite E. constructor.
Qed.

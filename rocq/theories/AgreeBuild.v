(** Proofs for C83: what the calls leave in the builder. *)
From Coq Require Import Reals Qreals Lia.
From Verif Require Import Base Num Dict CoordModel Ast StateModel StateSpec LayerSpec DrawSpec GbModel GbSpec GbProofs GbInv GbStep AgreeSpec.
Local Existing Instance NumQ.

(** Regions are closed after they are opened. *)
Definition paired (l : list (node Q)) : Prop := forall p q, l = p ++ NG G37 :: q -> last_set sets_region false p = true.
Definition unpaired (n : node Q) : Prop := n <> NG G37.
Lemma last_more (l p : list (node Q)) : last_set sets_region false p = true -> last_set sets_region false (l ++ p) = true.
Proof.
  unfold last_set. rewrite fold_left_app. generalize (fold_left (fun d n => match sets_region n with Some x => x | None => d end) l false).
  induction p as [|n p IH] using rev_ind; intros b; [discriminate|]. rewrite !fold_left_app. cbn [fold_left]. destruct (sets_region n); auto.
Qed.
Lemma paired_free l : Forall unpaired l -> paired l.
Proof. intros H p q ->. apply Forall_app in H as [_ H]. inversion H as [|? ? X _]. destruct (X eq_refl). Qed.
Lemma app_inv {T} (l r a b : list T) n : l ++ r = a ++ n :: b ->
  (exists b', l = a ++ n :: b') \/ (exists a', a = l ++ a' /\ r = a' ++ n :: b).
Proof.
  revert a. induction l as [|x l IH]; intros a E; [right; exists a; auto|]. destruct a as [|y a]; cbn [app] in E.
  - injection E as -> _. left. exists l. reflexivity.
  - injection E as -> E. destruct (IH _ E) as [[b' ->]|(a' & -> & ->)]; [left; exists b'|right; exists a']; auto.
Qed.
Lemma paired_app l r : paired l -> paired r -> paired (l ++ r).
Proof.
  intros Hl Hr p q E. destruct (app_inv _ _ _ _ _ E) as [[b' X]|(a' & -> & X)]; [exact (Hl _ _ X)|]. apply last_more, (Hr _ _ X).
Qed.
Lemma paired_concat ls : Forall paired ls -> paired (concat ls).
Proof. induction 1; cbn [concat]; [apply paired_free; constructor|]. apply paired_app; assumption. Qed.

Definition sane_prim (p : prim Q) : Prop := exists f, agreeable_figure f /\ draws_figure f p.
Definition sane_template (ms : list (str * list (prim Q))) (t : template Q) : Prop :=
  match t with TPolygon _ n _ _ => (3 <= n)%Z | TMacro name ps => ps = None /\ In name (map fst ms) | _ => True end.
Record sane_gb (g : gb) : Prop := MkSane {
  sn_macros : Forall (fun m => Forall sane_prim (snd m)) (g_macros g);
  sn_objs : Forall (fun o => match o with OCustom ps _ => Forall sane_prim ps | _ => True end) (g_objs g);
  sn_pads : Forall (fun p => sane_template (g_macros g) (ad_template (p_ad p))) (g_pads g);
  sn_draws : Forall paired (g_draws g) }.
Definition parts (g : gb) := (g_macros g, g_objs g, g_pads g, g_draws g).
Lemma sane_parts g g' : parts g' = parts g -> sane_gb g -> sane_gb g'.
Proof. unfold parts. intros E H. injection E as E1 E2 E3 E4. destruct H. constructor; rewrite ?E1, ?E2, ?E3, ?E4; assumption. Qed.
Lemma updates_sane ap pol rot mx my sc mode g ns g' : state_updates ap pol rot mx my sc mode g = (ns, g') -> Forall unpaired ns /\ parts g' = parts g.
Proof.
  intros E. unfold state_updates in E. revert E.
  destruct (match g_selected g with Some s => negb (str_eqb s ap) | None => true end);
  destruct (negb (polarity_eqb pol _)); destruct (negb (Qeq_bool rot _)); destruct (negb (mirroring_eqb _ _)); destruct (negb (Qeq_bool sc _));
  (destruct mode as [m|]; [match goal with |- context [match ?a with Some b => negb (mode_eqb b m) | None => true end] =>
     destruct (match a with Some b => negb (mode_eqb b m) | None => true end) end|]);
  intros [= <- <-]; (split; [|reflexivity]); repeat (apply Forall_cons; [unfold unpaired; try discriminate; destruct m; discriminate|]); apply Forall_nil.
Qed.
Lemma new_pad_sane t g : sane_template (g_macros g) t -> sane_gb g -> sane_gb (snd (new_pad t g)).
Proof. intros Ht H. destruct H. constructor; cbn; auto. apply Forall_app. split; [assumption|]. constructor; [exact Ht|constructor]. Qed.
Lemma trace_pad_sane w g i g' : trace_pad w g = (i, g') -> sane_gb g -> sane_gb g'.
Proof.
  unfold trace_pad. intros E H. destruct (find_width w (g_trace_pads g)); [injection E as _ <-; exact H|].
  pose proof (new_pad_sane (TCircle w None) g I H) as H1. destruct (new_pad (TCircle w None) g) as [j g1]. injection E as _ <-.
  apply (sane_parts g1); [reflexivity|exact H1].
Qed.
Lemma add_draw_sane l ns g : paired ns -> sane_gb g -> sane_gb (add_draw l ns g).
Proof. intros Hn H. destruct H. constructor; cbn; auto. apply Forall_app. split; [assumption|]. constructor; [exact Hn|constructor]. Qed.
Lemma swap_forall {A} (P : A -> Prop) l : forall n a, Forall P l -> P a -> Forall P (replace l n a).
Proof. induction l as [|x l IH]; intros n a H Ha; [exact H|]. inversion H; subst. destruct n; cbn [replace]; constructor; auto. Qed.
Lemma set_object_sane n o g : match o with OCustom ps _ => Forall sane_prim ps | _ => True end -> sane_gb g -> sane_gb (set_object n o g).
Proof. intros Ho H. destruct H. constructor; cbn; auto. apply swap_forall; assumption. Qed.
Lemma object_sane g n : sane_gb g -> match object n g with OCustom ps _ => Forall sane_prim ps | _ => True end.
Proof.
  intros H. unfold object. destruct (nth_in_or_default n (g_objs g) ONothing) as [Hi| ->]; [|exact I].
  pose proof (sn_objs g H) as F. rewrite Forall_forall in F. exact (F _ Hi).
Qed.
Lemma region_free segs : forall mode ops, region_ops mode segs = Ok ops -> Forall unpaired ops.
Proof.
  induction segs as [|s r IH]; intros mode ops E; cbn [region_ops] in E; [injection E as <-; constructor|].
  destruct (pack2 (o_end s)) as [xy|]; [|discriminate E]. cbn [bind] in E. destruct (opt_pack _) as [ij|]; [|discriminate E]. cbn [bind] in E.
  destruct (region_ops _ r) as [rest|] eqn:Er; [|discriminate E]. cbn [bind] in E. injection E as <-. apply Forall_app. split.
  - match goal with |- context [if ?b then _ else _] => destruct b end; constructor; [|constructor]. destruct s; discriminate.
  - constructor; [discriminate|exact (IH _ _ Er)].
Qed.
Lemma region_stays (ops : list (node Q)) : Forall unpaired ops -> Forall (fun n => sets_region n <> Some false) ops.
Proof. intros H. eapply Forall_impl; [|exact H]. intros n Hn. destruct n; try discriminate. destruct g; try discriminate. destruct (Hn eq_refl). Qed.
Definition kept (a : answer) : Prop := sane_gb (fst a) /\ match snd a with Ok (OCustom ps _) => Forall sane_prim ps | _ => True end.
Lemma trace_kept mode w b e c g : sane_gb g -> kept (add_trace mode w b e c g).
Proof.
  intros H. unfold add_trace. destruct (trace_pad w g) as [i g1] eqn:Et. pose proof (trace_pad_sane _ _ _ _ Et H) as H1.
  destruct (begin_place b g1) as [lb|]; [|split; [exact H1|exact I]]. destruct (end_place e g1) as [le|]; [|split; [exact H1|exact I]].
  destruct (state_updates _ _ _ _ _ _ _ g1) as [ups g2] eqn:E. destruct (updates_sane _ _ _ _ _ _ _ _ _ _ E) as [U S]. pose proof (sane_parts _ _ S H1) as H2.
  match goal with |- kept (match ?a with _ => _ end) => destruct a as [ops|] eqn:Eo end; [|split; [exact H2|exact I]].
  split; [|exact I]. apply add_draw_sane; [|exact H2]. apply paired_free, Forall_app. split; [exact U|]. revert Eo.
  match goal with |- context [bind ?a _] => destruct a as [d02|] eqn:Ed end; [|discriminate]. cbn [bind].
  destruct (pack2 le) as [[x y]|]; [|discriminate]. cbn [bind]. destruct (opt_pack _) as [[ii jj]|]; [|discriminate].
  cbn [bind fst snd]. intros [= <-]. apply Forall_app. split; [|constructor; [discriminate|constructor]].
  destruct (match g_loc g2 with Some l => negb (loc_eqb l lb) | None => true end); [|injection Ed as <-; constructor].
  destruct (pack2 lb) as [[x' y']|]; [|discriminate]. cbn [bind fst snd] in Ed. injection Ed as <-. constructor; [discriminate|constructor].
Qed.
Lemma attr_kept n f g : (forall p, p_ad (f p) = p_ad p) -> sane_gb g -> kept (set_attr n f g).
Proof.
  intros Hf H. unfold set_attr. destruct (object n g) as [|i| | | | |]; try (split; [exact H|exact I]).
  destruct (nth_error (g_pads g) i) as [p|] eqn:E; [|split; [exact H|exact I]]. split; [|exact I]. apply nth_error_In in E.
  pose proof (proj1 (Forall_forall _ _) (sn_pads g H) p E) as Hp. destruct H. constructor; cbn; auto. apply swap_forall; [assumption|]. rewrite Hf. exact Hp.
Qed.
Lemma perform_sane c g : agreeable c -> sane_gb g -> kept (perform c g).
Proof.
  intros Hc H. pose proof (fun n => object_sane g n H) as Ob.
  destruct c as [d h|x y h|x y h|d v r h| |n f|n|n v|n a b|n k vs|n p cut rot mx my sc|w b e|cw w b e c|b|n s|n]; cbn [perform].
  1,2,3,4: split; [apply new_pad_sane; [exact Hc|exact H]|exact I].
  - split; [exact H|constructor].
  - unfold add_figure. specialize (Ob n). destruct (object n g) as [| |ps fin| | | |]; try (split; [exact H|exact I]).
    destruct (match f with FgOutline _ pts _ => (length pts <? 3)%nat | _ => false end) eqn:L; [split; [exact H|exact I]|].
    destruct fin; [split; [exact H|exact I]|]. split; [|exact I]. apply set_object_sane; [|exact H]. apply Forall_app. split; [exact Ob|].
    constructor; [|constructor]. exists f. split; [exact Hc|]. apply prim_of_spec. destruct f; try exact I. destruct points; [discriminate L|discriminate].
  - unfold create_custom. specialize (Ob n). destruct (object n g) as [| |ps fin| | | |]; try (split; [exact H|exact I]).
    destruct fin; [split; [exact H|exact I]|]. set (name := lit "M" ++ _). set (g1 := set_macros _ _ g).
    assert (H1 : sane_gb g1).
    { destruct H. constructor; cbn; auto.
      - apply Forall_app. split; [assumption|]. constructor; [exact Ob|constructor].
      - eapply Forall_impl; [|exact sn_pads0]. intros q Hq. cbn beta in *. destruct (ad_template (p_ad q)); try exact Hq. cbn [sane_template] in *. destruct Hq as [A B]. split; [exact A|].
        rewrite map_app. apply in_or_app. left. exact B. }
    pose proof (new_pad_sane (TMacro name None) g1) as H2. destruct (new_pad (TMacro name None) g1) as [i g2].
    split; [|exact I]. apply set_object_sane; [exact Ob|]. apply H2; [|exact H1]. split; [reflexivity|]. cbn. rewrite map_app. apply in_or_app. right. left. reflexivity.
  - apply attr_kept; [reflexivity|exact H].
  - apply attr_kept; [reflexivity|exact H].
  - apply attr_kept; [reflexivity|exact H].
  - unfold add_pad. destruct (object n g) as [|i| | | | |]; try (split; [exact H|exact I]).
    destruct (state_updates _ _ rot mx my sc None g) as [ups g1] eqn:E. destruct (updates_sane _ _ _ _ _ _ _ _ _ _ E) as [U S]. pose proof (sane_parts _ _ S H) as H1.
    destruct (pad_place p g1) as [l|]; [|split; [exact H1|exact I]]. destruct (pack2 l) as [[x y]|]; [|split; [exact H1|exact I]].
    split; [|exact I]. apply add_draw_sane; [|exact H1]. apply paired_free, Forall_app. split; [exact U|]. constructor; [discriminate|constructor].
  - apply trace_kept, H.
  - apply trace_kept, H.
  - split; [exact H|exact I].
  - unfold add_segment. destruct (object n g) as [| | |r| | |]; try (split; [exact H|exact I]). split; [|exact I]. apply set_object_sane; [exact I|exact H].
  - unfold create_region. destruct (object n g) as [| | |r| | |]; try (split; [exact H|exact I]). destruct (length (r_outline r) <? 3)%nat; [split; [exact H|exact I]|].
    destruct (trace_pad 1 g) as [i g1] eqn:Et. pose proof (trace_pad_sane _ _ _ _ Et H) as H1.
    destruct (state_updates _ _ _ _ _ _ _ g1) as [ups g2] eqn:E. destruct (updates_sane _ _ _ _ _ _ _ _ _ _ E) as [U S]. pose proof (sane_parts _ _ S H1) as H2.
    destruct (pack2 (r_begin r)) as [[x y]|]; [|split; [exact H2|exact I]].
    set (g3 := set_object _ _ g2). assert (H4 : sane_gb g3) by (apply set_object_sane; [exact I|exact H2]).
    destruct (region_ops None (closed_outline r)) as [ops|] eqn:Er; [|split; [exact H4|exact I]]. split; [|exact I].
    apply add_draw_sane; [|exact H4]. apply region_free in Er. intros p q Ep.
    destruct (app_inv _ _ _ _ _ Ep) as [[b' X]|(a & -> & X)]; [subst ups; apply Forall_app in U as [_ U]; inversion U as [|? ? Y _]; destruct (Y eq_refl)|].
    apply last_more. destruct a as [|m [|m' a]]; try discriminate X. injection X as <- <- X. change (NG G36 :: ND02 (Some x) (Some y) :: a) with ([NG G36; ND02 (Some x) (Some y)] ++ a).
    destruct (app_inv _ _ _ _ _ X) as [[b' Y]|(a' & -> & Y)]; [subst ops; apply Forall_app in Er as [_ Er]; inversion Er as [|? ? Z _]; destruct (Z eq_refl)|].
    destruct a' as [|? [|? a']]; try discriminate Y.
    + rewrite app_nil_r. clear -Er. assert (X : Forall (fun n : node Q => sets_region n <> Some false) ops) by exact (region_stays ops Er).
      unfold last_set. rewrite fold_left_app. cbn [fold_left sets_region]. induction X as [|n r Hn _ IH]; [reflexivity|]. cbn [fold_left].
      inversion Er; subst. destruct (sets_region n) as [[]|]; try (apply IH; assumption). destruct (Hn eq_refl).
    + destruct a'; discriminate Y.
Qed.
Lemma build_sane cs : Forall agreeable cs -> sane_gb (build cs).
Proof.
  intros H. unfold build. assert (I0 : sane_gb gb_init) by (constructor; cbn; constructor).
  revert I0. generalize gb_init. induction H as [|c cs Hc _ IH]; intros g Hg; [exact Hg|]. cbn [fold_left]. apply IH.
  pose proof (perform_sane c g Hc Hg) as [A B]. unfold gstep. destruct (perform c g) as [g' r]. cbn [fst snd] in *. destruct A. constructor; cbn; auto.
  apply Forall_app. split; [assumption|]. constructor; [destruct r as [[]|]; auto|constructor].
Qed.

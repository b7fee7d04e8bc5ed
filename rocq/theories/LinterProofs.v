(** Proofs about the linter. *)
From Verif Require Import Base Num Ast CoordModel StateModel StateProofs LinterModel LinterSpec.
Local Open Scope nat_scope.

Lemma cls_eqb_eq a b : cls_eqb a b = true <-> a = b.
Proof.
  destruct a as [g| |], b as [h| |]; cbn [cls_eqb]; try (split; congruence).
  split; [intros E; apply internal_gcode_dec_bl in E; congruence | intros E; injection E as <-].
  apply internal_gcode_dec_lb; reflexivity.
Qed.
Lemma cls_eqb_refl a : cls_eqb a a = true. Proof. apply cls_eqb_eq; reflexivity. Qed.
Lemma gcode_beq_eq a b : gcode_beq a b = true <-> a = b.
Proof. split; [apply internal_gcode_dec_bl | apply internal_gcode_dec_lb]. Qed.

(** * Delivery of events *)
Section Run.
  Context (src : path -> option srcinfo).

  Definition listens (c : cls) (r : rule) : bool := existsb (fun t => cls_eqb t c) (triggers (ru_class r)).
  Definition step1 (c : cls) (p : path) (r : rule) : rule * list violation :=
    if listens c r then node_callback r c (src p) else (r, []).
  Definition solo1 (st : rule * list violation) (e : cls * path) : rule * list violation :=
    (fst (step1 (fst e) (snd e) (fst st)), snd st ++ snd (step1 (fst e) (snd e) (fst st))).
  Definition solo (r : rule) (evs : list (cls * path)) := fold_left solo1 evs (r, []).

  Fixpoint subs (i : nat) (rs : list rule) (c : cls) : list nat :=
    match rs with
    | [] => []
    | r :: rest => (if listens c r then [i] else []) ++ subs (S i) rest c
    end.

  Lemma bind_rule_spec i r L c :
    bind_rule i r L c = L c ++ (if listens c r then [i] else []).
  Proof.
    unfold bind_rule, listens.
    destruct r as [[] l]; cbn [triggers ru_class fold_left existsb register_listener];
      unfold register_listener;
      destruct c as [[]| |]; cbn; rewrite ?app_nil_r; reflexivity.
  Qed.
  Lemma bind_rules_spec rs : forall i L c, bind_rules i rs L c = L c ++ subs i rs c.
  Proof.
    induction rs as [|r rest IH]; intros i L c; cbn [bind_rules subs].
    - rewrite app_nil_r. reflexivity.
    - rewrite IH, bind_rule_spec, <- app_assoc. reflexivity.
  Qed.

  Lemma set_nth_mid {A} (pre : list A) x y post :
    set_nth (length pre) x (pre ++ y :: post) = pre ++ x :: post.
  Proof. induction pre; cbn; congruence. Qed.

  Lemma trigger_all c p rs : forall pre vs,
    fold_left (call_listener src c p) (subs (length pre) rs c) (pre ++ rs, vs)
    = (pre ++ map (fun r => fst (step1 c p r)) rs,
       vs ++ flat_map (fun r => snd (step1 c p r)) rs).
  Proof.
    induction rs as [|r rest IH]; intros pre vs; cbn [subs map flat_map].
    - rewrite !app_nil_r. reflexivity.
    - rewrite fold_left_app.
      assert (E : fold_left (call_listener src c p) (if listens c r then [length pre] else [])
                    (pre ++ r :: rest, vs)
                  = ((pre ++ [fst (step1 c p r)]) ++ rest, vs ++ snd (step1 c p r))).
      { unfold step1. destruct (listens c r); cbn [fold_left fst snd].
        - unfold call_listener. cbn [fst snd].
          rewrite nth_error_app2 by lia. rewrite Nat.sub_diag. cbn [nth_error].
          destruct (node_callback r c (src p)) as [r' ws]. cbn [fst snd].
          rewrite set_nth_mid, <- app_assoc. reflexivity.
        - rewrite <- app_assoc, app_nil_r. reflexivity. }
      rewrite E. specialize (IH (pre ++ [fst (step1 c p r)]) (vs ++ snd (step1 c p r))).
      rewrite app_length in IH. cbn [length] in IH. rewrite Nat.add_1_r in IH.
      rewrite IH, <- !app_assoc. reflexivity.
  Qed.

  Lemma trigger_spec rs0 rs vs e :
    map ru_class rs0 = map ru_class rs ->
    trigger src (bind_rules 0 rs0 no_listeners) (rs, vs) e
    = (map (fun r => fst (step1 (fst e) (snd e) r)) rs,
       vs ++ flat_map (fun r => snd (step1 (fst e) (snd e) r)) rs).
  Proof.
    intros Hc. unfold trigger. rewrite bind_rules_spec. cbn [no_listeners app].
    assert (Hs : forall i, subs i rs0 (fst e) = subs i rs (fst e)).
    { clear vs. revert rs Hc. induction rs0 as [|r0 rest0 IH]; intros [|r rest] Hc i;
        cbn [map] in Hc; try discriminate; [reflexivity|].
      injection Hc as H1 H2. cbn [subs]. unfold listens. rewrite H1, (IH rest H2). reflexivity. }
    rewrite Hs. exact (trigger_all (fst e) (snd e) rs [] vs).
  Qed.

  Lemma step1_class c p r : ru_class (fst (step1 c p r)) = ru_class r.
  Proof. unfold step1. destruct listens; [|reflexivity]. destruct r as [[] l]; reflexivity. Qed.
  Lemma step1_rule c p r v : In v (snd (step1 c p r)) -> vl_rule v = rule_id (ru_class r).
  Proof.
    unfold step1. destruct listens; [|intros []]. unfold node_callback.
    destruct r as [[] l]; cbn [ru_class ru_last snd].
    1,2: intros [<-|[]]; unfold report_violation; destruct (src p); reflexivity.
    destruct (is_interp c && _); [|intros []].
    intros [<-|[]]; unfold report_violation; destruct (src p); reflexivity.
  Qed.
  Lemma rule_id_inj a b : rule_id a = rule_id b -> a = b.
  Proof. destruct a, b; cbn; intros E; congruence || discriminate. Qed.

  Lemma of_rule_app c a b : of_rule c (a ++ b) = of_rule c a ++ of_rule c b.
  Proof. apply filter_app. Qed.
  Lemma of_rule_same c vs : (forall v, In v vs -> vl_rule v = rule_id c) -> of_rule c vs = vs.
  Proof.
    intros H. induction vs as [|v vs IH]; [reflexivity|]. cbn [of_rule filter].
    rewrite (H v (or_introl eq_refl)), str_eqb_refl. f_equal. apply IH. intros w Hw. apply H. right; exact Hw.
  Qed.
  Lemma of_rule_other c vs : (forall v, In v vs -> vl_rule v <> rule_id c) -> of_rule c vs = [].
  Proof.
    intros H. induction vs as [|v vs IH]; [reflexivity|]. cbn [of_rule filter].
    assert (E : str_eqb (vl_rule v) (rule_id c) = false)
      by (apply str_eqb_neq, H; left; reflexivity).
    rewrite E. apply IH. intros w Hw. apply H. right; exact Hw.
  Qed.
  Lemma step1_of_rule c k p r :
    of_rule c (snd (step1 k p r)) =
      match r with MkRule c' _ => if match c, c' with
         | DEP001, DEP001 | DEP002, DEP002 | GRB001, GRB001 => true | _, _ => false end
        then snd (step1 k p r) else [] end.
  Proof.
    destruct r as [c' l].
    destruct c, c'; first [apply of_rule_same | apply of_rule_other]; intros v Hv;
      apply step1_rule in Hv; rewrite Hv; cbn [ru_class]; try reflexivity; discriminate.
  Qed.
  Lemma none_of_rule c k p rs : ~ In c (map ru_class rs) ->
    of_rule c (flat_map (fun r => snd (step1 k p r)) rs) = [].
  Proof.
    intros H. apply of_rule_other. intros v Hv. apply in_flat_map in Hv as (r & Hr & Hv).
    apply step1_rule in Hv. rewrite Hv. intros E. apply rule_id_inj in E. subst c.
    apply H, in_map, Hr.
  Qed.
  Lemma one_of_rule c k p rs r : NoDup (map ru_class rs) -> In r rs -> ru_class r = c ->
    of_rule c (flat_map (fun r => snd (step1 k p r)) rs) = snd (step1 k p r).
  Proof.
    induction rs as [|r0 rest IH]; [intros _ []|]. cbn [map flat_map]. intros ND [->|Hr] Hc; inversion ND; subst.
    - rewrite of_rule_app, none_of_rule by assumption. rewrite app_nil_r.
      apply of_rule_same. intros v Hv. exact (step1_rule _ _ _ _ Hv).
    - rewrite of_rule_app, IH by auto.
      rewrite of_rule_other; [reflexivity|]. intros v Hv E. apply step1_rule in Hv.
      rewrite Hv in E. apply rule_id_inj in E. rewrite E in *. apply H1, in_map, Hr.
  Qed.

  Definition run (rs0 : list rule) (evs : list (cls * path)) (st : list rule * list violation) :=
    fold_left (trigger src (bind_rules 0 rs0 no_listeners)) evs st.

  Lemma solo_from evs : forall r vs,
    fold_left solo1 evs (r, vs) = (fst (solo r evs), vs ++ snd (solo r evs)).
  Proof.
    unfold solo. induction evs as [|e evs IH]; intros r vs; cbn [fold_left].
    - cbn [fst snd]. rewrite app_nil_r. reflexivity.
    - unfold solo1 at 2 4 6. cbn [fst snd app]. rewrite IH. symmetry. rewrite (IH _ (snd (step1 _ _ _))).
      cbn [fst snd]. rewrite app_assoc. reflexivity.
  Qed.
  Lemma solo_cons r e evs :
    solo r (e :: evs) = (fst (solo (fst (step1 (fst e) (snd e) r)) evs),
                         snd (step1 (fst e) (snd e) r) ++ snd (solo (fst (step1 (fst e) (snd e) r)) evs)).
  Proof. unfold solo at 1. cbn [fold_left]. unfold solo1 at 2. cbn [fst snd app]. apply solo_from. Qed.

  Lemma run_spec rs0 evs : forall rs vs, map ru_class rs0 = map ru_class rs ->
    exists out, run rs0 evs (rs, vs) = (map (fun r => fst (solo r evs)) rs, vs ++ out) /\
      (forall c, ~ In c (map ru_class rs) -> of_rule c out = []) /\
      (forall r, NoDup (map ru_class rs) -> In r rs -> of_rule (ru_class r) out = snd (solo r evs)) /\
      (forall v, In v out -> exists c, In c (map ru_class rs) /\ vl_rule v = rule_id c).
  Proof.
    induction evs as [|e evs IH]; intros rs vs Hc.
    - exists []. unfold run, solo. cbn [fold_left fst snd]. rewrite map_id, app_nil_r.
      repeat split; auto. intros v [].
    - unfold run. cbn [fold_left]. rewrite trigger_spec by exact Hc.
      set (rs1 := map (fun r => fst (step1 (fst e) (snd e) r)) rs).
      assert (Hc1 : map ru_class rs1 = map ru_class rs).
      { unfold rs1. rewrite map_map. apply map_ext. intros r. apply step1_class. }
      destruct (IH rs1 (vs ++ flat_map (fun r => snd (step1 (fst e) (snd e) r)) rs)) as (out & E & H1 & H2 & H3).
      { rewrite Hc1. exact Hc. }
      unfold run in E. exists (flat_map (fun r => snd (step1 (fst e) (snd e) r)) rs ++ out).
      rewrite E, <- app_assoc. repeat split.
      + f_equal. unfold rs1. rewrite map_map. apply map_ext. intros r. rewrite solo_cons. reflexivity.
      + intros c Hn. rewrite of_rule_app, none_of_rule by exact Hn. apply H1. rewrite Hc1. exact Hn.
      + intros r ND Hr. rewrite of_rule_app, (one_of_rule _ _ _ _ r ND Hr eq_refl), solo_cons. cbn [snd]. f_equal.
        specialize (H2 (fst (step1 (fst e) (snd e) r))). rewrite step1_class in H2. apply H2.
        * rewrite Hc1. exact ND.
        * unfold rs1. apply in_map_iff. eauto.
      + intros v Hv. apply in_app_iff in Hv as [Hv|Hv].
        * apply in_flat_map in Hv as (r & Hr & Hv). apply step1_rule in Hv.
          exists (ru_class r). split; [apply in_map, Hr|exact Hv].
        * destruct (H3 v Hv) as (c & Hin & Hv'). exists c. rewrite <- Hc1. auto.
  Qed.

  (** ** Rule objects *)
  Lemma reset_class r : ru_class (reset r) = ru_class r.
  Proof. destruct r as [[] l]; reflexivity. Qed.
  Lemma reset_solo r evs : reset (fst (solo r evs)) = reset r.
  Proof.
    revert r. induction evs as [|e evs IH]; intros r; [reflexivity|].
    rewrite solo_cons. cbn [fst]. rewrite IH. unfold step1. destruct listens; [|reflexivity].
    destruct r as [[] l]; reflexivity.
  Qed.
  Lemma reset_idem r : reset (reset r) = reset r.
  Proof. destruct r as [[] l]; reflexivity. Qed.

  Section File.
    Context {K : Type}.
    Lemma lint_with_spec (rs : list rule) (f : list (node K)) :
      exists out, lint_with src rs f
                  = (map (fun r => fst (solo r (file_events f))) (map reset rs), out) /\
        (forall c, ~ In c (map ru_class rs) -> of_rule c out = []) /\
        (forall r, NoDup (map ru_class rs) -> In r rs ->
           of_rule (ru_class r) out = snd (solo (reset r) (file_events f))) /\
        (forall v, In v out -> exists c, In c (map ru_class rs) /\ vl_rule v = rule_id c).
    Proof.
      unfold lint_with.
      destruct (run_spec (map reset rs) (file_events f) (map reset rs) [] eq_refl)
        as (out & E & H1 & H2 & H3).
      assert (Hc : map ru_class (map reset rs) = map ru_class rs).
      { rewrite map_map. apply map_ext, reset_class. }
      rewrite Hc in *. exists out. unfold run in E. rewrite E. repeat split; auto.
      intros r ND Hr. rewrite <- (reset_class r). apply H2; [exact ND|]. apply in_map, Hr.
    Qed.
    Lemma relint (rs : list rule) (f : list (node K)) :
      map reset (fst (lint_with src rs f)) = map reset rs.
    Proof.
      destruct (lint_with_spec rs f) as (out & E & _). rewrite E. cbn [fst].
      rewrite !map_map. apply map_ext. intros r. rewrite reset_solo. apply reset_idem.
    Qed.

    (** [lint] with chosen ids. *)
    Lemma find_rule_spec id c : find_rule id = Some c <-> id = rule_id c.
    Proof.
      unfold find_rule. cbn [find registry].
      repeat match goal with
      | |- context [str_eqb ?a id] => let E := fresh in destruct (str_eqb a id) eqn:E;
          [apply str_eqb_eq in E | apply str_eqb_neq in E]
      end; split; intros Hx; try discriminate; try (injection Hx as <-; congruence);
      destruct c; congruence || (subst id; discriminate) || reflexivity.
    Qed.
    Lemma rule_objects_spec ids rs : rule_objects ids = Ok rs ->
      map (fun r => rule_id (ru_class r)) rs = ids /\ (forall r, In r rs -> ru_last r = None).
    Proof.
      revert rs. induction ids as [|id rest IH]; intros rs; cbn [rule_objects].
      - intros E; injection E as <-. split; [reflexivity|intros r []].
      - destruct (find_rule id) as [c|] eqn:Ef; [|discriminate].
        destruct (rule_objects rest) as [l|] eqn:El; cbn [bind]; [|discriminate].
        intros E; injection E as <-. destruct (IH l eq_refl) as [H1 H2].
        apply find_rule_spec in Ef. split.
        + cbn [map new_rule ru_class]. rewrite H1, Ef. reflexivity.
        + intros r [<-|Hr]; [reflexivity|]. auto.
    Qed.
    Lemma rule_objects_ok ids : (forall id, In id ids -> exists c, id = rule_id c) ->
      exists rs, rule_objects ids = Ok rs.
    Proof.
      induction ids as [|id rest IH]; intros H; cbn [rule_objects].
      - exists []. reflexivity.
      - destruct (H id (or_introl eq_refl)) as [c Hc]. apply find_rule_spec in Hc. rewrite Hc.
        destruct IH as [rs Hrs]; [intros i Hi; apply H; right; exact Hi|].
        rewrite Hrs. cbn [bind]. eauto.
    Qed.
    Lemma rule_objects_err ids e : rule_objects ids = Err e -> In e ids /\ forall c, e <> rule_id c.
    Proof.
      induction ids as [|id rest IH]; cbn [rule_objects]; [discriminate|].
      destruct (find_rule id) as [c|] eqn:Ef.
      - destruct (rule_objects rest) as [l|e'] eqn:El; cbn [bind]; [discriminate|].
        intros E; injection E as <-. destruct (IH eq_refl). split; [right|]; assumption.
      - intros E; injection E as <-. split; [left; reflexivity|]. intros c Hc.
        apply find_rule_spec in Hc. congruence.
    Qed.

    Lemma lint_spec (f : list (node K)) ids report :
      (forall l, ids = Some l -> NoDup l) -> lint src f ids = Ok report ->
      exists rs, NoDup (map ru_class rs) /\ (forall c, active ids c <-> In c (map ru_class rs)) /\
        (forall r, In r rs -> r = new_rule (ru_class r)) /\ report = snd (lint_with src rs f).
    Proof.
      intros ND E.
      assert (Hall : forall ids, lint src f ids = Ok (snd (lint_with src (map new_rule registry) f)) ->
                match ids with None | Some [] => True | _ => False end ->
                exists rs, NoDup (map ru_class rs) /\ (forall c, active ids c <-> In c (map ru_class rs)) /\
        (forall r, In r rs -> r = new_rule (ru_class r)) /\ snd (lint_with src (map new_rule registry) f) = snd (lint_with src rs f)).
      { intros ids' _ Hi. exists (map new_rule registry). repeat split.
        - cbn. repeat constructor; cbn; intuition discriminate.
        - intros _. cbn. destruct c; auto.
        - intros _. destruct ids' as [[|]|]; cbn; tauto.
        - intros r Hr. apply in_map_iff in Hr as (c & <- & _). reflexivity. }
      destruct ids as [[|id rest]|]; cbn [lint] in E.
      - injection E as <-. apply (Hall (Some [])); [reflexivity|exact I].
      - destruct (rule_objects (id :: rest)) as [rs|] eqn:Er; cbn [bind] in E; [|discriminate].
        injection E as <-. apply rule_objects_spec in Er as [Hm Hl]. exists rs.
        specialize (ND _ eq_refl). rewrite <- map_map with (f := ru_class) in Hm.
        repeat split.
        + rewrite <- Hm in ND. exact (NoDup_map_inv _ _ ND).
        + cbn [active]. rewrite <- Hm. intros Hc. apply in_map_iff in Hc as (c' & Hc' & Hin).
          apply rule_id_inj in Hc'. subst c'. exact Hin.
        + cbn [active]. rewrite <- Hm. intros Hc. apply in_map, Hc.
        + intros r Hr. specialize (Hl r Hr). destruct r as [c l]. cbn in *. subst l. reflexivity.
      - injection E as <-. apply (Hall None); [reflexivity|exact I].
    Qed.

    Lemma lint_of_rule (f : list (node K)) ids report c :
      (forall l, ids = Some l -> NoDup l) -> lint src f ids = Ok report ->
      (active ids c -> of_rule c report = snd (solo (new_rule c) (file_events f))) /\
      (~ active ids c -> of_rule c report = []).
    Proof.
      intros ND E. apply lint_spec in E as (rs & ND' & Ha & Hn & ->); [|exact ND].
      destruct (lint_with_spec rs f) as (out & Eo & H1 & H2 & _). rewrite Eo. cbn [snd].
      split.
      - intros A. apply Ha, in_map_iff in A as (r & <- & Hr).
        rewrite (H2 r ND' Hr). rewrite (Hn r Hr) at 1.
        destruct r as [[] l]; reflexivity.
      - intros A. apply H1. intros Hc. apply A, Ha, Hc.
    Qed.

    (** ** Static rules *)
    Definition ev_places (g : gcode) (evs : list (cls * path)) : list path :=
      map snd (filter (fun e => cls_eqb (KG g) (fst e)) evs).
    Lemma solo_static c g evs : triggers c = [KG g] -> c <> GRB001 ->
      snd (solo (new_rule c) evs) = map (fun p => report_violation (new_rule c) (src p)) (ev_places g evs).
    Proof.
      intros Ht Hc. unfold ev_places. induction evs as [|e evs IH]; [reflexivity|].
      rewrite solo_cons. cbn [snd filter].
      unfold step1, listens. cbn [new_rule ru_class]. rewrite Ht. cbn [existsb].
      rewrite orb_false_r. destruct (cls_eqb (KG g) (fst e)) eqn:Ee.
      - replace (node_callback (new_rule c) (fst e) (src (snd e)))
          with (new_rule c, [report_violation (new_rule c) (src (snd e))])
          by (destruct c; [reflexivity|reflexivity|congruence]).
        cbn [fst snd map app]. f_equal. exact IH.
      - cbn [fst snd app]. exact IH.
    Qed.

    Lemma events_AB p id body : events p (@NAB K id body)
      = (KOther, p) :: (KOther, p ++ [0]) :: events_list p 1 body ++ [(KABclose, p ++ [S (length body)])].
    Proof.
      reflexivity.
    Qed.
    Lemma events_SR p u h body : events p (@NSR K u h body)
      = (KOther, p) :: (KOther, p ++ [0]) :: events_list p 1 body ++ [(KOther, p ++ [S (length body)])].
    Proof. reflexivity. Qed.
    Lemma commands_AB p id body : commands p (@NAB K id body)
      = (p, NAB id body) :: commands_list p 1 body.
    Proof. reflexivity. Qed.
    Lemma commands_SR p u h body : commands p (@NSR K u h body)
      = (p, NSR u h body) :: commands_list p 1 body.
    Proof. reflexivity. Qed.

    Lemma ev_places_app g a b : ev_places g (a ++ b) = ev_places g a ++ ev_places g b.
    Proof. unfold ev_places. rewrite filter_app, map_app. reflexivity. Qed.
    Lemma ev_places_cons g c p l :
      ev_places g ((c, p) :: l) = (if cls_eqb (KG g) c then [p] else []) ++ ev_places g l.
    Proof. unfold ev_places. cbn [filter fst]. destruct (cls_eqb (KG g) c); reflexivity. Qed.
    Definition cmd_places (g : gcode) (l : list (path * node K)) : list path :=
      map fst (filter (fun pn => is_g g (snd pn)) l).
    Lemma cmd_places_app g a b : cmd_places g (a ++ b) = cmd_places g a ++ cmd_places g b.
    Proof. unfold cmd_places. rewrite filter_app, map_app. reflexivity. Qed.

    Lemma places_list g body : Forall (fun n => forall p, ev_places g (events p n) = cmd_places g (commands p n)) body ->
      forall p i, ev_places g (events_list p i body) = cmd_places g (commands_list p i body).
    Proof.
      induction 1 as [|n r Hn Hr IH]; intros p i; [reflexivity|].
      cbn [events_list commands_list]. rewrite ev_places_app, cmd_places_app, Hn, IH. reflexivity.
    Qed.
    Lemma places_node g n : forall p, ev_places g (events p n) = cmd_places g (commands p n).
    Proof.
      induction n as [id body Hb|u h body Hb|n Hl] using node_ind'; intros p.
      - rewrite events_AB, commands_AB, !ev_places_cons, ev_places_app, ev_places_cons, (places_list g body Hb).
        cbn [cls_eqb app]. rewrite app_nil_r. reflexivity.
      - rewrite events_SR, commands_SR, !ev_places_cons, ev_places_app, ev_places_cons, (places_list g body Hb).
        cbn [cls_eqb app]. rewrite app_nil_r. reflexivity.
      - destruct n; try contradiction; unfold ev_places, cmd_places; cbn [events commands filter fst snd is_g cls_eqb map]; try reflexivity.
        destruct (gcode_beq g g0); reflexivity.
    Qed.
    Lemma places_file g (f : list (node K)) : ev_places g (file_events f) = places g f.
    Proof.
      apply (places_list g f). apply Forall_forall. intros n _ p. apply places_node.
    Qed.

    (** ** GRB001 *)
    Definition heard (c : cls) : bool :=
      match c with KG g => interp g | KABclose => true | KOther => false end.
    Definition next (l : option cls) (c : cls) : option cls := if heard c then Some c else l.
    Definition same_as (l : option cls) (c : cls) : bool :=
      match l with Some k => cls_eqb k c | None => false end.
    Fixpoint grb (l : option cls) (evs : list (cls * path)) : list (gcode * path) :=
      match evs with
      | [] => []
      | (c, p) :: r =>
          match c with
          | KG g => if interp g && same_as l c then [(g, p)] else []
          | _ => []
          end ++ grb (next l c) r
      end.
    Lemma solo_grb evs : forall l,
      snd (solo (MkRule GRB001 l) evs)
      = map (fun gp => report_violation (MkRule GRB001 (Some (KG (fst gp)))) (src (snd gp))) (grb l evs).
    Proof.
      induction evs as [|[c p] evs IH]; intros l; [reflexivity|].
      rewrite solo_cons. cbn [fst snd grb]. unfold step1.
      assert (El : listens c (MkRule GRB001 l) = heard c).
      { unfold listens. destruct c as [[]| |]; reflexivity. }
      rewrite El. unfold next. destruct (heard c) eqn:Eh.
      - unfold node_callback. cbn [ru_class ru_last fst snd]. rewrite IH, map_app. f_equal.
        fold (same_as l c). destruct c as [g| |]; [|reflexivity|discriminate].
        assert (Ei : is_interp (KG g) = interp g) by (destruct g; reflexivity).
        rewrite Ei. destruct (interp g && same_as l (KG g)) eqn:Es; [|reflexivity].
        apply andb_true_iff in Es as [_ Es]. unfold same_as in Es.
        destruct l as [k|]; [|discriminate]. apply cls_eqb_eq in Es. subst k. reflexivity.
      - cbn [fst snd app]. rewrite IH. destruct c as [g| |]; cbn [heard] in Eh; [|discriminate|reflexivity].
        rewrite Eh. reflexivity.
    Qed.

    Definition to_mark (l : option cls) : option mark :=
      match l with Some (KG g) => Some (MInterp g) | Some KABclose => Some MBlockEnd | _ => None end.
    Fixpoint ev_marks (evs : list (cls * path)) : list (mark * path) :=
      match evs with
      | [] => []
      | (KG g, p) :: r => (if interp g then [(MInterp g, p)] else []) ++ ev_marks r
      | (KABclose, p) :: r => (MBlockEnd, p) :: ev_marks r
      | (KOther, _) :: r => ev_marks r
      end.
    Lemma grb_repeats evs : forall l, grb l evs = repeats (to_mark l) (ev_marks evs).
    Proof.
      induction evs as [|[c p] evs IH]; intros l; [reflexivity|].
      cbn [grb ev_marks]. rewrite IH. unfold next. destruct c as [g| |]; cbn [heard].
      - destruct (interp g) eqn:Ei; cbn [andb app repeats to_mark]; [|reflexivity]. f_equal.
        destruct l as [[h| |]|]; cbn [same_as cls_eqb to_mark]; reflexivity.
      - reflexivity.
      - reflexivity.
    Qed.
    Lemma ev_marks_app a b : ev_marks (a ++ b) = ev_marks a ++ ev_marks b.
    Proof.
      induction a as [|[[g| |] p] a IH]; cbn [app ev_marks]; rewrite ?IH, ?app_assoc; reflexivity.
    Qed.
    Lemma marks_AB p id body : marks p (@NAB K id body)
      = marks_list p 1 body ++ [(MBlockEnd, p ++ [S (length body)])].
    Proof. reflexivity. Qed.
    Lemma marks_SR p u h body : marks p (@NSR K u h body) = marks_list p 1 body.
    Proof. reflexivity. Qed.
    Lemma ev_marks_list (body : list (node K)) :
      Forall (fun n => forall p, ev_marks (events p n) = marks p n) body ->
      forall p i, ev_marks (events_list p i body) = marks_list p i body.
    Proof.
      induction 1 as [|n r Hn Hr IH]; intros p i; [reflexivity|].
      change (ev_marks (events (p ++ [i]) n ++ events_list p (S i) r)
              = marks (p ++ [i]) n ++ marks_list p (S i) r).
      rewrite ev_marks_app, Hn, IH. reflexivity.
    Qed.
    Lemma ev_marks_node (n : node K) : forall p, ev_marks (events p n) = marks p n.
    Proof.
      induction n as [id body Hb|u h body Hb|n Hl] using node_ind'; intros p.
      - rewrite events_AB, marks_AB. cbn [ev_marks]. rewrite ev_marks_app, (ev_marks_list body Hb). reflexivity.
      - rewrite events_SR, marks_SR. cbn [ev_marks]. rewrite ev_marks_app, (ev_marks_list body Hb).
        cbn [ev_marks]. apply app_nil_r.
      - destruct n; try contradiction; try reflexivity. cbn [events marks ev_marks]. apply app_nil_r.
    Qed.
    Lemma grb_file (f : list (node K)) : grb None (file_events f) = repeated f.
    Proof.
      rewrite grb_repeats. unfold repeated, file_events. rewrite (ev_marks_list f); [reflexivity|].
      apply Forall_forall. intros n _ p. apply ev_marks_node.
    Qed.
  End File.
End Run.

(** * Paths are unique *)
Section Unique.
  Context {K : Type}.
  Definition under (p q : path) : Prop := exists r, q = p ++ r.
  Lemma under_refl p : under p p. Proof. exists []. rewrite app_nil_r. reflexivity. Qed.
  Lemma under_step p i q : under (p ++ [i]) q -> under p q.
  Proof. intros [r ->]. rewrite <- app_assoc. eexists; reflexivity. Qed.
  Lemma under_child p i j q : under (p ++ [i]) q -> under (p ++ [j]) q -> i = j.
  Proof. intros [r ->] [r' E]. rewrite <- !app_assoc in E. apply app_inv_head in E. cbn in E. congruence. Qed.
  Lemma not_under_child p i : ~ under (p ++ [i]) p.
  Proof.
    intros [r E]. apply (f_equal (@length nat)) in E. rewrite !app_length in E. cbn in E. lia.
  Qed.

  Lemma events_list_cons p i n (r : list (node K)) :
    events_list p i (n :: r) = events (p ++ [i]) n ++ events_list p (S i) r.
  Proof. reflexivity. Qed.
  Definition paths (evs : list (cls * path)) := map snd evs.

  Lemma NoDup_app_intro {A} (a b : list A) :
    NoDup a -> NoDup b -> (forall x, In x a -> ~ In x b) -> NoDup (a ++ b).
  Proof.
    induction 1 as [|x a Hx Ha IH]; intros Hb Hd; [exact Hb|]. cbn [app]. constructor.
    - rewrite in_app_iff. intros [H|H]; [contradiction|]. apply (Hd x (or_introl eq_refl) H).
    - apply IH; [exact Hb|]. intros y Hy. apply Hd. right; exact Hy.
  Qed.

  Lemma list_paths (body : list (node K)) :
    Forall (fun n => forall p, NoDup (paths (events p n)) /\ forall q, In q (paths (events p n)) -> under p q) body ->
    forall p i, NoDup (paths (events_list p i body)) /\
      forall q, In q (paths (events_list p i body)) ->
        exists j, i <= j < i + length body /\ under (p ++ [j]) q.
  Proof.
    induction 1 as [|n r Hn Hr IH]; intros p i.
    - cbn. split; [constructor|intros q []].
    - rewrite events_list_cons. unfold paths. rewrite map_app. fold (paths (events (p ++ [i]) n)) (paths (events_list p (S i) r)).
      destruct (Hn (p ++ [i])) as [N1 U1]. destruct (IH p (S i)) as [N2 U2]. split.
      + apply NoDup_app_intro; auto. intros q H1 H2. apply U1 in H1. apply U2 in H2 as (j & Hj & H2).
        pose proof (under_child _ _ _ _ H1 H2). lia.
      + intros q Hq. apply in_app_iff in Hq as [Hq|Hq].
        * exists i. split; [cbn [length]; lia|]. auto.
        * apply U2 in Hq as (j & Hj & Hu). exists j. split; [cbn [length]; lia|exact Hu].
  Qed.
  Lemma block_paths p (k : cls) (body : list (node K)) :
    (forall p i, NoDup (paths (events_list p i body)) /\
      forall q, In q (paths (events_list p i body)) ->
        exists j, i <= j < i + length body /\ under (p ++ [j]) q) ->
    let evs := (KOther, p) :: (KOther, p ++ [0]) :: events_list p 1 body ++ [(k, p ++ [S (length body)])] in
    NoDup (paths evs) /\ forall q, In q (paths evs) -> under p q.
  Proof.
    intros Hb. cbn zeta. unfold paths. cbn [map snd]. rewrite map_app. cbn [map snd].
    fold (paths (events_list p 1 body)). destruct (Hb p 1) as [N U].
    assert (Hlast : forall q, In q (paths (events_list p 1 body)) -> q <> p ++ [S (length body)]).
    { intros q Hq -> . apply U in Hq as (j & Hj & Hu).
      pose proof (under_child _ _ _ _ Hu (under_refl _)). lia. }
    split.
    - constructor; [|constructor].
      + intros [H|H].
        * apply (not_under_child p 0). rewrite H. apply under_refl.
        * apply in_app_iff in H as [H|[H|[]]].
          -- apply U in H as (j & _ & Hu). exact (not_under_child _ _ Hu).
          -- apply (not_under_child p (S (length body))). rewrite H. apply under_refl.
      + intros H. apply in_app_iff in H as [H|[H|[]]].
        * apply U in H as (j & Hj & Hu). pose proof (under_child _ _ _ _ Hu (under_refl _)). lia.
        * apply app_inv_head in H. discriminate.
      + apply NoDup_app_intro; [exact N|repeat constructor; intros []|].
        intros q H1 [H2|[]]. exact (Hlast q H1 (eq_sym H2)).
    - intros q [<-|[<-|H]]; [apply under_refl|eexists; reflexivity|].
      apply in_app_iff in H as [H|[<-|[]]]; [|eexists; reflexivity].
      apply U in H as (j & _ & Hu). exact (under_step _ _ _ Hu).
  Qed.
  Lemma node_paths (n : node K) : forall p,
    NoDup (paths (events p n)) /\ forall q, In q (paths (events p n)) -> under p q.
  Proof.
    induction n as [id body Hb|u h body Hb|n Hl] using node_ind'; intros p.
    - rewrite events_AB. apply block_paths. intros. apply list_paths. exact Hb.
    - rewrite events_SR. apply block_paths. intros. apply list_paths. exact Hb.
    - assert (E : paths (events p n) = [p]) by (destruct n; try contradiction; reflexivity).
      rewrite E. split; [repeat constructor; intros []|]. intros q [<-|[]]. apply under_refl.
  Qed.
  Lemma file_paths (f : list (node K)) : NoDup (paths (file_events f)).
  Proof. apply list_paths. apply Forall_forall. intros n _. apply node_paths. Qed.
End Unique.

(** * Deleting what GRB001 reports *)
Section Delete.
  Context {K : Type} {NK : Num K} {X : Type} (H : hooks K X) (sel : path -> bool).

  Definition nexts (l : option cls) (evs : list (cls * path)) : option cls :=
    fold_left (fun l e => next l (fst e)) evs l.
  Lemma nexts_app l a b : nexts l (a ++ b) = nexts (nexts l a) b.
  Proof. apply fold_left_app. Qed.

  Fixpoint ok (l : option cls) (evs : list (cls * path)) : Prop :=
    match evs with
    | [] => True
    | (c, p) :: r =>
        (sel p = true -> exists g, c = KG g /\ interp g = true /\ l = Some c) /\ ok (next l c) r
    end.
  Lemma ok_app a b : forall l, ok l (a ++ b) <-> ok l a /\ ok (nexts l a) b.
  Proof.
    induction a as [|[c p] a IH]; intros l; cbn [app ok nexts fold_left fst].
    - tauto.
    - rewrite IH. unfold nexts. tauto.
  Qed.
  Lemma grb_paths evs : forall l q, In q (map snd (grb l evs)) -> In q (paths evs).
  Proof.
    induction evs as [|[c p] evs IH]; intros l q; [intros []|].
    cbn [grb paths map snd]. rewrite map_app, in_app_iff. intros [Hq|Hq].
    - left. destruct c as [g| |]; [|destruct Hq|destruct Hq].
      destruct (interp g && _); [destruct Hq as [<-|[]]; reflexivity|destruct Hq].
    - right. exact (IH _ _ Hq).
  Qed.
  Lemma sel_ok evs : forall l, NoDup (paths evs) ->
    (forall p, sel p = true -> In p (paths evs) -> In p (map snd (grb l evs))) -> ok l evs.
  Proof.
    induction evs as [|[c p] evs IH]; intros l ND Hs; [exact I|].
    cbn [paths map snd] in ND, Hs. inversion ND as [|x xs Hnin ND']; subst. cbn [ok]. split.
    - intros Hp. specialize (Hs p Hp (or_introl eq_refl)). cbn [grb] in Hs.
      rewrite map_app, in_app_iff in Hs. destruct Hs as [Hs|Hs].
      + destruct c as [g| |]; [|destruct Hs|destruct Hs].
        destruct (interp g && same_as l (KG g)) eqn:E; [|destruct Hs].
        apply andb_true_iff in E as [Ei Es]. exists g. repeat split; auto.
        destruct l as [k|]; [|discriminate]. apply cls_eqb_eq in Es. congruence.
      + apply grb_paths in Hs. contradiction.
    - apply IH; [exact ND'|]. intros q Hq Hin. specialize (Hs q Hq (or_intror Hin)).
      cbn [grb] in Hs. rewrite map_app, in_app_iff in Hs. destruct Hs as [Hs|Hs]; [|exact Hs].
      exfalso. assert (q = p) as ->; [|contradiction].
      destruct c as [g| |]; [|destruct Hs|destruct Hs].
      destruct (interp g && _); [destruct Hs as [<-|[]]; reflexivity|destruct Hs].
  Qed.

  (** The cached handler fits the modes; a mode recorded by the linter is in effect. *)
  Definition mode_of (g : gcode) : option plot_mode :=
    match g with G01 => Some PmLinear | G02 => Some PmArc | G03 => Some PmCcwArc | _ => None end.
  Definition fits (v : visitor K X) : Prop := dispatch v = v.
  Definition inv (l : option cls) (v : visitor K X) : Prop :=
    fits v /\ match l with Some (KG g) => mode_of g = Some (s_plot (v_state v)) | _ => True end.

  Definition modes (v : visitor K X) := (s_plot (v_state v), s_arc (v_state v), v_d01 v, v_dispatch_region v).
  Lemma fits_modes v v' : modes v' = modes v -> fits v -> fits v'.
  Proof.
    unfold fits, dispatch, modes. destruct v as [s d d3 b x], v' as [s' d' d3' b' x']. cbn.
    intros E F. injection E as E1 E2 E3 E4. injection F as F. subst b' d'. rewrite E1, E2, F. reflexivity.
  Qed.
  Lemma inv_modes l v v' : modes v' = modes v -> inv l v -> inv l v'.
  Proof.
    intros E [F M]. split; [exact (fits_modes _ _ E F)|].
    injection E as E1 _ _ _. destruct l as [[g| |]|]; try exact I. rewrite E1. exact M.
  Qed.
  Lemma lift_modes v r v' : lift v r = Done v' -> modes v' = modes v.
  Proof. destruct r; intros E; [injection E as <-; reflexivity|discriminate]. Qed.
  Lemma fits_dispatch v : fits (dispatch v).
  Proof. reflexivity. Qed.

  Lemma read_coords_modes x y i j (s s' : state K) : read_coords x y i j s = Ok s' ->
    s_plot s' = s_plot s /\ s_arc s' = s_arc s.
  Proof.
    unfold read_coords. destruct (read_opt s true x _); cbn [bind]; [|discriminate].
    destruct (read_opt s false y _); cbn [bind]; [|discriminate].
    destruct (read_opt s true i _); cbn [bind]; [|discriminate].
    destruct (read_opt s false j _); cbn [bind]; [|discriminate].
    intros E; injection E as <-. auto.
  Qed.
  Lemma leaf_modes n v v' : (forall g, n <> NG g) -> visit_leaf H n v = Done v' -> modes v' = modes v.
  Proof.
    intros Hn. destruct n; cbn [visit_leaf]; intros E;
      try (injection E as <-; reflexivity); try discriminate;
      try (injection E as <-; destruct name; reflexivity).
    - unfold on_ad in E. rewrite (lift_modes _ _ _ E). reflexivity.
    - unfold on_d01, on_coords in E. destruct (read_coords _ _ _ _ _) as [s|] eqn:Er; [|discriminate].
      apply read_coords_modes in Er as [E1 E2]. apply obind_done in E as (t & Et & Ed).
      apply lift_modes in Et. injection Ed as <-.
      transitivity (modes t); [reflexivity|]. rewrite Et. unfold modes. cbn. rewrite E1, E2. reflexivity.
    - unfold on_d02, on_coords in E. destruct (read_coords _ _ _ _ _) as [s|] eqn:Er; [|discriminate].
      apply read_coords_modes in Er as [E1 E2]. cbn beta zeta in E.
      destruct (s_region _).
      + rewrite (lift_modes _ _ _ E). unfold modes. cbn. rewrite E1, E2. reflexivity.
      + injection E as <-. unfold modes. cbn. rewrite E1, E2. reflexivity.
    - unfold on_d03, on_coords in E. destruct (read_coords _ _ _ _ _) as [s|] eqn:Er; [|discriminate].
      apply read_coords_modes in Er as [E1 E2]. destruct current_aperture; [|discriminate].
      destruct v_d03; [|discriminate]. apply obind_done in E as (t' & Et & Ed).
      apply lift_modes in Et. injection Ed as <-.
      transitivity (modes t'); [reflexivity|]. rewrite Et. unfold modes. cbn. rewrite E1, E2. reflexivity.
    - unfold on_dnn in E. cbn beta zeta in E. destruct current_aperture; [|discriminate].
      injection E as <-. reflexivity.
    - exfalso. exact (Hn g eq_refl).
  Qed.
  Lemma g_inv g l v v' : on_g H g v = Done v' -> inv l v -> inv (next l (KG g)) v'.
  Proof.
    unfold next. cbn [heard]. destruct g; cbn [on_g interp]; intros E Hi.
    1-3: injection E as <-; split; [apply fits_dispatch|reflexivity].
    - injection E as <-. split; [reflexivity|exact (proj2 Hi)].
    - apply obind_done in E as (t & Et & Ed). injection Ed as <-. apply lift_modes in Et.
      apply (inv_modes _ _ _ Et) in Hi. split; [reflexivity|exact (proj2 Hi)].
    - injection E as <-. exact Hi.
    - injection E as <-. exact Hi.
    - injection E as <-. apply (inv_modes _ v); [reflexivity|exact Hi].
    - injection E as <-. apply (inv_modes _ v); [reflexivity|exact Hi].
    - injection E as <-. split; [reflexivity|exact (proj2 Hi)].
    - injection E as <-. split; [reflexivity|exact (proj2 Hi)].
    - injection E as <-. apply (inv_modes _ v); [reflexivity|exact Hi].
    - injection E as <-. apply (inv_modes _ v); [reflexivity|exact Hi].
  Qed.
  (** A repeated interpolation command does nothing. *)
  Lemma g_idle g v : interp g = true -> inv (Some (KG g)) v -> on_g H g v = Done v.
  Proof.
    intros Hg [F M].
    assert (E : with_state (set_plot (s_plot (v_state v))) v = v).
    { destruct v as [s d d3 b x]. destruct s. reflexivity. }
    destruct g; try discriminate Hg; cbn [mode_of] in M; injection M as M; cbn [on_g];
      rewrite M, E, F; reflexivity.
  Qed.

  Definition good (l l' : option cls) (o o' : outcome (visitor K X)) : Prop :=
    o' = o /\ (forall v, o = Done v -> inv l' v) /\ (forall v, o = Stop v -> fits v).
  Lemma good_done l l' v : inv l' v -> good l l' (Done v) (Done v).
  Proof. intros Hi. split; [reflexivity|]. split; intros v' E; [injection E as <-; exact Hi|discriminate]. Qed.
  Lemma good_stop l l' v : fits v -> good l l' (Stop v) (Stop v).
  Proof. intros Hi. split; [reflexivity|]. split; intros v' E; [discriminate|injection E as <-; exact Hi]. Qed.
  Lemma good_fail l l' e : good l l' (Fail e) (Fail e).
  Proof. split; [reflexivity|]. split; intros v' E; discriminate. Qed.
  Definition node_good (n : node K) : Prop := forall p l v,
    ok l (events p n) -> sel p = false -> inv l v ->
    good l (nexts l (events p n)) (visit H n v) (visit H (prune sel p n) v).

  Lemma head_event p (n : node K) : exists c r, events p n = (c, p) :: r /\
    (forall g, c = KG g -> n = NG g).
  Proof. destruct n; cbn [events]; eexists _, _; (split; [reflexivity|]); intros g' E; first [discriminate E | injection E as <-; reflexivity]. Qed.

  Lemma prune_list_cons p i n (r : list (node K)) :
    prune_list sel p i (n :: r) = if sel (p ++ [i]) then prune_list sel p (S i) r
                                  else prune sel (p ++ [i]) n :: prune_list sel p (S i) r.
  Proof. reflexivity. Qed.

  Lemma list_good body : Forall node_good body -> forall p i l v,
    ok l (events_list p i body) -> inv l v ->
    good l (nexts l (events_list p i body)) (visits H body v) (visits H (prune_list sel p i body) v).
  Proof.
    induction 1 as [|n r Hn Hr IH]; intros p i l v Ho Hi.
    - apply good_done, Hi.
    - rewrite events_list_cons in *. rewrite prune_list_cons. apply ok_app in Ho as [Ho1 Ho2].
      rewrite nexts_app. destruct (sel (p ++ [i])) eqn:Es.
      + destruct (head_event (p ++ [i]) n) as (c & rest & Ee & Hc). rewrite Ee in Ho1. cbn [ok] in Ho1.
        destruct (proj1 Ho1 Es) as (g & -> & Hg & ->). specialize (Hc g eq_refl). subst n.
        cbn [events] in *. unfold nexts in *. cbn [fold_left fst] in *. unfold next in *. cbn [heard] in *. rewrite Hg in *.
        cbn [visits]. cbn [visit visit_leaf]. rewrite (g_idle g v Hg Hi). cbn [obind].
        exact (IH p (S i) _ v Ho2 Hi).
      + destruct (Hn _ _ _ Ho1 Es Hi) as (E & Hd & Hs). cbn [visits]. rewrite E.
        destruct (visit H n v) as [v1|v1|e]; cbn [obind].
        * exact (IH p (S i) _ v1 Ho2 (Hd v1 eq_refl)).
        * apply good_stop, Hs; reflexivity.
        * apply good_fail.
  Qed.
  Lemma next_other l : next l KOther = l. Proof. reflexivity. Qed.

  Lemma node_good_all n : node_good n.
  Proof.
    induction n as [id body Hb|u h body Hb|n Hl] using node_ind'; intros p l v Ho Es Hi.
    - rewrite events_AB in *. cbn [ok] in Ho. destruct Ho as (_ & _ & Ho).
      rewrite !next_other in Ho. apply ok_app in Ho as [Ho _].
      change (prune sel p (NAB id body)) with (NAB id (prune_list sel p 1 body)).
      rewrite !visit_AB.
      assert (Hi' : inv l (ab_enter H id v)) by (apply (inv_modes _ v); [reflexivity|exact Hi]).
      destruct (list_good body Hb p 1 l _ Ho Hi') as (E & Hd & Hs). rewrite E.
      destruct (visits H body _) as [v1|v1|e]; cbn [obind].
      + apply good_done. split.
        * apply (fits_modes v1); [reflexivity|]. apply (Hd v1 eq_refl).
        * unfold nexts. cbn [fold_left]. rewrite fold_left_app. cbn. exact I.
      + apply good_stop, Hs; reflexivity.
      + apply good_fail.
    - rewrite events_SR in *. cbn [ok] in Ho. destruct Ho as (_ & _ & Ho).
      rewrite !next_other in Ho. apply ok_app in Ho as [Ho _].
      change (prune sel p (NSR u h body)) with (NSR u h (prune_list sel p 1 body)).
      rewrite !visit_SR.
      assert (Hi' : inv l (snd (sr_enter H u v))).
      { apply (inv_modes _ v); [|exact Hi]. unfold sr_enter. destruct hk_sr_open. reflexivity. }
      destruct (list_good body Hb p 1 l _ Ho Hi') as (E & Hd & Hs). rewrite E.
      destruct (visits H body _) as [v1|v1|e]; cbn [obind].
      + split; [reflexivity|]. split.
        * intros v' E'. apply lift_modes in E'. apply (inv_modes _ _ _ E').
          unfold nexts. cbn [fold_left fst]. rewrite fold_left_app. exact (Hd v1 eq_refl).
        * intros v' E'. apply lift_not_stop in E'. contradiction.
      + apply good_stop, Hs; reflexivity.
      + apply good_fail.
    - assert (Ep : prune sel p n = n) by (destruct n; try contradiction; reflexivity).
      rewrite Ep, visit_is_leaf by exact Hl. split; [reflexivity|]. split.
      + intros v' E. destruct n; try contradiction;
          try (apply leaf_modes in E; [|discriminate]; exact (inv_modes _ _ _ E Hi)).
        exact (g_inv g l v v' E Hi).
      + intros v' E. apply leaf_stop in E as [_ ->]. apply Hi.
  Qed.

  (** A node without a stop does not stop. *)
  Lemma no_stop_list (body : list (node K)) :
    Forall (fun n => has_stop n = false -> forall v v', visit H n v <> Stop v') body ->
    existsb has_stop body = false -> forall v v', visits H body v <> Stop v'.
  Proof.
    induction 1 as [|n r Hn Hr IH]; cbn [existsb visits]; intros Hb v v'; [discriminate|].
    apply orb_false_iff in Hb as [H1 H2]. specialize (Hn H1 v).
    destruct (visit H n v) as [v1|v1|e]; cbn [obind]; [apply IH, H2| |discriminate].
    exfalso. exact (Hn v1 eq_refl).
  Qed.
  Lemma no_stop_node (n : node K) : has_stop n = false -> forall v v', visit H n v <> Stop v'.
  Proof.
    induction n as [id body Hb|u h body Hb|n Hl] using node_ind'; intros Hs v v'.
    - rewrite visit_AB. pose proof (no_stop_list body Hb Hs (ab_enter H id v)) as Hn.
      destruct (visits H body _); cbn [obind]; try discriminate. intros E. injection E as <-. exact (Hn _ eq_refl).
    - rewrite visit_SR. pose proof (no_stop_list body Hb Hs (snd (sr_enter H u v))) as Hn.
      destruct (visits H body _); cbn [obind]; try discriminate.
      + apply lift_not_stop.
      + intros E. injection E as <-. exact (Hn _ eq_refl).
    - rewrite visit_is_leaf by exact Hl. intros E. apply leaf_stop in E as [[-> | ->] _]; discriminate.
  Qed.

  Lemma file_good ign f : ign = true \/ no_stop_in_step_repeat f -> forall i l v,
    ok l (events_list [] i f) -> inv l v ->
    on_file H ign (prune_list sel [] i f) v = on_file H ign f v.
  Proof.
    induction f as [|n r IH]; intros Hc i l v Ho Hi; [reflexivity|].
    assert (Hc' : ign = true \/ no_stop_in_step_repeat r).
    { destruct Hc as [->|Hc]; [left; reflexivity|right]. intros u h b Hb. apply Hc. right; exact Hb. }
    rewrite events_list_cons in *. rewrite prune_list_cons. apply ok_app in Ho as [Ho1 Ho2].
    destruct (sel ([] ++ [i])) eqn:Es.
    - destruct (head_event ([] ++ [i]) n) as (c & rest & Ee & Hh). rewrite Ee in Ho1. cbn [ok] in Ho1.
      destruct (proj1 Ho1 Es) as (g & -> & Hg & ->). specialize (Hh g eq_refl). subst n.
      cbn [events] in *. unfold nexts in *. cbn [fold_left fst] in *. unfold next in *. cbn [heard] in *. rewrite Hg in *.
      cbn [on_file]. cbn [visit visit_leaf]. rewrite (g_idle g v Hg Hi).
      exact (IH Hc' (S i) _ v Ho2 Hi).
    - destruct (node_good_all n _ _ _ Ho1 Es Hi) as (E & Hd & Hs). cbn [on_file]. rewrite E.
      destruct (visit H n v) as [v1|v1|e] eqn:Ev; [|destruct ign eqn:Ei|reflexivity].
      + exact (IH Hc' (S i) _ v1 Ho2 (Hd v1 eq_refl)).
      + reflexivity.
      + destruct Hc as [Hc|Hc]; [discriminate|]. apply (IH Hc' (S i) _ v1 Ho2).
        destruct n as [id body|u h body| | | | | | | | | | | | | | | | | | | | | | | | | | | | | |] eqn:En;
          try (cbn [visit] in Ev; apply leaf_stop in Ev as [[|] ->]; try discriminate; exact Hi).
        * split; [exact (Hs v1 eq_refl)|]. rewrite events_AB. unfold nexts. cbn [fold_left].
          rewrite fold_left_app. exact I.
        * exfalso. apply (no_stop_node (NSR u h body) (Hc u h body (or_introl eq_refl)) v v1 Ev).
  Qed.
End Delete.

(** C46, C47: the linter. *)
From Verif Require Import Base Num Ast CoordModel StateModel LinterModel LinterSpec LinterProofs.
Local Open Scope nat_scope.

Section Props.
  Context {K : Type} (src : path -> option srcinfo).

  (** C46.  Whatever other rules are active, the DEP001 part of the report lists every G54 of
      the file exactly once, in document order, at its position; DEP002 does the same for G55. *)
  Theorem C46_deprecated_commands_reported (f : list (node K)) ids report :
    (forall l, ids = Some l -> NoDup l) -> lint src f ids = Ok report ->
    (active ids DEP001 ->
       of_rule DEP001 report
       = map (fun p => at_place (lit "DEP001") (lit "Use of deprecated G54 code.") (src p)) (places G54 f)) /\
    (active ids DEP002 ->
       of_rule DEP002 report
       = map (fun p => at_place (lit "DEP002") (lit "Use of deprecated G55 code.") (src p)) (places G55 f)).
  Proof.
    intros ND E. split; intros A.
    - rewrite (proj1 (lint_of_rule src f ids report DEP001 ND E) A).
      rewrite (solo_static src DEP001 G54) by (reflexivity || discriminate).
      rewrite (places_file G54 f). apply map_ext. intros p.
      unfold report_violation, at_place. destruct (src p) as [[]|]; reflexivity.
    - rewrite (proj1 (lint_of_rule src f ids report DEP002 ND E) A).
      rewrite (solo_static src DEP002 G55) by (reflexivity || discriminate).
      rewrite (places_file G55 f). apply map_ext. intros p.
      unfold report_violation, at_place. destruct (src p) as [[]|]; reflexivity.
  Qed.

  (** Nothing else is reported: every violation belongs to an active rule. *)
  Theorem C46_only_active_rules_report (f : list (node K)) ids report v :
    (forall l, ids = Some l -> NoDup l) -> lint src f ids = Ok report -> In v report ->
    exists c, active ids c /\ vl_rule v = rule_id c.
  Proof.
    intros ND E Hv. apply lint_spec in E as (rs & ND' & Ha & Hn & ->); [|exact ND].
    destruct (lint_with_spec src rs f) as (out & Eo & _ & _ & H3). rewrite Eo in Hv.
    destruct (H3 v Hv) as (c & Hc & Er). exists c. split; [apply Ha, Hc|exact Er].
  Qed.

  (** [lint] fails exactly when an unknown rule is asked for. *)
  Theorem C46_lint_fails_only_for_unknown_rules (f : list (node K)) ids :
    (exists report, lint src f ids = Ok report) <->
    (forall l id, ids = Some l -> In id l -> exists c, id = rule_id c).
  Proof.
    destruct ids as [[|i r]|]; cbn [lint].
    - split; [|eauto]. intros _ l id E Hin. injection E as <-. destruct Hin.
    - split.
      + intros [report E] l id El Hin. injection El as <-.
        destruct (rule_objects (i :: r)) as [rs|] eqn:Er; [|discriminate].
        apply rule_objects_spec in Er as [Hm _]. rewrite <- Hm in Hin.
        apply in_map_iff in Hin as (x & <- & _). eauto.
      + intros Hk. destruct (rule_objects_ok (i :: r)) as [rs Hrs].
        { intros id Hin. exact (Hk _ id eq_refl Hin). }
        rewrite Hrs. cbn [bind]. eauto.
    - split; [|eauto]. intros _ l id E. discriminate.
  Qed.

  (** Linting again with the same linter object, after any other file, gives what a first
      use gives. *)
  Theorem C46_linting_again (rs : list rule) (f g : list (node K)) src' :
    snd (lint_with src (fst (lint_with src' rs f)) g) = snd (lint_with src rs g).
  Proof. unfold lint_with at 1 3. rewrite relint. reflexivity. Qed.

  (** C47.  GRB001 reports the interpolation commands that repeat the one before, where the end
      of a block aperture counts as a change. *)
  Theorem C47_reports_repeated_commands (f : list (node K)) ids report :
    (forall l, ids = Some l -> NoDup l) -> lint src f ids = Ok report -> active ids GRB001 ->
    of_rule GRB001 report
    = map (fun gp => at_place (lit "GRB001") (lit "Redundant " ++ written (fst gp) ++ lit " command.")
                       (src (snd gp))) (repeated f).
  Proof.
    intros ND E A. rewrite (proj1 (lint_of_rule src f ids report GRB001 ND E) A).
    change (new_rule GRB001) with (MkRule GRB001 None).
    rewrite solo_grb, grb_file. apply map_ext. intros [g p].
    assert (W : written g = qualname (KG g)) by (destruct g; reflexivity). cbn [fst]. rewrite W.
    unfold report_violation, at_place. destruct (src (snd (g, p))) as [[]|]; reflexivity.
  Qed.
End Props.

(** Deleting any of the reported commands leaves everything the state tracker does
    unchanged: the final state and every callback, for every subclass [H] (the compiler is
    one).  This needs that no program stop sits inside a step and repeat block, unless the
    tracker ends at program stops. *)
Theorem C47_reported_commands_are_redundant_partial {K} {NK : Num K} {X} (H : hooks K X) (x : X) ign
    (f : list (node K)) (sel : path -> bool) :
  ign = true \/ no_stop_in_step_repeat f ->
  (forall p, sel p = true -> In p (map snd (repeated f))) ->
  on_file H ign (prune_file sel f) (visitor_init x) = on_file H ign f (visitor_init x).
Proof.
  intros Hc Hs. apply (file_good H sel ign f Hc 0 None).
  - apply sel_ok; [apply file_paths|]. intros p Hp _. specialize (Hs p Hp).
    rewrite <- (grb_file f) in Hs. exact Hs.
  - split; [reflexivity|exact I].
Qed.

(** Every repeated command is a G01, G02 or G03 of the file. *)
Lemma repeats_in before l g p : In (g, p) (repeats before l) -> In (MInterp g, p) l.
Proof.
  revert before. induction l as [|[[h|] q] l IH]; intros before; cbn [repeats]; [intros []| |].
  - intros Hin. apply in_app_iff in Hin as [Hin|Hin]; [|right; exact (IH _ Hin)].
    left. destruct before as [[k|]|]; [|destruct Hin|destruct Hin].
    destruct (gcode_beq k h); [|destruct Hin]. destruct Hin as [E|[]]. congruence.
  - intros Hin. right. exact (IH _ Hin).
Qed.
Lemma marks_places {K} (n : node K) : forall p g q,
  In (MInterp g, q) (marks p n) -> interp g = true /\ In (q, NG g) (commands p n).
Proof.
  assert (HL : forall body : list (node K),
    Forall (fun n => forall p g q, In (MInterp g, q) (marks p n) -> interp g = true /\ In (q, NG g) (commands p n)) body ->
    forall p i g q, In (MInterp g, q) (marks_list p i body) -> interp g = true /\ In (q, NG g) (commands_list p i body)).
  { induction 1 as [|n' r Hn Hr IH]; intros p i g q Hin; [destruct Hin|].
    change (In (MInterp g, q) (marks (p ++ [i]) n' ++ marks_list p (S i) r)) in Hin.
    change (interp g = true /\ In (q, NG g) (commands (p ++ [i]) n' ++ commands_list p (S i) r)).
    rewrite in_app_iff in *. destruct Hin as [Hin|Hin].
    - destruct (Hn _ _ _ Hin). auto.
    - destruct (IH _ _ _ _ Hin). auto. }
  induction n as [id body Hb|u h body Hb|n Hl] using node_ind'; intros p g q Hin.
  - rewrite marks_AB in Hin. rewrite commands_AB. apply in_app_iff in Hin as [Hin|[E|[]]]; [|discriminate].
    destruct (HL body Hb _ _ _ _ Hin). split; [|right]; assumption.
  - rewrite marks_SR in Hin. rewrite commands_SR.
    destruct (HL body Hb _ _ _ _ Hin). split; [|right]; assumption.
  - destruct n; try contradiction; try destruct Hin. cbn [marks commands] in *.
    destruct (interp g0) eqn:Ei; [|destruct Hin]. destruct Hin as [E|[]]. injection E as <- <-.
    split; [exact Ei|left; reflexivity].
Qed.
Theorem C47_reported_are_interpolation_commands {K} (f : list (node K)) g p :
  In (g, p) (repeated f) -> (g = G01 \/ g = G02 \/ g = G03) /\ In (p, NG g) (all_commands f).
Proof.
  intros Hin. apply repeats_in in Hin.
  assert (HF : forall (l : list (node K)) q i, In (MInterp g, p) (marks_list q i l) ->
            interp g = true /\ In (p, NG g) (commands_list q i l)).
  { induction l as [|n r IH]; intros q i Hi; [destruct Hi|].
    change (In (MInterp g, p) (marks (q ++ [i]) n ++ marks_list q (S i) r)) in Hi.
    change (interp g = true /\ In (p, NG g) (commands (q ++ [i]) n ++ commands_list q (S i) r)).
    rewrite in_app_iff in *. destruct Hi as [Hi|Hi].
    - apply marks_places in Hi as []. auto.
    - apply IH in Hi as []. auto. }
  destruct (HF _ _ _ Hin) as [Hi Hc]. split; [|exact Hc]. destruct g; cbn in Hi; try discriminate; auto.
Qed.

(** Without the condition it is false: a program stop inside a step and repeat block makes the
    tracker skip the rest of the block, which the linter has still seen.  Here the reported
    G02 is the only one that is executed. *)
Local Existing Instance NumQ.
Definition stop_file : list (node Q) :=
  [NG G01; NSR 7 (MkSR None None None None) [NM02; NG G02]; NG G02; ND01 None None None None].
Theorem C47_redundant_refuted :
  ~ (forall (f : list (node Q)) (sel : path -> bool),
       (forall p, sel p = true -> In p (map snd (repeated f))) ->
       on_file recorder false (prune_file sel f) (visitor_init [])
       = on_file recorder false f (visitor_init [])).
Proof.
  intros Hall.
  specialize (Hall stop_file (fun p => match p with [2] => true | _ => false end)).
  assert (Hs : forall p, match p with [2] => true | _ => false end = true ->
             In p (map snd (repeated stop_file))).
  { intros [|[|[|[|n]]] [|m r]] E; try discriminate E. left. reflexivity. }
  specialize (Hall Hs).
  apply (f_equal (fun r => match r with
      | Ok v => match v_ext v with [CDraw HDrawLine _] => true | _ => false end
      | Err _ => false end)) in Hall.
  vm_compute in Hall. discriminate.
Qed.

Print Assumptions C46_deprecated_commands_reported.
Print Assumptions C46_only_active_rules_report.
Print Assumptions C46_lint_fails_only_for_unknown_rules.
Print Assumptions C46_linting_again.
Print Assumptions C47_reports_repeated_commands.
Print Assumptions C47_reported_commands_are_redundant_partial.
Print Assumptions C47_reported_are_interpolation_commands.
Print Assumptions C47_redundant_refuted.

(** A file with G54 at top level and in a block, repeated G01, and a block end in between. *)
Example lint_example :
  let f : list (node Q) :=
    [NG G54; NDnn (lit "D10"); NG G01; NAB (lit "D12") [NG G01; NG G54; NG G55]; NG G01; NG G01] in
  let src := fun p => match p with [0] => Some (MkSI 0 3 1 1) | [3; 2] => Some (MkSI 40 3 5 1)
                                 | [5] => Some (MkSI 60 4 9 1) | _ => None end in
  lint src f None
  = Ok [MkViol (lit "DEP001") (lit "Use of deprecated G54 code.") 0 3 1 1;
        MkViol (lit "GRB001") (lit "Redundant G01 command.") 0 0 0 0;
        MkViol (lit "DEP001") (lit "Use of deprecated G54 code.") 40 43 5 1;
        MkViol (lit "DEP002") (lit "Use of deprecated G55 code.") 0 0 0 0;
        MkViol (lit "GRB001") (lit "Redundant G01 command.") 60 64 9 1]
  /\ places G54 f = [[0]; [3; 2]] /\ repeated f = [(G01, [3; 1]); (G01, [5])]
  /\ prune_file (fun p => match p with [3; 1] | [5] => true | _ => false end) f
     = [NG G54; NDnn (lit "D10"); NG G01; NAB (lit "D12") [NG G54; NG G55]; NG G01].
Proof. repeat split. Qed.
Example lint_unknown : lint (K := Q) (fun _ => None) [NG G54] (Some [lit "DEP001"; lit "XYZ"]) = Err (lit "XYZ").
Proof. reflexivity. Qed.
Example lint_subset : lint (K := Q) (fun _ => None) [NG G54; NG G55; NG G01; NG G01] (Some [lit "DEP002"])
  = Ok [MkViol (lit "DEP002") (lit "Use of deprecated G55 code.") 0 0 0 0].
Proof. reflexivity. Qed.

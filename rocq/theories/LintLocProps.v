(** C73: the linter's report for a text. *)
From Verif Require Import Base Num CoordModel Ast GramAst PegModel GramModel LinkModel LocModel LocSpec LocProofs LocErase LocTiles LinterModel LinterSpec LintLocModel LintLocProofs.
From Verif Require GramNum PosModel LinterProps LocProps HashProps.
Local Open Scope nat_scope.

(** The complaint about a node: rule, message, where it begins and ends, line and column. *)
Definition complaint {K T} (s : str) (id message : str) (x : lnode K T) : violation :=
  let p := PosModel.source_position s (start_of x) in
  MkViol id message (Z.of_nat (start_of x)) (Z.of_nat (start_of x + length_of x)) (PosModel.ps_line p) (PosModel.ps_column p).

Section Props.
  Context {K T : Type} (rd : reader K T) (u : nat -> Z) (taf : ta K -> list str) (tff : tf T -> list str) (tof : to K -> list str).
  Notation lint_text := (lint_text rd u taf tff tof).

  Lemma commands_named (l : list (lnode K T)) : Forall is_command l -> named l (flat_map command_of l).
  Proof. induction 1 as [|[k loc len kids] l (c & Ec) _ IH]; [reflexivity|]. cbn [kind_of] in Ec. subst k. unfold named in *. cbn. f_equal. exact IH. Qed.

  (** The report has, for each rule asked for, the offending commands in the order of the text,
      each with the place where its text begins. *)
  Theorem C73_report : forall text ids report,
    (forall l, ids = Some l -> NoDup l) -> lint_text text ids = Ok report ->
    exists s l f, HashProps.untabbed text s /\ parse_located rd text = Ok (l, f) /\
      (active ids DEP001 -> of_rule DEP001 report = map (complaint s (lit "DEP001") (lit "Use of deprecated G54 code.")) (codes G54 l)) /\
      (active ids DEP002 -> of_rule DEP002 report = map (complaint s (lit "DEP002") (lit "Use of deprecated G55 code.")) (codes G55 l)) /\
      (active ids GRB001 -> of_rule GRB001 report =
         map (fun gx => complaint s (lit "GRB001") (lit "Redundant " ++ written (fst gx) ++ lit " command.") (snd gx)) (again None (flat_map turns l))) /\
      (forall v, In v report -> exists c, active ids c /\ vl_rule v = rule_id c).
  Proof.
    intros text ids report ND E. unfold LintLocModel.lint_text in E. destruct (parse_located rd text) as [[l [loc len]]|e] eqn:Ep; [|discriminate].
    set (s := expandtabs text) in *. set (ns := nodes u taf tff tof (flat_map command_of l)) in *.
    destruct (lint (source_info s l) ns ids) as [r|id] eqn:El; [|discriminate]. injection E as <-.
    destruct (read_tiles _ _ _ _ _ _ (root_ok rd) Ep) as (HC & HT & _).
    pose proof (tiles_sound _ _ _ HT) as Hs. pose proof (commands_named l HC) as Hn.
    assert (F : finds (node_at l) [] 0 l) by (intros j x q Hj; cbn; rewrite Hj; reflexivity).
    assert (D : forall id t (x : lnode K T), LinterSpec.at_place id t (option_map (info s) (Some x)) = complaint s id t x).
    { intros id t x. cbn. unfold complaint, info. rewrite Nat2Z.inj_add. reflexivity. }
    assert (P : forall g id t, map (fun p => LinterSpec.at_place id t (source_info s l p)) (LinterSpec.places g ns) = map (complaint s id t) (codes g l)).
    { intros g id t. unfold codes. pose proof (hits_list u taf tff tof l ltac:(apply Forall_forall; intros; apply all_hits) Hs _ 0 (node_at l) [] 0 g Hn F) as H.
      fold ns in H. change (hits (node_at l) g (all_commands ns) = map Some (codes g l)) in H. fold (codes g l).
      transitivity (map (fun o => LinterSpec.at_place id t (option_map (info s) o)) (map Some (codes g l))); [|rewrite map_map; apply map_ext; intros; apply D].
      rewrite <- H. unfold hits, LinterSpec.places. rewrite !map_map. reflexivity. }
    exists s, l, (loc, len). split; [apply HashProps.C68_tabs; reflexivity|]. split; [reflexivity|].
    destruct (LinterProps.C46_deprecated_commands_reported _ ns ids r ND El) as [R1 R2]. split; [|split; [|split]].
    - intros A. rewrite (R1 A). apply P.
    - intros A. rewrite (R2 A). apply P.
    - intros A. rewrite (LinterProps.C47_reports_repeated_commands _ ns ids r ND El A).
      pose proof (marks_all u taf tff tof l ltac:(apply Forall_forall; intros; apply all_marks) Hs _ 0 (node_at l) [] 0 Hn F) as H. fold ns in H.
      apply (repeats_again (node_at l) _ _ None) in H. cbn [prior] in H. change (map (fun gp => (fst gp, node_at l (snd gp))) (repeated ns) = map (fun gx => (fst gx, Some (snd gx))) (again None (flat_map turns l))) in H.
      transitivity (map (fun gx => LinterSpec.at_place (lit "GRB001") (lit "Redundant " ++ written (fst gx) ++ lit " command.") (option_map (info s) (snd gx)))
        (map (fun gp => (fst gp, node_at l (snd gp))) (repeated ns))); [rewrite map_map; reflexivity|].
      rewrite H, map_map. apply map_ext. intros [g x]. apply D.
    - intros v. exact (LinterProps.C46_only_active_rules_report _ ns ids r v ND El).
  Qed.
  (** There is a report unless the text cannot be read or an unknown rule is asked for. *)
  Theorem C73_fails : forall text ids,
    (exists report, lint_text text ids = Ok report) <->
    (exists cs, GramModel.parse rd text = Ok cs) /\ (forall l id, ids = Some l -> In id l -> exists c, id = rule_id c).
  Proof.
    intros text ids. pose proof (LocProps.C72_same rd text) as [Hs _]. unfold LintLocModel.lint_text. split.
    - intros (report & E). destruct (parse_located rd text) as [[l f]|] eqn:Ep; [|discriminate]. split.
      + exists (flat_map command_of l). apply Hs. exists l, f. split; [reflexivity|]. apply commands_named. destruct f as [loc len]. exact (proj1 (read_tiles _ _ _ _ _ _ (root_ok rd) Ep)).
      + destruct (lint _ _ ids) as [r|] eqn:El; [|discriminate]. apply (LinterProps.C46_lint_fails_only_for_unknown_rules (source_info (expandtabs text) l) (nodes u taf tff tof (flat_map command_of l))). eauto.
    - intros ((cs & Ec) & Hk). apply Hs in Ec as (l & f & -> & _).
      apply (LinterProps.C46_lint_fails_only_for_unknown_rules (source_info (expandtabs text) l) (nodes u taf tff tof (flat_map command_of l))) in Hk as (r & ->). eauto.
  Qed.
End Props.

Notation lintQ t ids := (lint_text (K := Q) (T := str) GramNum.q_reader (fun n => Z.of_nat n) (fun _ => []) (fun _ => []) (fun _ => []) (lit t) ids).
Definition spots (r : result lerr (list violation)) : option (list (Z * Z * Z * str)) :=
  match r with Ok l => Some (map (fun v => (vl_line v, vl_column v, vl_end v, vl_rule v)) l) | Err _ => None end.
Example C73_ex : spots (lintQ ("G54D10*" ++ LocProps.lf ++ "%ABD12*%" ++ LocProps.lf ++ "  G01*G01* X1D01*" ++ LocProps.lf ++ "%AB*%" ++ LocProps.lf ++ "G01*G55*" ++ LocProps.lf) None) =
    Some [(1, 1, 3, lit "DEP001"); (3, 7, 27, lit "GRB001"); (5, 5, 49, lit "DEP002")]%Z /\
  spots (lintQ "G54D10*" (Some [lit "DEP002"])) = Some [] /\ spots (lintQ "G54D10*" (Some [lit "DEP009"])) = None /\ spots (lintQ "G54D1" None) = None.
Proof. vm_compute. auto. Qed.

Print Assumptions C73_report.
Print Assumptions C73_fails.

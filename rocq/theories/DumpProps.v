(** C76: the text a builder writes is read back as what was asked for. *)
From Verif Require Import Base Num Dict CoordModel Ast ExprModel StateModel GbModel GbSpec GbRead GbProps.
From Verif Require GramAst GramModel.
From Verif Require Import FmtModel GramNum GramProps GramTok LinkModel DumpModel DumpSpec DumpProofs DumpRead.
Local Existing Instance NumQ.
Local Open Scope Q_scope.
Notation parse := (GramModel.parse q_reader).

(** Full statement of C76: for every sequence of calls of a builder, parsing the text written by
    [dumps] gives the commands collected by the builder, and visiting them draws what was asked
    for.  Missing: numbers Python writes with an exponent and texts of custom attributes with the
    characters that end them ([C76_exponent_refuted], [C76_attribute_refuted]), and what is
    missing from C38. *)
Theorem C76_read_back_partial :
  forall cs, Forall legal cs -> parse (dumps (build cs)) = Ok (map sign_cmd (get_file (build cs))).
Proof. intros cs H. apply dumps_read, build_fine, H. Qed.
Print Assumptions C76_read_back_partial.

(** Whatever identities and texts of attributes the nodes get. *)
Theorem C76_drawn_partial :
  forall cs b u fa ff fo, let h := happened cs gb_init [] in
    Forall legal cs -> clean cs gb_init -> regions_left_alone h ->
    exists f v, parse (dumps (build cs)) = Ok f /\
      on_file recorder b (nodes u fa ff fo f) (visitor_init []) = Ok v /\
      drawn h (slip None PmLinear (wishes h)) (v_ext v).
Proof.
  intros cs b u fa ff fo h HL HC HR. destruct (read_back cs b HC HR) as (v & E & D).
  exact (read_drawn _ b v h _ u fa ff fo (build_fine cs HL) E D).
Qed.
Print Assumptions C76_drawn_partial.

(** A pad of a hundredth of a micrometre: the text of its diameter has an exponent. *)
Theorem C76_exponent_refuted :
  exists cs, clean cs gb_init /\ parse (dumps (build cs)) = Err GramModel.ESyntax.
Proof. exists [NewCircle (1#100000) None]. split; [vm_compute; repeat split|vm_compute; reflexivity]. Qed.
(** A comma in a value of a custom attribute: one value is read as two. *)
Theorem C76_attribute_refuted :
  exists cs, clean cs gb_init /\ parse (dumps (build cs)) <> Ok (map sign_cmd (get_file (build cs))) /\
    exists f, parse (dumps (build cs)) = Ok f /\ In (GramAst.CTA (GramAst.TAUser (lit "Size") [lit "1"; lit "2"])) f.
Proof.
  exists [NewCircle 1 None; SetCustom 0 (lit "Size") [lit "1,2"]]. split; [vm_compute; repeat split|].
  split; [vm_compute; discriminate|]. eexists. split; [vm_compute; reflexivity|]. cbn. auto.
Qed.

(** ** Cases *)
(** Decimals with at most nine digits behind the point. *)
Definition goodb (q : Q) : bool :=
  let n := Qred (q * inject_Z (10 ^ 9)) in
  (Z.eqb (Qnum (Qred q)) (Qnum q) && Pos.eqb (Qden (Qred q)) (Qden q) && Pos.eqb (Qden n) 1 &&
   (Qeq_bool q 0 || (Qle_bool (1#10000) (Qabs.Qabs q) && negb (Qle_bool (inject_Z (10 ^ 16)) (Qabs.Qabs q)))))%bool.
Lemma good_check q : goodb q = true -> good q.
Proof.
  unfold goodb. intros H. apply andb_prop in H as [H H4]. apply andb_prop in H as [H H3]. apply andb_prop in H as [H1 H2].
  apply Z.eqb_eq in H1. apply Pos.eqb_eq in H2. apply Pos.eqb_eq in H3. split; [|split].
  - destruct (Qred q), q. cbn in *. congruence.
  - exists (Qnum (Qred (q * inject_Z (10 ^ 9)))), 9%nat.
    assert (E : q * inject_Z (10 ^ 9) == inject_Z (Qnum (Qred (q * inject_Z (10 ^ 9))))).
    { rewrite <- (Qred_correct (q * inject_Z (10 ^ 9))) at 1. destruct (Qred (q * inject_Z (10 ^ 9))) as [a b]. cbn in H3 |- *. subst b. reflexivity. }
    change (10 ^ Z.of_nat 9)%Z with (10 ^ 9)%Z. rewrite <- E. rewrite Qdiv_mult_l; [reflexivity|discriminate].
  - apply orb_prop in H4 as [H4|H4]; [left; apply Qeq_bool_iff, H4|]. right. apply andb_prop in H4 as [A B]. split; [apply Qle_bool_iff, A|].
    apply Bool.negb_true_iff in B. destruct (Qlt_le_dec (Qabs.Qabs q) (inject_Z (10 ^ 16))) as [L|L]; [exact L|]. apply Qle_bool_iff in L. congruence.
Qed.
Lemma all_good l : forallb goodb l = true -> Forall good l.
Proof. intros H. apply Forall_forall. intros q Hq. rewrite forallb_forall in H. apply good_check, H, Hq. Qed.

Definition lines (l : list string) : str := flat_map (fun t => lit t ++ [ascii_of_nat 10]) l.
Example C76_sample_legal : Forall legal sample.
Proof.
  unfold sample. repeat (apply Forall_cons; [split; [apply all_good; vm_compute; reflexivity|first [exact I|vm_compute; tauto]]|]). apply Forall_nil.
Qed.
Example C76_sample_text : dumps (build sample) = lines
  ["%FSLAX46Y46*%"; "%MOMM*%"; "%AMM0*"; "1,1.0,1.0,0.0,0.0,0.0*"; "4,1.0,3.0,0.0,1.0,0.0,0.0,1.0,0.0,0.0,1.0,30.0*%";
   "%TA.AperFunction,ViaPad*%"; "%ADD10C,1.5X0.5*%"; "%TD*%"; "%ADD11M0*%"; "%ADD12C,0.1*%"; "%ADD13C,1.0*%"; "%ADD14C,0.2*%"; "G75*";
   "D10*"; "X1000000Y2000000D03*"; "D11*"; "%LPC*%"; "%LR45.0*%"; "%LMX*%"; "%LS2.0*%"; "X3000000Y-2500000D03*"; "D12*"; "%LPD*%"; "%LR0.0*%";
   "%LMN*%"; "%LS1.0*%"; "G01*"; "X1000000Y2000000D02*"; "X4000000Y4000000D01*"; "G02*"; "X3000000Y-2500000I-4000000J-4000000D01*"; "D10*";
   "%LR90.0*%"; "%LMY*%"; "X3000000Y-2500000D03*"; "D13*"; "%LR0.0*%"; "%LMN*%"; "G36*"; "X0Y0D02*"; "G01*"; "X2000000Y0D01*"; "G03*";
   "X2000000Y2000000I0J1000000D01*"; "G01*"; "X0Y2000000D01*"; "X0Y0D01*"; "G37*"; "X0Y0D02*"; "D14*"; "G01*"; "X9999000000Y0D01*"; "M02*"]%string.
Proof. vm_compute. reflexivity. Qed.
(** A thermal with a negative coordinate, and all three kinds of attributes. *)
Definition negative : list bcall :=
  [NewCustom; AddFigure 0 (FgThermal (-(3#2), 0) 4 3 (1#2) (-45)); CreateCustom 0; NewRectangle 1 (1#4) None; SetDrill 3 (1#10) (1#20);
   SetCustom 3 (lit "Grade") [lit "A"; lit "-1"]; AddPad 2 (At (0, -(1#3))) false 0 false false 1].
Example C76_negative_legal : Forall legal negative.
Proof.
  unfold negative. repeat (apply Forall_cons; [split; [apply all_good; vm_compute; reflexivity|]|]); try exact I; [|apply Forall_nil].
  split; [exists "G"%char, (lit "rade"); repeat split|]. repeat constructor.
Qed.
Example C76_negative_read :
  parse (dumps (build negative)) = Ok (map sign_cmd (get_file (build negative))) /\
  dumps (build negative) = lines
    ["%FSLAX46Y46*%"; "%MOMM*%"; "%AMM0*"; "7,-1.5,0.0,4.0,3.0,0.5,-45.0*%"; "%ADD10M0*%"; "%TA.DrillTolerance,0.1,0.05*%"; "%TAGrade,A,-1*%";
     "%ADD11R,1.0X0.25*%"; "%TD*%"; "G75*"; "D10*"; "X0Y-333333D03*"; "M02*"]%string.
Proof. split; [apply C76_read_back_partial, C76_negative_legal|vm_compute; reflexivity]. Qed.
Example C76_sample_drawn : exists f v, parse (dumps (build sample)) = Ok f /\
  on_file recorder true (nodes (fun _ => 5%Z) (fun _ => []) (fun _ => []) (fun _ => []) f) (visitor_init []) = Ok v /\
  drawn (happened sample gb_init []) (wishes (happened sample gb_init [])) (v_ext v).
Proof.
  destruct C38_sample as (H1 & H2 & H3 & _).
  destruct (C76_drawn_partial sample true (fun _ => 5%Z) (fun _ => []) (fun _ => []) (fun _ => []) C76_sample_legal H1 H2) as (f & v & E1 & E2 & D).
  exists f, v. split; [exact E1|]. split; [exact E2|]. unfold in_step in H3. rewrite H3 in D. exact D.
Qed.

(** Property theorems C66: the resilient parser of the language server. *)
From Verif Require Import Base Num CoordModel Ast GramAst PegModel GramModel GramText GramNum GramPieces ResModel ResSpec ResProofs.
Local Open Scope nat_scope.

(** On files the strict parser reads, both give the same; and the resilient parser reports
    nothing invalid on no other files. *)
Theorem C66_same_as_strict : forall K T (rd : reader K T) text l,
  parse rd text = Ok l <-> parse_resilient rd text = Ok (map Parsed l).
Proof. intros. apply strict_resilient. Qed.

(** The whole text is accounted for: it is cut into commands and unreadable rests of lines.
    [n] is the fuel of [parse_resilient]. *)
Theorem C66_pieces : forall K T (rd : reader K T) text l,
  parse_resilient rd text = Ok l ->
  let n := S (length (expandtabs text)) in
  exists ps, concat (map snd ps) = l /\
    cut (fun t ns after =>
      (exists cs, ns = map Parsed cs /\ root_item rd n (t ++ after) = POk cs after) \/
      (ns = [Invalid t] /\ root_item rd n (t ++ after) = PFail /\ rest_of_line t after)) (expandtabs text) ps.
Proof. intros K T rd text l H n. destruct (resilient_pieces rd text l H) as (ps & P1 & P2). exists ps. split; [exact P2|exact P1]. Qed.

(** It accepts every text that is not blank, unless the value of an attribute is rejected.
    Full statement: every text is accepted. *)
Theorem C66_accepts_partial : forall K T (rd : reader K T) text,
  (exists l, parse_resilient rd text = Ok l) \/ ws text \/ parse_resilient rd text = Err (EOther EValidation).
Proof.
  intros K T rd text. pose proof (resilient_total rd text) as H. destruct (parse_resilient rd text) as [l|[|e]].
  - left. eauto.
  - right. left. clear -H. unfold expandtabs in H. generalize dependent 0. induction text as [|c s IH]; intros col H; [reflexivity|]. cbn [expand] in H.
    destruct (Ascii.eqb c "009") eqn:E1.
    + apply Ascii.eqb_eq in E1 as ->. rewrite skip_ws in H by (apply all_repeat; reflexivity). apply all_cons. split; [reflexivity|]. exact (IH _ H).
    + assert (Hc : is_ws c = true /\ exists k, skip (expand k s) = []).
      { destruct (Ascii.eqb c "010" || Ascii.eqb c "013"); cbn [skip] in H; (destruct (is_ws c); [split; [reflexivity|eauto]|discriminate]). }
      destruct Hc as [Hc (k & Hk)]. apply all_cons. split; [exact Hc|exact (IH _ Hk)].
  - right. right. rewrite H. reflexivity.
Qed.

(** An empty document, and one with a wrong attribute value besides other commands. *)
Theorem C66_accepts_refuted :
  parse_resilient q_reader (lit "") = Err ESyntax /\
  parse_resilient q_reader (lit "G04 a*%TF.MD5,12*%M02*") = Err (EOther EValidation).
Proof. split; vm_compute; reflexivity. Qed.

(** Only the broken line is lost. *)
Example C66_case :
  parse_resilient q_reader (lit "G01*" ++ "010"%char :: lit "D1" ++ "010"%char :: lit "M02*") =
  Ok [Parsed (CG true G01); Invalid (lit "D1"); Parsed CM02].
Proof. vm_compute. reflexivity. Qed.
(** Commands behind the mistake on the same line are lost, too. *)
Example C66_case_line :
  parse_resilient q_reader (lit "D1 G01*" ++ "010"%char :: lit "M02*") = Ok [Invalid (lit "D1 G01*"); Parsed CM02].
Proof. vm_compute. reflexivity. Qed.
Print Assumptions C66_same_as_strict. Print Assumptions C66_pieces. Print Assumptions C66_accepts_partial. Print Assumptions C66_accepts_refuted.

(** Property theorems C66, continued: what an unreadable line costs. *)
From Verif Require Import Base Num CoordModel Ast GramAst PegModel GramModel GramText GramNum ResModel ResSpec ResProofs LenModel LenSpec LenProofs ResLine.

(** A text behind a file is read as if it stood alone. *)
Theorem C66_concat : forall K T (rd : reader K T) a b la, fits a b -> parse rd a = Ok la ->
  (blank b -> parse_resilient rd (a ++ b) = Ok (map Parsed la)) /\
  (~ blank b -> parse_resilient rd (a ++ b) = match parse_resilient rd b with Ok lb => Ok (map Parsed la ++ lb) | Err e => Err e end).
Proof. intros K T rd. apply resilient_cat. Qed.

(** A line where no command begins costs that line and nothing else.  [parse_lenient] fails with
    [ESyntax] where no beginning of the text is a file ([C89_longest]). *)
Theorem C66_line : forall K T (rd : reader K T) t b,
  ~ In "010"%char t -> ~ In "009"%char t -> t <> [] -> ~ blank (firstn 1 t) ->
  parse_lenient rd (t ++ "010"%char :: b) = Err ESyntax ->
  (blank b -> parse_resilient rd (t ++ "010"%char :: b) = Ok [Invalid t]) /\
  (~ blank b -> parse_resilient rd (t ++ "010"%char :: b) = match parse_resilient rd b with Ok lb => Ok (Invalid t :: lb) | Err e => Err e end).
Proof.
  intros K T rd t b H1 H2 H3 H4. apply resilient_line; auto. destruct t as [|c t]; [congruence|]. cbn in H4 |- *.
  rewrite blank_ws in H4. unfold ws, all in H4. cbn in H4. destruct (is_ws c); [destruct (H4 eq_refl)|reflexivity].
Qed.

(** So one unreadable line between two readable parts of a file is all that is reported. *)
Theorem C66_one_line : forall K T (rd : reader K T) a t b la lb,
  parse rd a = Ok la -> parse rd b = Ok lb -> fits a (t ++ "010"%char :: b) ->
  ~ In "010"%char t -> ~ In "009"%char t -> t <> [] -> ~ blank (firstn 1 t) ->
  parse_lenient rd (t ++ "010"%char :: b) = Err ESyntax ->
  parse_resilient rd (a ++ t ++ "010"%char :: b) = Ok (map Parsed la ++ Invalid t :: map Parsed lb).
Proof.
  intros K T rd a t b la lb Ha Hb Hf H1 H2 H3 H4 H5. destruct (C66_concat K T rd a _ la Hf Ha) as [_ C].
  assert (Bl : ~ blank b).
  { intros B. rewrite parse_run in Hb.
    rewrite (run_nil rd (expandtabs b)) in Hb by (apply expand_blank, blank_ws, B). discriminate. }
  rewrite C.
  - destruct (C66_line K T rd t b H1 H2 H3 H4 H5) as [_ L]. rewrite (L Bl). rewrite (proj1 (strict_resilient rd b lb) Hb). reflexivity.
  - intros B. apply H4. destruct t as [|c t]; [congruence|]. cbn in *. inversion B; subst. constructor; [assumption|constructor].
Qed.

(** Inside a block it is not so: the lines that open and close the block are reported, too, and
    its commands are given outside of any block. *)
Definition lf : str := ["010"%char].
Theorem C66_line_in_block_refuted :
  parse q_reader (lit "%ABD10*%" ++ lf ++ lit "X1D03*" ++ lf ++ lit "%AB*%" ++ lf ++ lit "M02*") = Ok [CAB (lit "D10") [CD03 true (Some (lit "1")) None]; CM02] /\
  parse_resilient q_reader (lit "%ABD10*%" ++ lf ++ lit "?" ++ lf ++ lit "X1D03*" ++ lf ++ lit "%AB*%" ++ lf ++ lit "M02*") =
    Ok [Invalid (lit "%ABD10*%"); Invalid (lit "?"); Parsed (CD03 true (Some (lit "1")) None); Invalid (lit "%AB*%"); Parsed CM02].
Proof. split; vm_compute; reflexivity. Qed.

(** The rest of a line behind a command is reported from where it becomes unreadable. *)
Example C66_case_one_line :
  let a := lit "%MOMM*%G01*" in let t := lit "X1Y2Z3D01*M02*" in let b := lit "D10*X5D03*" in
  fits a (t ++ "010"%char :: b) /\ parse_lenient q_reader (t ++ "010"%char :: b) = Err ESyntax /\
  parse_resilient q_reader (a ++ t ++ "010"%char :: b) =
    Ok [Parsed (CMO Metric); Parsed (CG true G01); Invalid t; Parsed (CDnn true (lit "D10")); Parsed (CD03 true (Some (lit "5")) None)].
Proof. split; [left; cbn; intuition discriminate|]. split; vm_compute; reflexivity. Qed.
(** What looks unreadable may be the beginning of a command that ends on the next line. *)
Example C66_case_two_lines : parse_resilient q_reader (lit "X1" ++ lf ++ lit "Y2D01*") = Ok [Parsed (CD01 true (Some (lit "1")) (Some (lit "2")) None None)].
Proof. vm_compute. reflexivity. Qed.
Print Assumptions C66_concat. Print Assumptions C66_line. Print Assumptions C66_one_line. Print Assumptions C66_line_in_block_refuted.

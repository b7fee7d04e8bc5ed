(** C41 and C42: macro expressions through the formatter and back. *)
From Verif Require Import Base Num CoordModel Dict Ast GramAst PegModel GramModel FmtModel GramText GramExpr
  GramExprRt GramExprSpec StateModel ExprSpec ExprModel GramExplicit NumTextModel NumTextProofs GramNum.
From Coq Require Import Qabs.
Local Open Scope nat_scope.

(** Full statement of C41: an expression obtained from the parser is written as a text from which
    the parser obtains the same expression again, whatever follows that can follow an expression.
    For any numbers, as long as the text written for each number of the expression is read back as
    that number. *)
Theorem C41_round_trip_partial : forall K T (rd : reader K T) (w : writer K T) o n s e r,
  notab s -> length s < n -> expr_p rd n s = POk e r ->
  f_explicit o = false ->
  (forall k, number_in k e -> survives rd w k) ->
  forall m rest, length (fmt_expr w o e) < m -> follow 6 rest ->
  expr_p rd m (fmt_expr w o e ++ rest) = POk e rest.
Proof.
  intros K T rd w o n s e r Ht Hn Hp Ho Hk m rest Hm Hf. apply expr_reads_back; auto.
  eapply shape_numbers; [|exact Hk]. exact (parsed_shape rd n s e r Ht Hn Hp).
Qed.

(** With exact numbers: those of the expression need a decimal text with the chosen options, that
    is they are multiples of [10^-places], or, with shortest digits, 0 or between 10^-4 and 10^16. *)
Theorem C41_exact_round_trip_partial : forall places trim o n s e r,
  notab s -> length s < n -> expr_p q_reader n s = POk e r ->
  f_explicit o = false ->
  (forall q, number_in q e ->
     ((1 <= places)%Z /\ exists z, (q == inject_Z z / inject_Z (10 ^ places))%Q) \/
     ((places < 0)%Z /\ (q == 0 \/ (1 # 10000) <= q /\ q < inject_Z (10 ^ 16))%Q)) ->
  let t := fmt_expr (q_writer places trim) o e in
  forall m rest, length t < m -> follow 6 rest -> expr_p q_reader m (t ++ rest) = POk e rest.
Proof.
  intros places trim o n s e r Ht Hn Hp Ho Hk t m rest Hm Hf. apply expr_reads_back; auto.
  pose proof (parsed_shape q_reader n s e r Ht Hn Hp) as Hs. eapply shape_numbers; [exact Hs|].
  intros k Hk'. pose proof (shape_number _ _ _ Hs k Hk') as C.
  apply const_ok_survives; [exact C|]. destruct C as (u & Hu & Hm' & ->).
  destruct (read_facts u Hu) as (_ & F2 & F3). specialize (F3 Hm'). cbn [q_reader r_num] in *.
  destruct (Hk _ Hk') as [[H1 H2]|[H1 H2]]; [left; auto|right]. split; [exact H1|]. split; [exact F2|].
  unfold repr_range. rewrite Qabs_pos by exact F3. exact H2.
Qed.

Definition plain_options : settings :=
  MkSettings [] [] NoSplit false [] [] [] [] [] [] [] true false false false.
Definition explicit_options : settings :=
  MkSettings [] [] NoSplit false [] [] [] [] [] [] [] true false false true.

(** Without that condition: 0.00001 is written 1e-05 and read as 1. *)
Theorem C41_round_trip_refuted : exists s e,
  expr_p q_reader 20 s = POk e [] /\
  expr_p q_reader 20 (fmt_expr (q_writer (-1) TrimYes) plain_options e) = POk (EConst 1%Q) (lit "e-05").
Proof. exists (lit "0.00001"), (EConst (1 # 100000)). vm_compute. split; reflexivity. Qed.

Example C41_ex : exists e,
  expr_p q_reader 40 (lit "-($1+2X0.5)/$2-+3") = POk e [] /\
  fmt_expr (q_writer (-1) TrimYes) plain_options e = lit "-($1+2.0x0.5)/$2-+3.0" /\
  expr_p q_reader 40 (lit "-($1+2.0x0.5)/$2-+3.0") = POk e [].
Proof. eexists. do 2 (split; [vm_compute; reflexivity|]). vm_compute; reflexivity. Qed.

(** Full statement of C42: whatever the option [explicit_parenthesis], an expression obtained from
    the parser is written as a text from which the parser obtains an expression with the same value,
    or the same failure, in every scope.
    It holds when no minus sign stands in front of a plus sign. *)
Theorem C42_same_value_partial : forall K T {NK : Num K} (rd : reader K T) (w : writer K T) o n s e r,
  notab s -> length s < n -> expr_p rd n s = POk e r ->
  (forall k, number_in k e -> survives rd w k) ->
  (f_explicit o = true -> signs_apart e) ->
  forall m rest, length (fmt_expr w o e) < m -> follow 6 rest ->
  exists e', expr_p rd m (fmt_expr w o e ++ rest) = POk e' rest /\
    meaning e' = meaning e /\ forall scope, eval scope e' = eval scope e.
Proof.
  intros K T NK rd w o n s e r Ht Hn Hp Hk Ha m rest Hm Hf.
  destruct (written_reads w rd o e m rest) as (e' & H1 & H2 & _); auto.
  - eapply shape_numbers; [|exact Hk]. exact (parsed_shape rd n s e r Ht Hn Hp).
  - exists e'. split; [exact H1|]. split; [exact H2|]. intros scope. apply meaning_eval. exact H2.
Qed.

(** [-(+$1)] is written [-+$1], which is no expression. *)
Theorem C42_same_value_refuted : exists e,
  expr_p q_reader 20 (lit "-(+$1)") = POk e [] /\
  fmt_expr (q_writer (-1) TrimYes) explicit_options e = lit "-+$1" /\
  expr_p q_reader 20 (lit "-+$1") = PFail.
Proof. eexists. do 2 (split; [vm_compute; reflexivity|]). vm_compute; reflexivity. Qed.

Example C42_ex : exists e e',
  expr_p q_reader 30 (lit "-$1+2X0.5") = POk e [] /\ signs_apart e /\
  fmt_expr (q_writer (-1) TrimYes) explicit_options e = lit "(-$1+(2.0x0.5))" /\
  expr_p q_reader 30 (lit "(-$1+(2.0x0.5))") = POk e' [] /\ e <> e' /\ meaning e' = meaning e.
Proof.
  do 2 eexists. split; [vm_compute; reflexivity|]. split.
  - apply sa_add. intros x [<-|[<-|[]]].
    + apply sa_neg; [apply sa_var|intros H; inversion H].
    + apply sa_mul. intros x [<-|[<-|[]]]; apply sa_const.
  - split; [vm_compute; reflexivity|]. split; [vm_compute; reflexivity|]. split; [discriminate|vm_compute; reflexivity].
Qed.

Print Assumptions C41_round_trip_partial.
Print Assumptions C41_exact_round_trip_partial.
Print Assumptions C41_round_trip_refuted.
Print Assumptions C42_same_value_partial.
Print Assumptions C42_same_value_refuted.

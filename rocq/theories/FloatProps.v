(** C79: numbers in double precision. *)
From Verif Require Import Base Num CoordModel CoordSpec CoordProofs Ast GramAst PegModel GramModel FmtModel GramText GramExpr
  GramExprRt GramExprSpec NumTextModel NumTextSpec NumTextProofs GramNum GramTok GramWf GramFileSpec GramPieces GramExact GramProps
  FloatModel FloatSpec FloatProofs FloatFile.
From Coq Require Import Qabs Lqa Qpower.
Local Open Scope Z_scope.

(** Reading a number gives the nearest double, of two equally near ones the even one. *)
Theorem C79_nearest : forall q,
  nearest q (double q) /\
  forall g, is_double g -> (Qabs (q - g) == Qabs (q - double q))%Q -> ~ (g == double q)%Q -> even_double (double q).
Proof. intros q. split; [apply nearest_double|]. intros g. apply double_even. Qed.

(** Full statement of C79: the rounding of numbers to doubles changes no coordinate, and formatting a
    file of doubles and parsing it again gives the same doubles.
    Coordinates of up to 15 digits: what is packed from the double is what would be packed from the
    exact value, so the text stands for the same number again. *)
Theorem C79_coordinates_partial : forall z i d s q f,
  (1 <= i)%nat -> (1 <= d)%nat -> (i + d <= 15)%nat ->
  unpack z i d s = Ok q -> nearest q f ->
  exists s' q', pack z i d f = Ok s' /\ pack z i d q = Ok s' /\ unpack z i d s' = Ok q' /\ (q' == q)%Q.
Proof.
  intros z i d s q f Hi Hd Hs Hu Hn.
  assert (F : exists n, Z.abs n < 10 ^ Z.of_nat (i + d) /\ (q == inject_Z n / inject_Z (10 ^ Z.of_nat d))%Q).
  { apply unpack_range in Hu. exact Hu. }
  destruct F as (n & Bn & Eq).
  destruct (roundtrip_lemma z i d n Hi Hd Bn q Eq) as (s' & q' & P & U & E).
  exists s', q'. split; [|auto]. rewrite <- P. apply pack_same.
  destruct (decimal_double q f n d Eq) as (A & B & C); [|lia|exact Hn|apply fixed_same; congruence].
  eapply Z.lt_le_trans; [exact Bn|]. apply Z.pow_le_mono_r; lia.
Qed.

(** The double of an unpacked coordinate, which is what the program has. *)
Theorem C79_unpacked_partial : forall z i d s f,
  (1 <= i)%nat -> (1 <= d)%nat -> (i + d <= 15)%nat ->
  unpack_double z i d s = Ok f ->
  exists s', pack z i d f = Ok s' /\ unpack_double z i d s' = Ok f.
Proof.
  intros z i d s f Hi Hd Hs H. unfold unpack_double in H. destruct (unpack z i d s) as [q|e] eqn:E; [|discriminate].
  cbn [bind] in H. injection H as <-.
  destruct (C79_coordinates_partial z i d s q (double q) Hi Hd Hs E (nearest_double q)) as (s' & q' & A & _ & B & C).
  exists s'. split; [exact A|]. unfold unpack_double. rewrite B. cbn [bind]. rewrite (double_morph _ _ C). reflexivity.
Qed.

(** Different coordinates stay different. *)
Theorem C79_distinct_partial : forall z i d s q t r f,
  (1 <= i)%nat -> (1 <= d)%nat -> (i + d <= 15)%nat ->
  unpack z i d s = Ok q -> unpack z i d t = Ok r -> nearest q f -> nearest r f -> (q == r)%Q.
Proof.
  intros z i d s q t r f Hi Hd Hs Hq Hr N1 N2.
  destruct (C79_coordinates_partial z i d s q f Hi Hd Hs Hq N1) as (s1 & q1 & A1 & _ & B1 & C1).
  destruct (C79_coordinates_partial z i d t r f Hi Hd Hs Hr N2) as (s2 & q2 & A2 & _ & B2 & C2).
  assert (s1 = s2) as <- by congruence. assert (q1 = q2) as <- by congruence. rewrite <- C1. exact C2.
Qed.

(** With 16 digits neither is true: the format X97Y97, which the grammar accepts. *)
Theorem C79_sixteen_digits_refuted : exists s q f s' q',
  unpack SkipLeading 9 7 s = Ok q /\ f = double q /\ nearest q f /\
  pack SkipLeading 9 7 f = Ok s' /\ unpack SkipLeading 9 7 s' = Ok q' /\ s' <> s /\ ~ (q' == q)%Q /\ nearest q' f.
Proof.
  exists (lit "9900000000000003"). eexists. eexists. exists (lit "9900000000000004"). eexists.
  split; [vm_compute; reflexivity|]. split; [reflexivity|]. split; [apply nearest_double|].
  split; [vm_compute; reflexivity|]. split; [vm_compute; reflexivity|]. split; [discriminate|]. split; [vm_compute; discriminate|].
  match goal with |- nearest ?a ?b => replace b with (double a) by (vm_compute; reflexivity) end. apply nearest_double.
Qed.

(** The text of a double: a decimal which is nearest to it again. *)
Theorem C79_text : forall f,
  is_double f -> (1 # 10000 <= Qabs f)%Q -> (Qabs f < inject_Z (10 ^ 16))%Q ->
  exists t, DecimalText (double_str f) t /\ nearest t f /\ (double t == f)%Q.
Proof.
  intros f D A B. destruct (shortest_spec f D (conj A B)) as (S1 & S2 & S3). exists (shortest f).
  assert (N : ~ (f == 0)%Q) by (intros E; rewrite E in A; apply A; reflexivity).
  assert (T : double_str f = q_str (shortest f)).
  { unfold double_str. destruct (Qeq_bool f 0) eqn:Z; [apply Qeq_bool_iff in Z; contradiction|reflexivity]. }
  split; [|split; [|exact S3]].
  - rewrite T. destruct (qstr_parts (shortest f) S1 (or_intror S2)) as (i & r & P & V).
    eapply decimal_morph; [exact V|apply parts_decimal, P].
  - eapply nearest_morph; [reflexivity|exact S3|apply nearest_double].
Qed.

(** Whole files. *)
Theorem C79_file_partial : forall places trim op text f,
  parse d_reader text = Ok f ->
  blank_options op ->
  op_keep_non_standalone op = true -> op_remove_g54 op = false -> op_remove_g55 op = false ->
  Forall (double_fits_cmd places) f ->
  parse d_reader (formats (d_writer places trim) op f) = Ok f.
Proof.
  intros places trim op text f Hp Hb Hk H4 H5 Hc. eapply C43_round_trip_partial; eauto.
  pose proof (parse_wf d_reader text) as W. rewrite Hp in W. destruct W as (m & l & -> & Hne & Hr).
  eapply double_file; eauto.
Qed.

(** 1/3 of a millimetre with 17 decimals comes back with the 16 digits that matter, one tenth is
    not one tenth and is written so, and a half is exact. *)
Example C79_ex :
  double (1 # 10) = (3602879701896397 # 36028797018963968)%Q /\ double (1 # 2) = (1 # 2)%Q /\
  double (9007199254740993 # 1) = (9007199254740992 # 1)%Q /\
  double_str (double (1 # 10)) = lit "0.1" /\ double_str (double (1 # 3)) = lit "0.3333333333333333" /\
  double_str (double (-(123456789 # 100))) = lit "-1234567.89" /\
  is_double (1 # 2) /\ ~ is_double (1 # 10) /\
  (exists q f, unpack SkipTrailing 2 6 (lit "-123456") = Ok q /\ f = double q /\ ~ (f == q)%Q /\ pack SkipTrailing 2 6 f = Ok (lit "-123456")) /\
  (exists f, parse d_reader (lit "%LR0.1*%%LS3.3333333333333333333*%M02*") = Ok f /\ Forall (double_fits_cmd (-1)) f /\
    formats (d_writer (-1) TrimYes) default_options f = lit "%LR0.1*%
%LS3.3333333333333335*%
M02*
").
Proof.
  do 6 (split; [vm_compute; reflexivity|]).
  split; [exists 1, (-1); repeat split; lia|]. split.
  { intros H. apply double_id in H. vm_compute in H. discriminate. }
  split; [eexists; eexists; split; [vm_compute; reflexivity|]; split; [reflexivity|]; split; [vm_compute; discriminate|vm_compute; reflexivity]|].
  eexists. split; [vm_compute; reflexivity|]. split.
  - repeat apply Forall_cons; try apply Forall_nil; try exact I; (right; split; [lia|right; split; vm_compute; congruence]).
  - vm_compute. reflexivity.
Qed.

Print Assumptions C79_nearest.
Print Assumptions C79_coordinates_partial.
Print Assumptions C79_unpacked_partial.
Print Assumptions C79_distinct_partial.
Print Assumptions C79_sixteen_digits_refuted.
Print Assumptions C79_text.
Print Assumptions C79_file_partial.

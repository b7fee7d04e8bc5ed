(** Which files keep their values when numbers are written and read exactly. *)
From Verif Require Import Base Num CoordModel CoordProofs Ast GramAst PegModel GramModel FmtModel GramText GramExpr
  GramExprRt GramExprSpec GramExplicit NumTextModel NumTextProofs GramNum GramTok GramWf GramFileSpec GramPieces GramRead GramReadAttr GramMacroRt GramRt.
From Coq Require Import Qabs Lqa.
Local Open Scope nat_scope.

(** With [places] decimals a number must be a multiple of [10^-places]; with shortest digits it
    must be written without an exponent: 0, or at least 10^-4 and less than 10^16 in size. *)
Definition fits (places : Z) (q : Q) : Prop :=
  ((1 <= places)%Z /\ exists z, (q == inject_Z z / inject_Z (10 ^ places))%Q) \/
  ((places < 0)%Z /\ (q == 0 \/ (1 # 10000) <= Qabs q /\ Qabs q < inject_Z (10 ^ 16))%Q).
(** Numbers written by Python's [str] whatever the options. *)
Definition fits_str : Q -> Prop := fits (-1).

Section Values.
  (** Conditions on the numbers written by the options, on those written by [str], and on the
      integer of IR. *)
  Variables (num_fits str_fits : Q -> Prop) (int_fits : Z -> Prop).
  Definition values_template (t : template Q) : Prop :=
    match t with
    | TCircle d h => num_fits d /\ kept_opt (num_fits) h
    | TRect x y h | TObround x y h => num_fits x /\ num_fits y /\ kept_opt (num_fits) h
    | TPolygon d _ r h => num_fits d /\ kept_opt (num_fits) r /\ kept_opt (num_fits) h
    | TMacro n ps => kept_opt (Forall str_fits) ps /\
                     (In n [lit "C"; lit "R"; lit "O"; lit "P"] -> ps = None)
    end.
  Definition values_leaf (c : cmd Q str) : Prop :=
    match c with
    | CAD a => values_template (ad_template a)
    | CAM _ ps => Forall (fun p => Forall (fun e => forall q, number_in q e -> num_fits q) (prim_exprs p)) ps
    | CTA (TADrillTolerance p m) => kept_opt (num_fits) p /\ kept_opt (num_fits) m
    | CTF (TFGenerationSoftware a b c) | CTF (TFProjectId a b c) => a <> None /\ b <> None /\ c <> None
    | CTO (TOCRot k) | CTO (TOCHgt k) => num_fits k
    | CLR k | CLS k => num_fits k
    | CIR z => int_fits z
    | COF a b => kept_opt str_fits a /\ kept_opt str_fits b
    | CSF a b => num_fits a /\ num_fits b
    | _ => True
    end.
  Fixpoint values_cmd (c : cmd Q str) : Prop :=
    let all := fix all (l : list (cmd Q str)) : Prop :=
      match l with [] => True | x :: r => values_cmd x /\ all r end in
    match c with
    | CAB _ b => all b
    | CSR h b => clean_sr h /\ all b
    | c => values_leaf c
    end.
End Values.
Definition fits_cmd (places : Z) : cmd Q str -> Prop := values_cmd (fits places) fits_str (fun _ => places <> 0%Z).

Lemma num_writable places q : num_ok q_reader q -> fits places q -> writable places q.
Proof.
  intros (t & Ht & ->) [[H1 H2]|[H1 H2]]; [left; auto|right]. destruct (read_facts t Ht) as (_ & F & _).
  split; [exact H1|]. split; [exact F|exact H2].
Qed.
Lemma num_red q : num_ok q_reader q -> Qred q = q.
Proof. intros (t & Ht & ->). apply (read_facts t Ht). Qed.
Lemma writable_reads places tr q : writable places q -> Qred q = q ->
  double_text (fmt_double places tr q) /\ read_decimal (fmt_double places tr q) = q.
Proof.
  intros H1 H2. destruct (writable_parts places tr q H1) as (i & f & Hp & Hv).
  split; [exact (parts_double _ _ _ _ Hp)|]. rewrite (parts_read _ _ _ _ Hp), (Qred_complete _ _ Hv). exact H2.
Qed.
Lemma fits_kept places tr q : num_ok q_reader q -> fits places q -> kept q_reader (q_writer places tr) q.
Proof. intros H1 H2. apply writable_reads; [apply num_writable; assumption|apply num_red, H1]. Qed.
Lemma fits_kept_str places tr q : num_ok q_reader q -> fits_str q -> kept_str q_reader (q_writer places tr) q.
Proof.
  intros H1 H2. apply (writable_reads (-1) TrimYes q); [apply num_writable; assumption|apply num_red, H1].
Qed.
Lemma field_of_double t : double_text t -> field_text t.
Proof.
  intros H. assert (H0 : all field_char t /\ notab t).
  { destruct H as (sg & u & -> & Hs & d & f & -> & Hu).
    assert (D : forall s, all is_digit s -> all field_char s /\ notab s).
    { intros s. induction s as [|c s IH]; [split; reflexivity|]. intros Hc. apply all_cons in Hc as [Hc Hd].
      destruct (IH Hd) as [I1 I2].
      assert (F1 : field_char c = true) by (revert Hc; by_char c).
      assert (F2 : Ascii.eqb c "009" = false) by (revert Hc; by_char c).
      split; [unfold all; cbn; rewrite F1; exact I1|apply notab_cons; [exact F2|exact I2]]. }
    assert (A : forall a b, (all field_char a /\ notab a) -> (all field_char b /\ notab b) ->
      all field_char (a ++ b) /\ notab (a ++ b)).
    { intros a b [A1 A2] [B1 B2]. split; [unfold all in *; rewrite forallb_app, A1, B1; reflexivity|apply notab_app; assumption]. }
    apply A; [destruct Hs as [->|[->| ->]]; split; reflexivity|].
    assert (P : forall g, digits1 g -> all field_char ("."%char :: g) /\ notab ("."%char :: g)).
    { intros g [_ Hg]. apply (A ["."%char]); [split; reflexivity|apply D, Hg]. }
    destruct Hu as [[[_ Hd] Hf]|[-> (g & -> & Hg)]].
    - apply A; [apply D, Hd|]. destruct Hf as [->|(g & -> & Hg)]; [split; reflexivity|apply P, Hg].
    - apply A; [split; reflexivity|apply P, Hg]. }
  split; [apply H0|]. split; [apply H0|]. pose proof (double_head t [] H) as H1. rewrite app_nil_r in H1. exact H1.
Qed.
Lemma float_num q : float_ok q_reader q -> num_ok q_reader q.
Proof.
  intros (t & _ & H). cbn [q_reader r_float] in H. destruct (re_double t) as [[u [|c r]]|] eqn:E; try discriminate.
  apply re_double_some in E as [E _]. exists u. split; [exact E|]. cbn. congruence.
Qed.
Lemma fits_field places tr q : float_ok q_reader q -> fits places q -> kept_field q_reader (q_writer places tr) q.
Proof.
  intros H1 H2. apply float_num in H1. destruct (fits_kept places tr q H1 H2) as [K1 K2].
  split; [apply field_of_double, K1|]. cbn [q_reader q_writer r_float w_num r_num] in *.
  pose proof (re_double_app _ [] K1 eq_refl) as E. rewrite app_nil_r in E. rewrite E, K2. reflexivity.
Qed.

(** An integer written as a decimal fraction has no digits after the point but zeros. *)
Lemma digits_zero f : all_digits f -> digits_value f = 0%Z -> forallb (Ascii.eqb "0") f = true.
Proof.
  induction f as [|c f IH]; [reflexivity|]. intros H Hv. apply all_digits_cons in H as [Hc Hf].
  rewrite digits_value_cons in Hv. pose proof (digits_value_bound f Hf) as [B _]. pose proof (pow10_pos (length f)) as P.
  assert (Hd : (0 <= digit_val c)%Z /\ (digit_val c = 0%Z -> c = "0"%char)).
  { destruct c as [[] [] [] [] [] [] [] []]; try discriminate Hc; split; try (intros X; discriminate X); try reflexivity; discriminate. }
  assert (digit_val c = 0%Z) as H0 by nia. rewrite H0 in Hv. cbn [forallb]. rewrite (proj2 Hd H0), (IH Hf ltac:(lia)). reflexivity.
Qed.
Lemma parts_integer neg i f t z : parts neg i f t -> (parts_value neg i f == inject_Z z)%Q -> int_of_text t = Some z.
Proof.
  intros (-> & Hi & Hf & Hn) Hv. unfold parts_value in Hv. rewrite digits_value_app in Hv.
  pose proof (digits_value_bound f Hf) as [B1 B2]. pose proof (digits_value_bound i Hi) as [B3 _].
  pose proof (pow10_pos (length f)) as P. unfold Qeq in Hv. cbn [Qnum Qden inject_Z] in Hv. rewrite Z2Pos.id in Hv by exact P.
  set (p := (10 ^ Z.of_nat (length f))%Z) in *.
  assert (E : digits_value f = 0%Z /\ z = apply_sign neg (digits_value i)).
  { destruct neg; cbn [apply_sign] in *.
    - assert (digits_value f = p * (- z - digits_value i))%Z by nia. assert (- z - digits_value i = 0)%Z by nia. lia.
    - assert (digits_value f = p * (z - digits_value i))%Z by nia. assert (z - digits_value i = 0)%Z by nia. lia. }
  destruct E as [E1 E2]. apply digits_zero in E1; [|exact Hf].
  assert (S : span is_digit (i ++ point f) = (i, point f)).
  { apply span_app; [apply all_digits_forallb, Hi|destruct f; reflexivity]. }
  assert (F : match point f with [] => Some z | _ :: g => if forallb (Ascii.eqb "0") g then Some z else None end = Some z).
  { destruct f; [reflexivity|]. cbn [point]. rewrite E1. reflexivity. }
  unfold int_of_text. destruct neg.
  - cbn [app]. unfold opt_sign. change (is_sign ch_minus) with true. cbn iota. rewrite S. destruct i; [congruence|].
    change (Ascii.eqb ch_minus "-") with true. cbn iota. cbn [apply_sign] in E2. rewrite <- E2. exact F.
  - cbn [app]. assert (opt_sign (i ++ point f) = ([], i ++ point f)) as ->.
    { destruct i as [|c i]; [congruence|]. apply all_digits_cons in Hi as [Hc _]. cbn [app opt_sign].
      assert (is_sign c = false) as -> by (revert Hc; by_char c). reflexivity. }
    rewrite S. destruct i; [congruence|]. cbn [apply_sign] in E2. rewrite <- E2. exact F.
Qed.
Lemma int_kept places tr z : places <> 0%Z ->
  double_text (fmt_double_int places tr z) /\ int_of_text (fmt_double_int places tr z) = Some z.
Proof.
  intros Hp. unfold fmt_double_int. destruct (places <? 0)%Z eqn:E; [apply z_repr_text|]. apply Z.ltb_ge in E.
  destruct (writable_parts places tr (inject_Z z)) as (i & f & P & V).
  - left. split; [lia|]. exists (z * 10 ^ places)%Z. rewrite <- (Z2Nat.id places) by lia. rewrite inject_Z_mult.
    field. apply pow10_nz.
  - split; [exact (parts_double _ _ _ _ P)|exact (parts_integer _ _ _ _ _ P V)].
Qed.

Section Clean.
  Context (rd : reader Q str) (w : writer Q str) (num_fits str_fits : Q -> Prop) (int_fits : Z -> Prop).
  Context (Hnum : forall k, num_ok rd k -> num_fits k -> kept rd w k)
    (Hstr : forall k, num_ok rd k -> str_fits k -> kept_str rd w k)
    (Hfield : forall k, float_ok rd k -> num_fits k -> kept_field rd w k)
    (Hconst : forall k, const_ok rd k -> num_fits k -> survives rd w k)
    (Hint : forall z, int_fits z -> double_text (w_int w z) /\ int_of_text (w_int w z) = Some z)
    (Hdate : forall d, date_ok rd d -> field_text (w_date w d) /\ r_date rd (w_date w d) = Some d).
  Notation values := (values_cmd num_fits str_fits int_fits).
  Lemma opt_both {A} (P Q R : A -> Prop) x : (forall a, P a -> Q a -> R a) -> opt_ok P x -> kept_opt Q x -> kept_opt R x.
  Proof. intros H H1 H2 a ->. apply H; [exact H1|apply H2; reflexivity]. Qed.
  Lemma forall_both {A} (P Q R : A -> Prop) l : (forall a, P a -> Q a -> R a) -> Forall P l -> Forall Q l -> Forall R l.
  Proof. intros H H1 H2. rewrite Forall_forall in *. auto. Qed.
  Lemma expr_kept e : shape (const_ok rd) 6 e -> (forall q, number_in q e -> num_fits q) -> kept_expr rd w e.
  Proof.
    intros Hs Hf k Hk. apply Hconst; [exact (shape_number _ _ _ Hs k Hk)|apply Hf, Hk].
  Qed.
  Lemma prim_shapes p : wf_prim rd p -> Forall (shape (const_ok rd) 6) (prim_exprs p).
  Proof.
    destruct p; cbn [wf_prim prim_exprs]; intros H; try (exact H); try (exact (proj2 H)).
    - constructor.
    - apply Forall_app. split; [apply H|]. destruct H as [_ H]. destruct rotation; [constructor; [exact H|]|]; constructor.
    - destruct H as (H1 & _ & H2 & H3). apply Forall_app. split; [exact H1|]. apply Forall_app. split; [|constructor; [exact H3|constructor]].
      clear - H2. induction H2 as [|q l [Ha Hb] _ IH]; [constructor|]. constructor; [exact Ha|]. constructor; [exact Hb|exact IH].
    - constructor; [exact (proj2 H)|constructor].
  Qed.
  Lemma leaf_kept c : wf_leaf rd c -> values_leaf num_fits str_fits int_fits c -> clean_leaf rd w c.
  Proof.
    destruct c as [| |a|n ps|a|a|a|t|sa x y i j|sa x y|sa x y|sa id|sa g|s|m|s|p|k|k| | | |x|f|s|p|z|a b|u|a b|a b];
      cbn [wf_leaf values_leaf clean_leaf]; intros Hw Hf; auto.
    - destruct Hw as [_ Hw].
      destruct (ad_template a) as [d h|x y h|x y h|d v r h|n ps]; cbn [wf_template values_template clean_template] in *.
      + destruct Hw, Hf. split; [auto|]. eapply opt_both; eauto.
      + destruct Hw as (? & ? & ?), Hf as (? & ? & ?). split; [auto|]. split; [auto|]. eapply opt_both; eauto.
      + destruct Hw as (? & ? & ?), Hf as (? & ? & ?). split; [auto|]. split; [auto|]. eapply opt_both; eauto.
      + destruct Hw as (? & ? & ? & _), Hf as (? & ? & ?). split; [auto|]. split; eapply opt_both; eauto.
      + destruct Hw as [_ Hw], Hf as [F1 F2]. split; [|exact F2]. intros l ->. specialize (F1 _ eq_refl).
        destruct Hw as [_ Hw]. eapply forall_both; [|exact Hw|exact F1]. intros; apply Hstr; assumption.
    - destruct Hw as [_ Hw]. eapply forall_both; [|exact Hw|exact Hf]. intros p Hp. apply forall_both with (1 := expr_kept).
      apply prim_shapes, Hp.
    - destruct a; auto. destruct Hw as (H1 & H2 & _), Hf as [F1 F2].
      split; (eapply opt_both; [|eassumption|eassumption]; intros; apply Hnum; assumption).
    - destruct a; auto.
    - destruct a; auto.
    - destruct Hw, Hf. split; (eapply opt_both; [|eassumption|eassumption]; intros; apply Hstr; assumption).
    - destruct Hw, Hf. split; apply Hnum; assumption.
  Qed.
  Lemma values_body l : (fix all (l : list (cmd Q str)) : Prop := match l with [] => True | x :: r => values x /\ all r end) l
    <-> Forall (values) l.
  Proof.
    induction l as [|x l IH]; [split; constructor|]. split.
    - intros [H1 H2]. constructor; [exact H1|apply IH, H2].
    - intros H. apply Forall_cons_iff in H as [H1 H2]. split; [exact H1|apply IH, H2].
  Qed.
  Lemma item_kept m : forall l, item rd m l -> Forall (values) l -> Forall (clean rd w) l.
  Proof.
    assert (Hc : forall c, wf_leaf rd c -> Forall (values) [c] -> Forall (clean rd w) [c]).
    { intros c Hw H. apply Forall_cons_iff in H as [H _]. constructor; [|constructor].
      pose proof (leaf_kept c Hw) as L. destruct c; try contradiction; exact (L H). }
    assert (Hp : forall g d, wf_d false d -> Forall (clean rd w) [CG false g; d]).
    { intros g d Hd. constructor; [exact I|]. constructor; [|constructor]. destruct d; try contradiction; exact I. }
    induction m as [|m IH]; intros l [(c & -> & Hw)|[(g & d & -> & Hd)|H]] Hl; auto.
    - contradiction.
    - destruct H as (id & b & -> & Hid & Hb). constructor; [|constructor].
      apply Forall_cons_iff in Hl as [Hl _]. apply values_body in Hl. apply clean_body. apply Forall_concat in Hl. apply Forall_concat.
      eapply forall_both; [|exact Hb|exact Hl]. exact IH.
  Qed.
  Lemma root_kept m l : root rd m l -> Forall (values) l -> Forall (clean rd w) l.
  Proof.
    intros [H|(h & b & -> & Hh & Hb)] Hl; [eapply item_kept; eauto|]. constructor; [|constructor].
    apply Forall_cons_iff in Hl as [[Hc Hl] _]. split; [exact Hc|]. apply values_body in Hl. apply clean_body.
    apply Forall_concat in Hl. apply Forall_concat. eapply forall_both; [|exact Hb|exact Hl]. intros; eapply item_kept; eauto.
  Qed.
  Lemma file_kept m l : Forall (root rd m) l -> Forall (values) (concat l) -> Forall (clean rd w) (concat l).
  Proof.
    intros H1 H2. apply Forall_concat in H2. apply Forall_concat. eapply forall_both; [|exact H1|exact H2].
    intros; eapply root_kept; eauto.
  Qed.
End Clean.

Lemma fits_file places tr m l : Forall (root q_reader m) l -> Forall (fits_cmd places) (concat l) ->
  Forall (clean q_reader (q_writer places tr)) (concat l).
Proof.
  apply file_kept.
  - intros k. apply fits_kept.
  - intros k. apply fits_kept_str.
  - intros k. apply fits_field.
  - intros k C F. apply const_ok_survives; [exact C|]. apply num_writable; [|exact F].
    destruct C as (t & Ht & _ & ->). exists t. auto.
  - intros z. apply int_kept.
  - intros d (t & Ht & E). cbn [q_reader r_date] in E. injection E as <-. cbn. auto.
Qed.

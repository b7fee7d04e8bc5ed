(** Proofs about reading job files. *)
From Verif Require Import Base Dict ApiModel JobModel JsonModel JsonSpec.

Lemma get_entry o k j : distinct o -> (d_get (lit k) o = Some j <-> entry_of o k j).
Proof.
  unfold entry_of. intros D. split; [apply d_get_in|]. induction o as [|[a b] o IH]; [intros []|]. cbn. inversion D as [|? ? Hn D']; subst. intros [H|H].
  - injection H as -> ->. rewrite str_eqb_refl. reflexivity.
  - destruct (str_eqb (lit k) a) eqn:E; [|apply IH; auto]. apply str_eqb_eq in E as <-. destruct Hn. change (lit k) with (fst (lit k, j)). apply in_map, H.
Qed.
Lemma proper_obj o : proper (JObj o) -> distinct o /\ forall k j, entry_of o k j -> proper j.
Proof.
  intros [D P]. split; [exact D|]. clear D. unfold entry_of. induction o as [|[a b] o IH]; intros k j; [intros []|]. destruct P as [P1 P2]. intros [H|H].
  - injection H as -> ->. exact P1.
  - exact (IH P2 k j H).
Qed.
Lemma proper_arr l : proper (JArr l) -> Forall proper l.
Proof. cbn. induction l as [|a l IH]; [constructor|]. intros [H1 H2]. constructor; auto. Qed.

Section Proofs.
  Variable text_float : str -> option Q.
  Variable text_int : str -> option Z.
  Notation fits_ty := (fits_ty text_float text_int).

  (** A reader goes by a layout. *)
  Definition reads {A} (p : json -> option A) (t : ty) : Prop :=
    (forall j, proper j -> (p j <> None <-> fits_ty t j)) /\ (forall a b, proper a -> proper b -> same_for t a b -> p a = p b).
  Lemma reads_text : reads as_str Text.
  Proof.
    split; [|intros a b _ _ ->; reflexivity]. intros j _. cbn. destruct j; cbn; split; intros H; try congruence; try (destruct H as [x H]; congruence); eauto; discriminate.
  Qed.
  Lemma reads_real : reads (as_float text_float) Real.
  Proof.
    split; [|intros a b _ _ ->; reflexivity]. intros j _. cbn. destruct j; cbn; split; intros H; try congruence; try discriminate; eauto 7.
    all: try (destruct H as [[x H]|[[x H]|[[x H]|[x [H H']]]]]; congruence).
  Qed.
  Lemma whole_float q : ((Z.modulo (Qnum q) (Zpos (Qden q)) =? 0)%Z = true) <-> exists z, (q == inject_Z z)%Q.
  Proof.
    rewrite Z.eqb_eq. unfold Qeq, inject_Z. cbn. split.
    - intros H. exists (Qnum q / Zpos (Qden q))%Z. pose proof (Z.div_mod (Qnum q) (Zpos (Qden q)) ltac:(lia)). rewrite H in *. lia.
    - intros [z H]. rewrite Z.mul_1_r in H. rewrite H. apply Z.mod_mul. lia.
  Qed.
  Lemma reads_whole : reads (as_int text_int) Whole.
  Proof.
    split; [|intros a b _ _ ->; reflexivity]. intros j _. cbn. destruct j as [|b|z|q|s|l|o]; cbn.
    4: { pose proof (whole_float q) as W. destruct (_ =? _)%Z; split; intros H; try congruence; try discriminate.
         - right. left. destruct (proj1 W eq_refl) as [z Hz]. eauto.
         - exfalso. destruct H as [[x H]|[(q' & x & H & Hx)|[[x H]|[x [H _]]]]]; try congruence. injection H as <-. destruct W as [_ W]. specialize (W (ex_intro _ x Hx)). discriminate. }
    all: split; intros H; try congruence; try discriminate; eauto 7.
    all: try (destruct H as [[x H]|[(q' & x & H & Hx)|[[x H]|[x [H H']]]]]; congruence).
  Qed.
  Lemma reads_many {A} (p : json -> option A) t : reads p t -> reads (as_list p) (Many t).
  Proof.
    intros [H1 H2]. split.
    - intros j Hj. cbn. split.
      + destruct j as [| | | | |l|]; cbn; try congruence. apply proper_arr in Hj. intros H. exists l. split; [reflexivity|].
        induction Hj as [|a l Ha _ IH]; [constructor|]. cbn in H. pose proof (H1 a Ha) as Y. destruct (p a); [|cbn in H; congruence]. cbn in H.
        destruct (all_of p l); [|cbn in H; congruence]. constructor; [apply Y; discriminate|apply IH; discriminate].
      + intros (l & -> & F). cbn. apply proper_arr in Hj. induction F as [|a l Fa _ IH]; [discriminate|]. inversion Hj; subst. cbn.
        destruct (p a) eqn:E; [|exfalso; apply (proj2 (H1 a ltac:(assumption)) Fa); exact E]. cbn. destruct (all_of p l) eqn:E'; [discriminate|]. apply IH; auto.
    - intros a b Ha Hb (l & m & -> & -> & F). cbn. apply proper_arr in Ha, Hb. induction F as [|x y l m Fx _ IH]; [reflexivity|].
      inversion Ha; inversion Hb; subst. cbn. rewrite (H2 x y), IH; auto.
  Qed.

  (** Entries of objects. *)
  Definition entry_fits (o : list (str * json)) (k : string) (must : bool) (t : ty) : Prop :=
    (must = true -> exists v, entry_of o k v) /\ (forall v, entry_of o k v -> fits_ty t v \/ (must = false /\ v = JNull)).
  Definition entry_same (o p : list (str * json)) (k : string) (t : ty) : Prop :=
    (forall v, entry_of o k v -> exists w, entry_of p k w /\ (v = w \/ same_for t v w)) /\
    (forall w, entry_of p k w -> exists v, entry_of o k v /\ (v = w \/ same_for t v w)).
  Lemma entry_unique o k v w : distinct o -> entry_of o k v -> entry_of o k w -> v = w.
  Proof. intros D Hv Hw. apply (get_entry o k v D) in Hv. apply (get_entry o k w D) in Hw. congruence. Qed.
  Lemma field_must {A} (p : json -> option A) t o k : reads p t -> proper (JObj o) -> (field o k p <> None <-> entry_fits o k true t).
  Proof.
    intros [H1 _] Ho. apply proper_obj in Ho as [D P]. unfold field, entry_fits. destruct (d_get (lit k) o) as [j|] eqn:E.
    - pose proof (proj1 (get_entry o k j D) E) as Hj. rewrite (H1 j (P k j Hj)). split.
      + intros F. split; [eauto|]. intros v Hv. rewrite (entry_unique o k v j D Hv Hj). auto.
      + intros [_ F]. destruct (F j Hj) as [F'|[X _]]; [exact F'|discriminate].
    - split; [congruence|]. intros [F _]. destruct (F eq_refl) as [v Hv]. apply (get_entry o k v D) in Hv. congruence.
  Qed.
  Lemma field_may {A} (p : json -> option A) t o k : reads p t -> proper (JObj o) -> (field_or_none o k p <> None <-> entry_fits o k false t).
  Proof.
    intros [H1 _] Ho. apply proper_obj in Ho as [D P]. unfold field_or_none, entry_fits. destruct (d_get (lit k) o) as [j|] eqn:E.
    - pose proof (proj1 (get_entry o k j D) E) as Hj. split.
      + intros F. split; [discriminate|]. intros v Hv. rewrite (entry_unique o k v j D Hv Hj). pose proof (H1 j (P k j Hj)) as Y.
        destruct j; auto; left; apply Y; cbn in F |- *; intros X; rewrite X in F; cbn in F; congruence.
      + intros [_ F]. destruct (F j Hj) as [F'|[_ ->]]; [|discriminate]. apply (H1 j (P k j Hj)) in F'. destruct (p j) eqn:Ep; [|congruence].
        destruct j; cbn in *; try rewrite Ep; discriminate.
    - split; [|discriminate]. intros _. split; [discriminate|]. intros v Hv. apply (get_entry o k v D) in Hv. congruence.
  Qed.
  Lemma field_eq {A} (p : json -> option A) t o o' k : reads p t -> proper (JObj o) -> proper (JObj o') -> entry_same o o' k t ->
    field o k p = field o' k p /\ (match t with Many _ | Object _ => False | _ => True end -> field_or_none o k p = field_or_none o' k p).
  Proof.
    intros [_ H2] Ho Ho' [S1 S2]. apply proper_obj in Ho as [D P]. apply proper_obj in Ho' as [D' P']. unfold field, field_or_none.
    destruct (d_get (lit k) o) as [j|] eqn:E.
    - apply (get_entry o k j D) in E. destruct (S1 j E) as (w & Ew & Hw). rewrite (proj2 (get_entry o' k w D') Ew). destruct Hw as [<-|Hw]; [auto|].
      split; [apply H2; eauto|]. destruct t; intros []; cbn in Hw; subst; reflexivity.
    - destruct (d_get (lit k) o') as [j|] eqn:E'; [|auto]. apply (get_entry o' k j D') in E'. destruct (S2 j E') as (w & Ew & _). apply (get_entry o k w D) in Ew. congruence.
  Qed.

  Lemma some_bind {A B} (x : option A) (f : A -> option B) (P Q : Prop) : (x <> None <-> P) -> (forall a, x = Some a -> (f a <> None <-> Q)) -> (obind x f <> None <-> P /\ Q).
  Proof.
    intros H1 H2. destruct x as [a|]; cbn.
    - rewrite (H2 a eq_refl). assert (P) by (apply H1; discriminate). tauto.
    - split; [congruence|]. intros [HP _]. apply H1 in HP. congruence.
  Qed.
  Lemma object_iff (o : list (str * json)) (P : list (str * json) -> Prop) : (exists o', JObj o = JObj o' /\ P o') <-> P o.
  Proof. split; [intros (o' & E & H); injection E as <-; exact H|eauto]. Qed.
  Ltac by_field Hj :=
    match goal with
    | |- field ?o ?k ?p <> None <-> _ => let R := fresh in eassert (R : reads p _) by (eauto with rd); exact (field_must p _ o k R Hj)
    | |- field_or_none ?o ?k ?p <> None <-> _ => let R := fresh in eassert (R : reads p _) by (eauto with rd); exact (field_may p _ o k R Hj)
    end.
  Ltac fits_go :=
    intros [| | | | | |o] Hj; try (split; [cbn; congruence|intros (o' & X & _); discriminate X]);
    etransitivity; [|symmetry; apply object_iff]; cbn [as_object obind];
    repeat (apply some_bind; [by_field Hj|intros ? _]);
    split; [intros _; exact I|discriminate].
  Ltac same_go :=
    intros a b Ha Hb (o & o' & -> & -> & S); cbn [as_object obind];
    repeat match goal with
    | |- context [field o ?k ?p] => let R := fresh in eassert (R : reads p _) by (eauto with rd); rewrite (proj1 (field_eq p _ o o' k R Ha Hb (proj1 S))); apply proj2 in S; clear R
    | |- context [field_or_none o ?k ?p] => let R := fresh in eassert (R : reads p _) by (eauto with rd); rewrite (proj2 (field_eq p _ o o' k R Ha Hb (proj1 S)) I); apply proj2 in S; clear R
    end;
    reflexivity.
  Hint Resolve reads_text reads_real reads_whole reads_many : rd.
  Lemma reads_software : reads read_software software_ty.
  Proof. unfold read_software. split; [fits_go|same_go]. Qed.
  Hint Resolve reads_software : rd.
  Lemma reads_header : reads read_header header_ty.
  Proof. unfold read_header. split; [fits_go|same_go]. Qed.
  Definition project_ty := Object [("Name", (true, Text)); ("GUID", (true, Text)); ("Revision", (true, Text))]%string.
  Lemma reads_project : reads read_project_id project_ty.
  Proof. unfold read_project_id. split; [fits_go|same_go]. Qed.
  Definition size_ty := Object [("X", (true, Real)); ("Y", (true, Real))]%string.
  Lemma reads_size : reads (read_size text_float) size_ty.
  Proof. unfold read_size. split; [fits_go|same_go]. Qed.
  Hint Resolve reads_header reads_project reads_size : rd.
  Lemma reads_specs : reads (read_specs text_float text_int) specs_ty.
  Proof. unfold read_specs. split; [fits_go|same_go]. Qed.
  Lemma reads_file : reads read_files_attr file_ty.
  Proof. unfold read_files_attr. split; [fits_go|same_go]. Qed.
  Lemma reads_material : reads (read_material text_float) material_ty.
  Proof. unfold read_material. split; [fits_go|same_go]. Qed.
  Hint Resolve reads_specs reads_file reads_material : rd.
  Lemma reads_job : reads (read_job text_float text_int) job_ty.
  Proof. unfold read_job. split; [fits_go|same_go]. Qed.
End Proofs.

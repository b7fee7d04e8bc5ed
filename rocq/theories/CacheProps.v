(** C55: the cached outer box of a shape. *)
From Coq Require Import Lia.
From Verif Require Import Base Num Dict Ast StateModel GeomModel CacheModel.
Local Open Scope nat_scope.

Section Theorems.
  Context {K : Type} {NK : Num K}.
  Implicit Types (us : list (use K)) (h : list (obj K)).

  (** *** Specification
      Reading is right when the box is that of the shape it is read from.  Which objects make
      trouble: [tainted us i], the box of object [i] or of one it was made from by
      transformations was read before the last of these. *)
  Definition right_box (e : shape K * box K) : Prop := snd e = shape_box (fst e).
  (** No object is transformed after its box was read. *)
  Definition no_transform_after_read us : Prop :=
    forall a i b m c, us = a ++ ReadBox i :: b ++ Transform i m :: c -> False.

  (** *** Invariants *)
  Lemma run_snoc us u : run_uses (us ++ [u]) = do_use (run_uses us) u.
  Proof. unfold run_uses. rewrite fold_left_app. reflexivity. Qed.
  Lemma nth_replace h : forall i (o : obj K) j, nth_error (replace i o h) j =
    if Nat.eqb j i then (match nth_error h i with Some _ => Some o | None => None end) else nth_error h j.
  Proof.
    induction h as [|x h IH]; intros [|i] o [|j]; cbn [replace nth_error Nat.eqb]; auto.
    destruct (Nat.eqb j i); auto.
  Qed.
  Lemma nth_snoc (A : Type) (l : list A) x j : nth_error (l ++ [x]) j = if Nat.eqb j (length l) then Some x else nth_error l j.
  Proof.
    destruct (Nat.eqb j (length l)) eqn:E.
    - apply Nat.eqb_eq in E. subst. rewrite nth_error_app2, Nat.sub_diag by lia. reflexivity.
    - apply Nat.eqb_neq in E. destruct (Nat.lt_ge_cases j (length l)); [apply nth_error_app1; exact H|].
      rewrite nth_error_app2 by lia. transitivity (@None A); [|symmetry; apply nth_error_None; exact H].
      destruct (j - length l) as [|[]] eqn:E'; [lia|reflexivity|reflexivity].
  Qed.
  Definition good_obj us i (o : obj K) : Prop :=
    match ob_cached o with None => True | Some b => b = shape_box (ob_shape o) /\ exists a c, us = a ++ ReadBox i :: c end.
  Definition good us : Prop :=
    let '(h, out) := run_uses us in (forall i o, nth_error h i = Some o -> good_obj us i o) /\ Forall right_box out.
  Lemma good_obj_mono us u i o : good_obj us i o -> good_obj (us ++ [u]) i o.
  Proof.
    unfold good_obj. destruct (ob_cached o); [|auto]. intros (E & a & c & ->). split; [exact E|]. exists a, (c ++ [u]).
    rewrite <- app_assoc. reflexivity.
  Qed.
  Lemma no_prefix us u : no_transform_after_read (us ++ [u]) -> no_transform_after_read us.
  Proof. intros H a i b m c ->. apply (H a i b m (c ++ [u])). rewrite <- app_assoc. cbn [app]. rewrite <- app_assoc. reflexivity. Qed.
  Lemma good_all us : no_transform_after_read us -> good us.
  Proof.
    induction us as [|u us IH] using rev_ind; intros Hn.
    - unfold good, run_uses. cbn. split; [intros [] o H; discriminate H|constructor].
    - specialize (IH (no_prefix _ _ Hn)). unfold good in *. rewrite run_snoc. destruct (run_uses us) as [h out]. destruct IH as [H1 H2].
      destruct u as [s|i|i m]; cbn [do_use].
      + split; [|exact H2]. intros j o. rewrite nth_snoc. destruct (Nat.eqb j (length h)); intros H; [injection H as <-; exact I|].
        apply good_obj_mono. exact (H1 _ _ H).
      + destruct (nth_error h i) as [o|] eqn:E; [|split; [intros j o H; apply good_obj_mono; exact (H1 _ _ H)|exact H2]].
        pose proof (H1 _ _ E) as G. unfold read_box, good_obj in *. destruct (ob_cached o) as [b|] eqn:Ec.
        * destruct G as [-> G]. split; [|apply Forall_app; split; [exact H2|repeat constructor]].
          intros j o'. rewrite nth_replace, E. destruct (Nat.eqb j i) eqn:Ej; intros H; [|apply good_obj_mono; exact (H1 _ _ H)].
          apply Nat.eqb_eq in Ej. subst j. injection H as <-. rewrite Ec. split; [reflexivity|]. exists us, []. reflexivity.
        * split; [|apply Forall_app; split; [exact H2|repeat constructor]].
          intros j o'. rewrite nth_replace, E. destruct (Nat.eqb j i) eqn:Ej; intros H; [|apply good_obj_mono; exact (H1 _ _ H)].
          apply Nat.eqb_eq in Ej. subst j. injection H as <-. cbn [ob_cached ob_shape]. split; [reflexivity|]. exists us, []. reflexivity.
      + destruct (nth_error h i) as [o|] eqn:E; (split; [|exact H2]).
        * intros j o'. rewrite nth_snoc. destruct (Nat.eqb j (length h)); intros H; [|apply good_obj_mono; exact (H1 _ _ H)].
          injection H as <-. unfold good_obj, transform. cbn [ob_cached]. pose proof (H1 _ _ E) as G. unfold good_obj in G.
          destruct (ob_cached o); [|exact I]. destruct G as (_ & a & c & ->). exfalso. apply (Hn a i c m []).
          rewrite <- app_assoc. reflexivity.
        * intros j o' H. apply good_obj_mono. exact (H1 _ _ H).
  Qed.

  (** C55.  Programs that never transform a shape after having read its box get the right box
      from every read.  (The property has no such condition; it is needed, see below.) *)
  Theorem C55_boxes_partial :
    forall us, no_transform_after_read us -> Forall right_box (snd (run_uses us)).
  Proof. intros us H. pose proof (good_all us H) as G. unfold good in G. destruct (run_uses us). apply G. Qed.
  (** C55.  After reading, every transformed copy has the box of the original, whatever the
      transformation. *)
  Theorem C55_stale_box :
    forall s m, run_uses [Make s; ReadBox 0; Transform 0 m; ReadBox 1] =
      ([MkObj s (Some (shape_box s)); MkObj (shape_transform m s) (Some (shape_box s))], [(s, shape_box s); (shape_transform m s, shape_box s)]).
  Proof. reflexivity. Qed.
End Theorems.

(** C55 fails: a moved shape reports the box of the place it was moved from. *)
Theorem C55_boxes_refuted :
  exists us : list (use Q), let _ := NumQ in ~ Forall right_box (snd (run_uses us)).
Proof.
  exists [Make (MkShape [SLine (MkVec 0%Q 0%Q) (MkVec 1%Q 1%Q)] false None); ReadBox 0; Transform 0 (@mtranslate Q NumQ 5%Q 5%Q); ReadBox 1].
  cbv zeta. intros H. inversion H as [|? ? _ H2]; subst. inversion H2 as [|? ? H3 _]; subst. vm_compute in H3. discriminate H3.
Qed.
(** Reading after transforming is fine, also more than once and on several copies. *)
Example C55_case : let _ := NumQ in
  map snd (snd (run_uses [Make (MkShape [SLine (MkVec 0%Q 0%Q) (MkVec 1%Q 1%Q)] false None); Transform 0 (@mtranslate Q NumQ 5%Q 5%Q);
    ReadBox 1; ReadBox 0; ReadBox 1])) = [BoxOf 5%Q 5%Q 6%Q 6%Q; BoxOf 0%Q 0%Q 1%Q 1%Q; BoxOf 5%Q 5%Q 6%Q 6%Q].
Proof. vm_compute. reflexivity. Qed.
Print Assumptions C55_boxes_partial. Print Assumptions C55_stale_box. Print Assumptions C55_boxes_refuted.

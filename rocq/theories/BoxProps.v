(** Property theorem C27: the algebra of boxes (specification in [BoxSpec]). *)
From Coq Require Import Reals Lra.
From Verif Require Import Base Num NumReal Dict Ast StateModel GeomModel CompilerModel BoxModel VmModel BoxSpec BoxProofs.

Section Theorems.
  Context {K : Type} {NK : Num K}.
  Theorem C27_semilattice :
    forall (le : K -> K -> Prop), ordered le -> forall a b c : ebox K,
      box_join (box_join a b) c = box_join a (box_join b c) /\
      box_join a b = box_join b a /\
      box_join a a = a /\
      box_join default_box a = a /\ box_join a default_box = a /\
      least le (fun d => within le a d /\ within le b d) (box_join a b).
  Proof.
    intros le O a b c. split; [apply (join_assoc le O)|]. split; [apply (join_comm le O)|]. split; [apply (join_idem le O)|].
    split; [apply (join_default le O)|]. split; [rewrite (join_comm le O); apply (join_default le O)|].
    split; [split; [apply (join_l le O)|apply (join_r le O)]|]. intros d [H1 H2]. apply join_lub; assumption.
  Qed.
  Theorem C27_translation :
    forall (le : K -> K -> Prop), ordered le -> forall (a b : ebox K) (v : vec K),
      box_shift (box_join a b) v = box_join (box_shift a v) (box_shift b v) /\
      box_unshift (box_join a b) v = box_join (box_unshift a v) (box_unshift b v).
  Proof. intros le O a b v. split; [apply (shift_join le O)|apply (unshift_join le O)]. Qed.
  Theorem C27_from_vectors :
    forall (le : K -> K -> Prop), ordered le -> forall (v : vec K) (vs : list (vec K)),
      least le (fun b => Forall (fun p => inside le p b) (v :: vs)) (from_vectors v vs).
  Proof. intros le O v vs. exact (from_vectors_least le O v vs). Qed.
  (** Inclusion of boxes is inclusion of their points, for boxes that have some. *)
  Theorem C27_inclusion_of_points :
    forall (le : K -> K -> Prop), ordered le -> forall a b : ebox K,
      within le a b -> forall p, inside le p a -> inside le p b.
  Proof. intros le O a b H p. apply (inside_within le O); exact H. Qed.
End Theorems.

(** Real numbers are such numbers. *)
Lemma r_ordered : ordered Rle.
Proof. constructor; intros; cbn; try lra. apply r_ltb_ge. Qed.
Example C27_case :
  box_join (MkBox (Fin 1%R) (Fin 2%R) (Fin 3%R) (Fin 4%R)) (MkBox (Fin 0%R) (Fin 3%R) (Fin 2%R) PlusInf)
  = MkBox (Fin 0%R) (Fin 2%R) (Fin 3%R) PlusInf.
Proof.
  unfold box_join, e_min, e_max, e_ltb. cbn. unfold r_ltb.
  f_equal; destruct (Rlt_dec _ _); try reflexivity; exfalso; lra.
Qed.
(** A box made from a centre and sizes holds the points at most half a size away. *)
Theorem C27_from_center :
  forall (c p : vec R) (w h : R),
    inside Rle p (from_center c w h) <-> (Rabs (vx p - vx c) <= w / 2)%R /\ (Rabs (vy p - vy c) <= h / 2)%R.
Proof.
  intros c p w h. unfold inside, from_center. cbn [e_le b_minx b_miny b_maxx b_maxy]. rnum. cbn [n_add n_sub n_div NumR].
  unfold Rabs. destruct (Rcase_abs (vx p - vx c)), (Rcase_abs (vy p - vy c)); lra.
Qed.
(** The operations used by the VM model are these. *)
Theorem C27_vm_boxes :
  forall (K : Type) (NK : Num K) (a b : box K) (v : vec K) (vs : list (vec K)),
    embed (b_join a b) = box_join (embed a) (embed b) /\ embed (b_shift a v) = box_shift (embed a) v /\
    embed (b_unshift a v) = box_unshift (embed a) v /\ embed (b_of_vecs v vs) = from_vectors v vs.
Proof.
  intros K NK a b v vs. split; [apply embed_join|]. split; [apply embed_shift|]. split; [apply embed_unshift|apply embed_vecs].
Qed.

Print Assumptions C27_semilattice.
Print Assumptions C27_translation.
Print Assumptions C27_from_vectors.
Print Assumptions C27_inclusion_of_points.
Print Assumptions C27_vm_boxes.
Print Assumptions C27_from_center.

(** Python [dict] with string keys: insertion ordered association list without
    duplicate keys.  Operations used by the code: [d[k]], [d.get(k)], [d[k] = v],
    [d.pop(k, None)], [d.clear()], [k in d], [d.copy()] (the identity here, values being
    immutable). *)
From Verif Require Import Base.

Definition dict (V : Type) := list (str * V).

Section Dict.
  Context {V : Type}.

  Fixpoint d_get (k : str) (d : dict V) : option V :=
    match d with
    | [] => None
    | (k', v) :: d' => if str_eqb k k' then Some v else d_get k d'
    end.

  (** [d[k] = v]: replaces in place or appends. *)
  Fixpoint d_set (k : str) (v : V) (d : dict V) : dict V :=
    match d with
    | [] => [(k, v)]
    | (k', v') :: d' => if str_eqb k k' then (k', v) :: d' else (k', v') :: d_set k v d'
    end.

  (** [d.pop(k, None)] *)
  Fixpoint d_del (k : str) (d : dict V) : dict V :=
    match d with
    | [] => []
    | (k', v') :: d' => if str_eqb k k' then d_del k d' else (k', v') :: d_del k d'
    end.

  Definition d_mem (k : str) (d : dict V) : bool :=
    match d_get k d with Some _ => true | None => false end.

  Definition d_keys (d : dict V) : list str := map fst d.

  Lemma d_get_set k k' v d :
    d_get k (d_set k' v d) = if str_eqb k k' then Some v else d_get k d.
  Proof.
    induction d as [|[a b] d IH]; cbn [d_set d_get]; [destruct (str_eqb k k'); reflexivity|].
    destruct (str_eqb k' a) eqn:E.
    - apply str_eqb_eq in E; subst a. cbn [d_get]. destruct (str_eqb k k'); reflexivity.
    - cbn [d_get]. destruct (str_eqb k a) eqn:E2; [|exact IH].
      apply str_eqb_eq in E2; subst a.
      destruct (str_eqb k k') eqn:E3; [|reflexivity].
      apply str_eqb_eq in E3; subst k'. rewrite str_eqb_refl in E; discriminate.
  Qed.

  Lemma d_get_del k k' d :
    d_get k (d_del k' d) = if str_eqb k k' then None else d_get k d.
  Proof.
    induction d as [|[a b] d IH]; cbn [d_del d_get]; [destruct (str_eqb k k'); reflexivity|].
    destruct (str_eqb k' a) eqn:E.
    - apply str_eqb_eq in E; subst a. rewrite IH. destruct (str_eqb k k'); reflexivity.
    - cbn [d_get]. destruct (str_eqb k a) eqn:E2; [|exact IH].
      apply str_eqb_eq in E2; subst a.
      destruct (str_eqb k k') eqn:E3; [|reflexivity].
      apply str_eqb_eq in E3; subst k'. rewrite str_eqb_refl in E; discriminate.
  Qed.

  Lemma d_get_in k v d : d_get k d = Some v -> In (k, v) d.
  Proof.
    induction d as [|[a b] d IH]; cbn [d_get]; [discriminate|].
    destruct (str_eqb k a) eqn:E.
    - apply str_eqb_eq in E; subst a. intros H; injection H as ->. left; reflexivity.
    - intros H. right. auto.
  Qed.

  Lemma d_in_keys_get k d : In k (d_keys d) <-> exists v, d_get k d = Some v.
  Proof.
    induction d as [|[a b] d IH]; cbn [d_keys map fst d_get In].
    - split; [tauto|intros [v H]; discriminate].
    - destruct (str_eqb k a) eqn:E.
      + apply str_eqb_eq in E; subst a. split; [eauto|auto].
      + apply str_eqb_neq in E. rewrite <- IH. unfold d_keys.
        split; [intros [H|H]; [congruence|exact H]|auto].
  Qed.

  Lemma d_mem_spec k d : d_mem k d = true <-> exists v, d_get k d = Some v.
  Proof.
    unfold d_mem. destruct (d_get k d) as [v|]; split; eauto; [discriminate|intros [v H]; discriminate].
  Qed.

  Lemma d_keys_set k v d k' :
    In k' (d_keys (d_set k v d)) <-> k' = k \/ In k' (d_keys d).
  Proof.
    rewrite !d_in_keys_get. split.
    - intros [w H]. rewrite d_get_set in H. destruct (str_eqb k' k) eqn:E.
      + left. apply str_eqb_eq; exact E.
      + right. eauto.
    - intros [->|[w H]].
      + exists v. rewrite d_get_set, str_eqb_refl. reflexivity.
      + destruct (str_eqb k' k) eqn:E; [exists v|exists w]; rewrite d_get_set, E; auto.
  Qed.
End Dict.

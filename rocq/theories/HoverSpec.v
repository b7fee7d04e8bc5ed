(** Specification vocabulary for C67. *)
From Verif Require Import Base Num Dict CoordModel Ast StateModel StateSpec HoverModel.
From Coq Require Import Qabs.
Open Scope Z_scope.

Section Spec.
  Context {K : Type} {NK : Num K} (to_Q : K -> Q).

  (** Commands are written one after the other, each takes some space. *)
  Fixpoint in_order (from : Z) (ns : list (placed K)) : Prop :=
    match ns with
    | [] => True
    | p :: r => from <= pl_loc p /\ 0 < pl_len p /\ in_order (pl_loc p + pl_len p) r
    end.
  (** The state after the commands [pre]. *)
  Definition state_after (pre : list (node K)) : result exc (state K) :=
    let* v := on_file no_hooks false pre (visitor_init tt) in Ok (v_state v).

  (** A number with [d] decimal digits and [i] digits before the point, as a float: the
      float is less than half a unit of the last digit off. *)
  Definition grid_number (i d : nat) (x : K) : Prop :=
    exists n, Z.abs n < 10 ^ Z.of_nat (i + d) /\ x = n_of_Q (inject_Z n / inject_Z (10 ^ Z.of_nat d)) /\
      (Qabs (to_Q x - inject_Z n / inject_Z (10 ^ Z.of_nat d)) * inject_Z (10 ^ Z.of_nat d) < 1 # 2)%Q.
  Definition pen_on_grid (s : state K) : Prop :=
    forall f, s_cf s = Some f -> (1 <= cf_xi f)%nat /\ (1 <= cf_xd f)%nat /\ (1 <= cf_yi f)%nat /\ (1 <= cf_yd f)%nat /\
      grid_number (cf_xi f) (cf_xd f) (s_cur_x s) /\ grid_number (cf_yi f) (cf_yd f) (s_cur_y s).
  (** Numbers are made from values, not from the way they are written. *)
  Definition reads_values : Prop := forall q q', (q == q')%Q -> n_of_Q q = n_of_Q (K := K) q'.
End Spec.

(** Proofs about composites. *)
From Verif Require Import Base Num CompositeModel CompositeSpec.
From Coq Require Import Qabs Qround Lqa.
Local Open Scope Q_scope.

Lemma q_trunc_pos q : 0 <= q -> q_trunc q = Qfloor q.
Proof.
  destruct q as [n d]. unfold q_trunc, Qfloor. cbn. intros H. unfold Qle in H. cbn in H.
  apply Z.quot_div_nonneg; lia.
Qed.
Lemma q_trunc_neg q : q <= 0 -> q_trunc q = (- Qfloor (- q))%Z.
Proof.
  destruct q as [n d]. unfold q_trunc, Qfloor. cbn. intros H. unfold Qle in H. cbn in H.
  rewrite <- (Z.opp_involutive n) at 1. rewrite Z.quot_opp_l by lia.
  rewrite Z.quot_div_nonneg by lia. reflexivity.
Qed.
Lemma q_trunc_comp a b : a == b -> q_trunc a = q_trunc b.
Proof.
  intros E. destruct (Qlt_le_dec a 0) as [H|H].
  - rewrite !q_trunc_neg by lra. rewrite E. reflexivity.
  - rewrite !q_trunc_pos by lra. rewrite E. reflexivity.
Qed.
Lemma q_trunc_bound_pos q : 0 <= q ->
  inject_Z (q_trunc q) <= q /\ q < inject_Z (q_trunc q) + 1 /\ (0 <= q_trunc q)%Z.
Proof.
  intros H. rewrite q_trunc_pos by exact H. pose proof (Qfloor_le q). pose proof (Qlt_floor q) as L.
  rewrite inject_Z_plus in L. repeat split; auto.
  assert (-1 < Qfloor q)%Z; [|lia]. rewrite Zlt_Qlt. change (inject_Z (-1)) with (-1).
  change (inject_Z 1) with 1 in L. lra.
Qed.
Lemma q_trunc_bound_neg q : q <= 0 ->
  q <= inject_Z (q_trunc q) /\ inject_Z (q_trunc q) < q + 1 /\ (q_trunc q <= 0)%Z.
Proof.
  intros H. rewrite q_trunc_neg by exact H. pose proof (Qfloor_le (- q)). pose proof (Qlt_floor (- q)) as L.
  rewrite inject_Z_plus in L. change (inject_Z 1) with 1 in L. rewrite inject_Z_opp.
  repeat split; [lra|lra|]. assert (-1 < Qfloor (- q))%Z; [|lia]. rewrite Zlt_Qlt. change (inject_Z (-1)) with (-1).
  lra.
Qed.
Lemma q_trunc_bound q : inject_Z (q_trunc q) - 1 < q /\ q < inject_Z (q_trunc q) + 1.
Proof.
  destruct (Qlt_le_dec q 0) as [H|H].
  - destruct (q_trunc_bound_neg q) as (A & B & _); lra.
  - destruct (q_trunc_bound_pos q) as (A & B & _); lra.
Qed.
Lemma q_trunc_mono a b : a <= b -> (q_trunc a <= q_trunc b)%Z.
Proof.
  intros H. destruct (Qlt_le_dec a 0) as [Ha|Ha].
  - destruct (Qlt_le_dec b 0) as [Hb|Hb].
    + rewrite !q_trunc_neg by lra. assert (Qfloor (- b) <= Qfloor (- a))%Z; [|lia].
      apply Qfloor_resp_le. lra.
    + destruct (q_trunc_bound_neg a) as (_ & _ & A); [lra|].
      destruct (q_trunc_bound_pos b) as (_ & _ & B); [lra|]. lia.
  - rewrite !q_trunc_pos by lra. apply Qfloor_resp_le. exact H.
Qed.

Lemma z_lt_of_q a b : inject_Z a < inject_Z b + 1 -> (a <= b)%Z.
Proof.
  intros H. change 1 with (inject_Z 1) in H. rewrite <- inject_Z_plus, <- Zlt_Qlt in H. lia.
Qed.
Lemma z_lt_of_q2 a b : inject_Z a < inject_Z b + 2 -> (a <= b + 1)%Z.
Proof.
  intros H. change 2 with (inject_Z 2) in H. rewrite <- inject_Z_plus, <- Zlt_Qlt in H. lia.
Qed.

(** Sizes against differences of truncated ends. *)
Lemma size_le m M : m <= M -> (q_trunc (M - m) <= q_trunc M - q_trunc m + 1)%Z.
Proof.
  intros H. destruct (q_trunc_bound_pos (M - m)) as (A & _ & _); [lra|].
  apply z_lt_of_q2. unfold Z.sub. rewrite inject_Z_plus, inject_Z_opp.
  destruct (q_trunc_bound M) as [B1 B2]. destruct (q_trunc_bound m) as [C1 C2]. lra.
Qed.
Lemma size_le_exact m M : m <= M -> 0 <= m \/ M <= 0 -> (q_trunc (M - m) <= q_trunc M - q_trunc m)%Z.
Proof.
  intros H S. destruct (q_trunc_bound_pos (M - m)) as (A & _ & _); [lra|].
  apply z_lt_of_q. unfold Z.sub. rewrite inject_Z_plus, inject_Z_opp. destruct S as [S|S].
  - destruct (q_trunc_bound_pos M) as (B & C & _); [lra|]. destruct (q_trunc_bound_pos m) as (D & E & _); [lra|]. lra.
  - destruct (q_trunc_bound_neg M) as (B & C & _); [lra|]. destruct (q_trunc_bound_neg m) as (D & E & _); [lra|]. lra.
Qed.

(** ** Extremes *)
Lemma q_ltb_true a b : q_ltb a b = true -> a < b.
Proof.
  unfold q_ltb. intros H. apply negb_true_iff in H. apply Qnot_le_lt. intros X.
  apply Qle_bool_iff in X. congruence.
Qed.
Lemma q_ltb_false a b : q_ltb a b = false -> b <= a.
Proof. unfold q_ltb. intros H. apply negb_false_iff in H. apply Qle_bool_iff. exact H. Qed.

Lemma arg_max_spec {A} (key : A -> Q) l : forall b,
  In (arg_max key b l) (b :: l) /\ (forall x, In x (b :: l) -> key x <= key (arg_max key b l)).
Proof.
  induction l as [|y l IH]; intros b; cbn [arg_max].
  - split; [left; reflexivity|]. intros x [<-|[]]. apply Qle_refl.
  - destruct (q_ltb (key b) (key y)) eqn:E.
    + apply q_ltb_true in E. destruct (IH y) as [I M]. split; [right; exact I|].
      intros x [<-|Hx]; [|apply M; exact Hx]. specialize (M y (or_introl eq_refl)). lra.
    + apply q_ltb_false in E. destruct (IH b) as [I M]. split.
      * destruct I as [I|I]; [left; exact I|right; right; exact I].
      * intros x [<-|[<-|Hx]].
        -- apply M. left. reflexivity.
        -- specialize (M b (or_introl eq_refl)). lra.
        -- apply M. right. exact Hx.
Qed.
Lemma arg_min_spec {A} (key : A -> Q) l : forall b,
  In (arg_min key b l) (b :: l) /\ (forall x, In x (b :: l) -> key (arg_min key b l) <= key x).
Proof.
  induction l as [|y l IH]; intros b; cbn [arg_min].
  - split; [left; reflexivity|]. intros x [<-|[]]. apply Qle_refl.
  - destruct (q_ltb (key y) (key b)) eqn:E.
    + apply q_ltb_true in E. destruct (IH y) as [I M]. split; [right; exact I|].
      intros x [<-|Hx]; [|apply M; exact Hx]. specialize (M y (or_introl eq_refl)). lra.
    + apply q_ltb_false in E. destruct (IH b) as [I M]. split.
      * destruct I as [I|I]; [left; exact I|right; right; exact I].
      * intros x [<-|[<-|Hx]].
        -- apply M. left. reflexivity.
        -- specialize (M b (or_introl eq_refl)). lra.
        -- apply M. right. exact Hx.
Qed.

Lemma width_eq a b : a <= b -> Qabs (b - a) == b - a.
Proof. intros H. apply Qabs_pos. lra. Qed.
Lemma x_offset_eq s : proper s -> x_offset s == sp_min_x s.
Proof. intros [H _]. unfold x_offset. rewrite width_eq by exact H. field. Qed.
Lemma y_offset_eq s : proper s -> y_offset s == sp_min_y s.
Proof. intros [_ H]. unfold y_offset. rewrite width_eq by exact H. field. Qed.

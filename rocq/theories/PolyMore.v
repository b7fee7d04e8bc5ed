(** The outline of [new_polygon]. *)
From Coq Require Import Reals Lra Lia Psatz.
From Verif Require Import Base Num NumReal GeomModel GeoSpec GeoProofs ShapeProofs SimilarProofs PolyProofs
  OutlineProofs OutlineMore Ast StateModel ExprSpec FigSpec FigProofs.
Open Scope R_scope.

Lemma turn_whole_nat (n : nat) a v : turn (a + INR n * 360) v = turn a v.
Proof.
  induction n as [|n IH]; [cbn [INR]; f_equal; ring|].
  rewrite S_INR. replace (a + (INR n + 1) * 360) with (a + INR n * 360 + 360) by ring.
  rewrite turn_360. exact IH.
Qed.
Lemma turn_whole (z : Z) a v : turn (a + IZR z * 360) v = turn a v.
Proof.
  destruct (Z.le_ge_cases 0 z) as [H|H].
  - rewrite <- (Z2Nat.id z H), <- INR_IZR_INZ. apply turn_whole_nat.
  - rewrite <- (turn_whole_nat (Z.to_nat (- z)) (a + IZR z * 360)). f_equal.
    rewrite INR_IZR_INZ, Z2Nat.id, opp_IZR by lia. ring.
Qed.
Lemma r_mod360_whole x : exists z, r_mod360 x = x + IZR z * 360.
Proof. exists (- Int_part (x / 360))%Z. unfold r_mod360. rewrite opp_IZR. ring. Qed.

Lemma path_seq (v : nat -> vec R) p : forall len k,
  path_line (map v (seq k (S len))) p <-> exists i, (k <= i < k + len)%nat /\ on_line (v i) (v (S i)) p.
Proof.
  induction len as [|len IH]; intros k.
  - split; [intros H; destruct (path_one _ _ H)|intros (i & H & _); lia].
  - change (map v (seq k (S (S len)))) with (v k :: v (S k) :: map v (seq (S (S k)) len)).
    rewrite path_cons. change (v (S k) :: map v (seq (S (S k)) len)) with (map v (seq (S k) (S len))).
    rewrite IH. split.
    + intros [On|(i & Hi & On)]; [exists k; split; [lia|exact On]|exists i; split; [lia|exact On]].
    + intros (i & Hi & On). destruct (Nat.eq_dec i k) as [->|]; [auto|right; exists i; split; [lia|exact On]].
Qed.
Lemma joined_seq (v : nat -> vec R) first p : forall len k,
  (exists x, In x (joined first (map (fun k => SLine (v k) (v (S k))) (seq k (S len)))) /\ on_seg x p) <->
  (exists i, (k <= i < k + S len)%nat /\ on_line (v i) (v (S i)) p) \/ on_line (v (k + S len)%nat) first p.
Proof.
  induction len as [|len IH]; intros k.
  - cbn [seq map joined ends fst snd]. replace (k + 1)%nat with (S k) by lia. split.
    + intros (x & Hx & On). destruct Hx as [<-|[<-|[]]]; cbn [on_seg] in On; [left; exists k; split; [lia|exact On]|auto].
    + intros [(i & Hi & On)|On].
      * replace i with k in On by lia. eexists. split; [left; reflexivity|exact On].
      * eexists. split; [right; left; reflexivity|exact On].
  - replace (k + S (S len))%nat with (S k + S len)%nat by lia.
    change (seq k (S (S len))) with (k :: S k :: seq (S (S k)) len).
    cbn [map joined ends fst snd]. specialize (IH (S k)).
    change (seq (S k) (S len)) with (S k :: seq (S (S k)) len) in IH. cbn [map joined ends fst snd] in IH.
    set (rest := SLine (v (S k)) (v (S (S k))) :: _) in *. split.
    + intros (x & Hx & On). destruct Hx as [<-|[<-|Hx]]; cbn [on_seg] in On.
      * left. exists k. split; [lia|exact On].
      * apply on_line_point in On. subst p. left. exists k. split; [lia|apply on_line_end].
      * destruct (proj1 IH (ex_intro _ x (conj Hx On))) as [(i & Hi & Oi)|Oi]; [left; exists i; split; [lia|exact Oi]|auto].
    + intros [(i & Hi & On)|On].
      * destruct (Nat.eq_dec i k) as [->|].
        -- eexists. split; [left; reflexivity|exact On].
        -- destruct (proj2 IH) as (x & Hx & Ox); [left; exists i; split; [lia|exact On]|].
           exists x. split; [right; right; exact Hx|exact Ox].
      * destruct (proj2 IH (or_intror On)) as (x & Hx & Ox). exists x. split; [right; right; exact Hx|exact Ox].
Qed.

Lemma corner_vertex c d a : vertex c d a = corner c d a. Proof. reflexivity. Qed.
Lemma polygon_outline c d n rot neg m : (3 <= n)%Z -> r_mod360 rot < 2 * (360 / IZR n) ->
  exists s, new_polygon c d n rot neg m = Ok s /\ sh_neg s = neg /\ straight s /\
    forall p, outline s p <-> ngon c d (Z.to_nat n) rot p.
Proof.
  intros Hn Hb. destruct (polygon_spec c d n rot neg m Hn) as (N & HN & HJ & E).
  rewrite E. eexists. split; [reflexivity|]. split; [reflexivity|]. split.
  { unfold straight, sides. cbn [sh_segs]. apply Forall_forall. intros x Hx. apply in_map_iff in Hx.
    destruct Hx as (k & <- & _). exact I. }
  intros p. assert (3 <= IZR n) as HR by (apply (IZR_le 3); exact Hn).
  pose proof (full_turn n Hn) as Full. assert (INR (Z.to_nat n) = IZR n) as In by (rewrite INR_IZR_INZ, Z2Nat.id by lia; reflexivity).
  set (base := r_mod360 rot) in *. set (step := 360 / IZR n) in *.
  set (v := fun k => corner c d (base + INR k * step)).
  assert (v (Z.to_nat n) = v 0%nat) as Vn.
  { unfold v. rewrite Full. cbn [INR]. unfold corner. rewrite turn_360. f_equal. f_equal. ring. }
  assert (outline (MkShape (sides c d base step (seq 0 N)) neg m) p <->
          (exists i, (0 <= i < 0 + N)%nat /\ on_line (v i) (v (S i)) p) \/ on_line (v N) (v 0%nat) p) as O.
  { destruct N as [|N']; [lia|]. unfold outline. cbn [sh_segs].
    pose proof (joined_seq v (v 0%nat) p N' 0) as J. cbn [plus Nat.add] in J. rewrite <- J. reflexivity. }
  rewrite O.
  assert (ngon c d (Z.to_nat n) rot p <-> exists i, (0 <= i < 0 + Z.to_nat n)%nat /\ on_line (v i) (v (S i)) p) as G.
  { unfold ngon. rewrite <- path_seq. rewrite In. fold step.
    destruct (r_mod360_whole rot) as (z & Ez). fold base in Ez.
    erewrite map_ext; [reflexivity|]. intros k. unfold v, corner. cbv beta.
    rewrite Ez. replace (rot + IZR z * 360 + INR k * step) with (rot + INR k * step + IZR z * 360) by ring.
    rewrite turn_whole. reflexivity. }
  rewrite G.
  assert (Z.to_nat n - 1 <= N)%nat as HN1.
  { destruct (Nat.le_gt_cases (Z.to_nat n - 1) N) as [|L]; [assumption|exfalso].
    assert (~ (N < N)%nat) as X by lia. rewrite HJ in X.
    assert (INR N <= INR (Z.to_nat n - 2)) as Y by (apply le_INR; lia).
    assert (0 < step) by (unfold step; apply Rdiv_lt_0_compat; lra).
    rewrite minus_INR in Y by lia. cbn [INR] in Y. nra. }
  assert (N = Z.to_nat n \/ S N = Z.to_nat n) as [EN|EN] by lia.
  - rewrite EN, Vn. split; [|auto]. intros [H|On]; [exact H|]. apply on_line_point in On. subst p.
    exists 0%nat. split; [lia|apply on_line_start].
  - rewrite <- EN. rewrite <- Vn, <- EN. split.
    + intros [(i & Hi & On)|On]; [exists i; split; [lia|exact On]|exists N; split; [lia|exact On]].
    + intros (i & Hi & On). destruct (Nat.eq_dec i N) as [->|]; [auto|left; exists i; split; [lia|exact On]].
Qed.

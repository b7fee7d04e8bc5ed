(** Vocabulary for C44: what a decimal text denotes.  Nothing here uses the model. *)
From Verif Require Import Base CoordSpec.
Open Scope Z_scope.

(** [DecimalText t q]: [t] is an optional sign, digits, and optionally a point with at least one
    digit after it, and its value is [q]. *)
Definition DecimalText (t : str) (q : Q) : Prop :=
  exists sgn body i f vi vf,
    SignedText sgn body t /\
    ((body = i /\ f = [] /\ i <> []) \/ (body = i ++ "."%char :: f /\ f <> [])) /\
    spec_value i = Some vi /\ spec_value f = Some vf /\
    (q == inject_Z sgn * (inject_Z vi + inject_Z vf / inject_Z (10 ^ Z.of_nat (length f))))%Q.

(** [RoundedTo d q r]: [r] is a multiple of [10^-d] nearest to [q], the even one of two. *)
Definition RoundedTo (d : nat) (q r : Q) : Prop :=
  exists m, (r == inject_Z m / inject_Z (10 ^ Z.of_nat d))%Q /\
    let x := (q * inject_Z (10 ^ Z.of_nat d))%Q in
    (inject_Z m - (1 # 2) <= x <= inject_Z m + (1 # 2))%Q /\
    ((x == inject_Z m - (1 # 2) \/ x == inject_Z m + (1 # 2))%Q -> Z.even m = true).

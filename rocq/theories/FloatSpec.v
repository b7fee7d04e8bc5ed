(** Vocabulary for C79: which numbers are doubles and which double is meant by a number. *)
From Verif Require Import Base.
From Coq Require Import Qabs Qpower.
Open Scope Z_scope.

(** A number with a mantissa of 53 bits and an exponent of at least -1074. *)
Definition is_double (f : Q) : Prop :=
  exists m e, Z.abs m < 2 ^ 53 /\ -1074 <= e /\ (f == inject_Z m * 2 ^ e)%Q.

(** No double is closer to [q]. *)
Definition nearest (q f : Q) : Prop :=
  is_double f /\ forall g, is_double g -> (Qabs (q - f) <= Qabs (q - g))%Q.

(** The last bit of the mantissa is 0; the mantissa has all its 53 bits unless the exponent is the
    least one. *)
Definition even_double (f : Q) : Prop :=
  exists m e, Z.even m = true /\ Z.abs m < 2 ^ 53 /\ -1074 <= e /\
    (2 ^ 52 <= Z.abs m \/ e = -1074) /\ (f == inject_Z m * 2 ^ e)%Q.

(** Law-free numeric structure standing for Python [float].  The model files that use it
    assume no algebraic law, so what is proved over an arbitrary [Num] holds for exact
    rationals, for reals and for IEEE doubles alike. *)
From Verif Require Import Base.

Class Num (K : Type) := {
  n_of_Q : Q -> K;                  (* float literals and [float("...")] *)
  n_add : K -> K -> K;
  n_sub : K -> K -> K;
  n_mul : K -> K -> K;
  n_div : K -> K -> K;
  n_opp : K -> K;
  n_abs : K -> K;
  n_eqb : K -> K -> bool;
  n_ltb : K -> K -> bool;
  n_leb : K -> K -> bool;
  n_sqrt : K -> K;                  (* math.sqrt *)
  n_cosd : K -> K;                  (* math.cos(math.radians(x)) *)
  n_sind : K -> K;                  (* math.sin(math.radians(x)) *)
  n_atan2d : K -> K -> K;           (* math.degrees(math.atan2(y, x)) *)
  n_mod360 : K -> K;                (* x % 360 *)
  n_trunc : K -> Z;                 (* int(x) *)
  n_repr : K -> str                 (* repr(x) *)
}.

Definition n0 {K} `{Num K} : K := n_of_Q 0.
Definition n1 {K} `{Num K} : K := n_of_Q 1.
Definition n2 {K} `{Num K} : K := n_of_Q 2.
Definition n360 {K} `{Num K} : K := n_of_Q 360.
Definition n_of_Z {K} `{Num K} (z : Z) : K := n_of_Q (inject_Z z).

(** Python [min(a, b)] and [max(a, b)] on two floats: the first argument wins ties. *)
Definition n_min {K} `{Num K} (a b : K) : K := if n_ltb b a then b else a.
Definition n_max {K} `{Num K} (a b : K) : K := if n_ltb a b then b else a.

(** Rational instance, used to compute concrete witnesses.  [n_sqrt] is exact on squares of
    rationals (in lowest terms), the trigonometric functions are exact on multiples of 90
    degrees; other arguments give unspecified values and are not used in witnesses. *)
Definition q_sqrt (q : Q) : Q :=
  let r := Qred q in Qmake (Z.sqrt (Qnum r)) (Z.to_pos (Z.sqrt (Z.pos (Qden r)))).
Definition q_mod360 (q : Q) : Q :=
  Qred (q - inject_Z (360 * (Qnum q / (360 * Z.pos (Qden q)))))%Q.
Definition q_cosd (q : Q) : Q :=
  let r := q_mod360 q in
  if Qeq_bool r 0 then 1 else if Qeq_bool r 180 then -(1) else 0.
Definition q_sind (q : Q) : Q :=
  let r := q_mod360 q in
  if Qeq_bool r 90 then 1 else if Qeq_bool r 270 then -(1) else 0.
Definition q_ltb (a b : Q) : bool := negb (Qle_bool b a).
Definition q_atan2d (y x : Q) : Q :=
  if Qeq_bool y 0 then (if q_ltb x 0 then 180 else 0)
  else if Qeq_bool x 0 then (if q_ltb 0 y then 90 else -(90))
  else if Qeq_bool x y then (if q_ltb 0 x then 45 else -(135))
  else if Qeq_bool x (-y) then (if q_ltb 0 x then -(45) else 135) else 0.
Definition z_repr (z : Z) : str :=
  if (z <? 0)%Z then ch_minus :: int_digits (- z) else int_digits z.
Definition q_repr (q : Q) : str :=
  z_repr (Qnum q) ++ lit "/" ++ z_repr (Z.pos (Qden q)).
Definition q_trunc (q : Q) : Z := Z.quot (Qnum q) (Z.pos (Qden q)).

Definition NumQ : Num Q := {|
  n_of_Q := Qred;
  n_add a b := Qred (a + b);
  n_sub a b := Qred (a - b);
  n_mul a b := Qred (a * b);
  n_div a b := Qred (a / b);
  n_opp a := Qred (- a);
  n_abs a := Qred (if q_ltb a 0 then - a else a);
  n_eqb := Qeq_bool;
  n_ltb := q_ltb;
  n_leb := Qle_bool;
  n_sqrt := q_sqrt;
  n_cosd := q_cosd;
  n_sind := q_sind;
  n_atan2d := q_atan2d;
  n_mod360 := q_mod360;
  n_trunc := q_trunc;
  n_repr := q_repr
|}.

(** Specification vocabulary for C72: where the coordinates of a command are. *)
From Verif Require Import Base Num CoordModel Ast GramAst LocModel LocSpec SpotModel.
Local Open Scope nat_scope.

(** Axes are written with upper or lower case letters; coordinates are signed integers. *)
Definition axis_letter (a c : ascii) : Prop :=
  In (a, c) [("X", "X"); ("X", "x"); ("Y", "Y"); ("Y", "y"); ("I", "I"); ("I", "i"); ("J", "J"); ("J", "j")]%char.
Definition integer_text (v : str) : Prop :=
  exists sg d, v = sg ++ d /\ In sg [[]; ["+"]; ["-"]]%char /\ d <> [] /\ Forall (fun c => is_digit c = true) d.

(** [l] are the coordinates written in [t], which begins at offset [from]: a coordinate is a
    letter and a number, perhaps with white space in between; it is located at its letter, and
    its length is that of letter and number. *)
Inductive placed : nat -> str -> list spot -> Prop :=
| pl_none from t : Forall (fun c => forall a, ~ axis_letter a c) t -> placed from t []
| pl_next from gap a c w v rest l :
    Forall (fun c => blank c = true) gap -> axis_letter a c -> Forall (fun c => blank c = true) w -> integer_text v ->
    placed (from + length gap + 1 + length w + length v) rest l ->
    placed from (gap ++ c :: w ++ v ++ rest) (MkSpot a v (from + length gap) (1 + length v) :: l).

(** The coordinates of a command, in the order in which they are written. *)
Definition given {K T} (c : cmd K T) : list (ascii * str) :=
  let one a o := match o with Some v => [(a, v)] | None => [] end in
  match c with
  | CD01 _ x y i j => one "X"%char x ++ one "Y"%char y ++ one "I"%char i ++ one "J"%char j
  | CD02 _ x y | CD03 _ x y => one "X"%char x ++ one "Y"%char y
  | _ => []
  end.
Definition d_command {K T} (c : cmd K T) : Prop :=
  match c with CD01 _ _ _ _ _ | CD02 _ _ _ | CD03 _ _ _ | CDnn _ _ => True | _ => False end.

(** Layers of a board in one picture. *)
From Verif Require Import Base Num CompositeModel.
Local Open Scope Q_scope.

(** A point of the board, in millimetres, in the units of a file. *)
Definition in_file_units (s : ispace) (mm : Q) : Q := if sp_inch s then mm / (254 # 10) else mm.
(** The point lies in the box of a file. *)
Definition covers (i : sub_image) (x y : Q) : Prop :=
  let s := si_space i in
  sp_min_x s <= in_file_units s x <= sp_max_x s /\ sp_min_y s <= in_file_units s y <= sp_max_y s.
(** Where a file, pasted at [p], shows a point of the board. *)
Definition shown_at (i : sub_image) (p : Z * Z) (x y : Q) : Z * Z :=
  (fst p + pixel_x i (in_file_units (si_space i) x),
   snd p + pixel_y i (in_file_units (si_space i) y))%Z.

Definition proper (s : ispace) : Prop := sp_min_x s <= sp_max_x s /\ sp_min_y s <= sp_max_y s.
(** [v] within [lo] and [hi] of [w], strictly. *)
Definition off_by (lo hi : Q) (v : Z) (w : Q) : Prop := w - lo < inject_Z v /\ inject_Z v < w + hi.

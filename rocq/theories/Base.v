(** Common vocabulary of the model: Python exceptions as values and Python
    [str] operations on character lists.  No property is stated here. *)
From Coq Require Export Ascii String.
From Coq Require Export Bool Arith ZArith QArith Lia List.
Export ListNotations.
Open Scope list_scope.
Open Scope nat_scope.

(** Python exceptions that the modelled code can raise.  [MsgError] is used for
    builtin exceptions (ValueError, KeyError, AssertionError, ...), tagged by name. *)
Inductive result (E A : Type) : Type :=
| Ok (a : A)
| Err (e : E).
Arguments Ok {E A} a.
Arguments Err {E A} e.

Definition bind {E A B} (r : result E A) (f : A -> result E B) : result E B :=
  match r with Ok a => f a | Err e => Err e end.

Notation "'let*' x ':=' r 'in' k" := (bind r (fun x => k))
  (at level 200, x pattern, r at level 100, k at level 200, right associativity).

Definition is_ok {E A} (r : result E A) : bool :=
  match r with Ok _ => true | Err _ => false end.

(** Python [str] as a list of characters (only the ASCII range is modelled). *)
Definition str := list ascii.

(** Literal strings: [S "abc"]. *)
Definition lit (s : string) : str := list_ascii_of_string s.

Fixpoint str_eqb (a b : str) : bool :=
  match a, b with
  | [], [] => true
  | x :: a', y :: b' => Ascii.eqb x y && str_eqb a' b'
  | _, _ => false
  end.

Lemma str_eqb_eq a b : str_eqb a b = true <-> a = b.
Proof.
  revert b; induction a as [|x a IH]; intros [|y b]; simpl; try (split; congruence).
  rewrite andb_true_iff, Ascii.eqb_eq, IH. split; [intros [-> ->]; reflexivity|].
  intros H; injection H as -> ->; auto.
Qed.

Lemma str_eqb_refl a : str_eqb a a = true.
Proof. apply str_eqb_eq; reflexivity. Qed.

Lemma str_eqb_neq a b : str_eqb a b = false <-> a <> b.
Proof.
  destruct (str_eqb a b) eqn:E.
  - apply str_eqb_eq in E. split; congruence.
  - split; [intros _ ->; rewrite str_eqb_refl in E; discriminate | reflexivity].
Qed.

(** [s.rjust(w, c)] and [s.ljust(w, c)]. *)
Definition rjust (w : nat) (c : ascii) (s : str) : str := repeat c (w - length s) ++ s.
Definition ljust (w : nat) (c : ascii) (s : str) : str := s ++ repeat c (w - length s).

(** [s.lstrip(c)] and [s.rstrip(c)] for a single character. *)
Fixpoint lstrip (c : ascii) (s : str) : str :=
  match s with
  | [] => []
  | x :: s' => if Ascii.eqb x c then lstrip c s' else s
  end.
Definition rstrip (c : ascii) (s : str) : str := rev (lstrip c (rev s)).

(** [a or b] on strings: the empty string is falsy. *)
Definition str_or (a b : str) : str := match a with [] => b | _ => a end.

(** [s.split(c)] for a single character separator: always at least one part. *)
Fixpoint split_on (c : ascii) (s : str) : list str :=
  match s with
  | [] => [[]]
  | x :: s' =>
      if Ascii.eqb x c then [] :: split_on c s'
      else match split_on c s' with
           | [] => [[x]]               (* impossible: split_on is never empty *)
           | p :: ps => (x :: p) :: ps
           end
  end.

(** Decimal digits. *)
Definition ch_zero : ascii := "0"%char.
Definition ch_dot : ascii := "."%char.
Definition ch_plus : ascii := "+"%char.
Definition ch_minus : ascii := "-"%char.

Definition is_digit (c : ascii) : bool :=
  (N.leb 48 (N_of_ascii c) && N.leb (N_of_ascii c) 57)%bool.

Definition digit_char (z : Z) : ascii := ascii_of_N (48 + Z.to_N (z mod 10)).
Definition digit_val (c : ascii) : Z := (Z.of_N (N_of_ascii c) - 48)%Z.

(** The [w] least significant decimal digits of [n], most significant first. *)
Fixpoint fixed_digits (w : nat) (n : Z) : str :=
  match w with
  | O => []
  | S w' => fixed_digits w' (n / 10) ++ [digit_char n]
  end.

(** [str(n)] for a non-negative integer [n]. *)
Definition int_digits (n : Z) : str :=
  str_or (lstrip ch_zero (fixed_digits (S (Z.to_nat (Z.log2 n))) n)) [ch_zero].

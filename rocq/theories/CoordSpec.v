(** Specification vocabulary for the coordinate properties C01-C03.  Nothing here uses the
    model's helper functions; [PackFaithful] mentions only the two operations it is about. *)
From Verif Require Import Base CoordModel.
From Coq Require Import Qround Qabs.
Open Scope Z_scope.

(** Value of one decimal digit character, [None] for any other character. *)
Definition spec_digit (c : ascii) : option Z :=
  if Ascii.eqb c "0" then Some 0 else if Ascii.eqb c "1" then Some 1
  else if Ascii.eqb c "2" then Some 2 else if Ascii.eqb c "3" then Some 3
  else if Ascii.eqb c "4" then Some 4 else if Ascii.eqb c "5" then Some 5
  else if Ascii.eqb c "6" then Some 6 else if Ascii.eqb c "7" then Some 7
  else if Ascii.eqb c "8" then Some 8 else if Ascii.eqb c "9" then Some 9 else None.

(** Positional value of a digit string, [None] if some character is not a digit. *)
Fixpoint spec_value (s : str) : option Z :=
  match s with
  | [] => Some 0
  | c :: t => match spec_digit c, spec_value t with
              | Some a, Some b => Some (a * 10 ^ Z.of_nat (length t) + b)
              | _, _ => None
              end
  end.

(** [SignedText sg ds s]: [s] is [ds] with the optional sign written in front. *)
Inductive SignedText : Z -> str -> str -> Prop :=
| st_none ds : SignedText 1 ds ds
| st_plus ds : SignedText 1 ds ("+"%char :: ds)
| st_minus ds : SignedText (-1) ds ("-"%char :: ds).

(** Full statement: packing either succeeds with a text that decodes to a value within
    half a unit in the last place, or reports that the value is out of range. *)
Definition PackFaithful (z : zeros) (i d : nat) (q : Q) : Prop :=
  (exists s q', pack z i d q = Ok s /\ unpack z i d s = Ok q' /\
     (Qabs (q' - q) * inject_Z (10 ^ Z.of_nat d) <= 1 # 2)%Q)
  \/ (pack z i d q = Err TooLong /\
      (inject_Z (10 ^ Z.of_nat (i + d)) - (1 # 2) <= Qabs q * inject_Z (10 ^ Z.of_nat d))%Q).


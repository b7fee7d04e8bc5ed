(** C92: what a snippet of the language server protocol stands for, and the apertures a program
    defines. *)
From Verif Require Import Base Num CoordModel Ast.

(** A snippet is text with places ["${1:name}"] to be filled in: a number and a name. *)
Inductive where_in := Outside | Brace | Number | Colon (d : ascii) | Name (d : ascii) (name : str).
Fixpoint pieces (m : where_in) (s : str) : list (ascii + ascii * str) :=
  match s with
  | [] => []
  | c :: r =>
      match m with
      | Outside => if Ascii.eqb c "$" then pieces Brace r else inl c :: pieces Outside r
      | Brace => pieces Number r
      | Number => pieces (Colon c) r
      | Colon d => pieces (Name d []) r
      | Name d n => if Ascii.eqb c "}" then inr (d, n) :: pieces Outside r else pieces (Name d (n ++ [c])) r
      end
  end.
Definition put (f : ascii -> str -> str) (p : ascii + ascii * str) : str :=
  match p with inl c => [c] | inr (d, n) => f d n end.
Definition filled (f : ascii -> str -> str) (s : str) : str := concat (map (put f) (pieces Outside s)).
(** The numbers, in the order of the places. *)
Definition numbers (s : str) : list ascii := flat_map (fun p => match p with inr (d, _) => [d] | inl _ => [] end) (pieces Outside s).
(** As offered, every place holds its name. *)
Definition as_offered : ascii -> str -> str := fun _ n => n.

Section Defined.
  Context {K : Type}.
  (** The last AD command for [id] among the executed commands, and whether a block has it. *)
  Definition last_ad (id : str) (cmds : list (node K)) : option (ad K) :=
    fold_left (fun d n => match n with NAD a => if str_eqb id (ad_id a) then Some a else d | _ => d end) cmds None.
  Definition block_defined (id : str) (cmds : list (node K)) : Prop := exists b, In (NAB id b) cmds.
End Defined.

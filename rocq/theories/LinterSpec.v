(** What the linter's report should contain, stated on the tree alone. *)
From Verif Require Import Base Num Ast LinterModel.
Local Open Scope nat_scope.

Section Tree.
  Context {K : Type}.

  (** Every command with its path, in document order. *)
  Fixpoint commands (p : path) (n : node K) {struct n} : list (path * node K) :=
    let inner := fix inner (i : nat) (ns : list (node K)) : list (path * node K) :=
      match ns with
      | [] => []
      | n :: r => commands (p ++ [i]) n ++ inner (S i) r
      end in
    (p, n) :: match n with NAB _ body | NSR _ _ body => inner 1 body | _ => [] end.
  Definition commands_list (p : path) := fix inner (i : nat) (ns : list (node K)) : list (path * node K) :=
    match ns with
    | [] => []
    | n :: r => commands (p ++ [i]) n ++ inner (S i) r
    end.
  Definition all_commands (f : list (node K)) := commands_list [] 0 f.

  Definition is_g (g : gcode) (n : node K) : bool :=
    match n with NG h => gcode_beq g h | _ => false end.
  (** The places of one G code. *)
  Definition places (g : gcode) (f : list (node K)) : list path :=
    map fst (filter (fun pn => is_g g (snd pn)) (all_commands f)).

  (** The tree without the commands at the selected paths. *)
  Section Prune.
    Variable sel : path -> bool.
    Fixpoint prune (p : path) (n : node K) {struct n} : node K :=
      let inner := fix inner (i : nat) (ns : list (node K)) : list (node K) :=
        match ns with
        | [] => []
        | n :: r => if sel (p ++ [i]) then inner (S i) r else prune (p ++ [i]) n :: inner (S i) r
        end in
      match n with
      | NAB id body => NAB id (inner 1 body)
      | NSR u h body => NSR u h (inner 1 body)
      | n => n
      end.
    Definition prune_list (p : path) := fix inner (i : nat) (ns : list (node K)) : list (node K) :=
      match ns with
      | [] => []
      | n :: r => if sel (p ++ [i]) then inner (S i) r
                  else prune (p ++ [i]) n :: inner (S i) r
      end.
    Definition prune_file (f : list (node K)) : list (node K) := prune_list [] 0 f.
  End Prune.

  (** A program stop somewhere in a node. *)
  Fixpoint has_stop (n : node K) : bool :=
    match n with
    | NAB _ body | NSR _ _ body => existsb has_stop body
    | NM00 | NM02 => true
    | _ => false
    end.
  Definition no_stop_in_step_repeat (f : list (node K)) : Prop :=
    forall u h body, In (NSR u h body) f -> has_stop (NSR u h body) = false.

  (** The command that precedes, in document order: interpolation commands and ends of
      block apertures, the latter after the contents of the block. *)
  Inductive mark := MInterp (g : gcode) | MBlockEnd.
  Definition interp (g : gcode) : bool := match g with G01 | G02 | G03 => true | _ => false end.
  Fixpoint marks (p : path) (n : node K) {struct n} : list (mark * path) :=
    let inner := fix inner (i : nat) (ns : list (node K)) : list (mark * path) :=
      match ns with
      | [] => []
      | n :: r => marks (p ++ [i]) n ++ inner (S i) r
      end in
    match n with
    | NG g => if interp g then [(MInterp g, p)] else []
    | NAB _ body => inner 1 body ++ [(MBlockEnd, p ++ [S (length body)])]
    | NSR _ _ body => inner 1 body
    | _ => []
    end.
  Definition marks_list (p : path) := fix inner (i : nat) (ns : list (node K)) : list (mark * path) :=
    match ns with
    | [] => []
    | n :: r => marks (p ++ [i]) n ++ inner (S i) r
    end.
  (** Interpolation commands equal to the mark directly before. *)
  Fixpoint repeats (before : option mark) (l : list (mark * path)) : list (gcode * path) :=
    match l with
    | [] => []
    | (MBlockEnd, _) :: r => repeats (Some MBlockEnd) r
    | (MInterp g, p) :: r =>
        (match before with
         | Some (MInterp h) => if gcode_beq h g then [(g, p)] else []
         | _ => []
         end) ++ repeats (Some (MInterp g)) r
    end.
  Definition repeated (f : list (node K)) : list (gcode * path) := repeats None (marks_list [] 0 f).
End Tree.

(** Which rules are asked for. *)
Definition active (ids : option (list str)) (c : rclass) : Prop :=
  match ids with None | Some [] => True | Some l => In (rule_id c) l end.

(** Interpolation commands as they are written. *)
Definition written (g : gcode) : str :=
  match g with G01 => lit "G01" | G02 => lit "G02" | G03 => lit "G03" | _ => [] end.

(** A violation of the given rule at a source location. *)
Definition at_place (id title : str) (s : option srcinfo) : violation :=
  match s with
  | None => MkViol id title 0 0 0 0
  | Some (MkSI loc len line col) => MkViol id title loc (loc + len) line col
  end.
Definition of_rule (c : rclass) (vs : list violation) : list violation :=
  filter (fun v => str_eqb (vl_rule v) (rule_id c)) vs.

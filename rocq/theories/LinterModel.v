(** Model of the linter, [gerber/linter/**]: [lint], [Linter.lint], [EventAstVisitor], the
    rules DEP001, DEP002 and GRB001.

    A node is addressed by its path: the file's nodes are children 0, 1, ...; the children
    of an AB or SR node are its header, its inner nodes and its closing command, in this
    order.  [src] gives the [source_info] of the node at a path, which may be absent. *)
From Verif Require Import Base Num Ast.
Local Open Scope nat_scope.

Definition path := list nat.

(** [type(node)].  The classes no rule of the registry listens to are not told apart. *)
Inductive cls := KG (g : gcode) | KABclose | KOther.
Scheme Equality for gcode.
Definition cls_eqb (a b : cls) : bool :=
  match a, b with
  | KG g, KG h => gcode_beq g h
  | KABclose, KABclose | KOther, KOther => true
  | _, _ => false
  end.

(** [nodes/base.py] 19-58: start, length, line and column. *)
Record srcinfo := MkSI { si_location : Z; si_length : Z; si_line : Z; si_column : Z }.

(** [rule_violation.py]; the [description] text is left out. *)
Record violation := MkViol {
  vl_rule : str; vl_title : str;
  vl_start : Z; vl_end : Z; vl_line : Z; vl_column : Z }.

(** [_trigger_listeners] calls made while visiting a node: [event_ast_visitor.py] 113-...,
    each callback triggers and then continues as [AstVisitor] does ([ast_visitor.py]:
    [on_ab] and [on_sr] visit header, inner nodes, closing command).  Nodes inside macros,
    coordinates and the second trigger of AD, TA, TF and TO nodes are left out: nothing
    listens to these classes. *)
Section Events.
  Context {K : Type}.
  Fixpoint events (p : path) (n : node K) {struct n} : list (cls * path) :=
    let inner := fix inner (i : nat) (ns : list (node K)) : list (cls * path) :=
      match ns with
      | [] => []
      | n :: r => events (p ++ [i]) n ++ inner (S i) r
      end in
    match n with
    | NAB _ body =>
        (KOther, p) :: (KOther, p ++ [0]) :: inner 1 body
        ++ [(KABclose, p ++ [S (length body)])]
    | NSR _ _ body =>
        (KOther, p) :: (KOther, p ++ [0]) :: inner 1 body
        ++ [(KOther, p ++ [S (length body)])]
    | NG g => [(KG g, p)]
    | _ => [(KOther, p)]
    end.
  Definition events_list (p : path) := fix inner (i : nat) (ns : list (node K)) : list (cls * path) :=
    match ns with
    | [] => []
    | n :: r => events (p ++ [i]) n ++ inner (S i) r
    end.
  (** [ast.visit(event_ast_visitor)]; listeners never raise. *)
  Definition file_events (f : list (node K)) : list (cls * path) := events_list [] 0 f.
End Events.

(** The three rule classes, and a rule object: its class and [last_node] of GRB001. *)
Inductive rclass := DEP001 | DEP002 | GRB001.
Record rule := MkRule { ru_class : rclass; ru_last : option cls }.

Definition rule_id (c : rclass) : str :=
  match c with DEP001 => lit "DEP001" | DEP002 => lit "DEP002" | GRB001 => lit "GRB001" end.

(** [get_trigger_nodes]: DEP001.py 22, DEP002.py 22, GRB001.py 37-39. *)
Definition triggers (c : rclass) : list cls :=
  match c with
  | DEP001 => [KG G54]
  | DEP002 => [KG G55]
  | GRB001 => [KG G01; KG G02; KG G03; KABclose]
  end.

(** [get_violation_title]; for GRB001 lines 16-22.  [__qualname__] of the last class. *)
Definition qualname (c : cls) : str :=
  match c with
  | KG G01 => lit "G01" | KG G02 => lit "G02" | KG G03 => lit "G03"
  | KABclose => lit "ABclose" | _ => []
  end.
Definition title (r : rule) : str :=
  match ru_class r with
  | DEP001 => lit "Use of deprecated G54 code."
  | DEP002 => lit "Use of deprecated G55 code."
  | GRB001 =>
      lit "Redundant "
      ++ match ru_last r with None => lit "G01/G02/G03" | Some c => qualname c end
      ++ lit " command."
  end.

(** [Rule.report_violation], rule.py 46-62. *)
Definition report_violation (r : rule) (s : option srcinfo) : violation :=
  match s with
  | None => MkViol (rule_id (ru_class r)) (title r) 0 0 0 0
  | Some s => MkViol (rule_id (ru_class r)) (title r)
                (si_location s) (si_location s + si_length s) (si_line s) (si_column s)
  end.

(** [reset]: static_rule.py 35-36, GRB001.py 48-50. *)
Definition reset (r : rule) : rule :=
  match ru_class r with GRB001 => MkRule GRB001 None | c => MkRule c (ru_last r) end.

(** [node_callback]: static_rule.py 31-33, GRB001.py 41-46. *)
Definition is_interp (c : cls) : bool :=
  match c with KG G01 | KG G02 | KG G03 => true | _ => false end.
Definition node_callback (r : rule) (c : cls) (s : option srcinfo) : rule * list violation :=
  match ru_class r with
  | GRB001 =>
      let same := match ru_last r with Some l => cls_eqb l c | None => false end in
      (MkRule GRB001 (Some c),
       if is_interp c && same then [report_violation r s] else [])
  | _ => (r, [report_violation r s])
  end.

(** [EventAstVisitor.listeners] and [register_listener], event_ast_visitor.py 95-101: a bound
    method is the index of its rule object in [Linter.rules]. *)
Definition listeners := cls -> list nat.
Definition no_listeners : listeners := fun _ => [].
Definition register_listener (c : cls) (i : nat) (L : listeners) : listeners :=
  fun c' => if cls_eqb c c' then L c' ++ [i] else L c'.
(** [bind_rule_to_ast_visitor], rule.py 33-36. *)
Definition bind_rule (i : nat) (r : rule) (L : listeners) : listeners :=
  fold_left (fun L c => register_listener c i L) (triggers (ru_class r)) L.
Fixpoint bind_rules (i : nat) (rs : list rule) (L : listeners) : listeners :=
  match rs with
  | [] => L
  | r :: rest => bind_rules (S i) rest (bind_rule i r L)
  end.

Section Lint.
  Context {K : Type} (src : path -> option srcinfo).

  (** [_trigger_listeners], event_ast_visitor.py 103-107: each listener in turn; the rule
      objects are mutated in place, the collector is appended to. *)
  Fixpoint set_nth {A} (i : nat) (x : A) (l : list A) : list A :=
    match l, i with
    | [], _ => []
    | _ :: r, 0 => x :: r
    | y :: r, S i => y :: set_nth i x r
    end.
  Definition call_listener (c : cls) (p : path) (st : list rule * list violation) (i : nat)
    : list rule * list violation :=
    match nth_error (fst st) i with
    | None => st
    | Some r =>
        let '(r', vs) := node_callback r c (src p) in
        (set_nth i r' (fst st), snd st ++ vs)
    end.
  Definition trigger (L : listeners) (st : list rule * list violation) (e : cls * path)
    : list rule * list violation :=
    fold_left (call_listener (fst e) (snd e)) (L (fst e)) st.

  (** [Linter.lint], linter.py 25-36: the rule objects afterwards and the report. *)
  Definition lint_with (rs : list rule) (f : list (node K)) : list rule * list violation :=
    let rs := map reset rs in
    fold_left (trigger (bind_rules 0 rs no_listeners)) (file_events f) (rs, []).

  (** [RULE_REGISTRY] in registration order (rules/__init__.py imports DEP001, DEP002, GRB001). *)
  Definition registry : list rclass := [DEP001; DEP002; GRB001].
  Definition find_rule (id : str) : option rclass :=
    find (fun c => str_eqb (rule_id c) id) registry.
  Definition new_rule (c : rclass) : rule := MkRule c None.
  Fixpoint rule_objects (ids : list str) : result str (list rule) :=
    match ids with
    | [] => Ok []
    | id :: r =>
        match find_rule id with
        | None => Err id                                    (* KeyError *)
        | Some c => let* l := rule_objects r in Ok (new_rule c :: l)
        end
    end.

  (** [lint], __init__.py 24-45. *)
  Definition lint (f : list (node K)) (ids : option (list str)) : result str (list violation) :=
    match ids with
    | Some (id :: rest) =>
        let* rs := rule_objects (id :: rest) in Ok (snd (lint_with rs f))
    | _ => Ok (snd (lint_with (map new_rule registry) f))
    end.
End Lint.

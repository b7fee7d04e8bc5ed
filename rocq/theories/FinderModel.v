(** Model of [NodeFinder], [gerber/ast/node_finder.py].

    A node is a tree: the children of AB, SR and AM nodes are the sequence their callbacks
    search ([open, *nodes, close]), every other node has none (the inherited callbacks visit
    coordinates and expressions but never touch [return_node]).  [ft_start] is
    [source_info.line] and [source_info.column], absent when [source_info] is [None];
    [ft_name] stands for everything else. *)
From Verif Require Import Base.
Local Open Scope nat_scope.

Record pos := MkPos { p_line : Z; p_column : Z }.
Inductive ftree := FT (name : str) (start : option pos) (kids : list ftree).
Definition ft_start (t : ftree) : option pos := let 'FT _ s _ := t in s.
Definition ft_kids (t : ftree) : list ftree := let 'FT _ _ k := t in k.

(** [return_node]: the file, [None], or a node. *)
Inductive found := FFile | FNothing | FNode (t : ftree).
Inductive ferr := FIndexError | FFuel.

Section Find.
  Variable loc : pos.

  (** [_bin_search] 76-106, with [on_am], [on_ab], [on_sr] 61-74 inlined where the single node
      is visited.  [rn] is [self.return_node]; the result is the returned node and the new
      [self.return_node]. *)
  Fixpoint bin_search (fuel : nat) (ns : list ftree) (rn : found)
    : result ferr (found * found) :=
    match fuel with
    | 0 => Err FFuel
    | S fuel =>
        match ns with
        | [] => Err FIndexError
        | [n] =>
            let visit :=
              match ft_kids n with
              | [] => Ok (FNode n, FNode n)
              | ks => let* r := bin_search fuel ks (FNode n) in Ok (snd r, snd r)
              end in
            match ft_start n with
            | Some p => if (p_column loc <? p_column p)%Z then Ok (FNothing, FNothing) else visit
            | None => visit
            end
        | _ =>
            let c := Nat.div (length ns) 2 in
            match nth_error ns c with
            | None => Err FIndexError
            | Some center =>
                match ft_start center with
                | None => Ok (FFile, rn)
                | Some p =>
                    if (p_line loc =? p_line p)%Z then
                      if (p_column loc =? p_column p)%Z then bin_search fuel [center] rn
                      else if (p_column loc <? p_column p)%Z then bin_search fuel (firstn c ns) rn
                      else bin_search fuel (skipn c ns) rn
                    else if (p_line loc <? p_line p)%Z then bin_search fuel (firstn c ns) rn
                    else bin_search fuel (skipn c ns) rn
                end
            end
        end
    end.

  (** [find_node] 41-46 and [on_file] 48-59. *)
  Definition find_node (fuel : nat) (f : list ftree) : result ferr found :=
    match f with
    | [] => Ok FFile
    | [n] => Ok (FNode n)
    | _ => let* r := bin_search fuel f FFile in Ok (fst r)
    end.
End Find.

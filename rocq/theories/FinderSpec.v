(** Which command a position belongs to. *)
From Verif Require Import Base FinderModel.
Local Open Scope nat_scope.

(** Positions in reading order. *)
Definition before (a b : pos) : Prop :=
  (p_line a < p_line b \/ (p_line a = p_line b /\ p_column a < p_column b))%Z.
Definition at_or_before (a b : pos) : bool :=
  (p_line a <? p_line b)%Z || ((p_line a =? p_line b)%Z && (p_column a <=? p_column b)%Z).

(** All commands in document order: a block before its contents. *)
Fixpoint document (t : ftree) : list ftree :=
  let 'FT _ _ kids := t in t :: flat_map document kids.
Definition documents (f : list ftree) : list ftree := flat_map document f.

(** The last command that starts at or before a position. *)
Definition starts_by (loc : pos) (t : ftree) : bool :=
  match ft_start t with Some p => at_or_before p loc | None => false end.
Definition last_opt {A} (l : list A) : option A :=
  match l with [] => None | x :: r => Some (last r x) end.
Definition last_started (loc : pos) (f : list ftree) : option ftree :=
  last_opt (filter (starts_by loc) (documents f)).

(** Located trees: a block starts with its header, and whatever is inside a command starts
    before the next command. *)
Definition starts_before (a b : ftree) : Prop :=
  exists p q, ft_start a = Some p /\ ft_start b = Some q /\ before p q.
Inductive located : ftree -> Prop :=
| LocLeaf name p : located (FT name (Some p) [])
| LocBlock name p n k kids :
    ft_start k = Some p -> located_list (k :: n :: kids) ->
    located (FT name (Some p) (k :: n :: kids))
with located_list : list ftree -> Prop :=
| LocNil : located_list []
| LocCons n r :
    located n -> (forall d m, In d (document n) -> In m r -> starts_before d m) ->
    located_list r -> located_list (n :: r).

(** The nested commands a position lies in, outermost first. *)
Inductive within (loc : pos) : list ftree -> list ftree -> Prop :=
| WLeaf l t r : starts_by loc t = true -> (forall m, In m r -> starts_by loc m = false) ->
    ft_kids t = [] -> within loc (l ++ t :: r) [t]
| WBlock l t r c : starts_by loc t = true -> (forall m, In m r -> starts_by loc m = false) ->
    within loc (ft_kids t) c -> within loc (l ++ t :: r) (t :: c).

(** Specification vocabulary for C72: nodes that lie one after the other in a text. *)
From Verif Require Import Base Num CoordModel Ast GramAst PegModel LocModel FinderModel PosModel.
Local Open Scope nat_scope.

(** White space: space, line feed, tab and carriage return. *)
Definition blank (c : ascii) : bool := existsb (Ascii.eqb c) [" "; "010"; "009"; "013"]%char.
Definition blanks (u : str) : nat := length (filter blank u).
(** Texts without asterisks and percent signs; commands; extended commands. *)
Definition clean (u : str) : Prop := Forall (fun c => c <> "*"%char /\ c <> "%"%char) u.
Definition plain_text (u : str) : Prop := exists b, u = b ++ ["*"%char] /\ clean b.
Definition extended_text (u : str) : Prop :=
  exists b w, u = "%"%char :: b ++ "*"%char :: w ++ ["%"%char] /\ clean b /\ Forall (fun c => blank c = true) w.

(** The number of a G code. *)
Definition g_number (g : gcode) : string :=
  match g with
  | G01 => "1" | G02 => "2" | G03 => "3" | G36 => "36" | G37 => "37" | G54 => "54" | G55 => "55"
  | G70 => "70" | G71 => "71" | G74 => "74" | G75 => "75" | G90 => "90" | G91 => "91"
  end%string.

Section Spec.
  Context {K T : Type}.
  Notation lnode := (lnode K T).

  Definition kind_of (x : lnode) : lkind K T := let 'LN k _ _ _ := x in k.
  Definition start_of (x : lnode) : nat := let 'LN _ l _ _ := x in l.
  Definition length_of (x : lnode) : nat := let 'LN _ _ n _ := x in n.
  Definition inside (x : lnode) : list lnode := let 'LN _ _ _ l := x in l.

  (** Blocks and macros have a header, contents and an end; other nodes have no parts. *)
  Definition framed (k : lkind K T) (kids : list lnode) : Prop :=
    let frame ko kc P := exists o m c, kids = o :: m ++ [c] /\ kind_of o = ko /\ kind_of c = kc /\ P m in
    match k with
    | KCmd (CAB _ body) | KCmd (CSR _ body) => frame KOpen KClose (fun m => map kind_of m = map KCmd body)
    | KCmd (CAM _ ps) => frame KMacroOpen KMacroClose (fun m => map kind_of m = map KPrim ps)
    | _ => kids = []
    end.
  (** How the text of a node looks: what is between the asterisks and percent signs. *)
  Definition written (k : lkind K T) (u : str) : Prop :=
    match k with
    | KCmd (CD01 _ _ _ _ _) | KCmd (CD02 _ _ _) | KCmd (CD03 _ _ _) | KCmd (CDnn _ _) | KCmd (CG true _) | KCmd (CG04 _) | KCmd CM00 | KCmd CM01 | KCmd CM02 | KPrim _ => plain_text u
    | KCmd (CG false g) => exists n, u = "G"%char :: repeat "0"%char n ++ lit (g_number g)
    | KCmd (CAB _ _) | KCmd (CSR _ _) | KCmd (CAM _ _) => exists b, u = b ++ ["%"%char]
    | KOpen | KClose => extended_text u
    | KMacroOpen => exists b, u = "%"%char :: b ++ ["*"%char] /\ clean b
    | KMacroClose => u = ["%"%char]
    | KInvalid t => u = t
    | KCmd _ => extended_text u
    end.

  (** The nodes make up the text [t] that begins at offset [from]: they are separated by white
      space only, [location] is where a node begins, [length] is the length of its text, where
      white space may be left out of the count. *)
  Inductive tiles : nat -> str -> list lnode -> Prop :=
  | ti_nil from t : Forall (fun c => blank c = true) t -> tiles from t []
  | ti_cons from gap c u k len kids rest r :
      Forall (fun c => blank c = true) gap -> blank c = false ->
      written k (c :: u) -> framed k kids -> (kids = [] \/ tiles (from + length gap) (c :: u) kids) ->
      len <= length (c :: u) <= len + blanks u ->
      tiles (from + length gap + length (c :: u)) rest r ->
      tiles from (gap ++ (c :: u) ++ rest) (LN k (from + length gap) len kids :: r).

  (** The offsets of nodes and of what is inside of them. *)
  Fixpoint starts (x : lnode) : list nat := let 'LN _ l _ kids := x in l :: flat_map starts kids.

  (** Nodes with what is inside of them. *)
  Fixpoint every (x : lnode) : list lnode := let 'LN _ _ _ kids := x in x :: flat_map every kids.
  (** What [NodeFinder] searches: every node with the line and column of its location. *)
  Definition as_pos (p : position) : pos := MkPos (ps_line p) (ps_column p).
  Fixpoint tree (s : str) (nm : lkind K T -> str) (x : lnode) : ftree :=
    let 'LN k loc _ kids := x in FT (nm k) (Some (as_pos (source_position s loc))) (map (tree s nm) kids).

  (** The commands of nodes. *)
  Definition named (ns : list lnode) (cs : list (cmd K T)) : Prop := map kind_of ns = map KCmd cs.
End Spec.

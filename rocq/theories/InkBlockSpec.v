(** Specification for C85 with blocks: whether commands leave something, and whether all that
  they leave can be painted. *)
From Coq Require Import Reals.
From Verif Require Import Base Num NumReal Dict CoordModel Ast StateModel StateSpec GeomModel CompilerModel
DrawSpec FlashSpec BlockSpec InkSpec.

(** Something is left; every flashed aperture in it has a figure. *)
Record ink := Ink { some : bool; sound : bool }.
Definition blank : ink := Ink false true.
Definition both (a b : ink) : ink := Ink (some a || some b) (sound a && sound b).

(** A command, given the commands before it and what the block apertures defined before it
    leave.  Flashes of block apertures leave the same again. *)
Definition leaf_ink (pre : list (node R)) (B : dict ink) (n : node R) (i : ink) : Prop :=
  match n with
  | ND03 _ _ =>
      (exists a p q, latest_selection pre = Some (ad_id a) /\ pre = p ++ NAD a :: q /\ ~ In (ad_id a) (ad_codes q) /\
         some i = true /\ (sound i = true <-> marks_aperture p a)) \/
      (exists id, latest_selection pre = Some id /\ ~ In id (ad_codes pre) /\ d_get id B = Some i)
  | _ => (some i = true <-> marks pre n) /\ sound i = true
  end.
(** An AB block leaves nothing by itself; an SR block (which has at least one copy) what
    its commands leave. *)
Inductive node_ink : list (node R) -> dict ink -> node R -> list (node R) -> dict ink -> ink -> Prop :=
| ni_command pre B n i : match n with NAB _ _ | NSR _ _ _ => False | _ => True end -> leaf_ink pre B n i -> node_ink pre B n (pre ++ [n]) B i
| ni_block pre B id body pre' B' i : list_ink pre B body pre' B' i ->
    node_ink pre B (NAB id body) (pre' ++ [NAB id []]) ((id, i) :: B') blank
| ni_repeat pre B u h body pre' B' i : list_ink pre B body pre' B' i -> node_ink pre B (NSR u h body) pre' B' i
with list_ink : list (node R) -> dict ink -> list (node R) -> list (node R) -> dict ink -> ink -> Prop :=
| li_nil pre B : list_ink pre B [] pre B blank
| li_cons pre B n pre1 B1 i r pre2 B2 j : node_ink pre B n pre1 B1 i -> list_ink pre1 B1 r pre2 B2 j ->
    list_ink pre B (n :: r) pre2 B2 (both i j).
Definition file_ink (ips : bool) (ns : list (node R)) (i : ink) : Prop :=
  exists pre B, list_ink [] [] (reached ips ns) pre B i.

(** C48: the node finder. *)
From Verif Require Import Base FinderModel FinderSpec FinderProofs.
Local Open Scope nat_scope.

(** Full statement: for every located file and position, [find_node] returns the last command
    that started, if there is one.  Proved for files of two or more commands (a single command
    is not descended into, see below) as long as no enclosing command starts on an earlier line
    in a later column; in that case the answer is [None].  The search always ends without
    an error. *)
Theorem C48_finds_last_started_partial loc n r f fuel :
  f = n :: r -> r <> [] -> located_list f -> starts_by loc n = true ->
  length (documents f) < fuel ->
  exists chain u,
    within loc f chain /\ last_opt chain = Some u /\ last_started loc f = Some u /\
    ((forall t p, In t chain -> ft_start t = Some p -> (p_column p <= p_column loc)%Z) ->
       find_node loc fuel f = Ok (FNode u)) /\
    ((exists t p, In t chain /\ ft_start t = Some p /\ (p_column loc < p_column p)%Z) ->
       find_node loc fuel f = Ok FNothing).
Proof.
  intros -> Hr L H0 Hf.
  destruct (search_ok loc fuel (n :: r) n r FFile eq_refl Hf L H0) as (c & u & W & Hc & Hl & Hb).
  exists c, u. split; [exact W|]. split; [exact Hc|]. split; [exact Hl|].
  assert (E : find_node loc fuel (n :: r) = Ok (answer loc c)).
  { destruct r as [|m r]; [congruence|]. unfold find_node. rewrite Hb. reflexivity. }
  rewrite E. unfold answer. split.
  - intros Hcol. assert (A : forallb (column_ok loc) c = true).
    { apply forallb_forall. intros t Ht. unfold column_ok. destruct (ft_start t) as [p|] eqn:Ep; [|reflexivity].
      specialize (Hcol t p Ht Ep). lia. }
    rewrite A, Hc. reflexivity.
  - intros (t & p & Ht & Ep & Hlt). assert (A : forallb (column_ok loc) c = false).
    { destruct (forallb (column_ok loc) c) eqn:A; [|reflexivity]. rewrite forallb_forall in A.
      specialize (A t Ht). unfold column_ok in A. rewrite Ep in A. lia. }
    rewrite A. reflexivity.
Qed.

(** Corollary: when every command starts in the first column, as most writers do. *)
Theorem C48_one_command_per_line_partial loc n r f fuel :
  f = n :: r -> r <> [] -> located_list f -> starts_by loc n = true ->
  length (documents f) < fuel -> (1 <= p_column loc)%Z ->
  (forall t p, In t (documents f) -> ft_start t = Some p -> p_column p = 1%Z) ->
  exists u, last_started loc f = Some u /\ find_node loc fuel f = Ok (FNode u).
Proof.
  intros Hf Hr L H0 Hfu Hc H1.
  destruct (C48_finds_last_started_partial loc n r f fuel Hf Hr L H0 Hfu)
    as (c & u & W & Hl & Hs & Hyes & _).
  exists u. split; [exact Hs|]. apply Hyes. intros t p Ht Ep.
  assert (Hin : In t (documents f)).
  { clear -W Ht. induction W as [l t' r Ha Hb Hk|l t' r c Ha Hb W IH].
    - destruct Ht as [<-|[]]. apply in_documents. apply in_elt.
    - destruct Ht as [<-|Ht].
      + apply in_documents, in_elt.
      + specialize (IH Ht). apply in_flat_map. exists t'. split; [apply in_elt|].
        destruct t' as [nm s k]. right. exact IH. }
  rewrite (H1 t p Hin Ep). exact Hc.
Qed.

(** Two commands on the first line, the third indented: the start of the second line
    belongs to the second command, but nothing is found. *)
Definition leaf (name : string) (line col : Z) : ftree := FT (lit name) (Some (MkPos line col)) [].
Definition indented : list ftree := [leaf "G01" 1 1; leaf "D01" 1 5; leaf "D03" 2 3].
Ltac loc_tac :=
  repeat first
    [ apply LocNil | apply LocCons | apply LocLeaf | apply LocBlock; [reflexivity|]
    | intros ? ?; cbn;
      repeat match goal with
      | |- _ \/ _ -> _ => intros [<-|]
      | |- _ = _ -> _ => intros <-
      | |- False -> _ => intros []
      | |- forall _ : _ \/ _, _ => intros [<-|]
      | H : _ \/ _ |- _ => destruct H as [<-|H]
      | H : False |- _ => destruct H
      end;
      (eexists _, _; split; [reflexivity|split; [reflexivity|unfold before; cbn; lia]]) ].
Theorem C48_indented_refuted :
  ~ (forall loc f u, located_list f -> last_started loc f = Some u ->
       exists fuel, find_node loc fuel f = Ok (FNode u)).
Proof.
  intros Hall.
  destruct (Hall (MkPos 2 1) indented (leaf "D01" 1 5)) as [fuel E]; [| |].
  - unfold indented, leaf. loc_tac.
  - reflexivity.
  - destruct fuel as [|[|[|fuel]]]; cbn in E; try discriminate E.
Qed.

(** A file consisting of a single block: the block is returned instead of the command in it. *)
Definition single_block : list ftree :=
  [FT (lit "AB") (Some (MkPos 1 1)) [leaf "ABopen" 1 1; leaf "D03" 2 1; leaf "ABclose" 3 1]].
Theorem C48_single_command_refuted :
  ~ (forall loc f u, located_list f -> (forall t p, In t (documents f) -> ft_start t = Some p -> p_column p = 1%Z) ->
       last_started loc f = Some u ->
       exists fuel, find_node loc fuel f = Ok (FNode u)).
Proof.
  intros Hall.
  destruct (Hall (MkPos 2 2) single_block (leaf "D03" 2 1)) as [fuel E].
  - unfold single_block, leaf. loc_tac.
  - cbn. intros t p Ht Ep. repeat (destruct Ht as [<-|Ht]); try (now destruct Ht);
      cbn in Ep; injection Ep as <-; reflexivity.
  - reflexivity.
  - cbn in E. discriminate E.
Qed.

(** Before the first command, where no command has started, the first one is returned when the
    column happens to be far enough to the right. *)
Theorem C48_before_first_refuted :
  ~ (forall loc f n r fuel, f = n :: r -> located_list f -> last_started loc f = None ->
       find_node loc fuel f <> Ok (FNode n)).
Proof.
  intros Hall.
  apply (Hall (MkPos 1 5) [leaf "G01" 3 1; leaf "D03" 4 1] (leaf "G01" 3 1) [leaf "D03" 4 1] 5).
  - reflexivity.
  - unfold leaf. loc_tac.
  - reflexivity.
  - reflexivity.
Qed.

Print Assumptions C48_finds_last_started_partial.
Print Assumptions C48_one_command_per_line_partial.
Print Assumptions C48_indented_refuted.
Print Assumptions C48_single_command_refuted.
Print Assumptions C48_before_first_refuted.

(** A macro, a block with a step and repeat inside, and flashes. *)
Example finder_example :
  let f := [leaf "FS" 1 1;
            FT (lit "AM") (Some (MkPos 2 1)) [leaf "AMopen" 2 1; leaf "1" 3 1; leaf "AMclose" 3 9];
            FT (lit "AB") (Some (MkPos 4 1))
              [leaf "ABopen" 4 1;
               FT (lit "SR") (Some (MkPos 5 1)) [leaf "SRopen" 5 1; leaf "D03" 6 1; leaf "SRclose" 7 1];
               leaf "ABclose" 8 1];
            leaf "D03" 9 1] in
  located_list f
  /\ find_node (MkPos 6 4) 50 f = Ok (FNode (leaf "D03" 6 1))
  /\ last_started (MkPos 6 4) f = Some (leaf "D03" 6 1)
  /\ find_node (MkPos 3 8) 50 f = Ok (FNode (leaf "1" 3 1))
  /\ find_node (MkPos 3 9) 50 f = Ok (FNode (leaf "AMclose" 3 9))
  /\ find_node (MkPos 20 1) 50 f = Ok (FNode (leaf "D03" 9 1)).
Proof.
  cbn zeta. split; [|vm_compute; repeat split; reflexivity]. unfold leaf. loc_tac.
Qed.

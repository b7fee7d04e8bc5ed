(** Property theorems C11, C12 and C22: layer structure of compiled programs (specification
    in [LayerSpec]).

    [iter] is the iteration order of Python sets, only assumed to enumerate the set;
    [clock] the successive readings of the clock. *)
From Coq Require Import Permutation.
From Verif Require Import Base Num Dict CoordModel CoordSpec CoordProofs Ast StateModel StateSpec GeomModel
  ExprModel CompilerModel LayerSpec LayerProofs LayerInv LayerOut.

Section Theorems.
  Context {K : Type} {NK : Num K}.

  (** *** C11 *)
  Theorem C11_layer_program :
    forall (md : bool) (clock : nat -> Z) (iter : str -> list str -> list str) (ips : bool)
           (ns : list (node K)) (cmds : list (cmd K)),
      (forall id l, Permutation (iter id l) l) ->
      compile md clock iter ips ns = Ok cmds ->
      exists ls ds, layers cmds = Some (ls ++ [(lit "%main%", ds)]).
  Proof.
    intros md clock iter ips ns cmds Hi E.
    destruct (compile_inv md clock iter ips ns cmds E) as (v & _ & E2 & Hs).
    destruct (convert_ordered iter Hi _ _ Hs E2) as (ls & H1 & _ & pre & ds & ->). exists pre, ds. exact H1.
  Qed.

  (** *** C12 *)
  (** Whatever the file, a layer is only pasted after its definition. *)
  Theorem C12_defined_before_use :
    forall (md : bool) (clock : nat -> Z) (iter : str -> list str -> list str) (ips : bool)
           (ns : list (node K)) (cmds : list (cmd K)),
      (forall id l, Permutation (iter id l) l) ->
      compile md clock iter ips ns = Ok cmds ->
      exists ls, layers cmds = Some ls /\ defined_before_use ls.
  Proof.
    intros md clock iter ips ns cmds Hi E.
    destruct (compile_inv md clock iter ips ns cmds E) as (v & _ & E2 & Hs).
    destruct (convert_ordered iter Hi _ _ Hs E2) as (ls & H1 & H2 & _). eauto.
  Qed.

  (** A dependency cycle reachable from the main layer is never accepted (but see below for
      the error it causes). *)
  Theorem C12_cycles_rejected :
    forall (iter : str -> list str -> list str) (bs : dict (buffer K)) (cmds : list (cmd K)),
      (forall id l, Permutation (iter id l) l) ->
      (forall k b, d_get k bs = Some b -> bf_id b = k /\ NoDup (bf_deps b) /\
                   forall src, In src (bf_deps b) <-> pastes (bf_cmds b) src) ->
      convert iter bs = Ok cmds ->
      let g := map (fun kb => (fst kb, bf_deps (snd kb))) bs in
      forall a, a = lit "%main%" \/ reaches g (lit "%main%") a -> ~ reaches g a a.
  Proof. intros iter bs cmds Hi Hs E g. exact (convert_acyclic iter Hi bs cmds Hs E). Qed.

  (** Partial: every layer defined once, before its uses, and no superfluous layer, for all
      files whose aperture codes are proper D-codes, not shared between AD and AB, and whose
      temporary ids are distinct.  Missing: shared codes and equal temporary ids, where the
      property is false (below).  The assumption on [n_repr] says that the text of a number
      contains no percent sign. *)
  Theorem C12_submit_order_partial :
    forall (md : bool) (clock : nat -> Z) (iter : str -> list str -> list str) (ips : bool)
           (ns : list (node K)) (v : visitor K (cstate K)),
      (forall id l, Permutation (iter id l) l) ->
      (forall k : K, ~ In "%"%char (n_repr k)) ->
      codes_valid ns -> codes_disjoint ns ->
      on_file (compiler_hooks md clock) ips ns (visitor_init compiler_init) = Ok v ->
      NoDup (c_stamps (v_ext v)) ->
      exists cmds ls, compile md clock iter ips ns = Ok cmds /\ layers cmds = Some ls /\
        defined_before_use ls /\ defined_once ls /\ all_needed ls.
  Proof.
    intros md clock iter ips ns v Hi Hr Hv Hd E HN.
    destruct (file_program md clock iter Hi ips ns v Hr Hv Hd E HN) as (cmds & ls & H1 & H2 & H3 & H4 & H5 & _).
    exists cmds, ls. auto.
  Qed.

  (** *** C22 *)
  (** Partial: when the clock never gives the same reading twice, any file (several instances
      of a macro included) that passes the visitor compiles to a program that defines every
      layer once, before its uses, and ends with the main layer. *)
  Theorem C22_distinct_timings_partial :
    forall (md : bool) (clock : nat -> Z) (iter : str -> list str -> list str) (ips : bool)
           (ns : list (node K)) (v : visitor K (cstate K)),
      (forall i j, clock i = clock j -> i = j) ->
      (forall id l, Permutation (iter id l) l) ->
      (forall k : K, ~ In "%"%char (n_repr k)) ->
      codes_valid ns -> codes_disjoint ns ->
      on_file (compiler_hooks md clock) ips ns (visitor_init compiler_init) = Ok v ->
      exists cmds ls ds, compile md clock iter ips ns = Ok cmds /\
        layers cmds = Some (ls ++ [(lit "%main%", ds)]) /\
        defined_before_use (ls ++ [(lit "%main%", ds)]) /\ defined_once (ls ++ [(lit "%main%", ds)]).
  Proof.
    intros md clock iter ips ns v Hc Hi Hr Hv Hd E.
    assert (HN : NoDup (c_stamps (v_ext v))).
    { apply (stamped_nodup clock _ Hc). eapply stamped_file; [|exact E]. intros n Hn. inversion Hn. }
    destruct (file_program md clock iter Hi ips ns v Hr Hv Hd E HN) as (cmds & ls & H1 & H2 & H3 & H4 & _ & pre & ds & ->).
    exists cmds, pre, ds. auto.
  Qed.
End Theorems.

Local Existing Instance NumQ.
Local Open Scope Q_scope.

Definition fs26 : node Q := NFS (MkFS SkipLeading Absolute 2 6 2 6).
Definition adc (id : string) (d : Q) : node Q := NAD (MkAD (lit id) (TCircle d None)).
Definition flash (id : string) (x y : string) : list (node Q) := [NDnn (lit id); ND03 (Some (lit x)) (Some (lit y))].
Definition layer_ids (r : result exc (list (cmd Q))) : option (list str) :=
  match r with Ok cmds => option_map (map fst) (layers cmds) | Err _ => None end.
Definition same_order : str -> list str -> list str := fun _ l => l.
Lemma same_order_ok : forall id l, Permutation (same_order id l) l.
Proof. intros. apply Permutation_refl. Qed.
Definition running : nat -> Z := Z.of_nat.

(** A file using everything: two instances of a macro with a thermal, a block, a step and
    repeat.  The flashes in the block and those outside use distinct copies of the layers of
    D10 and D11. *)
Definition thermal_am : node Q :=
  NAM (lit "TH") [PCode7 1 (EConst 0) (EConst 0) (EVar (lit "$1")) (EConst 1) (EConst (1 # 4)) (EConst 0)].
Definition th (id : string) (d : Q) : node Q := NAD (MkAD (lit id) (TMacro (lit "TH") (Some [d]))).
Definition big_file : list (node Q) :=
  [fs26; adc "D10" 1; thermal_am; th "D11" 2; th "D12" 3]
  ++ [NAB (lit "D20") (flash "D10" "1" "2" ++ flash "D11" "3" "4")]
  ++ flash "D11" "1" "1" ++ flash "D12" "2" "2" ++ flash "D20" "5" "6"
  ++ [NSR 9 (MkSR (Some (lit "2")) (Some (lit "2")) (Some (lit "1.5")) (Some (lit "2"))) (flash "D20" "0" "0")].

Example C11_case : option_map (@length str) (layer_ids (compile true running same_order false big_file)) = Some 8%nat.
Proof. vm_compute. reflexivity. Qed.

Lemma big_codes : codes_valid big_file /\ codes_disjoint big_file.
Proof.
  assert (H : forall n m, In n big_file -> In m (subnodes n) ->
    match m with
    | NAD a => In (ad_id a) [lit "D10"; lit "D11"; lit "D12"]
    | NAB id _ => id = lit "D20"
    | _ => True end).
  { assert (HB : forallb (fun n => forallb (fun m => match m with
      | NAD a => existsb (str_eqb (ad_id a)) [lit "D10"; lit "D11"; lit "D12"]
      | NAB id _ => str_eqb id (lit "D20")
      | _ => true end) (subnodes n)) big_file = true) by (vm_compute; reflexivity).
    intros n m Hn Hm. rewrite forallb_forall in HB. specialize (HB n Hn). rewrite forallb_forall in HB.
    specialize (HB m Hm). destruct m; try exact I; [apply str_eqb_eq; exact HB|].
    apply existsb_exists in HB as (y & Hy & E). apply str_eqb_eq in E. rewrite E. exact Hy. }
  split; [split|].
  - intros n a Hn Hm. specialize (H n _ Hn Hm). cbn in H. destruct H as [<-|[<-|[<-|[]]]];
      eexists; eexists; (split; [reflexivity|]); (split; [discriminate|reflexivity]).
  - intros n id body Hn Hm. specialize (H n _ Hn Hm). cbn in H. subst id.
    eexists; eexists; (split; [reflexivity|]); (split; [discriminate|reflexivity]).
  - intros n n' a id body Hn Hn' Hm Hm'. pose proof (H n _ Hn Hm) as H1. pose proof (H n' _ Hn' Hm') as H2.
    cbn beta iota in H1, H2. subst id. intros E. rewrite E in H1.
    destruct H1 as [H1|[H1|[H1|[]]]]; discriminate H1.
Qed.

(** All hypotheses of the partial theorems hold for this file. *)
Example C12_case : exists v, on_file (compiler_hooks true running) false big_file (visitor_init compiler_init) = Ok v /\
  NoDup (c_stamps (v_ext v)) /\ codes_valid big_file /\ codes_disjoint big_file /\
  length (c_stamps (v_ext v)) = 3%nat.
Proof.
  destruct (on_file (compiler_hooks true running) false big_file (visitor_init compiler_init)) as [v|e] eqn:E.
  2:{ exfalso. vm_compute in E. discriminate E. }
  exists v. split; [reflexivity|]. split.
  - apply (stamped_nodup running); [intros i j; apply Nat2Z.inj|]. eapply stamped_file; [|exact E]. intros n Hn. inversion Hn.
  - split; [apply big_codes|]. split; [apply big_codes|].
    assert (H : match on_file (compiler_hooks true running) false big_file (visitor_init compiler_init) with
                | Ok v => length (c_stamps (v_ext v)) | Err _ => 0%nat end = 3%nat) by (vm_compute; reflexivity).
    rewrite E in H. exact H.
Qed.

(** The text of a rational has no percent sign. *)
Example C12_case_repr : forall k : Q, ~ In "%"%char (n_repr k).
Proof.
  intros k. cbn [n_repr NumQ]. unfold q_repr. cbv zeta. apply no_pct_app. split; [apply z_repr_no_pct|].
  apply no_pct_app. split; [|apply z_repr_no_pct]. intros [H|[]]. discriminate H.
Qed.

(** *** Refutations *)
Definition node_buf (id : string) (deps : list string) : str * buffer Q :=
  (lit id, append_draws (map (fun d => DPaste (MkPaste (lit d) (MkVec 0 0) false None)) deps) (empty_buffer (lit id))).

(** Graph level.  A layer shared by two others is emitted twice; a shared layer with a
    dependency of its own is reported as cyclic although the graph has no cycle; a real cycle
    is not reported but recurses until the interpreter gives up. *)
Theorem C12_shared_layer_refuted :
  layer_ids (convert same_order [node_buf "%main%" ["a"; "b"]%string; node_buf "a" ["c"]%string; node_buf "b" ["c"]%string; node_buf "c" []%string])
  = Some (map lit ["c"; "a"; "c"; "b"; "%main%"]%string).
Proof. vm_compute. reflexivity. Qed.

Definition diamond : dict (buffer Q) :=
  [node_buf "%main%" ["a"; "b"]%string; node_buf "a" ["c"]%string; node_buf "b" ["c"]%string; node_buf "c" ["d"]%string; node_buf "d" []%string].
Theorem C12_false_cycle_refuted :
  convert same_order diamond = Err ECyclicDependency /\
  acyclic (map (fun kb => (fst kb, bf_deps (snd kb))) diamond).
Proof.
  split; [vm_compute; reflexivity|].
  set (g := map _ diamond). intros a Hr.
  assert (Hlt : forall x y, reaches g x y -> (position x (map lit ["%main%"; "a"; "b"; "c"; "d"]%string)
      < position y (map lit ["%main%"; "a"; "b"; "c"; "d"]%string))%nat).
  { assert (Hstep : forall x y, In y (targets g x) -> (position x (map lit ["%main%"; "a"; "b"; "c"; "d"]%string)
      < position y (map lit ["%main%"; "a"; "b"; "c"; "d"]%string))%nat).
    { assert (Ht : forall x, targets g x = if str_eqb x (lit "%main%") then [lit "a"; lit "b"] else
        if str_eqb x (lit "a") then [lit "c"] else if str_eqb x (lit "b") then [lit "c"] else
        if str_eqb x (lit "c") then [lit "d"] else if str_eqb x (lit "d") then [] else []) by (intros x; reflexivity).
      intros x y. rewrite Ht. cbn [map position].
      destruct (str_eqb x (lit "%main%")) eqn:E0;
        [intros [<-|[<-|[]]]; vm_compute; lia|].
      destruct (str_eqb x (lit "a")) eqn:E1; [intros [<-|[]]; vm_compute; lia|].
      destruct (str_eqb x (lit "b")) eqn:E2; [intros [<-|[]]; vm_compute; lia|].
      destruct (str_eqb x (lit "c")) eqn:E3; [intros [<-|[]]; vm_compute; lia|].
      destruct (str_eqb x (lit "d")) eqn:E4; intros []. }
    intros x y. induction 1 as [x y H|x y z H _ IH]; [auto|]. specialize (Hstep x y H). lia. }
  specialize (Hlt a a Hr). lia.
Qed.

Theorem C12_cycle_not_reported_refuted : forall fuel out,
  let bs := [node_buf "%main%" ["a"]%string; node_buf "a" ["%main%"]%string] in
  resolve same_order fuel bs (snd (node_buf "%main%" ["a"]%string)) out = Err EOutOfFuel /\
  resolve same_order fuel bs (snd (node_buf "a" ["%main%"]%string)) out = Err EOutOfFuel.
Proof.
  intros fuel. induction fuel as [|f IH]; intros out bs; [auto|]. destruct (IH out) as [H1 H2]. fold bs in H1, H2.
  split; rewrite resolve_eq.
  - change (same_order (bf_id (snd (node_buf "%main%" ["a"]%string))) (bf_deps (snd (node_buf "%main%" ["a"]%string)))) with [lit "a"].
    cbn [deps_loop].
    change (get_buffer (lit "a") bs) with (Ok (E := exc) (snd (node_buf "a" ["%main%"]%string))). cbn [bind]. rewrite H2. reflexivity.
  - change (same_order (bf_id (snd (node_buf "a" ["%main%"]%string))) (bf_deps (snd (node_buf "a" ["%main%"]%string)))) with [lit "%main%"].
    cbn [deps_loop].
    change (get_buffer (lit "%main%") bs) with (Ok (E := exc) (snd (node_buf "%main%" ["a"]%string))). cbn [bind]. rewrite H1. reflexivity.
Qed.

(** Whole files: D-codes used by AD and again by AB.  Flashing them pastes the block as a
    layer, and a layer used by both blocks is emitted twice; with one more level of sharing
    the compiler reports a cycle in a file that has none. *)
Definition shared_file : list (node Q) :=
  [fs26; adc "D10" 1; adc "D11" 1; adc "D12" 1; NAB (lit "D11") (flash "D10" "1" "1"); NAB (lit "D12") (flash "D10" "2" "2")]
  ++ flash "D11" "0" "0" ++ flash "D12" "0" "0".
Theorem C12_shared_code_refuted : exists cmds ls,
  compile true running same_order false shared_file = Ok cmds /\ layers cmds = Some ls /\ ~ defined_once ls.
Proof.
  destruct (compile true running same_order false shared_file) as [cmds|] eqn:E; [|vm_compute in E; discriminate E].
  exists cmds. vm_compute in E. apply Ok_inj in E. subst cmds. eexists. split; [reflexivity|]. split; [reflexivity|].
  unfold defined_once. cbn [map fst]. intros H. inversion H as [|x l Hx Hl]; subst. apply Hx. cbn [In]. tauto.
Qed.
Definition deep_file : list (node Q) :=
  [fs26; adc "D10" 1; adc "D11" 1; adc "D13" 1; adc "D14" 1; NAB (lit "D11") (flash "D10" "1" "1");
   NAB (lit "D13") (flash "D11" "1" "1"); NAB (lit "D14") (flash "D11" "2" "2")]
  ++ flash "D13" "0" "0" ++ flash "D14" "0" "0".
Theorem C12_shared_code_cycle_refuted : compile true running same_order false deep_file = Err ECyclicDependency.
Proof. vm_compute. reflexivity. Qed.

(** Two instances of one thermal macro within one reading of the clock get the same layer
    id: both apertures refer to a single thermal layer (that of the second definition), which
    is emitted twice. *)
Definition two_thermals : list (node Q) :=
  [fs26; thermal_am; th "D11" 2; th "D12" 3] ++ flash "D11" "1" "1" ++ flash "D12" "2" "2".
Theorem C22_equal_timings_refuted : exists cmds ls,
  compile true (fun _ => 5%Z) same_order false two_thermals = Ok cmds /\ layers cmds = Some ls /\ ~ defined_once ls.
Proof.
  destruct (compile true (fun _ => 5%Z) same_order false two_thermals) as [cmds|] eqn:E; [|vm_compute in E; discriminate E].
  exists cmds. vm_compute in E. apply Ok_inj in E. subst cmds. eexists. split; [reflexivity|]. split; [reflexivity|].
  unfold defined_once. cbn [map fst]. intros H. inversion H as [|x l Hx Hl]; subst. apply Hx. cbn [In]. tauto.
Qed.
Example C22_case :
  option_map (@length str) (layer_ids (compile true running same_order false two_thermals)) = Some 5%nat.
Proof. vm_compute. reflexivity. Qed.

Print Assumptions C11_layer_program.
Print Assumptions C12_defined_before_use.
Print Assumptions C12_cycles_rejected.
Print Assumptions C12_submit_order_partial.
Print Assumptions C12_shared_layer_refuted.
Print Assumptions C12_false_cycle_refuted.
Print Assumptions C12_cycle_not_reported_refuted.
Print Assumptions C12_shared_code_refuted.
Print Assumptions C12_shared_code_cycle_refuted.
Print Assumptions C22_distinct_timings_partial.
Print Assumptions C22_equal_timings_refuted.

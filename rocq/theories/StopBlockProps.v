(** C09: programs stopped inside of a block (AB or SR). *)
From Coq Require Import Reals Permutation.
From Verif Require Import Base Num NumReal Dict CoordModel CoordSpec Ast StateModel StateSpec StateProofs GeomModel CompilerModel LayerSpec LayerProofs LayerInv LayerOut
  LayerProps BoxModel ArcModel VmModel VmSpec VmProps DrawSpec DrawProofs FlashSpec FlashProofs PaintModel PaintSpec PaintProofs PaintProps PlaceSpec PlaceProofs RenderSpec RenderProofs
  RenderProps BlockSpec BlockProofs BlockProps
  InkSpec InkBlockSpec InkBlockProps StopBlock.

Section Spec.
  Context {K : Type}.
  (** A block that contains M00 or M02, at any depth. *)
  Definition stopped_block (n : node K) : bool :=
    match n with NAB _ _ | NSR _ _ _ => snd (executed n) | _ => false end.
  (** The commands before the first one. *)
  Fixpoint before_stop (ns : list (node K)) : list (node K) :=
    match ns with [] => [] | n :: r => if stopped_block n then [] else n :: before_stop r end.
  Lemma before_stop_spec ns : before_stop ns = ns \/ exists n post, ns = before_stop ns ++ n :: post /\ ~ is_leaf n /\ snd (executed n) = true.
  Proof.
    induction ns as [|n r IH]; [left; reflexivity|]. cbn [before_stop]. destruct (stopped_block n) eqn:E.
    - right. exists n, r. split; [reflexivity|]. destruct n; try discriminate E; (split; [intros []|exact E]).
    - destruct IH as [->|(n' & post & E' & H)]; [left; reflexivity|]. right. exists n', post. cbn [app]. rewrite <- E'. auto.
  Qed.
End Spec.

Section Props.
  Context {K : Type} {NK : Num K} (md : bool) (clock : nat -> Z) (iter : str -> list str -> list str).
  Hypothesis iter_perm : forall id l, Permutation (iter id l) l.
  (** Whatever the flag is: a file with a stop inside of a block compiles to the program of the
      commands before that block.  What the block draws before the stop, and everything after
      the block, is lost, although with the default flag the walk goes on to the end of the
      file (and must succeed). *)
  Theorem C09_stop_in_block : forall ips ns v, codes_valid ns ->
    on_file (compiler_hooks (K := K) md clock) ips ns (visitor_init compiler_init) = Ok v ->
    forall cmds, compile md clock iter ips ns = Ok cmds <-> compile md clock iter ips (before_stop ns) = Ok cmds.
  Proof.
    intros ips ns v Hv E cmds. destruct (before_stop_spec ns) as [->|(n & post & En & Hn & Hs)]; [tauto|].
    pose proof (valid_coded ns Hv) as HQ. rewrite En in HQ, E. destruct (stopped_program md clock iter iter_perm ips _ n post v HQ Hn Hs E) as (v0 & E0 & Hc).
    rewrite En at 1. unfold compile. rewrite E, E0. cbn [bind]. apply Hc.
  Qed.
End Props.
Print Assumptions C09_stop_in_block.

Section Picture.
  Context (text : R -> str) (md : bool) (clock : nat -> Z) (iter : str -> list str -> list str).
  Notation NT := (with_text NumR text).
  Hypothesis iter_perm : forall id l, Permutation (iter id l) l.
  (** C64 for files stopped inside of blocks: the picture is that of the commands before the
      first such block, under the conditions of [C64_blocks_partial] on these commands.
      Missing: redefinitions, transformations that have the same name. *)
  Theorem C64_stopped_partial :
    forall fill (meets : region R -> region R -> bool) fuel paints fl ips ns v,
      fills_anywhere fill -> (forall g h p, meets g h = false -> g p -> h p -> False) ->
      codes_valid ns -> block_file text ips (before_stop ns) ->
      on_file (NK := NT) (@compiler_hooks R NT md clock) ips ns (visitor_init (NK := NT) compiler_init) = Ok v -> NoDup (c_stamps (v_ext v)) ->
      exists cmds ps, compile (NK := NT) md clock iter ips ns = Ok cmds /\ file_pics (NK := NT) wide md clock ips (before_stop ns) ps /\
        forall m b, vm_run (shapely paints) fl cmds = Ok (m, b) -> forall p,
          shapely_result fill meets fuel m p <-> seen (map (pic_object (filled fill fuel)) ps) p.
  Proof.
    intros fill meets fuel paints fl ips ns v Hf Hm Hv Hb E HN.
    assert (X : exists v0, on_file (NK := NT) (@compiler_hooks R NT md clock) ips (before_stop ns) (visitor_init (NK := NT) compiler_init) = Ok v0 /\ NoDup (c_stamps (v_ext v0))).
    { destruct (before_stop_spec ns) as [->|(n & post & En & _)]; [eauto|]. rewrite En in E.
      destruct (on_file_app (NK := NT) md clock ips (before_stop ns) (n :: post) _ _ E) as (v0 & E0 & [->|E1]); [eauto|]. exists v0. split; [exact E0|].
      destruct (stamps_file (NK := NT) md clock ips (n :: post) v0 v E1) as (l & El). rewrite El in HN. apply NoDup_app_inv in HN. apply HN. }
    destruct X as (v0 & E0 & HN0).
    destruct (C64_blocks_partial text md clock iter iter_perm fill meets fuel paints fl ips (before_stop ns) v0 Hf Hm Hb E0 HN0) as (cmds & ps & A & B & C).
    exists cmds, ps. split; [|auto]. apply (C09_stop_in_block (NK := NT) md clock iter iter_perm ips ns v Hv E). exact A.
  Qed.
  Hypothesis clock_inj : forall i j, clock i = clock j -> i = j.
  (** C85 for files stopped inside of blocks: whether they can be rendered depends on the
      commands before the block only.  Missing: as above. *)
  Theorem C85_stopped_partial :
    forall paints fl ips ns cmds, (forall s, paints s = None) -> codes_valid ns -> block_file text ips (before_stop ns) -> compile (NK := NT) md clock iter ips ns = Ok cmds ->
      exists i, file_ink ips (before_stop ns) i /\ (forall j, file_ink ips (before_stop ns) j -> j = i) /\
        ((exists r, vm_run (NK := NumR) (shapely paints) fl cmds = Ok r) <-> i = Ink true true).
  Proof.
    intros paints fl ips ns cmds Hp Hv Hb E. apply (C85_blocks_partial text md clock iter clock_inj iter_perm paints fl ips (before_stop ns) cmds Hp Hb).
    pose proof E as E'. unfold compile in E'. destruct (on_file _ _ _ _) as [v|] eqn:Ev; [|discriminate]. apply (C09_stop_in_block (NK := NT) md clock iter iter_perm ips ns v Hv Ev). exact E.
  Qed.
End Picture.
Print Assumptions C85_stopped_partial.
Print Assumptions C64_stopped_partial.

(** ** Cases *)
Local Existing Instance NumQ.
Definition one_after_other (n : nat) : Z := Z.of_nat n.
Definition as_it_is (id : str) (l : list str) : list str := l.
(** A flash, a block with a flash and a stop, and a flash after it. *)
Definition stopped_file (stop : list (node Q)) : list (node Q) :=
  [NAD (MkAD (lit "D10") (TCircle 1%Q None)); NDnn (lit "D10"); ND03 None None;
   NSR 1%Z (MkSR (Some (lit "2")) None (Some (lit "5")) None) ([ND03 None None] ++ stop); ND03 None None].
Definition flashes_left (ips : bool) (ns : list (node Q)) : option nat :=
  match compile false one_after_other as_it_is ips ns with
  | Ok cmds => match layers cmds with Some ls => option_map (fun l => length (snd l)) (nth_error (rev ls) 0) | None => None end
  | Err _ => None
  end.
(** Without the stop there are four flashes, with it one. *)
Example C09_block_case : forall ips,
  flashes_left ips (stopped_file []) = Some 4%nat /\ flashes_left ips (stopped_file [NM02]) = Some 1%nat /\
  length (before_stop (stopped_file [NM02])) = 3%nat.
Proof. intros []; vm_compute; auto. Qed.
(** No value of the flag makes a stop inside of a block have no effect, as documented for
    ignored stops (with the top level stops of [C09_flag_is_inverted] one does). *)
Definition stops_can_be_ignored : Prop := exists ips, forall (ns : list (node Q)) u h body,
  compile false one_after_other as_it_is ips (ns ++ [NSR u h (body ++ [NM02])]) = compile false one_after_other as_it_is ips (ns ++ [NSR u h body]).
Theorem C09_stop_in_block_refuted : ~ stops_can_be_ignored.
Proof.
  intros (ips & Hc). specialize (Hc (firstn 2 (stopped_file [])) 1%Z (MkSR (Some (lit "2")) None (Some (lit "5")) None) [ND03 None None]).
  assert (X : flashes_left ips (firstn 2 (stopped_file []) ++ [NSR 1%Z (MkSR (Some (lit "2")) None (Some (lit "5")) None) ([ND03 None None] ++ [NM02])]) =
              flashes_left ips (firstn 2 (stopped_file []) ++ [NSR 1%Z (MkSR (Some (lit "2")) None (Some (lit "5")) None) [ND03 None None]]))
    by (unfold flashes_left; rewrite Hc; reflexivity).
  destruct ips; vm_compute in X; discriminate X.
Qed.
Print Assumptions C09_stop_in_block_refuted.

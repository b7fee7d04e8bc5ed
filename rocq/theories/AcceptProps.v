(** C82: the compiler accepts a file exactly when its commands are acceptable. *)
From Coq Require Import Reals Lra Lia Permutation.
From Verif Require Import Base Num NumReal Dict CoordModel CoordSpec Ast StateModel StateSpec StateProofs ExprSpec MacroSpec GeomModel CompilerModel
  LayerSpec LayerProofs LayerInv LayerOut LayerProps DrawSpec FlashSpec PlaceSpec RenderSpec RenderProps AcceptSpec AcceptMacro AcceptProofs.
Open Scope R_scope.

Section Accept.
  Context (text : R -> str) (md : bool) (clock : nat -> Z) (iter : str -> list str -> list str).
  Notation NT := (with_text NumR text).
  Hypothesis text_pct : forall k : R, ~ In "%"%char (text k).
  Hypothesis clock_inj : forall i j, clock i = clock j -> i = j.
  Hypothesis iter_perm : forall id l, Permutation (iter id l) l.

  (** Full statement of C82: the compiler makes a program of a file exactly when every executed
      command is acceptable after the commands before it, and every repetition carried out has
      positive counts and decimal distances.  Missing: numbers that are not real (NaN and
      infinities, rounding in the comparisons of macros), codes shared by AD and AB, and
      macros compiled at the same time. *)
  Theorem C82_accepted_partial : forall ips ns, codes_valid ns -> codes_disjoint ns ->
    ((exists cmds, compile (NK := NT) md clock iter ips ns = Ok cmds) <-> accepted ips ns /\ repeated ips ns).
  Proof.
    intros ips ns [V1 V2] Hd.
    set (ADs := fun id => exists n (a : ad R), In n ns /\ In (NAD a) (subnodes n) /\ ad_id a = id).
    set (ABs := fun id => exists n body, In n ns /\ In (NAB id body) (subnodes n)).
    assert (H1 : forall id, ADs id -> exists n, dcode id n) by (intros id (n & a & G1 & G2 & <-); eauto).
    assert (H2 : forall id, ABs id -> exists n, dcode id n) by (intros id (n & body & G1 & G2); eauto).
    assert (H3 : forall id, ADs id -> ABs id -> False).
    { intros id (n & a & G1 & G2 & G3) (n' & body & G4 & G5). exact (Hd n n' a id body G1 G4 G2 G5 G3). }
    pose proof (file_iff text md clock text_pct clock_inj ADs ABs H1 H2 H3 ips ns) as W.
    specialize (W ltac:(intros n m Hn Hm; destruct m; try exact I; cbn [QInv]; [exists n, body|exists n, a]; auto) []
      _ (G_init text md clock ADs ABs)).
    change (accepted ips ns) with (valid_from [] (executed_file ips ns)). unfold repeated.
    destruct (on_file (NK := NT) (compiler_hooks (NK := NT) md clock) ips ns (visitor_init (NK := NT) compiler_init)) as [v|e] eqn:E.
    - destruct W as (W1 & W2 & W3). split; [auto|]. intros _.
      destruct (file_program (NK := NT) md clock iter iter_perm ips ns v text_pct (conj V1 V2) Hd E) as (cmds & _ & P & _); [|eauto].
      eapply G_nodup; [exact clock_inj|exact W3].
    - split; [|tauto]. intros [cmds C]. apply compile_inv in C as (v & C & _). rewrite E in C. discriminate C.
  Qed.
End Accept.
Print Assumptions C82_accepted_partial.

(** ** Cases *)
(** A file with a macro, a block and a repetition is accepted. *)
Definition no_codes_clash (ns : list (node R)) : bool :=
  let ms := flat_map subnodes ns in
  forallb (fun m => match m with
    | NAD a => match ad_id a with "D"%char :: d => match d with [] => false | _ => match spec_value d with Some _ => true | None => false end end | _ => false end &&
        forallb (fun k => match k with NAB id _ => negb (str_eqb (ad_id a) id) | _ => true end) ms
    | NAB id _ => match id with "D"%char :: d => match d with [] => false | _ => match spec_value d with Some _ => true | None => false end end | _ => false end
    | _ => true end) ms.
Lemma codes_checked ns : no_codes_clash ns = true -> codes_valid ns /\ codes_disjoint ns.
Proof.
  unfold no_codes_clash. rewrite forallb_forall. intros Hall.
  assert (D : forall id : str, match id with "D"%char :: d => match d with [] => false | _ => match spec_value d with Some _ => true | None => false end end | _ => false end = true -> exists m, dcode id m).
  { intros [|c d]; [discriminate|]. intros X. assert (c = "D"%char) as -> by (destruct c as [[] [] [] [] [] [] [] []]; try discriminate; reflexivity).
    destruct d as [|c d]; [discriminate|]. destruct (spec_value (c :: d)) as [m|] eqn:E; [|discriminate]. exists m, (c :: d). split; [reflexivity|]. split; [discriminate|exact E]. }
  split; [split|].
  - intros n a Hn Ha. specialize (Hall (NAD a) ltac:(apply in_flat_map; eauto)). apply andb_prop in Hall as [X _]. apply D, X.
  - intros n id body Hn Ha. specialize (Hall (NAB id body) ltac:(apply in_flat_map; eauto)). apply D, Hall.
  - intros n n' a id body Hn Hn' Ha Hb E. specialize (Hall (NAD a) ltac:(apply in_flat_map; eauto)). apply andb_prop in Hall as [_ X].
    rewrite forallb_forall in X. specialize (X (NAB id body) ltac:(apply in_flat_map; eauto)). cbn beta iota in X. rewrite E in X.
    rewrite (proj2 (str_eqb_eq id id) eq_refl) in X. discriminate X.
Qed.
Lemma plain_pct : forall k : R, ~ In "%"%char (plain_text k).
Proof. intros k [X|[]]. discriminate X. Qed.
Lemma running_inj : forall i j, running i = running j -> i = j.
Proof. intros i j. apply Nat2Z.inj. Qed.

Definition r_fs : node R := NFS (MkFS SkipLeading Absolute 2 6 2 6).
Definition r_ad (id : string) : node R := NAD (MkAD (lit id) (TCircle 1 None)).
Definition bar_am : node R := NAM (lit "BAR") [PAssign (lit "$2") (EAdd (EVar (lit "$1")) [EConst 1]);
  PCode20 (EConst 1) (EVar (lit "$2")) (EConst 0) (EConst 0) (EVar (lit "$1")) (EConst 0) (EConst 0)].
Definition r_bar (id : string) (d : R) : node R := NAD (MkAD (lit id) (TMacro (lit "BAR") (Some [d]))).
Definition proper : list (node R) :=
  [r_fs; r_ad "D10"; bar_am; r_bar "D11" 2; NAB (lit "D20") [NDnn (lit "D11"); ND03 (Some (lit "1")) None];
   NSR 9 (MkSR (Some (lit "2")) None (Some (lit "1.5")) None) [NDnn (lit "D10"); ND03 None None; ND01 (Some (lit "-5")) None None None];
   NDnn (lit "D20"); ND03 None (Some (lit "7")); NM02].
Example C82_proper : accepted true proper /\ repeated true proper.
Proof.
  destruct (codes_checked proper ltac:(vm_compute; reflexivity)) as [V D].
  apply (C82_accepted_partial plain_text false running same_order plain_pct running_inj same_order_ok true proper V D).
  destruct (compile (NK := with_text NumR plain_text) false running same_order true proper) as [cmds|e] eqn:E; [eauto|exfalso].
  assert (X : match compile (NK := with_text NumR plain_text) false running same_order true proper with Ok _ => True | Err _ => False end) by (vm_compute; exact I).
  rewrite E in X. exact X.
Qed.

(** Files that are rejected whatever the clock and the order of sets: a region closed twice; a
    repetition with no copies; a macro whose variable has no value.  Commands that are not
    executed do not matter. *)
Definition closed_twice : list (node R) := [NG G36; NG G37; NG G37].
Definition no_copies : list (node R) := [NSR 9 (MkSR (Some (lit "0")) None None None) []].
Definition unbound : list (node R) := [r_fs; bar_am; NAD (MkAD (lit "D11") (TMacro (lit "BAR") None))].
Definition after_end : list (node R) := [NM02; NG G37; NG G37; NDnn (lit "D77")].
Example C82_closed_twice : ~ accepted true closed_twice.
Proof. intros A. specialize (A [NG G36; NG G37] (NG G37) [] eq_refl). discriminate A. Qed.
Example C82_no_copies : ~ repeated true no_copies.
Proof.
  intros A. inversion A as [|h hs [F _] _]. destruct (F (lit "0") (or_introl eq_refl)) as (z & Hz & Hp).
  apply PlaceProofs.int_text_iff in Hz. vm_compute in Hz. injection Hz as <-. lia.
Qed.
Example C82_unbound : ~ accepted true unbound.
Proof.
  intros A. destruct (A [r_fs; bar_am] _ [] eq_refl) as (prims & env & M & B & X). injection M as <-. cbn [runs] in X.
  destruct X as (k & V & _). inversion V as [| | |? ? x y Vx Vy| | |]; subst. inversion Vx as [|? ? Ex| | | | |]; subst.
  apply B in Ex as ([|i] & _ & Hn); discriminate Hn.
Qed.
Example C82_after_end : accepted true after_end /\ repeated true after_end /\ ~ accepted false after_end.
Proof.
  split; [|split; [constructor|]].
  - intros pre n post E. change [NM02 (K := R)] with (executed_file true after_end) in E.
    destruct pre as [|m pre]; [injection E as <- _; exact I|]. injection E as _ E. destruct pre; discriminate E.
  - intros A. specialize (A [NM02; NG G37] (NG G37) [NDnn (lit "D77")] eq_refl). discriminate A.
Qed.

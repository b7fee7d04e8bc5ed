(** C81: formatted files are indented as the options say. *)
From Verif Require Import Base Num Ast GramAst GramModel FmtModel GramRead LaidSpec LaidProofs.
From Verif Require Import NumTextModel GramNum GramExact.
Local Open Scope nat_scope.

(** Full statement of C81: whatever the options, every command of a formatted file is written on
    lines that begin with the indents of the blocks around it.
    Proved for files without macros, codes left out, or blocks with an empty indent, inside of
    indented blocks; each of these is refuted below. *)
Theorem C81_laid_out_partial : forall K T (w : writer K T) op f,
  Forall (simple op []) f -> laid_all w op [] f (formats w op f).
Proof.
  intros K T w op f H. unfold formats. apply cmds_laid; [exact H|]. apply Forall_forall. intros c _. apply cmd_laid.
Qed.
(** The layout is one text. *)
Theorem C81_one_layout : forall K T (w : writer K T) op ind f t t',
  laid_all w op ind f t -> laid_all w op ind f t' -> t = t'.
Proof. intros K T w op ind f t t' H1 H2. rewrite (laid_all_lay _ _ _ _ _ H1). symmetry. exact (laid_all_lay _ _ _ _ _ H2). Qed.
Print Assumptions C81_laid_out_partial.
Print Assumptions C81_one_layout.

Definition wr := q_writer 3 TrimYes.
Definition nl : string := String "010" "".
(** [block_aperture_body_indent] and [step_and_repeat_body_indent] as given, everything else as by default. *)
Definition indents (block sr : nat) (g54 : bool) : options :=
  MkOptions " " (ICount 0) (ICount 0) SplitOnPrimitives false (ICount block) (ICount sr) (ICount 0) (ICount 0) (ICount 0)
    (lit nl) false true g54 false false false.
Definition flash : cmd Q str := CD03 true (Some (lit "1")) None.
Definition twice : sropen := MkSR (Some (lit "2")) (Some (lit "1")) (Some (lit "5")) (Some (lit "0")).

(** A step and repeat without an indent, inside of an indented block, ends the indentation of the block. *)
Theorem C81_empty_indent_refuted :
  let f := [CAB (lit "D10") [flash; CSR twice [flash]; flash]] in
  formats wr (indents 2 0 false) f =
    lit ("%ABD10*%" ++ nl ++ "  X1D03*" ++ nl ++ "  %SRX2Y1I5J0*%" ++ nl ++ "  X1D03*" ++ nl ++ "%SR*%" ++ nl ++
         "X1D03*" ++ nl ++ "%AB*%" ++ nl) /\
  ~ laid_all wr (indents 2 0 false) [] f (formats wr (indents 2 0 false) f).
Proof.
  split; [vm_compute; reflexivity|]. intros H. apply laid_all_lay in H. vm_compute in H. discriminate H.
Qed.
(** A code left out leaves its indentation in front of the next command. *)
Theorem C81_left_out_refuted :
  let f := [CAB (lit "D10") [CG true G54; flash]] in
  formats wr (indents 2 2 true) f = lit ("%ABD10*%" ++ nl ++ "    X1D03*" ++ nl ++ "%AB*%" ++ nl) /\
  ~ laid_all wr (indents 2 2 true) [] f (formats wr (indents 2 2 true) f).
Proof.
  split; [vm_compute; reflexivity|]. intros H. apply laid_all_lay in H. vm_compute in H. discriminate H.
Qed.
(** The primitives of a macro are indented at the end of the line before. *)
Theorem C81_macro_refuted :
  let f := [CAB (lit "D10") [CAM (lit "M") [PCode0 (lit " a")]]] in
  formats wr (indents 2 2 false) f = lit ("%ABD10*%" ++ nl ++ "  %AMM*  " ++ nl ++ "0 a*  %" ++ nl ++ "%AB*%" ++ nl) /\
  ~ laid_all wr (indents 2 2 false) [] f (formats wr (indents 2 2 false) f).
Proof.
  split; [vm_compute; reflexivity|]. intros H. apply laid_all_lay in H. vm_compute in H. discriminate H.
Qed.
Print Assumptions C81_empty_indent_refuted.
Print Assumptions C81_left_out_refuted.
Print Assumptions C81_macro_refuted.

Example C81_case : let f := [CAB (lit "D10") [CG false G01; CD01 false (Some (lit "1")) None None None; CSR twice [flash]; CLP Clear]; CG true G54] in
  Forall (simple (indents 2 3 true) []) f /\
  formats wr (indents 2 3 true) f =
    lit ("%ABD10*%" ++ nl ++ "  G01X1D01*" ++ nl ++ "  %SRX2Y1I5J0*%" ++ nl ++ "     X1D03*" ++ nl ++ "  %SR*%" ++ nl ++
         "  %LPC*%" ++ nl ++ "%AB*%" ++ nl).
Proof.
  split; [|vm_compute; reflexivity].
  assert (N : forall c : cmd Q str, match c with CG _ _ => False | _ => True end -> ~ left_out (indents 2 3 true) c).
  { intros c H [[[x ->] _]|[[x ->] _]]; exact H. }
  constructor; [|constructor; [|constructor]].
  - apply S_block with (bi := lit "  "); [apply II_count; [reflexivity|reflexivity|repeat constructor]|discriminate|].
    constructor; [|constructor; [|constructor; [|constructor; [|constructor]]]].
    + apply S_leaf. intros [[[x E] _]|[[x E] _]]; discriminate E.
    + apply S_leaf. intros H. destruct (N (CD01 false (Some (lit "1")) None None None) I H).
    + apply S_repeat with (si := lit "   "); [apply II_count; [reflexivity|reflexivity|repeat constructor]|discriminate|].
      constructor; [|constructor]. apply S_leaf. intros H. destruct (N flash I H).
    + apply S_leaf. intros H. destruct (N (CLP Clear) I H).
  - apply S_leaf. reflexivity.
Qed.

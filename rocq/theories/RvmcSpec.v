(** Specification for C36 and C37: what a history of builder calls means. *)
From Verif Require Import Base Num Dict Ast StateModel GeomModel CompilerModel RvmcModel.

Section Spec.
  Context {K : Type} {NK : Num K}.

  (** Properly nested commands: drawings and blocks. *)
  Inductive items : list (cmd K) -> Prop :=
  | items_nil : items []
  | items_draw d r : items r -> items (KDraw d :: r)
  | items_block id b o body r : items body -> items r -> items (KStart id b o :: body ++ KEnd :: r).
  Inductive blocks : list (cmd K) -> Prop :=
  | blocks_nil : blocks []
  | blocks_cons id b o body r : items body -> blocks r -> blocks (KStart id b o :: body ++ KEnd :: r).

  (** What happened: the calls with their outcome ([true] when no exception was raised),
      latest first. *)
  Definition history := list (call K * bool).
  Fixpoint observed (cs : list (call K)) (w : world K) (h : history) : history :=
    match cs with
    | [] => h
    | c :: r => let (w', e) := step c w in
                observed r w' ((c, match e with None => true | Some _ => false end) :: h)
    end.

  (** The layers opened: name, first command and where, in the order of opening. *)
  Record header := MkHeader { hd_id : str; hd_start : cmd K; hd_in : option nat }.
  Definition start (id : str) (b : option (box K)) (o : option (vec K)) : cmd K :=
    KStart id b (match o with Some v => v | None => MkVec n0 n0 end).
  Fixpoint opened (h : history) : list header :=
    match h with
    | [] => []
    | (OpenMain b o, true) :: r => opened r ++ [MkHeader main_id (start main_id b o) None]
    | (OpenLayer k id b o, true) :: r => opened r ++ [MkHeader id (start id b o) (Some k)]
    | _ :: r => opened r
    end.
  (** Some attempt was made to leave the layer. *)
  Fixpoint gone (k : nat) (h : history) : bool :=
    match h with
    | [] => false
    | (Leave j _, _) :: r => ((j =? k) && (k <? length (opened r)))%nat || gone k r
    | _ :: r => gone k r
    end.
  (** What layer [k] ([None]: the whole program) consists of: its drawings and the layers
      finished inside of it, in the order of the calls. *)
  Fixpoint contents (h : history) (k : option nat) : list (cmd K) :=
    match h with
    | [] => []
    | (c, ok) :: r =>
        contents r k ++
        (if negb ok then [] else
         match c, k with
         | Add j q, Some k => if (j =? k)%nat then match shapes_of q with Ok ss => map (fun s => KDraw (DShape s)) ss | Err _ => [] end else []
         | Paste j src a neg, Some k =>
             if (j =? k)%nat then
               match nth_error (opened r) src with
               | Some y => [KDraw (DPaste (MkPaste (hd_id y) a neg None))]
               | None => []
               end
             else []
         | Leave j true, _ =>
             match nth_error (opened r) j with
             | Some x =>
                 if negb (gone j r) && match hd_in x, k with None, None => true | Some a, Some b => (a =? b)%nat | _, _ => false end
                 then hd_start x :: contents r (Some j) ++ [KEnd] else []
             | None => []
             end
         | _, _ => []
         end)
    end.

  (** *** Clients that use [with] blocks as intended *)
  (** The open layers (innermost first) and the number of layers opened so far; every call
      addresses the innermost layer, blocks are left normally, one main layer. *)
  Inductive tidy : list (call K) -> list nat -> nat -> Prop :=
  | tidy_nil : tidy [] [] 0
  | tidy_main b o : tidy [OpenMain b o] [0%nat] 1
  | tidy_open cs k st n id b o : tidy cs (k :: st) n -> tidy (cs ++ [OpenLayer k id b o]) (n :: k :: st) (S n)
  | tidy_leave cs k st n : tidy cs (k :: st) n -> tidy (cs ++ [Leave k true]) st n
  | tidy_add cs k st n q ss : tidy cs (k :: st) n -> shapes_of q = Ok ss -> tidy (cs ++ [Add k q]) (k :: st) n
  | tidy_paste cs k st n src a neg : tidy cs (k :: st) n -> (src < n)%nat -> tidy (cs ++ [Paste k src a neg]) (k :: st) n.

  (** Names of the layers in the order of opening. *)
  Definition name_of (c : call K) : list str :=
    match c with OpenMain _ _ => [main_id] | OpenLayer _ id _ _ => [id] | _ => [] end.
  Definition names (cs : list (call K)) : list str := flat_map name_of cs.
  Definition boxed (cs : list (call K)) (k : nat) : Prop :=
    exists pre c post, cs = pre ++ c :: post /\ length (names pre) = k /\
      match c with OpenMain (Some _) _ | OpenLayer _ _ (Some _) _ => True | _ => False end.
  Definition touched (cs : list (call K)) (k : nat) : Prop :=
    exists c, In c cs /\ match c with Add j _ | Paste j _ _ _ => j = k | _ => False end.
  (** The rules a client should keep, beside nesting: names are new, pasted layers are
      finished, no layer without box stays empty, boxes and shapes are acceptable. *)
  Record careful (size : box K -> Prop) (sbox : shape K -> box K) (bad : shape K -> option exc) (cs : list (call K)) : Prop := {
    cf_names : NoDup (names cs);
    cf_paste : forall pre k src a neg post, cs = pre ++ Paste k src a neg :: post -> In (Leave src true) pre;
    cf_empty : forall pre k post, cs = pre ++ Leave k true :: post -> boxed pre k \/ touched pre k;
    cf_boxes : forall b o, In (OpenMain (Some b) o) cs -> size b;
    cf_boxes' : forall k id b o, In (OpenLayer k id (Some b) o) cs -> size b;
    cf_shapes : forall k q ss s, In (Add k q) cs -> shapes_of q = Ok ss -> In s ss -> bad s = None /\ size (sbox s) }.
End Spec.
Arguments header : clear implicits. Arguments history : clear implicits.

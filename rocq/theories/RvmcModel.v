(** Model of [RvmcBuilder] and [LayerBuilder], [builder/rvmc.py].  Objects live in a heap: the
    layer builders are numbered in the order of their creation.  Entering and leaving the
    context managers are separate calls, so that clients need not nest them properly. *)
From Verif Require Import Base Num Dict Ast StateModel GeomModel CompilerModel.

(** [LockedBuilderError] 366-367, [RuntimeError], or an exception of a shape constructor.
    [BNoObject] marks calls on objects that do not exist, impossible in Python. *)
Inductive builder_error := BLocked | BRuntime | BShape (e : exc) | BNoObject.

Section Rvmc.
  Context {K : Type} {NK : Num K}.

  (** [LayerBuilder.__init__] 137-159.  [lb_parent]: the object whose [layer] method created
      it ([None] for the [RvmcBuilder]); [lb_open]: the context manager was entered and not
      yet left. *)
  Record lbuilder := MkLB {
    lb_id : str; lb_cmds : list (cmd K); lb_active : bool; lb_final : bool;
    lb_parent : option nat; lb_open : bool }.
  Definition new_lb (id : str) (b : option (box K)) (o : option (vec K)) (parent : option nat) : lbuilder :=
    MkLB id [KStart id b (match o with Some o => o | None => MkVec n0 n0 end)] false false parent true.
  Record world := MkWorld { w_cmds : list (cmd K); w_locked : bool; w_layers : list lbuilder }.
  Definition w_init : world := MkWorld [] false [].

  (** Arguments of the drawing methods 197-350 *)
  Inductive request :=
  | RCircle (c : vec K) (d : K) (neg : bool)
  | RRectangle (c : vec K) (w h : K) (neg : bool)
  | RObround (c : vec K) (w h : K) (neg : bool)
  | RPolygon (c : vec K) (d : K) (n : Z) (rot : K) (neg : bool)
  | RLine (a b : vec K) (th : K) (neg : bool)
  | RCross (c : vec K) (w h th : K) (neg : bool)
  | RX (c : vec K) (len th : K) (neg : bool).
  Definition shapes_of (r : request) : result exc (list (shape K)) :=
    match r with
    | RCircle c d neg => Ok [new_circle c d neg None]
    | RRectangle c w h neg => Ok [new_rectangle c w h neg None]
    | RObround c w h neg => Ok [new_obround c w h neg None]
    | RPolygon c d n rot neg => let* s := new_polygon c d n rot neg None in Ok [s]
    | RLine a b th neg => Ok [new_line a b th neg None]
    | RCross c w h th neg => Ok [new_rectangle c w th neg None; new_rectangle c th h neg None]
    | RX c len th neg =>
        let half := n_div len n2 in
        Ok [new_line (MkVec (n_add (vx c) half) (n_add (vy c) half)) (MkVec (n_sub (vx c) half) (n_sub (vy c) half)) th neg None;
            new_line (MkVec (n_sub (vx c) half) (n_add (vy c) half)) (MkVec (n_add (vx c) half) (n_sub (vy c) half)) th neg None]
    end.

  (** Calls a client can make.  [Leave h ok] leaves the [with] block of layer [h], normally or
      by an exception. *)
  Inductive call :=
  | OpenMain (b : option (box K)) (o : option (vec K))
  | OpenLayer (h : nat) (id : str) (b : option (box K)) (o : option (vec K))
  | Leave (h : nat) (ok : bool)
  | Add (h : nat) (r : request)
  | Paste (h src : nat) (at_ : vec K) (neg : bool)
  | Finalize (h : nat)
  | GetRvmc.

  Fixpoint update (l : list lbuilder) (h : nat) (f : lbuilder -> lbuilder) : list lbuilder :=
    match l, h with
    | [], _ => []
    | x :: r, O => f x :: r
    | x :: r, S h => x :: update r h f
    end.
  Definition upd (h : nat) (f : lbuilder -> lbuilder) (w : world) : world :=
    MkWorld (w_cmds w) (w_locked w) (update (w_layers w) h f).
  Definition add_cmds (cs : list (cmd K)) (x : lbuilder) : lbuilder :=
    MkLB (lb_id x) (lb_cmds x ++ cs) (lb_active x) (lb_final x) (lb_parent x) (lb_open x).
  Definition set_active (a : bool) (x : lbuilder) : lbuilder :=
    MkLB (lb_id x) (lb_cmds x) a (lb_final x) (lb_parent x) (lb_open x).
  Definition set_closed (x : lbuilder) : lbuilder :=
    MkLB (lb_id x) (lb_cmds x) (lb_active x) (lb_final x) (lb_parent x) false.
  (** [finalize] 161-164 *)
  Definition finalize (x : lbuilder) : lbuilder :=
    MkLB (lb_id x) (lb_cmds x ++ [KEnd]) (lb_active x) true (lb_parent x) (lb_open x).

  (** One call: the new state and the exception raised, if any. *)
  Definition step (c : call) (w : world) : world * option builder_error :=
    match c with
    | OpenMain b o =>                                       (* RvmcBuilder.layer 103-114 *)
        if w_locked w then (w, Some BLocked)
        else (MkWorld (w_cmds w) (w_locked w) (w_layers w ++ [new_lb main_id b o None]), None)
    | OpenLayer h id b o =>                                 (* LayerBuilder.layer 174-186 *)
        match nth_error (w_layers w) h with
        | None => (w, Some BNoObject)
        | Some x =>
            if lb_active x then (w, Some BRuntime)
            else if lb_final x then (w, Some BRuntime)
            else let w := upd h (set_active true) w in
                 (MkWorld (w_cmds w) (w_locked w) (w_layers w ++ [new_lb id b o (Some h)]), None)
        end
    | Leave h ok =>
        match nth_error (w_layers w) h with
        | None => (w, Some BNoObject)
        | Some x =>
            if negb (lb_open x) then (w, None)
            else if negb ok then (upd h set_closed w, None)
            else
              let w := upd h (fun x => set_closed (finalize x)) w in
              let cs := lb_cmds x ++ [KEnd] in
              match lb_parent x with
              | None =>                                     (* RvmcBuilder.layer 116-126 *)
                  if w_locked w then (w, Some BLocked)
                  else (MkWorld (w_cmds w ++ cs) (w_locked w) (w_layers w), None)
              | Some p =>                                   (* LayerBuilder.layer 188-190 *)
                  (upd p (fun y => set_active false (add_cmds cs y)) w, None)
              end
        end
    | Add h r =>                                            (* 197-350 *)
        match nth_error (w_layers w) h with
        | None => (w, Some BNoObject)
        | Some x =>
            if lb_final x then (w, Some BRuntime)
            else match shapes_of r with
                 | Err e => (w, Some (BShape e))
                 | Ok ss => (upd h (add_cmds (map (fun s => KDraw (DShape s)) ss)) w, None)
                 end
        end
    | Paste h src a neg =>                                  (* paste 352-363 *)
        match nth_error (w_layers w) h, nth_error (w_layers w) src with
        | Some x, Some y =>
            if lb_final x then (w, Some BRuntime)
            else (upd h (add_cmds [KDraw (DPaste (MkPaste (lb_id y) a neg None))]) w, None)
        | _, _ => (w, Some BNoObject)
        end
    | Finalize h => (upd h finalize w, None)
    | GetRvmc => (MkWorld (w_cmds w) true (w_layers w), None)   (* get_rvmc 128-131 *)
    end.
  (** All calls in order; exceptions are caught by the client. *)
  Definition run (cs : list call) : world := fold_left (fun w c => fst (step c w)) cs w_init.
  (** [get_rvmc] after these calls *)
  Definition rvmc (cs : list call) : list (cmd K) := w_cmds (run cs).
End Rvmc.
Arguments lbuilder : clear implicits. Arguments world : clear implicits.
Arguments request : clear implicits. Arguments call : clear implicits.

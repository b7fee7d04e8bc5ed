(** Specification vocabulary for C23-C26: the layer structure of a command stream, read off
    the stream without running it. *)
From Verif Require Import Base Num Dict Ast StateModel GeomModel CompilerModel VmModel.

Section Spec.
  Context {K : Type}.

  (** A layer that is open: its name, whether its box was declared, whether something was
      drawn on it. *)
  Record olayer := MkOpen { o_id : str; o_declared : bool; o_touched : bool }.
  (** Open layers (innermost first) and closed layers (latest first) of a stream; [None] when
      a layer is closed that was not opened. *)
  Definition bracket_step (s : option (list olayer * list str)) (c : cmd K) : option (list olayer * list str) :=
    match s with
    | None => None
    | Some (open, closed) =>
        match c with
        | KStart id b _ => Some (MkOpen id (match b with Some _ => true | None => false end) false :: open, closed)
        | KDraw _ => Some (match open with
                           | x :: r => MkOpen (o_id x) (o_declared x) true :: r
                           | [] => []
                           end, closed)
        | KEnd => match open with
                  | x :: r => Some (r, o_id x :: closed)
                  | [] => None
                  end
        end
    end.
  Definition brackets (cs : list (cmd K)) : option (list olayer * list str) :=
    fold_left bracket_step cs (Some ([], [])).
  Definition started (cs : list (cmd K)) : list str :=
    flat_map (fun c => match c with KStart id _ _ => [id] | _ => [] end) cs.
  Definition pasted (cs : list (cmd K)) : list str :=
    flat_map (fun c => match c with KDraw (DPaste p) => [pa_src p] | _ => [] end) cs.
  Definition balanced (cs : list (cmd K)) : Prop := exists closed, brackets cs = Some ([], closed).

  (** The errors of [vm/types/errors.py]. *)
  Definition documented (e : vm_error) : Prop :=
    match e with VKeyError _ | VAssertion | VBackend _ => False | _ => True end.

  (** Calls recorded for one layer. *)
  Definition calls_on (id : str) (l : list (option str * draw K)) : list (draw K) :=
    flat_map (fun e => match fst e with Some i => if str_eqb i id then [snd e] else [] | None => [] end) l.

  (** A command that may come after [pre]: names are new, draws are inside a layer, pasted
      layers are closed, no layer without box is closed empty, boxes are acceptable. *)
  Definition proper (size : box K -> Prop) (sbox : shape K -> box K) (bad : shape K -> option exc)
    (pre : list (cmd K)) (c : cmd K) : Prop :=
    exists open closed, brackets pre = Some (open, closed) /\
      match c with
      | KStart id b _ => ~ In id (started pre) /\ match b with Some b => size b | None => True end
      | KDraw (DShape s) => open <> [] /\ bad s = None /\ size (sbox s)
      | KDraw (DPaste p) => open <> [] /\ In (pa_src p) closed
      | KEnd => match open with x :: _ => o_declared x = true \/ o_touched x = true | [] => False end
      end.
  Definition all_proper size sbox bad (cs : list (cmd K)) : Prop :=
    forall pre c post, cs = pre ++ c :: post -> proper size sbox bad pre c.

  (** The stream with boxes declared for some of the layers that have none. *)
  Definition declare (boxes : str -> option (box K)) (c : cmd K) : cmd K :=
    match c with
    | KStart id None o => match boxes id with Some b => KStart id (Some b) o | None => c end
    | _ => c
    end.
  (** Every paste is of a layer closed before. *)
  Definition pastes_closed (cs : list (cmd K)) : Prop :=
    forall pre p post, cs = pre ++ KDraw (DPaste p) :: post ->
      exists open closed, brackets pre = Some (open, closed) /\ In (pa_src p) closed.
  (** No layer inside a layer. *)
  Definition flat (cs : list (cmd K)) : Prop :=
    forall pre post open closed, cs = pre ++ post -> brackets pre = Some (open, closed) -> (length open <= 1)%nat.
  (** The drawing commands given while layer [id] is the innermost open one. *)
  Fixpoint given (open : list str) (id : str) (cs : list (cmd K)) : list (draw K) :=
    match cs with
    | [] => []
    | KStart j _ _ :: r => given (j :: open) id r
    | KEnd :: r => given (tl open) id r
    | KDraw d :: r => match open with j :: _ => if str_eqb j id then [d] else [] | [] => [] end ++ given open id r
    end.
  (** Where an empty layer may be put: inside a layer without box, or before a command that
      is no drawing. *)
  Definition harmless_place (cs1 cs2 : list (cmd K)) : Prop :=
    match brackets cs1 with
    | Some (x :: _, _) => o_declared x = false \/ match cs2 with KDraw _ :: _ => False | _ => True end
    | _ => match cs2 with KDraw _ :: _ => False | _ => True end
    end.
End Spec.

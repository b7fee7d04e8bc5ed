(** Model of [VirtualMachine], [vm/vm.py], and of what [PillowVirtualMachine]
    ([vm/pillow/vm.py]) and [ShapelyVirtualMachine] ([vm/shapely/vm.py]) change in its layer
    handling.  The pixels or polygons painted are not modelled: a layer holds the list of
    drawing commands executed on it. *)
From Verif Require Import Base Num Dict Ast StateModel GeomModel CompilerModel.

(** [vm/types/errors.py] 10-33, and the builtin exceptions the code can raise.
    [VBackend e] is raised while a backend paints a shape. *)
Inductive vm_error :=
| VNoMain | VEmptyLayer (id : str) | VNoLayer | VLayerNotFound (id : str)
| VLayerExists (id : str) | VPasteDeferred (id : str)
| VKeyError (id : str) | VAssertion | VBackend (e : exc).

(** A backend.  [be_strict]: the eager handlers use the current layer and look up pasted
    layers (both backends; the base class does neither).  [be_size]: the assertions on the
    box of a new layer (pillow 326-327).  [be_shape]: failure while painting a shape.
    [be_needs_main]: [run] always raises without main layer (shapely 417-419). *)
Record backend (K : Type) := MkBackend {
  be_strict : bool; be_size : box K -> bool; be_shape : shape K -> option exc; be_needs_main : bool }.
Arguments MkBackend {K}. Arguments be_strict {K}. Arguments be_size {K}. Arguments be_shape {K}.
Arguments be_needs_main {K}.

(** [EagerLayer] 95-103, [DeferredLayer] 106-120.  [drawn] lists the commands painted. *)
Inductive vlayer (K : Type) :=
| LEager (b : box K) (origin : vec K) (drawn : list (draw K))
| LDeferred (origin : vec K) (commands : list (draw K)).
Arguments LEager {K}. Arguments LDeferred {K}.

(** Attributes 128-133.  The stack holds layer ids, top first (in the code the layer objects
    found in [_layers] under these ids).  [vm_defer]: the deferred handlers are set.
    [vm_log] (not in the code) lists all calls of eager handlers with the current layer. *)
Record vm (K : Type) := MkVm {
  vm_layers : dict (vlayer K); vm_stack : list str; vm_defer : bool; vm_log : list (option str * draw K) }.
Arguments MkVm {K}. Arguments vm_layers {K}. Arguments vm_stack {K}. Arguments vm_defer {K}. Arguments vm_log {K}.

Section Vm.
  Context {K : Type} {NK : Num K} (be : backend K) (fail_on_empty : bool).
  Definition vm_init : vm K := MkVm [] [] false [].
  Notation res := (result vm_error).

  (** The eager handlers: pillow 334-364 and 466-506, shapely 236-296 and 373-410 *)
  Definition paint (d : draw K) (m : vm K) : res (vm K) :=
    match vm_stack m with
    | [] => if be_strict be then Err VNoLayer
            else Ok (MkVm (vm_layers m) [] (vm_defer m) (vm_log m ++ [(None, d)]))
    | id :: _ =>
        match d_get id (vm_layers m) with
        | Some (LEager b o l) =>
            Ok (MkVm (d_set id (LEager b o (l ++ [d])) (vm_layers m)) (vm_stack m) (vm_defer m)
                     (vm_log m ++ [(Some id, d)]))
        | _ => Err VAssertion
        end
    end.
  Definition eager_draw (d : draw K) (m : vm K) : res (vm K) :=
    match d with
    | DShape s => match be_shape be s with Some e => Err (VBackend e) | None => paint d m end
    | DPaste p =>
        if be_strict be then
          match d_get (pa_src p) (vm_layers m) with
          | None => Err (VLayerNotFound (pa_src p))
          | Some (LDeferred _ _) => Err (VPasteDeferred (pa_src p))
          | Some (LEager _ _ _) => paint d m
          end
        else paint d m
    end.
  (** [on_shape_deferred] 171-175, [on_paste_layer_deferred] 187-194 *)
  Definition deferred_draw (d : draw K) (m : vm K) : res (vm K) :=
    match vm_stack m with
    | [] => Err VNoLayer
    | id :: _ =>
        match d_get id (vm_layers m) with
        | Some (LDeferred o l) =>
            Ok (MkVm (d_set id (LDeferred o (l ++ [d])) (vm_layers m)) (vm_stack m) (vm_defer m) (vm_log m))
        | _ => Err VAssertion
        end
    end.
  (** [on_shape] 164-166, [on_paste_layer] 177-179 *)
  Definition on_draw_cmd (d : draw K) (m : vm K) : res (vm K) :=
    if vm_defer m then deferred_draw d m else eager_draw d m.

  (** [on_start_layer] 196-211; [create_eager_layer] of the backend *)
  Definition on_start (id : str) (b : option (box K)) (o : vec K) (m : vm K) : res (vm K) :=
    if d_mem id (vm_layers m) then Err (VLayerExists id)
    else match b with
         | None => Ok (MkVm (d_set id (LDeferred o []) (vm_layers m)) (id :: vm_stack m) true (vm_log m))
         | Some b =>
             if be_size be b
             then Ok (MkVm (d_set id (LEager b o []) (vm_layers m)) (id :: vm_stack m) false (vm_log m))
             else Err VAssertion
         end.

  (** [_calculate_deferred_layer_box] 288-322 *)
  Definition draw_box (ls : dict (vlayer K)) (d : draw K) : res (box K) :=
    match d with
    | DShape s => Ok (shape_box s)
    | DPaste p =>
        match d_get (pa_src p) ls with
        | None => Err (VKeyError (pa_src p))
        | Some (LDeferred _ _) => Err VAssertion
        | Some (LEager b o _) => Ok (b_unshift (b_shift b (pa_center p)) o)
        end
    end.
  Fixpoint join_boxes (ls : dict (vlayer K)) (b : box K) (ds : list (draw K)) : res (box K) :=
    match ds with
    | [] => Ok b
    | d :: r => let* b' := draw_box ls d in join_boxes ls (b_join b b') r
    end.
  Definition deferred_box (ls : dict (vlayer K)) (ds : list (draw K)) : res (option (box K)) :=
    match ds with
    | [] => Ok None
    | d :: r => let* b := draw_box ls d in let* b := join_boxes ls b r in Ok (Some b)
    end.

  (** [_eval_deferred_commands] 324-326; the handlers in force are the eager ones *)
  Fixpoint draw_all (ds : list (draw K)) (m : vm K) : res (vm K) :=
    match ds with [] => Ok m | d :: r => let* m := on_draw_cmd d m in draw_all r m end.

  (** End of [on_end_layer] 280-286: handlers for the layer below *)
  Definition restore (m : vm K) : res (vm K) :=
    match vm_stack m with
    | [] => Ok (MkVm (vm_layers m) [] false (vm_log m))
    | id :: _ =>
        match d_get id (vm_layers m) with
        | Some (LEager _ _ _) => Ok (MkVm (vm_layers m) (vm_stack m) false (vm_log m))
        | Some (LDeferred _ _) => Ok (MkVm (vm_layers m) (vm_stack m) true (vm_log m))
        | None => Err (VKeyError id)
        end
    end.
  Definition pop_stack (m : vm K) : vm K := MkVm (vm_layers m) (tl (vm_stack m)) (vm_defer m) (vm_log m).
  (** [on_end_layer] 248-286 *)
  Definition on_end (m : vm K) : res (vm K) :=
    match vm_stack m with
    | [] => Err VNoLayer
    | id :: rest =>
        match d_get id (vm_layers m) with
        | None => Err (VKeyError id)
        | Some (LEager _ _ _) => restore (pop_stack m)
        | Some (LDeferred o ds) =>
            let* b := deferred_box (vm_layers m) ds in
            match b with
            | None => if fail_on_empty then Err (VEmptyLayer id) else Ok (pop_stack m)
            | Some b =>
                if be_size be b then
                  let m1 := MkVm (d_set id (LEager b o []) (vm_layers m)) (id :: rest) false (vm_log m) in
                  let* m2 := draw_all ds m1 in
                  restore (pop_stack m2)
                else Err VAssertion
            end
        end
    end.

  Definition step (c : cmd K) (m : vm K) : res (vm K) :=
    match c with
    | KStart id b o => on_start id b o m
    | KDraw d => on_draw_cmd d m
    | KEnd => on_end m
    end.
  Fixpoint exec (cs : list (cmd K)) (m : vm K) : res (vm K) :=
    match cs with [] => Ok m | c :: r => let* m := step c m in exec r m end.
  (** [run] 328-340, pillow 514-530, shapely 412-422: the box of the result; [None] stands
      for the box (0, 0, 0, 0) of an absent main layer *)
  Definition vm_result (m : vm K) : res (option (box K)) :=
    match d_get main_id (vm_layers m) with
    | None => if fail_on_empty || be_needs_main be then Err VNoMain else Ok None
    | Some (LDeferred _ _) => Err VAssertion
    | Some (LEager b _ _) => Ok (Some b)
    end.
  Definition vm_run (cs : list (cmd K)) : res (vm K * option (box K)) :=
    let* m := exec cs vm_init in
    let* b := vm_result m in
    Ok (m, b).
End Vm.

(** [Box.width], [Box.height] box.py 61-68 and the assertions of [create_eager_layer],
    vm/pillow/vm.py 326-327 *)
Definition has_area {K} `{Num K} (b : box K) : bool :=
  match b with
  | BoxNone => true
  | BoxOf x0 y0 x1 y1 => n_ltb n0 (n_abs (n_sub x1 x0)) && n_ltb n0 (n_abs (n_sub y1 y0))
  end.
(** The layer handling of the two backends; [paints] tells which shapes they fail to paint. *)
Definition pillow {K} `{Num K} (paints : shape K -> option exc) : backend K := MkBackend true has_area paints false.
Definition shapely {K} `{Num K} (paints : shape K -> option exc) : backend K := MkBackend true (fun _ => true) paints true.

(** Model of the request handlers of the language server and of their locks:
    [gerber/language_server/_server/server.py] (30-135), [document_cache.py] and
    [documents/document.py].

    A handler is a coroutine: a program of a small language with Python's sequencing, [try]
    and [with], run one elementary action at a time.  Which exceptions the lock operations
    raise, which of them wait and which block the whole thread is modelled; what a document does
    with a request ([on_open] ...) is a parameter.  The two locks of an object (a
    [threading.Lock] and an [asyncio.Lock]) record the handler that took them, which Python does
    not; this is read only in theorems.  Log messages are not modelled. *)
From Verif Require Import Base Dict.
Local Open Scope nat_scope.

(** The five features that use documents, [server.py] 68-133. *)
Inductive kind := KOpen | KClose | KChange | KHover | KCompletion.

Section Server.
(** [Doc]: the attributes of a document besides its locks; [Par]: what a request says besides
    the URI; [Ans]: what a handler returns. *)
Context {Doc Par Ans : Type}.

Record request := { rq_kind : kind; rq_uri : str; rq_par : Par }.

Record library := {
  supported : str -> bool;                              (* [Path(uri).match("*.g*")] *)
  new_doc : Doc;                                        (* [GerberDocument(gls)] *)
  on_request : request -> Doc -> Doc * option Ans       (* [on_open] ...; [None]: it raised *)
}.

(** ** Programs *)
Inductive lock := LCache | LDoc.   (* of [open_documents] / of the local variable [document] *)

Inductive stmt :=
| SSkip
| SSeq (a b : stmt)
| SAcqT (l : lock)                (* [thread_lock.acquire()]: blocks the thread *)
| SAcqA (l : lock)                (* [await async_lock.acquire()]: suspends the coroutine *)
| SRelT (l : lock)                (* [thread_lock.release()]: raises when not locked *)
| SRelA (l : lock)
| SSuppress (a : stmt)            (* [with suppress(Exception): a] *)
| SFinally (a b : stmt)           (* [try: a finally: b] *)
| SOnError (a b : stmt)           (* [try: a except Exception: b; raise] *)
| SLookup                         (* [document = open_documents.get(uri)] *)
| SIfFound (a b : stmt)           (* [if document is not None: a else: b] *)
| SNew                            (* [document = GerberDocument(gls)], or raises *)
| SSet                            (* [open_documents.set(uri, document)] *)
| SDel                            (* [open_documents.delete(uri)]: raises when absent *)
| SBody                           (* [result = await document.on_...(params)] *)
| SSuspend.                       (* any other [await] that gives control to the loop *)

(** [acquire], [document_cache.py] 35-47, [document.py] 53-65 (the same text). *)
Definition acquire (l : lock) : stmt :=
  SOnError (SSeq (SAcqT l) (SAcqA l))
           (SSeq (SSuppress (SRelT l)) (SSuppress (SRelA l))).

(** [release], [document_cache.py] 57-62, [document.py] 75-80. *)
Definition release (l : lock) : stmt :=
  SSeq (SSuppress (SRelA l)) (SSuppress (SRelT l)).

(** [async with l: body]; [__aenter__] and [__aexit__] only call the two above. *)
Definition with_lock (l : lock) (body : stmt) : stmt :=
  SSeq (acquire l) (SFinally body (release l)).

(** [get_document], [server.py] 32-48. *)
Definition get_document : stmt :=
  SSeq SLookup (SIfFound SSkip (SSeq SNew (with_lock LDoc SSet))).

(** The handlers, [server.py] 68-78 (open), 94-104 (change), 106-118 (hover),
    120-133 (completion); they have the same structure. *)
Definition use_document (body : stmt) : stmt :=
  SSeq (with_lock LCache (SSeq get_document (acquire LDoc)))
       (SFinally body (release LDoc)).

(** Close, [server.py] 80-92. *)
Definition close_document (body : stmt) : stmt :=
  with_lock LCache
    (SSeq get_document (SSeq (acquire LDoc)
       (SSeq (SFinally body (release LDoc)) SDel))).

(** [body] is what a document's [on_...] does: for [GerberDocument] one action without
    suspension (its methods contain no [await]). *)
Definition handler_with (body : stmt) (k : kind) : stmt :=
  match k with KClose => close_document body | _ => use_document body end.
Definition handler : kind -> stmt := handler_with SBody.

(** ** States *)
Record obj := { o_doc : Doc; o_t : option nat; o_a : option nat }.

Record world := {
  w_docs : dict nat;                 (* [DocumentCache.documents]; documents by identity *)
  w_heap : nat -> obj;               (* the document objects, [w_next] of them *)
  w_next : nat;
  w_t : option nat;                  (* [DocumentCache.thread_lock] *)
  w_a : option nat                   (* [DocumentCache.async_lock] *)
}.

Inductive frame :=
| FSeq (b : stmt) | FSuppress | FFinally (b : stmt) | FOnError (b : stmt)
| FReraise (cancelled : bool).

(** What a coroutine does next: run a statement, return into, or raise through its frames.
    [CancelledError] is no [Exception]. *)
Inductive mode := MRun (s : stmt) | MRet | MExc (cancelled : bool).

Record task := {
  k_req : request; k_mode : mode; k_stack : list frame;
  k_local : option nat;              (* the variable [document] *)
  k_ans : option Ans                 (* what [on_...] returned *)
}.

Definition to_mode (t : task) (m : mode) (st : list frame) : task :=
  {| k_req := k_req t; k_mode := m; k_stack := st; k_local := k_local t; k_ans := k_ans t |}.
Definition set_local (t : task) (o : option nat) : task :=
  {| k_req := k_req t; k_mode := MRet; k_stack := k_stack t; k_local := o; k_ans := k_ans t |}.
Definition set_ans (t : task) (o : option Ans) : task :=
  {| k_req := k_req t; k_mode := MRet; k_stack := k_stack t; k_local := k_local t; k_ans := o |}.

Definition finished (t : task) : Prop :=
  k_stack t = [] /\ (k_mode t = MRet \/ exists c, k_mode t = MExc c).

(** ** Elementary actions *)
Definition h_set (h : nat -> obj) (i : nat) (o : obj) : nat -> obj :=
  fun j => if Nat.eqb j i then o else h j.
Definition set_heap (w : world) (i : nat) (o : obj) : world :=
  {| w_docs := w_docs w; w_heap := h_set (w_heap w) i o; w_next := w_next w;
     w_t := w_t w; w_a := w_a w |}.
Definition set_docs (w : world) (d : dict nat) : world :=
  {| w_docs := d; w_heap := w_heap w; w_next := w_next w; w_t := w_t w; w_a := w_a w |}.

Inductive part := PThread | PAsync.

(** The lock [l.thread_lock] or [l.async_lock] of the object in question; the local variable
    always holds a document where the code uses it ([None.acquire] would raise). *)
Definition lock_get (w : world) (loc : option nat) (l : lock) (p : part) : option (option nat) :=
  match l, loc with
  | LCache, _ => Some (match p with PThread => w_t w | PAsync => w_a w end)
  | LDoc, Some d => Some (match p with PThread => o_t (w_heap w d)
                                     | PAsync => o_a (w_heap w d) end)
  | LDoc, None => None
  end.

Definition lock_set (w : world) (loc : option nat) (l : lock) (p : part) (v : option nat)
  : world :=
  match l, loc with
  | LCache, _ =>
      {| w_docs := w_docs w; w_heap := w_heap w; w_next := w_next w;
         w_t := match p with PThread => v | PAsync => w_t w end;
         w_a := match p with PThread => w_a w | PAsync => v end |}
  | LDoc, Some d =>
      let o := w_heap w d in
      set_heap w d {| o_doc := o_doc o;
                      o_t := match p with PThread => v | PAsync => o_t o end;
                      o_a := match p with PThread => o_a o | PAsync => v end |}
  | LDoc, None => w
  end.

(** [ONext]: done; [OSusp]: done, and the coroutine gives control to the loop;
    [OWait]: it waits for an [asyncio.Lock]; [OBlock]: it waits for a [threading.Lock]. *)
Inductive outcome := ONext (w : world) (t : task) | OSusp (w : world) (t : task)
                   | OWait | OBlock | OEnd.

Variable lib : library.

Definition step_acquire (i : nat) (w : world) (t : task) (l : lock) (p : part) : outcome :=
  match lock_get w (k_local t) l p with
  | None => ONext w (to_mode t (MExc false) (k_stack t))
  | Some None => ONext (lock_set w (k_local t) l p (Some i)) (to_mode t MRet (k_stack t))
  | Some (Some _) => match p with PThread => OBlock | PAsync => OWait end
  end.

Definition step_release (w : world) (t : task) (l : lock) (p : part) : outcome :=
  match lock_get w (k_local t) l p with
  | Some (Some _) => ONext (lock_set w (k_local t) l p None) (to_mode t MRet (k_stack t))
  | _ => ONext w (to_mode t (MExc false) (k_stack t))
  end.

(** One action of handler number [i]. *)
Definition step (i : nat) (w : world) (t : task) : outcome :=
  let st := k_stack t in
  match k_mode t with
  | MRun s =>
      match s with
      | SSkip => ONext w (to_mode t MRet st)
      | SSeq a b => ONext w (to_mode t (MRun a) (FSeq b :: st))
      | SAcqT l => step_acquire i w t l PThread
      | SAcqA l => step_acquire i w t l PAsync
      | SRelT l => step_release w t l PThread
      | SRelA l => step_release w t l PAsync
      | SSuppress a => ONext w (to_mode t (MRun a) (FSuppress :: st))
      | SFinally a b => ONext w (to_mode t (MRun a) (FFinally b :: st))
      | SOnError a b => ONext w (to_mode t (MRun a) (FOnError b :: st))
      | SLookup => ONext w (set_local t (d_get (rq_uri (k_req t)) (w_docs w)))
      | SIfFound a b =>
          ONext w (to_mode t (MRun (match k_local t with Some _ => a | None => b end)) st)
      | SNew =>
          if supported lib (rq_uri (k_req t)) then
            ONext {| w_docs := w_docs w;
                     w_heap := h_set (w_heap w) (w_next w)
                                 {| o_doc := new_doc lib; o_t := None; o_a := None |};
                     w_next := S (w_next w); w_t := w_t w; w_a := w_a w |}
                  (set_local t (Some (w_next w)))
          else ONext w (to_mode t (MExc false) st)
      | SSet =>
          match k_local t with
          | Some d => ONext (set_docs w (d_set (rq_uri (k_req t)) d (w_docs w)))
                            (to_mode t MRet st)
          | None => ONext w (to_mode t (MExc false) st)
          end
      | SDel =>
          match d_get (rq_uri (k_req t)) (w_docs w) with
          | Some _ => ONext (set_docs w (d_del (rq_uri (k_req t)) (w_docs w)))
                            (to_mode t MRet st)
          | None => ONext w (to_mode t (MExc false) st)
          end
      | SBody =>
          match k_local t with
          | Some d =>
              let o := w_heap w d in
              let (doc', r) := on_request lib (k_req t) (o_doc o) in
              let w' := set_heap w d {| o_doc := doc'; o_t := o_t o; o_a := o_a o |} in
              match r with
              | Some a => ONext w' (set_ans t (Some a))
              | None => ONext w' (to_mode t (MExc false) st)
              end
          | None => ONext w (to_mode t (MExc false) st)
          end
      | SSuspend => OSusp w (to_mode t MRet st)
      end
  | MRet =>
      match st with
      | [] => OEnd
      | FSeq b :: st' => ONext w (to_mode t (MRun b) st')
      | FSuppress :: st' => ONext w (to_mode t MRet st')
      | FFinally b :: st' => ONext w (to_mode t (MRun b) st')
      | FOnError _ :: st' => ONext w (to_mode t MRet st')
      | FReraise c :: st' => ONext w (to_mode t (MExc c) st')
      end
  | MExc c =>
      match st with
      | [] => OEnd
      | FSeq _ :: st' => ONext w (to_mode t (MExc c) st')
      | FSuppress :: st' => ONext w (to_mode t (if c then MExc true else MRet) st')
      | FFinally b :: st' => ONext w (to_mode t (MRun b) (FReraise c :: st'))
      | FOnError b :: st' =>
          if c then ONext w (to_mode t (MExc true) st')
          else ONext w (to_mode t (MRun b) (FReraise false :: st'))
      | FReraise c' :: st' => ONext w (to_mode t (MExc c) st')
      end
  end.

(** ** Schedules *)
Definition new_task (prog : kind -> stmt) (r : request) : task :=
  {| k_req := r; k_mode := MRun (prog (rq_kind r)); k_stack := []; k_local := None;
     k_ans := None |}.

(** The server at its start, with the requests it will get. *)
Definition start_world : world :=
  {| w_docs := []; w_heap := fun _ => {| o_doc := new_doc lib; o_t := None; o_a := None |};
     w_next := 0; w_t := None; w_a := None |}.

Fixpoint set_nth {A} (n : nat) (x : A) (l : list A) : list A :=
  match l, n with
  | [], _ => []
  | _ :: r, O => x :: r
  | y :: r, S n' => y :: set_nth n' x r
  end.

(** Handlers in threads of their own: any handler acts next. *)
Inductive tstep : world * list task -> world * list task -> Prop :=
| T_act i w ts t w' t' :
    nth_error ts i = Some t ->
    step i w t = ONext w' t' \/ step i w t = OSusp w' t' ->
    tstep (w, ts) (w', set_nth i t' ts).

Inductive tsteps : nat -> world * list task -> world * list task -> Prop :=
| T_refl c : tsteps 0 c c
| T_step n c c' c'' : tsteps n c c' -> tstep c' c'' -> tsteps (S n) c c''.

(** One thread with an event loop (what pygls does): the running handler keeps control until
    it ends or suspends; a handler that waits for a [threading.Lock] stops the thread, so
    there is no transition for it.  [$/cancelRequest] throws [CancelledError] into a handler
    that does not run: before its first action it ends without having done anything.
    The log lists the handlers in the order in which they were started. *)
Record loop := { l_world : world; l_tasks : list task; l_run : option nat; l_log : list nat }.

Definition started (prog : kind -> stmt) (t : task) : Prop :=
  t <> new_task prog (k_req t).

Inductive lstep (prog : kind -> stmt) : loop -> loop -> Prop :=
| L_pick w ts log i t :
    nth_error ts i = Some t -> ~ finished t -> ~ started prog t ->
    lstep prog {| l_world := w; l_tasks := ts; l_run := None; l_log := log |}
               {| l_world := w; l_tasks := ts; l_run := Some i; l_log := log ++ [i] |}
| L_resume w ts log i t :
    nth_error ts i = Some t -> ~ finished t -> started prog t -> step i w t <> OWait ->
    lstep prog {| l_world := w; l_tasks := ts; l_run := None; l_log := log |}
               {| l_world := w; l_tasks := ts; l_run := Some i; l_log := log |}
| L_act w ts log i t w' t' :
    nth_error ts i = Some t -> step i w t = ONext w' t' ->
    lstep prog {| l_world := w; l_tasks := ts; l_run := Some i; l_log := log |}
               {| l_world := w'; l_tasks := set_nth i t' ts; l_run := Some i; l_log := log |}
| L_suspend w ts log i t w' t' :
    nth_error ts i = Some t -> step i w t = OSusp w' t' ->
    lstep prog {| l_world := w; l_tasks := ts; l_run := Some i; l_log := log |}
               {| l_world := w'; l_tasks := set_nth i t' ts; l_run := None; l_log := log |}
| L_wait w ts log i t :
    nth_error ts i = Some t -> step i w t = OWait ->
    lstep prog {| l_world := w; l_tasks := ts; l_run := Some i; l_log := log |}
               {| l_world := w; l_tasks := ts; l_run := None; l_log := log |}
| L_end w ts log i t :
    nth_error ts i = Some t -> finished t ->
    lstep prog {| l_world := w; l_tasks := ts; l_run := Some i; l_log := log |}
               {| l_world := w; l_tasks := ts; l_run := None; l_log := log |}
| L_cancel w ts log i t :
    nth_error ts i = Some t -> ~ finished t ->
    lstep prog {| l_world := w; l_tasks := ts; l_run := None; l_log := log |}
               {| l_world := w;
                  l_tasks := set_nth i (to_mode t (MExc true) (k_stack t)) ts;
                  l_run := None; l_log := log |}.

Inductive lsteps (prog : kind -> stmt) : loop -> loop -> Prop :=
| Ls_refl c : lsteps prog c c
| Ls_step c c' c'' : lsteps prog c c' -> lstep prog c' c'' -> lsteps prog c c''.

Definition loop_start (prog : kind -> stmt) (rs : list request) : loop :=
  {| l_world := start_world; l_tasks := map (new_task prog) rs; l_run := None; l_log := [] |}.

End Server.
Arguments request : clear implicits.
Arguments library : clear implicits.
Arguments obj : clear implicits.
Arguments world : clear implicits.
Arguments task : clear implicits.
Arguments loop : clear implicits.

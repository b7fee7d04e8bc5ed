(** What the locks of the language server are for, stated without programs.

    [holds]: some lock remembers this handler.  [serve]: the server as a function on one request
    at a time, without locks, objects and coroutines. *)
From Verif Require Import Base Dict LockModel.
Local Open Scope nat_scope.

Section Spec.
Context {Doc Par Ans : Type}.

Definition holds (w : world Doc) (i : nat) : Prop :=
  w_t w = Some i \/ w_a w = Some i \/
  exists d, o_t (w_heap w d) = Some i \/ o_a (w_heap w d) = Some i.

Definition all_free (w : world Doc) : Prop := forall i, ~ holds w i.

(** The documents of the server by URI. *)
Definition view (w : world Doc) (u : str) : option Doc :=
  match d_get u (w_docs w) with Some d => Some (o_doc (w_heap w d)) | None => None end.

Definition upd (s : str -> option Doc) (u : str) (v : option Doc) : str -> option Doc :=
  fun u' => if str_eqb u' u then v else s u'.

(** A request for a document that is not open opens an empty one; closing removes it; requests
    for unsupported documents that are not open fail. *)
Definition serve (lib : library Doc Par Ans) (r : request Par) (s : str -> option Doc)
  : (str -> option Doc) * option Ans :=
  let u := rq_uri r in
  let go doc :=
    let (doc', a) := on_request lib r doc in
    (upd s u (match rq_kind r, a with
              | KClose, Some _ => None
              | _, _ => Some doc'
              end), a) in
  match s u with
  | Some doc => go doc
  | None => if supported lib u then go (new_doc lib) else (s, None)
  end.

Fixpoint serve_all (lib : library Doc Par Ans) (rs : list (request Par))
    (s : str -> option Doc) : (str -> option Doc) * list (option Ans) :=
  match rs with
  | [] => (s, [])
  | r :: rest =>
      let (s1, a) := serve lib r s in
      let (s2, l) := serve_all lib rest s1 in (s2, a :: l)
  end.

(** How a handler ended: with the answer, with an exception. *)
Definition reply (t : task Par Ans) : option (option Ans) :=
  match k_stack t, k_mode t with
  | [], MRet => Some (k_ans t)
  | [], MExc _ => Some None
  | _, _ => None
  end.
End Spec.

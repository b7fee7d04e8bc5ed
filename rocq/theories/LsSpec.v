(** What the language server answers: the server knows one text per open document and computes
    every answer from it, without caches. *)
From Verif Require Import Base LockModel LsModel.
Local Open Scope nat_scope.

Section Spec.
Context {Ast State Node Pos Range Items Code : Type}.
Variable G : gerber_lib Ast State Node Pos Range Items Code.
Variable sup : str -> bool.
Notation ans := (answer Range Items Code).
Notation bind o f := (match o with Some x => f x | None => None end).

Definition hover_of (a : Ast) (p : Pos) : option ans :=
  bind (g_find G a p) (fun o =>
  match o with
  | None => Some ANothing
  | Some n => bind (g_markdown G a n) (fun m =>
      Some (match g_source G n with Some r => AHover m r | None => ANothing end))
  end).

(** Completion is offered on text the parser did not understand, by its first character. *)
Definition completion_of (a : Ast) (p : Pos) : option ans :=
  bind (g_find G a p) (fun o =>
  match o with
  | None => Some ANothing
  | Some n =>
      match g_invalid G n with
      | Some ("G"%char :: _) => Some AGCodes
      | Some ("D"%char :: _) =>
          bind (g_track G a) (fun s => bind (g_items G s) (fun x => Some (AApertures x)))
      | Some ("%"%char :: _) =>
          bind (g_track G a) (fun s => bind (g_next_code G s) (fun c => Some (AExtended (Some c))))
      | Some (_ :: _) => Some ANoItems
      | _ => Some ANothing
      end
  end).

(** The syntax tree of a document with this text ([None]: not open). *)
Definition tree (text : option str) : option Ast := bind text (g_parse G).

Definition texts := str -> option str.
Definition set_text (s : texts) (u : str) (v : option str) : texts :=
  fun u' => if str_eqb u' u then v else s u'.

(** One request: the texts afterwards and the answer ([None]: an error). *)
Definition respond (r : request (params Pos)) (s : texts) : texts * option ans :=
  let u := rq_uri r in
  if sup u then
    match rq_kind r with
    | KOpen | KChange =>
        (set_text s u (Some (p_text (rq_par r))),
         bind (g_parse G (p_text (rq_par r))) (fun _ => Some ANothing))
    | KClose => (set_text s u None, Some ANothing)
    | KHover => (s, match tree (s u) with
                    | Some a => hover_of a (p_pos (rq_par r))
                    | None => Some ANothing end)
    | KCompletion => (s, match tree (s u) with
                         | Some a => completion_of a (p_pos (rq_par r))
                         | None => Some ANothing end)
    end
  else (s, None).

Fixpoint respond_all (rs : list (request (params Pos))) (s : texts) : list (option ans) :=
  match rs with
  | [] => []
  | r :: rest => snd (respond r s) :: respond_all rest (fst (respond r s))
  end.
End Spec.

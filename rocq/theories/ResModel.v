(** Model of the resilient parser: [Grammar.build_resilient] (grammar.py 224-258), [_invalid_token]
    (1866-1873) and [Parser(resilient=True)] (parser.py 17-33).  Source locations are not part of
    the nodes; see [pieces] in [ResSpec] for the text of every item. *)
From Verif Require Import Base Num Ast GramAst PegModel GramModel.

Inductive rnode (K T : Type) := Parsed (c : cmd K T) | Invalid (text : str).
Arguments Parsed {K T}. Arguments Invalid {K T}.

Section Resilient.
  Context {K T : Type} (rd : reader K T).
  (** [Combine(Regex(".+"))]: skips whitespace; [.] is everything but a line feed. *)
  Definition in_line (c : ascii) : bool := negb (Ascii.eqb c "010").
  Definition invalid_p : parser str := token (fun s => nonempty (span in_line s)).
  (** The alternatives of [build], then the invalid token. *)
  Definition resilient_item (n : nat) : parser (list (rnode K T)) :=
    first_of [ (do cs <- root_item rd n; ret (map Parsed cs)); (do t <- invalid_p; ret [Invalid t]) ].
  Definition parse_resilient (text : str) : result parse_error (list (rnode K T)) :=
    let s := expandtabs text in
    let n := S (length s) in
    match many1 n (resilient_item n) s with
    | POk l r => match skip r with [] => Ok (concat l) | _ => Err ESyntax end
    | PFail => Err ESyntax
    | PErr e => Err (EOther e)
    end.
End Resilient.

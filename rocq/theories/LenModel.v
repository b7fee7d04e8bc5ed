(** Model of parsing without [strict]: [parse], [gerber/parser/__init__.py] 24-74, hands [strict]
    to [Parser.parse], [gerber/parser/pyparsing/parser.py] 29-33, which hands it to
    [parseString] as [parse_all].  With [parse_all] off the text after the last match is not
    looked at.  Only the grammar of [build] (189-222) is covered here. *)
From Verif Require Import Base Num Ast GramAst PegModel GramModel.

Section Lenient.
  Context {K T : Type} (rd : reader K T).
  Definition parse_lenient (text : str) : result parse_error (list (cmd K T)) :=
    let s := expandtabs text in
    let n := S (length s) in
    match many1 n (root_item rd n) s with
    | POk l _ => Ok (concat l)
    | PFail => Err ESyntax
    | PErr e => Err (EOther e)
    end.
End Lenient.

(** Model of [GerberLexer], [gerber/pygments.py] 34-86: the rules as matchers, tried in order at
    every position by [RegexLexer.get_tokens_unprocessed] of Pygments.

    A matcher sees the text before the position (last character first) and after it, and says how
    many characters it takes.  Not modelled: other lexers of the file; the removal of empty lines
    around a text by [get_tokens]. *)
From Verif Require Import Base.

Inductive token := Keyword | KeywordConstant | NameClass | NameVariable | Number | Whitespace | Error.
Definition matcher := str -> str -> option nat.

Definition is_one_of (set : string) (c : ascii) : bool := existsb (Ascii.eqb c) (lit set).
(** [[_.a-zA-Z$]], [[_.a-zA-Z0-9]] *)
Definition is_letter (c : ascii) : bool :=
  let n := N_of_ascii c in ((N.leb 65 n && N.leb n 90) || (N.leb 97 n && N.leb n 122))%bool.
Definition name_start (c : ascii) : bool := is_letter c || is_one_of "._$" c.
Definition name_rest (c : ascii) : bool := is_letter c || is_digit c || is_one_of "._" c.
(** The length of the longest prefix of such characters. *)
Fixpoint span (f : ascii -> bool) (s : str) : nat :=
  match s with c :: r => if f c then S (span f r) else 0 | [] => 0 end.
Fixpoint prefix (p s : str) : bool :=
  match p, s with [], _ => true | a :: p, b :: s => Ascii.eqb a b && prefix p s | _, [] => false end.

(** [(?<=look)] with the characters given by classes, last first *)
Fixpoint behind (cls : list (ascii -> bool)) (before : str) : bool :=
  match cls, before with [], _ => true | f :: cls, c :: before => f c && behind cls before | _, [] => false end.
Definition chars (s : string) : list (ascii -> bool) := rev (map Ascii.eqb (lit s)).

(** [X(?=[0-9]+)] *)
Definition axis (x : ascii) : matcher := fun _ after =>
  match after with a :: b :: _ => if (Ascii.eqb a x && is_digit b)%bool then Some 1 else None | _ => None end.
(** [(?<=look)word] *)
Definition word (look w : string) : matcher := fun before after =>
  if (behind (chars look) before && prefix (lit w) after)%bool then Some (String.length w) else None.
(** [(?<=%FS)[LT][AI]] *)
Definition format_modes : matcher := fun before after =>
  match after with
  | a :: b :: _ => if (behind (chars "%FS") before && is_one_of "LT" a && is_one_of "AI" b)%bool then Some 2 else None
  | _ => None
  end.
(** [(?<=%)MO(?=MM|IN)], [(?<=%MO)(MM|IN)] *)
Definition unit_word : matcher := fun before after =>
  if (behind (chars "%") before && (prefix (lit "MOMM") after || prefix (lit "MOIN") after))%bool then Some 2 else None.
Definition unit_name : matcher := fun before after =>
  if (behind (chars "%MO") before && (prefix (lit "MM") after || prefix (lit "IN") after))%bool then Some 2 else None.
(** [(?<=look)[._a-zA-Z$][._a-zA-Z0-9]*] *)
Definition name_after (look : list (ascii -> bool)) : matcher := fun before after =>
  match after with c :: r => if (behind look before && name_start c)%bool then Some (S (span name_rest r)) else None | [] => None end.
(** [D0*n] before a star *)
Definition operation (n : ascii) : matcher := fun _ after =>
  match after with
  | d :: r =>
      let k := span (Ascii.eqb "0") r in
      match skipn k r with
      | a :: b :: _ => if (Ascii.eqb d "D" && Ascii.eqb a n && Ascii.eqb b "*")%bool then Some (S (S k)) else None
      | _ => None
      end
  | [] => None
  end.
(** [D[0-9]+] and the like *)
Definition code (l : ascii) : matcher := fun _ after =>
  match after with
  | d :: r => let k := span is_digit r in if (Ascii.eqb d l && (0 <? k))%bool then Some (S k) else None
  | [] => None
  end.
(** [[+-]*[0-9]+\.[0-9]+] and [[+-]*[0-9]+] *)
Definition decimal : matcher := fun _ after =>
  let s := span (is_one_of "+-") after in
  let i := span is_digit (skipn s after) in
  match skipn (s + i) after with
  | c :: r => let f := span is_digit r in
      if ((0 <? i) && Ascii.eqb c "." && (0 <? f))%bool then Some (s + i + 1 + f) else None
  | [] => None
  end.
Definition integer : matcher := fun _ after =>
  let s := span (is_one_of "+-") after in
  let i := span is_digit (skipn s after) in
  if 0 <? i then Some (s + i) else None.

(** [tokens] 41-85 *)
Definition dig : ascii -> bool := is_digit.
Definition rules : list (matcher * token) :=
  [(axis "X", Keyword); (axis "Y", Keyword); (axis "I", Keyword); (axis "J", Keyword);
   (word "%" "FS", Keyword); (format_modes, KeywordConstant); (word "%" "IP", Keyword); (word "%" "IR", Keyword);
   (unit_word, Keyword); (unit_name, KeywordConstant); (word "%" "OF", Keyword); (word "%" "AS", Keyword);
   (word "%" "MI", Keyword); (word "%" "IN", Keyword); (word "%" "SF", Keyword);
   (word "%" "TA", Keyword); (word "%" "TO", Keyword); (word "%" "TF", Keyword); (word "%" "TD", Keyword);
   (name_after (dig :: chars "%ADD"), NameClass); (name_after (dig :: dig :: chars "%ADD"), NameClass);
   (name_after (dig :: dig :: dig :: chars "%ADD"), NameClass);
   (word "%" "AD", Keyword); (word "%" "AM", Keyword); (name_after (chars "%AM"), NameClass); (word "%" "AB", Keyword); (word "%" "SR", Keyword);
   (operation "1", Keyword); (operation "2", Keyword); (operation "3", Keyword); (code "D", NameVariable);
   (code "G", Keyword); (code "M", Keyword); (code "$", NameVariable); (decimal, Number); (integer, Number)].

(** One round of the loop of [get_tokens_unprocessed]: the first rule that matches, a line end
    or one character that is an error. *)
Fixpoint first_match (rs : list (matcher * token)) (before after : str) : option (nat * token) :=
  match rs with
  | [] => None
  | (m, t) :: rs => match m before after with Some n => Some (n, t) | None => first_match rs before after end
  end.
Definition step (before : str) (c : ascii) (r : str) : nat * token :=
  match first_match rules before (c :: r) with
  | Some nt => nt
  | None => (1, if Ascii.eqb c "010" then Whitespace else Error)
  end.
Fixpoint lex_from (fuel pos : nat) (before after : str) : list (nat * token * str) :=
  match fuel, after with
  | S fuel, c :: r =>
      let '(n, t) := step before c r in
      (pos, t, firstn n after) :: lex_from fuel (pos + n) (rev (firstn n after) ++ before) (skipn n after)
  | _, _ => []
  end.
Definition lex (text : str) : list (nat * token * str) := lex_from (length text) 0 [] text.

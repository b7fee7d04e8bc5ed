(** Model of the part of the pyparsing library (locked versions 3.1.4 and 3.3.2, [poetry.lock]
    2755-2776) that [gerber/parser/pyparsing/grammar.py] uses.  A parser element is a function
    from the remaining text to a result.  [PFail] stands for [ParseException], which lets the
    enclosing alternative, option or repetition carry on; [PErr] stands for every other
    exception, which leaves [parse_string].  The library itself is not part of the repository:
    what is written here is its documented behaviour. *)
From Verif Require Import Base.

Inductive perr := EValidation | EFuel.
Inductive pres (A : Type) : Type :=
| POk (a : A) (rest : str)
| PFail
| PErr (e : perr).
Arguments POk {A}. Arguments PFail {A}. Arguments PErr {A}.
Definition parser (A : Type) := str -> pres A.

(** Default whitespace of pyparsing, skipped before every token except [CharsNotIn]. *)
Definition is_ws (c : ascii) : bool :=
  Ascii.eqb c " " || Ascii.eqb c "010" || Ascii.eqb c "009" || Ascii.eqb c "013".
Fixpoint skip (s : str) : str :=
  match s with
  | [] => []
  | c :: r => if is_ws c then skip r else s
  end.

(** [parse_string] expands tabs to columns of eight before parsing ([str.expandtabs]): both
    line feed and carriage return start a new line. *)
Fixpoint expand (col : nat) (s : str) : str :=
  match s with
  | [] => []
  | c :: r =>
      if Ascii.eqb c "009" then repeat " "%char (8 - col mod 8) ++ expand (col + (8 - col mod 8)) r
      else if Ascii.eqb c "010" || Ascii.eqb c "013" then c :: expand 0 r
      else c :: expand (S col) r
  end.
Definition expandtabs (s : str) : str := expand 0 s.

(** Longest prefix of characters satisfying [f]. *)
Fixpoint span (f : ascii -> bool) (s : str) : str * str :=
  match s with
  | [] => ([], [])
  | c :: r => if f c then let '(a, b) := span f r in (c :: a, b) else ([], s)
  end.

(** [Regex]: skips whitespace, then matches. *)
Definition token {A} (f : str -> option (A * str)) : parser A := fun s =>
  match f (skip s) with Some (a, r) => POk a r | None => PFail end.

Fixpoint strip_prefix (p s : str) : option str :=
  match p, s with
  | [], _ => Some s
  | a :: p', b :: s' => if Ascii.eqb a b then strip_prefix p' s' else None
  | _, [] => None
  end.
(** [Literal]. *)
Definition lit_p (l : string) : parser unit :=
  token (fun s => match strip_prefix (lit l) s with Some r => Some (tt, r) | None => None end).

(** [str.upper] on ASCII and [CaselessLiteral]. *)
Definition upper (c : ascii) : ascii :=
  let n := N_of_ascii c in
  if (N.leb 97 n && N.leb n 122)%bool then ascii_of_N (n - 32) else c.
Fixpoint strip_upper (p s : str) : option str :=
  match p, s with
  | [], _ => Some s
  | a :: p', b :: s' => if Ascii.eqb (upper a) (upper b) then strip_upper p' s' else None
  | _, [] => None
  end.
Definition caseless_p (l : string) : parser unit :=
  token (fun s => match strip_upper (lit l) s with Some r => Some (tt, r) | None => None end).

(** [one_of]: a regular expression trying the strings in order.  Every list below is written in
    the order left by [one_of], which moves a string in front of its own prefixes. *)
Fixpoint first_prefix (ls : list str) (s : str) : option (str * str) :=
  match ls with
  | [] => None
  | l :: r => match strip_prefix l s with Some t => Some (l, t) | None => first_prefix r s end
  end.
Definition one_of (ls : list string) : parser str := token (first_prefix (map lit ls)).

(** [CharsNotIn]: no whitespace skipped, at least one character. *)
Definition chars_not_in (cs : list ascii) : parser str := fun s =>
  match span (fun c => negb (existsb (Ascii.eqb c) cs)) s with
  | ([], _) => PFail
  | (a, r) => POk a r
  end.

(** [And], with the parse action folded in: [p >>= f]. *)
Definition pbind {A B} (p : parser A) (f : A -> parser B) : parser B := fun s =>
  match p s with POk a r => f a r | PFail => PFail | PErr e => PErr e end.
Definition ret {A} (a : A) : parser A := fun s => POk a s.
Definition pthen {A B} (p : parser A) (q : parser B) : parser B := pbind p (fun _ => q).
(** A parse action that validates: [None] is a pydantic [ValidationError]. *)
Definition validate {A} (o : option A) : parser A := fun s =>
  match o with Some a => POk a s | None => PErr EValidation end.

(** [MatchFirst]. *)
Fixpoint first_of {A} (ps : list (parser A)) : parser A := fun s =>
  match ps with
  | [] => PFail
  | p :: r => match p s with PFail => first_of r s | x => x end
  end.
(** [Opt]: whitespace in front is skipped even when the element does not match. *)
Definition opt {A} (p : parser A) : parser (option A) := fun s =>
  match p (skip s) with POk a r => POk (Some a) r | PFail => POk None (skip s) | PErr e => PErr e end.
(** [Opt] around [CharsNotIn] skips nothing. *)
Definition opt_raw {A} (p : parser A) : parser (option A) := fun s =>
  match p s with POk a r => POk (Some a) r | PFail => POk None s | PErr e => PErr e end.
(** [FollowedBy]. *)
Definition followed_by {A} (p : parser A) : parser unit := fun s =>
  match p s with POk _ _ => POk tt s | PFail => PFail | PErr e => PErr e end.
(** [ZeroOrMore] and [OneOrMore]: the fuel bounds the number of rounds. *)
Fixpoint many {A} (n : nat) (p : parser A) : parser (list A) := fun s =>
  match n with
  | O => PErr EFuel
  | S m => match p s with
           | POk a r => match many m p r with
                        | POk l r' => POk (a :: l) r' | PFail => PFail | PErr e => PErr e
                        end
           | PFail => POk [] s
           | PErr e => PErr e
           end
  end.
Definition many1 {A} (n : nat) (p : parser A) : parser (list A) :=
  pbind p (fun a => pbind (many n p) (fun l => ret (a :: l))).

Notation "'do' x <- p ; q" := (pbind p (fun x => q))
  (at level 200, x pattern, p at level 100, q at level 200, right associativity).
Notation "p ;; q" := (pthen p q) (at level 150, right associativity).

(** Regular expressions of the grammar. *)
Definition nonempty (p : str * str) : option (str * str) :=
  match p with ([], _) => None | (a, r) => Some (a, r) end.

Definition is_sign (c : ascii) : bool := Ascii.eqb c "+" || Ascii.eqb c "-".
(** [[+-]?] *)
Definition opt_sign (s : str) : str * str :=
  match s with c :: r => if is_sign c then ([c], r) else ([], s) | [] => ([], []) end.
(** [[0-9]+] *)
Definition re_digits (s : str) : option (str * str) := nonempty (span is_digit s).
(** [(\.[0-9]+)?] *)
Definition opt_fraction (s : str) : str * str :=
  match s with
  | c :: r => if Ascii.eqb c "." then
                match re_digits r with Some (d, r') => ("."%char :: d, r') | None => ([], s) end
              else ([], s)
  | [] => ([], [])
  end.
(** [double] 303-308: [[+-]?(([0-9]+(\.[0-9]+)?)|(\.[0-9]+))] *)
Definition re_double (s : str) : option (str * str) :=
  let '(sg, s1) := opt_sign s in
  match re_digits s1 with
  | Some (d, s2) => let '(f, s3) := opt_fraction s2 in Some (sg ++ d ++ f, s3)
  | None => match nonempty (opt_fraction s1) with
            | Some (f, s2) => Some (sg ++ f, s2)
            | None => None
            end
  end.
(** [integer] 310-313: [[+-]?[0-9]+] *)
Definition re_integer (s : str) : option (str * str) :=
  let '(sg, s1) := opt_sign s in
  match re_digits s1 with Some (d, s2) => Some (sg ++ d, s2) | None => None end.

Definition in_range (lo hi : N) (c : ascii) : bool :=
  (N.leb lo (N_of_ascii c) && N.leb (N_of_ascii c) hi)%bool.
Definition is_letter (c : ascii) : bool := in_range 97 122 c || in_range 65 90 c.
Definition user_start (c : ascii) : bool := Ascii.eqb c "_" || is_letter c || Ascii.eqb c "$".
Definition name_start (c : ascii) : bool := Ascii.eqb c "." || user_start c.
Definition name_char (c : ascii) : bool :=
  Ascii.eqb c "." || Ascii.eqb c "_" || is_letter c || is_digit c.
Definition re_word (st ch : ascii -> bool) (s : str) : option (str * str) :=
  match s with
  | c :: r => if st c then let '(a, b) := span ch r in Some (c :: a, b) else None
  | [] => None
  end.
(** [name] 288-291 and [user_name] 293-296. *)
Definition re_name : str -> option (str * str) := re_word name_start name_char.
Definition re_user_name : str -> option (str * str) := re_word user_start name_char.
(** [field] 298-301: [[^%*,]*] *)
Definition field_char (c : ascii) : bool :=
  negb (Ascii.eqb c "%" || Ascii.eqb c "*" || Ascii.eqb c ",").
Definition re_field (s : str) : option (str * str) := Some (span field_char s).
(** [aperture_id] 320-323: [D[0]*[1-9][0-9]+] *)
Definition re_aperture_id (s : str) : option (str * str) :=
  match s with
  | c :: r =>
      if Ascii.eqb c "D" then
        let '(z, r1) := span (Ascii.eqb "0") r in
        match r1 with
        | a :: r2 => if is_digit a then
                       match re_digits r2 with
                       | Some (d, r3) => Some (c :: z ++ a :: d, r3)
                       | None => None
                       end
                     else None
        | [] => None
        end
      else None
  | [] => None
  end.
(** [G0*54], [D0*1], [M0*2]: a letter, zeros, a code that does not start with a zero. *)
Definition re_code (letter : ascii) (code : string) (s : str) : option (unit * str) :=
  match s with
  | c :: r =>
      if Ascii.eqb c letter then
        match strip_prefix (lit code) (snd (span (Ascii.eqb "0") r)) with
        | Some r' => Some (tt, r')
        | None => None
        end
      else None
  | [] => None
  end.
(** [M0*0]: at least one zero. *)
Definition re_code_zero (letter : ascii) (s : str) : option (unit * str) :=
  match s with
  | c :: r =>
      if Ascii.eqb c letter then
        match span (Ascii.eqb "0") r with ([], _) => None | (_, r') => Some (tt, r') end
      else None
  | [] => None
  end.
(** [[0-9]] *)
Definition re_digit (s : str) : option (ascii * str) :=
  match s with c :: r => if is_digit c then Some (c, r) else None | [] => None end.
(** [\$[0-9]+] *)
Definition re_variable (s : str) : option (str * str) :=
  match s with
  | c :: r => if Ascii.eqb c "$" then
                match re_digits r with Some (d, r') => Some (c :: d, r') | None => None end
              else None
  | [] => None
  end.

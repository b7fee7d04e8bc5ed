(** Model of the source locations of the expressions in macros: [expression] 1398-1483,
    [constant], [variable], [assignment] 1485-1508 and the primitives 1554-1735 of
    [gerber/parser/pyparsing/grammar.py], with [make_unpack_callback] 325-341.  These are the
    elements of [LocModel] once more, where expressions are nodes with [location] and [length].
    [total] is the length of the text. *)
From Verif Require Import Base Num CoordModel Ast GramAst PegModel GramModel LocModel.
Local Open Scope nat_scope.

Local Notation "'do' x <- p ; q" := (pbind p (fun x => q))
  (at level 200, x pattern, p at level 100, q at level 200, right associativity).
Local Notation "p ;; q" := (pthen p q) (at level 150, right associativity).

(** An expression: what it is, [location], [length], and its operands. *)
Inductive term (K : Type) := TM (e : expr K) (loc len : nat) (parts : list (term K)).
Arguments TM {K}.
Definition bare {K} (x : term K) : expr K := let 'TM e _ _ _ := x in e.
(** [Variable.variable] *)
Definition name_of {K} (x : term K) : str := match bare x with EVar v => v | _ => [] end.

Section Terms.
  Context {K T : Type} (rd : reader K T) (total : nat).
  Definition mark (p : parser (expr K * list (term K))) : parser (term K) := fun s =>
    match p s with
    | POk ((e, parts), k) r => POk (TM e (total - length (skip s)) k parts, k) r
    | PFail => PFail
    | PErr e => PErr e
    end.
  (** [variable] 1493-1499, [constant] 1485-1490 *)
  Definition variable_t : parser (term K) := mark (do v <- token re_variable; ret (EVar v, [])).
  Definition constant_t : parser (term K) := mark (do k <- num_p rd; ret (EConst k, [])).
  (** Unary 1409-1427 and binary levels 1429-1479. *)
  Fixpoint unary_t (n : nat) (op : string) (mk : expr K -> expr K) (last : parser (term K)) : parser (term K) := fun s =>
    match n with
    | O => PErr EFuel
    | S m =>
        let this := unary_t m op mk last in
        first_of [ (followed_by (lit_p op ;; this) ;; mark (do x <- (lit_p op ;; this); ret (mk (bare x), [x])));
                   last ] s
    end.
  Definition binary_t {O} (n : nat) (op : parser O) (mk : expr K -> list (expr K) -> expr K) (last : parser (term K)) : parser (term K) :=
    first_of [ (followed_by (last ;; op ;; last) ;;
                mark (do h <- last; do t <- many1 n (op ;; last); ret (mk (bare h) (map bare t), h :: t)));
               last ].
  Fixpoint term_p (n : nat) : parser (term K) := fun s =>
    match n with
    | O => PErr EFuel
    | S m =>
        let factor := first_of
          [ variable_t; constant_t;
            mark (lit_p "(" ;; do x <- term_p m; lit_p ")" ;; ret (EParen (bare x), [x])) ] in
        let neg := unary_t n "-" ENeg factor in
        let pos := unary_t n "+" EPos neg in
        let div := binary_t n (lit_p "/") EDiv pos in
        let mul := binary_t n (one_of ["x"; "X"]%string) EMul div in
        let sub := binary_t n (lit_p "-") ESub mul in
        let add := binary_t n (lit_p "+") EAdd sub in
        add s
    end.

  (** Primitives 1554-1735 and [assignment] 1501-1508, with their expressions; the variable that
      an assignment sets is a node, too. *)
  Definition arg_t (n : nat) : parser (term K) := comma ;; term_p n.
  Definition assignment_t (n : nat) : parser (prim K * list (term K)) :=
    command (do y <- variable_t; lit_p "=" ;; do x <- term_p n; ret (PAssign (name_of y) (bare x), [y; x])).
  Definition primitive_t (code : string) (fields : parser (prim K * list (term K))) : parser (prim K * list (term K)) :=
    command (lit_p code ;; fields).
  Definition prim_t (n : nat) : parser (prim K * list (term K)) :=
    let a := arg_t n in
    let b := @bare K in
    first_of [
      assignment_t n;
      primitive_t "0" (do s <- string_p; ret (PCode0 s, []));
      primitive_t "1" (do x1 <- a; do x2 <- a; do x3 <- a; do x4 <- a; do r <- opt a;
                       ret (PCode1 (b x1) (b x2) (b x3) (b x4) (option_map b r), [x1; x2; x3; x4] ++ match r with Some x => [x] | None => [] end));
      primitive_t "2" (do x1 <- a; do x2 <- a; do x3 <- a; do x4 <- a; do x5 <- a; do x6 <- a;
                       do x7 <- a; ret (PCode2 (b x1) (b x2) (b x3) (b x4) (b x5) (b x6) (b x7), [x1; x2; x3; x4; x5; x6; x7]));
      primitive_t "4" (do x1 <- a; do x2 <- a; do x3 <- a; do x4 <- a;
                       do pts <- many1 n (do x <- a; do y <- a; ret (x, y));
                       do r <- a; ret (PCode4 (b x1) (b x2) (b x3) (b x4) (map (fun q => (b (fst q), b (snd q))) pts) (b r),
                                       [x1; x2; x3; x4] ++ flat_map (fun q => [fst q; snd q]) pts ++ [r]));
      primitive_t "5" (do x1 <- a; do x2 <- a; do x3 <- a; do x4 <- a; do x5 <- a; do x6 <- a;
                       ret (PCode5 (b x1) (b x2) (b x3) (b x4) (b x5) (b x6), [x1; x2; x3; x4; x5; x6]));
      primitive_t "6" (do x1 <- a; do x2 <- a; do x3 <- a; do x4 <- a; do x5 <- a; do x6 <- a;
                       do x7 <- a; do x8 <- a; do x9 <- a;
                       ret (PCode6 (b x1) (b x2) (b x3) (b x4) (b x5) (b x6) (b x7) (b x8) (b x9), [x1; x2; x3; x4; x5; x6; x7; x8; x9]));
      primitive_t "7" (do x1 <- a; do x2 <- a; do x3 <- a; do x4 <- a; do x5 <- a; do x6 <- a;
                       ret (PCode7 0 (b x1) (b x2) (b x3) (b x4) (b x5) (b x6), [x1; x2; x3; x4; x5; x6]));
      primitive_t "20" (do x1 <- a; do x2 <- a; do x3 <- a; do x4 <- a; do x5 <- a; do x6 <- a;
                        do x7 <- a; ret (PCode20 (b x1) (b x2) (b x3) (b x4) (b x5) (b x6) (b x7), [x1; x2; x3; x4; x5; x6; x7]));
      primitive_t "21" (do x1 <- a; do x2 <- a; do x3 <- a; do x4 <- a; do x5 <- a; do x6 <- a;
                        ret (PCode21 (b x1) (b x2) (b x3) (b x4) (b x5) (b x6), [x1; x2; x3; x4; x5; x6]));
      primitive_t "22" (do x1 <- a; do x2 <- a; do x3 <- a; do x4 <- a; do x5 <- a; do x6 <- a;
                        ret (PCode22 (b x1) (b x2) (b x3) (b x4) (b x5) (b x6), [x1; x2; x3; x4; x5; x6])) ].
End Terms.

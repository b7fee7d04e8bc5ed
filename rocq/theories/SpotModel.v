(** Model of the source locations of the coordinates in D01, D02 and D03: [_d_codes] 1136-1204
    and [_coordinate_x] to [_coordinate_j] 1516-1546 of [gerber/parser/pyparsing/grammar.py],
    with [make_unpack_callback] 325-341.  These are the elements of [LocModel] once more, where
    coordinates are nodes with [location] and [length].  [total] is the length of the text. *)
From Verif Require Import Base Num CoordModel Ast GramAst PegModel LocModel.
Local Open Scope nat_scope.

Local Notation "'do' x <- p ; q" := (pbind p (fun x => q))
  (at level 200, x pattern, p at level 100, q at level 200, right associativity).
Local Notation "p ;; q" := (pthen p q) (at level 150, right associativity).

(** A coordinate: class ([CoordinateX] to [CoordinateJ]), [value], [location], [length]. *)
Record spot := MkSpot { sp_axis : ascii; sp_value : str; sp_loc : nat; sp_len : nat }.
Definition values (l : list (option spot)) : list spot :=
  flat_map (fun o => match o with Some c => [c] | None => [] end) l.
Definition value (o : option spot) : option str := option_map sp_value o.

Section Spots.
  Context {K T : Type} (total : nat).
  Definition axis_p (a : ascii) : parser str := caseless_p (String a EmptyString) ;; integer_p.
  (** [_coordinate_x] to [_coordinate_j] 1516-1546 *)
  Definition spot_p (a : ascii) : parser spot := fun s =>
    match axis_p a s with
    | POk (v, k) r => POk (MkSpot a v (total - length (skip s)) k, k) r
    | PFail => PFail
    | PErr e => PErr e
    end.
  (** [_dnn] 1153-1160, [_d01] 1162-1178, [_d02] 1180-1191, [_d03] 1193-1204, [_d_codes] 1136-1151 *)
  Definition dnn_spots (sa : bool) : parser (cmd K T * list spot) :=
    command (do id <- aperture_id_p; ret (CDnn sa id, [])).
  Definition d01_spots (sa : bool) : parser (cmd K T * list spot) :=
    command (do x <- opt (spot_p "X"); do y <- opt (spot_p "Y"); do i <- opt (spot_p "I");
             do j <- opt (spot_p "J"); do _ <- opt (token (re_code "D" "1"));
             ret (CD01 sa (value x) (value y) (value i) (value j), values [x; y; i; j])).
  Definition d02_spots (sa : bool) : parser (cmd K T * list spot) :=
    command (do x <- opt (spot_p "X"); do y <- opt (spot_p "Y"); token (re_code "D" "2") ;;
             ret (CD02 sa (value x) (value y), values [x; y])).
  Definition d03_spots (sa : bool) : parser (cmd K T * list spot) :=
    command (do x <- opt (spot_p "X"); do y <- opt (spot_p "Y"); token (re_code "D" "3") ;;
             ret (CD03 sa (value x) (value y), values [x; y])).
  Definition d_spots (sa : bool) : parser (cmd K T * list spot) :=
    first_of [dnn_spots sa; d01_spots sa; d02_spots sa; d03_spots sa].
End Spots.

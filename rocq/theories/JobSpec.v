(** Which files of a job a view should show. *)
From Verif Require Import Base ApiModel JobModel.
Local Open Scope nat_scope.

(** The fields of a file function, in capitals; the first names the type of the file. *)
Definition fields (e : entry) : list str := split_on ch_comma (upper (en_function e)).
Definition type_named (e : entry) : ftype := ftype_of (hd [] (fields e)).

(** A field [L<number>], possibly with something behind the number. *)
Definition is_number (n : str) : Prop := n <> [] /\ Forall (fun c => is_digit c = true) n.
Definition names_layer (field n : str) : Prop :=
  exists rest, field = lit "L" ++ n ++ rest /\ is_number n /\
    (rest = [] \/ exists c r, rest = c :: r /\ is_digit c = false).

Inductive view := VTop | VBottom | VInner (n : str).
(** Where a file belongs: outlines everywhere, else by the fields TOP, BOT and L<number>. *)
Definition on_layer (e : entry) (n : str) : Prop :=
  exists l f r, fields e = l ++ f :: r /\ names_layer f n /\
    forall g m, In g l -> ~ names_layer g m.
Definition belongs (e : entry) (v : view) : Prop :=
  type_named e = TProfile \/
  match v with
  | VTop => In (lit "TOP") (fields e)
  | VBottom => In (lit "BOT") (fields e) /\ ~ In (lit "TOP") (fields e)
  | VInner n => ~ In (lit "TOP") (fields e) /\ ~ In (lit "BOT") (fields e) /\ on_layer e n
  end.

(** The order of the layers of a board, bottom up. *)
Definition bottom_up : list ftype := [TCopper; TMask; TSoldermask; TPaste; TSilk; TLegend; TProfile].
Definition in_stack_order (fs : list jfile) : Prop :=
  exists keep, map jf_type fs = filter keep bottom_up.
(** A view shows, of the files that belong to it, the last of each type that can be stacked. *)
Definition shows_last (file : entry -> jfile) (es : list entry) (v : view) (fs : list jfile) : Prop :=
  in_stack_order fs /\
  forall f, In f fs <->
    exists l e r, es = l ++ e :: r /\ f = file e /\ belongs e v /\
      In (type_named e) bottom_up /\
      forall e', In e' r -> belongs e' v -> type_named e' <> type_named e.

(** The number a text of digits stands for. *)
Definition number_of (n : str) : Z := fold_left (fun v c => 10 * v + digit_val c)%Z n 0%Z.

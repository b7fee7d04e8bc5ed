(** Specification for C77: SVG documents and what they show. *)
From Verif Require Import Base.
Local Open Scope Q_scope.

(** ** Documents *)
(** A number with the text it is written as. *)
Definition num : Type := str * Q.
Inductive value :=
| VText (t : str)
| VNum (n : num)
| VBox (x y w h : num)
| VMatrix (a b c d e f : num)
| VPath (rings : list (list (num * num))).
Inductive xml := Elt (tag : str) (attrs : list (str * value)) (kids : list xml).

(** How they are written.  [M x,y L x,y ... z] is a closed line. *)
Fixpoint lines_text (l : list (num * num)) : str :=
  match l with [] => [] | (x, y) :: r => lit " L " ++ fst x ++ lit "," ++ fst y ++ lines_text r end.
Inductive subpath_text : list (num * num) -> str -> Prop :=
| st_ring x y r : subpath_text ((x, y) :: r) (lit "M " ++ fst x ++ lit "," ++ fst y ++ lines_text r ++ lit " z").
Inductive path_data : list (list (num * num)) -> str -> Prop :=
| pd_one r t : subpath_text r t -> path_data [r] t
| pd_more r t rs ts : subpath_text r t -> path_data rs ts -> path_data (r :: rs) (t ++ lit " " ++ ts).
Inductive value_text : value -> str -> Prop :=
| vt_text t : value_text (VText t) t
| vt_num n : value_text (VNum n) (fst n)
| vt_box x y w h : value_text (VBox x y w h) (fst x ++ lit " " ++ fst y ++ lit " " ++ fst w ++ lit " " ++ fst h)
| vt_matrix a b c d e f : value_text (VMatrix a b c d e f)
    (lit "matrix(" ++ fst a ++ lit "," ++ fst b ++ lit "," ++ fst c ++ lit "," ++ fst d ++ lit "," ++ fst e ++ lit "," ++ fst f ++ lit ")")
| vt_path rs t : path_data rs t -> value_text (VPath rs) t.
Definition blanks (t : str) : Prop := Forall (eq " "%char) t.
Inductive attrs_text : list (str * value) -> str -> Prop :=
| at_nil sp : blanks sp -> attrs_text [] sp
| at_cons k v r sp vt rt : blanks sp -> sp <> [] -> value_text v vt -> ~ In """"%char vt -> attrs_text r rt ->
    attrs_text ((k, v) :: r) (sp ++ k ++ lit "=" ++ """"%char :: vt ++ """"%char :: rt).
Inductive writes : xml -> str -> Prop :=
| w_closed tag attrs t : attrs_text attrs t -> writes (Elt tag attrs []) (lit "<" ++ tag ++ t ++ lit "/>")
| w_open tag attrs t kids ts : attrs_text attrs t -> all_write kids ts ->
    writes (Elt tag attrs kids) (lit "<" ++ tag ++ t ++ lit ">" ++ ts ++ lit "</" ++ tag ++ lit ">")
with all_write : list xml -> str -> Prop :=
| aw_nil : all_write [] []
| aw_cons x t r ts : writes x t -> all_write r ts -> all_write (x :: r) (t ++ ts).

(** ** What they show *)
Definition point : Type := Q * Q.
(** The even-odd rule: how often a ray to the right crosses the closed line. *)
Definition above (a p : point) : bool := negb (Qle_bool (snd a) (snd p)).
Definition crosses (p a b : point) : bool :=
  xorb (above a p) (above b p) &&
  negb (Qle_bool (fst a + (snd p - snd a) * (fst b - fst a) / (snd b - snd a)) (fst p)).
Fixpoint odd_line (p a : point) (r : list point) : bool :=
  match r with [] => false | b :: r => xorb (crosses p a b) (odd_line p b r) end.
Definition odd_ring (r : list point) (p : point) : bool :=
  match r with [] => false | a :: l => odd_line p a (l ++ [a]) end.
Definition even_odd (rs : list (list point)) (p : point) : bool := fold_right xorb false (map (fun r => odd_ring r p) rs).

Definition attr (k : string) (attrs : list (str * value)) : option value :=
  match find (fun kv => str_eqb (fst kv) (lit k)) attrs with Some kv => Some (snd kv) | None => None end.
Definition number (v : option value) : option Q := match v with Some (VNum n) => Some (snd n) | _ => None end.
(** [matrix(a b c d e f)]: the point [p] of an element is the point [q] around it. *)
Definition placed_at (attrs : list (str * value)) (p q : point) : Prop :=
  match attr "transform" attrs with
  | Some (VMatrix a b c d e f) =>
      fst q == snd a * fst p + snd c * snd p + snd e /\ snd q == snd b * fst p + snd d * snd p + snd f
  | None => fst q == fst p /\ snd q == snd p
  | _ => False
  end.
(** Paint: a colour and an opacity. *)
Definition paint : Type := str * Q.
Definition values (rs : list (list (num * num))) : list (list point) := map (map (fun p => (snd (fst p), snd (snd p)))) rs.
Inductive painted : xml -> point -> paint -> Prop :=
| pt_path attrs kids rs c o p :
    attr "d" attrs = Some (VPath rs) -> attr "fill-rule" attrs = Some (VText (lit "evenodd")) ->
    attr "fill" attrs = Some (VText c) -> number (attr "opacity" attrs) = Some o ->
    even_odd (values rs) p = true -> painted (Elt (lit "path") attrs kids) p (c, o)
| pt_group attrs kids x p q o : In x kids -> placed_at attrs p q -> painted x p o -> painted (Elt (lit "g") attrs kids) q o.
(** The coordinates of the drawing at a place of the viewport, which is measured from its upper
    left corner: [preserveAspectRatio="xMidYMid meet"] scales by the smaller factor and centres. *)
Definition q_small (a b : Q) : Q := if Qle_bool a b then a else b.
Definition viewport (attrs : list (str * value)) (w h : Q) (p v : point) : Prop :=
  number (attr "width" attrs) = Some w /\ number (attr "height" attrs) = Some h /\
  attr "preserveAspectRatio" attrs = Some (VText (lit "xMidYMid meet")) /\
  exists bx by_ bw bh, attr "viewBox" attrs = Some (VBox bx by_ bw bh) /\
    let s := q_small (w / snd bw) (h / snd bh) in
    fst v == (fst p - snd bx) * s + (w - snd bw * s) / 2 /\ snd v == (snd p - snd by_) * s + (h - snd bh * s) / 2.
Definition shown (doc : xml) (v : point) (o : paint) : Prop :=
  exists attrs kids x w h p, doc = Elt (lit "svg") attrs kids /\ viewport attrs w h p v /\
    0 <= fst v <= w /\ 0 <= snd v <= h /\ In x kids /\ painted x p o.

(** ** Polygons *)
(** Holes lie inside of the outer ring and do not overlap. *)
Definition in_polygon (outer : list point) (holes : list (list point)) (p : point) : Prop :=
  odd_ring outer p = true /\ forall h, In h holes -> odd_ring h p = false.
Definition valid_holes (outer : list point) (holes : list (list point)) : Prop :=
  forall p, (forall h, In h holes -> odd_ring h p = true -> odd_ring outer p = true) /\
    ForallOrdPairs (fun h h' => odd_ring h p = true -> odd_ring h' p = false) holes.

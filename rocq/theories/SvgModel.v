(** Model of [ShapelyResult.save] and [save_svg], [vm/shapely/vm.py] 67-177.

    Shapely: geometries are polygons and collections of polygons with coordinates in exact
    rationals; [bounds], and [svg] of [Polygon] and [MultiPolygon] (shapely 2,
    [geometry/polygon.py], [geometry/multipolygon.py]).  Not modelled: encodings. *)
From Verif Require Import Base ColorModel.
Local Open Scope Q_scope.

Definition ring := list (Q * Q).
Record polygon := MkPolygon { po_outer : ring; po_holes : list ring }.
Inductive geometry := GPolygon (p : polygon) | GMulti (ps : list polygon).
Definition polygons (g : geometry) : list polygon := match g with GPolygon p => [p] | GMulti ps => ps end.
(** [is_empty] *)
Definition poly_empty (p : polygon) : bool := match po_outer p with [] => true | _ => false end.
Definition is_empty (g : geometry) : bool := forallb poly_empty (polygons g).
(** [bounds]: (xmin, ymin, xmax, ymax) *)
Definition q_min (a b : Q) : Q := if Qle_bool a b then a else b.
Definition q_max (a b : Q) : Q := if Qle_bool a b then b else a.
Definition vertices (g : geometry) : list (Q * Q) := flat_map po_outer (polygons g).
Definition widen (b : Q * Q * Q * Q) (p : Q * Q) : Q * Q * Q * Q :=
  let '(x0, y0, x1, y1) := b in (q_min x0 (fst p), q_min y0 (snd p), q_max x1 (fst p), q_max y1 (snd p)).
Definition bounds (g : geometry) : Q * Q * Q * Q :=
  match vertices g with
  | [] => (0, 0, 0, 0)                                    (* NaN; not used for empty geometries *)
  | p :: r => fold_left widen r (fst p, snd p, fst p, snd p)
  end.

(** [str.replace] *)
Fixpoint starts (p s : str) : bool :=
  match p, s with [], _ => true | a :: p, b :: s => Ascii.eqb a b && starts p s | _, [] => false end.
Fixpoint replace_from (old new : str) (skip : nat) (s : str) : str :=
  match s with
  | [] => []
  | c :: r =>
      match skip with
      | S k => replace_from old new k r
      | O => if starts old s then new ++ replace_from old new (length old - 1) r else c :: replace_from old new 0 r
      end
  end.
Definition replace (old new s : str) : str := replace_from old new 0 s.

Definition quote : str := ["""" % char].
Definition quoted (s : str) : str := quote ++ s ++ quote.

Section Svg.
  (** [str] of a float. *)
  Context (text : Q -> str).
  Fixpoint join (sep : str) (l : list str) : str :=
    match l with [] => [] | [x] => x | x :: r => x ++ sep ++ join sep r end.
  (** [Polygon.svg(scale_factor=0.0, fill_color)]: the opacity is 0.6 by default. *)
  Definition coords_text (p : Q * Q) : str := text (fst p) ++ lit "," ++ text (snd p).
  Definition ring_text (r : ring) : str :=
    match r with
    | [] => []                                            (* rings of a polygon are not empty *)
    | p :: r => lit "M " ++ coords_text p ++ lit " L " ++ join (lit " L ") (map coords_text r) ++ lit " z"
    end.
  Definition path_text (p : polygon) : str := join (lit " ") (map ring_text (po_outer p :: po_holes p)).
  Definition polygon_svg (fill : str) (p : polygon) : str :=
    if poly_empty p then lit "<g />"
    else lit "<path fill-rule=" ++ quoted (lit "evenodd") ++ lit " fill=" ++ quoted fill ++ lit " stroke=" ++ quoted (lit "#555555")
      ++ lit " stroke-width=" ++ quoted (lit "0.0") ++ lit " opacity=" ++ quoted (lit "0.6") ++ lit " d=" ++ quoted (path_text p) ++ lit " />".
  Definition geometry_svg (fill : str) (g : geometry) : str :=
    match g with
    | GPolygon p => polygon_svg fill p
    | GMulti ps => if is_empty g then lit "<g />" else lit "<g>" ++ concat (map (polygon_svg fill) ps) ++ lit "</g>"
    end.
  (** [_dump_svg] 139-177 *)
  Definition dump_svg (foreground : color) (g : geometry) : str :=
    lit "<svg xmlns=" ++ quoted (lit "http://www.w3.org/2000/svg") ++ lit " xmlns:xlink=" ++ quoted (lit "http://www.w3.org/1999/xlink") ++ lit " " ++
    if is_empty g then lit "/>"
    else
      let '(xmin, ymin, xmax, ymax) := bounds g in
      let dx := xmax - xmin in
      let dy := ymax - ymin in
      lit "width=" ++ quoted (text dx) ++ lit " " ++
      lit "height=" ++ quoted (text dy) ++ lit " " ++
      lit "viewBox=" ++ quoted (text xmin ++ lit " " ++ text ymin ++ lit " " ++ text dx ++ lit " " ++ text dy) ++ lit " " ++
      lit "preserveAspectRatio=" ++ quoted (lit "xMidYMid meet") ++ lit " " ++ lit ">" ++
      replace (lit "stroke=" ++ quoted (lit "#555555")) (lit "stroke=" ++ quoted (lit "#00000000"))
        (lit "<g transform=" ++ quoted (lit "matrix(1,0,0,-1,0," ++ text (ymax + ymin) ++ lit ")") ++ lit ">" ++
         geometry_svg (to_hex foreground) g ++ lit "</g>") ++
      lit "</svg>".

  (** [save] 95-99, [save_svg] 126-136.  Destinations: a path, [io.BytesIO], a file opened for
      writing bytes ([io.BufferedWriter]), [io.StringIO].  Only the second is an instance of
      [typing.BinaryIO] or [BytesIO]: the classes of [io] do not derive from those of
      [typing]. *)
  Inductive destination := ToPath | ToBytesIO | ToFile | ToStringIO.
  Definition is_binary_io (d : destination) : bool := match d with ToBytesIO => true | _ => false end.
  Definition casefold_char (c : ascii) : ascii :=
    let n := nat_of_ascii c in if ((65 <=? n) && (n <=? 90))%nat%bool then ascii_of_nat (n + 32) else c.
  Definition save_svg (d : destination) (foreground : color) (g : geometry) : option str :=
    match d with
    | ToPath => Some (dump_svg foreground g)
    | _ => if is_binary_io d then Some (dump_svg foreground g) else None (* NotImplementedError *)
    end.
  Definition save (d : destination) (format : str) (foreground : color) (g : geometry) : option str :=
    if str_eqb (map casefold_char format) (lit "svg") then save_svg d foreground g else None.
End Svg.

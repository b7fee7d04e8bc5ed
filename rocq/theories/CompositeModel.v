(** Model of [ImageSpace], [gerber/api/_gerber_file.py] 45-156, of the raster size and pixel
    arithmetic of the Pillow backend, [vm/pillow/vm.py] 273-291, 440-460 and 510-520, and of
    [CompositeView.render_with_pillow], [gerber/api/_composite_view.py] 61-102.  Numbers are
    exact rationals; [int] truncates toward zero. *)
From Verif Require Import Base Num.
From Coq Require Import Qabs.
Local Open Scope Q_scope.

(** [Units] 38-42 and [ImageSpace]: the box is in file units. *)
Record ispace := MkISpace {
  sp_inch : bool; sp_min_x : Q; sp_min_y : Q; sp_max_x : Q; sp_max_y : Q; sp_dpmm : Z }.
Definition to_mm (inch : bool) (v : Q) : Q := if inch then v * (254 # 10) else v.
Definition min_x_mm (s : ispace) : Q := to_mm (sp_inch s) (sp_min_x s).
Definition min_y_mm (s : ispace) : Q := to_mm (sp_inch s) (sp_min_y s).
Definition max_x_mm (s : ispace) : Q := to_mm (sp_inch s) (sp_max_x s).
Definition max_y_mm (s : ispace) : Q := to_mm (sp_inch s) (sp_max_y s).
Definition min_x_pixels (s : ispace) : Z := q_trunc (min_x_mm s * inject_Z (sp_dpmm s)).
Definition min_y_pixels (s : ispace) : Z := q_trunc (min_y_mm s * inject_Z (sp_dpmm s)).
Definition max_x_pixels (s : ispace) : Z := q_trunc (max_x_mm s * inject_Z (sp_dpmm s)).
Definition max_y_pixels (s : ispace) : Z := q_trunc (max_y_mm s * inject_Z (sp_dpmm s)).

(** [to_pixel], [vm.py] 288-290 and 512-514: the argument is in file units whatever they are. *)
Definition to_pixel (dpmm : Z) (v : Q) : Z := q_trunc (v * inject_Z dpmm).

(** A rendered file: its space and the size of its image in pixels. *)
Record sub_image := MkSub { si_space : ispace; si_width : Z; si_height : Z }.
(** [PillowEagerLayer.__init__] 273-286 with [Box.width], [Box.height] (box.py 61-68):
    the size of the image of a main layer. *)
Definition rendered (s : ispace) : sub_image :=
  MkSub s (to_pixel (sp_dpmm s) (Qabs (sp_max_x s - sp_min_x s)))
          (to_pixel (sp_dpmm s) (Qabs (sp_max_y s - sp_min_y s))).

(** Pixel a point in file units is drawn at, [_polygon] 440-460; the rows are reversed by
    [FLIP_TOP_BOTTOM] at the end, [run] 517-538. *)
Definition x_offset (s : ispace) : Q :=
  (sp_min_x s + sp_max_x s) / 2 - Qabs (sp_max_x s - sp_min_x s) / 2.
Definition y_offset (s : ispace) : Q :=
  (sp_min_y s + sp_max_y s) / 2 - Qabs (sp_max_y s - sp_min_y s) / 2.
Definition pixel_x (i : sub_image) (x : Q) : Z :=
  to_pixel (sp_dpmm (si_space i)) (x - x_offset (si_space i)).
Definition pixel_y (i : sub_image) (y : Q) : Z :=
  si_height i - 1 - to_pixel (sp_dpmm (si_space i)) (y - y_offset (si_space i)).

(** [max(l, key=...)], [min(l, key=...)]: the first extreme element. *)
Definition q_ltb (a b : Q) : bool := negb (Qle_bool b a).
Fixpoint arg_max {A} (key : A -> Q) (best : A) (l : list A) : A :=
  match l with
  | [] => best
  | x :: l => arg_max key (if q_ltb (key best) (key x) then x else best) l
  end.
Fixpoint arg_min {A} (key : A -> Q) (best : A) (l : list A) : A :=
  match l with
  | [] => best
  | x :: l => arg_min key (if q_ltb (key x) (key best) then x else best) l
  end.

(** Errors: [max] of an empty list, [Image.new] with a negative size. *)
Inductive cerr := CEmpty | CNegativeSize.
(** The composite: its size and where each sub-image is pasted (what lies outside is cut off). *)
Record composite_image := MkComposite { co_width : Z; co_height : Z; co_places : list (Z * Z) }.

(** [render_with_pillow] 61-102, after rendering the files. *)
Definition composite (subs : list sub_image) : result cerr composite_image :=
  match subs with
  | [] => Err CEmpty
  | i :: rest =>
      let max_x := si_space (arg_max (fun i => sp_max_x (si_space i)) i rest) in
      let max_y := si_space (arg_max (fun i => sp_max_y (si_space i)) i rest) in
      let min_x := si_space (arg_min (fun i => sp_min_x (si_space i)) i rest) in
      let min_y := si_space (arg_min (fun i => sp_min_y (si_space i)) i rest) in
      let w := (max_x_pixels max_x - min_x_pixels min_x)%Z in
      let h := (max_y_pixels max_y - min_y_pixels min_y)%Z in
      if ((w <? 0) || (h <? 0))%Z%bool then Err CNegativeSize
      else Ok (MkComposite w h
        (map (fun i => (Z.abs (min_x_pixels min_x - min_x_pixels (si_space i)),
                        Z.abs (max_y_pixels max_y - max_y_pixels (si_space i)))%Z) subs))
  end.

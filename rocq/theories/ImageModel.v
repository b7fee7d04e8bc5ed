(** Model of the colours of images: [PillowResult.get_image], [vm/pillow/vm.py] 233-256, and the
    pasting loop of [CompositeView.render_with_pillow], [gerber/api/_composite_view.py] 85-100.

    Pillow itself: [Image.new], [Image.paste] with a mask and [Image.composite] (a copy with a
    paste), [Paste.c] with the [BLEND] of [ImagingUtils.h] for all four channels of an RGBA image. *)
From Verif Require Import Base ColorModel CompositeModel.
Local Open Scope Z_scope.

Record raster := MkImage { im_size : Z * Z; im_at : Z * Z -> color }.
Definition new_image (size : Z * Z) (c : color) : raster := MkImage size (fun _ => c).
(** [Image.new("RGBA", size)]. *)
Definition transparent : color := MkColor 0 0 0 0.
Definition within (size xy : Z * Z) : bool :=
  ((0 <=? fst xy) && (fst xy <? fst size) && (0 <=? snd xy) && (snd xy <? snd size))%bool.

(** [SHIFTFORDIV255], [DIV255] and [BLEND]. *)
Definition div255 (a : Z) : Z := let t := a + 128 in Z.shiftr (Z.shiftr t 8 + t) 8.
Definition blend (mask old new : Z) : Z := div255 (old * (255 - mask) + new * mask).
Definition blend_color (mask : Z) (old new : color) : color :=
  MkColor (blend mask (c_red old) (c_red new)) (blend mask (c_green old) (c_green new))
          (blend mask (c_blue old) (c_blue new)) (blend mask (c_alpha old) (c_alpha new)).
(** [base.paste(source, corner, mask)]; what lies outside of [base] is cut off. *)
Definition paste (base source : raster) (corner : Z * Z) (mask : Z * Z -> Z) : raster :=
  MkImage (im_size base) (fun xy =>
    let uv := (fst xy - fst corner, snd xy - snd corner) in
    if within (im_size source) uv then blend_color (mask uv) (im_at base xy) (im_at source uv) else im_at base xy).

(** [get_image] 233-256: [convert("L")] of a black and white image has 0 and 255. *)
Definition get_image (foreground background : color) (size : Z * Z) (bits : Z * Z -> bool) : raster :=
  paste (new_image size background) (new_image size foreground) (0, 0) (fun xy => if bits xy then 255 else 0).

(** [render_with_pillow] 61-102 with the images of the files. *)
Definition paste_all (base : raster) (l : list (raster * (Z * Z))) : raster :=
  fold_left (fun base ip => paste base (fst ip) (snd ip) (fun uv => c_alpha (im_at (fst ip) uv))) l base.
Definition composite_pixels (subs : list (sub_image * raster)) : result cerr raster :=
  let* c := composite (map fst subs) in
  Ok (paste_all (new_image (co_width c, co_height c) transparent) (combine (map snd subs) (co_places c))).

(** Model of the command line, [console/gerber.py].

    Left out: help texts, the parsing of the command line by click except for [click.Choice] and
    [click.Path(exists=True)], failing encoders and unwritable outputs, [expanduser] and [resolve]
    of paths.  File contents are characters: bytes of images and characters of texts alike. *)
From Verif Require Import Base ColorModel ApiModel.
From Verif Require LinterModel.
Local Open Scope nat_scope.

(** The file system. *)
Definition files := str -> option str.
Definition write (p data : str) (fs : files) : files := fun q => if str_eqb q p then Some data else fs q.

(** [FileTypeEnum.__members__], [_enums.py] 33-131: names of members. *)
Definition ftype_names : list (ftype * str) :=
  map (fun p => if ftype_eqb (fst p) TNonPlated then (TNonPlated, lit "NON_PLATED") else p) ftype_values.

(** [Style.presets], [vm/types/style.py] 20-153: foreground and background. *)
Definition rgba (r g b a : Z) : color := MkColor r g b a.
Definition style_presets : list (str * (color * color)) :=
  let black := rgba 0 0 0 255 in let clear := rgba 0 0 0 0 in
  let white := rgba 255 255 255 255 in let green := rgba 40 143 40 255 in
  let gray := rgba 117 117 117 255 in let blue := rgba 19 61 145 255 in
  [(lit "SILK", (white, black)); (lit "SILK_ALPHA", (white, clear));
   (lit "COPPER", (green, black)); (lit "COPPER_ALPHA", (green, clear));
   (lit "PASTE_MASK", (gray, black)); (lit "PASTE_MASK_ALPHA", (gray, clear));
   (lit "SOLDER_MASK", (gray, black)); (lit "SOLDER_MASK_ALPHA", (rgba 153 153 153 255, clear));
   (lit "DEFAULT_GRAYSCALE", (white, clear));
   (lit "DEBUG_1", (blue, clear)); (lit "DEBUG_1_ALPHA", (blue, clear));
   (lit "BLACK_WHITE", (white, black)); (lit "BLACK_WHITE_ALPHA", (white, clear))].
(** [get_styles] 90-93. *)
Definition get_style (name : str) : option (color * color) :=
  option_map snd (find (fun p => str_eqb (fst p) name) style_presets).

(** [click.Choice(..., case_sensitive=False)]: the choice equal up to case. *)
Definition choice (choices : list str) (v : str) : option str := find (fun c => str_eqb (lower c) (lower v)) choices.
Definition type_choices : list str := map snd ftype_names.
Definition style_choices : list str := map fst style_presets ++ [lit "CUSTOM"].

(** [pathlib.PurePosixPath.suffix]: from the last dot of the last component unless the dot is its
    first or last character. *)
Fixpoint last_part (c : ascii) (s : str) : str :=
  match s with
  | [] => []
  | d :: r => if existsb (Ascii.eqb c) r then last_part c r else if Ascii.eqb c d then r else s
  end.
Fixpoint from_dot (s : str) : option str :=          (* from the last dot *)
  match s with
  | [] => None
  | d :: r => match from_dot r with Some t => Some t | None => if Ascii.eqb d "." then Some s else None end
  end.
Definition suffix (path : str) : str :=
  let name := last_part "/" path in
  match name with
  | [] => []
  | _ :: r => match from_dot r with Some t => if (length t <? 2)%nat then [] else t | None => [] end
  end.

Section Cli.
  Variable L : library.
  (** [Style(background, foreground)]; what the presets are in the library. *)
  Variable style_of : color * color -> t_style L.
  (** Encoders: [PIL.Image.save] with format and options, after [convert("RGB")] or not, and
      [ShapelyResult.save_svg]; merging of [CompositeView] (C50); the text of formatted code. *)
  Inductive option_value := OInt (n : Z) | OText (s : str) | OFlag (b : bool).
  Variable encode : str -> bool -> list (str * option_value) -> t_image L -> str.
  Variable encode_svg : t_vector L -> t_style L -> str.
  Variable merge : list (space L * t_image L) -> result (t_error L) (t_image L).
  Variable text_of : t_text L -> str.
  (** [formatter.Options( **json.loads(text))] and no options. *)
  Variable read_options : str -> result (t_error L) (t_fopts L).
  Variable no_options : t_fopts L.

  Inductive cerror :=
  | EUsage (option_name : str)                       (* click refuses the value *)
  | EBadOption (option_name : str)                   (* BadOptionUsage *)
  | ENoFile (path : str)                             (* FileNotFoundError *)
  | EFile (e : aerr L)                               (* raised by the library *)
  | EMerge (e : t_error L) | EOptions (e : t_error L).

  (** [_sanitize_style] 158-202. *)
  Definition sanitize_style (style foreground background : option str) : result cerror (option (t_style L)) :=
    match style with
    | None => Ok None
    | Some style =>
        let style := upper style in
        if str_eqb style (lit "CUSTOM") then
          match foreground, background with
          | None, _ => Err (EBadOption (lit "foreground"))
          | _, None => Err (EBadOption (lit "background"))
          | Some foreground, Some background =>
              match from_hex background with
              | Err _ => Err (EBadOption (lit "background"))
              | Ok b => match from_hex foreground with
                        | Err _ => Err (EBadOption (lit "background"))
                        | Ok f => Ok (Some (style_of (f, b)))
                        end
              end
          end
        else match get_style style with
             | None => Err (EBadOption (lit "style"))
             | Some c => Ok (Some (style_of c))
             end
    end.

  (** Options common to the [convert] commands. *)
  Record convert_args := MkArgs {
    a_source : str; a_output : str; a_type : option str; a_style : option str;
    a_foreground : option str; a_background : option str }.
  Definition default (o : option str) (d : str) : str := match o with Some v => v | None => d end.
  Definition choose (name : str) (choices : list str) (v : str) : result cerror str :=
    match choice choices v with Some c => Ok c | None => Err (EUsage name) end.

  (** What all [convert] commands do first, 145-147: click checks type, style and source, then the
      style is made and the file is read. *)
  Definition open_source (a : convert_args) (fs : files) : result cerror (option (t_style L) * gfile L) :=
    let* t := choose (lit "file-type") type_choices (default (a_type a) (lit "INFER")) in
    let* st := match a_style a with
               | None => Ok None
               | Some s => let* c := choose (lit "style") style_choices s in Ok (Some c)
               end in
    match fs (a_source a) with
    | None => Err (EUsage (lit "source"))
    | Some text =>
        let* style := sanitize_style st (a_foreground a) (a_background a) in
        Ok (style, from_file L text (suffix (a_source a)) (ftype_of (upper t)))
    end.

  (** Image formats with their options: [png] 126-155, [jpeg] 205-242, [tiff] 245-315, [bmp]
      318-347, [webp] 350-398; [save_*] of [_gerber_file.py] 224-327. *)
  Inductive format := Png | Jpeg (quality : Z) | Tiff (compression : str) (quality : Z) | Bmp | Webp (lossless : bool) (quality : Z).
  Definition encoded (fm : format) (i : t_image L) : str :=
    match fm with
    | Png => encode (lit "PNG") false [] i
    | Jpeg q => encode (lit "JPEG") true [(lit "quality", OInt q)] i
    | Tiff c q => encode (lit "TIFF") false
        ((lit "compression", OText c) :: (if str_eqb c (lit "jpeg") then [(lit "quality", OInt q)] else [])) i
    | Bmp => encode (lit "BMP") false [] i
    | Webp l q => encode (lit "WEBP") true [(lit "lossless", OFlag l); (lit "quality", OInt q)] i
    end.
  Definition convert (fm : format) (dpmm : Z) (a : convert_args) (fs : files) : result cerror unit * files :=
    match open_source a fs with
    | Err e => (Err e, fs)
    | Ok (style, f) =>
        match fst (render_with_pillow L style dpmm f) with
        | Err e => (Err (EFile e), fs)
        | Ok (_, i) => (Ok tt, write (a_output a) (encoded fm i) fs)
        end
    end.
  (** [svg] 401-430. *)
  Definition convert_svg (a : convert_args) (fs : files) : result cerror unit * files :=
    match open_source a fs with
    | Err e => (Err e, fs)
    | Ok (style, f) =>
        match fst (render_with_shapely L style f) with
        | Err e => (Err (EFile e), fs)
        | Ok (_, (v, s)) => (Ok tt, write (a_output a) (encode_svg v s) fs)
        end
    end.

  (** [merge_convert_png] 511-542, [merge_convert_jpeg] 545-576: all files are read, then all are
      rendered, first to last. *)
  Fixpoint open_all (t : ftype) (paths : list str) (fs : files) : result cerror (list (gfile L)) :=
    match paths with
    | [] => Ok []
    | p :: r => match fs p with
                | None => Err (ENoFile p)
                | Some text => let* l := open_all t r fs in Ok (from_file L text (suffix p) t :: l)
                end
    end.
  Fixpoint render_all (dpmm : Z) (l : list (gfile L)) : result cerror (list (space L * t_image L)) :=
    match l with
    | [] => Ok []
    | f :: r => match fst (render_with_pillow L None dpmm f) with
                | Err e => Err (EFile e)
                | Ok i => let* is := render_all dpmm r in Ok (i :: is)
                end
    end.
  Definition merge_convert (jpeg : bool) (dpmm : Z) (type : option str) (sources : list str) (output : str) (fs : files)
    : result cerror unit * files :=
    let image :=
      let* t := choose (lit "file-type") type_choices (default type (lit "INFER")) in
      let* fl := open_all (ftype_of (upper t)) sources fs in
      let* is := render_all dpmm fl in
      match merge is with Ok i => Ok i | Err e => Err (EMerge e) end in
    match image with
    | Err e => (Err e, fs)
    | Ok i => (Ok tt, write output (if jpeg then encode (lit "JPEG") true [] i else encode (lit "PNG") false [] i) fs)
    end.

  (** [format_cmd] 433-501.  The output is opened, and emptied, before the code is parsed. *)
  Definition format_cmd (source output : str) (config inline_config : option str) (fs : files) : result cerror unit * files :=
    let options :=
      let* inline :=
        match config with
        | None => Ok inline_config
        | Some p =>
            match inline_config with
            | Some _ => Err (EBadOption (lit "inline-config"))
            | None => if str_eqb (suffix p) (lit ".json")
                      then match fs p with Some t => Ok (Some t) | None => Err (ENoFile p) end
                      else Err (EBadOption (lit "config"))
            end
        end in
      match inline with
      | None => Ok no_options
      | Some t => match read_options t with Ok o => Ok o | Err e => Err (EOptions e) end
      end in
    match options with
    | Err e => (Err e, fs)
    | Ok o =>
        match fs source with
        | None => (Err (ENoFile source), fs)
        | Some text =>
            let f := from_file L text (suffix source) TInfer in
            let fs := write output [] fs in
            match fst (file_formats L o f) with
            | Err e => (Err (EFile e), fs)
            | Ok t => (Ok tt, write output (text_of t) fs)
            end
        end
    end.

  (** [lint] 579-617: what is printed, and how it ends.  [lint_code] is [lint(parse(text), rules)]
      (C73); a line is a path and a violation. *)
  Section Lint.
    Context {E : Type} (lint_code : str -> list str -> result E (list LinterModel.violation)).
    Inductive lint_error := LNoFiles | LNoFile (path : str) | LLint (e : E).
    Fixpoint split_comma (s : str) : list str :=
      match s with
      | [] => [[]]
      | c :: r =>
          let l := split_comma r in
          if Ascii.eqb c "," then [] :: l else match l with x :: y => (c :: x) :: y | [] => [[c]] end
      end.
    Definition parse_rules (rules : list str) : list str := flat_map split_comma rules.
    Fixpoint lint_files (rules : list str) (paths : list str) (fs : files) : result lint_error unit * list (str * LinterModel.violation) :=
      match paths with
      | [] => (Ok tt, [])
      | p :: r =>
          match fs p with
          | None => (Err (LNoFile p), [])
          | Some text =>
              match lint_code text rules with
              | Err e => (Err (LLint e), [])
              | Ok vs => let '(res, out) := lint_files rules r fs in (res, map (fun v => (p, v)) vs ++ out)
              end
          end
      end.
    Definition lint_cmd (rules : list str) (paths : list str) (fs : files) : result lint_error unit * list (str * LinterModel.violation) :=
      match paths with
      | [] => (Err LNoFiles, [])
      | _ => lint_files (parse_rules rules) paths fs
      end.
  End Lint.
End Cli.

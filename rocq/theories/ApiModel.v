(** Model of [gerber/api/_enums.py] and of the class [GerberFile], [gerber/api/_gerber_file.py].

    Parsing, compiling, tracking the final state, rendering and formatting are parameters: total
    functions of their arguments that may fail ([Err]).  Python's [upper] and [lower] are
    modelled for ASCII. *)
From Verif Require Import Base.
Local Open Scope nat_scope.

(** [FileTypeEnum], [_enums.py] 33-134. *)
Inductive ftype :=
| TCopper | TMask | TPaste | TSilk | TEdge | TPlated | TNonPlated | TProfile | TSoldermask
| TLegend | TComponent | TGlue | TCarbonmask | TGoldmask | THeatsinkmask | TPeelablemask
| TSilvermask | TTinmask | TDepthrout | TVcut | TViafill | TPads | TDrillmap
| TFabricationDrawing | TVcutmap | TAssemblyDrawing | TArrayDrawing | TOtherDrawing | TOther
| TUndefined | TInferExtension | TInferAttributes | TInfer.
Definition ftype_eq_dec (a b : ftype) : {a = b} + {a <> b}.
Proof. decide equality. Defined.
Definition ftype_eqb (a b : ftype) : bool := if ftype_eq_dec a b then true else false.

(** Members in declaration order, with their values. *)
Definition ftype_values : list (ftype * str) :=
  [(TCopper, lit "COPPER"); (TMask, lit "MASK"); (TPaste, lit "PASTE"); (TSilk, lit "SILK");
   (TEdge, lit "EDGE"); (TPlated, lit "PLATED"); (TNonPlated, lit "NONPLATED");
   (TProfile, lit "PROFILE"); (TSoldermask, lit "SOLDERMASK"); (TLegend, lit "LEGEND");
   (TComponent, lit "COMPONENT"); (TGlue, lit "GLUE"); (TCarbonmask, lit "CARBONMASK");
   (TGoldmask, lit "GOLDMASK"); (THeatsinkmask, lit "HEATSINKMASK");
   (TPeelablemask, lit "PEELABLEMASK"); (TSilvermask, lit "SILVERMASK");
   (TTinmask, lit "TINMASK"); (TDepthrout, lit "DEPTHROUT"); (TVcut, lit "VCUT");
   (TViafill, lit "VIAFILL"); (TPads, lit "PADS"); (TDrillmap, lit "DRILLMAP");
   (TFabricationDrawing, lit "FABRICATIONDRAWING"); (TVcutmap, lit "VCUTMAP");
   (TAssemblyDrawing, lit "ASSEMBLYDRAWING"); (TArrayDrawing, lit "ARRAYDRAWING");
   (TOtherDrawing, lit "OTHERDRAWING"); (TOther, lit "OTHER"); (TUndefined, lit "UNDEFINED");
   (TInferExtension, lit "INFER_FROM_EXTENSION");
   (TInferAttributes, lit "INFER_FROM_ATTRIBUTES"); (TInfer, lit "INFER")].

(** [FileTypeEnum(value)]: lookup by value, [_missing_] 136-141 otherwise.  It never raises. *)
Definition ftype_of (v : str) : ftype :=
  match find (fun p => str_eqb (snd p) v) ftype_values with
  | Some (t, _) => t
  | None => if str_eqb v (lit "SOLDERPASTE") then TPaste else TUndefined
  end.

(** [str.upper] and [str.lower]. *)
Definition up (c : ascii) : ascii :=
  let n := N_of_ascii c in
  if ((97 <=? n) && (n <=? 122))%N%bool then ascii_of_N (n - 32) else c.
Definition down (c : ascii) : ascii :=
  let n := N_of_ascii c in
  if ((65 <=? n) && (n <=? 90))%N%bool then ascii_of_N (n + 32) else c.
Definition upper (s : str) : str := map up s.
Definition lower (s : str) : str := map down s.
Definition ch_comma : ascii := ","%char.

(** [infer_from_attributes] 143-155. *)
Definition infer_from_attributes (file_function : option str) : ftype :=
  match file_function with
  | None => TUndefined
  | Some s => match split_on ch_comma s with
              | [] => TUndefined
              | f :: _ => ftype_of (upper f)
              end
  end.

(** [re.match(prefix + "[0-9]+", s)]: matches at the start, the rest is free. *)
Fixpoint match_then_digit (prefix s : str) : bool :=
  match prefix, s with
  | [], c :: _ => is_digit c
  | p :: ps, c :: cs => Ascii.eqb p c && match_then_digit ps cs
  | _, [] => false
  end.

(** [GERBER_EXTENSION_TO_FILE_TYPE_MAPPING] 173-186. *)
Definition extension_types : list (str * ftype) :=
  [(lit ".grb", TInferAttributes); (lit ".gbr", TInferAttributes); (lit ".gto", TSilk);
   (lit ".gbo", TSilk); (lit ".gpt", TPads); (lit ".gpb", TPads); (lit ".gts", TSoldermask);
   (lit ".gbs", TSoldermask); (lit ".gtl", TCopper); (lit ".gbl", TCopper);
   (lit ".gtp", TPaste); (lit ".gbp", TPaste)].

(** [infer_from_extension] 157-170. *)
Definition infer_from_extension (ext : str) : ftype :=
  if match_then_digit (lit ".g") ext then TCopper
  else if match_then_digit (lit ".gp") ext then TCopper
  else if match_then_digit (lit ".gm") ext then TCopper
  else match find (fun p => str_eqb (fst p) (lower ext)) extension_types with
       | Some (_, t) => t
       | None => TUndefined
       end.

(** [DEFAULT_COLOR_MAP] 189-220 and [DEFAULT_ALPHA_COLOR_MAP] 221-251, with the names of the
    presets of [Style]. *)
Definition default_color_map : list (ftype * str) :=
  [(TCopper, lit "COPPER"); (TMask, lit "SOLDER_MASK"); (TPaste, lit "PASTE_MASK");
   (TSilk, lit "SILK"); (TEdge, lit "SILK"); (TOther, lit "DEBUG_1_ALPHA");
   (TUndefined, lit "DEBUG_1_ALPHA"); (TPlated, lit "SOLDER_MASK");
   (TNonPlated, lit "PASTE_MASK"); (TProfile, lit "SILK"); (TSoldermask, lit "SOLDER_MASK");
   (TLegend, lit "SILK"); (TComponent, lit "PASTE_MASK"); (TGlue, lit "PASTE_MASK");
   (TCarbonmask, lit "SOLDER_MASK"); (TGoldmask, lit "SOLDER_MASK");
   (THeatsinkmask, lit "SOLDER_MASK"); (TPeelablemask, lit "SOLDER_MASK");
   (TSilvermask, lit "SOLDER_MASK"); (TTinmask, lit "SOLDER_MASK");
   (TDepthrout, lit "PASTE_MASK"); (TVcut, lit "PASTE_MASK"); (TViafill, lit "PASTE_MASK");
   (TPads, lit "PASTE_MASK"); (TDrillmap, lit "SILK"); (TFabricationDrawing, lit "SILK");
   (TVcutmap, lit "SILK"); (TAssemblyDrawing, lit "SILK"); (TArrayDrawing, lit "SILK");
   (TOtherDrawing, lit "SILK")].
Definition default_alpha_color_map : list (ftype * str) :=
  [(TCopper, lit "COPPER_ALPHA"); (TMask, lit "SOLDER_MASK_ALPHA");
   (TPaste, lit "PASTE_MASK_ALPHA"); (TSilk, lit "SILK_ALPHA"); (TEdge, lit "SILK_ALPHA");
   (TOther, lit "DEBUG_1_ALPHA"); (TUndefined, lit "DEBUG_1_ALPHA");
   (TPlated, lit "SOLDER_MASK_ALPHA"); (TNonPlated, lit "PASTE_MASK_ALPHA");
   (TProfile, lit "SILK_ALPHA"); (TSoldermask, lit "SOLDER_MASK_ALPHA");
   (TLegend, lit "SILK_ALPHA"); (TComponent, lit "PASTE_MASK_ALPHA");
   (TGlue, lit "PASTE_MASK_ALPHA"); (TCarbonmask, lit "SOLDER_MASK_ALPHA");
   (TGoldmask, lit "SOLDER_MASK_ALPHA"); (THeatsinkmask, lit "SOLDER_MASK_ALPHA");
   (TPeelablemask, lit "SOLDER_MASK_ALPHA"); (TSilvermask, lit "SOLDER_MASK_ALPHA");
   (TTinmask, lit "SOLDER_MASK_ALPHA"); (TDepthrout, lit "PASTE_MASK_ALPHA");
   (TVcut, lit "PASTE_MASK_ALPHA"); (TViafill, lit "PASTE_MASK_ALPHA");
   (TPads, lit "PASTE_MASK_ALPHA"); (TFabricationDrawing, lit "SILK_ALPHA");
   (TVcutmap, lit "SILK_ALPHA"); (TAssemblyDrawing, lit "SILK_ALPHA");
   (TArrayDrawing, lit "SILK_ALPHA"); (TOtherDrawing, lit "SILK_ALPHA")].

(** [FileFunction], [ast/nodes/enums.py] 93-121. *)
Inductive ffunction :=
| FCopper | FPlated | FNonPlated | FProfile | FSoldermask | FLegend | FComponent | FPaste
| FGlue | FCarbonmask | FGoldmask | FHeatsinkmask | FPeelablemask | FSilvermask | FTinmask
| FDepthrout | FVcut | FViafill | FPads | FOther | FDrillmap | FFabricationDrawing | FVcutmap
| FAssemblyDrawing | FArrayDrawing | FOtherDrawing.
Definition ffunction_value (f : ffunction) : str :=
  match f with
  | FCopper => lit "Copper" | FPlated => lit "Plated" | FNonPlated => lit "NonPlated"
  | FProfile => lit "Profile" | FSoldermask => lit "Soldermask" | FLegend => lit "Legend"
  | FComponent => lit "Component" | FPaste => lit "Paste" | FGlue => lit "Glue"
  | FCarbonmask => lit "Carbonmask" | FGoldmask => lit "Goldmask"
  | FHeatsinkmask => lit "Heatsinkmask" | FPeelablemask => lit "Peelablemask"
  | FSilvermask => lit "Silvermask" | FTinmask => lit "Tinmask"
  | FDepthrout => lit "Depthrout" | FVcut => lit "Vcut" | FViafill => lit "Viafill"
  | FPads => lit "Pads" | FOther => lit "Other" | FDrillmap => lit "Drillmap"
  | FFabricationDrawing => lit "FabricationDrawing" | FVcutmap => lit "Vcutmap"
  | FAssemblyDrawing => lit "AssemblyDrawing" | FArrayDrawing => lit "ArrayDrawing"
  | FOtherDrawing => lit "OtherDrawing"
  end.

(** The type [from_file] gives a file, [_gerber_file.py] 446-452. *)
Definition type_on_open (suffix : str) (t : ftype) : ftype :=
  let t := if ftype_eqb t TInferExtension then infer_from_extension suffix else t in
  if ftype_eqb t TInfer then
    let t' := infer_from_extension suffix in
    if ftype_eqb t' TUndefined then TInferAttributes else t'
  else t.

(** [source_type_or_path]: a path, of which only the suffix matters, or a marker. *)
Inductive origin := OPath (suffix : str) | OString | OBuffer.

(** The rest of the library, as far as a [GerberFile] calls it. *)
Record library := MkLibrary {
  t_ast : Type; t_rvmc : Type; t_state : Type; t_popts : Type; t_copts : Type; t_fopts : Type;
  t_style : Type; t_raster : Type; t_vector : Type; t_image : Type; t_box : Type;
  t_units : Type; t_text : Type; t_error : Type;
  no_popts : t_popts; no_copts : t_copts;
  preset : str -> t_style;
  parse : str -> t_popts -> result t_error t_ast;
  compile : t_ast -> t_copts -> result t_error t_rvmc;
  final_state : t_ast -> result t_error t_state;
  file_function : t_state -> option ffunction;
  unit_mode : t_state -> t_units;
  raster : t_rvmc -> Z -> result t_error t_raster;
  raster_box : t_raster -> t_box;
  raster_image : t_raster -> t_style -> result t_error t_image;
  vector : t_rvmc -> result t_error t_vector;
  vector_box : t_vector -> t_box;
  formats : t_ast -> t_fopts -> result t_error t_text }.

Section File.
  Variable L : library.

  Inductive aerr := ELib (e : t_error L) | EKey (t : ftype) | ENotImplemented (t : ftype).
  Definition from_lib {A} (r : result (t_error L) A) : result aerr A :=
    match r with Ok a => Ok a | Err e => Err (ELib e) end.

  (** [GerberFile] 392-413; the source type is the [origin]. *)
  Record gfile := MkFile {
    g_source : str; g_type : ftype; g_origin : origin;
    g_popts : t_popts L; g_copts : t_copts L; g_colors : list (ftype * t_style L);
    g_ast : option (t_ast L); g_rvmc : option (t_rvmc L); g_final : option (t_state L) }.
  Definition new_file (source : str) (t : ftype) (o : origin) : gfile :=
    MkFile source t o (no_popts L) (no_copts L)
      (map (fun p => (fst p, preset L (snd p))) default_alpha_color_map) None None None.

  Definition with_type f t :=
    MkFile (g_source f) t (g_origin f) (g_popts f) (g_copts f) (g_colors f)
      (g_ast f) (g_rvmc f) (g_final f).
  Definition with_ast f a :=
    MkFile (g_source f) (g_type f) (g_origin f) (g_popts f) (g_copts f) (g_colors f)
      a (g_rvmc f) (g_final f).
  Definition with_rvmc f r :=
    MkFile (g_source f) (g_type f) (g_origin f) (g_popts f) (g_copts f) (g_colors f)
      (g_ast f) r (g_final f).
  Definition with_final f s :=
    MkFile (g_source f) (g_type f) (g_origin f) (g_popts f) (g_copts f) (g_colors f)
      (g_ast f) (g_rvmc f) s.

  (** A method: what it returns or raises, and the object afterwards. *)
  Definition method (A : Type) := gfile -> result aerr A * gfile.
  Definition mret {A} (a : A) : method A := fun f => (Ok a, f).
  Definition mbind {A B} (m : method A) (k : A -> method B) : method B :=
    fun f => match m f with
             | (Ok a, f') => k a f'
             | (Err e, f') => (Err e, f')
             end.
  Definition mcall {A} (r : result (t_error L) A) : method A := fun f => (from_lib r, f).
  Notation "x <- m ;; k" := (mbind m (fun x => k)) (at level 61, m at next level, right associativity).

  (** [_flush_cached] 424-427. *)
  Definition flush_cached (f : gfile) : gfile := with_final (with_rvmc (with_ast f None) None) None.

  (** [from_file] 429-454, [from_str] 456-480, [from_buffer] 481-499; the file has been read. *)
  Definition from_file (source suffix : str) (t : ftype) : gfile :=
    new_file source (type_on_open suffix t) (OPath suffix).
  Definition from_str (source : str) (t : ftype) : gfile :=
    new_file source (if ftype_eqb t TInferExtension then TUndefined else t) OString.
  Definition from_buffer (source : str) (t : ftype) : gfile :=
    new_file source (if ftype_eqb t TInferExtension then TUndefined else t) OBuffer.

  (** [set_parser_options] 501-521, [set_compiler_options] 523-543, [set_color_map] 545-568. *)
  Definition set_parser_options (o : t_popts L) (f : gfile) : gfile :=
    let f := flush_cached f in
    MkFile (g_source f) (g_type f) (g_origin f) o (g_copts f) (g_colors f)
      (g_ast f) (g_rvmc f) (g_final f).
  Definition set_compiler_options (o : t_copts L) (f : gfile) : gfile :=
    let f := flush_cached f in
    MkFile (g_source f) (g_type f) (g_origin f) (g_popts f) o (g_colors f)
      (g_ast f) (g_rvmc f) (g_final f).
  Definition set_color_map (m : list (ftype * t_style L)) (f : gfile) : gfile :=
    MkFile (g_source f) (g_type f) (g_origin f) (g_popts f) (g_copts f) m
      (g_ast f) (g_rvmc f) (g_final f).

  (** [_get_ast] 576-581. *)
  Definition get_ast : method (t_ast L) := fun f =>
    match g_ast f with
    | Some a => (Ok a, f)
    | None => match parse L (g_source f) (g_popts f) with
              | Ok a => (Ok a, with_ast f (Some a))
              | Err e => (Err (ELib e), f)
              end
    end.
  (** [_get_final_state] 570-574. *)
  Definition get_final_state : method (t_state L) := fun f =>
    match g_final f with
    | Some s => (Ok s, f)
    | None => (a <- get_ast ;;
               s <- mcall (final_state L a) ;;
               fun f => (Ok s, with_final f (Some s))) f
    end.
  (** [_get_rvmc] 583-590. *)
  Definition get_rvmc : method (t_rvmc L) :=
    a <- get_ast ;;
    fun f => match g_rvmc f with
             | Some r => (Ok r, f)
             | None => (r <- mcall (compile L a (g_copts f)) ;;
                        fun f => (Ok r, with_rvmc f (Some r))) f
             end.

  (** [_get_file_type_from_extension] 640-661. *)
  Definition file_type_from_extension (f : gfile) : result aerr ftype :=
    let undefined :=
      if ftype_eqb (g_type f) TInferExtension then Ok TUndefined
      else if ftype_eqb (g_type f) TInfer then Ok TInferAttributes
      else Err (ENotImplemented (g_type f)) in
    match g_origin f with
    | OPath suffix =>
        let t := infer_from_extension suffix in
        if ftype_eqb t TUndefined then undefined else Ok t
    | _ => undefined
    end.
  (** [_get_file_type_from_attributes] 663-673; the attribute found under [.FileFunction] is a
      [TF_FileFunction] node. *)
  Definition file_type_from_attributes : method ftype :=
    s <- get_final_state ;;
    match file_function L s with
    | None => mret TUndefined
    | Some fn => mret (infer_from_attributes (Some (ffunction_value fn)))
    end.

  (** [_dispatch_style] 628-638. *)
  Definition is_one_of (t a b : ftype) : bool := ftype_eqb t a || ftype_eqb t b.
  Definition dispatch_style (style : option (t_style L)) : method (t_style L) := fun f =>
    match style with
    | Some s => (Ok s, f)
    | None =>
        (_ <- (fun f => if is_one_of (g_type f) TInferExtension TInfer then
                          match file_type_from_extension f with
                          | Ok t => (Ok tt, with_type f t)
                          | Err e => (Err e, f)
                          end
                        else (Ok tt, f)) ;;
         _ <- (fun f => if is_one_of (g_type f) TInferAttributes TInfer then
                          (t <- file_type_from_attributes ;; fun f => (Ok tt, with_type f t)) f
                        else (Ok tt, f)) ;;
         fun f => match find (fun p => ftype_eqb (fst p) (g_type f)) (g_colors f) with
                  | Some (_, s) => (Ok s, f)
                  | None => (Err (EKey (g_type f)), f)
                  end) f
    end.

  (** [ImageSpace] 45-53 and the results of rendering. *)
  Record space := MkSpace { s_units : t_units L; s_box : t_box L; s_dpmm : Z }.
  (** [render_with_pillow] 592-626 and [render_with_shapely] 675-702. *)
  Definition render_with_pillow (style : option (t_style L)) (dpmm : Z)
    : method (space * t_image L) :=
    style <- dispatch_style style ;;
    rvmc <- get_rvmc ;;
    res <- mcall (raster L rvmc dpmm) ;;
    st <- get_final_state ;;
    img <- mcall (raster_image L res style) ;;
    mret (MkSpace (unit_mode L st) (raster_box L res) dpmm, img).
  Definition render_with_shapely (style : option (t_style L))
    : method (space * (t_vector L * t_style L)) :=
    style <- dispatch_style style ;;
    rvmc <- get_rvmc ;;
    res <- mcall (vector L rvmc) ;;
    st <- get_final_state ;;
    mret (MkSpace (unit_mode L st) (vector_box L res) 0, (res, style)).
  (** [format], [formats] 704-710. *)
  Definition file_formats (o : t_fopts L) : method (t_text L) :=
    a <- get_ast ;; mcall (formats L a o).

  (** Calls of the public interface. *)
  Inductive call :=
  | CParserOptions (o : t_popts L) | CCompilerOptions (o : t_copts L)
  | CColorMap (m : list (ftype * t_style L))
  | CPillow (style : option (t_style L)) (dpmm : Z) | CShapely (style : option (t_style L))
  | CFormats (o : t_fopts L).
  Inductive answer :=
  | ANone
  | APillow (r : result aerr (space * t_image L))
  | AShapely (r : result aerr (space * (t_vector L * t_style L)))
  | AText (r : result aerr (t_text L)).
  Definition do_call (c : call) (f : gfile) : answer * gfile :=
    match c with
    | CParserOptions o => (ANone, set_parser_options o f)
    | CCompilerOptions o => (ANone, set_compiler_options o f)
    | CColorMap m => (ANone, set_color_map m f)
    | CPillow s d => let '(r, f) := render_with_pillow s d f in (APillow r, f)
    | CShapely s => let '(r, f) := render_with_shapely s f in (AShapely r, f)
    | CFormats o => let '(r, f) := file_formats o f in (AText r, f)
    end.
  Definition do_calls (cs : list call) (f : gfile) : gfile :=
    fold_left (fun f c => snd (do_call c f)) cs f.
End File.

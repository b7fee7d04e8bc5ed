(** Specification vocabulary for C74: what the arguments of the command line ask for. *)
From Verif Require Import Base ColorModel ColorSpec ApiModel ApiSpec CliModel.
Local Open Scope nat_scope.

(** The names a user can give to [--file-type]. *)
Definition type_names : list (string * ftype) :=
  [("COPPER", TCopper); ("MASK", TMask); ("PASTE", TPaste); ("SILK", TSilk); ("EDGE", TEdge);
   ("PLATED", TPlated); ("NON_PLATED", TNonPlated); ("PROFILE", TProfile);
   ("SOLDERMASK", TSoldermask); ("LEGEND", TLegend); ("COMPONENT", TComponent); ("GLUE", TGlue);
   ("CARBONMASK", TCarbonmask); ("GOLDMASK", TGoldmask); ("HEATSINKMASK", THeatsinkmask);
   ("PEELABLEMASK", TPeelablemask); ("SILVERMASK", TSilvermask); ("TINMASK", TTinmask);
   ("DEPTHROUT", TDepthrout); ("VCUT", TVcut); ("VIAFILL", TViafill); ("PADS", TPads);
   ("DRILLMAP", TDrillmap); ("FABRICATIONDRAWING", TFabricationDrawing); ("VCUTMAP", TVcutmap);
   ("ASSEMBLYDRAWING", TAssemblyDrawing); ("ARRAYDRAWING", TArrayDrawing);
   ("OTHERDRAWING", TOtherDrawing); ("OTHER", TOther); ("UNDEFINED", TUndefined);
   ("INFER_FROM_EXTENSION", TInferExtension); ("INFER_FROM_ATTRIBUTES", TInferAttributes);
   ("INFER", TInfer)]%string.
Inductive asks_type : option str -> ftype -> Prop :=
| AT_none : asks_type None TInfer
| AT_name v name t : In (name, t) type_names -> same_letters v (lit name) -> asks_type (Some v) t.

(** The colours asked for: foreground and background; none without [--style]. *)
Inductive asks_style (f b : option str) : option str -> option (color * color) -> Prop :=
| AS_none : asks_style f b None None
| AS_preset v name c : In (name, c) style_presets -> same_letters v name -> asks_style f b (Some v) (Some c)
| AS_custom v sf sb cf cb : same_letters v (lit "CUSTOM") -> f = Some sf -> b = Some sb ->
    denotes sf cf -> denotes sb cb -> asks_style f b (Some v) (Some (cf, cb)).

(** The extension of a path with its dot. *)
Definition file_name (path name : str) : Prop :=
  ~ In "/"%char name /\ (path = name \/ exists dir, path = dir ++ "/"%char :: name).
Definition extension (path e : str) : Prop := exists name, file_name path name /\
  ((exists stem ext, name = stem ++ "."%char :: ext /\ stem <> [] /\ ext <> [] /\ ~ In "."%char ext /\ e = "."%char :: ext)
   \/ (e = [] /\ forall stem ext, name = stem ++ "."%char :: ext -> ~ In "."%char ext -> stem = [] \/ ext = [])).

(** What a text looks like, with the settings of a new [GerberFile]. *)
Section Drawn.
  Variable L : library.
  Variable style_of : color * color -> t_style L.
  Definition coloured (text path : str) (t : ftype) (st : option (color * color)) (x : t_style L) : Prop :=
    match st with
    | Some c => x = style_of c
    | None => exists e s said,
        extension path e /\ origin_says (OPath e) s /\
        (asks_file t s = true -> function_in L text (no_popts L) = Ok said) /\
        type_wanted t s said <> TDrillmap /\ x = preset L (alpha_style (type_wanted t s said))
    end.
  Definition drawn (text : str) (x : t_style L) (dpmm : Z) (p : space L * t_image L) : Prop :=
    exists a r res st i,
      parse L text (no_popts L) = Ok a /\ compile L a (no_copts L) = Ok r /\ final_state L a = Ok st /\
      raster L r dpmm = Ok res /\ raster_image L res x = Ok i /\
      p = (MkSpace L (unit_mode L st) (raster_box L res) dpmm, i).
  Definition traced (text : str) (v : t_vector L) : Prop :=
    exists a r st, parse L text (no_popts L) = Ok a /\ compile L a (no_copts L) = Ok r /\
      final_state L a = Ok st /\ vector L r = Ok v.
End Drawn.

(** The only change is that [p] now contains [data]. *)
Definition saved (fs : files) (p data : str) (fs' : files) : Prop :=
  fs' p = Some data /\ forall q, q <> p -> fs' q = fs q.

(** What the encoder of pictures is asked for: the name of the format, whether transparency is
    dropped, and the options. *)
Inductive asks_encoder : format -> str -> bool -> list (str * option_value) -> Prop :=
| AE_png : asks_encoder Png (lit "PNG") false []
| AE_jpeg q : asks_encoder (Jpeg q) (lit "JPEG") true [(lit "quality", OInt q)]
| AE_tiff c q : c <> lit "jpeg" -> asks_encoder (Tiff c q) (lit "TIFF") false [(lit "compression", OText c)]
| AE_tiff_jpeg q : asks_encoder (Tiff (lit "jpeg") q) (lit "TIFF") false [(lit "compression", OText (lit "jpeg")); (lit "quality", OInt q)]
| AE_bmp : asks_encoder Bmp (lit "BMP") false []
| AE_webp l q : asks_encoder (Webp l q) (lit "WEBP") true [(lit "lossless", OFlag l); (lit "quality", OInt q)].

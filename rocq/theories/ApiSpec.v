(** Which type a file has, and what a [GerberFile] with given settings is. *)
From Verif Require Import Base ApiModel.
Local Open Scope nat_scope.

(** The file type a file function stands for. *)
Definition type_of_function (f : ffunction) : ftype :=
  match f with
  | FCopper => TCopper | FPlated => TPlated | FNonPlated => TNonPlated | FProfile => TProfile
  | FSoldermask => TSoldermask | FLegend => TLegend | FComponent => TComponent
  | FPaste => TPaste | FGlue => TGlue | FCarbonmask => TCarbonmask | FGoldmask => TGoldmask
  | FHeatsinkmask => THeatsinkmask | FPeelablemask => TPeelablemask
  | FSilvermask => TSilvermask | FTinmask => TTinmask | FDepthrout => TDepthrout
  | FVcut => TVcut | FViafill => TViafill | FPads => TPads | FOther => TOther
  | FDrillmap => TDrillmap | FFabricationDrawing => TFabricationDrawing | FVcutmap => TVcutmap
  | FAssemblyDrawing => TAssemblyDrawing | FArrayDrawing => TArrayDrawing
  | FOtherDrawing => TOtherDrawing
  end.
Definition type_said (f : option ffunction) : ftype :=
  match f with Some f => type_of_function f | None => TUndefined end.

(** What an extension says: a type, "look into the file", or nothing. *)
Inductive says := SType (t : ftype) | SFile | SNothing.
Definition same_letters (a b : str) : Prop := lower a = lower b.
Inductive extension_says : str -> says -> Prop :=
| ENumbered prefix d rest :
    In prefix [lit ".g"; lit ".gp"; lit ".gm"] -> is_digit d = true ->
    extension_says (prefix ++ d :: rest) (SType TCopper)
| EGeneric e : same_letters e (lit ".grb") \/ same_letters e (lit ".gbr") -> extension_says e SFile
| ELegend e : same_letters e (lit ".gto") \/ same_letters e (lit ".gbo") -> extension_says e (SType TSilk)
| EPads e : same_letters e (lit ".gpt") \/ same_letters e (lit ".gpb") -> extension_says e (SType TPads)
| EMask e : same_letters e (lit ".gts") \/ same_letters e (lit ".gbs") -> extension_says e (SType TSoldermask)
| ECopper e : same_letters e (lit ".gtl") \/ same_letters e (lit ".gbl") -> extension_says e (SType TCopper)
| EPaste e : same_letters e (lit ".gtp") \/ same_letters e (lit ".gbp") -> extension_says e (SType TPaste).
Definition origin_says (o : origin) (s : says) : Prop :=
  match o with
  | OPath suffix => extension_says suffix s \/ (s = SNothing /\ forall s', ~ extension_says suffix s')
  | _ => s = SNothing
  end.

(** Whether the attributes in the file are needed, and the resulting type. *)
Definition asks_file (t : ftype) (s : says) : bool :=
  match t, s with
  | TInferAttributes, _ => true
  | TInferExtension, SFile => true
  | TInfer, SFile | TInfer, SNothing => true
  | _, _ => false
  end.
Definition type_wanted (t : ftype) (s : says) (said : option ffunction) : ftype :=
  match t, s with
  | TInferAttributes, _ => type_said said
  | TInferExtension, SType t | TInfer, SType t => t
  | TInferExtension, SNothing => TUndefined
  | TInferExtension, SFile | TInfer, _ => type_said said
  | t, _ => t
  end.

(** The file function in the final state of a source text. *)
Definition function_in (L : library) (source : str) (o : t_popts L)
  : result (t_error L) (option ffunction) :=
  let* a := parse L source o in
  let* s := final_state L a in Ok (file_function L s).

(** The ways to make a [GerberFile]. *)
Inductive made (L : library) (source : str) (t : ftype) : origin -> gfile L -> Prop :=
| MadeFile suffix : made L source t (OPath suffix) (from_file L source suffix t)
| MadeStr : made L source t OString (from_str L source t)
| MadeBuffer : made L source t OBuffer (from_buffer L source t)
| MadeDirectly o : made L source t o (new_file L source t o).

(** A fresh object with the settings some calls have made. *)
Definition is_setting {L} (c : call L) : bool :=
  match c with
  | CParserOptions _ _ | CCompilerOptions _ _ | CColorMap _ _ => true
  | _ => false
  end.
Definition fresh (L : library) (source : str) (t : ftype) (o : origin) (cs : list (call L)) : gfile L :=
  do_calls L (filter is_setting cs) (new_file L source t o).
(** The parser options in use at some point of a sequence of calls. *)
Fixpoint parser_options_used {L} (current : t_popts L) (cs : list (call L)) : list (t_popts L) :=
  current :: match cs with
             | [] => []
             | CParserOptions _ o :: cs => parser_options_used o cs
             | _ :: cs => parser_options_used current cs
             end.

(** The style a type of layer is drawn with: copper, solder masks and plated holes, pastes and
    fillings, outlines and drawings, anything else. *)
Definition palette (t : ftype) : string :=
  match t with
  | TCopper => "COPPER"
  | TMask | TSoldermask | TCarbonmask | TGoldmask | THeatsinkmask | TPeelablemask | TSilvermask | TTinmask | TPlated => "SOLDER_MASK"
  | TPaste | TGlue | TComponent | TPads | TNonPlated | TDepthrout | TVcut | TViafill => "PASTE_MASK"
  | TSilk | TEdge | TLegend | TProfile | TDrillmap | TFabricationDrawing | TVcutmap | TAssemblyDrawing | TArrayDrawing | TOtherDrawing => "SILK"
  | _ => "DEBUG_1"
  end.
Definition opaque_style (t : ftype) : str :=
  match t with TOther | TUndefined => lit (palette t) ++ lit "_ALPHA" | _ => lit (palette t) end.
Definition alpha_style (t : ftype) : str := lit (palette t) ++ lit "_ALPHA".

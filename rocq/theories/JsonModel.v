(** Model of reading a job file: the classes of [gerber/api/_gerber_job_file.py] 19-126 as pydantic
    validates them from JSON (lax mode), and [to_project] 128-150 from there.

    The syntax of JSON is left out: a text is the value it stands for, keys of an object are
    distinct.  The attribute [config] (22) is not [model_config], the name pydantic looks for, so
    that unknown keys are ignored, which is the default.  Numbers are exact; texts that stand for
    numbers are read by a parameter. *)
From Verif Require Import Base Dict ApiModel JobModel.

Inductive json :=
| JNull | JBool (b : bool) | JInt (z : Z) | JFloat (q : Q) | JStr (s : str)
| JArr (l : list json) | JObj (o : list (str * json)).

(** [GenerationSoftware] 25-30, [Header] 33-37, [ProjectId] 40-45, [Size] 48-52, [GeneralSpecs]
    55-62, [FilesAttributes] 76-81, [MaterialStackup] 84-91, [GerberJobFile] 94-100.
    [DesignRules] 65-73 is not used. *)
Record software := MkSoftware { sw_vendor : str; sw_application : str; sw_version : str }.
Record header := MkHeader { hd_date : str; hd_software : software }.
Record project_id := MkProjectId { pi_name : str; pi_guid : str; pi_revision : str }.
Record size := MkSize { sz_x : Q; sz_y : Q }.
Record specs := MkSpecs { sp_project : project_id; sp_size : size; sp_layers : Z; sp_thickness : Q; sp_finish : option str }.
Record files_attr := MkFilesAttr { fa_path : str; fa_function : str; fa_polarity : str }.
Record material := MkMaterial { ml_name : str; ml_type : str; ml_thickness : option Q; ml_material : option str; ml_notes : option str }.
Record job := MkJob { jb_header : header; jb_specs : specs; jb_files : list files_attr; jb_materials : list material }.

(** [ValidationError], and what [model_post_init] raises. *)
Inductive job_error := JValidation | JTypeError | JKeyError.

Section Read.
  (** Numbers written as texts. *)
  Variable text_float : str -> option Q.
  Variable text_int : str -> option Z.

  Definition obind {A B} (o : option A) (f : A -> option B) : option B := match o with Some a => f a | None => None end.
  Local Notation "'do' x <- r ; k" := (obind r (fun x => k)) (at level 200, x pattern, r at level 100, k at level 200).

  Definition as_str (j : json) : option str := match j with JStr s => Some s | _ => None end.
  Definition as_float (j : json) : option Q :=
    match j with
    | JInt z => Some (inject_Z z) | JFloat q => Some q | JBool b => Some (if b then 1 else 0)%Q
    | JStr s => text_float s | _ => None
    end.
  Definition as_int (j : json) : option Z :=
    match j with
    | JInt z => Some z
    | JFloat q => if (Z.modulo (Qnum q) (Zpos (Qden q)) =? 0)%Z then Some (Z.div (Qnum q) (Zpos (Qden q))) else None
    | JBool b => Some (if b then 1 else 0)%Z
    | JStr s => text_int s | _ => None
    end.
  Definition as_optional {A} (p : json -> option A) (j : json) : option (option A) :=
    match j with JNull => Some None | _ => do a <- p j; Some (Some a) end.
  Fixpoint all_of {A} (p : json -> option A) (l : list json) : option (list A) :=
    match l with [] => Some [] | j :: l => do a <- p j; do r <- all_of p l; Some (a :: r) end.
  Definition as_list {A} (p : json -> option A) (j : json) : option (list A) := match j with JArr l => all_of p l | _ => None end.
  Definition as_object (j : json) : option (list (str * json)) := match j with JObj o => Some o | _ => None end.
  (** A field with an alias, without and with a default of [None]. *)
  Definition field {A} (o : list (str * json)) (alias : string) (p : json -> option A) : option A :=
    match d_get (lit alias) o with Some j => p j | None => None end.
  Definition field_or_none {A} (o : list (str * json)) (alias : string) (p : json -> option A) : option (option A) :=
    match d_get (lit alias) o with Some j => as_optional p j | None => Some None end.

  Definition read_software (j : json) : option software :=
    do o <- as_object j; do a <- field o "Vendor" as_str; do b <- field o "Application" as_str; do c <- field o "Version" as_str; Some (MkSoftware a b c).
  Definition read_header (j : json) : option header :=
    do o <- as_object j; do a <- field o "CreationDate" as_str; do b <- field o "GenerationSoftware" read_software; Some (MkHeader a b).
  Definition read_project_id (j : json) : option project_id :=
    do o <- as_object j; do a <- field o "Name" as_str; do b <- field o "GUID" as_str; do c <- field o "Revision" as_str; Some (MkProjectId a b c).
  Definition read_size (j : json) : option size :=
    do o <- as_object j; do a <- field o "X" as_float; do b <- field o "Y" as_float; Some (MkSize a b).
  Definition read_specs (j : json) : option specs :=
    do o <- as_object j; do a <- field o "ProjectId" read_project_id; do b <- field o "Size" read_size; do c <- field o "LayerNumber" as_int;
    do d <- field o "BoardThickness" as_float; do e <- field_or_none o "Finish" as_str; Some (MkSpecs a b c d e).
  Definition read_files_attr (j : json) : option files_attr :=
    do o <- as_object j; do a <- field o "Path" as_str; do b <- field o "FileFunction" as_str; do c <- field o "FilePolarity" as_str; Some (MkFilesAttr a b c).
  Definition read_material (j : json) : option material :=
    do o <- as_object j; do a <- field o "Name" as_str; do b <- field o "Type" as_str; do c <- field_or_none o "Thickness" as_float;
    do d <- field_or_none o "Material" as_str; do e <- field_or_none o "Notes" as_str; Some (MkMaterial a b c d e).
  Definition read_job (j : json) : option job :=
    do o <- as_object j; do a <- field o "Header" read_header; do b <- field o "GeneralSpecs" read_specs;
    do c <- field o "FilesAttributes" (as_list read_files_attr); do d <- field o "MaterialStackup" (as_list read_material); Some (MkJob a b c d).

  (** The validation context: none, or a dictionary with or without [__file_path__]. *)
  Definition context := option (option str).
  (** Validation followed by [model_post_init], 104-106; the second component is [__file_path__]. *)
  Definition make_job (ctx : context) (j : json) : result job_error (job * str) :=
    match read_job j with
    | None => Err JValidation
    | Some jb => match ctx with Some (Some p) => Ok (jb, p) | Some None => Err JKeyError | None => Err JTypeError end
    end.
  (** [from_file], 108-126. *)
  Definition job_from_file (path : str) (j : json) : result job_error (job * str) := make_job (Some (Some path)) j.

  (** [to_project] with its argument [path], 145-150; [parent] is [Path.parent]. *)
  Definition job_project (parent : str -> str) (join : str -> str -> str) (suffix : str -> str) (readable : str -> bool) (jb : job * str) (path : option str)
    : result jerr project :=
    let root := match Some (snd jb) with Some p => Some p | None => path end in
    to_project join suffix readable (option_map parent root) (map (fun f => MkEntry (fa_path f) (fa_function f)) (jb_files (fst jb))).
End Read.

(** Commands of a parsed file, [gerber/ast/nodes/**], with the fields that the formatter prints:
    unlike [Ast.node] they keep [is_standalone] and the typed attributes.  [source_info] is left
    out.  [K] stands for Python [float], [T] for [datetime.datetime].  Members of the string
    enumerations of [nodes/enums.py] are represented by their values. *)
From Verif Require Import Base Num CoordModel Ast.

(** [nodes/attribute/TA.py]. *)
Inductive ta (K : Type) : Type :=
| TAUser (name : str) (fields : list str)
| TAAperFunction (function : option str) (fields : list str)
| TADrillTolerance (plus minus : option K)
| TAFlashText (string mode mirroring : str) (font size : option str) (comments : list str).
Arguments TAUser {K}. Arguments TAAperFunction {K}. Arguments TADrillTolerance {K}.
Arguments TAFlashText {K}.

(** [nodes/attribute/TF.py]. *)
Inductive tf (T : Type) : Type :=
| TFUser (name : str) (fields : list str)
| TFPart (part : str) (fields : list str)
| TFFileFunction (f : str) (fields : list str)
| TFFilePolarity (p : str)
| TFSameCoordinates (identifier : option str)
| TFCreationDate (d : T)
| TFGenerationSoftware (vendor application version : option str)
| TFProjectId (name guid revision : option str)
| TFMD5 (md5 : str).
Arguments TFUser {T}. Arguments TFPart {T}. Arguments TFFileFunction {T}.
Arguments TFFilePolarity {T}. Arguments TFSameCoordinates {T}. Arguments TFCreationDate {T}.
Arguments TFGenerationSoftware {T}. Arguments TFProjectId {T}. Arguments TFMD5 {T}.

(** [nodes/attribute/TO.py]: the attributes with one text field are listed by tag. *)
Inductive totag := CMfr | CMPN | CVal | CFtp | CPgN | CPgD | CLbN | CLbD.
Inductive to (K : Type) : Type :=
| TOUser (name : str) (fields : list str)
| TON (names : list str)
| TOP (refdes number : str) (function : option str)
| TOC (refdes : str)
| TOCRot (angle : K)
| TOText (t : totag) (s : str)
| TOCMnt (mount : str)
| TOCHgt (height : K)
| TOCSup (supplier part : str) (others : list str).
Arguments TOUser {K}. Arguments TON {K}. Arguments TOP {K}. Arguments TOC {K}.
Arguments TOCRot {K}. Arguments TOText {K}. Arguments TOCMnt {K}. Arguments TOCHgt {K}.
Arguments TOCSup {K}.

Inductive cmd (K T : Type) : Type :=
| CAB (id : str) (body : list (cmd K T))
| CSR (hdr : sropen) (body : list (cmd K T))
| CAD (a : ad K)
| CAM (name : str) (prims : list (prim K))
| CTA (a : ta K) | CTF (a : tf T) | CTO (a : to K) | CTD (name : option str)
| CD01 (standalone : bool) (x y i j : option str)
| CD02 (standalone : bool) (x y : option str)
| CD03 (standalone : bool) (x y : option str)
| CDnn (standalone : bool) (id : str)
| CG (standalone : bool) (g : gcode)
| CG04 (s : option str)
| CLM (m : mirroring) | CLN (name : str) | CLP (p : polarity) | CLR (r : K) | CLS (s : K)
| CM00 | CM01 | CM02
| CAS (c : axis_corr) | CFS (f : fs) | CIN (name : str) | CIP (p : image_polarity) | CIR (deg : Z)
| CMI (a b : Z) | CMO (u : unit_mode) | COF (a b : option K) | CSF (a b : K).
Arguments CAB {K T}. Arguments CSR {K T}. Arguments CAD {K T}. Arguments CAM {K T}.
Arguments CTA {K T}. Arguments CTF {K T}. Arguments CTO {K T}. Arguments CTD {K T}.
Arguments CD01 {K T}. Arguments CD02 {K T}. Arguments CD03 {K T}. Arguments CDnn {K T}.
Arguments CG {K T}. Arguments CG04 {K T}. Arguments CLM {K T}. Arguments CLN {K T}.
Arguments CLP {K T}. Arguments CLR {K T}. Arguments CLS {K T}. Arguments CM00 {K T}.
Arguments CM01 {K T}. Arguments CM02 {K T}. Arguments CAS {K T}. Arguments CFS {K T}.
Arguments CIN {K T}. Arguments CIP {K T}. Arguments CIR {K T}. Arguments CMI {K T}.
Arguments CMO {K T}. Arguments COF {K T}. Arguments CSF {K T}.

(** Induction through the bodies. *)
Section CmdInd.
  Context {K T : Type} (P : cmd K T -> Prop).
  Hypothesis HAB : forall id body, Forall P body -> P (CAB id body).
  Hypothesis HSR : forall h body, Forall P body -> P (CSR h body).
  Hypothesis Hleaf : forall c,
    match c with CAB _ _ => False | CSR _ _ => False | _ => True end -> P c.
  Fixpoint cmd_ind' (c : cmd K T) : P c :=
    let all := fix all (l : list (cmd K T)) : Forall P l :=
      match l with [] => Forall_nil P | x :: r => Forall_cons x (cmd_ind' x) (all r) end in
    match c with
    | CAB id body => HAB id body (all body)
    | CSR h body => HSR h body (all body)
    | c' => Hleaf c' I
    end.
End CmdInd.

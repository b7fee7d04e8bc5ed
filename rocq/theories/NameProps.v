(** C63: the formatter spells the standard attributes as the format specification does. *)
From Verif Require Import Base Num CoordModel Ast GramAst GramModel FmtModel LinkModel.

(** *** Specification: the standard attributes, Gerber format specification 5.6 ff.  User
    attributes have the name the file gives them. *)
Inductive attribute (K T : Type) := OfAperture (a : ta K) | OfFile (a : tf T) | OfObject (a : to K).
Arguments OfAperture {K T}. Arguments OfFile {K T}. Arguments OfObject {K T}.
Definition standard_name {K T} (a : attribute K T) : str :=
  match a with
  | OfAperture (TAUser n _) | OfFile (TFUser n _) | OfObject (TOUser n _) => n
  | OfAperture (TAAperFunction _ _) => lit ".AperFunction"
  | OfAperture (TADrillTolerance _ _) => lit ".DrillTolerance"
  | OfAperture (TAFlashText _ _ _ _ _ _) => lit ".FlashText"
  | OfFile (TFPart _ _) => lit ".Part"
  | OfFile (TFFileFunction _ _) => lit ".FileFunction"
  | OfFile (TFFilePolarity _) => lit ".FilePolarity"
  | OfFile (TFSameCoordinates _) => lit ".SameCoordinates"
  | OfFile (TFCreationDate _) => lit ".CreationDate"
  | OfFile (TFGenerationSoftware _ _ _) => lit ".GenerationSoftware"
  | OfFile (TFProjectId _ _ _) => lit ".ProjectId"
  | OfFile (TFMD5 _) => lit ".MD5"
  | OfObject (TON _) => lit ".N"
  | OfObject (TOP _ _ _) => lit ".P"
  | OfObject (TOC _) => lit ".C"
  | OfObject (TOCRot _) => lit ".CRot"
  | OfObject (TOCMnt _) => lit ".CMnt"
  | OfObject (TOCHgt _) => lit ".CHgt"
  | OfObject (TOCSup _ _ _) => lit ".CSup"
  | OfObject (TOText t _) =>
      match t with
      | CMfr => lit ".CMfr" | CMPN => lit ".CMPN" | CVal => lit ".CVal" | CFtp => lit ".CFtp"
      | CPgN => lit ".CPgN" | CPgD => lit ".CPgD" | CLbN => lit ".CLbN" | CLbD => lit ".CLbD"
      end
  end.
Definition command_of {K T} (a : attribute K T) : str :=
  match a with OfAperture _ => lit "TA" | OfFile _ => lit "TF" | OfObject _ => lit "TO" end.
(** Written out: between percent signs the command, the name, and after a comma the values. *)
Definition spelled {K T} (a : attribute K T) (eol text : str) : Prop :=
  exists values, text = lit "%" ++ command_of a ++ standard_name a ++ values ++ lit "*%" ++ eol /\
    (values = [] \/ exists v, values = lit "," ++ v).

Section Theorems.
  Context {K T : Type} (w : writer K T) (o : settings).
  Definition written (a : attribute K T) : str :=
    match a with OfAperture a => fmt_ta w o a | OfFile a => fmt_tf w o a | OfObject a => fmt_to w o a end.

  Definition comma (v : str) : Prop := v = [] \/ exists u, v = lit "," ++ u.
  Lemma spell (a : attribute K T) cmd v : cmd = command_of a ++ standard_name a -> comma v -> spelled a (f_lf o) (ext o cmd v).
  Proof. intros -> H. exists v. split; [unfold ext; rewrite <- !app_assoc; reflexivity|exact H]. Qed.
  Lemma comma_lit u : comma (lit "," ++ u).
  Proof. right. eexists. reflexivity. Qed.
  Lemma comma_fields l : comma (fields_text l).
  Proof. destruct l; [left; reflexivity|right; eexists; reflexivity]. Qed.
  Lemma comma_opt t : comma (opt_text "," t).
  Proof. destruct t; [right; eexists; reflexivity|left; reflexivity]. Qed.
  Lemma comma_app a b : comma a -> comma b -> comma (a ++ b).
  Proof. intros [->|[u ->]] H; [exact H|]. right. exists (u ++ b). rewrite <- app_assoc. reflexivity. Qed.
  Lemma shift_comma name v : ext o (name ++ lit ",") v = ext o name (lit "," ++ v).
  Proof. unfold ext. rewrite <- !app_assoc. reflexivity. Qed.
  (** C63.  All attributes but the library name of a component. *)
  Theorem C63_names_partial :
    forall a, (forall s, a <> OfObject (TOText CLbN s)) -> spelled a (f_lf o) (written a).
  Proof.
    intros [a|a|a] N; destruct a; cbn [written fmt_ta fmt_tf fmt_to];
      try (change (lit "TF.Part,") with (lit "TF.Part" ++ lit ","));
      try (change (lit "TF.FileFunction,") with (lit "TF.FileFunction" ++ lit ","));
      try (change (lit "TF.FilePolarity,") with (lit "TF.FilePolarity" ++ lit ","));
      try rewrite shift_comma;
      (apply spell; [try reflexivity|first [apply comma_lit|apply comma_fields|apply comma_opt|apply comma_app; [apply comma_opt|first [apply comma_opt|apply comma_fields]]]]).
    destruct t; try reflexivity. destruct (N s eq_refl).
  Qed.
  (** That one is written with a small n, whatever the options. *)
  Theorem C63_library_name :
    forall s, written (OfObject (TOText CLbN s)) = lit "%TO.CLbn," ++ s ++ lit "*%" ++ f_lf o.
  Proof. reflexivity. Qed.
End Theorems.
Theorem C63_names_refuted :
  forall K T (w : writer K T) o, ~ forall a, spelled a (f_lf o) (written w o a).
Proof.
  intros K T w o H. destruct (H (OfObject (TOText CLbN []))) as (v & E & _). discriminate E.
Qed.
Example C63_case : forall K T (w : writer K T) o,
  written w o (OfFile (TFProjectId (Some (lit "board")) None (Some (lit "2")))) = lit "%TF.ProjectId,board,,2*%" ++ f_lf o.
Proof. reflexivity. Qed.
(** C63.  The nodes say the same names ([attribute_name], under which attributes are set and
    deleted), but for the manufacturer part number. *)
Definition node_name {K T} (a : attribute K T) : str :=
  match a with OfAperture a => ta_name a | OfFile a => tf_name a | OfObject a => to_name a end.
Theorem C63_node_names_partial : forall K T (a : attribute K T),
  (forall s, a <> OfObject (TOText CMPN s)) -> node_name a = standard_name a.
Proof. intros K T [a|a|a] N; destruct a; try reflexivity. destruct t; try reflexivity. destruct (N s eq_refl). Qed.
Theorem C63_node_names_refuted : forall K T, ~ forall a : attribute K T, node_name a = standard_name a.
Proof. intros K T H. discriminate (H (OfObject (TOText CMPN []))). Qed.
Print Assumptions C63_node_names_partial. Print Assumptions C63_node_names_refuted.
Print Assumptions C63_names_partial. Print Assumptions C63_library_name. Print Assumptions C63_names_refuted.

(** Property theorems C90: what is read of a job file. *)
From Verif Require Import Base Dict ApiModel JobModel JsonModel JsonSpec JsonProofs.

Section Theorems.
  Variable text_float : str -> option Q.
  Variable text_int : str -> option Z.

  (** A job file is read exactly if it fits the layout; otherwise a validation error is raised. *)
  Theorem C90_accepted : forall path j, proper j ->
    ((exists jb, job_from_file text_float text_int path j = Ok jb) <-> fits_ty text_float text_int job_ty j) /\
    (~ fits_ty text_float text_int job_ty j -> job_from_file text_float text_int path j = Err JValidation).
  Proof.
    intros path j Hj. unfold job_from_file, make_job. pose proof (proj1 (reads_job text_float text_int) j Hj) as R. rewrite <- R.
    destruct (read_job text_float text_int j) as [jb|].
    - split; [|intros H; destruct H; discriminate]. split; [discriminate|eauto].
    - split; [|reflexivity]. split; [intros [jb H]; discriminate|congruence].
  Qed.

  (** Keys the layout does not name do not matter, nor does the order of keys: they are not even
      kept, although the classes ask for it ([extra="allow"]). *)
  Theorem C90_unknown_keys : forall path a b, proper a -> proper b -> same_for job_ty a b ->
    job_from_file text_float text_int path a = job_from_file text_float text_int path b.
  Proof. intros path a b Ha Hb H. unfold job_from_file, make_job. rewrite (proj2 (reads_job text_float text_int) a b Ha Hb H). reflexivity. Qed.

  (** The files are those of the list [FilesAttributes], in order, with their texts, and the
      project is made of them, next to the job file. *)
  Theorem C90_files : forall path j jb, job_from_file text_float text_int path j = Ok jb ->
    exists o l, j = JObj o /\ entry_of o "FilesAttributes" (JArr l) /\
      Forall2 (fun v f => exists e, v = JObj e /\ entry_of e "Path" (JStr (fa_path f)) /\ entry_of e "FileFunction" (JStr (fa_function f)) /\
                 entry_of e "FilePolarity" (JStr (fa_polarity f))) l (jb_files (fst jb)) /\
      forall parent join suffix readable, job_project parent join suffix readable jb None =
        to_project join suffix readable (Some (parent path)) (map (fun f => MkEntry (fa_path f) (fa_function f)) (jb_files (fst jb))).
  Proof.
    intros path j [jb q]. unfold job_from_file, make_job. destruct (read_job text_float text_int j) as [jb'|] eqn:E; [|discriminate]. intros X. injection X as -> ->.
    unfold read_job in E. destruct j as [|?|?|?|?|?|o]; try discriminate. cbn [as_object obind] in E.
    destruct (field o "Header" _); [|discriminate]. cbn [obind] in E. destruct (field o "GeneralSpecs" _); [|discriminate]. cbn [obind] in E.
    destruct (field o "FilesAttributes" _) as [fs|] eqn:F; [|discriminate]. cbn [obind] in E. destruct (field o "MaterialStackup" _); [|discriminate]. injection E as <-.
    unfold field in F. destruct (d_get _ o) as [v|] eqn:G; [|discriminate]. apply d_get_in in G. destruct v as [|?|?|?|?|arr|?]; try discriminate. cbn in F.
    exists o, arr. split; [reflexivity|]. split; [exact G|]. split; [|reflexivity]. cbn [fst jb_files].
    clear G. revert fs F. induction arr as [|v arr IH]; intros fs F; [injection F as <-; constructor|]. cbn in F.
    destruct (read_files_attr v) as [f|] eqn:Ev; [|discriminate]. cbn in F. destruct (all_of read_files_attr arr) as [r|]; [|discriminate]. injection F as <-. constructor; [|apply IH; reflexivity].
    unfold read_files_attr in Ev. destruct v as [|?|?|?|?|?|e]; try discriminate. cbn [as_object obind] in Ev. exists e. split; [reflexivity|].
    unfold field in Ev. destruct (d_get (lit "Path") e) as [[|?|?|?|s1|?|?]|] eqn:E1; try discriminate. cbn [as_str obind] in Ev.
    destruct (d_get (lit "FileFunction") e) as [[|?|?|?|s2|?|?]|] eqn:E2; try discriminate. cbn [as_str obind] in Ev.
    destruct (d_get (lit "FilePolarity") e) as [[|?|?|?|s3|?|?]|] eqn:E3; try discriminate. cbn [as_str obind] in Ev. injection Ev as <-. cbn.
    repeat split; apply d_get_in; assumption.
  Qed.

  (** "If GerberJobFile was not loaded from file on disk, you must provide a path": such an object
      cannot be made, and the argument is never used. *)
  Theorem C90_path_unused : forall ctx j jb, make_job text_float text_int ctx j = Ok jb ->
    ctx = Some (Some (snd jb)) /\
    forall parent join suffix readable p, job_project parent join suffix readable jb p = job_project parent join suffix readable jb None.
  Proof.
    intros ctx j jb. unfold make_job. destruct (read_job text_float text_int j); [|discriminate]. destruct ctx as [[q|]|]; try discriminate. intros X. injection X as <-. auto.
  Qed.
End Theorems.

(** A job file as KiCad writes it, with more than the layout asks for. *)
Definition no_float (s : str) : option Q := None.
Definition no_int (s : str) : option Z := None.
Definition obj (l : list (string * json)) : json := JObj (map (fun p => (lit (fst p), snd p)) l).
Definition txt (s : string) : json := JStr (lit s).
Definition sample_job (extra : list (string * json)) : json := obj ([
  ("Header", obj [("GenerationSoftware", obj [("Vendor", txt "KiCad"); ("Application", txt "Pcbnew"); ("Version", txt "8")]); ("CreationDate", txt "2024")]);
  ("GeneralSpecs", obj [("ProjectId", obj [("Name", txt "a"); ("GUID", txt "b"); ("Revision", txt "c")]);
     ("Size", obj [("X", JFloat (5 # 2)); ("Y", JInt 3)]); ("LayerNumber", JFloat (8 # 4)); ("BoardThickness", JFloat (8 # 5)); ("Finish", JNull)]);
  ("FilesAttributes", JArr [obj [("Path", txt "t.gbr"); ("FileFunction", txt "Copper,L1,Top"); ("FilePolarity", txt "Positive"); ("More", JNull)]]);
  ("MaterialStackup", JArr [obj [("Type", txt "Copper"); ("Name", txt "F.Cu")]])]%string ++ extra).
Definition sample_read : job := MkJob (MkHeader (lit "2024") (MkSoftware (lit "KiCad") (lit "Pcbnew") (lit "8")))
  (MkSpecs (MkProjectId (lit "a") (lit "b") (lit "c")) (MkSize (5 # 2) 3) 2 (8 # 5) None)
  [MkFilesAttr (lit "t.gbr") (lit "Copper,L1,Top") (lit "Positive")] [MkMaterial (lit "F.Cu") (lit "Copper") None None None].
Example C90_case : job_from_file no_float no_int (lit "d/x.gbrjob") (sample_job []) = Ok (sample_read, lit "d/x.gbrjob").
Proof. vm_compute. reflexivity. Qed.
(** A text in place of the size is rejected, and so is a missing list. *)
Example C90_case_rejected :
  job_from_file no_float no_int (lit "x") (obj []) = Err JValidation /\
  read_size no_float (obj [("X", txt "a"); ("Y", JInt 1)]%string) = None.
Proof. split; vm_compute; reflexivity. Qed.

(** The documented use. *)
Theorem C90_path_argument_refuted :
  ~ (forall j p, fits_ty no_float no_int job_ty j -> exists jb, make_job no_float no_int None j = Ok jb /\
       job_project (fun p => p) (fun r p => r ++ lit "/" ++ p) (fun _ => []) (fun _ => true) jb (Some p) <> Err JNoPath).
Proof.
  intros H. destruct (H (sample_job []) [] ) as (jb & X & _).
  - apply (proj1 (reads_job no_float no_int)).
    + cbn. repeat split; unfold distinct; cbn; repeat constructor; cbn; intuition discriminate.
    + vm_compute. discriminate.
  - vm_compute in X. discriminate.
Qed.
(** Design rules are not kept: files with and without them are read alike. *)
Theorem C90_extra_refuted :
  ~ (forall a b, proper a -> proper b -> job_from_file no_float no_int [] a = job_from_file no_float no_int [] b -> is_ok (job_from_file no_float no_int [] a) = true -> a = b) /\
  job_from_file no_float no_int (lit "x") (sample_job [("DesignRules", JArr [obj [("Layers", txt "Outer"); ("PadToPad", JFloat (1 # 5))]])]%string) = Ok (sample_read, lit "x").
Proof.
  split; [|vm_compute; reflexivity]. intros H. assert (X : sample_job [] = sample_job [("DesignRules", JNull)]%string).
  { apply H; try (vm_compute; reflexivity); cbn; repeat split; unfold distinct; cbn; repeat constructor; cbn; intuition discriminate. }
  vm_compute in X. discriminate.
Qed.
Print Assumptions C90_accepted. Print Assumptions C90_unknown_keys. Print Assumptions C90_files. Print Assumptions C90_path_unused.
Print Assumptions C90_path_argument_refuted. Print Assumptions C90_extra_refuted.

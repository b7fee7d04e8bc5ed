(** Model of [GerberJobFile.to_project], [gerber/api/_gerber_job_file.py] 128-235, and of the
    containers [CompositeView] and [Project].  A Gerber file is its path and type; reading it
    either succeeds or raises.  The rest of the job file is not used by the code. *)
From Verif Require Import Base Dict ApiModel.
Local Open Scope nat_scope.

(** [FilesAttributes] 74-79. *)
Record entry := MkEntry { en_path : str; en_function : str }.
Record jfile := MkJFile { jf_path : str; jf_type : ftype }.

(** [dict[FileTypeEnum, GerberFile]], which is only written and read by key. *)
Definition tmap := list (ftype * jfile).
Definition tm_set (t : ftype) (f : jfile) (m : tmap) : tmap := (t, f) :: m.
Definition tm_get (t : ftype) (m : tmap) : option jfile :=
  match find (fun p => ftype_eqb (fst p) t) m with Some (_, f) => Some f | None => None end.

(** The regular expression [L([0-9]+)] at the start of a part: its group. *)
Fixpoint digits_of (s : str) : str :=
  match s with
  | c :: s => if is_digit c then c :: digits_of s else []
  | [] => []
  end.
Definition layer_number (part : str) : option str :=
  match part with
  | c :: s => if Ascii.eqb c "L" then match digits_of s with [] => None | ds => Some ds end else None
  | [] => None
  end.
Fixpoint first_layer (parts : list str) : option str :=
  match parts with
  | [] => None
  | p :: ps => match layer_number p with Some n => Some n | None => first_layer ps end
  end.
Definition contains (s : str) (l : list str) : bool := existsb (str_eqb s) l.

(** Python's order of strings, and [sorted] of the keys. *)
Fixpoint str_leb (a b : str) : bool :=
  match a, b with
  | [], _ => true
  | _ :: _, [] => false
  | x :: a, y :: b =>
      if (N_of_ascii x <? N_of_ascii y)%N then true
      else if (N_of_ascii y <? N_of_ascii x)%N then false else str_leb a b
  end.
Fixpoint insert (k : str) (l : list str) : list str :=
  match l with
  | [] => [k]
  | x :: l => if str_leb k x then k :: x :: l else x :: insert k l
  end.
Definition sort_keys (l : list str) : list str := fold_right insert [] l.

Inductive jerr := JNoPath | JNotReadable (path : str).

(** The local variables of [to_project]: [top], [bottom], [inner], [all_layers]. *)
Record layers := MkLayers {
  y_top : tmap; y_bottom : tmap; y_inner : dict tmap; y_all : list jfile }.

(** [extract_and_sort_files] 200-226. *)
Definition stack_order : list ftype :=
  [TCopper; TMask; TSoldermask; TPaste; TSilk; TLegend; TProfile].
Definition extract_and_sort_files (m : tmap) : list jfile :=
  flat_map (fun t => match tm_get t m with Some f => [f] | None => [] end) stack_order.

(** [Project], [_project.py], of [CompositeView]s, [_composite_view.py] 46-47. *)
Record project := MkProject {
  pr_top : list jfile; pr_inner : list (list jfile); pr_bottom : list jfile }.

Section Job.
  (** [root_path / path] as a text, its suffix, and whether it can be read. *)
  Variable join : str -> str -> str.
  Variable suffix : str -> str.
  Variable readable : str -> bool.

  (** The loop 158-191. *)
  Definition add_entry (root : str) (e : entry) (y : layers) : result jerr layers :=
    let parts := split_on ch_comma (upper (en_function e)) in
    let t := ftype_of (hd [] parts) in
    let path := join root (en_path e) in
    if negb (readable path) then Err (JNotReadable path) else
    let f := MkJFile path (type_on_open (suffix path) t) in
    if ftype_eqb t TProfile then
      Ok (MkLayers (y_top y) (y_bottom y) (y_inner y) (y_all y ++ [f]))
    else if contains (lit "TOP") parts then
      Ok (MkLayers (tm_set t f (y_top y)) (y_bottom y) (y_inner y) (y_all y))
    else if contains (lit "BOT") parts then
      Ok (MkLayers (y_top y) (tm_set t f (y_bottom y)) (y_inner y) (y_all y))
    else match first_layer parts with
         | Some n =>
             let m := match d_get n (y_inner y) with Some m => m | None => [] end in
             Ok (MkLayers (y_top y) (y_bottom y) (d_set n (tm_set t f m) (y_inner y)) (y_all y))
         | None => Ok y
         end.
  Fixpoint add_entries (root : str) (es : list entry) (y : layers) : result jerr layers :=
    match es with
    | [] => Ok y
    | e :: es => let* y := add_entry root e y in add_entries root es y
    end.

  (** The loop over [all_layers] 193-198. *)
  Definition add_everywhere (y : layers) (f : jfile) : layers :=
    let t := jf_type f in
    MkLayers (tm_set t f (y_top y)) (tm_set t f (y_bottom y))
      (map (fun p => (fst p, tm_set t f (snd p))) (y_inner y)) (y_all y).

  (** [to_project] 128-235. *)
  Definition to_project (root : option str) (es : list entry) : result jerr project :=
    match root with
    | None => Err JNoPath
    | Some root =>
        let* y := add_entries root es (MkLayers [] [] [] []) in
        let y := fold_left add_everywhere (y_all y) y in
        Ok (MkProject (extract_and_sort_files (y_top y))
              (map (fun k => extract_and_sort_files
                               (match d_get k (y_inner y) with Some m => m | None => [] end))
                 (sort_keys (d_keys (y_inner y))))
              (extract_and_sort_files (y_bottom y)))
    end.
End Job.

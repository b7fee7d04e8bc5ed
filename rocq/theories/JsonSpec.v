(** Specification vocabulary for C90: the layout of a job file as a table, and JSON values that fit it. *)
From Verif Require Import Base JsonModel.

Inductive ty := Text | Real | Whole | Many (t : ty) | Object (fields : list (string * (bool * ty))).
(** The flag tells whether the entry must be there; entries that need not be there may be null. *)
Definition software_ty := Object [("Vendor", (true, Text)); ("Application", (true, Text)); ("Version", (true, Text))]%string.
Definition header_ty := Object [("CreationDate", (true, Text)); ("GenerationSoftware", (true, software_ty))]%string.
Definition specs_ty := Object
  [("ProjectId", (true, Object [("Name", (true, Text)); ("GUID", (true, Text)); ("Revision", (true, Text))]));
   ("Size", (true, Object [("X", (true, Real)); ("Y", (true, Real))]));
   ("LayerNumber", (true, Whole)); ("BoardThickness", (true, Real)); ("Finish", (false, Text))]%string.
Definition file_ty := Object [("Path", (true, Text)); ("FileFunction", (true, Text)); ("FilePolarity", (true, Text))]%string.
Definition material_ty := Object
  [("Name", (true, Text)); ("Type", (true, Text)); ("Thickness", (false, Real)); ("Material", (false, Text)); ("Notes", (false, Text))]%string.
Definition job_ty := Object [("Header", (true, header_ty)); ("GeneralSpecs", (true, specs_ty)); ("FilesAttributes", (true, Many file_ty)); ("MaterialStackup", (true, Many material_ty))]%string.

(** Entry [k] of an object. *)
Definition entry_of (o : list (str * json)) (k : string) (j : json) : Prop := In (lit k, j) o.
Definition distinct (o : list (str * json)) : Prop := NoDup (map fst o).

Section Fits.
  Variable text_float : str -> option Q.
  Variable text_int : str -> option Z.
  (** A value fits the layout: objects may hold anything besides. *)
  Fixpoint fits_ty (t : ty) (j : json) {struct t} : Prop :=
    match t with
    | Text => exists s, j = JStr s
    | Real => (exists z, j = JInt z) \/ (exists q, j = JFloat q) \/ (exists b, j = JBool b) \/ (exists s, j = JStr s /\ text_float s <> None)
    | Whole => (exists z, j = JInt z) \/ (exists q z, j = JFloat q /\ (q == inject_Z z)%Q) \/ (exists b, j = JBool b) \/ (exists s, j = JStr s /\ text_int s <> None)
    | Many t => exists l, j = JArr l /\ Forall (fits_ty t) l
    | Object fs => exists o, j = JObj o /\
        (fix go (fs : list (string * (bool * ty))) : Prop :=
           match fs with
           | [] => True
           | (k, (must, t)) :: fs =>
               ((must = true -> exists v, entry_of o k v) /\
                (forall v, entry_of o k v -> fits_ty t v \/ (must = false /\ v = JNull))) /\ go fs
           end) fs
    end.
  (** All objects in a value have distinct keys. *)
  Fixpoint proper (j : json) : Prop :=
    match j with
    | JArr l => (fix go (l : list json) : Prop := match l with [] => True | j :: l => proper j /\ go l end) l
    | JObj o => distinct o /\ (fix go (o : list (str * json)) : Prop := match o with [] => True | (_, j) :: o => proper j /\ go o end) o
    | _ => True
    end.
End Fits.

(** Two values that are the same where the layout looks. *)
Fixpoint same_for (t : ty) (a b : json) {struct t} : Prop :=
  match t with
  | Text | Real | Whole => a = b
  | Many t => (exists l m, a = JArr l /\ b = JArr m /\ Forall2 (same_for t) l m)
  | Object fs => exists o p, a = JObj o /\ b = JObj p /\
      (fix go (fs : list (string * (bool * ty))) : Prop :=
         match fs with
         | [] => True
         | (k, (must, t)) :: fs =>
             ((forall v, entry_of o k v -> exists w, entry_of p k w /\ (v = w \/ same_for t v w)) /\
              (forall w, entry_of p k w -> exists v, entry_of o k v /\ (v = w \/ same_for t v w))) /\ go fs
         end) fs
  end.

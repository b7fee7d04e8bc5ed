(** What the state tracker and the compiler see of a parsed file: the same objects, of which
    [GramAst.cmd] keeps what the formatter prints and [Ast.node] what the visitors use.
    [is_standalone] is dropped, attributes are reduced to their names and contents, and nodes get
    their object identities: [u i] is the identity of the i-th node that needs one, in the order
    of the file.  [ta_fields], [tf_fields] and [to_fields] stand for the contents of an attribute
    node; what they are does not matter. *)
From Verif Require Import Base Num CoordModel Ast GramAst.

(** [attribute_name], [nodes/attribute/TA.py] 34-36, 56-58, 78-80, 104-106. *)
Definition ta_name {K} (a : ta K) : str :=
  match a with
  | TAUser n _ => n
  | TAAperFunction _ _ => lit ".AperFunction"
  | TADrillTolerance _ _ => lit ".DrillTolerance"
  | TAFlashText _ _ _ _ _ _ => lit ".FlashText"
  end.
(** [nodes/attribute/TF.py] 36-39 ... 213-216. *)
Definition tf_name {T} (a : tf T) : str :=
  match a with
  | TFUser n _ => n
  | TFPart _ _ => lit ".Part"
  | TFFileFunction _ _ => lit ".FileFunction"
  | TFFilePolarity _ => lit ".FilePolarity"
  | TFSameCoordinates _ => lit ".SameCoordinates"
  | TFCreationDate _ => lit ".CreationDate"
  | TFGenerationSoftware _ _ _ => lit ".GenerationSoftware"
  | TFProjectId _ _ _ => lit ".ProjectId"
  | TFMD5 _ => lit ".MD5"
  end.
(** [nodes/attribute/TO.py] 34-37 ... 354-357; [TO_CMNP] 157-165 says [".CMNP"]. *)
Definition to_name {K} (a : to K) : str :=
  match a with
  | TOUser n _ => n
  | TON _ => lit ".N"
  | TOP _ _ _ => lit ".P"
  | TOC _ => lit ".C"
  | TOCRot _ => lit ".CRot"
  | TOText t _ =>
      match t with
      | CMfr => lit ".CMfr" | CMPN => lit ".CMNP" | CVal => lit ".CVal" | CFtp => lit ".CFtp"
      | CPgN => lit ".CPgN" | CPgD => lit ".CPgD" | CLbN => lit ".CLbN" | CLbD => lit ".CLbD"
      end
  | TOCMnt _ => lit ".CMnt"
  | TOCHgt _ => lit ".CHgt"
  | TOCSup _ _ _ => lit ".CSup"
  end.

Section Link.
  Context {K T : Type} (u : nat -> Z)
          (ta_fields : ta K -> list str) (tf_fields : tf T -> list str) (to_fields : to K -> list str).

  Fixpoint link_prims (ps : list (prim K)) (n : nat) : list (prim K) * nat :=
    match ps with
    | [] => ([], n)
    | PCode7 _ a b c d e f :: r => let '(r, m) := link_prims r (S n) in (PCode7 (u n) a b c d e f :: r, m)
    | p :: r => let '(r, m) := link_prims r n in (p :: r, m)
    end.
  Definition link_leaf (c : cmd K T) : node K :=
    match c with
    | CAB id _ => NAB id []                          (* not a leaf *)
    | CSR h _ => NSR 0 h []                          (* not a leaf *)
    | CAD a => NAD a
    | CAM n ps => NAM n ps                           (* see [link] *)
    | CTA a => NTA (MkAttr (ta_name a) (ta_fields a))
    | CTF a => NTF (MkAttr (tf_name a) (tf_fields a))
    | CTO a => NTO (MkAttr (to_name a) (to_fields a))
    | CTD n => NTD n
    | CD01 _ x y i j => ND01 x y i j
    | CD02 _ x y => ND02 x y
    | CD03 _ x y => ND03 x y
    | CDnn _ id => NDnn id
    | CG _ g => NG g
    | CG04 s => NG04 s
    | CLM m => NLM m | CLN n => NLN n | CLP p => NLP p | CLR r => NLR r | CLS s => NLS s
    | CM00 => NM00 | CM01 => NM01 | CM02 => NM02
    | CAS c => NAS c | CFS f => NFS f | CIN n => NIN n | CIP p => NIP p | CIR d => NIR d
    | CMI a b => NMI a b | CMO x => NMO x | COF a b => NOF a b | CSF a b => NSF a b
    end.
  Fixpoint link (c : cmd K T) (n : nat) : node K * nat :=
    let body := fix body (l : list (cmd K T)) (n : nat) : list (node K) * nat :=
      match l with
      | [] => ([], n)
      | x :: r => let '(y, n) := link x n in let '(r, n) := body r n in (y :: r, n)
      end in
    match c with
    | CAB id l => let '(b, n) := body l n in (NAB id b, n)
    | CSR h l => let '(b, m) := body l (S n) in (NSR (u n) h b, m)
    | CAM name ps => let '(ps, n) := link_prims ps n in (NAM name ps, n)
    | c => (link_leaf c, n)
    end.
  Fixpoint links (l : list (cmd K T)) (n : nat) : list (node K) * nat :=
    match l with
    | [] => ([], n)
    | x :: r => let '(y, n) := link x n in let '(r, n) := links r n in (y :: r, n)
    end.
  (** The nodes of a file. *)
  Definition nodes (f : list (cmd K T)) : list (node K) := fst (links f 0).
End Link.

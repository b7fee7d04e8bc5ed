(** Specification vocabulary for C91: what a reader of the attribute lists sees.  Code spans are
    the texts between pairs of backquotes. *)
From Verif Require Import Base Num CoordModel Ast GramAst.

Fixpoint odds (l : list str) : list str := match l with _ :: b :: r => b :: odds r | _ => [] end.
Definition spans (t : str) : list str := odds (split_on "`"%char t).
Definition without (c : ascii) (t : str) : Prop := ~ In c t.

(** The values of attributes, numbers with their texts. *)
Section Values.
  Context {K : Type} (show : K -> str).
  Definition maybe (o : option str) : list str := match o with Some t => [t] | None => [] end.
  Definition ta_values (a : ta K) : list str :=
    match a with
    | TAUser _ f => f
    | TAAperFunction g f => maybe g ++ f
    | TADrillTolerance p m => maybe (option_map show p) ++ maybe (option_map show m)
    | TAFlashText s mode mir font size c => s :: mode :: mir :: maybe font ++ maybe size ++ c
    end.
  Definition to_values (a : to K) : list str :=
    match a with
    | TOUser _ f | TON f => f
    | TOP r n f => r :: n :: maybe f
    | TOC s | TOText _ s | TOCMnt s => [s]
    | TOCRot k | TOCHgt k => [show k]
    | TOCSup s p f => s :: p :: f
    end.
  (** The same attribute with texts in place of numbers. *)
  Definition ta_texts (a : ta K) : ta str :=
    match a with
    | TAUser n f => TAUser n f
    | TAAperFunction g f => TAAperFunction g f
    | TADrillTolerance p m => TADrillTolerance (option_map show p) (option_map show m)
    | TAFlashText s mode mir font size c => TAFlashText s mode mir font size c
    end.
  Definition to_texts (a : to K) : to str :=
    match a with
    | TOUser n f => TOUser n f | TON f => TON f | TOP r n f => TOP r n f | TOC s => TOC s | TOCRot k => TOCRot (show k)
    | TOText t s => TOText t s | TOCMnt s => TOCMnt s | TOCHgt k => TOCHgt (show k) | TOCSup s p f => TOCSup s p f
    end.
  (** Texts of numbers. *)
  Definition numeric (t : str) : Prop := Forall (fun c => In c (lit "0123456789+-.e")) t.
End Values.

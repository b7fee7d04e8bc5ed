(** C91, what hover texts say about the primitives of macros. *)
From Verif Require Import Base MdModel MdSpec MdProps PrimMdModel.
Local Open Scope nat_scope.

Section Prims.
  Context {E : Type} (fmt : E -> str).
  Hypothesis no_line : forall e, without "010"%char (fmt e).
  (** A line for a parameter: its label and its value between backquotes. *)
  Definition line (label : string) (v : str) : str := lit " - " ++ lit label ++ lit ": ` " ++ v ++ lit "`".
  Definition turned (r : option E) : str := match r with Some r => fmt r ++ degree | None => lit "None" end.
  Lemma split_lines l b : Forall (without newline) l -> split_on newline (concat (map (fun t => newline :: t) l) ++ newline :: b) = [] :: l ++ split_on newline b.
  Proof.
    intros H. enough (X : forall p, without newline p -> split_on newline (p ++ concat (map (fun t => newline :: t) l) ++ newline :: b) = p :: l ++ split_on newline b) by exact (X [] ltac:(intros [])).
    induction H as [|t l Ht _ IH]; intros p Hp; cbn [map concat app]; [exact (split_plain newline p b Hp)|]. rewrite split_plain by exact Hp. rewrite <- app_assoc. rewrite IH by exact Ht. reflexivity.
  Qed.
  Lemma line_line label v : without newline (lit label) -> without newline v -> without newline (line label v).
  Proof.
    intros Hl Hv. unfold line. intros X. apply in_app_or in X as [X|X]; [revert X; plain|]. apply in_app_or in X as [X|X]; [exact (Hl X)|].
    apply in_app_or in X as [X|X]; [revert X; plain|]. apply in_app_or in X as [X|X]; [exact (Hv X)|revert X; plain].
  Qed.
  Lemma filled_line label e : filled fmt (lit label) e = newline :: line label (fmt e).
  Proof. unfold filled, opened, line. cbn [app]. rewrite <- !app_assoc. reflexivity. Qed.
  Lemma turned_line r : without newline (turned r).
  Proof. destruct r as [r|]; [|plain]. intros X. apply in_app_or in X as [X|X]; [exact (no_line r X)|revert X; plain]. Qed.
  Ltac lines := repeat constructor; apply line_line; try plain; (apply no_line || apply turned_line).
  (** The lines for circles and vector lines. *)
  Theorem C91_primitives :
    (forall e d x y r, exists b, split_on newline (code_1_md fmt e d x y r) =
       [[]; line "exposure" (fmt e); line "diameter" (fmt d); line "center_x" (fmt x); line "center_y" (fmt y); line "rotation" (turned r); b] /\ (b = [] \/ b = lit " ")) /\
    (forall e w sx sy ex ey r, split_on newline (code_2_md fmt e w sx sy ex ey r) =
       [[]; line "exposure" (fmt e); line "width" (fmt w); line "start_x" (fmt sx); line "start_y" (fmt sy); line "end_x" (fmt ex); line "end_y" (fmt ey); line "rotation" (fmt r ++ degree); lit " "]).
  Proof.
    split.
    - intros e d x y r. exists match r with Some _ => lit " " | None => [] end. split; [|destruct r; auto].
      set (b := match r with Some _ => lit " " | None => [] end).
      replace (code_1_md fmt e d x y r) with (concat (map (fun t => newline :: t) [line "exposure" (fmt e); line "diameter" (fmt d); line "center_x" (fmt x); line "center_y" (fmt y); line "rotation" (turned r)]) ++ newline :: b).
      + rewrite split_lines by lines. subst b. destruct r; reflexivity.
      + unfold code_1_md. cbn [concat map]. rewrite !filled_line, !app_nil_r. subst b. unfold opened, line, turned. destruct r; repeat (cbn [app]; rewrite <- app_assoc); reflexivity.
    - intros e w sx sy ex ey r.
      replace (code_2_md fmt e w sx sy ex ey r) with (concat (map (fun t => newline :: t) [line "exposure" (fmt e); line "width" (fmt w); line "start_x" (fmt sx); line "start_y" (fmt sy); line "end_x" (fmt ex); line "end_y" (fmt ey); line "rotation" (turned (Some r))]) ++ newline :: lit " ").
      + rewrite split_lines by lines. reflexivity.
      + unfold code_2_md. cbn [concat map]. rewrite !filled_line, !app_nil_r. unfold opened, line, turned. repeat (cbn [app]; rewrite <- app_assoc); reflexivity.
  Qed.
End Prims.
(** The section on circles (4.5.1.3) is not among those a circle refers to, that on comments is;
    vector lines refer to the same sections. *)
Theorem C91_reference_refuted : ~ (exists t, In ([4; 5; 1; 3], t) code_1_sections) /\ In ([4; 5; 1; 2], lit "Comment, Code 0") code_1_sections /\
  ~ (exists n, In (n, lit "Macro Primitive Code 2, Vector Line") code_2_sections).
Proof. split; [|split]; [|cbn; tauto|]; intros (t & H); cbn in H; intuition discriminate. Qed.
Example C91_primitive_case :
  split_on newline (code_1_md (fun s : str => s) (lit "1") (lit "$1x2") (lit "0") (lit "$2") (Some (lit "45"))) =
  [[]; lit " - exposure: ` 1`"; lit " - diameter: ` $1x2`"; lit " - center_x: ` 0`"; lit " - center_y: ` $2`"; lit " - rotation: ` 45" ++ degree ++ lit "`"; lit " "].
Proof. vm_compute. reflexivity. Qed.
Print Assumptions C91_primitives.
Print Assumptions C91_reference_refuted.

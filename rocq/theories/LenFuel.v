(** More fuel changes no outcome that there is. *)
From Verif Require Import Base Num Ast GramAst PegModel GramModel GramText GramTok GramWf GramPieces ResProofs LenSafe LenGram.
Local Open Scope nat_scope.

Definition refines {A} (p q : parser A) : Prop := forall s, p s = PErr EFuel \/ q s = p s.
Lemma ref_refl {A} (p : parser A) : refines p p.
Proof. intros s. right. reflexivity. Qed.
Lemma ref_bind {A B} (p q : parser A) (f g : A -> parser B) : refines p q -> (forall a, refines (f a) (g a)) -> refines (pbind p f) (pbind q g).
Proof.
  intros H1 H2 s. unfold pbind. destruct (H1 s) as [->| ->]; [left; reflexivity|]. destruct (p s) as [a r| |e]; [apply H2|right; reflexivity|right; reflexivity].
Qed.
Lemma ref_then {A B} (p q : parser A) (p' q' : parser B) : refines p q -> refines p' q' -> refines (p ;; p') (q ;; q').
Proof. intros H1 H2. apply ref_bind; auto. Qed.
Lemma ref_first_of {A} (ps qs : list (parser A)) : Forall2 refines ps qs -> refines (first_of ps) (first_of qs).
Proof.
  intros H s. induction H as [|p q ps qs Hp _ IH]; [right; reflexivity|]. cbn. destruct (Hp s) as [->| ->]; [left; reflexivity|]. destruct (p s); [right; reflexivity|exact IH|right; reflexivity].
Qed.
Lemma ref_opt {A} (p q : parser A) : refines p q -> refines (opt p) (opt q).
Proof. intros H s. unfold opt. destruct (H (skip s)) as [->| ->]; [left|right]; reflexivity. Qed.
Lemma ref_followed_by {A} (p q : parser A) : refines p q -> refines (followed_by p) (followed_by q).
Proof. intros H s. unfold followed_by. destruct (H s) as [->| ->]; [left|right]; reflexivity. Qed.
Lemma ref_many {A} (p q : parser A) : refines p q -> forall n m, n <= m -> refines (many n p) (many m q).
Proof.
  intros H n. induction n as [|n IH]; intros m Hm s; [left; reflexivity|]. destruct m as [|m]; [lia|]. cbn [many]. destruct (H s) as [->| ->]; [left; reflexivity|].
  destruct (p s) as [a r| |e]; [|right; reflexivity|right; reflexivity]. destruct (IH m ltac:(lia) r) as [->| ->]; [left|right]; reflexivity.
Qed.
Lemma ref_many1 {A} (p q : parser A) n m : refines p q -> n <= m -> refines (many1 n p) (many1 m q).
Proof. intros H Hn. apply ref_bind; [exact H|]. intros a. apply ref_bind; [apply ref_many; auto|]. intros l. apply ref_refl. Qed.

Ltac ref_go :=
  repeat match goal with
  | |- refines ?p ?p => apply ref_refl
  | |- refines (pbind _ _) (pbind _ _) => apply ref_bind; [|intros]
  | |- refines (pthen _ _) (pthen _ _) => apply ref_then
  | |- refines (first_of _) (first_of _) => apply ref_first_of
  | |- refines (opt _) (opt _) => apply ref_opt
  | |- refines (followed_by _) (followed_by _) => apply ref_followed_by
  | |- refines (many _ _) (many _ _) => apply ref_many; [|assumption]
  | |- refines (many1 _ _) (many1 _ _) => apply ref_many1; [|assumption]
  | |- refines (command _) (command _) => unfold command
  | |- refines (extended _) (extended _) => unfold extended
  | |- Forall2 _ (_ :: _) (_ :: _) => apply Forall2_cons
  | |- Forall2 _ [] [] => apply Forall2_nil
  | |- refines (match ?x with _ => _ end) _ => destruct x
  end.

Section Fuel.
  Context {K T : Type} (rd : reader K T).
  Lemma ref_unary op (mk : expr K -> expr K) p q : refines p q -> forall n m, n <= m -> refines (unary n op mk p) (unary m op mk q).
  Proof.
    intros H n. induction n as [|n IH]; intros m Hm s; [left; reflexivity|]. destruct m as [|m]; [lia|]. cbn [unary]. revert s.
    match goal with |- forall s, ?p s = _ \/ ?q s = _ => change (refines p q) end. assert (Hn : n <= m) by lia. ref_go; auto.
  Qed.
  Lemma ref_binary {O} (op : parser O) (mk : expr K -> list (expr K) -> expr K) p q n m : refines p q -> n <= m -> refines (binary n op mk p) (binary m op mk q).
  Proof. intros H Hn. unfold binary. ref_go; auto. Qed.
  Lemma ref_expr n : forall m, n <= m -> refines (expr_p rd n) (expr_p rd m).
  Proof.
    induction n as [|n IH]; intros m Hm s; [left; reflexivity|]. destruct m as [|m]; [lia|]. cbn [expr_p]. revert s.
    match goal with |- forall s, ?p s = _ \/ ?q s = _ => change (refines p q) end.
    do 4 (apply ref_binary; [|exact Hm]). do 2 (apply ref_unary; [|exact Hm]). assert (Hn : n <= m) by lia. ref_go; auto.
  Qed.
  Lemma ref_adds n m : n <= m -> refines (add_aperture (T := T) rd n) (add_aperture rd m).
  Proof. intros H. unfold add_aperture, admacro_p. ref_go. Qed.
  Lemma ref_attribute n m : n <= m -> refines (attribute rd n) (attribute rd m).
  Proof.
    intros H. unfold attribute, ta_p, tf_p, to_p, ta_user_p, ta_aper_function_p, ta_flash_text_p, tf_user_p, tf_enum_p, to_user_p, to_n_p, to_csup_p, fields. ref_go.
  Qed.
  Lemma ref_prim n m : n <= m -> refines (prim_p rd n) (prim_p rd m).
  Proof. intros H. unfold prim_p, assignment_p, primitive, arg. cbv zeta. ref_go; apply ref_expr, H. Qed.
  Lemma ref_macro n m : n <= m -> refines (macro_p (T := T) rd n) (macro_p rd m).
  Proof. intros H. unfold macro_p. ref_go. apply ref_prim, H. Qed.
  Lemma ref_body n m p q : n <= m -> refines p q -> refines (body_item rd n p) (body_item rd m q).
  Proof. intros H Hp. unfold body_item, single. ref_go; auto using ref_attribute, ref_adds, ref_macro. Qed.
  Lemma ref_block n m : n <= m -> forall k l, k <= l -> refines (block_p rd n k) (block_p rd m l).
  Proof.
    intros H k. induction k as [|k IH]; intros l Hl s; [left; reflexivity|]. destruct l as [|l]; [lia|]. cbn [block_p]. revert s.
    match goal with |- forall s, ?p s = _ \/ ?q s = _ => change (refines p q) end. ref_go. apply ref_body; [exact H|]. apply IH. lia.
  Qed.
  Lemma ref_root n m : n <= m -> refines (root_item rd n) (root_item rd m).
  Proof.
    intros H. unfold root_item, single. ref_go; auto using ref_block, ref_macro, ref_adds, ref_attribute.
    unfold sr_p. ref_go. apply ref_body; auto using ref_block.
  Qed.

  (** The outcome on a text is that of any sufficient fuel. *)
  Lemma settled n m s : notab s -> length s < n -> n <= m -> many1 m (root_item rd m) s = many1 n (root_item rd n) s.
  Proof.
    intros Ht Hs Hn. destruct (ref_many1 _ _ n m (ref_root n m Hn) Hn s) as [E|E]; [|exact E]. exfalso.
    pose proof (yields_many1 n _ _ (yields_root rd n) s Hs Ht) as Y. rewrite E in Y. discriminate Y.
  Qed.
End Fuel.

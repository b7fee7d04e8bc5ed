(** Every D command of a located tree was read by [d_codes] at its location, every primitive by
    [prim_p]. *)
From Verif Require Import Base Num CoordModel Ast GramAst PegModel GramModel ResModel LocModel LocSpec LocTexts LocProofs SpotModel SpotSpec SpotProofs.
Local Open Scope nat_scope.

Lemma skip_token {A} (f : str -> option (A * str)) s : token f (skip s) = token f s.
Proof. unfold token. rewrite skip_idem. reflexivity. Qed.
Lemma skip_opt {A} (p : parser A) s : opt p (skip s) = opt p s.
Proof. unfold opt. rewrite skip_idem. reflexivity. Qed.
Lemma skip_bind {A B} (p : parser A) (f : A -> parser B) s : p (skip s) = p s -> pbind p f (skip s) = pbind p f s.
Proof. intros E. unfold pbind. rewrite E. reflexivity. Qed.
Lemma skip_d {K T} sa s : d_codes (K := K) (T := T) sa (skip s) = d_codes sa s.
Proof.
  assert (F : forall (ps : list (parser (cmd K T))), Forall (fun p => p (skip s) = p s) ps -> first_of ps (skip s) = first_of ps s).
  { induction 1 as [|p ps E _ IH]; [reflexivity|]. cbn. rewrite E, IH. reflexivity. }
  apply F. repeat apply Forall_cons; try apply Forall_nil; apply skip_bind, skip_bind; first [apply skip_token|apply skip_opt].
Qed.
Lemma skip_prim {K T} (rd : reader K T) n s : prim_p rd n (skip s) = prim_p rd n s.
Proof.
  unfold prim_p. cbv zeta.
  assert (F : forall (ps : list (parser (prim K))), Forall (fun p => p (skip s) = p s) ps -> first_of ps (skip s) = first_of ps s).
  { induction 1 as [|p ps E _ IH]; [reflexivity|]. cbn. rewrite E, IH. reflexivity. }
  apply F. repeat apply Forall_cons; try apply Forall_nil; apply skip_bind, skip_bind; apply skip_token.
Qed.

Section Trace.
  Context {K T : Type} (rd : reader K T) (W : str).
  Notation total := (length W).
  Notation lnode := (lnode K T).
  Notation any := (fun _ => True).
  Definition read_at (x : lnode) : Prop :=
    (forall c, kind_of x = KCmd c -> d_command c -> exists sa r, d_codes sa (skipn (start_of x) W) = POk (c, length_of x) r) /\
    (forall p, kind_of x = KPrim p -> exists n r, prim_p rd n (skipn (start_of x) W) = POk (p, length_of x) r).
  Definition ok (x : lnode) : Prop := Forall read_at (every x).
  Definition suffix (s : str) : Prop := exists pre, W = pre ++ s.
  Definition traced {A} (P : A -> Prop) (p : parser A) : Prop := forall s a k r, suffix s -> p s = POk (a, k) r -> P a /\ suffix r.

  Lemma suffix_skip s : suffix s -> suffix (skip s).
  Proof. intros (pre & E). destruct (skip_split s) as (b & Eb & _). exists (pre ++ b). rewrite <- app_assoc, <- Eb. exact E. Qed.
  Lemma suffix_at s : suffix s -> skipn (total - length s) W = s.
  Proof. intros (pre & E). rewrite E, app_length, Nat.add_sub, skipn_app, skipn_all, Nat.sub_diag. reflexivity. Qed.
  Lemma traced_good {A} (P : A -> Prop) p : good P p -> traced P p.
  Proof. intros H s a k r (pre & Hs) E. destruct (H _ _ _ _ E) as (Ha & u & Eu & _). split; [exact Ha|]. exists (pre ++ u). rewrite <- app_assoc, <- Eu. exact Hs. Qed.
  Lemma traced_bind {A B} (Q : A -> Prop) (P : B -> Prop) p f : traced Q p -> (forall a, Q a -> traced P (f a)) -> traced P (pbind p f).
  Proof.
    intros Hp Hf s b k r Hs E. unfold pbind in E. destruct (p s) as [[a k1] r1| |] eqn:E1; try discriminate.
    destruct (f a r1) as [[b2 k2] r2| |] eqn:E2; try discriminate. injection E as <- <- <-. destruct (Hp _ _ _ _ Hs E1) as [Ha H1]. exact (Hf a Ha _ _ _ _ H1 E2).
  Qed.
  Lemma traced_ret {A} (P : A -> Prop) a : P a -> traced P (ret a).
  Proof. intros H s b k r Hs [= <- <- <-]. auto. Qed.
  Lemma traced_many {A} (P : A -> Prop) n p : traced P p -> traced (Forall P) (many n p).
  Proof.
    intros H. induction n as [|n IH]; intros s l k r Hs E; [discriminate|]. cbn [many] in E. destruct (p s) as [[x k1] r1| |] eqn:Ep; try discriminate.
    - destruct (many n p r1) as [[l2 k2] r2| |] eqn:E2; try discriminate. injection E as <- <- <-. destruct (H _ _ _ _ Hs Ep) as [Hx H1].
      destruct (IH _ _ _ _ H1 E2). auto.
    - injection E as <- <- <-. auto.
  Qed.
  Lemma traced_first {A} (P : A -> Prop) ps : Forall (traced P) ps -> traced P (first_of ps).
  Proof. rewrite Forall_forall. intros H s a k r Hs E. apply first_inv in E as (p & Hp & E). exact (H p Hp _ _ _ _ Hs E). Qed.
  Lemma traced_weaken {A} (P Q : A -> Prop) p : traced P p -> (forall a, P a -> Q a) -> traced Q p.
  Proof. intros H HQ s a k r Hs E. destruct (H _ _ _ _ Hs E). auto. Qed.

  Definition no_d (x : lkind K T) : Prop := match x with KCmd c => ~ d_command c | KPrim _ => False | _ => True end.
  Lemma read_no_d (x : lnode) : no_d (kind_of x) -> read_at x.
  Proof. intros H. split; [intros c E Hc|intros p E]; rewrite E in H; contradiction. Qed.
  Lemma traced_node {A} (p : parser (lkind K T * A)) : good (fun y => no_d (fst y)) p -> traced (fun y => ok (fst y)) (node total p).
  Proof.
    intros H s [x a] k r Hs E. unfold node in E. destruct (p s) as [[[y b] k0] r0| |] eqn:Ep; try discriminate. injection E as <- <- <- <-.
    destruct (traced_good _ _ H _ _ _ _ Hs Ep) as [Hy Hr]. split; [|exact Hr]. cbn. constructor; [apply read_no_d, Hy|constructor].
  Qed.
  Lemma traced_block (p : parser (cmd K T * list lnode)) : traced (fun y => ~ d_command (fst y) /\ Forall ok (snd y)) p -> traced ok (block total p).
  Proof.
    intros H s x k r Hs E. unfold block in E. destruct (p s) as [[[c kids] k0] r0| |] eqn:Ep; try discriminate. injection E as <- <- <-.
    destruct (H _ _ _ _ Hs Ep) as [[Hc Hk] Hr]. split; [|exact Hr]. unfold ok. cbn [every]. constructor; [apply read_no_d, Hc|]. cbn in Hk.
    clear - Hk. induction Hk; cbn; [constructor|]. apply Forall_app. auto.
  Qed.
  Lemma traced_leaf (p : parser (cmd K T)) : good (fun c => ~ d_command c) p -> traced ok (leaf total p).
  Proof. intros H. apply traced_block, (traced_bind (fun c => ~ d_command c)); [apply traced_good, H|]. intros c Hc. apply traced_ret. cbn. auto. Qed.
  Lemma traced_d sa : traced ok (leaf total (d_codes sa)).
  Proof.
    intros s x k r Hs E. unfold leaf, block, pbind in E. destruct (d_codes sa s) as [[c k0] r0| |] eqn:Ep; try discriminate. cbn in E. injection E as <- <- <-.
    destruct (traced_good _ _ (good_d sa) _ _ _ _ Hs Ep) as [_ Hr]. split; [|exact Hr]. constructor; [|constructor]. split; [|discriminate]. intros c' [= <-] _. cbn [start_of length_of].
    rewrite (suffix_at _ (suffix_skip _ Hs)). exists sa, r0. rewrite Nat.add_0_r, skip_d. exact Ep.
  Qed.
  Lemma ext_no_d c : is_ext (K := K) (T := T) c -> ~ d_command c.
  Proof. destruct c; cbn; auto. Qed.
  Lemma m_no_d c : is_m (K := K) (T := T) c -> ~ d_command c.
  Proof. destruct c; cbn; auto. Qed.
  Notation items := (traced (Forall ok)).
  Lemma traced_wrap p : traced ok p -> items (pbind p (fun c => ret [c])).
  Proof. intros H. apply (traced_bind ok); [exact H|]. intros c Hc. apply traced_ret. auto. Qed.
  Lemma traced_single p : good (fun c => ~ d_command c) p -> items (single total p).
  Proof. intros H. apply traced_wrap, traced_leaf, H. Qed.
  Lemma traced_g : items (g_codes total).
  Proof.
    unfold g_codes. apply traced_first. constructor; [|apply Forall_app; split; apply Forall_map, Forall_forall; intros g _].
    - unfold g04_p. apply traced_wrap, traced_leaf. unfold string_p. good_go. cbn. auto.
    - unfold g_standalone. apply traced_wrap, traced_leaf. good_go. cbn. auto.
    - unfold g_non_standalone. apply (traced_bind ok); [apply traced_leaf; good_go; cbn; auto|]. intros x Hx. apply (traced_bind ok); [apply traced_d|]. intros d Hd. apply traced_ret. auto.
  Qed.
  Lemma traced_prim n : traced (fun y => ok (fst y)) (node total (pbind (prim_p rd n) (fun p => ret (KPrim p, p)))).
  Proof.
    intros s [x a] k r Hs E. unfold node, pbind in E. destruct (prim_p rd n s) as [[p k0] r0| |] eqn:Ep; try discriminate. cbn in E. injection E as <- <- <- <-.
    destruct (traced_good _ _ (good_prim rd n) _ _ _ _ Hs Ep) as [_ Hr]. split; [|exact Hr]. constructor; [|constructor]. split; [discriminate|]. intros p' [= <-]. cbn [start_of length_of].
    rewrite (suffix_at _ (suffix_skip _ Hs)). exists n, r0. rewrite Nat.add_0_r, skip_prim. exact Ep.
  Qed.
  Lemma traced_macro n : traced ok (macro_p rd total n).
  Proof.
    unfold macro_p. apply traced_block. apply (traced_bind (fun y => ok (fst y))).
    { apply traced_node. unfold percent, asterisk, name_p. good_go. exact I. }
    intros o Ho. apply (traced_bind (Forall (fun y => ok (fst y)))).
    { apply traced_many, traced_prim. }
    intros ps Hps. apply (traced_bind (fun y => ok (fst y))).
    { apply traced_node. unfold percent. good_go. exact I. }
    intros c Hc. apply traced_ret. cbn. split; [auto|]. constructor; [exact Ho|]. apply Forall_app. split; [|auto]. clear - Hps. induction Hps; cbn; constructor; auto.
  Qed.
  Lemma traced_body n b : traced ok b -> items (body_item rd total n b).
  Proof.
    intros Hb. unfold body_item, alone. apply traced_first. repeat apply Forall_cons; try apply Forall_nil.
    - apply traced_wrap, traced_d.
    - apply traced_g.
    - apply traced_single, (good_weaken _ _ _ (good_load rd)), ext_no_d.
    - apply traced_single, (good_weaken _ _ _ (good_properties rd)), ext_no_d.
    - apply traced_single, (good_weaken _ _ _ (good_attribute rd n)), ext_no_d.
    - apply traced_single, (good_weaken _ _ _ (good_adds rd n)), ext_no_d.
    - apply traced_wrap, Hb.
    - apply traced_wrap, traced_macro.
    - apply traced_single, (good_weaken _ _ _ good_m), m_no_d.
  Qed.
  Lemma ok_frame (x y : lnode) b : ok x -> Forall (Forall ok) b -> ok y -> Forall ok (x :: concat b ++ [y]).
  Proof.
    intros Hx Hb Hy. constructor; [exact Hx|]. apply Forall_app. split; [|auto]. induction Hb; cbn; [constructor|]. apply Forall_app. auto.
  Qed.
  Lemma traced_blocks n m : traced ok (block_p rd total n m).
  Proof.
    induction m as [|m IH]; [intros s a k r _; discriminate|]. rewrite block_step. apply traced_block. unfold block_body. apply (traced_bind (fun y => ok (fst y))).
    { apply traced_node. unfold aperture_id_p. good_go. exact I. }
    intros o Ho. apply (traced_bind (Forall (Forall ok))); [apply traced_many, traced_body, IH|]. intros b Hb. apply (traced_bind (fun y => ok (fst y))).
    { apply traced_node. good_go. exact I. }
    intros c Hc. apply traced_ret. cbn. split; [auto|]. apply ok_frame; assumption.
  Qed.
  Lemma traced_sr n m : traced ok (sr_p rd total n m).
  Proof.
    unfold sr_p. apply traced_block. apply (traced_bind (fun y => ok (fst y))).
    { apply traced_node. unfold sr_open_p, double_p. good_go; exact I. }
    intros o Ho. apply (traced_bind (Forall (Forall ok))); [apply traced_many, traced_body, traced_blocks|]. intros b Hb. apply (traced_bind (fun y => ok (fst y))).
    { apply traced_node. good_go. exact I. }
    intros c Hc. apply traced_ret. cbn. split; [auto|]. apply ok_frame; assumption.
  Qed.
  Lemma traced_root n : items (root_item rd total n).
  Proof.
    unfold root_item, alone. apply traced_first. repeat apply Forall_cons; try apply Forall_nil.
    - apply traced_wrap, traced_d.
    - apply traced_g.
    - apply traced_single, (good_weaken _ _ _ (good_load rd)), ext_no_d.
    - apply traced_first. repeat apply Forall_cons; try apply Forall_nil; auto using traced_wrap, traced_blocks, traced_macro, traced_sr.
      apply traced_single, (good_weaken _ _ _ (good_adds rd n)), ext_no_d.
    - apply traced_single, (good_weaken _ _ _ (good_attribute rd n)), ext_no_d.
    - apply traced_single, (good_weaken _ _ _ (good_properties rd)), ext_no_d.
    - apply traced_single, (good_weaken _ _ _ good_m), m_no_d.
  Qed.
  Lemma traced_resilient n : items (resilient_item rd total n).
  Proof.
    unfold resilient_item. apply traced_first. constructor; [apply traced_root|]. constructor; [|constructor]. unfold invalid_p.
    apply (traced_bind (fun y => ok (fst y))); [|intros x Hx; apply traced_ret; auto]. apply traced_node.
    apply good_bind'; [apply good_token, tails_line|]. intros t. apply good_ret. exact I.
  Qed.
End Trace.

Lemma read_traced {K T} (rd : reader K T) (item : nat -> nat -> parser (list (lnode K T))) text l f :
  (forall n, traced (expandtabs text) (Forall (ok rd (expandtabs text))) (item (length (expandtabs text)) n)) ->
  read_nodes item text = Ok (l, f) -> forall x, In x (flat_map every l) -> read_at rd (expandtabs text) x.
Proof.
  intros Hi E x Hx. unfold read_nodes in E. set (s := expandtabs text) in *. set (n := S (length s)) in *.
  destruct (many1 n (item (length s) n) s) as [[ls k] r| |] eqn:Em; try discriminate. destruct (skip r); [|discriminate]. injection E as <- <-.
  assert (M : traced s (fun ls => Forall (Forall (ok rd s)) ls) (many1 n (item (length s) n))).
  { unfold many1. apply (traced_bind s (Forall (ok rd s))); [apply Hi|]. intros a Ha. apply (traced_bind s (Forall (Forall (ok rd s)))); [apply traced_many, Hi|].
    intros b Hb. apply traced_ret. auto. }
  destruct (M s ls k r) as [HM _]; [exists []; reflexivity|exact Em|].
  apply in_flat_map in Hx as (y & Hy & Hx). apply in_concat in Hy as (l & Hl & Hy). rewrite Forall_forall in HM. specialize (HM l Hl). rewrite Forall_forall in HM.
  specialize (HM y Hy). unfold ok in HM. rewrite Forall_forall in HM. exact (HM x Hx).
Qed.

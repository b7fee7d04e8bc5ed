(** The located grammar reads the same commands as [GramModel]. *)
From Verif Require Import Base Num CoordModel Ast GramAst PegModel GramModel ResModel LocModel LocSpec LocProofs.
Local Open Scope nat_scope.

Definition sim {A B} (R : A -> B -> Prop) (p : parser A) (q : PegModel.parser B) : Prop := forall s,
  match p s, q s with
  | POk (a, _) r, POk b r' => R a b /\ r = r'
  | PFail, PFail => True
  | PErr e, PErr e' => e = e'
  | _, _ => False
  end.

Lemma sim_weaken {A B} (R R' : A -> B -> Prop) p q : sim R p q -> (forall a b, R a b -> R' a b) -> sim R' p q.
Proof. intros H HR s. specialize (H s). destruct (p s) as [[a k] r| |], (q s) as [b r'| |]; auto. destruct H. auto. Qed.
Lemma sim_token {A} (f : str -> option (A * str)) : sim eq (token f) (PegModel.token f).
Proof. intros s. unfold token, PegModel.token. destruct (f (skip s)) as [[a r]|]; auto. Qed.
Lemma sim_chars cs : sim eq (chars_not_in cs) (PegModel.chars_not_in cs).
Proof. intros s. unfold chars_not_in, PegModel.chars_not_in. destruct (span _ s) as [[|c a] r]; auto. Qed.
Lemma sim_bind {A B A' B'} (R : A -> B -> Prop) (R' : A' -> B' -> Prop) p q f g :
  sim R p q -> (forall a b, R a b -> sim R' (f a) (g b)) -> sim R' (pbind p f) (PegModel.pbind q g).
Proof.
  intros H Hf s. specialize (H s). unfold pbind, PegModel.pbind. destruct (p s) as [[a k] r| |], (q s) as [b r'| |]; try contradiction; auto.
  destruct H as [H <-]. specialize (Hf a b H r). destruct (f a r) as [[a' k'] r'| |], (g b r) as [b' r''| |]; auto.
Qed.
Lemma sim_bind_eq {A A' B'} (R' : A' -> B' -> Prop) (p : parser A) q f g :
  sim eq p q -> (forall a, sim R' (f a) (g a)) -> sim R' (pbind p f) (PegModel.pbind q g).
Proof. intros H Hf. apply (sim_bind eq); [exact H|]. intros a b <-. apply Hf. Qed.
Lemma sim_ret {A B} (R : A -> B -> Prop) a b : R a b -> sim R (ret a) (PegModel.ret b).
Proof. intros H s. cbn. auto. Qed.
Lemma sim_validate {A} (o : option A) : sim eq (validate o) (PegModel.validate o).
Proof. intros s. unfold validate, PegModel.validate. destruct o; auto. Qed.
Lemma sim_first {A B} (R : A -> B -> Prop) ps qs : Forall2 (sim R) ps qs -> sim R (first_of ps) (PegModel.first_of qs).
Proof.
  intros H s. induction H as [|p q ps qs H _ IH]; [exact I|]. cbn. specialize (H s). destruct (p s) as [[a k] r| |], (q s) as [b r'| |]; auto; contradiction.
Qed.
Lemma sim_opt {A} (p : parser A) q : sim eq p q -> sim eq (opt p) (PegModel.opt q).
Proof. intros H s. specialize (H (skip s)). unfold opt, PegModel.opt. destruct (p (skip s)) as [[a k] r| |], (q (skip s)) as [b r'| |]; try contradiction; auto. destruct H as [<- <-]. auto. Qed.
Lemma sim_opt_raw {A} (p : parser A) q : sim eq p q -> sim eq (opt_raw p) (PegModel.opt_raw q).
Proof. intros H s. specialize (H s). unfold opt_raw, PegModel.opt_raw. destruct (p s) as [[a k] r| |], (q s) as [b r'| |]; try contradiction; auto. destruct H as [<- <-]. auto. Qed.
Lemma sim_followed {A B} (R : A -> B -> Prop) (p : parser A) q : sim R p q -> sim eq (followed_by p) (PegModel.followed_by q).
Proof. intros H s. specialize (H s). unfold followed_by, PegModel.followed_by. destruct (p s) as [[a k] r| |], (q s) as [b r'| |]; try contradiction; auto. Qed.
Lemma sim_many {A B} (R : A -> B -> Prop) n (p : parser A) q : sim R p q -> sim (Forall2 R) (many n p) (PegModel.many n q).
Proof.
  intros H. induction n as [|n IH]; intros s; [reflexivity|]. cbn. specialize (H s). destruct (p s) as [[a k] r| |], (q s) as [b r'| |]; try contradiction; auto.
  destruct H as [H <-]. specialize (IH r). destruct (many n p r) as [[l k'] r'| |], (PegModel.many n q r) as [l' r''| |]; try contradiction; auto.
  destruct IH. auto.
Qed.
Lemma forall2_eq {A} (l l' : list A) : Forall2 eq l l' -> l = l'.
Proof. induction 1; congruence. Qed.
Lemma sim_many_eq {A} n (p : parser A) q : sim eq p q -> sim eq (many n p) (PegModel.many n q).
Proof. intros H. apply (sim_weaken _ _ _ _ (sim_many eq n p q H)). apply forall2_eq. Qed.

Lemma forall2_map {A B C} (R : B -> C -> Prop) (f : A -> B) g l : (forall x, R (f x) (g x)) -> Forall2 R (map f l) (map g l).
Proof. intros H. induction l; cbn; constructor; auto. Qed.

Ltac sim_go :=
  repeat match goal with
  | |- sim _ (ret _) (PegModel.ret _) => apply sim_ret
  | |- sim eq (token _) _ => apply sim_token
  | |- sim eq (lit_p _) _ => apply sim_token
  | |- sim eq (caseless_p _) _ => apply sim_token
  | |- sim eq (one_of _) _ => apply sim_token
  | |- sim eq (chars_not_in _) _ => apply sim_chars
  | |- sim eq (validate _) _ => apply sim_validate
  | |- sim eq (opt_raw _) _ => apply sim_opt_raw
  | |- sim eq (opt _) _ => apply sim_opt
  | |- sim eq (followed_by _) _ => apply (sim_followed eq)
  | |- sim eq (many _ _) _ => apply sim_many_eq
  | |- sim _ (first_of _) _ => apply sim_first
  | |- sim _ (pbind _ _) _ => apply sim_bind_eq; [|intros]
  | |- sim _ (pthen _ _) _ => unfold pthen, PegModel.pthen
  | |- sim _ (many1 _ _) _ => unfold many1, PegModel.many1
  | |- Forall2 _ (_ :: _) (_ :: _) => apply Forall2_cons
  | |- Forall2 _ [] [] => apply Forall2_nil
  | |- sim _ (match ?x with _ => _ end) _ => destruct x
  end.
Lemma sim_command {A} (p : parser A) q : sim eq p q -> sim eq (command p) (GramModel.command q).
Proof. intros H. unfold command, GramModel.command, asterisk, GramModel.asterisk. sim_go; auto. Qed.
Lemma sim_extended {A} (p : parser A) q : sim eq p q -> sim eq (extended p) (GramModel.extended q).
Proof. intros H. unfold extended, GramModel.extended, asterisk, GramModel.asterisk, percent, GramModel.percent. sim_go; auto. Qed.
Ltac simc := repeat first [ apply sim_command | apply sim_extended | progress sim_go ]; auto.

Section Grammar.
  Context {K T : Type} (rd : reader K T) (total : nat).
  Lemma sim_unary n op (mk : expr K -> expr K) last last' : sim eq last last' -> sim eq (unary n op mk last) (GramModel.unary n op mk last').
  Proof.
    intros H. induction n as [|n IH]; [intros s; reflexivity|].
    change (sim eq (first_of [ (pthen (followed_by (pthen (lit_p op) (unary n op mk last))) (pbind (pthen (lit_p op) (unary n op mk last)) (fun e => ret (mk e)))); last ])
      (PegModel.first_of [ (PegModel.pthen (PegModel.followed_by (PegModel.pthen (PegModel.lit_p op) (GramModel.unary n op mk last'))) (PegModel.pbind (PegModel.pthen (PegModel.lit_p op) (GramModel.unary n op mk last')) (fun e => PegModel.ret (mk e)))); last' ])).
    simc.
  Qed.
  Lemma sim_binary {O} n (op : parser O) op' (mk : expr K -> list (expr K) -> expr K) last last' :
    sim eq op op' -> sim eq last last' -> sim eq (binary n op mk last) (GramModel.binary n op' mk last').
  Proof. intros H1 H2. unfold binary, GramModel.binary. simc. Qed.
  Lemma sim_expr n : sim eq (expr_p rd n) (GramModel.expr_p rd n).
  Proof.
    induction n as [|n IH]; [intros s; reflexivity|]. cbn [expr_p GramModel.expr_p].
    repeat (apply sim_binary; [sim_go|]). repeat apply sim_unary. unfold variable_p, constant_p, num_p, double_p, GramModel.variable_p, GramModel.constant_p, GramModel.num_p, GramModel.double_p. simc.
  Qed.
  Ltac unf := unfold prim_p, assignment_p, primitive, arg, add_aperture, adc_p, adr_p, adp_p, admacro_p, x_num, num_p, fields, one_field,
    attribute, ta_p, td_p, tf_p, to_p, ta_user_p, ta_aper_function_p, ta_drill_tolerance_p, ta_flash_text_p, tf_user_p, tf_enum_p, tf_one_p, tf_same_p, tf_three_p,
    to_user_p, to_n_p, to_p_p, to_one_p, to_csup_p, d_codes, dnn_p, d01_p, d02_p, d03_p, coord,
    load, m_codes, properties, fs_p, mo_p, ip_p, ir_p, of_p, as_p, mi_p, in_p, sf_p, sr_open_p,
    string_p, asterisk, percent, comma, name_p, user_name_p, field_p, double_p, integer_p, aperture_id_p,
    GramModel.prim_p, GramModel.assignment_p, GramModel.primitive, GramModel.arg, GramModel.add_aperture, GramModel.adc_p, GramModel.adr_p, GramModel.adp_p, GramModel.admacro_p, GramModel.x_num, GramModel.num_p, GramModel.fields, GramModel.one_field,
    GramModel.attribute, GramModel.ta_p, GramModel.td_p, GramModel.tf_p, GramModel.to_p, GramModel.ta_user_p, GramModel.ta_aper_function_p, GramModel.ta_drill_tolerance_p, GramModel.ta_flash_text_p, GramModel.tf_user_p, GramModel.tf_enum_p, GramModel.tf_one_p, GramModel.tf_same_p, GramModel.tf_three_p,
    GramModel.to_user_p, GramModel.to_n_p, GramModel.to_p_p, GramModel.to_one_p, GramModel.to_csup_p, GramModel.d_codes, GramModel.dnn_p, GramModel.d01_p, GramModel.d02_p, GramModel.d03_p, GramModel.coord,
    GramModel.load, GramModel.m_codes, GramModel.properties, GramModel.fs_p, GramModel.mo_p, GramModel.ip_p, GramModel.ir_p, GramModel.of_p, GramModel.as_p, GramModel.mi_p, GramModel.in_p, GramModel.sf_p, GramModel.sr_open_p,
    GramModel.string_p, GramModel.asterisk, GramModel.percent, GramModel.comma, GramModel.name_p, GramModel.user_name_p, GramModel.field_p, GramModel.double_p, GramModel.integer_p, GramModel.aperture_id_p.
  Lemma sim_prim n : sim eq (prim_p rd n) (GramModel.prim_p rd n). Proof. unf; unf; unf; simc; apply sim_expr. Qed.
  Lemma sim_adds n : sim eq (@add_aperture K T rd n) (GramModel.add_aperture rd n). Proof. unf; unf; unf; simc. Qed.
  Lemma sim_attribute n : sim eq (@attribute K T rd n) (GramModel.attribute rd n). Proof. unf; unf; unf; simc. Qed.
  Lemma sim_d sa : sim eq (@d_codes K T sa) (GramModel.d_codes sa). Proof. unf; unf; unf; simc. Qed.
  Lemma sim_load : sim eq (@load K T rd) (GramModel.load rd). Proof. unf; unf; unf; simc. Qed.
  Lemma sim_properties : sim eq (@properties K T rd) (GramModel.properties rd). Proof. unf; unf; unf; simc. Qed.
  Lemma sim_m : sim eq (@m_codes K T) GramModel.m_codes. Proof. unf; unf; unf; simc. Qed.
  Lemma sim_sr_open : sim eq sr_open_p GramModel.sr_open_p. Proof. unf; unf; unf; simc. Qed.

  (** Nodes. *)
  Definition rel1 (x : lnode K T) (c : cmd K T) : Prop := kind_of x = KCmd c.
  Definition rels (l : list (lnode K T)) (cs : list (cmd K T)) : Prop := named l cs.
  Lemma sim_node {A B} (R : lkind K T -> A -> B -> Prop) (p : parser (lkind K T * A)) (q : PegModel.parser B) :
    sim (fun x => R (fst x) (snd x)) p q -> sim (fun x => R (kind_of (fst x)) (snd x)) (node total p) q.
  Proof. intros H s. specialize (H s). unfold node. destruct (p s) as [[[x a] k] r| |], (q s) as [b r'| |]; try contradiction; auto. Qed.
  Lemma sim_block (p : parser (cmd K T * list (lnode K T))) q :
    sim (fun x c => fst x = c) p q -> sim rel1 (block total p) q.
  Proof.
    intros H s. specialize (H s). unfold block. destruct (p s) as [[[x a] k] r| |], (q s) as [b r'| |]; try contradiction; auto.
    destruct H as [<- <-]. split; reflexivity.
  Qed.
  Lemma sim_leaf p q : sim eq p q -> sim rel1 (leaf total p) q.
  Proof.
    intros H. apply sim_block. intros s. specialize (H s). unfold pbind. destruct (p s) as [[x k] r| |], (q s) as [b r'| |]; try contradiction; auto.
  Qed.
  Lemma sim_alone p q : sim rel1 p q -> sim rels (alone p) (GramModel.single q).
  Proof. intros H. unfold alone, GramModel.single. apply (sim_bind rel1); [exact H|]. intros a b Hab. apply sim_ret. unfold rels, named. cbn. congruence. Qed.
  Lemma sim_single p q : sim eq p q -> sim rels (single total p) (GramModel.single q).
  Proof. intros H. apply sim_alone, sim_leaf, H. Qed.
  Lemma sim_any {A B} (R : A -> B -> Prop) p q q' : sim R p q -> (forall s, q s = q' s) -> sim R p q'.
  Proof. intros H E s. rewrite <- E. apply H. Qed.

  Lemma rels_commands l cs : rels l cs -> flat_map command_of l = cs.
  Proof.
    unfold rels, named. revert cs. induction l as [|[k loc len kids] l IH]; destruct cs as [|c cs]; cbn; try discriminate; [reflexivity|].
    intros [= -> E]. cbn. f_equal. apply IH, E.
  Qed.
  Lemma rels_concat ls css : Forall2 rels ls css -> rels (concat ls) (concat css).
  Proof. induction 1 as [|l cs ls css H _ IH]; [reflexivity|]. unfold rels, named in *. cbn. rewrite !map_app. congruence. Qed.

  Ltac peel := repeat match goal with |- context [match ?x with POk _ _ => _ | PFail => _ | PErr _ => _ end] =>
    lazymatch x with match _ with _ => _ end => fail | _ => destruct x; try reflexivity end end.
  Lemma sim_g : sim rels (g_codes total) GramModel.g_codes.
  Proof.
    unfold g_codes, GramModel.g_codes. apply sim_first. constructor.
    - unfold g04_p. change (sim rels (single total (command (pthen (token (re_code "G" "4")) (pbind (opt_raw string_p) (fun s => ret (CG04 s)))))) GramModel.g04_p).
      apply (sim_any _ _ (GramModel.single (GramModel.command (PegModel.pthen (PegModel.token (re_code "G" "4")) (PegModel.pbind (PegModel.opt_raw GramModel.string_p) (fun s => PegModel.ret (CG04 s))))))).
      + apply sim_single, sim_command. unf. simc.
      + intros s. unfold GramModel.single, GramModel.g04_p, GramModel.command, PegModel.pthen, PegModel.pbind, PegModel.ret. peel.
    - apply Forall2_app; apply forall2_map; intros g.
      + unfold g_standalone. change (sim rels (single total (command (pthen (token (re_code "G" (GramModel.g_text g))) (ret (CG true g))))) (GramModel.g_standalone g)).
        apply (sim_any _ _ (GramModel.single (GramModel.command (PegModel.pthen (PegModel.token (re_code "G" (GramModel.g_text g))) (PegModel.ret (CG true g)))))).
        * apply sim_single, sim_command. simc.
        * intros s. unfold GramModel.single, GramModel.g_standalone, GramModel.command, PegModel.pthen, PegModel.pbind, PegModel.ret. peel.
      + unfold g_non_standalone. apply (sim_any _ _ (PegModel.pbind (PegModel.pthen (PegModel.token (re_code "G" (GramModel.g_text g)))
          (PegModel.pthen (PegModel.followed_by (PegModel.one_of ["D"; "X"; "Y"; "I"; "J"]%string)) (PegModel.ret (CG false g))))
          (fun c => PegModel.pbind (GramModel.d_codes false) (fun d => PegModel.ret [c; d])))).
        * apply (sim_bind rel1); [apply sim_leaf; unf; simc|]. intros a c Ha. apply (sim_bind rel1); [apply sim_leaf, sim_d|]. intros b d Hb.
          apply sim_ret. unfold rels, named, rel1 in *. cbn. congruence.
        * intros s. unfold GramModel.g_non_standalone, PegModel.pthen, PegModel.pbind, PegModel.ret. peel.
  Qed.

  Lemma sim_macro n : sim rel1 (macro_p rd total n) (GramModel.macro_p rd n).
  Proof.
    unfold macro_p. apply sim_block. apply (sim_any _ _ (PegModel.pbind (PegModel.pthen GramModel.percent (PegModel.pthen (PegModel.lit_p "AM")
      (PegModel.pbind GramModel.name_p (fun name => PegModel.pthen GramModel.asterisk (PegModel.ret name)))))
      (fun name => PegModel.pbind (PegModel.many n (GramModel.prim_p rd n)) (fun ps => PegModel.pbind (PegModel.pthen GramModel.percent (PegModel.ret tt)) (fun _ => PegModel.ret (CAM name ps)))))).
    - apply (sim_bind (fun x y => snd x = y)).
      + apply (sim_node (fun _ a b => a = b)).
        apply sim_bind_eq; [unf; sim_go; auto|intros _]. apply sim_bind_eq; [sim_go; auto|intros _].
        apply sim_bind_eq; [unfold name_p; sim_go; auto|intros name]. apply sim_bind_eq; [unf; sim_go; auto|intros _].
        apply sim_ret. reflexivity.
      + intros [o name] name' E. cbn in E. subst name'.
        apply (sim_bind (Forall2 (fun x y => snd x = y))).
        * apply sim_many. apply (sim_node (fun _ a b => a = b)). apply (sim_any _ _ (PegModel.pbind (GramModel.prim_p rd n) PegModel.ret)).
          -- apply sim_bind_eq; [apply sim_prim|]. intros p. apply sim_ret. reflexivity.
          -- intros s. unfold PegModel.pbind, PegModel.ret. peel.
        * intros l l' E. assert (E2 : map snd l = l') by (clear - E; induction E; cbn; congruence). subst l'.
          apply (sim_bind (fun _ _ => True)).
          -- apply (sim_node (fun _ _ _ => True)). apply sim_bind_eq; [unf; sim_go; auto|intros _]. apply (sim_ret _ (KMacroClose, tt) tt). exact I.
          -- intros a b _. apply sim_ret. cbn. reflexivity.
    - intros s. unfold GramModel.macro_p, PegModel.pthen, PegModel.pbind, PegModel.ret. peel.
  Qed.

  Lemma sim_body n p q : sim rel1 p q -> sim rels (body_item rd total n p) (GramModel.body_item rd n q).
  Proof.
    intros H. unfold body_item, GramModel.body_item. apply sim_first.
    repeat apply Forall2_cons; try apply Forall2_nil; try apply sim_single; try apply sim_alone; auto using sim_d, sim_load, sim_properties, sim_attribute, sim_adds, sim_macro, sim_m, sim_g.
  Qed.
  Lemma sim_frame {A} n (op : parser (lkind K T * A)) op' p q (cl : parser (lkind K T * unit)) (cl' : PegModel.parser unit) (mk : A -> list (cmd K T) -> cmd K T) :
    sim (fun x y => snd x = y) op op' -> sim rel1 p q -> sim (fun _ _ => True) cl cl' ->
    sim rel1 (block total (pbind (node total op) (fun o => pbind (many n (body_item rd total n p)) (fun b => pbind (node total cl) (fun c =>
      ret (mk (snd o) (flat_map command_of (concat b)), fst o :: concat b ++ [fst c]))))))
      (PegModel.pbind op' (fun a => PegModel.pbind (PegModel.many n (GramModel.body_item rd n q)) (fun b => PegModel.pbind cl' (fun _ => PegModel.ret (mk a (concat b)))))).
  Proof.
    intros Ho Hp Hc. apply sim_block. apply (sim_bind (fun x y => snd x = y)); [exact (sim_node (fun _ a b => a = b) _ _ Ho)|].
    intros [o a] a' E. cbn in E. subst a'. apply (sim_bind (Forall2 rels)); [apply sim_many, sim_body, Hp|].
    intros b b' Hb. apply (sim_bind (fun _ _ => True)); [exact (sim_node (fun _ _ _ => True) _ _ Hc)|].
    intros c c' _. apply sim_ret. cbn. f_equal. apply rels_commands, rels_concat, Hb.
  Qed.
  Lemma sim_extended' {A B} (R : A -> B -> Prop) (p : parser A) q : sim R p q -> sim R (extended p) (GramModel.extended q).
  Proof.
    intros H. unfold extended, GramModel.extended. apply sim_bind_eq; [unf; sim_go; auto|intros _]. apply (sim_bind R); [exact H|]. intros a b Hab.
    apply sim_bind_eq; [unf; sim_go; auto|intros _]. apply sim_bind_eq; [unf; sim_go; auto|intros _]. apply sim_ret. exact Hab.
  Qed.
  Lemma sim_end name : sim (fun _ _ => True) (extended (pthen (lit_p name) (ret (@KClose K T, tt)))) (PegModel.pbind (GramModel.extended (PegModel.lit_p name)) (fun _ => PegModel.ret tt)).
  Proof.
    apply (sim_any _ _ (GramModel.extended (PegModel.pbind (PegModel.lit_p name) (fun _ => PegModel.ret tt)))).
    - apply sim_extended'. apply sim_bind_eq; [sim_go; auto|intros _]. apply sim_ret. exact I.
    - intros s. unfold GramModel.extended, PegModel.pthen, PegModel.pbind, PegModel.ret. peel.
  Qed.
  Lemma sim_blocks n m : sim rel1 (block_p rd total n m) (GramModel.block_p rd n m).
  Proof.
    induction m as [|m IH]; [intros s; reflexivity|].
    apply (sim_any _ _ (PegModel.pbind (GramModel.extended (PegModel.pthen (PegModel.lit_p "AB") GramModel.aperture_id_p))
      (fun id => PegModel.pbind (PegModel.many n (GramModel.body_item rd n (GramModel.block_p rd n m))) (fun b =>
        PegModel.pbind (PegModel.pbind (GramModel.extended (PegModel.lit_p "AB")) (fun _ => PegModel.ret tt)) (fun _ => PegModel.ret (CAB id (concat b))))))).
    - apply (sim_frame n _ _ _ _ _ _ CAB); [|exact IH|].
      + apply sim_extended'. apply sim_bind_eq; [unf; sim_go; auto|intros _]. apply (sim_any _ _ (PegModel.pbind GramModel.aperture_id_p PegModel.ret)).
        * apply sim_bind_eq; [unf; sim_go; auto|]. intros id. apply sim_ret. reflexivity.
        * intros s. unfold PegModel.pbind, PegModel.ret. peel.
      + apply sim_end.
    - intros s. cbn [GramModel.block_p]. unfold PegModel.pthen, PegModel.pbind, PegModel.ret. peel.
  Qed.
  Lemma sim_srs n m : sim rel1 (sr_p rd total n m) (GramModel.sr_p rd n m).
  Proof.
    unfold sr_p.
    apply (sim_any _ _ (PegModel.pbind (PegModel.pbind GramModel.sr_open_p PegModel.ret)
      (fun id => PegModel.pbind (PegModel.many n (GramModel.body_item rd n (GramModel.block_p rd n m))) (fun b =>
        PegModel.pbind (PegModel.pbind (GramModel.extended (PegModel.lit_p "SR")) (fun _ => PegModel.ret tt)) (fun _ => PegModel.ret (CSR id (concat b))))))).
    - apply (sim_frame n _ _ _ _ _ _ CSR); [|apply sim_blocks|].
      + apply sim_bind_eq; [apply sim_sr_open|]. intros h. apply sim_ret. reflexivity.
      + apply sim_end.
    - intros s. unfold GramModel.sr_p, PegModel.pthen, PegModel.pbind, PegModel.ret. peel.
  Qed.
  Lemma sim_root n : sim rels (root_item rd total n) (GramModel.root_item rd n).
  Proof.
    unfold root_item, GramModel.root_item. apply sim_first.
    repeat apply Forall2_cons; try apply Forall2_nil; try apply sim_single; auto using sim_d, sim_load, sim_properties, sim_attribute, sim_m, sim_g.
    apply (sim_any _ _ (PegModel.first_of [GramModel.single (GramModel.block_p rd n n); GramModel.single (GramModel.macro_p rd n); GramModel.single (GramModel.sr_p rd n n); GramModel.single (GramModel.add_aperture rd n)])).
    - apply sim_first. repeat apply Forall2_cons; try apply Forall2_nil; try apply sim_alone; auto using sim_blocks, sim_macro, sim_srs. apply sim_leaf, sim_adds.
    - intros s. unfold GramModel.single. cbn. unfold PegModel.pbind, PegModel.ret. peel.
  Qed.

  (** The resilient parser. *)
  Definition as_node (x : rnode K T) : lkind K T := match x with Parsed c => KCmd c | Invalid t => KInvalid t end.
  Definition relr (l : list (lnode K T)) (xs : list (rnode K T)) : Prop := map kind_of l = map as_node xs.
  Lemma sim_resilient n : sim relr (resilient_item rd total n) (ResModel.resilient_item rd n).
  Proof.
    unfold resilient_item, ResModel.resilient_item. apply sim_first. repeat apply Forall2_cons; try apply Forall2_nil.
    - intros s. pose proof (sim_root n s) as H. unfold PegModel.pbind, PegModel.ret. destruct (root_item rd total n s) as [[l k] r| |], (GramModel.root_item rd n s) as [cs r'| |]; try contradiction; auto.
      destruct H as [H <-]. split; [|reflexivity]. unfold relr. rewrite map_map. exact H.
    - unfold invalid_p. apply (sim_bind (fun x t => kind_of (fst x) = KInvalid t)).
      + apply (sim_node (fun k _ t => k = KInvalid t)). apply (sim_any _ _ (PegModel.pbind ResModel.invalid_p PegModel.ret)).
        * apply sim_bind_eq; [apply sim_token|]. intros t. apply sim_ret. reflexivity.
        * intros s. unfold PegModel.pbind, PegModel.ret. peel.
      + intros [x []] t H. apply sim_ret. unfold relr. cbn in *. congruence.
  Qed.
  Lemma relr_concat ls css : Forall2 relr ls css -> relr (concat ls) (concat css).
  Proof. induction 1 as [|l cs ls css H _ IH]; [reflexivity|]. unfold relr in *. cbn. rewrite !map_app. congruence. Qed.
End Grammar.

Section Erase.
  Context {K T : Type} (rd : reader K T).
  Lemma sim_many1 {A B} (R : A -> B -> Prop) n (p : parser A) q : sim R p q -> sim (Forall2 R) (many1 n p) (PegModel.many1 n q).
  Proof.
    intros H. unfold many1, PegModel.many1. apply (sim_bind R); [exact H|]. intros a b Hab. apply (sim_bind (Forall2 R)); [apply sim_many, H|].
    intros l l' Hl. apply sim_ret. constructor; assumption.
  Qed.
  (** What the two parsers give is the same up to the locations. *)
  Definition agree {A} (R : list (lnode K T) -> A -> Prop) (x : result parse_error (list (lnode K T) * (nat * nat))) (y : result parse_error A) : Prop :=
    match x, y with
    | Ok (l, _), Ok a => R l a
    | Err e, Err e' => e = e'
    | _, _ => False
    end.
  Lemma strict_agree text : agree named (parse_located rd text) (GramModel.parse rd text).
  Proof.
    unfold parse_located, read_nodes, GramModel.parse, agree. set (s := expandtabs text).
    pose proof (sim_many1 rels (S (length s)) _ _ (sim_root rd (length s) (S (length s))) s) as H.
    destruct (many1 _ _ s) as [[l k] r| |], (PegModel.many1 _ _ s) as [cs r'| |]; try contradiction; try congruence.
    destruct H as [H <-]. destruct (skip r); [|reflexivity]. apply rels_concat, H.
  Qed.
  Lemma resilient_agree text : agree relr (parse_located_resilient rd text) (ResModel.parse_resilient rd text).
  Proof.
    unfold parse_located_resilient, read_nodes, ResModel.parse_resilient, agree. set (s := expandtabs text).
    pose proof (sim_many1 relr (S (length s)) _ _ (sim_resilient rd (length s) (S (length s))) s) as H.
    destruct (many1 _ _ s) as [[l k] r| |], (PegModel.many1 _ _ s) as [cs r'| |]; try contradiction; try congruence.
    destruct H as [H <-]. destruct (skip r); [|reflexivity]. apply relr_concat, H.
  Qed.
End Erase.

(** The grammar is local, its alternatives start differently, and fuel decides nothing but
    whether there is an outcome. *)
From Verif Require Import Base Num Ast GramAst PegModel GramModel GramText GramTok GramPieces ResProofs LenSafe.
Local Open Scope nat_scope.

Ltac unfx := unfold add_aperture, adc_p, adr_p, adp_p, admacro_p, x_num, num_p, fields, one_field,
    attribute, ta_p, td_p, tf_p, to_p, ta_user_p, ta_aper_function_p, ta_drill_tolerance_p, ta_flash_text_p, tf_user_p, tf_enum_p, tf_one_p, tf_same_p, tf_three_p,
    to_user_p, to_n_p, to_p_p, to_one_p, to_csup_p, dnn_p, d01_p, d02_p, d03_p, coord, g04_p, g_standalone, g_non_standalone,
    load, m_codes, properties, fs_p, mo_p, ip_p, ir_p, of_p, as_p, mi_p, in_p, sf_p, sr_open_p, single,
    string_p, comma, name_p, user_name_p, field_p, double_p, integer_p, aperture_id_p.
Ltac unfy := unfx; unfx; unfold num_p, double_p, comma, field_p, string_p, integer_p.

Ltac quick_go :=
  match goal with
  | |- quick (fun a => ret _) => intros a0; eexists (POk _ []); reflexivity
  | |- quick (fun x => pbind (validate (Some _)) _) => intros a0; eexists (POk _ []); reflexivity
  | |- quick _ => let a := fresh "a" in intros a; repeat (match goal with x : (_ * _)%type |- _ => destruct x end);
      unfold pbind, ret, validate;
      match goal with
      | |- exists o, forall s, match match ?v with _ => _ end with _ => _ end = out o s => destruct v; [eexists (POk _ [])|exists (PErr EValidation)]; reflexivity
      end
  end.
Ltac stops_go :=
  repeat match goal with
  | |- stops (command _) => apply stops_command; safe_go
  | |- stops (first_of _) => apply stops_first_of
  | |- Forall _ (_ :: _) => apply Forall_cons
  | |- Forall _ [] => apply Forall_nil
  | |- Forall _ (map _ _) => apply Forall_map, Forall_forall; intros
  | |- Forall _ (_ ++ _) => apply Forall_app; split
  end.
Ltac sx_go :=
  repeat match goal with
  | |- stopsx (extended _) => apply sx_extended; safe_go
  | |- stopsx (first_of _) => apply sx_first_of
  | |- stopsx (pbind _ _) => apply sx_quick; [|quick_go]
  | |- Forall _ (_ :: _) => apply Forall_cons
  | |- Forall _ [] => apply Forall_nil
  end.
Ltac stars_go :=
  repeat match goal with
  | |- stars (command _) => apply stars_command; tails_go
  | |- stars (extended _) => apply stars_extended; tails_go
  | |- stars (first_of _) => apply stars_first_of
  | |- stars (pbind _ _) => apply stars_left
  | |- Forall _ (_ :: _) => apply Forall_cons
  | |- Forall _ [] => apply Forall_nil
  | |- Forall _ (map _ _) => apply Forall_map, Forall_forall; intros
  | |- Forall _ (_ ++ _) => apply Forall_app; split
  end.

Section Grammar.
  Context {K T : Type} (rd : reader K T).
  Lemma safe_unary n op (mk : expr K -> expr K) last : nostar (lit op) = true -> safe last -> safe (unary n op mk last).
  Proof.
    intros Ho H. induction n as [|n IH]; [intros v _; right; left; exists EFuel; reflexivity|]. change (safe (fun s => unary (S n) op mk last s)). cbn [unary].
    match goal with |- safe (fun s => ?p s) => change (safe p) end. safe_go; try (apply safe_lit; exact Ho); auto.
  Qed.
  Lemma safe_binary {O} n (op : parser O) (mk : expr K -> list (expr K) -> expr K) last : safe op -> safe last -> safe (binary n op mk last).
  Proof. intros H1 H2. unfold binary. safe_go; auto. Qed.
  Lemma safe_expr n : safe (expr_p rd n).
  Proof.
    induction n as [|n IH]; [intros v _; right; left; exists EFuel; reflexivity|]. change (safe (fun s => expr_p rd (S n) s)). cbn [expr_p].
    match goal with |- safe (fun s => ?p s) => change (safe p) end.
    repeat (apply safe_binary; [safe_go|]). do 2 (apply safe_unary; [reflexivity|]). unfold variable_p, constant_p, num_p, double_p. safe_go; auto.
  Qed.
  Lemma local_d sa : local (@d_codes K T sa).
  Proof. apply local_stops; unfold d_codes; unfy; [stops_go|stars_go]. Qed.
  Lemma stops_d sa : stops (@d_codes K T sa). Proof. unfold d_codes; unfy; stops_go. Qed.
  Lemma stars_d sa : stars (@d_codes K T sa). Proof. unfold d_codes; unfy; stars_go. Qed.
  Lemma local_g : local (@g_codes K T).
  Proof.
    apply local_stops; unfold g_codes; unfy; [stops_go|stars_go].
    - unfold pthen. apply stops_bind; [safe_go|]. intros _. apply stops_bind; [safe_go|]. intros _. apply stops_quick; [apply stops_d|quick_go].
    - unfold pthen. apply stars_right; [tails_go|]. intros _. apply stars_right; [tails_go|]. intros _. apply stars_left, stars_d.
  Qed.
  Lemma local_m : local (@m_codes K T). Proof. apply local_stops; unfy; [stops_go|stars_go]. Qed.
  Lemma local_load : local (@load K T rd). Proof. apply local_stopsx; unfy; [sx_go|stars_go]. Qed.
  Lemma local_adds n : local (@add_aperture K T rd n). Proof. apply local_stopsx; unfy; [sx_go|stars_go]. Qed.
  Lemma local_properties : local (@properties K T rd). Proof. apply local_stopsx; unfy; [sx_go|stars_go]. Qed.
  Lemma local_attribute n : local (@attribute K T rd n). Proof. apply local_stopsx; unfy; [sx_go|stars_go]. Qed.
  Lemma local_prim n : local (@prim_p K T rd n).
  Proof.
    apply local_stops; unfold prim_p, assignment_p, primitive, arg; unfy; [stops_go|stars_go]; try apply safe_expr; try apply tails_expr.
  Qed.

  (** ** What the alternatives start with *)
  Definition kd {A} (L : key -> bool) (p : parser A) : Prop := forall s, p s <> PFail -> L (keyof s) = true.
  Definition st2 {A} (a b : ascii) (p : parser A) : Prop := forall s, p s <> PFail -> exists t, skip s = a :: b :: t.
  Lemma kd_bind {A B} L (p : parser A) (f : A -> parser B) : kd L p -> kd L (pbind p f).
  Proof. intros H s Hs. apply H. intros E. apply Hs. unfold pbind. rewrite E. reflexivity. Qed.
  Lemma st2_bind {A B} a b (p : parser A) (f : A -> parser B) : st2 a b p -> st2 a b (pbind p f).
  Proof. intros H s Hs. apply H. intros E. apply Hs. unfold pbind. rewrite E. reflexivity. Qed.
  Lemma kd_first_of {A} L (ps : list (parser A)) : Forall (kd L) ps -> kd L (first_of ps).
  Proof.
    intros H s. induction H as [|p ps Hp _ IH]; [intros X; destruct (X eq_refl)|]. cbn. intros X. destruct (p s) eqn:E; [apply Hp; rewrite E; discriminate|auto|apply Hp; rewrite E; discriminate].
  Qed.
  Lemma st2_lit a b t l : lit l = a :: b :: t -> st2 a b (lit_p l).
  Proof.
    intros El s. unfold lit_p, token. rewrite El. destruct (strip_prefix _ (skip s)) as [r|] eqn:E; [|congruence]. intros _.
    apply strip_prefix_some in E. exists (t ++ r). exact E.
  Qed.
  Lemma kd_percent {A} (L : key -> bool) a b (q : parser A) : st2 a b q -> is_ws a = false -> L (KX a b) = true -> kd L (percent ;; q).
  Proof.
    intros Hq Ha HL s Hs. unfold pthen, pbind in Hs. destruct (percent s) as [x r| |e] eqn:E; [|congruence|].
    - unfold percent, lit_p, token in E. destruct (strip_prefix _ (skip s)) as [t|] eqn:E'; [|discriminate]. injection E as _ ->.
      apply strip_prefix_some in E'. destruct (Hq r Hs) as (t & Et). unfold keyof. rewrite E'. cbn. rewrite Et. exact HL.
    - unfold percent, lit_p, token in E. destruct (strip_prefix _ (skip s)); discriminate.
  Qed.
  Lemma kd_extended {A} (L : key -> bool) a b (q : parser A) : st2 a b q -> is_ws a = false -> L (KX a b) = true -> kd L (extended q).
  Proof. intros H1 H2 H3. apply (kd_percent L a b); [apply st2_bind, H1|exact H2|exact H3]. Qed.
  Lemma kd_token {A} (L : key -> bool) (f : str -> option (A * str)) :
    f [] = None -> (forall c s, f (c :: s) <> None -> Ascii.eqb c "%" = false /\ L (KC c) = true) -> kd L (token f).
  Proof.
    intros H0 H1 s. unfold token, keyof. destruct (skip s) as [|c t]; [rewrite H0; congruence|]. intros H.
    destruct (H1 c t) as [H2 H3]; [destruct (f (c :: t)) as [[]|]; congruence|]. rewrite H2. exact H3.
  Qed.
  Lemma kd_code L l c : Ascii.eqb l "%" = false -> L (KC l) = true -> kd L (token (re_code l c)).
  Proof.
    intros H1 H2. apply kd_token; [reflexivity|]. intros x s. cbn [re_code]. destruct (Ascii.eqb x l) eqn:E; [|congruence]. apply Ascii.eqb_eq in E as ->. auto.
  Qed.
  Lemma kd_code_zero L l : Ascii.eqb l "%" = false -> L (KC l) = true -> kd L (token (re_code_zero l)).
  Proof.
    intros H1 H2. apply kd_token; [reflexivity|]. intros x s. cbn [re_code_zero]. destruct (Ascii.eqb x l) eqn:E; [|congruence]. apply Ascii.eqb_eq in E as ->. auto.
  Qed.

  Definition isC (P : ascii -> bool) (k : key) : bool := match k with KC c => P c | _ => false end.
  Definition isX (l : list string) (k : key) : bool :=
    match k with KX a b => existsb (fun x => str_eqb (lit x) [a; b]) l | _ => false end.
  Definition Ld := isC (fun c => existsb (Ascii.eqb (upper c)) (lit "DXYIJ*")).
  Definition Lg := isC (Ascii.eqb "G").
  Definition Lm := isC (Ascii.eqb "M").
  Definition Lprim := isC (fun c => Ascii.eqb c "$" || is_digit c).
  Definition Lload := isX ["LN"; "LP"; "LR"; "LS"; "LM"]%string.
  Definition Ladds := isX ["AD"]%string.
  Definition Lattr := isX ["TA"; "TD"; "TF"; "TO"]%string.
  Definition Lprop := isX ["FS"; "MO"; "IP"; "IR"; "OF"; "AS"; "MI"; "IN"; "SF"]%string.
  Definition Lblock := isX ["AB"]%string.
  Definition Lmacro := isX ["AM"]%string.
  Definition Lsr := isX ["SR"]%string.

  Ltac kd_go :=
    repeat match goal with
    | |- kd _ (first_of _) => apply kd_first_of
    | |- kd _ (extended _) => eapply kd_extended; [repeat apply st2_bind; eapply st2_lit; reflexivity|reflexivity|reflexivity]
    | |- kd _ (pthen percent _) => eapply kd_percent; [repeat apply st2_bind; eapply st2_lit; reflexivity|reflexivity|reflexivity]
    | |- kd _ (command _) => apply kd_bind
    | |- kd _ (pbind _ _) => apply kd_bind
    | |- kd _ (pthen _ _) => apply kd_bind
    | |- kd _ (token (re_code _ _)) => apply kd_code; reflexivity
    | |- kd _ (token (re_code_zero _)) => apply kd_code_zero; reflexivity
    | |- Forall _ (_ :: _) => apply Forall_cons
    | |- Forall _ [] => apply Forall_nil
    | |- Forall _ (map _ _) => apply Forall_map, Forall_forall; intros
    | |- Forall _ (_ ++ _) => apply Forall_app; split
    end.
  Lemma kd_g : kd Lg (@g_codes K T). Proof. unfold g_codes; unfy; kd_go. Qed.
  Lemma kd_m : kd Lm (@m_codes K T). Proof. unfy; kd_go. Qed.
  Lemma kd_load : kd Lload (@load K T rd). Proof. unfy; kd_go. Qed.
  Lemma kd_adds n : kd Ladds (@add_aperture K T rd n). Proof. unfy; kd_go. Qed.
  Lemma kd_attribute n : kd Lattr (@attribute K T rd n). Proof. unfy; kd_go. Qed.
  Lemma kd_properties : kd Lprop (@properties K T rd). Proof. unfy; kd_go. Qed.
  Lemma kd_macro n : kd Lmacro (@macro_p K T rd n). Proof. unfold macro_p; kd_go. Qed.
  Lemma kd_sr n m : kd Lsr (@sr_p K T rd n m). Proof. unfold sr_p; unfy; kd_go. Qed.
  Lemma kd_block n m : kd Lblock (@block_p K T rd n (S m)).
  Proof. intros s. cbn [block_p]. revert s. match goal with |- forall s, ?p s <> PFail -> _ => change (kd Lblock p) end. kd_go. Qed.
  Lemma kd_close_ab : kd Lblock (extended (lit_p "AB")). Proof. kd_go. Qed.
  Lemma kd_close_sr : kd Lsr (extended (lit_p "SR")). Proof. kd_go. Qed.
  Lemma kd_digit_lit (L : key -> bool) c t l : lit l = c :: t -> Ascii.eqb c "%" = false -> L (KC c) = true -> kd L (lit_p l).
  Proof.
    intros El H1 H2. apply kd_token; [rewrite El; reflexivity|]. intros x s. rewrite El. cbn [strip_prefix].
    destruct (Ascii.eqb c x) eqn:E; [|congruence]. apply Ascii.eqb_eq in E as <-. auto.
  Qed.
  Lemma kd_prim n : kd Lprim (@prim_p K T rd n).
  Proof.
    unfold prim_p, assignment_p, primitive. cbv zeta. kd_go; try (eapply kd_digit_lit; reflexivity).
    apply kd_token; [reflexivity|]. intros c s. cbn [re_variable]. destruct (Ascii.eqb c "$") eqn:E; [|congruence].
    apply Ascii.eqb_eq in E as ->. intros _. split; reflexivity.
  Qed.
  (** The optional coordinates of D01. *)
  Lemma coord_off l c (s : str) : is_ws c = false -> Ascii.eqb (upper l) (upper c) = false -> coord (String l EmptyString) (c :: s) = PFail.
  Proof. intros H1 H2. unfold coord, pthen, pbind, caseless_p, token. cbn [skip]. rewrite H1. cbn [strip_upper lit list_ascii_of_string]. rewrite H2. reflexivity. Qed.
  Lemma opt_off {A} (p : parser A) s : p (skip s) = PFail -> opt p s = POk None (skip s).
  Proof. intros H. unfold opt. rewrite H. reflexivity. Qed.
  Lemma kd_d sa : kd Ld (@d_codes K T sa).
  Proof.
    intros s Hs. destruct (Ld (keyof s)) eqn:E; [reflexivity|]. exfalso. apply Hs. clear Hs. unfold keyof in E.
    assert (X : skip s = [] \/ exists c t, skip s = c :: t /\ is_ws c = false /\ existsb (Ascii.eqb (upper c)) (lit "DXYIJ*") = false).
    { pose proof (skip_head s) as Hh. destruct (skip s) as [|c t]; [left; reflexivity|]. right. exists c, t. split; [reflexivity|]. split; [exact Hh|].
      destruct (Ascii.eqb c "%") eqn:Ec; [apply Ascii.eqb_eq in Ec as ->; reflexivity|exact E]. }
    clear E. destruct X as [E|(c & t & E & Hw & Hc)].
    - unfold d_codes, dnn_p, d01_p, d02_p, d03_p, command, coord, asterisk, aperture_id_p, caseless_p, lit_p, integer_p, first_of, pthen, pbind, opt, token.
      repeat (rewrite ?E, ?skip_skip; cbn [skip strip_upper strip_prefix re_code re_aperture_id lit list_ascii_of_string]). reflexivity.
    - cbn [lit list_ascii_of_string existsb] in Hc. repeat (apply Bool.orb_false_elim in Hc as [? Hc]).
      assert (Hs : skip (c :: t) = c :: t) by (cbn; rewrite Hw; reflexivity).
      assert (HD : Ascii.eqb c "D" = false) by (destruct (Ascii.eqb c "D") eqn:X; [apply Ascii.eqb_eq in X; rewrite X in *; discriminate|reflexivity]).
      assert (HA : Ascii.eqb "*" c = false) by (rewrite Ascii.eqb_sym, <- upper_star; assumption).
      assert (O : forall l, Ascii.eqb (upper l) (upper c) = false -> forall s', skip s' = c :: t -> opt (coord (String l EmptyString)) s' = POk None (c :: t)).
      { intros l Hl s' Hs'. rewrite opt_off; rewrite Hs'; [reflexivity|]. apply coord_off; auto. }
      assert (OX := O "X"%char ltac:(rewrite Ascii.eqb_sym; assumption)). assert (OY := O "Y"%char ltac:(rewrite Ascii.eqb_sym; assumption)).
      assert (OI := O "I"%char ltac:(rewrite Ascii.eqb_sym; assumption)). assert (OJ := O "J"%char ltac:(rewrite Ascii.eqb_sym; assumption)).
      assert (C : forall x s', skip s' = c :: t -> token (re_code "D" x) s' = PFail).
      { intros x s' Hs'. unfold token. rewrite Hs'. cbn [re_code]. rewrite HD. reflexivity. }
      unfold d_codes, dnn_p, d01_p, d02_p, d03_p, command, first_of, pthen, pbind, aperture_id_p.
      replace (token re_aperture_id s) with (@PFail str) by (unfold token; rewrite E; cbn [re_aperture_id]; rewrite HD; reflexivity).
      rewrite (OX s E), (OY _ Hs), (OI _ Hs), (OJ _ Hs), (opt_off (token (re_code "D" "1"))); rewrite Hs; [|apply C, Hs].
      rewrite !(C _ _ Hs). unfold asterisk, lit_p, token, ret. rewrite Hs. cbn [strip_prefix lit list_ascii_of_string]. rewrite HA. reflexivity.
  Qed.

  (** ** Macros, blocks and the root *)
  Lemma local_ext {A} (p q : parser A) : (forall s, q s = p s) -> local p -> local q.
  Proof. intros E H s a r X. rewrite E in X. destruct (H _ _ _ X) as (u & -> & Hu). exists u. split; [reflexivity|]. intros t. rewrite E. apply Hu. Qed.
  Lemma local_macro n : local (@macro_p K T rd n).
  Proof.
    assert (H : local (percent ;; lit_p "AM" ;; do name <- name_p; asterisk ;; ret name)).
    { apply local_stops; unfold pthen.
      - apply stops_bind; [apply safe_lit; reflexivity|]. intros _. apply stops_bind; [safe_go|]. intros _. apply stops_bind; [unfold name_p; safe_go|].
        intros a. apply stops_quick; [apply stops_asterisk|intros x; exists (POk a []); reflexivity].
      - apply stars_right; [apply tails_lit|]. intros _. apply stars_right; [apply tails_lit|]. intros _. apply stars_right; [unfold name_p; tails_go|].
        intros a. apply stars_left, stars_asterisk. }
    assert (C : forall name, local (do ps <- many n (prim_p rd n); percent ;; ret (CAM name ps : cmd K T))).
    { intros name. apply (local_close (prim_p rd n) percent (fun ps => CAM name ps)); [apply local_prim|apply local_percent|].
      intros s b r E. destruct (prim_p rd n s) eqn:X; [|reflexivity|];
        (assert (Y : Lprim (keyof s) = true) by (apply (kd_prim n); rewrite X; discriminate);
         destruct (percent_cases s) as [(w & r' & Hw & -> & _)|Ep]; [|congruence]; unfold keyof in Y; rewrite (skip_ws w _ Hw) in Y; cbn in Y;
         destruct (skip r') as [|? [|]]; discriminate Y). }
    apply (local_ext (do name <- (percent ;; lit_p "AM" ;; do name <- name_p; asterisk ;; ret name); do ps <- many n (prim_p rd n); percent ;; ret (CAM name ps))).
    - intros s. unfold macro_p, pthen, pbind, ret. destruct (percent s) as [? s1| |]; [|reflexivity|reflexivity]. destruct (lit_p "AM" s1) as [? s2| |]; [|reflexivity|reflexivity].
      destruct (name_p s2) as [nm s3| |]; [|reflexivity|reflexivity]. destruct (asterisk s3) as [? s4| |]; reflexivity.
    - apply local_bind; [exact H|exact C].
  Qed.

  Lemma key_x L k : isX L k = true -> exists a b, k = KX a b.
  Proof. destruct k; try discriminate. eauto. Qed.
  Lemma keyed_kd {A} L (p : parser A) : kd L p -> keyed L p.
  Proof. intros H. right. exact H. Qed.
  Lemma keyed_single L (p : parser (cmd K T)) : keyed L p -> keyed L (single p).
  Proof.
    intros [H|H]; [left; intros s; unfold single, pbind; rewrite H; reflexivity|right]. intros s Hs. apply H. intros E. apply Hs. unfold single, pbind. rewrite E. reflexivity.
  Qed.
  Lemma keyed_block n m : keyed Lblock (@block_p K T rd n m).
  Proof. destruct m; [left; reflexivity|right; apply kd_block]. Qed.
  Lemma local_single (p : parser (cmd K T)) : local p -> local (single p).
  Proof. intros H. apply local_bind; [exact H|]. intros a. apply local_ret. Qed.
  Definition body_keys (n : nat) (block : parser (cmd K T)) : list ((key -> bool) * parser (list (cmd K T))) :=
    [ (Ld, single (d_codes true)); (Lg, g_codes); (Lload, single (load rd)); (Lprop, single (properties rd));
      (Lattr, single (attribute rd n)); (Ladds, single (add_aperture rd n)); (Lblock, single block);
      (Lmacro, single (macro_p rd n)); (Lm, single m_codes) ].
  Definition disjoint (x y : (key -> bool) * parser (list (cmd K T))) : Prop := forall k, fst x k = true -> fst y k = true -> False.
  Definition clash (k : key) (L M : key -> bool) : bool := L k && M k.
  Lemma isC_dis P Q : (forall c, P c && Q c = false) -> forall k, isC P k = true -> isC Q k = true -> False.
  Proof. intros H [|c|a b]; cbn; try discriminate. intros H1 H2. specialize (H c). rewrite H1, H2 in H. discriminate. Qed.
  Lemma isX_dis l1 l2 : forallb (fun x => forallb (fun y => negb (str_eqb (lit x) (lit y))) l2) l1 = true -> forall k, isX l1 k = true -> isX l2 k = true -> False.
  Proof.
    intros H [|c|a b]; cbn [isX]; try discriminate. intros H1 H2. apply existsb_exists in H1 as (x & X1 & X2). apply existsb_exists in H2 as (y & Y1 & Y2).
    rewrite forallb_forall in H. specialize (H x X1). rewrite forallb_forall in H. specialize (H y Y1).
    apply str_eqb_eq in X2. apply str_eqb_eq in Y2. rewrite X2, Y2 in H. rewrite (proj2 (str_eqb_eq _ _) eq_refl) in H. discriminate.
  Qed.
  Lemma isCX P l k : isC P k = true -> isX l k = true -> False.
  Proof. destruct k; discriminate. Qed.
  Lemma isXC P l k : isX l k = true -> isC P k = true -> False.
  Proof. destruct k; discriminate. Qed.
  Ltac dis :=
    cbn [fst];
    first [ apply isCX | apply isXC | apply isX_dis; reflexivity
          | apply isC_dis; intros c; destruct c as [[] [] [] [] [] [] [] []]; reflexivity ].
  Ltac pairs := repeat first [apply FOP_nil | apply FOP_cons; [repeat apply Forall_cons; try apply Forall_nil; dis|]].
  Lemma body_disjoint n block : ForallOrdPairs disjoint (body_keys n block).
  Proof. unfold body_keys, disjoint. pairs. Qed.
  Lemma local_body n block : local block -> keyed Lblock block -> local (body_item rd n block).
  Proof.
    intros H1 H2. apply (local_first_of (body_keys n block)); [|apply body_disjoint]. unfold body_keys.
    repeat apply Forall_cons; try apply Forall_nil; cbn [fst snd]; (split; [try apply local_single|try apply keyed_single]);
      auto using local_d, local_g, local_load, local_properties, local_attribute, local_adds, local_macro, local_m; try (apply keyed_kd);
      auto using kd_d, kd_g, kd_load, kd_properties, kd_attribute, kd_adds, kd_macro, kd_m.
  Qed.
  Lemma off_key {A} L (p : parser A) s : kd L p -> L (keyof s) = false -> p s = PFail.
  Proof. intros H E. destruct (p s) eqn:X; [|reflexivity|]; (exfalso; rewrite (H s) in E; [discriminate|rewrite X; discriminate]). Qed.
  Lemma single_fail (p : parser (cmd K T)) s : p s = PFail -> single p s = PFail.
  Proof. intros E. unfold single, pbind. rewrite E. reflexivity. Qed.
  (** The commands inside a block do not match the end of a block. *)
  Lemma body_off n block s : isX ["AB"; "SR"]%string (keyof s) = true -> block s = PFail -> body_item rd n block s = PFail.
  Proof.
    intros Hk Hb. assert (X : forall L, (forall k, isX ["AB"; "SR"]%string k = true -> L k = true -> False) -> L (keyof s) = false).
    { intros L H. destruct (L (keyof s)) eqn:E; [|reflexivity]. destruct (H _ Hk E). }
    unfold body_item. cbn [first_of].
    rewrite (single_fail (d_codes true) s) by (apply (off_key Ld _ _ (kd_d true)), X; dis).
    rewrite (off_key Lg g_codes s kd_g) by (apply X; dis).
    rewrite (single_fail (load rd) s) by (apply (off_key Lload _ _ kd_load), X; dis).
    rewrite (single_fail (properties rd) s) by (apply (off_key Lprop _ _ kd_properties), X; dis).
    rewrite (single_fail (attribute rd n) s) by (apply (off_key Lattr _ _ (kd_attribute n)), X; dis).
    rewrite (single_fail (add_aperture rd n) s) by (apply (off_key Ladds _ _ (kd_adds n)), X; dis).
    rewrite (single_fail block s Hb).
    rewrite (single_fail (macro_p rd n) s) by (apply (off_key Lmacro _ _ (kd_macro n)), X; dis).
    rewrite (single_fail m_codes s) by (apply (off_key Lm _ _ kd_m), X; dis). reflexivity.
  Qed.
  Lemma asterisk_id s a r : asterisk s = POk a r -> aperture_id_p s = PFail.
  Proof.
    unfold asterisk, aperture_id_p, lit_p, token. destruct (strip_prefix _ (skip s)) as [t|] eqn:E; [|discriminate]. intros _.
    apply strip_prefix_some in E. rewrite E. reflexivity.
  Qed.
  Lemma ab_close n m s a r : extended (lit_p "AB") s = POk a r -> block_p rd n (S m) s = PFail.
  Proof.
    cbn [block_p]. unfold extended, pthen, pbind. destruct (percent s) as [x s1| |]; try discriminate. destruct (lit_p "AB" s1) as [y s2| |]; try discriminate.
    destruct (asterisk s2) as [z s3| |] eqn:E; try discriminate. intros _. rewrite (asterisk_id _ _ _ E). reflexivity.
  Qed.
  Lemma local_ext_ab : local (extended (lit_p "AB")). Proof. apply local_stopsx; [sx_go|stars_go]. Qed.
  Lemma local_ext_sr : local (extended (lit_p "SR")). Proof. apply local_stopsx; [sx_go|stars_go]. Qed.
  Lemma key_ab s a r : extended (lit_p "AB") s = POk a r -> isX ["AB"; "SR"]%string (keyof s) = true.
  Proof. intros E. assert (H : Lblock (keyof s) = true) by (apply kd_close_ab; rewrite E; discriminate). unfold Lblock in H. destruct (keyof s); try discriminate. cbn in *. rewrite Bool.orb_false_r in H. rewrite H. reflexivity. Qed.
  Lemma key_sr s a r : extended (lit_p "SR") s = POk a r -> isX ["AB"; "SR"]%string (keyof s) = true.
  Proof. intros E. assert (H : Lsr (keyof s) = true) by (apply kd_close_sr; rewrite E; discriminate). unfold Lsr in H. destruct (keyof s); try discriminate. cbn in *. rewrite Bool.orb_false_r in H. rewrite H. apply Bool.orb_true_r. Qed.
  Lemma local_block n m : local (@block_p K T rd n m).
  Proof.
    induction m as [|m IH]; [intros s a r; discriminate|]. intros s a r. cbn [block_p]. revert s a r.
    match goal with |- forall s a r, ?p s = POk a r -> _ => change (local p) end. apply local_bind.
    - apply local_stopsx; unfold aperture_id_p; [sx_go|stars_go].
    - intros id. destruct m as [|m].
      + (* no fuel for another block *)
        intros s a r. unfold pthen, pbind. destruct (many n (body_item rd n (block_p rd n 0)) s) as [l s1| |] eqn:E; try discriminate. exfalso.
        clear -E. revert s l s1 E. induction n as [|n0 IH] at 1; intros s l s1 E; [discriminate|]. cbn [many] in E.
        destruct (body_item rd n (block_p rd n 0) s) as [c q| |] eqn:Eb; try discriminate.
        * destruct (many n0 _ q) eqn:Em; try discriminate. eapply IH, Em.
        * clear -Eb. unfold body_item in Eb. cbn [first_of] in Eb. 
          repeat match type of Eb with context[match ?x with _ => _ end] => destruct x eqn:?; try discriminate end.
      + apply (local_close (body_item rd n (block_p rd n (S m))) (extended (lit_p "AB")) (fun b => CAB id (concat b))).
        * apply local_body; [exact IH|apply keyed_block].
        * apply local_ext_ab.
        * intros s b r E. apply body_off; [eapply key_ab, E|eapply ab_close, E].
  Qed.
  Lemma local_sr n m : local (@sr_p K T rd n m).
  Proof.
    apply local_bind.
    - unfold sr_open_p. apply local_stopsx; unfy; [sx_go|stars_go].
    - intros h. destruct m as [|m].
      + intros s a r. unfold pthen, pbind. destruct (many n (body_item rd n (block_p rd n 0)) s) as [l s1| |] eqn:E; try discriminate. exfalso.
        clear -E. revert s l s1 E. induction n as [|n0 IH] at 1; intros s l s1 E; [discriminate|]. cbn [many] in E.
        destruct (body_item rd n (block_p rd n 0) s) as [c q| |] eqn:Eb; try discriminate.
        * destruct (many n0 _ q) eqn:Em; try discriminate. eapply IH, Em.
        * clear -Eb. unfold body_item in Eb. cbn [first_of] in Eb. 
          repeat match type of Eb with context[match ?x with _ => _ end] => destruct x eqn:?; try discriminate end.
      + apply (local_close (body_item rd n (block_p rd n (S m))) (extended (lit_p "SR")) (fun b => CSR h (concat b))).
        * apply local_body; [apply local_block|apply keyed_block].
        * apply local_ext_sr.
        * intros s b r E. apply body_off; [eapply key_sr, E|]. apply (off_key Lblock _ _ (kd_block n m)).
          destruct (Lblock (keyof s)) eqn:X; [|reflexivity]. exfalso. assert (Y : Lsr (keyof s) = true) by (apply kd_close_sr; rewrite E; discriminate).
          revert Y X. unfold Lsr, Lblock. apply isX_dis. reflexivity.
  Qed.
  Definition aperture_keys (n : nat) : list ((key -> bool) * parser (cmd K T)) :=
    [ (Lblock, block_p rd n n); (Lmacro, macro_p rd n); (Lsr, sr_p rd n n); (Ladds, add_aperture rd n) ].
  Lemma local_aperture n : local (first_of [block_p rd n n; macro_p rd n; sr_p rd n n; add_aperture rd n]).
  Proof.
    apply (local_first_of (aperture_keys n)).
    - unfold aperture_keys. repeat apply Forall_cons; try apply Forall_nil; cbn [fst snd]; split;
        auto using local_block, local_macro, local_sr, local_adds, keyed_block; apply keyed_kd; auto using kd_macro, kd_sr, kd_adds.
    - unfold aperture_keys. pairs.
  Qed.
  Definition Laper := isX ["AB"; "AM"; "SR"; "AD"]%string.
  Lemma keyed_aperture n : keyed Laper (first_of [block_p rd (S n) (S n); macro_p rd (S n); sr_p rd (S n) (S n); add_aperture rd (S n)]).
  Proof.
    right. apply kd_first_of. assert (W : forall {A} L (p : parser A), (forall k, L k = true -> Laper k = true) -> kd L p -> kd Laper p) by (intros A L p H H' s Hs; auto).
    repeat apply Forall_cons; try apply Forall_nil; [eapply W; [|apply kd_block]|eapply W; [|apply kd_macro]|eapply W; [|apply kd_sr]|eapply W; [|apply kd_adds]];
      intros [|c|a b]; try discriminate; cbn [Lblock Lmacro Lsr Ladds Laper isX existsb]; rewrite ?Bool.orb_false_r; intros ->; rewrite ?Bool.orb_true_r; reflexivity.
  Qed.
  Definition root_keys (n : nat) : list ((key -> bool) * parser (list (cmd K T))) :=
    [ (Ld, single (d_codes true)); (Lg, g_codes); (Lload, single (load rd));
      (Laper, single (first_of [block_p rd n n; macro_p rd n; sr_p rd n n; add_aperture rd n]));
      (Lattr, single (attribute rd n)); (Lprop, single (properties rd)); (Lm, single m_codes) ].
  Lemma local_root n : local (root_item rd (S n)).
  Proof.
    apply (local_first_of (root_keys (S n))).
    - unfold root_keys. repeat apply Forall_cons; try apply Forall_nil; cbn [fst snd]; (split; [try apply local_single|try apply keyed_single]);
        auto using local_d, local_g, local_load, local_properties, local_attribute, local_aperture, local_m, keyed_aperture; apply keyed_kd;
        auto using kd_d, kd_g, kd_load, kd_properties, kd_attribute, kd_m.
    - unfold root_keys. pairs.
  Qed.
  Lemma root_nil n s : skip s = [] -> root_item rd (S n) s = PFail.
  Proof.
    intros E. assert (Hk : keyof s = KN) by (unfold keyof; rewrite E; reflexivity).
    assert (X : forall A L (p : parser A), keyed L p -> L KN = false -> p s = PFail \/ forall t, p t = PErr EFuel).
    { intros A L p [H|H] HN; [auto|]. left. destruct (p s) eqn:Ep; [|reflexivity|]; (exfalso; specialize (H s); rewrite Ep, Hk, HN in H; assert (false = true) by (apply H; discriminate); discriminate). }
    unfold root_item. cbn [first_of].
    rewrite (single_fail (d_codes true) s) by (apply (off_key Ld _ _ (kd_d true)); rewrite Hk; reflexivity).
    rewrite (off_key Lg g_codes s kd_g) by (rewrite Hk; reflexivity).
    rewrite (single_fail (load rd) s) by (apply (off_key Lload _ _ kd_load); rewrite Hk; reflexivity).
    unfold single at 1, pbind at 1. cbn [first_of].
    rewrite (off_key Lblock _ s (kd_block (S n) n)) by (rewrite Hk; reflexivity).
    rewrite (off_key Lmacro _ s (kd_macro (S n))) by (rewrite Hk; reflexivity).
    rewrite (off_key Lsr _ s (kd_sr (S n) (S n))) by (rewrite Hk; reflexivity).
    rewrite (off_key Ladds _ s (kd_adds (S n))) by (rewrite Hk; reflexivity).
    rewrite (single_fail (attribute rd (S n)) s) by (apply (off_key Lattr _ _ (kd_attribute (S n))); rewrite Hk; reflexivity).
    rewrite (single_fail (properties rd) s) by (apply (off_key Lprop _ _ kd_properties); rewrite Hk; reflexivity).
    rewrite (single_fail m_codes s) by (apply (off_key Lm _ _ kd_m); rewrite Hk; reflexivity). reflexivity.
  Qed.
End Grammar.

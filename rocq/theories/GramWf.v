(** What the parser yields: commands whose texts are those of the tokens.  In passing: the parser
    never runs out of fuel. *)
From Verif Require Import Base Num CoordModel Ast GramAst PegModel GramModel GramText GramExpr GramTok.
Local Open Scope nat_scope.

Definition opt_ok {A} (P : A -> Prop) (o : option A) : Prop := match o with Some a => P a | None => True end.
Definition var_text (v : str) : Prop := exists d, v = "$"%char :: d /\ digits1 d.
Definition pair_ok {A} (P : A -> Prop) (p : A * A) : Prop := P (fst p) /\ P (snd p).

Section Wf.
  Context {K T : Type} (rd : reader K T).
  Definition num_ok (k : K) : Prop := exists t, double_text t /\ k = r_num rd t.
  Definition float_ok (k : K) : Prop := exists t, field_text t /\ r_float rd t = Some k.
  Definition date_ok (d : T) : Prop := exists t, field_text t /\ r_date rd t = Some d.
  Notation ex := (shape (const_ok rd) 6).

  Definition wf_prim (p : prim K) : Prop :=
    match p with
    | PAssign v e => var_text v /\ ex e
    | PCode0 s => raw_text s
    | PCode1 a b c d r => Forall ex [a; b; c; d] /\ opt_ok ex r
    | PCode2 a b c d e f g => Forall ex [a; b; c; d; e; f; g]
    | PCode4 a b c d pts r => Forall ex [a; b; c; d] /\ pts <> [] /\ Forall (pair_ok ex) pts /\ ex r
    | PCode5 a b c d e f => Forall ex [a; b; c; d; e; f]
    | PCode6 a b c d e f g h i => Forall ex [a; b; c; d; e; f; g; h; i]
    | PCode7 u a b c d e f => u = 0%Z /\ Forall ex [a; b; c; d; e; f]
    | PCode20 a b c d e f g => Forall ex [a; b; c; d; e; f; g]
    | PCode21 a b c d e f => Forall ex [a; b; c; d; e; f]
    | PCode22 a b c d e f => Forall ex [a; b; c; d; e; f]
    end.
  Definition wf_template (t : template K) : Prop :=
    match t with
    | TCircle d h => num_ok d /\ opt_ok num_ok h
    | TRect x y h | TObround x y h => num_ok x /\ num_ok y /\ opt_ok num_ok h
    | TPolygon d v r h => num_ok d /\ opt_ok num_ok r /\ opt_ok num_ok h /\ (r = None -> h = None)
    | TMacro n ps => name_text n /\ opt_ok (fun l => l <> [] /\ Forall num_ok l) ps
    end.
  Definition no_function (l : list str) : Prop :=
    match l with [] => True | x :: _ => first_prefix (map lit aper_functions) x = None end.
  Definition wf_ta (a : ta K) : Prop :=
    match a with
    | TAUser u f => user_text u /\ Forall field_text f
    | TAAperFunction g f =>
        match g with Some g => In g (map lit aper_functions) | None => no_function f end /\
        Forall field_text f
    | TADrillTolerance p m => opt_ok num_ok p /\ opt_ok num_ok m /\ (p = None -> m = None)
    | TAFlashText s mode mir font size c =>
        field_text s /\ In mode (map lit ["B"; "C"]%string) /\ In mir (map lit ["R"; "M"]%string) /\
        (exists x, font = Some x /\ field_text x) /\ (exists x, size = Some x /\ field_text x) /\
        Forall field_text c
    end.
  Definition wf_tf (a : tf T) : Prop :=
    match a with
    | TFUser u f => user_text u /\ Forall field_text f
    | TFPart p f => field_text p /\ member GramModel.parts p = Some p /\ Forall field_text f
    | TFFileFunction p f => field_text p /\ member file_functions p = Some p /\ Forall field_text f
    | TFFilePolarity p => field_text p /\ member polarities p = Some p
    | TFSameCoordinates i => opt_ok field_text i
    | TFCreationDate d => date_ok d
    | TFGenerationSoftware a b c | TFProjectId a b c =>
        opt_ok field_text a /\ opt_ok field_text b /\ opt_ok field_text c
    | TFMD5 m => field_text m /\ md5_text m = Some m
    end.
  Definition wf_to (a : to K) : Prop :=
    match a with
    | TOUser u f => user_text u /\ Forall field_text f
    | TON f => Forall field_text f
    | TOP r n f => field_text r /\ field_text n /\ opt_ok field_text f
    | TOC s | TOText _ s => field_text s
    | TOCRot k | TOCHgt k => float_ok k
    | TOCMnt m => field_text m /\ member mounts m = Some m
    | TOCSup s p f => field_text s /\ field_text p /\ Forall field_text f
    end.
  (** D codes with a given [is_standalone]. *)
  Definition wf_d (sa : bool) (c : cmd K T) : Prop :=
    match c with
    | CD01 b x y i j => b = sa /\ opt_ok integer_text x /\ opt_ok integer_text y /\
                        opt_ok integer_text i /\ opt_ok integer_text j
    | CD02 b x y | CD03 b x y => b = sa /\ opt_ok integer_text x /\ opt_ok integer_text y
    | CDnn b id => b = sa /\ id_text id
    | _ => False
    end.
  Definition wf_sr (h : sropen) : Prop :=
    opt_ok double_text (sr_x h) /\ opt_ok double_text (sr_y h) /\
    opt_ok double_text (sr_i h) /\ opt_ok double_text (sr_j h).
  (** Commands without a body. *)
  Definition wf_leaf (c : cmd K T) : Prop :=
    match c with
    | CAB _ _ | CSR _ _ => False
    | CAD a => id_text (ad_id a) /\ wf_template (ad_template a)
    | CAM n ps => name_text n /\ Forall wf_prim ps
    | CTA a => wf_ta a | CTF a => wf_tf a | CTO a => wf_to a
    | CTD s => opt_ok raw_text s
    | CD01 _ _ _ _ _ | CD02 _ _ _ | CD03 _ _ _ | CDnn _ _ => wf_d true c
    | CG sa _ => sa = true
    | CG04 s => opt_ok raw_text s
    | CLN s | CIN s => raw_text s
    | CLR k | CLS k => num_ok k
    | CFS f => fs_xi f < 10 /\ fs_xd f < 10 /\ fs_yi f < 10 /\ fs_yd f < 10
    | CMI a b => (a = 0 \/ a = 1)%Z /\ (b = 0 \/ b = 1)%Z
    | COF a b => opt_ok num_ok a /\ opt_ok num_ok b
    | CSF a b => num_ok a /\ num_ok b
    | CIR z => exists t, double_text t /\ int_of_text t = Some z
    | CLM _ | CLP _ | CM00 | CM01 | CM02 | CAS _ | CIP _ | CMO _ => True
    end.
  (** What one round of the main loop yields: a command, or a G code with the D code glued to it.
      Blocks nest at most [m] deep. *)
  Fixpoint item (m : nat) (l : list (cmd K T)) : Prop :=
    (exists c, l = [c] /\ wf_leaf c) \/
    (exists g d, l = [CG false g; d] /\ wf_d false d) \/
    match m with
    | O => False
    | S m => exists id b, l = [CAB id (concat b)] /\ id_text id /\ Forall (item m) b
    end.
  Definition root (m : nat) (l : list (cmd K T)) : Prop :=
    item m l \/ exists h b, l = [CSR h (concat b)] /\ wf_sr h /\ Forall (item m) b.

  (** ** The parser stays within *)
  Lemma yields_weak {A} n (p : parser A) Q : yields n true p Q -> yields n false p Q.
  Proof. intros H. eapply yields_weaken; eauto. Qed.
  Lemma yields_bind_f {A B} n (p : parser A) (f : A -> parser B) Q1 Q2 :
    yields n false p Q1 -> (forall a, Q1 a -> yields n false (f a) Q2) -> yields n false (pbind p f) Q2.
  Proof. apply (yields_bind n false false). Qed.
  Lemma yields_bind_t {A B} n (p : parser A) (f : A -> parser B) Q1 Q2 :
    yields n true p Q1 -> (forall a, Q1 a -> yields n false (f a) Q2) -> yields n true (pbind p f) Q2.
  Proof. apply (yields_bind n true false). Qed.
  Lemma yields_then_f {A B} n (p : parser A) (q : parser B) Q1 Q2 :
    yields n false p Q1 -> yields n false q Q2 -> yields n false (p ;; q) Q2.
  Proof. apply (yields_then n false false). Qed.
  Lemma yields_then_t {A B} n (p : parser A) (q : parser B) Q1 Q2 :
    yields n true p Q1 -> yields n false q Q2 -> yields n true (p ;; q) Q2.
  Proof. apply (yields_then n true false). Qed.
  Lemma yields_command {A} n (p : parser A) Q : yields n false p Q -> yields n true (command p) Q.
  Proof.
    intros H. eapply (yields_bind n false true); [exact H|]. intros a Ha.
    eapply yields_then_t; [apply yields_lit|]. apply yields_ret. exact Ha.
  Qed.
  Lemma yields_extended {A} n (p : parser A) Q : yields n false p Q -> yields n true (extended p) Q.
  Proof.
    intros H. eapply yields_then_t; [apply yields_lit|]. eapply yields_bind_f; [exact H|]. intros a Ha.
    eapply yields_then_f; [apply yields_weak, yields_lit|].
    eapply yields_then_f; [apply yields_weak, yields_lit|]. apply yields_ret. exact Ha.
  Qed.
  Lemma yields_valid {A} n (o : option A) : yields n false (validate o) (fun a => o = Some a).
  Proof. apply yields_validate. auto. Qed.
  Lemma yields_num_p n : yields n true (num_p rd) num_ok.
  Proof.
    eapply yields_bind_t; [apply yields_num|]. intros t Ht. apply yields_ret. exists t. auto.
  Qed.
  Lemma yields_arg n : yields n true (arg rd n) ex.
  Proof.
    eapply yields_then_t; [apply yields_lit|]. apply yields_weak, yields_expr.
  Qed.
  Lemma yields_opt_f {A} n b (p : parser A) Q : yields n b p Q -> yields n false (opt p) (opt_ok Q).
  Proof. apply yields_opt. Qed.
  Lemma yields_opt_raw_f {A} n b (p : parser A) Q : yields n b p Q -> yields n false (opt_raw p) (opt_ok Q).
  Proof. apply yields_opt_raw. Qed.
  Lemma yields_coord n l c : l = String c "" -> yields n true (coord l) integer_text.
  Proof. intros ->. eapply yields_then_t; [apply yields_caseless|]. apply yields_weak, yields_integer. Qed.
  Lemma yields_x_num n : yields n true (x_num rd) num_ok.
  Proof. eapply yields_then_t; [apply yields_lit|]. apply yields_weak, yields_num_p. Qed.

  Ltac not_empty := unfold aper_functions; cbn [In]; intuition discriminate.
  Ltac ytok := first
    [ apply yields_lit | apply yields_caseless | apply yields_num | apply yields_num_p | apply yields_arg
    | apply yields_x_num | apply yields_expr | apply yields_string | apply yields_id | apply yields_name
    | apply yields_user | apply yields_integer | apply yields_code | apply yields_code_zero
    | apply yields_digit | apply yields_re_variable | apply yields_one_field
    | apply (yields_coord _ _ _ eq_refl) | (apply yields_one_of; not_empty) ].
  Ltac ystep := match goal with
    | |- yields _ false (ret _) _ => apply yields_ret
    | |- yields _ true (command _) _ => apply yields_command
    | |- yields _ true (extended _) _ => apply yields_extended
    | |- yields _ true (pthen _ _) _ => eapply yields_then_t
    | |- yields _ true (pbind _ _) _ => eapply yields_bind_t; [|intros ? ?]
    | |- yields _ false (pthen _ _) _ => eapply yields_then_f
    | |- yields _ false (pbind _ _) _ => eapply yields_bind_f; [|intros ? ?]
    | |- yields _ false (opt _) _ => eapply (yields_opt_f _ true)
    | |- yields _ false (opt_raw _) _ => eapply (yields_opt_raw_f _ true)
    | |- yields _ false (validate _) _ => apply yields_valid
    | |- yields _ false (fields _) _ => apply yields_fields
    | |- yields _ false (many _ _) _ => apply yields_many
    | |- yields _ _ (many1 _ _) _ => first [apply yields_many1 | apply yields_weak, yields_many1]
    | |- yields _ true _ _ => ytok
    | |- yields _ false _ _ => apply yields_weak; first [ytok | apply yields_extended]
    end.
  Ltac ygo := repeat ystep.

  Lemma yields_prim n : yields n true (prim_p rd n) wf_prim.
  Proof.
    apply yields_first_of. repeat apply Forall_cons; try apply Forall_nil.
    - unfold assignment_p. ygo. split; auto.
    - unfold primitive. ygo. assumption.
    - unfold primitive. ygo. split; [repeat constructor; assumption|assumption].
    - unfold primitive. ygo. repeat constructor; assumption.
    - unfold primitive. apply yields_command. eapply yields_then_f; [ygo|].
      do 4 (eapply yields_bind_f; [ygo|intros ? ?]).
      eapply yields_bind_f; [apply yields_weak, (yields_many1 _ _ (pair_ok ex)); ygo; split; assumption|].
      intros pts [Hp Hq]. ygo. repeat split; auto; repeat constructor; assumption.
    - unfold primitive. ygo. repeat constructor; assumption.
    - unfold primitive. ygo. repeat constructor; assumption.
    - unfold primitive. ygo. split; [reflexivity|repeat constructor; assumption].
    - unfold primitive. ygo. repeat constructor; assumption.
    - unfold primitive. ygo. repeat constructor; assumption.
    - unfold primitive. ygo. repeat constructor; assumption.
  Qed.

  Lemma yields_macro n : yields n true (macro_p rd n) wf_leaf.
  Proof. unfold macro_p. ygo; [apply yields_prim|]. ygo. split; assumption. Qed.

  (** Where an option did not match, it does not match either. *)
  Lemma yields_opt_opt {A B} n (p : parser A) (f : option A -> option A -> parser B) Q Q2 :
    yields n true p Q ->
    (forall a b, opt_ok Q a -> opt_ok Q b -> (a = None -> b = None) -> yields n false (f a b) Q2) ->
    yields n false (do a <- opt p; do b <- opt p; f a b) Q2.
  Proof.
    intros Hp Hf s Hs Ht. pose proof (yields_opt_f n true p Q Hp s Hs Ht) as H1. unfold pbind at 1.
    destruct (opt p s) as [a r| |e] eqn:E1; [|exact I|exact H1]. destruct H1 as (Ha & Hr & Hl).
    assert (Hl' : length r < n) by (cbn in Hl; lia).
    pose proof (yields_opt_f n true p Q Hp r Hl' Hr) as H2. unfold pbind at 1.
    destruct (opt p r) as [b r2| |e] eqn:E2; [|exact I|exact H2]. destruct H2 as (Hb & Hr2 & Hl2).
    assert (Hn : a = None -> b = None).
    { intros ->. unfold opt in E1, E2. destruct (p (skip s)) eqn:E; [discriminate| |discriminate].
      injection E1 as <-. rewrite skip_skip, E in E2. congruence. }
    assert (Hl3 : length r2 < n) by (cbn in Hl2; lia).
    pose proof (Hf a b Ha Hb Hn r2 Hl3 Hr2) as H3.
    destruct (f a b r2) as [c r3| |e]; [|exact I|exact H3]. destruct H3 as (H3 & H4 & H5).
    split; [exact H3|]. split; [exact H4|]. cbn in *. lia.
  Qed.
  Lemma yields_adds n : yields n true (add_aperture rd n) wf_leaf.
  Proof.
    apply yields_first_of. repeat apply Forall_cons; try apply Forall_nil.
    - unfold adc_p. ygo. cbn. auto.
    - unfold adr_p. ygo. cbn. auto.
    - unfold adr_p. ygo. cbn. auto.
    - unfold adp_p. eapply (yields_bind_t _ _ _ (fun x => let '(id, d, v, r, h) := x in
        id_text id /\ num_ok d /\ double_text v /\ opt_ok num_ok r /\ opt_ok num_ok h /\ (r = None -> h = None))).
      + apply yields_extended. eapply yields_then_f; [ygo|]. eapply yields_bind_f; [ygo|intros id Hid].
        eapply yields_then_f; [ygo|]. eapply yields_bind_f; [ygo|intros d Hd].
        eapply yields_then_f; [ygo|]. eapply yields_bind_f; [ygo|intros v Hv].
        eapply yields_opt_opt; [ygo|]. intros r h Hr Hh Hn. ygo. auto 10.
      + intros ((((id & d) & v) & r) & h) H. ygo. cbn. intuition.
    - unfold admacro_p. apply yields_extended. eapply yields_then_f; [ygo|].
      eapply yields_bind_f; [ygo|intros id Hid]. eapply yields_bind_f; [ygo|intros m Hm].
      eapply yields_bind_f; [apply (yields_opt_f _ true _ (fun l => l <> [] /\ Forall num_ok l))|].
      + ygo. split; [discriminate|auto].
      + intros ps Hps. ygo. cbn. auto.
  Qed.

  (** An aperture function that is absent is not the beginning of the first field. *)
  Lemma strip_prefix_more l s t r : strip_prefix l s = Some r -> strip_prefix l (s ++ t) = Some (r ++ t).
  Proof.
    intros H. apply strip_prefix_some in H as ->. rewrite <- app_assoc. apply strip_prefix_app.
  Qed.
  Lemma first_prefix_less ls s t : first_prefix ls (s ++ t) = None -> first_prefix ls s = None.
  Proof.
    induction ls as [|l ls IH]; [reflexivity|]. cbn. destruct (strip_prefix l s) eqn:E.
    - rewrite (strip_prefix_more _ _ t _ E). discriminate.
    - destruct (strip_prefix l (s ++ t)); [discriminate|exact IH].
  Qed.
  Lemma fields_no_function n s f r :
    (comma ;; one_of aper_functions) s = PFail -> skip s = s -> fields n s = POk f r -> no_function f.
  Proof.
    intros H1 Hs H2. destruct n as [|n]; [discriminate|]. cbn [fields many] in H2. unfold fields in H2.
    cbn [many] in H2. unfold pthen, pbind in H1, H2. destruct (comma s) as [[] s1| |e]; [| |discriminate].
    2: { injection H2 as <- <-. exact I. }
    unfold one_of, token in H1. destruct (first_prefix (map lit aper_functions) (skip s1)) as [[a b]|] eqn:E; [discriminate|].
    unfold field_p, token, re_field in H2. pose proof (span_spec field_char (skip s1)) as (_ & H3 & _).
    destruct (span field_char (skip s1)) as [t s2]. cbn in H3. rewrite H3 in E. apply first_prefix_less in E.
    cbn iota beta in H2. destruct (many n _ s2); try discriminate. injection H2 as <- <-. exact E.
  Qed.
  Lemma yields_opt_function {B} n (f : option str -> list str -> parser B) Q2 :
    (forall g l, match g with Some g => In g (map lit aper_functions) | None => no_function l end ->
                 Forall field_text l -> yields n false (f g l) Q2) ->
    yields n false (do g <- opt (comma ;; one_of aper_functions); do l <- fields n; f g l) Q2.
  Proof.
    intros Hf s Hs Ht.
    assert (Hp : yields n true (comma ;; one_of aper_functions) (fun g => In g (map lit aper_functions))) by ygo.
    pose proof (yields_opt_f n true _ _ Hp s Hs Ht) as H1. unfold pbind at 1.
    destruct (opt _ s) as [a r| |e] eqn:E1; [|exact I|exact H1]. destruct H1 as (Ha & Hr & Hl).
    assert (Hl' : length r < n) by (cbn in Hl; lia).
    pose proof (yields_fields n r Hl' Hr) as H2. unfold pbind at 1.
    destruct (fields n r) as [b r2| |e] eqn:E2; [|exact I|exact H2]. destruct H2 as (Hb & Hr2 & Hl2).
    assert (Hn : match a with Some g => In g (map lit aper_functions) | None => no_function b end).
    { destruct a as [a|]; [exact Ha|]. unfold opt in E1. destruct ((comma ;; one_of aper_functions) (skip s)) eqn:E; [discriminate| |discriminate].
      injection E1 as <-. exact (fields_no_function n _ _ _ E (skip_skip s) E2). }
    assert (Hl3 : length r2 < n) by (cbn in Hl2; lia).
    pose proof (Hf a b Hn Hb r2 Hl3 Hr2) as H3.
    destruct (f a b r2) as [c r3| |e]; [|exact I|exact H3]. destruct H3 as (H3 & H4 & H5).
    split; [exact H3|]. split; [exact H4|]. cbn in *. lia.
  Qed.

  Ltac one_alternative := apply yields_first_of; repeat apply Forall_cons; try apply Forall_nil.
  Lemma yields_ta n : yields n true (ta_p rd n) wf_leaf.
  Proof.
    eapply (yields_bind_t _ _ _ wf_ta); [|intros a Ha; apply yields_ret; exact Ha]. one_alternative.
    - unfold ta_user_p. ygo. cbn. auto.
    - unfold ta_aper_function_p. apply yields_extended. do 2 (eapply yields_then_f; [ygo|]).
      apply yields_opt_function. intros g l Hg Hl. apply yields_ret. split; assumption.
    - unfold ta_drill_tolerance_p. apply yields_extended. do 2 (eapply yields_then_f; [ygo|]).
      eapply yields_bind_f; [apply (yields_opt_f _ true _ (fun x => num_ok (fst x) /\ opt_ok num_ok (snd x)))|].
      + ygo. split; assumption.
      + intros [[p m]|] H; apply yields_ret; cbn in *; intuition. discriminate.
    - unfold ta_flash_text_p. ygo. cbn [wf_ta]. split; [assumption|]. split; [assumption|]. split; [|split; [eauto|split; [eauto|assumption]]].
      match goal with |- In match ?m with _ => _ end _ => destruct m; [assumption|left; reflexivity] end.
  Qed.
  Lemma member_same ls s t : member ls s = Some t -> t = s.
  Proof. unfold member. destruct (existsb _ ls); congruence. Qed.
  Lemma md5_same s t : md5_text s = Some t -> t = s.
  Proof. unfold md5_text. destruct (Nat.eqb _ 32); congruence. Qed.
  Lemma yields_three n tag c mk : tag = String c "" \/ (exists l, tag = String c l) ->
    (forall a b d, opt_ok field_text a -> opt_ok field_text b -> opt_ok field_text d -> wf_tf (mk a b d)) ->
    yields n true (tf_three_p tag mk) wf_tf.
  Proof.
    intros Htag Hmk. assert (exists l, tag = String c l) as [l ->] by (destruct Htag; eauto). clear Htag.
    unfold tf_three_p. apply yields_extended. do 2 (eapply yields_then_f; [ygo|]).
    eapply yields_bind_f.
    - apply (yields_opt_f _ true _ (fun x => field_text (fst x) /\
        opt_ok (fun y => field_text (fst y) /\ opt_ok field_text (snd y)) (snd x))).
      eapply yields_bind_t; [ygo|intros a Ha]. eapply yields_bind_f.
      + apply (yields_opt_f _ true _ (fun y => field_text (fst y) /\ opt_ok field_text (snd y))).
        ygo. split; assumption.
      + intros y Hy. ygo. split; assumption.
    - intros [[a [[b d]|]]|] H; apply yields_ret; cbn in H; apply Hmk; cbn; intuition.
  Qed.
  Lemma yields_tf n : yields n true (tf_p rd n) wf_leaf.
  Proof.
    eapply (yields_bind_t _ _ _ wf_tf); [|intros a Ha; apply yields_ret; exact Ha]. one_alternative.
    - unfold tf_user_p. ygo. cbn. auto.
    - unfold tf_enum_p. eapply (yields_bind_t _ _ _ (fun x => field_text (fst x) /\ Forall field_text (snd x))).
      + ygo. split; assumption.
      + intros x [H1 H2]. ygo. cbn [wf_tf]. pose proof (member_same _ _ _ H) as ->. auto.
    - unfold tf_enum_p. eapply (yields_bind_t _ _ _ (fun x => field_text (fst x) /\ Forall field_text (snd x))).
      + ygo. split; assumption.
      + intros x [H1 H2]. ygo. cbn [wf_tf]. pose proof (member_same _ _ _ H) as ->. auto.
    - unfold tf_one_p. ygo. cbn [wf_tf]. pose proof (member_same _ _ _ H0) as ->. auto.
    - unfold tf_same_p. ygo. assumption.
    - unfold tf_one_p. ygo. eexists. eauto.
    - apply (yields_three n _ "." _); [eauto|]. cbn. auto.
    - apply (yields_three n _ "." _); [eauto|]. cbn. auto.
    - unfold tf_one_p. ygo. cbn [wf_tf]. pose proof (md5_same _ _ H0) as ->. auto.
  Qed.
  Lemma yields_to n : yields n true (to_p rd n) wf_leaf.
  Proof.
    eapply (yields_bind_t _ _ _ (@wf_to)); [|intros a Ha; apply yields_ret; exact Ha]. one_alternative.
    - unfold to_user_p. ygo. cbn. auto.
    - unfold to_n_p. ygo. cbn. auto.
    - unfold to_p_p. ygo. cbn. auto.
    - unfold to_one_p. ygo. cbn. congruence.
    - unfold to_one_p. ygo. eexists. eauto.
    - unfold to_one_p. ygo. cbn. congruence.
    - unfold to_one_p. ygo. cbn. congruence.
    - unfold to_one_p. ygo. cbn. congruence.
    - unfold to_one_p. ygo. cbn [wf_to]. pose proof (member_same _ _ _ H0) as ->. auto.
    - unfold to_one_p. ygo. cbn. congruence.
    - unfold to_one_p. ygo. cbn. congruence.
    - unfold to_one_p. ygo. cbn. congruence.
    - unfold to_one_p. ygo. eexists. eauto.
    - unfold to_one_p. ygo. cbn. congruence.
    - unfold to_one_p. ygo. cbn. congruence.
    - unfold to_csup_p. ygo. cbn. auto.
  Qed.
  Lemma yields_attribute n : yields n true (attribute rd n) wf_leaf.
  Proof.
    one_alternative; [apply yields_ta| |apply yields_tf|apply yields_to].
    unfold td_p. ygo. assumption.
  Qed.
  Lemma yields_d n sa : yields n true (d_codes sa) (wf_d sa).
  Proof.
    one_alternative.
    - unfold dnn_p. ygo. cbn. auto.
    - unfold d01_p. ygo. cbn. auto.
    - unfold d02_p. ygo. cbn. auto.
    - unfold d03_p. ygo. cbn. auto.
  Qed.
  Lemma wf_d_leaf c : wf_d true c -> wf_leaf c.
  Proof. destruct c; cbn; tauto. Qed.
  Definition g_item (l : list (cmd K T)) : Prop :=
    (exists c, l = [c] /\ wf_leaf c) \/ exists g d, l = [CG false g; d] /\ wf_d false d.
  Lemma yields_g n : yields n true g_codes g_item.
  Proof.
    apply yields_first_of. apply Forall_cons; [|apply Forall_app; split].
    - unfold g04_p. ygo. left. eexists. split; [reflexivity|]. assumption.
    - apply Forall_map, Forall_forall. intros g _. unfold g_standalone. ygo. left. eexists.
      split; reflexivity.
    - apply Forall_map, Forall_forall. intros g _. unfold g_non_standalone.
      eapply yields_then_t; [ygo|]. eapply yields_then_f.
      { eapply yields_followed_by. apply yields_one_of. not_empty. }
      eapply yields_bind_f; [apply yields_weak, yields_d|]. intros d Hd. apply yields_ret. right. eauto.
  Qed.
  Lemma yields_load n : yields n true (load rd) wf_leaf.
  Proof. one_alternative; ygo; cbn; auto. Qed.
  Lemma yields_m n : yields n true m_codes wf_leaf.
  Proof. one_alternative; ygo; exact I. Qed.
  Lemma digit_below c : is_digit c = true -> digit_nat c < 10.
  Proof. intros H. apply Nat.ltb_lt. revert H. by_char c. Qed.
  Lemma flag_bit o : (flag o = 0 \/ flag o = 1)%Z.
  Proof. destruct o as [s|]; cbn; [destruct (str_eqb s _)|]; auto. Qed.
  Lemma yields_properties n : yields n true (properties rd) wf_leaf.
  Proof.
    one_alternative.
    - unfold fs_p. eapply yields_extended. eapply yields_then_f; [ygo|].
      eapply yields_bind_f; [apply yields_one_of_empty|intros ? _]. ygo.
      repeat split; apply digit_below; assumption.
    - unfold mo_p. ygo. exact I.
    - unfold ip_p. ygo. exact I.
    - unfold ir_p. eapply (yields_bind_t _ _ _ double_text); [ygo|]. intros t Ht. ygo. exists t. auto.
    - unfold of_p. ygo. cbn. auto.
    - unfold as_p. ygo. exact I.
    - unfold mi_p. ygo. split; apply flag_bit.
    - unfold in_p. ygo. assumption.
    - unfold sf_p. ygo. assert (H1 : num_ok (r_num rd (lit "1.0"))).
      { exists (lit "1.0"). split; [|reflexivity]. apply (re_double_some (lit "1.0") _ []). reflexivity. }
      split; match goal with |- num_ok match ?x with _ => _ end => destruct x; [assumption|exact H1] end.
  Qed.

  Lemma yields_single n (p : parser (cmd K T)) (Q : cmd K T -> Prop) (Q2 : list (cmd K T) -> Prop) :
    yields n true p Q -> (forall c, Q c -> Q2 [c]) -> yields n true (single p) Q2.
  Proof. intros Hp HQ. eapply yields_bind_t; [exact Hp|]. intros c Hc. apply yields_ret, HQ, Hc. Qed.
  Lemma leaf_item m c : wf_leaf c -> item m [c].
  Proof. intros H. destruct m; left; eauto. Qed.
  Lemma g_item_item m l : g_item l -> item m l.
  Proof. intros [H|H]; destruct m; cbn; auto. Qed.
  Definition block_item (m : nat) (c : cmd K T) : Prop :=
    exists id b, c = CAB id (concat b) /\ id_text id /\ Forall (item m) b.
  Lemma yields_below {A} k n b (p : parser A) Q : yields n b p Q -> k <= n -> yields k b p Q.
  Proof. intros H Hk. eapply yields_weaken; eauto. Qed.
  Lemma yields_body k n m block : k <= n ->
    yields k true block (fun c => match m with O => False | S m => block_item m c end) ->
    yields k true (body_item rd n block) (item m).
  Proof.
    intros Hk Hb. one_alternative.
    - eapply yields_single; [apply yields_d|]. intros c Hc. apply leaf_item, wf_d_leaf, Hc.
    - eapply yields_weaken; [apply (yields_g k)|auto|auto|apply g_item_item].
    - eapply yields_single; [apply yields_load|apply leaf_item].
    - eapply yields_single; [apply yields_properties|apply leaf_item].
    - eapply yields_single; [eapply yields_below; [apply (yields_attribute n)|exact Hk]|apply leaf_item].
    - eapply yields_single; [eapply yields_below; [apply (yields_adds n)|exact Hk]|apply leaf_item].
    - eapply yields_single; [exact Hb|]. intros c Hc. destruct m as [|m]; [contradiction|].
      destruct Hc as (id & b & -> & H). right; right. exists id, b. tauto.
    - eapply yields_single; [eapply yields_below; [apply (yields_macro n)|exact Hk]|apply leaf_item].
    - eapply yields_single; [apply yields_m|apply leaf_item].
  Qed.
  Lemma yields_many_more {A} k n (p : parser A) Q :
    yields k true p Q -> k <= n -> yields k false (many n p) (Forall Q).
  Proof.
    intros Hp Hk s Hs Ht. pose proof (yields_many_gen k p Q Hp n s Hs ltac:(lia) Ht) as H.
    destruct (many n p s); [exact H|exact I|exact H].
  Qed.
  Lemma yields_block n m k : k <= n -> k <= m ->
    yields k true (block_p rd n m) (fun c => match m with O => False | S m => block_item m c end).
  Proof.
    revert k. induction m as [|m IH]; intros k Hn Hm; [intros s Hs; exfalso; lia|].
    destruct k as [|k]; [intros s Hs; exfalso; lia|]. cbn [block_p].
    eapply yields_bind_less; [eapply yields_extended; ygo|]. intros id Hid.
    eapply yields_bind_f.
    - apply yields_many_more; [|lia]. apply (yields_body k n m); [lia|]. apply IH; lia.
    - intros b Hb. ygo. exists id, b. auto.
  Qed.
  Lemma yields_sr n : yields n true (sr_p rd n n)
    (fun c => exists h b, c = CSR h (concat b) /\ wf_sr h /\ Forall (item n) b).
  Proof.
    eapply (yields_bind_t _ _ _ wf_sr).
    - unfold sr_open_p. ygo. repeat split; assumption.
    - intros h Hh. eapply yields_bind_f.
      + apply yields_many. apply (yields_body n n n); [lia|]. apply yields_block; lia.
      + intros b Hb. ygo. eauto.
  Qed.
  Lemma yields_root n : yields n true (root_item rd n) (root n).
  Proof.
    assert (Hl : forall c, wf_leaf c -> root n [c]) by (intros c Hc; left; apply leaf_item, Hc).
    one_alternative.
    - eapply yields_single; [apply yields_d|]. intros c Hc. apply Hl, wf_d_leaf, Hc.
    - eapply yields_weaken; [apply (yields_g n)|auto|auto|]. intros l H. left. apply g_item_item, H.
    - eapply yields_single; [apply yields_load|exact Hl].
    - apply (yields_single _ _ (fun c => root n [c])); [|auto]. one_alternative.
      + eapply yields_weaken; [apply (yields_block n n n); lia|auto|auto|]. intros c Hc. left.
        destruct n as [|n']; [contradiction|]. destruct Hc as (id & b & -> & H). right; right. exists id, b. tauto.
      + eapply yields_weaken; [apply yields_macro|auto|auto|exact Hl].
      + eapply yields_weaken; [apply yields_sr|auto|auto|]. intros c (h & b & -> & H). right. exists h, b. tauto.
      + eapply yields_weaken; [apply yields_adds|auto|auto|exact Hl].
    - eapply yields_single; [apply yields_attribute|exact Hl].
    - eapply yields_single; [apply yields_properties|exact Hl].
    - eapply yields_single; [apply yields_m|exact Hl].
  Qed.

  (** The parser ends with a file, a syntax error or a validation error, and a file is made of
      items. *)
  Lemma expand_notab s : forall col, notab (expand col s).
  Proof.
    induction s as [|c s IH]; intros col; [reflexivity|]. cbn [expand].
    destruct (Ascii.eqb c "009") eqn:E.
    - apply all_app. split; [|apply IH]. unfold all. apply forallb_forall. intros x Hx. apply repeat_spec in Hx as ->. reflexivity.
    - destruct (Ascii.eqb c "010" || Ascii.eqb c "013"); (unfold notab, all in *; cbn [forallb]; rewrite E, IH; reflexivity).
  Qed.
  Theorem parse_wf text : 
    match parse rd text with
    | Ok f => exists m l, f = concat l /\ l <> [] /\ Forall (root m) l
    | Err e => e <> EOther EFuel
    end.
  Proof.
    unfold parse. set (s := expandtabs text). set (n := S (length s)).
    assert (Ht : notab s) by apply expand_notab.
    pose proof (yields_many1 n _ _ (yields_root n) s (Nat.lt_succ_diag_r _) Ht) as H.
    destruct (many1 n (root_item rd n) s) as [l r| |e]; [| |].
    - destruct H as ([H1 H2] & _). destruct (skip r); [eauto|discriminate].
    - discriminate.
    - intros E. injection E as ->. discriminate H.
  Qed.
End Wf.

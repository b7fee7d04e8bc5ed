(** C49: every file type has a style; C52: the caches of [GerberFile]. *)
From Verif Require Import Base ApiModel ApiSpec ApiProofs.
Local Open Scope nat_scope.

Lemma made_new L source t o f s : made L source t o f -> origin_says o s ->
  exists t', f = new_file L source t' o /\ asks_file t' s = asks_file t s /\
    forall said, type_wanted t' s said = type_wanted t s said.
Proof.
  intros M Hs. destruct M as [suffix| | |o].
  - unfold from_file, type_on_open. rewrite (origin_infer _ s suffix eq_refl Hs).
    destruct (code_facts _ _ Hs) as (A & B & C & D).
    destruct (ftype_eq_dec t TInferExtension) as [->|E1].
    { rewrite ftype_eqb_refl. assert (ftype_eqb (code s) TInfer = false) as -> by (apply ftype_eqb_neq; exact A).
      eexists. split; [reflexivity|]. destruct s as [t0| |]; cbn in *; split; auto.
      - specialize (D t0 eq_refl). destruct t0; cbn; congruence.
      - destruct t0; cbn; try congruence. specialize (D _ eq_refl). congruence. }
    assert (ftype_eqb t TInferExtension = false) as -> by (apply ftype_eqb_neq; exact E1).
    destruct (ftype_eq_dec t TInfer) as [->|E2].
    { rewrite ftype_eqb_refl. destruct (ftype_eqb (code s) TUndefined) eqn:E.
      - apply ftype_eqb_eq in E. rewrite (C E). eexists. split; [reflexivity|]. cbn. auto.
      - apply ftype_eqb_neq in E. eexists. split; [reflexivity|].
        destruct s as [t0| |]; cbn in *; split; auto; try congruence.
        + specialize (D t0 eq_refl). destruct t0; cbn; congruence.
        + specialize (D t0 eq_refl). destruct t0; cbn; congruence. }
    assert (ftype_eqb t TInfer = false) as -> by (apply ftype_eqb_neq; exact E2).
    eexists. split; [reflexivity|]. auto.
  - unfold from_str. cbn in Hs. subst s. destruct (ftype_eq_dec t TInferExtension) as [->|E1].
    + rewrite ftype_eqb_refl. eexists. split; [reflexivity|]. cbn. auto.
    + assert (ftype_eqb t TInferExtension = false) as -> by (apply ftype_eqb_neq; exact E1).
      eexists. split; [reflexivity|]. auto.
  - unfold from_buffer. cbn in Hs. subst s. destruct (ftype_eq_dec t TInferExtension) as [->|E1].
    + rewrite ftype_eqb_refl. eexists. split; [reflexivity|]. cbn. auto.
    + assert (ftype_eqb t TInferExtension = false) as -> by (apply ftype_eqb_neq; exact E1).
      eexists. split; [reflexivity|]. auto.
  - eexists. split; [reflexivity|]. auto.
Qed.

(** A lookup in a map of presets. *)
Lemma find_preset {A} (g : str -> A) t m :
  match find (fun p => ftype_eqb (fst p) t) (map (fun p => (fst p, g (snd p))) m) with
  | Some (_, x) => exists name, In (t, name) m /\ x = g name
  | None => forall name, ~ In (t, name) m
  end.
Proof.
  induction m as [|[k n] m IH]; cbn; [auto|]. destruct (ftype_eqb k t) eqn:E.
  - apply ftype_eqb_eq in E. subst k. exists n. auto.
  - apply ftype_eqb_neq in E. destruct (find _ _) as [[k' x]|].
    + destruct IH as (name & Hin & Hx). exists name. auto.
    + intros name [H|H]; [congruence|exact (IH name H)].
Qed.

Lemma wanted_real t o s said : origin_says o s ->
  ~ In (type_wanted t s said) [TInfer; TInferExtension; TInferAttributes].
Proof.
  intros Hs. destruct (stage1_facts o s t Hs) as (A & B & C & D & E).
  destruct (asks_file t s) eqn:F.
  - rewrite (E eq_refl). destruct (type_said_real said) as (X & Y & Z). cbn. intuition congruence.
  - rewrite (D eq_refl). assert (stage1 t s <> TInferAttributes) by (intros X; apply C in X; discriminate X).
    cbn. intuition congruence.
Qed.

Lemma style_general L source t o f s cm :
  made L source t o f -> origin_says o s ->
  let f' := set_color_map L (map (fun p => (fst p, preset L (snd p))) cm) f in
  (forall e, asks_file t s = true -> function_in L source (no_popts L) = Err e ->
     fst (dispatch_style L None f') = Err (ELib L e)) /\
  (forall said, (asks_file t s = true -> function_in L source (no_popts L) = Ok said) ->
     (exists name, In (type_wanted t s said, name) cm /\
        fst (dispatch_style L None f') = Ok (preset L name)) \/
     ((forall name, ~ In (type_wanted t s said, name) cm) /\
        fst (dispatch_style L None f') = Err (EKey L (type_wanted t s said)))).
Proof.
  intros M Hs f'. destruct (made_new _ _ _ _ _ _ M Hs) as (t' & -> & Ha & Hw).
  assert (I : inv L source t' o s (no_popts L) (no_copts L)
    (map (fun p => (fst p, preset L (snd p))) cm) f').
  { unfold f'. constructor; cbn; auto; discriminate. }
  destruct (computes_style L source t' o s Hs _ _ _ None f' I) as [E _]. rewrite E. unfold d_style, d_type.
  rewrite Ha. rewrite function_in_final. unfold function_in.
  split.
  - intros e Hask. rewrite Hask. intros H. destruct (parse L source (no_popts L)) as [a|x]; cbn in H |- *.
    + destruct (final_state L a) as [st|x]; cbn in H |- *; congruence.
    + congruence.
  - intros said Hsaid.
    assert (T : (if asks_file t s then
       let* st := match parse L source (no_popts L) with
                  | Ok a => from_lib L (final_state L a) | Err e => Err (ELib L e) end in
       Ok (type_said (file_function L st)) else Ok (stage1 t' s)) = Ok (type_wanted t s said)).
    { destruct (stage1_facts o s t' Hs) as (A & B & C & D & G). rewrite Ha in C, D, G.
      destruct (asks_file t s) eqn:F.
      - specialize (Hsaid eq_refl). rewrite <- Hw, (G eq_refl).
        destruct (parse L source (no_popts L)) as [a|x]; cbn in Hsaid |- *; [|discriminate Hsaid].
        destruct (final_state L a) as [st|x]; cbn in Hsaid |- *; [|discriminate Hsaid]. congruence.
      - rewrite <- Hw, (D eq_refl). reflexivity. }
    rewrite T. cbn [bind]. pose proof (find_preset (preset L) (type_wanted t s said) cm) as P.
    destruct (find _ _) as [[k x]|].
    + left. destruct P as (name & Hin & ->). exists name. auto.
    + right. auto.
Qed.

Lemma alpha_named t name : In (t, name) default_alpha_color_map -> name = alpha_style t.
Proof. intros H. cbn in H. repeat (destruct H as [H|H]; [injection H as <- <-; reflexivity|]). destruct H. Qed.
Lemma opaque_named t name : In (t, name) default_color_map -> name = opaque_style t.
Proof. intros H. cbn in H. repeat (destruct H as [H|H]; [injection H as <- <-; reflexivity|]). destruct H. Qed.

(** Full statement: rendering with the default colour map never fails for want of a style.
    Proved: however a file is made and whatever type was asked for, the style is that of the
    type given, or said by the extension, or by the file; except for drill maps, which the
    default map lacks (below). *)
Theorem C49_default_style_partial L source t o f s :
  made L source t o f -> origin_says o s ->
  (forall e, asks_file t s = true -> function_in L source (no_popts L) = Err e ->
     fst (dispatch_style L None f) = Err (ELib L e)) /\
  (forall said, (asks_file t s = true -> function_in L source (no_popts L) = Ok said) ->
     (type_wanted t s said <> TDrillmap ->
        fst (dispatch_style L None f) = Ok (preset L (alpha_style (type_wanted t s said)))) /\
     (type_wanted t s said = TDrillmap ->
        fst (dispatch_style L None f) = Err (EKey L TDrillmap))).
Proof.
  intros M Hs. pose proof (style_general L source t o f s default_alpha_color_map M Hs) as G.
  assert (F : set_color_map L (map (fun p => (fst p, preset L (snd p))) default_alpha_color_map) f = f).
  { destruct (made_new _ _ _ _ _ _ M Hs) as (t' & -> & _). reflexivity. }
  rewrite F in G. destruct G as [G1 G2]. split; [exact G1|]. intros said Hsaid.
  destruct (G2 said Hsaid) as [(name & Hin & E)|(Hno & E)].
  - split; [intros _; rewrite E, (alpha_named _ _ Hin); reflexivity|]. intros W. rewrite W in Hin. cbn in Hin. exfalso.
    repeat (destruct Hin as [Hin|Hin]; [discriminate Hin|]). exact Hin.
  - split.
    + intros W. exfalso. pose proof (wanted_real t o s said Hs) as R.
      destruct (type_wanted t s said); try (now apply W);
        try (now apply R; cbn; tauto); eapply Hno; cbn; eauto 40.
    + intros W. rewrite W in E. exact E.
Qed.

(** With [DEFAULT_COLOR_MAP] there are no exceptions. *)
Theorem C49_opaque_map L source t o f s :
  made L source t o f -> origin_says o s ->
  let f' := set_color_map L (map (fun p => (fst p, preset L (snd p))) default_color_map) f in
  forall said, (asks_file t s = true -> function_in L source (no_popts L) = Ok said) ->
  fst (dispatch_style L None f') = Ok (preset L (opaque_style (type_wanted t s said))).
Proof.
  intros M Hs f' said Hsaid.
  destruct (style_general L source t o f s default_color_map M Hs) as [_ G].
  destruct (G said Hsaid) as [(name & Hin & E)|(Hno & E)]; [unfold f'; rewrite E, (opaque_named _ _ Hin); reflexivity|].
  exfalso. pose proof (wanted_real t o s said Hs) as R.
  destruct (type_wanted t s said);
        try (now apply R; cbn; tauto); eapply Hno; cbn; eauto 40.
Qed.

(** A small library: a source is a list of letters, [C], [L] and [D] set the file function to
    Copper, Legend and Drillmap, other letters are errors.  Options: stop at the first error
    ([strict=False]), skip errors ([resilient=True]) or fail (the default). *)
Inductive toy_options := TStrict | TPrefix | TResilient.
Fixpoint toy_parse (s : str) (o : toy_options) : result unit (list ffunction) :=
  match s with
  | [] => Ok []
  | c :: s =>
      let here := if Ascii.eqb c "C" then Some FCopper else if Ascii.eqb c "L" then Some FLegend
                  else if Ascii.eqb c "D" then Some FDrillmap else None in
      match here, o with
      | Some f, _ => let* r := toy_parse s o in Ok (f :: r)
      | None, TStrict => Err tt
      | None, TPrefix => Ok []
      | None, TResilient => toy_parse s o
      end
  end.
Definition toy : library :=
  MkLibrary (list ffunction) (list ffunction) (list ffunction) toy_options unit unit str
    (list ffunction) (list ffunction) (list ffunction * str) nat bool (list ffunction) unit
    TStrict tt (fun n => n) toy_parse (fun a _ => Ok a) (fun a => Ok a)
    (fun st => match rev st with [] => None | f :: _ => Some f end) (fun _ => true)
    (fun r _ => Ok r) (fun r => length r) (fun r s => Ok (r, s)) (fun r => Ok r) (fun r => length r)
    (fun a _ => Ok a).

Theorem C49_drillmap_refuted :
  ~ (forall L source t o f, made L source t o f ->
       (exists said, function_in L source (no_popts L) = Ok said) ->
       exists x, fst (dispatch_style L None f) = Ok x).
Proof.
  intros H. destruct (H toy (lit "D") TInfer OString _ (MadeStr _ _ _)) as [x E].
  - eexists. reflexivity.
  - cbn in E. discriminate E.
Qed.

(** Full statement: every answer is that of a fresh object with the same settings.  Proved for
    all sequences of calls, unless the type has to be inferred from the attributes and the
    parser options in use disagree about them. *)
Theorem C52_caches_transparent_partial L source t o s cs c :
  origin_says o s ->
  (asks_file t s = true -> forall p q,
     In p (parser_options_used (no_popts L) cs) -> In q (parser_options_used (no_popts L) cs) ->
     function_in L source p = function_in L source q) ->
  fst (do_call L c (do_calls L cs (new_file L source t o))) =
  fst (do_call L c (fresh L source t o cs)).
Proof.
  intros Hs Hp. destruct (is_setting c) eqn:Hc.
  { destruct c; try discriminate Hc; reflexivity. }
  pose proof (new_inv L source t o s) as N.
  pose proof (run_inv L source t o s Hs cs (_, _, _) _ Hp N) as I1.
  pose proof (setters_inv L source t o s cs _ (new_file L source t o) eq_refl N) as I2.
  fold (fresh L source t o cs) in I2.
  destruct (fold_left _ cs _) as [[po co] cm]. cbn in I1, I2.
  rewrite (proj1 (answer_ok L source t o s Hs po co cm c _ I1 Hc)).
  rewrite (proj1 (answer_ok L source t o s Hs po co cm c _ I2 Hc)). reflexivity.
Qed.

(** In particular for files whose parser options are left alone, for every type. *)
Theorem C52_same_parser_options L source t o cs c :
  (forall p, ~ In (CParserOptions L p) cs) ->
  fst (do_call L c (do_calls L cs (new_file L source t o))) =
  fst (do_call L c (fresh L source t o cs)).
Proof.
  intros H. destruct (origin_total o) as [s Hs]. apply (C52_caches_transparent_partial L source t o s cs c Hs).
  intros _ p q P Q.
  assert (X : forall p, In p (parser_options_used (no_popts L) cs) -> p = no_popts L).
  { clear -H. induction cs as [|c cs IH]; cbn; intros p [P|P]; auto; [destruct P|].
    assert (Hc : forall p, ~ In (CParserOptions L p) cs) by (intros p' X; apply (H p'); right; exact X).
    destruct c; try (now apply (IH Hc p P)). destruct (H o). left. reflexivity. }
  rewrite (X p P), (X q Q). reflexivity.
Qed.
(** And for types that were given. *)
Theorem C52_given_type L source t o cs c :
  t <> TInfer -> t <> TInferExtension -> t <> TInferAttributes ->
  fst (do_call L c (do_calls L cs (new_file L source t o))) =
  fst (do_call L c (fresh L source t o cs)).
Proof.
  intros A B C. destruct (origin_total o) as [s Hs].
  apply (C52_caches_transparent_partial L source t o s cs c Hs).
  intros X. exfalso. destruct t; cbn in X; congruence.
Qed.

(** The type found in the attributes is kept when the parser options change: here the style
    stays that of the copper layer, a fresh object uses that of the legend. *)
Theorem C52_parser_options_refuted :
  ~ (forall L source t o cs c,
       fst (do_call L c (do_calls L cs (new_file L source t o))) =
       fst (do_call L c (fresh L source t o cs))).
Proof.
  intros H.
  specialize (H toy (lit "C?L") TInferAttributes OString
    [CParserOptions toy TPrefix; CPillow toy None 20; CParserOptions toy TResilient]
    (CPillow toy None 20)).
  vm_compute in H. discriminate H.
Qed.
(** Rendering also changes what [file_type] says. *)
Theorem C52_file_type_refuted :
  ~ (forall L source t o cs,
       g_type L (do_calls L cs (new_file L source t o)) = g_type L (fresh L source t o cs)).
Proof.
  intros H. specialize (H toy (lit "C") TInfer OString [CPillow toy None 20]).
  vm_compute in H. discriminate H.
Qed.

Print Assumptions C49_default_style_partial.
Print Assumptions C49_opaque_map.
Print Assumptions C49_drillmap_refuted.
Print Assumptions C52_caches_transparent_partial.
Print Assumptions C52_same_parser_options.
Print Assumptions C52_given_type.
Print Assumptions C52_parser_options_refuted.
Print Assumptions C52_file_type_refuted.

(** A [.GTL] file is copper whatever it says; a [.gbr] file what it says; mixed calls. *)
Example styles :
  fst (dispatch_style toy None (from_file toy (lit "L") (lit ".GTL") TInfer)) = Ok (lit "COPPER_ALPHA")
  /\ fst (dispatch_style toy None (from_file toy (lit "CL") (lit ".gbr") TInferExtension)) = Ok (lit "SILK_ALPHA")
  /\ fst (dispatch_style toy None (from_file toy (lit "CL") (lit ".g12") TInfer)) = Ok (lit "COPPER_ALPHA")
  /\ fst (dispatch_style toy None (from_str toy (lit "") TInfer)) = Ok (lit "DEBUG_1_ALPHA")
  /\ fst (dispatch_style toy None (from_str toy (lit "") TDrillmap)) = Err (EKey toy TDrillmap)
  /\ origin_says (OPath (lit ".GTL")) (SType TCopper)
  /\ fst (do_call toy (CPillow toy None 20)
       (do_calls toy [CFormats toy tt; CPillow toy (Some (lit "X")) 10; CShapely toy None;
                      CCompilerOptions toy tt; CColorMap toy [(TLegend, lit "Y")]]
          (new_file toy (lit "CL") TInfer OString)))
     = APillow toy (Ok (MkSpace toy true 2 20, ([FCopper; FLegend], lit "Y"))).
Proof. repeat split; try reflexivity. left. apply ECopper. left. reflexivity. Qed.

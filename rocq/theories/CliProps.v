(** C74: what the command line does to the files. *)
From Verif Require Import Base ColorModel ColorSpec ApiModel ApiSpec ApiProofs ApiProps CliModel CliSpec CliProofs.
From Verif Require LinterModel ColorProps.
Local Open Scope nat_scope.

(** ** File types *)
(** Full statement: [--file-type] with the name of a type, in any case, asks for that type.
    Missing: NON_PLATED (below). *)
Theorem C74_file_type_partial : forall v t, asks_type v t -> t <> TNonPlated ->
  exists c, choice type_choices (default v (lit "INFER")) = Some c /\ ftype_of (upper c) = t.
Proof. exact type_ok. Qed.
(** The name NON_PLATED is not the value NONPLATED that is looked up. *)
Theorem C74_file_type_refuted :
  ~ forall v t, asks_type v t -> exists c, choice type_choices (default v (lit "INFER")) = Some c /\ ftype_of (upper c) = t.
Proof.
  intros H. destruct (H (Some (lit "non_plated")) TNonPlated) as (c & A & B).
  - apply (AT_name _ "NON_PLATED"); [cbn; tauto|reflexivity].
  - vm_compute in A. injection A as <-. vm_compute in B. discriminate B.
Qed.
(** Names of no type are refused. *)
Theorem C74_file_type_unknown : forall v, (forall t, ~ asks_type (Some v) t) -> choice type_choices v = None.
Proof.
  intros v H. apply choice_none. rewrite type_choices_names. intros c Hc E. apply in_map_iff in Hc.
  destruct Hc as ([name t] & <- & Hin). apply (H t). apply (AT_name _ name); [exact Hin|]. symmetry. exact E.
Qed.

Section Cli.
  Variable L : library.
  Variable style_of : color * color -> t_style L.
  Variable encode : str -> bool -> list (str * option_value) -> t_image L -> str.
  Variable encode_svg : t_vector L -> t_style L -> str.
  Variable merge : list (space L * t_image L) -> result (t_error L) (t_image L).
  Variable text_of : t_text L -> str.
  Variable read_options : str -> result (t_error L) (t_fopts L).
  Variable no_options : t_fopts L.

  (** ** Styles *)
  Definition style_made (st f b : option str) : result (cerror L) (option (t_style L)) :=
    match st with
    | None => sanitize_style L style_of None f b
    | Some v => match choice style_choices v with
                | None => Err (EUsage L (lit "style"))
                | Some c => sanitize_style L style_of (Some c) f b
                end
    end.
  (** [--style], [--foreground], [--background] give the colours asked for; a custom style without
      one of the colours is refused, naming the missing option; unknown names are refused. *)
  Theorem C74_style : forall st f b,
    (forall sc, asks_style f b st sc -> style_made st f b = Ok (option_map style_of sc)) /\
    (forall v, st = Some v -> same_letters v (lit "CUSTOM") ->
       (f = None -> style_made st f b = Err (EBadOption L (lit "foreground"))) /\
       (f <> None -> b = None -> style_made st f b = Err (EBadOption L (lit "background"))) /\
       (forall sf sb, f = Some sf -> b = Some sb ->
          (forall s c, s = sf \/ s = sb -> s <> c ++ [ascii_of_nat 10]) ->
          (forall c, ~ denotes sb c) \/ (forall c, ~ denotes sf c) ->
          style_made st f b = Err (EBadOption L (lit "background")))) /\
    (forall v, st = Some v -> ~ same_letters v (lit "CUSTOM") -> (forall name c, In (name, c) style_presets -> ~ same_letters v name) ->
       style_made st f b = Err (EUsage L (lit "style"))).
  Proof.
    intros st f b. split; [|split].
    - intros sc A. pose proof (style_ok L style_of f b st sc A) as S. destruct st as [v|]; [|exact S].
      destruct S as (c & E & S). unfold style_made. rewrite E. exact S.
    - intros v -> E. assert (I : In (lit "CUSTOM") style_choices) by (apply in_or_app; right; left; reflexivity).
      destruct (choice_ok _ v _ I (eq_sym E)) as (c & C1 & _ & C3). unfold style_made. rewrite C1. unfold sanitize_style.
      rewrite (same_upper c (lit "CUSTOM")) by (rewrite C3; exact E).
      change (str_eqb (upper (lit "CUSTOM")) (lit "CUSTOM")) with true. cbn match.
      repeat split.
      + intros ->. reflexivity.
      + intros Nf ->. destruct f; [reflexivity|congruence].
      + intros sf sb -> -> N D. destruct (from_hex sb) as [cb|] eqn:Eb; [|reflexivity].
        destruct D as [D|D].
        * rewrite (ColorProps.C35_rejects_partial sb) in Eb; [discriminate Eb|intros u; apply N; right; reflexivity|exact D].
        * rewrite (ColorProps.C35_rejects_partial sf); [reflexivity|intros u; apply N; left; reflexivity|exact D].
    - intros v -> Nc N. unfold style_made. rewrite choice_none; [reflexivity|]. intros c Hc E. apply in_app_or in Hc. destruct Hc as [Hc|[<-|[]]].
      + apply in_map_iff in Hc. destruct Hc as ([name x] & <- & Hin). apply (N _ _ Hin). symmetry. exact E.
      + apply Nc. symmetry. exact E.
  Qed.

  (** ** [convert] *)
  Notation convert := (convert L style_of encode).
  Notation convert_svg := (convert_svg L style_of encode_svg).
  Lemma encoded_as fm name rgb opts i : asks_encoder fm name rgb opts -> encoded L encode fm i = encode name rgb opts i.
  Proof.
    intros H. destruct H; try reflexivity. cbn [encoded]. destruct (str_eqb c (lit "jpeg")) eqn:E; [|reflexivity].
    apply str_eqb_eq in E. contradiction.
  Qed.
  Lemma encoder_asked fm : exists name rgb opts, asks_encoder fm name rgb opts.
  Proof.
    destruct fm as [|q|c q| |l q].
    - do 3 eexists. apply AE_png.
    - do 3 eexists. apply AE_jpeg.
    - destruct (str_eqb c (lit "jpeg")) eqn:E.
      + apply str_eqb_eq in E as ->. do 3 eexists. apply AE_tiff_jpeg.
      + do 3 eexists. apply AE_tiff. intros ->. discriminate E.
    - do 3 eexists. apply AE_bmp.
    - do 3 eexists. apply AE_webp.
  Qed.

  (** The output becomes the picture of the source with the colours asked for; nothing else changes. *)
  Theorem C74_convert : forall fm name rgb opts dpmm a fs t sc text x p,
    asks_encoder fm name rgb opts ->
    asks_type (a_type a) t -> t <> TNonPlated -> asks_style (a_foreground a) (a_background a) (a_style a) sc ->
    fs (a_source a) = Some text -> coloured L style_of text (a_source a) t sc x -> drawn L text x dpmm p ->
    fst (convert fm dpmm a fs) = Ok tt /\ saved fs (a_output a) (encode name rgb opts (snd p)) (snd (convert fm dpmm a fs)).
  Proof.
    intros fm name rgb opts dpmm a fs t sc text x p He Ht N Hs Hf C D. rewrite <- (encoded_as _ _ _ _ _ He). unfold CliModel.convert.
    rewrite (open_ok L style_of a fs t sc text Ht N Hs Hf), (pillow_ok L style_of text _ t sc x dpmm p C D).
    destruct p as [sp i]. cbn [fst snd]. split; [reflexivity|apply saved_write].
  Qed.
  (** Whenever the command succeeds the output is a picture of the source; when it fails no file changes. *)
  Theorem C74_convert_only : forall fm dpmm a fs r fs', convert fm dpmm a fs = (r, fs') ->
    match r with
    | Ok _ => exists text t sc x p name rgb opts, asks_encoder fm name rgb opts /\ fs (a_source a) = Some text /\ coloured L style_of text (a_source a) t sc x /\
                drawn L text x dpmm p /\ saved fs (a_output a) (encode name rgb opts (snd p)) fs'
    | Err _ => fs' = fs
    end.
  Proof.
    intros fm dpmm a fs r fs' E. unfold CliModel.convert in E. destruct (open_source L style_of a fs) as [[y f]|e] eqn:O.
    - destruct (open_inv _ _ _ _ _ _ O) as (text & t & sc & Hf & -> & ->).
      destruct (fst (render_with_pillow L _ dpmm _)) as [[sp i]|e] eqn:R; injection E as <- <-; [|reflexivity].
      destruct (pillow_inv _ _ _ _ _ _ _ _ R) as (x & C & D).
      destruct (encoder_asked fm) as (name & rgb & opts & He).
      exists text, t, sc, x, (sp, i), name, rgb, opts. rewrite <- (encoded_as _ _ _ _ _ He). repeat (split; [assumption|]). apply saved_write.
    - injection E as <- <-. reflexivity.
  Qed.
  Theorem C74_svg : forall a fs t sc text x v,
    asks_type (a_type a) t -> t <> TNonPlated -> asks_style (a_foreground a) (a_background a) (a_style a) sc ->
    fs (a_source a) = Some text -> coloured L style_of text (a_source a) t sc x -> traced L text v ->
    fst (convert_svg a fs) = Ok tt /\ saved fs (a_output a) (encode_svg v x) (snd (convert_svg a fs)).
  Proof.
    intros a fs t sc text x v Ht N Hs Hf C D. unfold CliModel.convert_svg.
    rewrite (open_ok L style_of a fs t sc text Ht N Hs Hf).
    destruct (shapely_ok L style_of text _ t sc x v C D) as (sp & ->). split; [reflexivity|apply saved_write].
  Qed.
  Theorem C74_svg_only : forall a fs r fs', convert_svg a fs = (r, fs') ->
    match r with
    | Ok _ => exists text t sc x v, fs (a_source a) = Some text /\ coloured L style_of text (a_source a) t sc x /\
                traced L text v /\ saved fs (a_output a) (encode_svg v x) fs'
    | Err _ => fs' = fs
    end.
  Proof.
    intros a fs r fs' E. unfold CliModel.convert_svg in E. destruct (open_source L style_of a fs) as [[y f]|e] eqn:O.
    - destruct (open_inv _ _ _ _ _ _ O) as (text & t & sc & Hf & -> & ->).
      destruct (fst (render_with_shapely L _ _)) as [[sp [v x]]|e] eqn:R; injection E as <- <-; [|reflexivity].
      destruct (shapely_inv _ _ _ _ _ _ _ _ _ R) as (C & D).
      exists text, t, sc, x, v. repeat (split; [assumption|]). apply saved_write.
    - injection E as <- <-. reflexivity.
  Qed.

  (** ** [merge-convert] *)
  Notation merge_convert := (merge_convert L encode merge).
  Definition layer (t : ftype) (dpmm : Z) (fs : files) (path : str) (p : space L * t_image L) : Prop :=
    exists text x, fs path = Some text /\ coloured L style_of text path t None x /\ drawn L text x dpmm p.
  Definition image_file (jpeg : bool) (i : t_image L) : str :=
    if jpeg then encode (lit "JPEG") true [] i else encode (lit "PNG") false [] i.

  Lemma open_all_ok t fs paths : forall texts, Forall2 (fun p text => fs p = Some text) paths texts ->
    open_all L t paths fs = Ok (map (fun q => from_file L (snd q) (suffix (fst q)) t) (combine paths texts)).
  Proof.
    intros texts H. induction H as [|p text paths texts Hp _ IH]; [reflexivity|]. cbn. rewrite Hp, IH. reflexivity.
  Qed.
  Lemma open_all_inv t fs paths : forall l, open_all L t paths fs = Ok l ->
    Forall2 (fun p f => exists text, fs p = Some text /\ f = from_file L text (suffix p) t) paths l.
  Proof.
    induction paths as [|p r IH]; intros l E; cbn in E.
    - injection E as <-. constructor.
    - destruct (fs p) as [text|] eqn:F; [|discriminate E]. destruct (open_all L t r fs) as [l'|]; [|discriminate E].
      injection E as <-. constructor; [exists text; auto|]. apply IH. reflexivity.
  Qed.

  (** The output becomes the pictures of all sources, first to last, merged. *)
  Theorem C74_merge : forall jpeg dpmm type sources output fs t ps i,
    asks_type type t -> t <> TNonPlated -> Forall2 (layer t dpmm fs) sources ps -> merge ps = Ok i ->
    fst (merge_convert jpeg dpmm type sources output fs) = Ok tt /\
    saved fs output (image_file jpeg i) (snd (merge_convert jpeg dpmm type sources output fs)).
  Proof.
    intros jpeg dpmm type sources output fs t ps i Ht N Hl Hm. unfold CliModel.merge_convert, choose.
    destruct (type_ok _ _ Ht N) as (c & -> & E). cbn [bind]. rewrite E.
    assert (X : exists fl, open_all L t sources fs = Ok fl /\ render_all L dpmm fl = Ok ps).
    { clear Hm. induction Hl as [|p q sources ps (text & x & Hf & C & D) _ (fl & Ho & Hr)]; [exists []; auto|].
      exists (from_file L text (suffix p) t :: fl). cbn. rewrite Hf, Ho. split; [reflexivity|].
      pose proof (pillow_ok L style_of text p t None x dpmm q C D) as R. cbn [option_map] in R. rewrite R, Hr. reflexivity. }
    destruct X as (fl & -> & R). cbn [bind]. rewrite R. cbn [bind]. rewrite Hm. split; [reflexivity|].
    cbn [snd]. unfold image_file. destruct jpeg; apply saved_write.
  Qed.
  Theorem C74_merge_only : forall jpeg dpmm type sources output fs r fs',
    merge_convert jpeg dpmm type sources output fs = (r, fs') ->
    match r with
    | Ok _ => exists t ps i, Forall2 (layer t dpmm fs) sources ps /\ merge ps = Ok i /\ saved fs output (image_file jpeg i) fs'
    | Err _ => fs' = fs
    end.
  Proof.
    intros jpeg dpmm type sources output fs r fs' E. unfold CliModel.merge_convert, choose in E.
    destruct (choice type_choices _) as [c|]; [|injection E as <- <-; reflexivity]. cbn [bind] in E.
    set (t := ftype_of (upper c)) in *.
    destruct (open_all L t sources fs) as [fl|] eqn:Eo; [|injection E as <- <-; reflexivity]. cbn [bind] in E.
    destruct (render_all L dpmm fl) as [ps|] eqn:Er; [|injection E as <- <-; reflexivity]. cbn [bind] in E.
    destruct (merge ps) as [i|] eqn:Em; injection E as <- <-; [|reflexivity].
    exists t, ps, i. split; [|split; [exact Em|unfold image_file; destruct jpeg; apply saved_write]]. clear Em.
    apply open_all_inv in Eo. revert ps Er. induction Eo as [|p f sources fl (text & Hf & ->) _ IH]; intros ps Er; cbn in Er.
    - injection Er as <-. constructor.
    - destruct (fst (render_with_pillow L None dpmm _)) as [q|] eqn:R; [|discriminate Er].
      destruct (render_all L dpmm fl) as [qs|]; [|discriminate Er]. injection Er as <-. constructor; [|apply IH; reflexivity].
      destruct (pillow_inv L style_of text p t None dpmm q R) as (x & C & D). exists text, x. auto.
  Qed.

  (** A type that is no name of one: nothing is done, and the error names the option. *)
  Theorem C74_unknown_type : forall jpeg dpmm v sources output fs,
    (forall t, ~ asks_type (Some v) t) ->
    merge_convert jpeg dpmm (Some v) sources output fs = (Err (EUsage L (lit "file-type")), fs) /\
    forall fm a, a_type a = Some v -> convert fm dpmm a fs = (Err (EUsage L (lit "file-type")), fs).
  Proof.
    intros jpeg dpmm v sources output fs H.
    assert (N : choice type_choices v = None).
    { apply choice_none. intros c Hc E. rewrite type_choices_names in Hc. apply in_map_iff in Hc as ((n & t) & <- & Hn).
      apply (H t). apply (AT_name v n t Hn). symmetry. exact E. }
    split.
    - unfold CliModel.merge_convert, choose. cbn [default]. rewrite N. reflexivity.
    - intros fm a Ha. unfold CliModel.convert, open_source, choose. rewrite Ha. cbn [default]. rewrite N. reflexivity.
  Qed.

  (** ** [format] *)
  Notation format_cmd := (format_cmd L text_of read_options no_options).
  (** The options: none, given inline, or read from a .json file; not both. *)
  Inductive asks_options (fs : files) : option str -> option str -> t_fopts L -> Prop :=
  | AO_none : asks_options fs None None no_options
  | AO_inline t o : read_options t = Ok o -> asks_options fs None (Some t) o
  | AO_file p t o : extension p (lit ".json") -> fs p = Some t -> read_options t = Ok o -> asks_options fs (Some p) None o.

  (** Full statement: [format] replaces the output by the formatted source, and changes nothing if it
      fails.  Missing: when the source does not parse the output is emptied (below); nothing is said
      about half-written outputs of a failing formatter. *)
  Theorem C74_format_partial : forall source output config inline fs o text,
    asks_options fs config inline o -> fs source = Some text ->
    (forall a t, parse L text (no_popts L) = Ok a -> formats L a o = Ok t ->
       fst (format_cmd source output config inline fs) = Ok tt /\
       saved fs output (text_of t) (snd (format_cmd source output config inline fs))) /\
    (forall e, parse L text (no_popts L) = Err e ->
       fst (format_cmd source output config inline fs) = Err (EFile L (ELib L e)) /\
       saved fs output [] (snd (format_cmd source output config inline fs))).
  Proof.
    intros source output config inline fs o text Ho Hf.
    assert (X : format_cmd source output config inline fs =
      match fst (file_formats L o (from_file L text (suffix source) TInfer)) with
      | Err e => (Err (EFile L e), write output [] fs)
      | Ok t => (Ok tt, write output (text_of t) (write output [] fs))
      end).
    { unfold CliModel.format_cmd. destruct Ho as [|t o E|p t o Hp Hfp E]; cbn [bind].
      - rewrite Hf. reflexivity.
      - rewrite E, Hf. reflexivity.
      - rewrite (suffix_is _ _ Hp). rewrite str_eqb_refl, Hfp. cbn [bind]. rewrite E, Hf. reflexivity. }
    rewrite X, formats_is. split.
    - intros a t Ha Ht. rewrite Ha. cbn [bind from_lib]. rewrite Ht. cbn [from_lib fst snd]. split; [reflexivity|].
      destruct (saved_write (write output [] fs) output (text_of t)) as [A B]. split; [exact A|]. intros q N.
      rewrite (B q N). apply saved_write. exact N.
    - intros e He. rewrite He. cbn [bind from_lib fst snd]. split; [reflexivity|apply saved_write].
  Qed.
  (** Options that are refused, and missing sources, change nothing. *)
  Theorem C74_format_refuses : forall source output config inline fs,
    (forall o, ~ asks_options fs config inline o) \/ fs source = None ->
    (exists e, fst (format_cmd source output config inline fs) = Err e) /\ snd (format_cmd source output config inline fs) = fs.
  Proof.
    intros source output config inline fs H. unfold CliModel.format_cmd.
    match goal with |- context [match ?e with Ok o => match fs source with _ => _ end | Err _ => _ end] => set (opts := e) end.
    destruct opts as [o|e] eqn:E; [|split; [eexists; reflexivity|reflexivity]].
    destruct H as [H|H].
    - exfalso. apply (H o). unfold opts in E. clear opts. destruct config as [p|].
      + destruct inline as [i|]; [discriminate E|]. destruct (str_eqb (suffix p) (lit ".json")) eqn:X; [|discriminate E].
        destruct (fs p) as [t|] eqn:F; [|discriminate E]. cbn [bind] in E. destruct (read_options t) as [o'|] eqn:R; [|discriminate E].
        injection E as <-. apply str_eqb_eq in X. apply (AO_file fs p t); [rewrite <- X; apply has_extension|exact F|exact R].
      + cbn [bind] in E. destruct inline as [t|].
        * destruct (read_options t) as [o'|] eqn:R; [|discriminate E]. injection E as <-. apply AO_inline. exact R.
        * injection E as <-. constructor.
    - rewrite H. split; [eexists; reflexivity|reflexivity].
  Qed.

  (** ** [lint] *)
  Section Lint.
    Context {E : Type} (lint_code : str -> list str -> result E (list LinterModel.violation)).
    Notation lint_cmd := (lint_cmd lint_code).
    (** The names in comma-separated lists. *)
    Fixpoint listed (names : list str) : str :=
      match names with
      | [] => []
      | [n] => n
      | n :: r => n ++ ","%char :: listed r
      end.
    Theorem C74_rules : forall lists : list (list str),
      Forall (fun names => names <> [] /\ Forall (fun n => ~ In ","%char n) names) lists ->
      parse_rules (map listed lists) = concat lists.
    Proof.
      assert (A : forall n, ~ In ","%char n -> split_comma n = [n]).
      { induction n as [|c n IH]; intros N; [reflexivity|]. cbn. rewrite IH by (intros X; apply N; right; exact X).
        destruct (Ascii.eqb c ",") eqn:X; [|reflexivity]. apply Ascii.eqb_eq in X. subst c. destruct N. left. reflexivity. }
      assert (B : forall n r, ~ In ","%char n -> split_comma (n ++ ","%char :: r) = n :: split_comma r).
      { induction n as [|c n IH]; intros r N; [reflexivity|]. cbn. rewrite IH by (intros X; apply N; right; exact X).
        destruct (Ascii.eqb c ",") eqn:X; [|reflexivity]. apply Ascii.eqb_eq in X. subst c. destruct N. left. reflexivity. }
      induction 1 as [|names lists [Nn Hn] _ IH]; [reflexivity|]. cbn [map concat]. unfold parse_rules in *. cbn [flat_map]. f_equal; [|exact IH].
      clear IH. induction names as [|n names IHn]; [congruence|]. inversion Hn as [|? ? H1 H2]; subst.
      destruct names as [|m names]; [apply A; exact H1|]. cbn [listed]. rewrite B by exact H1. f_equal. apply IHn; [discriminate|exact H2].
    Qed.

    (** What is found in one file. *)
    Definition found (fs : files) (rules : list str) (path : str) (vs : list LinterModel.violation) : Prop :=
      exists text, fs path = Some text /\ lint_code text rules = Ok vs.
    Definition printed (paths : list str) (vss : list (list LinterModel.violation)) : list (str * LinterModel.violation) :=
      concat (map (fun pv => map (pair (fst pv)) (snd pv)) (combine paths vss)).
    (** Everything found is printed, file by file; the first file that is missing or does not lint
        ends the run with an error, after the reports of the files before it. *)
    Theorem C74_lint : forall rules paths fs vss,
      Forall2 (found fs (parse_rules rules)) paths vss ->
      (paths <> [] -> lint_cmd rules paths fs = (Ok tt, printed paths vss)) /\
      (forall p rest, fs p = None -> lint_cmd rules (paths ++ p :: rest) fs = (Err (LNoFile p), printed paths vss)) /\
      (forall p text e rest, fs p = Some text -> lint_code text (parse_rules rules) = Err e ->
         lint_cmd rules (paths ++ p :: rest) fs = (Err (LLint e), printed paths vss)) /\
      lint_cmd rules [] fs = (Err LNoFiles, []).
    Proof.
      intros rules paths fs vss H.
      assert (X : forall rest, lint_files lint_code (parse_rules rules) (paths ++ rest) fs =
        let '(r, out) := lint_files lint_code (parse_rules rules) rest fs in (r, printed paths vss ++ out)).
      { intros rest. induction H as [|p vs paths vss (text & Hf & Hl) _ IH].
        - cbn. destruct (lint_files _ _ rest fs). reflexivity.
        - cbn [app lint_files]. rewrite Hf, Hl, IH. destruct (lint_files _ _ rest fs) as [r out].
          unfold printed. cbn. rewrite app_assoc. reflexivity. }
      repeat split.
      - intros N. specialize (X []). rewrite !app_nil_r in X. cbn in X. rewrite app_nil_r in X.
        unfold CliModel.lint_cmd. destruct paths; [congruence|exact X].
      - intros p rest Hp. unfold CliModel.lint_cmd. specialize (X (p :: rest)). cbn in X. rewrite Hp, app_nil_r in X.
        destruct paths; exact X.
      - intros p text e rest Hp He. unfold CliModel.lint_cmd. specialize (X (p :: rest)). cbn in X. rewrite Hp, He, app_nil_r in X.
        destruct paths; exact X.
    Qed.
  End Lint.
End Cli.

(** A bad foreground colour is blamed on the option for the background. *)
Theorem C74_foreground_refuted :
  ~ forall L style_of st f b sf name, same_letters st (lit "CUSTOM") -> f = Some sf -> (forall c, ~ denotes sf c) ->
      (exists c sb, b = Some sb /\ denotes sb c) ->
      style_made L style_of (Some st) f b = Err (EBadOption L name) -> name = lit "foreground".
Proof.
  intros H. specialize (H toy (fun _ => lit "") (lit "CUSTOM") (Some (lit "red")) (Some (lit "000000")) (lit "red") (lit "background") eq_refl eq_refl).
  enough (lit "background" = lit "foreground") by discriminate. apply H.
  - intros c D. apply ColorProps.C35_accepts in D. vm_compute in D. discriminate D.
  - exists (MkColor 0 0 0 255), (lit "000000"). split; [reflexivity|].
    assert (Z : byte (lit "00") 0) by (exists "0"%char, "0"%char, 0, 0; repeat split; left; reflexivity).
    left. exact (plain_rgb _ _ _ _ _ _ Z Z Z).
  - reflexivity.
Qed.

(** A syntax error in a file that is formatted in place destroys it. *)
Theorem C74_format_refuted :
  ~ forall L text_of read_options no_options source output fs e,
      fst (format_cmd L text_of read_options no_options source output None None fs) = Err e ->
      snd (format_cmd L text_of read_options no_options source output None None fs) source = fs source.
Proof.
  intros H. specialize (H toy (fun _ => lit "") (fun _ => Err tt) tt (lit "a.gbr") (lit "a.gbr")
    (write (lit "a.gbr") (lit "?") (fun _ => None)) _ eq_refl).
  vm_compute in H. discriminate H.
Qed.

(** The presets: [X_ALPHA] is [X] on a transparent background.  Missing: SOLDER_MASK has another
    foreground than SOLDER_MASK_ALPHA, and DEBUG_1 has a transparent background itself. *)
Definition twin (name : string) : Prop := exists f,
  get_style (lit name) = Some (f, MkColor 0 0 0 255) /\ get_style (lit name ++ lit "_ALPHA") = Some (f, MkColor 0 0 0 0).
Theorem C74_presets_partial : Forall twin ["SILK"; "COPPER"; "PASTE_MASK"; "BLACK_WHITE"]%string.
Proof. repeat (apply Forall_cons; [eexists; split; reflexivity|]). apply Forall_nil. Qed.
(** The masks are shown in grey. *)
Example C74_greys : Forall (fun name => match get_style (lit name) with Some (MkColor r g b _, _) => r = g /\ g = b /\ (r < 255)%Z | None => False end)
  ["PASTE_MASK"; "PASTE_MASK_ALPHA"; "SOLDER_MASK"; "SOLDER_MASK_ALPHA"]%string.
Proof. repeat constructor. Qed.
Theorem C74_presets_refuted : ~ twin "SOLDER_MASK" /\ ~ twin "DEBUG_1".
Proof. split; intros (f & A & B); vm_compute in A, B; congruence. Qed.

Print Assumptions C74_file_type_partial.
Print Assumptions C74_style.
Print Assumptions C74_convert.
Print Assumptions C74_convert_only.
Print Assumptions C74_svg_only.
Print Assumptions C74_merge.
Print Assumptions C74_merge_only.
Print Assumptions C74_unknown_type.
Print Assumptions C74_format_partial.
Print Assumptions C74_format_refuses.
Print Assumptions C74_rules.
Print Assumptions C74_lint.

(** Examples: a library whose files are lists of file functions and whose pictures are the file
    with its style. *)
Definition toy_style (c : color * color) : str := to_hex (fst c) ++ lit "/" ++ to_hex (snd c).
Definition show_functions (l : list ffunction) : str := map (fun f => match f with FCopper => "C"%char | FLegend => "L"%char | _ => "?"%char end) l.
Definition toy_encode (name : str) (rgb : bool) (_ : list (str * option_value)) (i : list ffunction * str) : str :=
  name ++ (if rgb then lit "/RGB " else lit " ") ++ show_functions (fst i) ++ lit " " ++ snd i.
Definition disk : files := fun p =>
  if str_eqb p (lit "x/top.GTL") then Some (lit "LC") else if str_eqb p (lit "b.gbr") then Some (lit "CL") else None.
Definition shown (r : result (cerror toy) unit * files) (p : string) : bool * option str :=
  (match fst r with Ok _ => true | Err _ => false end, snd r (lit p)).
Example C74_ex :
  shown (convert toy toy_style toy_encode Png 20 (MkArgs (lit "x/top.GTL") (lit "o.png") None None None None) disk) "o.png"
    = (true, Some (lit "PNG LC COPPER_ALPHA"))
  /\ shown (convert toy toy_style toy_encode (Jpeg 90) 20 (MkArgs (lit "b.gbr") (lit "o.jpg") (Some (lit "infer")) None None None) disk) "o.jpg"
    = (true, Some (lit "JPEG/RGB CL SILK_ALPHA"))
  /\ shown (convert toy toy_style toy_encode Bmp 20 (MkArgs (lit "b.gbr") (lit "o.bmp") (Some (lit "glue")) (Some (lit "custom")) (Some (lit "#102030")) (Some (lit "ff00ff00"))) disk) "o.bmp"
    = (true, Some (lit "BMP CL #102030ff/#ff00ff00"))
  /\ shown (convert toy toy_style toy_encode Png 20 (MkArgs (lit "c.gbr") (lit "b.gbr") None None None None) disk) "b.gbr"
    = (false, Some (lit "CL"))
  /\ parse_rules [lit "DEP001,GRB001"; lit "DEP002"] = [lit "DEP001"; lit "GRB001"; lit "DEP002"].
Proof. repeat split; vm_compute; reflexivity. Qed.
Example C74_ex_type : forall t, ~ asks_type (Some (lit "top")) t.
Proof.
  intros t H. inversion H as [|v n t' Hn E]; subst. clear H. unfold same_letters in E. cbn in Hn.
  repeat match goal with X : _ \/ _ |- _ => destruct X as [X|X] | X : (_, _) = _ |- _ => injection X as <- <-; discriminate E end. exact Hn.
Qed.
Example C74_ex_paths : map suffix [lit "a.b/top.GTL"; lit ".gbr"; lit "x/.gbr"; lit "a.tar.gbr"; lit "a."; lit "a.b/c"] =
  [lit ".GTL"; []; []; lit ".gbr"; []; []].
Proof. reflexivity. Qed.

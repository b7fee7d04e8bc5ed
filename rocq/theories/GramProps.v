(** C43 and C45: whole files through the formatter and back. *)
From Verif Require Import Base Num CoordModel Ast GramAst PegModel GramModel FmtModel GramText GramExpr GramExprRt
  GramExprSpec NumTextModel NumTextProofs GramNum GramTok GramWf GramFileSpec GramPieces GramRead GramReadAttr
  GramMacroRt GramTidy GramRt GramExact.
From Coq Require Import Qabs.
Local Open Scope nat_scope.

(** Options whose texts are whitespace, which is what they are for: the type allows any text as an
    indent.  [explicit_parenthesis] is not about whitespace; see C42. *)
Definition blank_indent (i : indent) : Prop := match i with ICount _ => True | IText s => ws s end.
Definition blank_options (op : options) : Prop :=
  is_ws (op_indent_character op) = true /\ ws (op_line_end op) /\ op_explicit_parenthesis op = false /\
  Forall (fun i => blank_indent (i op))
    [op_macro_body_indent; op_macro_param_indent; op_block_indent; op_sr_indent;
     op_d01_indent; op_d02_indent; op_d03_indent].

Lemma ws_repeat c n : is_ws c = true -> ws (repeat c n).
Proof. intros H. unfold ws, all. induction n; [reflexivity|]. cbn. rewrite H. exact IHn. Qed.
Lemma blank_init op : blank_options op -> blank (init op).
Proof.
  intros (Hc & Hl & He & Hi).
  assert (I : forall i, blank_indent i -> ws (indent_text op i)).
  { intros i H. unfold indent_text. destruct (op_strip_whitespace op); [reflexivity|].
    destruct i; [apply ws_repeat, Hc|exact H]. }
  assert (L : ws (if op_strip_whitespace op then [] else op_line_end op)).
  { destruct (op_strip_whitespace op); [reflexivity|exact Hl]. }
  rewrite Forall_forall in Hi.
  constructor; cbn; try (apply I; refine (Hi _ _); cbn; tauto); auto.
  destruct (op_empty_line_before_polarity_switch op); [exact L|reflexivity].
Qed.

(** A parsed file is tidy already. *)
Section Id.
  Context {K T : Type} (rd : reader K T).
  Notation td := (@tidy K T true (fun _ => false)).
  Lemma tidy_ab k dr g id l : tidy_cmd k dr g (CAB id l) = ([CAB id (@tidy K T k dr false l)], false).
  Proof. reflexivity. Qed.
  Lemma tidy_sr k dr g h l : tidy_cmd k dr g (CSR h l) = ([CSR h (@tidy K T k dr false l)], false).
  Proof. reflexivity. Qed.
  Lemma leaf_same c r : wf_leaf rd c -> td false (c :: r) = c :: td false r.
  Proof.
    intros H. destruct c; try contradiction; try reflexivity; cbn [wf_leaf wf_d] in H.
    1-4: destruct H as [-> _]; reflexivity. rewrite H. reflexivity.
  Qed.
  Lemma item_same m : forall l, item rd m l -> forall r, td false (l ++ r) = l ++ td false r.
  Proof.
    assert (Hp : forall g d r, @wf_d K T false d -> td false ([CG false g; d] ++ r) = [CG false g; d] ++ td false r).
    { intros g d r H. destruct d; try contradiction; destruct H as [-> _]; reflexivity. }
    induction m as [|m IH]; intros l [(c & -> & Hw)|[(g & d & -> & Hd)|H]] r; try contradiction; try (apply Hp, Hd); try (apply leaf_same, Hw).
    - destruct H as (id & b & -> & _ & Hb). cbn [app tidy]. rewrite tidy_ab. cbn [app]. do 2 f_equal.
      induction Hb as [|x b Hx _ IHb]; [reflexivity|]. cbn [concat]. rewrite IH by exact Hx. rewrite IHb. reflexivity.
  Qed.
  Lemma items_same m l : Forall (item rd m) l -> td false (concat l) = concat l.
  Proof.
    induction 1 as [|x b Hx _ IHb]; [reflexivity|]. cbn [concat]. rewrite (item_same m) by exact Hx. rewrite IHb. reflexivity.
  Qed.
  Lemma root_same m l : root rd m l -> forall r, td false (l ++ r) = l ++ td false r.
  Proof.
    intros [H|(h & b & -> & _ & Hb)] r; [eapply item_same; eauto|]. cbn [app tidy]. rewrite tidy_sr. cbn [app].
    do 2 f_equal. eapply items_same; eauto.
  Qed.
  Lemma file_same m l : Forall (root rd m) l -> td false (concat l) = concat l.
  Proof.
    induction 1 as [|x b Hx _ IHb]; [reflexivity|]. cbn [concat]. rewrite (root_same m) by exact Hx. rewrite IHb. reflexivity.
  Qed.
  Lemma tidy_ext k d d' (E : forall g, d g = d' g) : forall c g, @tidy_cmd K T k d g c = tidy_cmd k d' g c.
  Proof.
    apply (cmd_ind' (fun c => forall g, @tidy_cmd K T k d g c = tidy_cmd k d' g c)).
    - intros id b Hb g. rewrite !tidy_ab. do 3 f_equal. generalize false. induction Hb as [|x b Hx _ IH]; [reflexivity|].
      intros g'. cbn [tidy]. rewrite Hx. destruct (tidy_cmd k d' g' x). rewrite IH. reflexivity.
    - intros h b Hb g. rewrite !tidy_sr. do 3 f_equal. generalize false. induction Hb as [|x b Hx _ IH]; [reflexivity|].
      intros g'. cbn [tidy]. rewrite Hx. destruct (tidy_cmd k d' g' x). rewrite IH. reflexivity.
    - intros c Hc g. destruct c; try contradiction; try reflexivity. cbn. rewrite E. reflexivity.
  Qed.
  Lemma tidy_exts k d d' (E : forall g, d g = d' g) l : forall g, @tidy K T k d g l = tidy k d' g l.
  Proof.
    induction l as [|x l IH]; [reflexivity|]. intros g. cbn [tidy]. rewrite (tidy_ext k d d' E).
    destruct (tidy_cmd k d' g x). rewrite IH. reflexivity.
  Qed.
End Id.

(** Full statement of C43: formatting any file obtained from the parser and parsing the output
    yields the same list of commands, for any choice of whitespace-related options.
    It holds for the files whose values survive ([clean]); the cases left out are listed there and
    below. *)
Theorem C43_round_trip_partial : forall K T (rd : reader K T) (w : writer K T) op text f,
  parse rd text = Ok f ->
  blank_options op ->
  op_keep_non_standalone op = true -> op_remove_g54 op = false -> op_remove_g55 op = false ->
  Forall (clean rd w) f ->
  parse rd (formats w op f) = Ok f.
Proof.
  intros K T rd w op text f Hp Hb Hk H4 H5 Hc. pose proof (parse_wf rd text) as W. rewrite Hp in W.
  destruct W as (m & l & -> & Hne & Hr). unfold formats.
  rewrite (file_through rd w (init op) (blank_init op Hb) m l Hr Hc). cbn [init f_keep]. rewrite Hk.
  rewrite (tidy_exts true (removed (init op)) (fun _ => false)).
  - rewrite (file_same rd m l Hr). destruct l as [|x l]; [contradiction|]. apply Forall_inv in Hr.
    assert (x <> []) as Hx by (destruct Hr as [Hr|(h & b & -> & _)]; [|discriminate]; destruct m;
      destruct Hr as [(c & -> & _)|[(g & d & -> & _)|Hr]]; try discriminate; [contradiction|]; destruct Hr as (id & b & -> & _); discriminate).
    destruct x; [contradiction|reflexivity].
  - intros []; cbn; auto.
Qed.

(** With the options that drop codes and end open G codes, the result is the tidy file; a file
    emptied by them is no longer a file. *)
Theorem C43_other_options_partial : forall K T (rd : reader K T) (w : writer K T) op text f,
  parse rd text = Ok f ->
  blank_options op ->
  Forall (clean rd w) f ->
  let drop g := match g with G54 => op_remove_g54 op | G55 => op_remove_g55 op | _ => false end in
  parse rd (formats w op f) =
  match tidy (op_keep_non_standalone op) drop false f with [] => Err ESyntax | f' => Ok f' end.
Proof.
  intros K T rd w op text f Hp Hb Hc drop. pose proof (parse_wf rd text) as W. rewrite Hp in W.
  destruct W as (m & l & -> & Hne & Hr). unfold formats.
  rewrite (file_through rd w (init op) (blank_init op Hb) m l Hr Hc). cbn [init f_keep].
  rewrite (tidy_exts (op_keep_non_standalone op) (removed (init op)) drop); [reflexivity|]. intros []; reflexivity.
Qed.

(** With exact numbers. *)
Theorem C43_exact_round_trip_partial : forall places trim op text f,
  parse q_reader text = Ok f ->
  blank_options op ->
  op_keep_non_standalone op = true -> op_remove_g54 op = false -> op_remove_g55 op = false ->
  Forall (fits_cmd places) f ->
  parse q_reader (formats (q_writer places trim) op f) = Ok f.
Proof.
  intros places trim op text f Hp Hb Hk H4 H5 Hc. eapply C43_round_trip_partial; eauto.
  pose proof (parse_wf q_reader text) as W. rewrite Hp in W. destruct W as (m & l & -> & Hne & Hr).
  eapply fits_file; eauto.
Qed.

(** The parser itself: it never fails for want of fuel, so [parse] models the loop to the end. *)
Theorem C43_parser_terminates : forall K T (rd : reader K T) text, parse rd text <> Err (EOther EFuel).
Proof. intros K T rd text H. pose proof (parse_wf rd text) as W. rewrite H in W. congruence. Qed.

(** Names: the letters they are made of, and that they end where these end.  User names, of
    attributes that are not standard, do not begin with a dot. *)
Definition letters : string := "ABCDEFGHIJKLMNOPQRSTUVWXYZabcdefghijklmnopqrstuvwxyz".
Definition name_letter (c : ascii) : Prop := In c (lit (letters ++ "0123456789._")).
Definition name_over (s : str) : Prop := match s with c :: _ => ~ name_letter c | [] => True end.
Ltac each_char c H := destruct c as [[] [] [] [] [] [] [] []]; vm_compute in H |- *; try tauto; try discriminate H; try reflexivity.
Lemma name_letter_is c : name_letter c <-> name_char c = true.
Proof.
  unfold name_letter. split; intros H.
  - assert (A : forallb name_char (lit (letters ++ "0123456789._")) = true) by (vm_compute; reflexivity). rewrite forallb_forall in A. auto.
  - each_char c H.
Qed.
Lemma user_first_is c : In c (lit (letters ++ "_$")) <-> user_start c = true.
Proof.
  split; intros H.
  - assert (A : forallb user_start (lit (letters ++ "_$")) = true) by (vm_compute; reflexivity). rewrite forallb_forall in A. auto.
  - each_char c H.
Qed.
Lemma name_first_is c : In c (lit (letters ++ "._$")) <-> name_start c = true.
Proof.
  split; intros H.
  - assert (A : forallb name_start (lit (letters ++ "._$")) = true) by (vm_compute; reflexivity). rewrite forallb_forall in A. auto.
  - each_char c H.
Qed.
Lemma name_over_is s : name_over s -> head_is name_char s = false.
Proof.
  destruct s as [|c s]; cbn; [reflexivity|]. intros H. destruct (name_char c) eqn:E; [|reflexivity].
  destruct H. apply name_letter_is, E.
Qed.
Lemma name_letters_all n : Forall name_letter n -> all name_char n.
Proof. intros H. apply forallb_forall. intros c Hc. rewrite Forall_forall in H. apply name_letter_is, H, Hc. Qed.
Theorem C43_names : forall c n s, Forall name_letter n -> name_over s ->
  (In c (lit (letters ++ "._$")) -> name_p (c :: n ++ s) = POk (c :: n) s) /\
  (In c (lit (letters ++ "_$")) -> user_name_p (c :: n ++ s) = POk (c :: n) s).
Proof.
  intros c n s Hn Hs. apply name_letters_all in Hn. apply name_over_is in Hs. split; intros H.
  - change (c :: n ++ s) with ((c :: n) ++ s). apply name_app; [|exact Hs]. exists c, n. apply name_first_is in H. auto.
  - change (c :: n ++ s) with ((c :: n) ++ s). apply user_app; [|exact Hs]. exists c, n. apply user_first_is in H. auto.
Qed.
Theorem C43_no_name : forall c s, is_ws c = false ->
  (~ In c (lit (letters ++ "._$")) -> name_p (c :: s) = PFail) /\
  (~ In c (lit (letters ++ "_$")) -> user_name_p (c :: s) = PFail).
Proof.
  intros c s Hw. split; intros H.
  - unfold name_p, token, re_name, re_word. rewrite skip_id by exact Hw. destruct (name_start c) eqn:E; [|reflexivity].
    destruct H. apply name_first_is, E.
  - unfold user_name_p, token, re_user_name, re_word. rewrite skip_id by exact Hw. destruct (user_start c) eqn:E; [|reflexivity].
    destruct H. apply user_first_is, E.
Qed.
Example C43_name : name_p (lit "Round_2.a,1") = POk (lit "Round_2.a") (lit ",1") /\ user_name_p (lit ".a") = PFail.
Proof. vm_compute. auto. Qed.
Print Assumptions C43_names.
Print Assumptions C43_no_name.

(** ** Where it fails *)
Definition default_options : options :=
  MkOptions " " (ICount 0) (ICount 0) SplitOnPrimitives false (ICount 0) (ICount 0) (ICount 0) (ICount 0) (ICount 0)
    (lit (String "010" "")) false true false false false false.
Definition back (places : Z) (s : string) : result parse_error (list (cmd Q str)) :=
  match parse q_reader (lit s) with
  | Ok f => parse q_reader (formats (q_writer places TrimYes) default_options f)
  | Err e => Err e
  end.

(** A small number is written with an exponent, which is no syntax. *)
Theorem C43_exponent_refuted :
  parse q_reader (lit "%LR0.00001*%") = Ok [CLR (1 # 100000)] /\ back (-1) "%LR0.00001*%" = Err ESyntax.
Proof. split; vm_compute; reflexivity. Qed.
(** Without decimals the zeros of an integer are trimmed. *)
Theorem C43_trimmed_integer_refuted :
  parse q_reader (lit "%IR90*%") = Ok [CIR 90] /\ back 0 "%IR90*%" = Ok [CIR 9].
Proof. split; vm_compute; reflexivity. Qed.
(** Absent fields come back as empty ones. *)
Theorem C43_absent_field_refuted :
  parse q_reader (lit "%TF.GenerationSoftware,a*%") = Ok [CTF (TFGenerationSoftware (Some (lit "a")) None None)] /\
  back (-1) "%TF.GenerationSoftware,a*%" = Ok [CTF (TFGenerationSoftware (Some (lit "a")) (Some []) (Some []))].
Proof. split; vm_compute; reflexivity. Qed.
(** A macro named C, kept apart from the circle by a space only, becomes the circle. *)
Theorem C43_macro_name_refuted :
  parse q_reader (lit "%ADD10C ,0.5*%") = Ok [CAD (MkAD (lit "D10") (TMacro (lit "C") (Some [1 # 2])))] /\
  back (-1) "%ADD10C ,0.5*%" = Ok [CAD (MkAD (lit "D10") (TCircle (1 # 2) None))].
Proof. split; vm_compute; reflexivity. Qed.
(** Removing G54 and G55 may leave nothing to parse. *)
Theorem C43_nothing_left_refuted : exists f op,
  parse q_reader (lit "G54*") = Ok f /\ blank_options op /\ Forall (clean q_reader (q_writer (-1) TrimYes)) f /\
  parse q_reader (formats (q_writer (-1) TrimYes) op f) = Err ESyntax.
Proof.
  exists [CG true G54], (MkOptions " " (ICount 0) (ICount 0) NoSplit false (ICount 0) (ICount 0) (ICount 0) (ICount 0)
    (ICount 0) [] false true true false false false).
  split; [vm_compute; reflexivity|]. split; [|split; [repeat constructor|vm_compute; reflexivity]].
  repeat (split; [reflexivity|]). repeat constructor.
Qed.

Definition fancy_options : options :=
  MkOptions " " (ICount 2) (IText (lit "  ")) SplitOnParameters true (ICount 4) (ICount 3) (ICount 1) (ICount 2) (ICount 3)
    (lit (String "013" (String "010" ""))) true true false false false false.
Example C43_ex : exists f,
  parse q_reader (lit "%FSLAX34Y34*%%MOMM*%%AMBOX*0 a box*21,1,$1,2X$1,0,0,-45*%%ABD11*%G01X1Y2D01*%AB*%%ADD12BOX,0.5*%D12*%LPC*%%TF.Part,Single,x*%G54D12*%SRX2Y3I1J0.5*%X1Y1D03*%SR*%M02*") = Ok f /\
  length f = 12 /\ Forall (fits_cmd 3) f /\ blank_options fancy_options /\
  formats (q_writer 3 TrimYes) fancy_options f <> formats (q_writer 3 TrimYes) default_options f /\
  parse q_reader (formats (q_writer 3 TrimYes) fancy_options f) = Ok f /\
  tidy false (fun g => match g with G54 => true | _ => false end) false f <> f.
Proof.
  eexists. split; [vm_compute; reflexivity|]. split; [reflexivity|]. split.
  { assert (F : forall z q, (q == inject_Z z / inject_Z 1000)%Q -> fits 3 q).
    { intros z q H. left. split; [lia|]. exists z. exact H. }
    repeat apply Forall_cons; try apply Forall_nil; try exact I.
    all: try (intros q Hq; repeat (match goal with
          | H : In _ _ |- _ => cbn in H; destruct H as [<-|[<-|[]]]
          | H : number_in _ _ |- _ => inversion H; subst; clear H end);
        first [apply (F 1000%Z); reflexivity|apply (F 2000%Z); reflexivity|apply (F 0%Z); reflexivity|apply (F 45000%Z); reflexivity]).
    - cbn. tauto.
    - cbn. split; [|intuition discriminate]. intros a Ha. injection Ha as <-. repeat apply Forall_cons; try apply Forall_nil.
      right. split; [lia|]. right. split; vm_compute; congruence.
    - cbn. split; [|tauto]. right. do 4 eexists. reflexivity. }
  split; [repeat (split; [reflexivity|]); repeat constructor|].
  split; [vm_compute; discriminate|]. split; [vm_compute; reflexivity|vm_compute; discriminate].
Qed.

(** ** C45 *)
(** Full statement of C45: SR and ADP commands with any subset of their optional fields are
    written so that parsing returns the same fields.
    For SR it holds exactly when either all fields or none are there. *)
Theorem C45_step_repeat_partial : forall o h rest,
  wf_sr h ->
  let text := ext o (lit "SR") (fmt_sr h) ++ rest in
  let full := exists x y i j, h = MkSR (Some x) (Some y) (Some i) (Some j) in
  let empty := h = MkSR None None None None in
  (full \/ empty -> sr_open_p text = POk h (f_lf o ++ rest)) /\
  (~ full -> sr_x h <> None -> sr_open_p text = PFail) /\
  (sr_x h = None -> sr_open_p text = POk (MkSR None None None None) (f_lf o ++ rest)).
Proof.
  intros o h rest Hw text full empty. subst text.
  replace (ext o (lit "SR") (fmt_sr h) ++ rest) with (lit "%SR" ++ fmt_sr h ++ lit "*%" ++ f_lf o ++ rest)
    by (unfold ext; rewrite <- !app_assoc; reflexivity).
  set (s := f_lf o ++ rest). clearbody s. split; [|split].
  - intros H. apply sr_header; [exact Hw|]. unfold clean_sr. tauto.
  - intros Hn Hx. destruct h as [[x|] y i j]; [|contradiction]. destruct Hw as (Wx & Wy & Wi & Wj).
    cbn [sr_x sr_y sr_i sr_j opt_ok fmt_sr] in *. rewrite <- !app_assoc. unfold sr_open_p, extended.
    change (lit "%SR") with (lit "%" ++ lit "SR"). rewrite <- app_assoc.
    match goal with |- context [x ++ ?t] => set (tl := t) end.
    eapply then_ok; [refine (lit_app "%" _ _); reflexivity|].
    assert (Hx' : opt (lit_p "X" ;; double_p) (lit "X" ++ x ++ tl) = POk (Some x) tl).
    { apply opt_some; [reflexivity|]. eapply then_ok; [refine (lit_app "X" _ _); reflexivity|].
      apply double_app; [exact Wx|reflexivity]. }
    destruct y as [y|].
    2: { eapply bind_ok; [eapply then_ok; [refine (lit_app "SR" _ _); reflexivity|]; eapply bind_ok; [exact Hx'|]; reflexivity|reflexivity]. }
    destruct i as [i|].
    2: { eapply bind_ok; [eapply then_ok; [refine (lit_app "SR" _ _); reflexivity|]; eapply bind_ok; [exact Hx'|];
           eapply bind_ok; [apply opt_some; [reflexivity|]; eapply then_ok; [refine (lit_app "Y" _ _); reflexivity|];
             apply double_app; [exact Wy|reflexivity]|]; reflexivity|reflexivity]. }
    destruct j as [j|].
    2: { eapply bind_ok; [eapply then_ok; [refine (lit_app "SR" _ _); reflexivity|]; eapply bind_ok; [exact Hx'|];
           eapply bind_ok; [apply opt_some; [reflexivity|]; eapply then_ok; [refine (lit_app "Y" _ _); reflexivity|];
             apply double_app; [exact Wy|reflexivity]|];
           eapply bind_ok; [apply opt_some; [reflexivity|]; eapply then_ok; [refine (lit_app "I" _ _); reflexivity|];
             apply double_app; [exact Wi|reflexivity]|]; reflexivity|reflexivity]. }
    exfalso. apply Hn. do 4 eexists. reflexivity.
  - intros Hx. destruct h as [[x|] y i j]; [discriminate|]. reflexivity.
Qed.

(** The parser accepts headers with only some of the fields. *)
Theorem C45_step_repeat_refuted :
  (exists h, @sr_open_p (lit "%SRX2Y3*%") = POk h [] /\ sr_open_p (ext bare (lit "SR") (fmt_sr h)) = PFail) /\
  (exists h, @sr_open_p (lit "%SRY3I5J1*%") = POk h [] /\
     sr_open_p (ext bare (lit "SR") (fmt_sr h)) = POk (MkSR None None None None) []) /\
  back (-1) "%SRX2Y3*%%SR*%" = Err ESyntax.
Proof.
  split; [eexists; split; vm_compute; reflexivity|]. split; [eexists; split; vm_compute; reflexivity|].
  vm_compute; reflexivity.
Qed.

(** For ADP it fails exactly for a hole without a rotation, which is then read as the rotation; the
    parser does not yield that, but the AST allows it. *)
Theorem C45_polygon_partial : forall K T (rd : reader K T) (w : writer K T) o n id d v r h rest,
  id_text id -> kept rd w d -> kept_opt (kept rd w) r -> kept_opt (kept rd w) h ->
  let text := fmt_leaf w o [] (CAD (T := T) (MkAD id (TPolygon d v r h))) in
  length text < n ->
  (r <> None \/ h = None ->
   add_aperture rd n (text ++ rest) = POk (CAD (MkAD id (TPolygon d v r h))) (f_lf o ++ rest)) /\
  (forall k, r = None -> h = Some k ->
   add_aperture rd n (text ++ rest) = POk (CAD (MkAD id (TPolygon d v (Some k) None))) (f_lf o ++ rest)).
Proof.
  intros K T rd w o n id d v r h rest Hid Hd Hr Hh text Hn.
  assert (N : forall k, kept rd w k -> num_ok rd k).
  { intros k [H1 H2]. exists (w_num w k). split; [exact H1|]. symmetry. exact H2. }
  assert (G : forall r' h', kept_opt (kept rd w) r' -> kept_opt (kept rd w) h' -> (r' = None -> h' = None) ->
    text = fmt_leaf w o [] (CAD (T := T) (MkAD id (TPolygon d v r' h'))) ->
    add_aperture rd n (text ++ rest) = POk (CAD (MkAD id (TPolygon d v r' h'))) (f_lf o ++ rest)).
  { intros r' h' Hr' Hh' Hn' E. rewrite E.
    assert (E2 : fmt_leaf w o [] (CAD (T := T) (MkAD id (TPolygon d v r' h'))) =
                 cmd_text w (CAD (T := T) (MkAD id (TPolygon d v r' h'))) ++ f_lf o).
    { unfold cmd_text, fmt_leaf. cbn [ad_template ad_id fmt_template app]. unfold ext. cbn [bare f_lf].
      rewrite app_nil_r, <- !app_assoc. reflexivity. }
    rewrite E2, <- app_assoc. apply read_ad.
    - split; [exact Hid|]. cbn. repeat split; auto.
      + destruct r'; [apply N, Hr'; reflexivity|exact I].
      + destruct h'; [apply N, Hh'; reflexivity|exact I].
    - cbn. auto.
    - rewrite E, E2, app_length in Hn. lia. }
  split.
  - intros H. apply G; auto. destruct H as [H|H]; [congruence|auto].
  - intros k -> ->. apply G; auto; try discriminate.
    subst text. unfold fmt_leaf. cbn [ad_template ad_id fmt_template opt_num opt_text option_map]. rewrite app_nil_r. reflexivity.
Qed.
Theorem C45_polygon_refuted : exists a,
  let text := fmt_leaf (q_writer (-1) TrimYes) bare [] (CAD (K := Q) (T := str) a) in
  add_aperture (T := str) q_reader (S (length text)) text = POk (CAD (MkAD (lit "D10") (TPolygon 1%Q 5 (Some (1 # 2)) None))) [] /\
  a = MkAD (lit "D10") (TPolygon 1%Q 5 None (Some (1 # 2))).
Proof. eexists. split; [|reflexivity]. vm_compute. reflexivity. Qed.

Example C45_ex :
  fmt_sr (MkSR (Some (lit "2")) (Some (lit "3")) (Some (lit "1.5")) (Some (lit ".5"))) = lit "X2Y3I1.5J.5" /\
  sr_open_p (lit "%SRX2Y3I1.5J.5*%") = POk (MkSR (Some (lit "2")) (Some (lit "3")) (Some (lit "1.5")) (Some (lit ".5"))) [] /\
  back (-1) "%ADD10P,1X5X2X.5*%" = Ok [CAD (MkAD (lit "D10") (TPolygon 1%Q 5 (Some 2%Q) (Some (1 # 2))))].
Proof. repeat split; vm_compute; reflexivity. Qed.

Print Assumptions C43_round_trip_partial.
Print Assumptions C43_other_options_partial.
Print Assumptions C43_exact_round_trip_partial.
Print Assumptions C43_parser_terminates.
Print Assumptions C43_exponent_refuted.
Print Assumptions C43_trimmed_integer_refuted.
Print Assumptions C43_absent_field_refuted.
Print Assumptions C43_macro_name_refuted.
Print Assumptions C43_nothing_left_refuted.
Print Assumptions C45_step_repeat_partial.
Print Assumptions C45_step_repeat_refuted.
Print Assumptions C45_polygon_partial.
Print Assumptions C45_polygon_refuted.

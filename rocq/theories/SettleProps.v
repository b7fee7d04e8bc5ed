(** C87: formatting again changes nothing, and what fewer decimals do to a file. *)
From Verif Require Import Base Num CoordModel Ast GramAst PegModel GramModel FmtModel GramText GramExpr
  GramExprRt GramExprSpec NumTextModel NumTextSpec NumTextProofs GramNum GramTok GramWf GramFileSpec GramTidy GramRt GramExact
  GramExplicit GramExplFile GramProps LinkProps PresetModel SettleSpec SettleProofs.
From Coq Require Import Qabs.
Local Open Scope nat_scope.

(** Formatting, parsing and formatting again gives the text of the first time.  A removed code may
    not stand in a block, and with [keep_non_standalone_codes] nowhere; see below. *)
Definition codes_told {K T} (op : options) : cmd K T -> list gcode :=
  if op_keep_non_standalone op then codes_in else codes_inside.

Lemma again_items K T (rd : reader K T) (w : writer K T) op m l f' :
  Forall (root rd m) l -> blank_texts op -> Forall (clean rd w) (concat l) ->
  (op_explicit_parenthesis op = true -> Forall signs_apart (flat_map exprs_in (concat l))) ->
  (forall g, In g (flat_map (codes_told op) (concat l)) -> removes op g = false) ->
  parse rd (formats w op (concat l)) = Ok f' -> formats w op f' = formats w op (concat l).
Proof.
  intros Hr Hb Hc Ha Hg Hp. rewrite (written_items K T rd w op m l Hr Hb Hc Ha) in Hp.
  set (f1 := if op_explicit_parenthesis op then map expl_cmd (concat l) else concat l) in *.
  assert (E1 : fmt_cmds w (init op) [] f1 = fmt_cmds w (init op) [] (concat l)).
  { subst f1. destruct (op_explicit_parenthesis op) eqn:E; [|reflexivity]. apply expl_fmts. exact E. }
  assert (G : forall g, In g (flat_map (codes_told op) f1) -> removes op g = false).
  { intros g Hi. apply Hg. subst f1. destruct (op_explicit_parenthesis op); [|exact Hi].
    apply in_flat_map in Hi. destruct Hi as (c & Hi & Hx). apply in_map_iff in Hi. destruct Hi as (c0 & <- & Hi).
    apply in_flat_map. exists c0. split; [exact Hi|]. unfold codes_told in *. destruct (op_keep_non_standalone op).
    - rewrite expl_codes in Hx. exact Hx.
    - pose proof (expl_codes c0) as X. destruct c0; try contradiction; exact Hx || (cbn [codes_inside expl_cmd] in *; rewrite <- X; exact Hx). }
  assert (R : Forall (root rd m) (if op_explicit_parenthesis op then map (map expl_cmd) l else l)).
  { destruct (op_explicit_parenthesis op); [|exact Hr]. eapply map_items; [apply expl_root|exact Hr|]. apply apart_concat, apart_flat, Ha. reflexivity. }
  assert (F1 : f1 = concat (if op_explicit_parenthesis op then map (map expl_cmd) l else l)).
  { subst f1. destruct (op_explicit_parenthesis op); [apply expl_concat|reflexivity]. }
  unfold formats. rewrite <- E1. f_equal.
  assert (f' = tidy (op_keep_non_standalone op) (removes op) false f1) as -> by (destruct (tidy _ _ _ f1); congruence).
  rewrite (tidy_exts (op_keep_non_standalone op) (removes op) (removed (init op))) by (intros []; reflexivity).
  unfold codes_told in G. destruct (op_keep_non_standalone op) eqn:Ek.
  - rewrite tidy_nothings.
    + rewrite F1, (file_same rd m _ R). reflexivity.
    + apply codes_flat. intros g Hi. rewrite <- (G g Hi). destruct g; reflexivity.
  - apply tidy_fmt; [exact Ek|]. intros g Hi. rewrite <- (G g Hi). destruct g; reflexivity.
Qed.

(** Full statement of C87: for all files of the parser and all options, the file formatted, parsed
    and formatted again gives the same text.  It holds for the files whose values survive ([clean])
    and where the removed codes are told ([codes_told]); the rest is refuted below. *)
Theorem C87_again_partial : forall K T (rd : reader K T) (w : writer K T) op text f f',
  parse rd text = Ok f -> blank_texts op -> Forall (clean rd w) f ->
  (op_explicit_parenthesis op = true -> Forall signs_apart (flat_map exprs_in f)) ->
  (forall g, In g (flat_map (codes_told op) f) -> removes op g = false) ->
  parse rd (formats w op f) = Ok f' -> formats w op f' = formats w op f.
Proof.
  intros K T rd w op text f f' Hp. pose proof (parse_wf rd text) as W. rewrite Hp in W. destruct W as (m & l & -> & _ & Hr).
  exact (again_items K T rd w op m l f' Hr).
Qed.

(** With a number of decimals: the numbers come back rounded to them, and stay so.  [r] is the
    rounding, [RoundedTo] to lowest terms.  A negative number may not be rounded to zero: it is
    written with its sign, which the exact numbers of this model do not have at zero. *)
Definition rounds (d : nat) (r : Q -> Q) : Prop := forall q, RoundedTo d q (r q) /\ Qred (r q) = r q.
Definition settles (r : Q -> Q) : cmd Q str -> Prop := values_cmd (settled r) fits_str (fun _ => True).

Lemma re_signs r (e : expr Q) : signs_apart e -> signs_apart (re_expr r e).
Proof.
  assert (P : forall e : expr Q, plus_sign (re_expr r e) -> plus_sign e).
  { induction e0; cbn [re_expr]; intros H; inversion H; subst; constructor; auto. }
  assert (L : forall h t, Forall (fun e => signs_apart e -> signs_apart (re_expr r e)) (h :: t) -> (forall e, In e (h :: t) -> signs_apart e) ->
    forall e, In e (re_expr r h :: map (re_expr r) t) -> signs_apart e).
  { intros h t F H x Hx. change (re_expr r h :: map (re_expr r) t) with (map (re_expr r) (h :: t)) in Hx. apply in_map_iff in Hx.
    destruct Hx as (y & <- & Hy). rewrite Forall_forall in F. auto. }
  induction e as [k|v|e IH|e IH|e IH|h t IHh IHt|h t IHh IHt|h t IHh IHt|h t IHh IHt] using expr_ind'; cbn [re_expr]; intros H;
    inversion H; subst; constructor; auto; apply (L h t); auto.
Qed.
Lemma re_apart r (f : list (cmd Q str)) : Forall signs_apart (flat_map exprs_in f) -> Forall signs_apart (flat_map exprs_in (map (re_cmd r) f)).
Proof.
  assert (C : forall c : cmd Q str, Forall signs_apart (exprs_in c) -> Forall signs_apart (exprs_in (re_cmd r c))).
  { induction c as [id b Hb|h b Hb|c Hl] using cmd_ind'.
    - cbn [exprs_in re_cmd]. induction Hb; cbn; [constructor|]. intros A. apply Forall_app in A. destruct A. apply Forall_app. auto.
    - cbn [exprs_in re_cmd]. induction Hb; cbn; [constructor|]. intros A. apply Forall_app in A. destruct A. apply Forall_app. auto.
    - destruct c; try contradiction; cbn [re_cmd]; try (intros _; constructor); try (destruct a; intros _; constructor).
      cbn [exprs_in]. induction prims as [|p ps IH]; cbn; [constructor|]. intros A. apply Forall_app in A. destruct A as [A1 A2].
      apply Forall_app. split; [|auto]. rewrite re_exprs. apply Forall_map. eapply Forall_impl; [|exact A1]. intros e. apply re_signs. }
  induction f as [|c f IH]; cbn; [constructor|]. intros A. apply Forall_app in A. destruct A. apply Forall_app. auto.
Qed.
Lemma re_codes r (c : cmd Q str) : codes_in (re_cmd r c) = codes_in c.
Proof.
  assert (L : forall b : list (cmd Q str), Forall (fun c => codes_in (re_cmd r c) = codes_in c) b -> flat_map codes_in (map (re_cmd r) b) = flat_map codes_in b).
  { induction 1 as [|x l Hx _ IH]; [reflexivity|]. cbn [map flat_map]. rewrite Hx, IH. reflexivity. }
  induction c as [id b Hb|h b Hb|c Hl] using cmd_ind'; [exact (L b Hb)|exact (L b Hb)|]. destruct c; try contradiction; try reflexivity; destruct a; reflexivity.
Qed.
Lemma re_told r op (f : list (cmd Q str)) : flat_map (codes_told op) (map (re_cmd r) f) = flat_map (codes_told op) f.
Proof.
  induction f as [|c f IH]; [reflexivity|]. cbn [map flat_map]. rewrite IH. f_equal. unfold codes_told. pose proof (re_codes r c) as E.
  destruct (op_keep_non_standalone op); [exact E|]. destruct c; try exact E; try reflexivity; destruct a; reflexivity.
Qed.

Section Rounded.
  Variables (d : nat) (tr : trim_mode) (r : Q -> Q).
  Hypothesis Hd : 1 <= d.
  Hypothesis Hr : rounds d r.
  Notation w := (q_writer (Z.of_nat d) tr).
  Lemma rounded_file m l : Forall (root q_reader m) l -> Forall (settles r) (concat l) ->
    Forall (root q_reader m) (map (map (re_cmd r)) l) /\ Forall (clean q_reader w) (concat (map (map (re_cmd r)) l)) /\
    (forall op, formats w op (concat (map (map (re_cmd r)) l)) = formats w op (concat l)).
  Proof.
    intros H1 H2. assert (R : Forall (root q_reader m) (map (map (re_cmd r)) l)).
    { apply Forall_map. eapply Forall_impl; [|exact H1]. intros x. apply re_root.
      - exact (r_num_ok d tr r Hd Hr).
      - exact (r_float_ok d tr r Hd Hr).
      - exact (r_const_ok d tr r Hd Hr). }
    split; [exact R|]. split.
    - apply (fits_file (Z.of_nat d) tr m _ R). rewrite <- concat_map. apply Forall_map. eapply Forall_impl; [|exact H2].
      intros c Hc. unfold fits_cmd. apply (re_values r (settled r) (fits (Z.of_nat d)) fits_str); [exact (r_fits d r Hd Hr)|].
      revert Hc. apply values_int. intros; lia.
    - intros op. unfold formats. rewrite <- concat_map. f_equal.
      apply (re_cmds_fmt r w (settled r) (r_same d tr r Hd Hr) fits_str (fun _ => True)). exact H2.
  Qed.
End Rounded.

Theorem C87_rounded_partial : forall d tr r op text f,
  1 <= d -> rounds d r -> parse q_reader text = Ok f -> blank_texts op -> Forall (settles r) f ->
  (op_explicit_parenthesis op = true -> Forall signs_apart (flat_map exprs_in f)) ->
  let f1 := map (re_cmd r) f in
  let f2 := if op_explicit_parenthesis op then map expl_cmd f1 else f1 in
  parse q_reader (formats (q_writer (Z.of_nat d) tr) op f) =
  match tidy (op_keep_non_standalone op) (removes op) false f2 with [] => Err ESyntax | f' => Ok f' end.
Proof.
  intros d tr r op text f Hd Hr Hp Hb Hs Ha. pose proof (parse_wf q_reader text) as W. rewrite Hp in W.
  destruct W as (m & l & -> & _ & Hl). destruct (rounded_file d tr r Hd Hr m l Hl Hs) as (R1 & R2 & R3).
  rewrite <- R3. cbv zeta. rewrite (concat_map (re_cmd r)). apply (written_items Q str q_reader _ op m); auto.
  intros E. rewrite <- concat_map. apply re_apart. auto.
Qed.
Theorem C87_rounded_again_partial : forall d tr r op text f f',
  1 <= d -> rounds d r -> parse q_reader text = Ok f -> blank_texts op -> Forall (settles r) f ->
  (op_explicit_parenthesis op = true -> Forall signs_apart (flat_map exprs_in f)) ->
  (forall g, In g (flat_map (codes_told op) f) -> removes op g = false) ->
  parse q_reader (formats (q_writer (Z.of_nat d) tr) op f) = Ok f' ->
  formats (q_writer (Z.of_nat d) tr) op f' = formats (q_writer (Z.of_nat d) tr) op f.
Proof.
  intros d tr r op text f f' Hd Hr Hp Hb Hs Ha Hg. pose proof (parse_wf q_reader text) as W. rewrite Hp in W.
  destruct W as (m & l & -> & _ & Hl). destruct (rounded_file d tr r Hd Hr m l Hl Hs) as (R1 & R2 & R3).
  rewrite <- (R3 op). apply (again_items Q str q_reader _ op m); auto.
  - intros E. rewrite <- concat_map. apply re_apart. auto.
  - intros g. rewrite <- concat_map, re_told. apply Hg.
Qed.

(** The presets of the package. *)
Definition preset (op : options) : Prop := op = extra_indent \/ op = balanced \/ op = small_indent.
Theorem C87_presets_partial : forall op r text f,
  preset op -> rounds 6 r -> parse q_reader text = Ok f -> Forall (settles r) f ->
  let w := q_writer preset_places TrimYes in
  (parse q_reader (formats w op f) =
   match tidy false (fun g => match g with G54 | G55 => true | _ => false end) false (map (re_cmd r) f) with [] => Err ESyntax | f' => Ok f' end) /\
  (~ In G54 (flat_map codes_inside f) -> ~ In G55 (flat_map codes_inside f) ->
   forall f', parse q_reader (formats w op f) = Ok f' -> formats w op f' = formats w op f).
Proof.
  intros op r text f Ho Hr Hp Hs w.
  assert (B : blank_texts op /\ op_explicit_parenthesis op = false /\ op_keep_non_standalone op = false /\
              forall g, removes op g = match g with G54 | G55 => true | _ => false end).
  { destruct Ho as [->|[->| ->]]; (split; [split; [reflexivity|split; [reflexivity|repeat constructor]]|]); repeat split; intros []; reflexivity. }
  destruct B as (Hb & He & Hk & Hm).
  assert (H6 : (1 <= 6)%nat) by lia.
  assert (Ha : op_explicit_parenthesis op = true -> Forall signs_apart (flat_map exprs_in f)) by congruence.
  split.
  - change w with (q_writer (Z.of_nat 6) TrimYes). rewrite (C87_rounded_partial 6 TrimYes r op text f H6 Hr Hp Hb Hs Ha). rewrite He, Hk.
    rewrite (tidy_exts false (removes op) _ Hm). reflexivity.
  - intros H1 H2 f' Hf. change w with (q_writer (Z.of_nat 6) TrimYes) in *.
    apply (C87_rounded_again_partial 6 TrimYes r op text f f' H6 Hr Hp Hb Hs Ha); [|exact Hf].
    unfold codes_told. rewrite Hk. intros g Hg. rewrite Hm. destruct g; congruence || reflexivity.
Qed.
(** Two of them are the same. *)
Theorem C87_same_presets : balanced = small_indent.
Proof. reflexivity. Qed.

(** ** Where it fails *)
Definition settle (places : Z) (op : options) (t : string) : option (string * string) :=
  let w := q_writer places TrimYes in
  match parse q_reader (lit t) with
  | Ok f => match parse q_reader (formats w op f) with
            | Ok f' => Some (string_of_list_ascii (formats w op f), string_of_list_ascii (formats w op f'))
            | Err _ => None
            end
  | Err _ => None
  end.
(** A code removed from a block leaves its indent, which is gone the second time. *)
Definition nl : string := String "010" "".
Theorem C87_removed_inside_refuted :
  settle preset_places balanced "%ABD10*%G54*D11*%AB*%M02*" =
    Some ("%ABD10*%" ++ nl ++ "    D11*" ++ nl ++ "%AB*%" ++ nl ++ "M02*" ++ nl,
          "%ABD10*%" ++ nl ++ "  D11*" ++ nl ++ "%AB*%" ++ nl ++ "M02*" ++ nl)%string.
Proof. vm_compute. reflexivity. Qed.
(** A code removed from the front of an operation takes the place of its indent. *)
Definition glued_options : options :=
  MkOptions " " (ICount 0) (ICount 0) SplitOnPrimitives false (ICount 0) (ICount 0) (ICount 2) (ICount 0) (ICount 0)
    (lit nl) false true true false false false.
Theorem C87_removed_glued_refuted :
  settle (-1) glued_options "G54X1D01*M02*" = Some ("X1D01*" ++ nl ++ "M02*" ++ nl, "  X1D01*" ++ nl ++ "M02*" ++ nl)%string.
Proof. vm_compute. reflexivity. Qed.

(** ** A case *)
Lemma some_rounding d : rounds d (fun q => Qred (CoordProofs.on_grid q d)).
Proof.
  intros q. split.
  - destruct (on_grid_rounded q d) as (m & H & H'). exists m. split; [rewrite Qred_correct; exact H|exact H'].
  - apply Qred_complete, Qred_correct.
Qed.
Definition fine_file : string :=
  "%ADD10C,0.12345678X-0.0000015*%%AMA*1,1,$1x1.00000049,0,0*%G54D10*%ABD11*%G01X1D01*%AB*%%LR-45.00000051*%%LPC*%M02*".
Example C87_case : exists f f',
  let r := fun q => Qred (CoordProofs.on_grid q 6) in
  let w := q_writer preset_places TrimYes in
  rounds 6 r /\ parse q_reader (lit fine_file) = Ok f /\ Forall (settles r) f /\
  parse q_reader (formats w balanced f) = Ok f' /\ formats w balanced f' = formats w balanced f /\
  f' <> f /\ length f = 8 /\ length f' = 7 /\
  string_of_list_ascii (formats w balanced f) =
    ("%ADD10C,0.123457X-0.000002*%" ++ nl ++ "%AMA*" ++ nl ++ "  1,1,$1x1,0,0*" ++ nl ++ "%" ++ nl ++ "D10*" ++ nl ++
     "%ABD11*%" ++ nl ++ "  G01*" ++ nl ++ "  X1D01*" ++ nl ++ "%AB*%" ++ nl ++ "%LR-45.000001*%" ++ nl ++ nl ++ "%LPC*%" ++ nl ++ "M02*" ++ nl)%string.
Proof.
  do 2 eexists. cbv zeta. split; [apply some_rounding|]. split; [vm_compute; reflexivity|]. split.
  { repeat apply Forall_cons; try apply Forall_nil; try exact I.
    all: try (intros q Hq; repeat (match goal with
          | H : In _ _ |- _ => cbn in H; destruct H as [<-|[<-|[]]]
          | H : number_in _ _ |- _ => inversion H; subst; clear H end); left; vm_compute; congruence).
    - split; [left; vm_compute; congruence|]. intros a Ha. injection Ha as <-. right. vm_compute. discriminate.
    - cbn. tauto.
    - right. vm_compute. discriminate. }
  split; [vm_compute; reflexivity|]. split; [vm_compute; reflexivity|]. split; [discriminate|]. split; [reflexivity|]. split; [reflexivity|].
  vm_compute. reflexivity.
Qed.
(** The other presets. *)
Example C87_presets_case :
  settle preset_places extra_indent "%SRX2Y1I1J0*%G36*X1Y2D02*X3I4J5D01*G37*%SR*%G55X1Y1D03*" =
    (let t := "%SRX2Y1I1J0*%" ++ nl ++ "    G36*" ++ nl ++ "      X1Y2D02*" ++ nl ++ "      X3I4J5D01*" ++ nl ++ "    G37*" ++ nl ++
      "%SR*%" ++ nl ++ "  X1Y1D03*" ++ nl in Some (t, t))%string /\
  settle 3 fancy_options "%LR-0.0004*%" = Some ("%LR-0*%" ++ String "013" nl, "%LR0*%" ++ String "013" nl)%string.
Proof. split; vm_compute; reflexivity. Qed.

Print Assumptions C87_again_partial.
Print Assumptions C87_rounded_partial.
Print Assumptions C87_rounded_again_partial.
Print Assumptions C87_presets_partial.
Print Assumptions C87_same_presets.
Print Assumptions C87_removed_inside_refuted.
Print Assumptions C87_removed_glued_refuted.

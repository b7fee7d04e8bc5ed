(** The text of a command without a body is read as that command. *)
From Verif Require Import Base Num CoordModel CoordProofs Ast GramAst PegModel GramModel FmtModel GramText GramExpr GramExprRt
  GramExprSpec GramTok GramWf GramFileSpec.
Local Open Scope nat_scope.

Definition bare : settings := MkSettings [] [] NoSplit false [] [] [] [] [] [] [] true false false false.

Lemma bind_ok {A B} (p : parser A) (f : A -> parser B) s a r x : p s = POk a r -> f a r = x -> pbind p f s = x.
Proof. intros H <-. unfold pbind. rewrite H. reflexivity. Qed.
Lemma then_ok {A B} (p : parser A) (q : parser B) s a r x : p s = POk a r -> q r = x -> (p ;; q) s = x.
Proof. apply (bind_ok p (fun _ => q)). Qed.
Lemma then_fail {A B} (p : parser A) (q : parser B) s : p s = PFail -> (p ;; q) s = PFail.
Proof. intros H. unfold pthen, pbind. rewrite H. reflexivity. Qed.
Lemma bind_fail {A B} (p : parser A) (f : A -> parser B) s : p s = PFail -> pbind p f s = PFail.
Proof. intros H. unfold pbind. rewrite H. reflexivity. Qed.
Lemma first_skip {A} (p : parser A) ps s x : p s = PFail -> first_of ps s = x -> first_of (p :: ps) s = x.
Proof. intros H <-. cbn. rewrite H. reflexivity. Qed.
Lemma first_hit {A} (p : parser A) ps s a r : p s = POk a r -> first_of (p :: ps) s = POk a r.
Proof. intros H. cbn. rewrite H. reflexivity. Qed.
Lemma opt_some {A} (p : parser A) s a r : head_is is_ws s = false -> p s = POk a r -> opt p s = POk (Some a) r.
Proof. intros H1 H2. unfold opt. rewrite skip_id, H2 by exact H1. reflexivity. Qed.
Lemma opt_none {A} (p : parser A) s : head_is is_ws s = false -> p s = PFail -> opt p s = POk None s.
Proof. intros H1 H2. unfold opt. rewrite skip_id, H2 by exact H1. reflexivity. Qed.
Lemma raw_some {A} (p : parser A) s a r : p s = POk a r -> opt_raw p s = POk (Some a) r.
Proof. intros H. unfold opt_raw. rewrite H. reflexivity. Qed.
Lemma lit_app l s : head_is is_ws (lit l ++ s) = false -> lit_p l (lit l ++ s) = POk tt s.
Proof. intros H. unfold lit_p, token. rewrite skip_id, strip_prefix_app by exact H. reflexivity. Qed.

Lemma ext_read {A} (p : parser A) x a s :
  p x = POk a ("*"%char :: "%"%char :: s) -> extended p ("%"%char :: x) = POk a s.
Proof.
  intros H. unfold extended. eapply then_ok; [apply (lit_app "%" _ eq_refl)|]. eapply bind_ok; [exact H|].
  eapply then_ok; [apply (lit_app "*" _ eq_refl)|]. eapply then_ok; [apply (lit_app "%" _ eq_refl)|]. reflexivity.
Qed.
Lemma com_read {A} (p : parser A) x a s : p x = POk a ("*"%char :: s) -> command p x = POk a s.
Proof.
  intros H. unfold command. eapply bind_ok; [exact H|]. eapply then_ok; [apply (lit_app "*" _ eq_refl)|]. reflexivity.
Qed.

Lemma com_fail {A} (p : parser A) x a r : p x = POk a r -> asterisk r = PFail -> command p x = PFail.
Proof. intros H1 H2. unfold command, pthen, pbind. rewrite H1, H2. reflexivity. Qed.

(** Python [str] of an integer, read as an integer. *)
Lemma z_repr_text v : double_text (z_repr v) /\ int_of_text (z_repr v) = Some v.
Proof.
  assert (H : forall u, (0 <= u)%Z -> digits1 (int_digits u) /\ digits_value (int_digits u) = u).
  { intros u Hu. destruct (int_digits_spec u Hu) as (H1 & H2 & H3). split; [split; [exact H3|]|exact H1].
    apply all_digits_forallb. exact H2. }
  unfold z_repr. destruct (v <? 0)%Z eqn:E.
  - apply Z.ltb_lt in E. destruct (H (- v)%Z ltac:(lia)) as [H1 H2]. split.
    + exists ["-"%char], (int_digits (- v)). split; [reflexivity|]. split; [right; right; reflexivity|].
      exists (int_digits (- v)), []. split; [symmetry; apply app_nil_r|]. left. auto.
    + unfold int_of_text, opt_sign. change (is_sign ch_minus) with true. cbn iota.
      pose proof (span_app is_digit _ [] (proj2 H1) eq_refl) as Es. rewrite app_nil_r in Es. rewrite Es.
      destruct (int_digits (- v)) as [|c d] eqn:Ed; [destruct H1; congruence|]. cbn iota.
      change (Ascii.eqb ch_minus "-") with true. cbn iota. rewrite H2. f_equal. lia.
  - apply Z.ltb_ge in E. destruct (H v E) as [H1 H2]. split.
    + exists [], (int_digits v). split; [reflexivity|]. split; [left; reflexivity|].
      exists (int_digits v), []. split; [symmetry; apply app_nil_r|]. left. auto.
    + unfold int_of_text. pose proof (digits_head (int_digits v) [] H1) as [Hs _]. rewrite app_nil_r in Hs.
      assert (Eo : opt_sign (int_digits v) = ([], int_digits v)).
      { unfold opt_sign. destruct (int_digits v) as [|c d]; [reflexivity|]. cbn [head_is] in Hs. rewrite Hs. reflexivity. }
      rewrite Eo. pose proof (span_app is_digit _ [] (proj2 H1) eq_refl) as Es. rewrite app_nil_r in Es. rewrite Es.
      destruct (int_digits v) as [|c d] eqn:Ed; [destruct H1; congruence|]. cbn iota. rewrite H2. reflexivity.
Qed.
Lemma nat_digit m : m < 10 -> exists c, nat_text m = [c] /\ is_digit c = true /\ digit_nat c = m.
Proof. intros H. do 10 (destruct m as [|m]; [eexists; repeat split; reflexivity|]). lia. Qed.
Lemma digit_app c s : is_digit c = true -> token re_digit (c :: s) = POk c s.
Proof.
  intros H. unfold token. rewrite skip_id; [|apply digit_not_ws, H]. unfold re_digit. rewrite H. reflexivity.
Qed.

Section ReadNum.
  Context {K T : Type} (rd : reader K T) (w : writer K T).
  Definition cmd_text : cmd K T -> str := fmt_leaf w bare [].

  Lemma num_app k s : kept rd w k -> num_end s -> num_p rd (w_num w k ++ s) = POk k s.
  Proof.
    intros [H1 H2] H3. eapply bind_ok; [apply double_app; eassumption|]. unfold ret. rewrite H2. reflexivity.
  Qed.
  Lemma str_app k s : kept_str rd w k -> num_end s -> num_p rd (w_str w k ++ s) = POk k s.
  Proof.
    intros [H1 H2] H3. eapply bind_ok; [apply double_app; eassumption|]. unfold ret. rewrite H2. reflexivity.
  Qed.

End ReadNum.
Lemma coord_app l c t s : l = String c EmptyString -> is_ws c = false -> integer_text t ->
  head_is is_digit s = false -> coord l (c :: t ++ s) = POk t s.
Proof.
  intros -> Hc H1 H2. unfold coord. eapply then_ok; [|apply integer_app; eassumption].
  unfold caseless_p, token. rewrite skip_id by exact Hc. cbn [lit list_ascii_of_string strip_upper].
  rewrite Ascii.eqb_refl. reflexivity.
Qed.
Lemma name_not_digit name s : name_text name -> head_is is_digit (name ++ s) = false.
Proof. intros (c & a & -> & H & _). cbn [app head_is]. revert H. clear. by_char c. Qed.
Lemma ext_fail {A} (p : parser A) x : p x = PFail -> extended p ("%"%char :: x) = PFail.
Proof.
  intros H. eapply then_ok; [refine (lit_app "%" _ _); reflexivity|]. apply bind_fail, H.
Qed.

Ltac flat_app := repeat (rewrite <- app_assoc; cbn [app]).
Ltac norm_text := unfold cmd_text; cbn [fmt_leaf]; unfold ext, com;
  cbn [bare f_lf f_polarity f_d01 f_d02 f_d03 lit list_ascii_of_string app opt_text opt_num option_map];
  flat_app.
Ltac rstep := match goal with
  | |- ret _ _ = _ => reflexivity
  | |- (lit_p ?l ;; _) _ = _ => eapply then_ok; [refine (lit_app l _ _); reflexivity|]
  | |- (asterisk ;; _) _ = _ => eapply then_ok; [refine (lit_app "*" _ _); reflexivity|]
  | |- (percent ;; _) _ = _ => eapply then_ok; [refine (lit_app "%" _ _); reflexivity|]
  | |- (comma ;; _) _ = _ => eapply then_ok; [refine (lit_app "," _ _); reflexivity|]
  | |- pbind string_p _ _ = _ => eapply bind_ok; [apply string_app; [eassumption|reflexivity]|]
  | |- pbind aperture_id_p _ _ = _ => eapply bind_ok; [apply id_app; [eassumption|reflexivity]|]
  | |- pbind name_p _ _ = _ => eapply bind_ok; [apply name_app; [eassumption|reflexivity]|]
  | |- pbind user_name_p _ _ = _ => eapply bind_ok; [apply user_app; [eassumption|reflexivity]|]
  | |- pbind (num_p _) _ _ = _ =>
      eapply bind_ok; [first [apply num_app | apply str_app]; [eassumption|reflexivity]|]
  end.

Ltac bone := eapply bind_ok; [reflexivity|].
Ltac skips := repeat (apply first_skip; [reflexivity|]).
Ltac numopt := eapply bind_ok; [apply opt_some; [reflexivity|rstep; first [apply num_app | apply str_app]; [eauto|reflexivity]]|].
Ltac noopt := eapply bind_ok; [apply opt_none; reflexivity|].
Ltac copt := eapply bind_ok; [first
  [ apply opt_some; [reflexivity|apply coord_app; [reflexivity|reflexivity|eassumption|reflexivity]]
  | apply opt_none; reflexivity ]|].
Ltac xopt := eapply bind_ok; [first
  [ apply opt_some; [reflexivity|unfold x_num; rstep; apply num_app; [eauto|reflexivity]]
  | apply opt_none; reflexivity ]|].
Ltac idfail := apply first_skip; [apply ext_fail; rstep; rstep; apply then_fail; reflexivity|].
Ltac idstep := eapply bind_ok; [apply id_app; [eassumption|apply name_not_digit; assumption]|].

Section Read.
  Context {K T : Type} (rd : reader K T) (w : writer K T).
  Lemma read_load c s : wf_leaf rd c -> clean_leaf rd w c ->
    match c with CLN _ | CLP _ | CLR _ | CLS _ | CLM _ => True | _ => False end ->
    load rd (cmd_text w c ++ s) = POk c s.
  Proof.
    intros Hw Hc Hk. destruct c; try contradiction; clear Hk; cbn [wf_leaf clean_leaf] in *; norm_text; unfold load.
    - destruct m; do 4 (apply first_skip; [reflexivity|]); apply first_hit, ext_read; rstep; (eapply bind_ok; [reflexivity|]); rstep.
    - apply first_hit, ext_read. repeat rstep.
    - destruct p; (apply first_skip; [reflexivity|]); apply first_hit, ext_read; rstep; (eapply bind_ok; [reflexivity|]); rstep.
    - do 2 (apply first_skip; [reflexivity|]). apply first_hit, ext_read. repeat rstep.
    - do 3 (apply first_skip; [reflexivity|]). apply first_hit, ext_read. repeat rstep.
  Qed.

  Lemma read_properties c s : wf_leaf rd c -> clean_leaf rd w c ->
    match c with
    | CFS _ | CMO _ | CIP _ | CIR _ | COF _ _ | CAS _ | CMI _ _ | CIN _ | CSF _ _ => True | _ => False
    end ->
    properties rd (cmd_text w c ++ s) = POk c s.
  Proof.
    intros Hw Hc Hk. destruct c; try contradiction; clear Hk; cbn [wf_leaf clean_leaf] in *; unfold properties.
    - destruct c; norm_text; do 5 (apply first_skip; [reflexivity|]); apply first_hit, ext_read; rstep; bone; rstep.
    - destruct Hw as (H1 & H2 & H3 & H4). norm_text. destruct f as [z m xi xd yi yd]. cbn [fs_zeros fs_mode fs_xi fs_xd fs_yi fs_yd] in *.
      destruct (nat_digit xi H1) as (c1 & -> & D1 & E1). destruct (nat_digit xd H2) as (c2 & -> & D2 & E2).
      destruct (nat_digit yi H3) as (c3 & -> & D3 & E3). destruct (nat_digit yd H4) as (c4 & -> & D4 & E4).
      apply first_hit, ext_read. destruct z, m; cbn [zeros_text mode_text lit list_ascii_of_string app]; rstep; bone; bone;
        (eapply then_ok; [reflexivity|]); (eapply bind_ok; [apply digit_app, D1|]); (eapply bind_ok; [apply digit_app, D2|]);
        (eapply then_ok; [reflexivity|]); (eapply bind_ok; [apply digit_app, D3|]); (eapply bind_ok; [apply digit_app, D4|]);
        rewrite E1, E2, E3, E4; reflexivity.
    - norm_text. do 7 (apply first_skip; [reflexivity|]). apply first_hit, ext_read. repeat rstep.
    - destruct p; norm_text; do 2 (apply first_skip; [reflexivity|]); apply first_hit, ext_read; rstep; bone; rstep.
    - destruct Hc as [H1 H2]. norm_text. do 3 (apply first_skip; [reflexivity|]). apply first_hit. unfold ir_p.
      eapply bind_ok; [apply ext_read; rstep; apply double_app; [exact H1|reflexivity]|]. rewrite H2. reflexivity.
    - destruct Hw as [[-> | ->] [-> | ->]]; norm_text; do 6 (apply first_skip; [reflexivity|]); apply first_hit, ext_read; rstep;
        bone; bone; rstep.
    - destruct u; norm_text; do 1 (apply first_skip; [reflexivity|]); apply first_hit, ext_read; rstep; bone; rstep.
    - destruct Hc as [H1 H2]. destruct a as [a|], b as [b|]; norm_text; do 4 (apply first_skip; [reflexivity|]); apply first_hit, ext_read; rstep.
      + numopt. numopt. rstep.
      + numopt. noopt. rstep.
      + noopt. numopt. rstep.
      + noopt. noopt. rstep.
    - destruct Hc as [H1 H2]. norm_text. do 8 (apply first_skip; [reflexivity|]). apply first_hit, ext_read; rstep. numopt. numopt. reflexivity.
  Qed.
  Lemma read_m c s : match c with CM00 | CM01 | CM02 => True | _ => False end ->
    @m_codes K T (cmd_text w c ++ s) = POk c s.
  Proof. destruct c; try contradiction; intros _; reflexivity. Qed.

  (** D codes. *)
  Lemma read_d sa c s : wf_d sa c -> d_codes sa (cmd_text w c ++ s) = POk c s.
  Proof.
    intros H. destruct c; try contradiction; cbn [wf_d] in H.
    - destruct H as (-> & H1 & H2 & H3 & H4). unfold cmd_text; cbn [fmt_leaf]. 
      assert (E : line_start bare [] (f_d01 bare) sa = []) by (destruct sa; reflexivity). rewrite E. unfold com.
      apply first_skip; [destruct x, y, i, j; reflexivity|]. apply first_hit, com_read.
      destruct x, y, i, j; cbn [bare f_lf lit list_ascii_of_string app opt_text opt_ok] in *; flat_app;
        copt; copt; copt; copt; bone; reflexivity.
    - destruct H as (-> & H1 & H2). unfold cmd_text; cbn [fmt_leaf]. 
      assert (E : line_start bare [] (f_d02 bare) sa = []) by (destruct sa; reflexivity). rewrite E. unfold com.
      apply first_skip; [destruct x, y; reflexivity|].
      destruct x, y; cbn [bare f_lf lit list_ascii_of_string app opt_text opt_ok] in *; flat_app;
        (apply first_skip; [eapply com_fail; [copt; copt; copt; copt; bone; reflexivity|reflexivity]|]);
        apply first_hit, com_read; copt; copt; (eapply then_ok; [reflexivity|]); reflexivity.
    - destruct H as (-> & H1 & H2). unfold cmd_text; cbn [fmt_leaf]. 
      assert (E : line_start bare [] (f_d03 bare) sa = []) by (destruct sa; reflexivity). rewrite E. unfold com.
      apply first_skip; [destruct x, y; reflexivity|].
      destruct x, y; cbn [bare f_lf lit list_ascii_of_string app opt_text opt_ok] in *; flat_app;
        (apply first_skip; [eapply com_fail; [copt; copt; copt; copt; bone; reflexivity|reflexivity]|]);
        (apply first_skip; [apply bind_fail; copt; copt; apply then_fail; reflexivity|]);
        apply first_hit, com_read; copt; copt; (eapply then_ok; [reflexivity|]); reflexivity.
    - destruct H as (-> & H1). unfold cmd_text; cbn [fmt_leaf].
      assert (E : line_start bare [] [] sa = []) by (destruct sa; reflexivity). rewrite E. unfold com.
      apply first_hit, com_read. cbn [app bare f_lf]. rewrite <- ?app_assoc. cbn [lit list_ascii_of_string app].
      rstep. reflexivity.
  Qed.

  (** G codes. *)
  Lemma read_g c s : wf_leaf rd c -> match c with CG _ _ | CG04 _ => True | _ => False end ->
    @g_codes K T (cmd_text w c ++ s) = POk [c] s.
  Proof.
    intros Hw Hk. destruct c; try contradiction; clear Hk; cbn [wf_leaf] in Hw; unfold g_codes.
    - subst standalone. destruct g; unfold cmd_text; cbn; reflexivity.
    - norm_text. apply first_hit, com_read. eapply then_ok; [reflexivity|]. destruct s0 as [t|].
      + cbn [opt_text lit list_ascii_of_string app]. flat_app.
        eapply bind_ok; [apply raw_some, string_app; [exact Hw|reflexivity]|]. reflexivity.
      + reflexivity.
  Qed.
  Definition d_head (c : ascii) : bool := existsb (Ascii.eqb c) ["D"; "X"; "Y"; "I"; "J"]%char.
  Lemma d_text_head sa d s : wf_d sa d -> exists h r, cmd_text w d ++ s = h :: r /\ d_head h = true.
  Proof.
    intros H. destruct d; try contradiction; cbn [wf_d] in H; unfold cmd_text; cbn [fmt_leaf].
    - assert (E : line_start bare [] (f_d01 bare) standalone = []) by (destruct standalone; reflexivity). rewrite E.
      destruct x, y, i, j; eexists _, _; split; reflexivity.
    - assert (E : line_start bare [] (f_d02 bare) standalone = []) by (destruct standalone; reflexivity). rewrite E.
      destruct x, y; eexists _, _; split; reflexivity.
    - assert (E : line_start bare [] (f_d03 bare) standalone = []) by (destruct standalone; reflexivity). rewrite E.
      destruct x, y; eexists _, _; split; reflexivity.
    - assert (E : line_start bare [] [] standalone = []) by (destruct standalone; reflexivity). rewrite E.
      destruct H as (_ & z & a & d & -> & _). eexists _, _; split; reflexivity.
  Qed.
  Lemma d_head_cases c : d_head c = true -> c = "D"%char \/ c = "X"%char \/ c = "Y"%char \/ c = "I"%char \/ c = "J"%char.
  Proof. by_char c; auto 10. Qed.
  Lemma read_pair g d s : wf_d false d ->
    @g_codes K T ((lit (g_name g) ++ cmd_text w d) ++ s) = POk [CG false g; d] s.
  Proof.
    intros H. rewrite <- app_assoc. pose proof (read_d false d s H) as Hd.
    destruct (d_text_head false d s H) as (h & r & E & Hh). rewrite E in *. unfold g_codes.
    apply d_head_cases in Hh as [->|[->|[->|[->| ->]]]]; destruct g;
      cbn [g_name lit list_ascii_of_string app map g_order];
      repeat (apply first_skip; [reflexivity|]); apply first_hit;
      (eapply then_ok; [reflexivity|]); (eapply then_ok; [reflexivity|]);
      (eapply bind_ok; [exact Hd|]); reflexivity.
  Qed.

  (** Aperture definitions. *)
  Lemma name_comma l name s : l = "C"%char \/ l = "R"%char \/ l = "O"%char \/ l = "P"%char -> name_text name ->
    (head_is (Ascii.eqb ",") s = false \/ name <> [l]) ->
    lit_p (String l (String "," "")) (name ++ s) = PFail.
  Proof.
    intros Hl (c & a & -> & H1 & H2) H. unfold lit_p, token. rewrite skip_id by (exact (name_start_ws c H1)).
    cbn [lit list_ascii_of_string app strip_prefix]. destruct (Ascii.eqb l c) eqn:E; [|reflexivity].
    apply Ascii.eqb_eq in E as <-. destruct a as [|b a].
    - cbn [app]. destruct H as [H|H]; [|congruence]. destruct s as [|x s]; [reflexivity|]. cbn [head_is] in H. rewrite H. reflexivity.
    - cbn [app]. apply all_cons in H2 as [H2 _]. destruct (Ascii.eqb "," b) eqn:Eb; [|reflexivity].
      apply Ascii.eqb_eq in Eb as <-. discriminate.
  Qed.
  Lemma many_x n l s : Forall (kept_str rd w) l -> length l < n ->
    many n (x_num rd) (concat (map (fun k => lit "X" ++ w_str w k) l) ++ "*"%char :: s) = POk l ("*"%char :: s).
  Proof.
    intros Hl Hn. refine (proj1 (many_ok (x_num rd) (fun k => lit "X" ++ w_str w k) num_end ("*"%char :: s) eq_refl eq_refl l _ n Hn)).
    intros k r Hk Hr. split; [|reflexivity]. rewrite Forall_forall in Hl.
    cbn [lit list_ascii_of_string app]. unfold x_num. rstep. apply str_app; [apply Hl, Hk|exact Hr].
  Qed.
  Lemma concat_length {A} (f : A -> str) l : (forall x, f x <> []) -> length l <= length (concat (map f l)).
  Proof.
    intros H. induction l as [|x l IH]; [auto|]. cbn. rewrite app_length. specialize (H x).
    destruct (f x); [congruence|]. cbn. lia.
  Qed.
  Lemma read_ad n a s : wf_leaf rd (CAD a) -> clean_leaf rd w (CAD a) -> length (cmd_text w (CAD a)) < n ->
    @add_aperture K T rd n (cmd_text w (CAD a) ++ s) = POk (CAD a) s.
  Proof.
    destruct a as [id t]. cbn [wf_leaf clean_leaf ad_id ad_template]. intros [Hid Hw] Hc Hn. unfold add_aperture.
    revert Hn. unfold cmd_text; cbn [fmt_leaf ad_id ad_template]. unfold ext.
    destruct t as [d h|x y h|x y h|d v r h|name ps]; cbn [wf_template clean_template] in *; intros Hn.
    - destruct Hc as [H1 H2]. clear Hn. apply first_hit. destruct h; cbn [fmt_template]; norm_text; apply ext_read;
        rstep; rstep; rstep; rstep; xopt; reflexivity.
    - destruct Hc as (H1 & H2 & H3). clear Hn. destruct h; cbn [fmt_template]; norm_text; idfail; apply first_hit, ext_read;
        rstep; rstep; rstep; rstep; (eapply bind_ok; [unfold x_num; rstep; apply num_app; [eassumption|reflexivity]|]); xopt; reflexivity.
    - destruct Hc as (H1 & H2 & H3). clear Hn. destruct h; cbn [fmt_template]; norm_text; do 2 idfail; apply first_hit, ext_read;
        rstep; rstep; rstep; rstep; (eapply bind_ok; [unfold x_num; rstep; apply num_app; [eassumption|reflexivity]|]); xopt; reflexivity.
    - destruct Hc as (H1 & H2 & H3). clear Hn. destruct Hw as (_ & _ & _ & Hr). destruct (z_repr_text v) as [Z1 Z2].
      destruct r, h; try (discriminate (Hr eq_refl)); cbn [fmt_template]; norm_text; do 3 idfail; apply first_hit; unfold adp_p;
        (eapply bind_ok; [apply ext_read; rstep; rstep; rstep; rstep; rstep;
          (eapply bind_ok; [apply double_app; [exact Z1|reflexivity]|]); xopt; xopt; reflexivity|]);
        cbv beta iota; (eapply bind_ok; [unfold validate; rewrite Z2; reflexivity|]); reflexivity.
    - destruct Hw as [Hname Hps]. destruct Hc as [Hk Hm]. destruct ps as [[|p l]|]; cbn [fmt_template opt_ok] in *.
      + destruct Hps; congruence.
      + destruct Hps as [_ _]. specialize (Hk _ eq_refl). inversion Hk as [|? ? Kp Kl]; subst.
        assert (Hne : forall c, In [c] [lit "C"; lit "R"; lit "O"; lit "P"] -> name <> [c]).
        { intros c Hi ->. discriminate (Hm Hi). }
        assert (Hl : length l < n).
        { pose proof (concat_length (fun k => lit "X" ++ w_str w k) l ltac:(discriminate)) as Hcl. clear -Hn Hcl.
          do 4 (rewrite ?app_length in Hn; cbn [length lit list_ascii_of_string app] in Hn). 
          set (L := length (concat _)) in *. lia. }
        clear Hn. norm_text.
        assert (F : forall c s', In [c] [lit "C"; lit "R"; lit "O"; lit "P"] ->
          lit_p (String c (String "," "")) (name ++ s') = PFail).
        { intros c s' Hi. apply name_comma; [cbn in Hi; intuition congruence|exact Hname|right; apply Hne, Hi]. }
        do 3 (apply first_skip; [apply ext_fail; rstep; idstep; apply then_fail, F; cbn; tauto|]).
        apply first_skip; [apply bind_fail, ext_fail; rstep; idstep; apply then_fail, F; cbn; tauto|].
        apply first_hit, ext_read. rstep. idstep. rstep. eapply bind_ok.
        { apply opt_some; [reflexivity|]. rstep. eapply bind_ok; [apply str_app; [exact Kp|destruct l; reflexivity]|].
          eapply bind_ok; [exact (many_x n l _ Kl Hl)|reflexivity]. }
        reflexivity.
      + clear Hn. norm_text.
        assert (F : forall c s', c = "C"%char \/ c = "R"%char \/ c = "O"%char \/ c = "P"%char ->
          lit_p (String c (String "," "")) (name ++ "*"%char :: s') = PFail).
        { intros c s' Hi. apply name_comma; [exact Hi|exact Hname|left; reflexivity]. }
        do 3 (apply first_skip; [apply ext_fail; rstep; idstep; apply then_fail, F; tauto|]).
        apply first_skip; [apply bind_fail, ext_fail; rstep; idstep; apply then_fail, F; tauto|].
        apply first_hit, ext_read. rstep. idstep. rstep. reflexivity.
  Qed.
End Read.

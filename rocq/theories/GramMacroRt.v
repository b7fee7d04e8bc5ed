(** Macro definitions through the formatter and back. *)
From Verif Require Import Base Num CoordModel CoordProofs Ast GramAst PegModel GramModel FmtModel GramText GramExpr GramExprRt
  GramExprSpec GramExplicit GramTok GramWf GramFileSpec GramPieces GramRead.
Local Open Scope nat_scope.

(** ** Tokens contain no tabs *)
Lemma notab_app a b : notab a -> notab b -> notab (a ++ b).
Proof. intros H1 H2. apply all_app. auto. Qed.
Lemma notab_cons c a : Ascii.eqb c "009" = false -> notab a -> notab (c :: a).
Proof. intros H1 H2. apply all_cons. rewrite H1. auto. Qed.
Lemma notab_imp f t : (forall c, f c = true -> Ascii.eqb c "009" = false) -> all f t -> notab t.
Proof. intros H. apply all_imp. intros c Hc. rewrite (H c Hc). reflexivity. Qed.
Lemma notab_digits d : all is_digit d -> notab d.
Proof. apply notab_imp. intros c. by_char c. Qed.
Lemma notab_sign sg : sign sg -> notab sg.
Proof. intros [->|[->| ->]]; reflexivity. Qed.
Lemma notab_unsigned u : unsigned u -> notab u.
Proof.
  intros (d & f & -> & [[[_ Hd] Hf]|[-> (g & -> & [_ Hg])]]).
  - apply notab_app; [apply notab_digits, Hd|]. destruct Hf as [->|(g & -> & [_ Hg])]; [reflexivity|].
    apply notab_cons; [reflexivity|apply notab_digits, Hg].
  - apply notab_cons; [reflexivity|apply notab_digits, Hg].
Qed.
Lemma notab_double t : double_text t -> notab t.
Proof. intros (sg & u & -> & Hs & Hu). apply notab_app; [apply notab_sign, Hs|apply notab_unsigned, Hu]. Qed.
Lemma notab_integer t : integer_text t -> notab t.
Proof. intros (sg & u & -> & Hs & _ & Hu). apply notab_app; [apply notab_sign, Hs|apply notab_digits, Hu]. Qed.
Lemma notab_name_chars t : all name_char t -> notab t.
Proof. apply notab_imp. intros c. by_char c. Qed.
Lemma notab_name t : name_text t -> notab t.
Proof.
  intros (c & a & -> & H1 & H2). apply notab_cons; [|apply notab_name_chars, H2]. revert H1. clear. by_char c.
Qed.
Lemma notab_user t : user_text t -> notab t.
Proof. intros (c & a & -> & H1 & H2). apply notab_name. exists c, a. auto using user_name. Qed.
Lemma notab_id t : id_text t -> notab t.
Proof.
  intros (z & a & d & -> & H1 & H2 & _ & _ & H3). apply notab_cons; [reflexivity|]. apply notab_app.
  - revert H1. apply notab_imp. intros c. by_char c.
  - apply notab_cons; [|apply notab_digits, H3]. revert H2. clear. by_char a.
Qed.
Lemma notab_var t : var_text t -> notab t.
Proof. intros (d & -> & _ & H). apply notab_cons; [reflexivity|apply notab_digits, H]. Qed.

Section MacroRt.
  Context {K T : Type} (rd : reader K T) (w : writer K T) (o : settings).
  Hypothesis Hexp : f_explicit o = false.
  Hypothesis Hlf : ws (f_lf o).
  Hypothesis Hbody : ws (f_macro_body o).
  Hypothesis Hparam : ws (f_macro_param o).
  Notation text := (fmt_expr w o).
  Notation good := (shape (survives rd w) 6).

  Lemma notab_tails op t : notab (lit op) -> (forall x, In x t -> notab (text x)) -> notab (tails w o op t).
  Proof.
    intros Ho H. induction t as [|x t IH]; [reflexivity|]. unfold tails. cbn [map concat]. 
    apply notab_app; [apply notab_app; [exact Ho|apply H; left; reflexivity]|]. apply IH. intros y Hy. apply H. right. exact Hy.
  Qed.
  Lemma notab_expr e : forall L, shape (survives rd w) L e -> notab (text e).
  Proof.
    induction e as [k|v|e IH|e IH|e IH|h t IHh IHt|h t IHh IHt|h t IHh IHt|h t IHh IHt] using expr_ind'; intros L H;
      inversion H; subst; cbn [fmt_expr]; rewrite ?Hexp.
    - apply notab_unsigned. match goal with H : survives _ _ _ |- _ => exact (proj1 H) end.
    - match goal with H : exists d, _ |- _ => apply notab_var, H | H : digits1 ?d |- _ => apply notab_var; exists d; auto end.
    - apply notab_app; [reflexivity|]. apply notab_app; [eapply IH; eassumption|reflexivity].
    - apply notab_app; [reflexivity|eapply IH; eassumption].
    - apply notab_app; [reflexivity|eapply IH; eassumption].
    - apply notab_app; [eapply IHh; eassumption|]. rewrite (tails_eq w o). apply notab_tails; [reflexivity|].
      match goal with H : Forall (shape _ ?m) t |- _ => rewrite Forall_forall in H, IHt; intros x Hx; exact (IHt x Hx m (H x Hx)) end.
    - apply notab_app; [eapply IHh; eassumption|]. rewrite (tails_eq w o). apply notab_tails; [reflexivity|].
      match goal with H : Forall (shape _ ?m) t |- _ => rewrite Forall_forall in H, IHt; intros x Hx; exact (IHt x Hx m (H x Hx)) end.
    - apply notab_app; [eapply IHh; eassumption|]. rewrite (tails_eq w o). apply notab_tails; [reflexivity|].
      match goal with H : Forall (shape _ ?m) t |- _ => rewrite Forall_forall in H, IHt; intros x Hx; exact (IHt x Hx m (H x Hx)) end.
    - apply notab_app; [eapply IHh; eassumption|]. rewrite (tails_eq w o). apply notab_tails; [reflexivity|].
      match goal with H : Forall (shape _ ?m) t |- _ => rewrite Forall_forall in H, IHt; intros x Hx; exact (IHt x Hx m (H x Hx)) end.
  Qed.

  (** ** Arguments: commas and whitespace in front of each *)
  Inductive argtext (qs : list str) : list str -> str -> Prop :=
  | at_nil s : spaced qs s -> argtext qs [] ("*"%char :: s)
  | at_cons v t ts r : ws v -> argtext qs ts r -> argtext qs (t :: ts) (","%char :: v ++ t ++ r).
  Fixpoint arg_pieces (head : str) (ts : list str) : list str :=
    match ts with [] => [head ++ lit "*"] | t :: ts => (head ++ lit ",") :: arg_pieces t ts end.
  Lemma arg_pieces_text qs ts : forall head s, spaced (arg_pieces head ts ++ qs) s ->
    exists v r, s = v ++ head ++ r /\ ws v /\ argtext qs ts r.
  Proof.
    induction ts as [|t ts IH]; intros head s H; cbn in H; apply spaced_inv in H as (v & s' & -> & Hv & H).
    - exists v, ("*"%char :: s'). rewrite <- app_assoc. split; [reflexivity|]. split; [exact Hv|constructor; exact H].
    - destruct (IH t s' H) as (v' & r & -> & Hv' & Hr). exists v, (","%char :: v' ++ t ++ r).
      rewrite <- app_assoc. split; [reflexivity|]. split; [exact Hv|constructor; assumption].
  Qed.
  Definition vparams (l : list (str * str)) : str := concat (map (fun p => lit "," ++ fst p ++ snd p) l).
  Lemma arg_pieces_spaced l : forall head, Forall (fun p => ws (fst p)) l ->
    spaced (arg_pieces head (map snd l)) (head ++ vparams l ++ lit "*").
  Proof.
    induction l as [|[v t] l IH]; intros head H; cbn [map snd arg_pieces].
    - apply spaced_one.
    - inversion H; subst. cbn [fst] in *. specialize (IH t H3). unfold vparams in *. cbn [map concat fst snd].
      rewrite <- !app_assoc. rewrite app_assoc. rewrite app_assoc.
      rewrite <- (app_assoc _ (lit ",")). 
      pose proof (sp_cons [] (head ++ lit ",") _ _ ws_nil (spaced_ws v _ _ H2 IH)) as Hs.
      rewrite <- !app_assoc in *. exact Hs.
  Qed.
  Lemma ws_param_lf : ws (param_lf o).
  Proof. unfold param_lf. destruct (f_split o); auto using ws_nil, ws_app. Qed.
  Lemma ws_prim_lf : ws (prim_lf o).
  Proof. unfold prim_lf. destruct (f_split o); auto using ws_nil, ws_app. Qed.
  Lemma params_v l : params o l = vparams (map (fun t => (param_lf o, t)) l).
  Proof. unfold params, vparams. rewrite map_map. reflexivity. Qed.
  Lemma vparams_app a b : vparams (a ++ b) = vparams a ++ vparams b.
  Proof. unfold vparams. rewrite map_app, concat_app. reflexivity. Qed.

  Definition prim_code (p : prim K) : string :=
    match p with
    | PAssign _ _ => "" | PCode0 _ => "0" | PCode1 _ _ _ _ _ => "1" | PCode2 _ _ _ _ _ _ _ => "2"
    | PCode4 _ _ _ _ _ _ => "4" | PCode5 _ _ _ _ _ _ => "5" | PCode6 _ _ _ _ _ _ _ _ _ => "6"
    | PCode7 _ _ _ _ _ _ _ => "7" | PCode20 _ _ _ _ _ _ _ => "20" | PCode21 _ _ _ _ _ _ => "21"
    | PCode22 _ _ _ _ _ _ => "22"
    end%string.
  Definition prim_pieces (p : prim K) : list str :=
    match p with
    | PAssign v e => [v ++ lit "=" ++ text e ++ lit "*"]
    | PCode0 s => [lit "0" ++ s ++ lit "*"]
    | p => arg_pieces (lit (prim_code p)) (map text (prim_exprs p))
    end.
  Lemma fmt_prim_spaced base p : ws base -> spaced (prim_pieces p) (base ++ fmt_prim w o p).
  Proof.
    intros Hb. apply spaced_ws; [exact Hb|].
    set (pl := param_lf o).
    assert (H0 : forall code l, Forall (fun q => ws (fst q)) l ->
      spaced (arg_pieces (lit code) (map snd l)) (prim_lf o ++ lit code ++ vparams l ++ lit "*")).
    { intros code l Hl. apply spaced_ws; [apply ws_prim_lf|]. apply arg_pieces_spaced, Hl. }
    assert (Hpl : forall l, Forall (fun q : str * str => ws (fst q)) (map (fun e => (pl, text e)) l)).
    { intros l. apply Forall_map, Forall_forall. intros e _. apply ws_param_lf. }
    assert (H : forall code l, spaced (arg_pieces (lit code) (map text l)) (prim_text w o code l)).
    { intros code l. unfold prim_text. rewrite params_v, map_map. specialize (H0 code _ (Hpl l)).
      rewrite map_map in H0. exact H0. }
    destruct p; try apply H.
    - cbn [fmt_prim prim_pieces]. apply spaced_ws; [apply ws_prim_lf|apply spaced_one].
    - cbn [fmt_prim prim_pieces prim_exprs prim_code].
      set (l := map (fun e => (pl, text e)) [exposure; npoints; sx; sy] ++
                flat_map (fun q => [(pl, text (fst q)); ([], text (snd q))]) points ++
                map (fun e => (pl, text e)) [rotation]).
      assert (El : map snd l = map text ([exposure; npoints; sx; sy] ++ flat_map (fun q => [fst q; snd q]) points ++ [rotation])).
      { unfold l. rewrite !map_app, !map_map. f_equal. f_equal. clear. induction points as [|q pts IH]; [reflexivity|].
        cbn. rewrite IH. reflexivity. }
      assert (Ep : params o (map text [exposure; npoints; sx; sy]) ++
        params o (map (fun p => text (fst p) ++ lit "," ++ text (snd p)) points) ++ params o [text rotation] ++ lit "*" =
        vparams l ++ lit "*").
      { unfold l. rewrite !vparams_app, <- !app_assoc, !params_v, map_map. f_equal. f_equal.
        clear. induction points as [|q pts IH]; [reflexivity|]. unfold vparams in *. cbn [map concat flat_map app fst snd].
        rewrite IH. rewrite <- !app_assoc. reflexivity. }
      rewrite Ep, <- El. apply H0. unfold l. apply Forall_app. split; [apply Hpl|]. apply Forall_app. split; [|apply (Hpl [rotation])].
      clear - Hlf Hparam Hbody. induction points as [|q pts IH]; [constructor|]. cbn. constructor; [apply ws_param_lf|]. constructor; [reflexivity|exact IH].
    - cbn [fmt_prim prim_pieces]. apply spaced_ws; [apply ws_prim_lf|apply spaced_one].
  Qed.

  (** ** Reading *)
  Lemma arg_reads qs e ts n r : good e -> argtext qs (text e :: ts) r -> length r < n ->
    exists r', arg rd n r = POk e r' /\ argtext qs ts r' /\ length r' < length r.
  Proof.
    intros He H Hn. inversion H as [|v t ts' r' Hv Ht]; subst. exists r'. split; [|split; [exact Ht|]].
    - unfold arg. eapply then_ok; [refine (lit_app "," _ _); reflexivity|]. rewrite lead_expr by exact Hv.
      apply expr_reads_back; [exact Hexp|exact He| |].
      + cbn [length] in Hn. rewrite !app_length in Hn. lia.
      + inversion Ht; reflexivity.
    - cbn [length]. rewrite !app_length. lia.
  Qed.
  Lemma argtext_end qs r : argtext qs [] r -> exists s, r = "*"%char :: s /\ spaced qs s.
  Proof. intros H. inversion H; subst. eauto. Qed.
  Ltac rarg n := match goal with A : argtext _ (text ?e :: _) ?r |- _ =>
    let r' := fresh "r" in let E := fresh "E" in let A' := fresh "A" in let L := fresh "L" in
    destruct (arg_reads _ e _ n r ltac:(assumption) A ltac:(lia)) as (r' & E & A' & L); clear A end.
  Ltac goods := repeat match goal with H : Forall _ (_ :: _) |- _ => apply Forall_cons_iff in H as [? H] end.
  Ltac comma_in Ha := match type of Ha with argtext _ _ ?r =>
    let rr := fresh "rr" in let Er := fresh "Er" in
    assert (exists r', r = ","%char :: r') as (rr & Er) by (inversion Ha; eauto); rewrite Er in * end.
  Ltac ended := match goal with A : argtext _ [] ?r |- _ =>
    let s' := fresh "s'" in let Hq := fresh "Hq" in apply argtext_end in A as (s' & -> & Hq); exists s' end.
  Tactic Notation "fixed" ident(n) ident(Ha) integer(k) integer(sk) constr(code) :=
    comma_in Ha; do k (rarg n); ended;
    match goal with Hq : spaced _ _ |- _ => split; [|split; [exact Hq|cbn [length] in *; lia]] end;
    do sk (apply first_skip; [reflexivity|]); apply first_hit; unfold primitive; apply com_read;
    (eapply then_ok; [refine (lit_app code _ _); reflexivity|]);
    do k (eapply bind_ok; [eassumption|]); reflexivity.
  (** Points of an outline: pairs of arguments, until a single one is left. *)
  Lemma many1_many {A} (p : parser A) n s a l s' : many (S n) p s = POk (a :: l) s' -> many1 n p s = POk (a :: l) s'.
  Proof.
    cbn [many]. unfold many1, pbind. destruct (p s) as [b r| |e]; try discriminate.
    destruct (many n p r) as [l' r'| |e]; try discriminate. intros H. injection H as -> -> ->. reflexivity.
  Qed.
  Lemma points_read qs n r pts : forall s k, Forall (fun q => good (fst q) /\ good (snd q)) pts -> good r ->
    argtext qs (map text (flat_map (fun q => [fst q; snd q]) pts) ++ [text r]) s -> length s < n -> length s < k ->
    exists s', many k (do x <- arg rd n; do y <- arg rd n; ret (x, y)) s = POk pts s' /\
      argtext qs [text r] s' /\ length s' <= length s.
  Proof.
    induction pts as [|[x y] pts IH]; intros s k Hp Hr Ha Hn Hk; (destruct k as [|k]; [lia|]).
    - exists s. split; [|split; [exact Ha|lia]]. cbn [flat_map map app] in Ha. rarg n. match goal with A : argtext _ [] _ |- _ => apply argtext_end in A as (s' & -> & _) end. clear - E. cbn [many].
      assert (Ep : (do x <- arg rd n; do y <- arg rd n; ret (x, y)) s = @PFail (expr K * expr K)).
      { eapply bind_ok; [exact E|]. reflexivity. }
      rewrite Ep. reflexivity.
    - apply Forall_cons_iff in Hp as [[Hx Hy] Hp]. cbn [flat_map map app fst snd] in *. rarg n. rarg n.
      match goal with A : argtext _ _ ?s2 |- _ => destruct (IH s2 k Hp Hr A ltac:(lia) ltac:(lia)) as (s' & Em & A' & L') end.
      exists s'. split; [|split; [exact A'|lia]]. cbn [many].
      match goal with |- match ?p with _ => _ end = _ => assert (Ep : p = POk (x, y) r1) end.
      { eapply bind_ok; [exact E|]. eapply bind_ok; [exact E0|]. reflexivity. }
      rewrite Ep, Em. reflexivity.
  Qed.
  Lemma prim_reads n p qs s : wf_prim rd p -> Forall good (prim_exprs p) ->
    spaced (prim_pieces p ++ qs) s -> length s < n ->
    exists s', prim_p rd n s = POk p s' /\ spaced qs s' /\ length s' < length s.
  Proof.
    intros Hw Hg Hs Hn.
    assert (Hargs : prim_pieces p = arg_pieces (lit (prim_code p)) (map text (prim_exprs p)) ->
      exists v r, s = v ++ lit (prim_code p) ++ r /\ ws v /\ argtext qs (map text (prim_exprs p)) r).
    { intros E. rewrite E in Hs. apply arg_pieces_text, Hs. }
    destruct p; cbn [prim_exprs wf_prim prim_code] in *;
      try (destruct (Hargs eq_refl) as (v & r & -> & Hv & Ha); rewrite !app_length in *; rewrite lead_prim by exact Hv;
           cbn [lit list_ascii_of_string length app] in *; clear Hs Hargs; cbn [map app] in Ha; goods).
    - clear Hargs. cbn [prim_pieces app] in Hs. apply spaced_inv in Hs as (v & s' & -> & Hv & Hs).
      exists s'. split; [|split; [exact Hs|rewrite !app_length; cbn; lia]]. rewrite lead_prim by exact Hv.
      rewrite <- !app_assoc. apply first_skip; [reflexivity|]. apply first_hit. unfold primitive. apply com_read.
      eapply then_ok; [refine (lit_app "0" _ _); reflexivity|].
      eapply bind_ok; [apply string_app; [exact Hw|reflexivity]|]. reflexivity.
    - destruct rotation as [ro|]; cbn [map app] in Ha; goods.
      + comma_in Ha. do 4 rarg n. match goal with A : argtext _ [text ro] ?x |- _ =>
          assert (Hx : head_is is_ws x = false) by (inversion A; reflexivity) end. rarg n. ended. split; [|split; [assumption|cbn [length] in *; lia]].
        do 2 (apply first_skip; [reflexivity|]). apply first_hit. unfold primitive. apply com_read.
        eapply then_ok; [refine (lit_app "1" _ _); reflexivity|].
        do 4 (eapply bind_ok; [eassumption|]). eapply bind_ok; [apply opt_some; eassumption|reflexivity].
      + comma_in Ha. do 4 rarg n. ended. split; [|split; [assumption|cbn [length] in *; lia]].
        do 2 (apply first_skip; [reflexivity|]). apply first_hit. unfold primitive. apply com_read.
        eapply then_ok; [refine (lit_app "1" _ _); reflexivity|].
        do 4 (eapply bind_ok; [eassumption|]). eapply bind_ok; [apply opt_none; reflexivity|reflexivity].
    - fixed n Ha 7 3 "2"%string.
    - destruct Hw as (_ & Hpts & _). rewrite map_app in Ha. comma_in Ha. do 4 rarg n.
      assert (Hgp : Forall (fun q => good (fst q) /\ good (snd q)) points /\ good rotation).
      { apply Forall_app in Hg as [Hg Hr]. apply Forall_cons_iff in Hr as [Hr _]. split; [|exact Hr].
        clear - Hg. induction points as [|q pts IH]; constructor; cbn [flat_map app] in Hg;
          apply Forall_cons_iff in Hg as [H1 Hg]; apply Forall_cons_iff in Hg as [H2 Hg]; auto. }
      destruct Hgp as [Hgp Hr]. 
      match goal with A : argtext _ (map text _ ++ _) ?x |- _ =>
        destruct (points_read qs n rotation points x (S n) Hgp Hr A ltac:(lia) ltac:(lia)) as (s' & Em & A' & L') end.
      match goal with A : argtext _ (map text _ ++ _) _ |- _ => clear A end. rarg n. ended. split; [|split; [assumption|cbn [length] in *; lia]].
      do 4 (apply first_skip; [reflexivity|]). apply first_hit. unfold primitive. apply com_read.
      eapply then_ok; [refine (lit_app "4" _ _); reflexivity|].
      do 4 (eapply bind_ok; [eassumption|]). eapply bind_ok; [|eapply bind_ok; [eassumption|reflexivity]].
      destruct points as [|q pts]; [contradiction|]. apply many1_many, Em.
    - fixed n Ha 6 5 "5"%string.
    - fixed n Ha 9 6 "6"%string.
    - destruct Hw as [-> _]. fixed n Ha 6 7 "7"%string.
    - fixed n Ha 7 8 "20"%string.
    - fixed n Ha 6 9 "21"%string.
    - fixed n Ha 6 10 "22"%string.
    - clear Hargs. cbn [prim_pieces app] in Hs. apply spaced_inv in Hs as (u & s' & -> & Hv & Hs).
      exists s'. split; [|split; [exact Hs|rewrite !app_length; cbn; lia]]. rewrite lead_prim by exact Hv.
      rewrite <- !app_assoc. apply first_hit. unfold assignment_p. apply com_read. goods.
      destruct Hw as [(d & -> & Hd) _].
      eapply bind_ok; [apply variable_app; [exact Hd|reflexivity]|].
      eapply then_ok; [refine (lit_app "=" _ _); reflexivity|].
      eapply bind_ok; [apply expr_reads_back; [exact Hexp|assumption| |reflexivity]|reflexivity].
      rewrite !app_length in Hn. lia.
  Qed.

  (** ** Whole macros *)
  Definition macro_pieces (name : str) (ps : list (prim K)) : list str :=
    (lit "%AM" ++ name ++ lit "*") :: concat (map prim_pieces ps) ++ [lit "%"].
  Lemma fmt_macro_spaced base name ps : ws base -> spaced (macro_pieces name ps) (fmt_macro w o base name ps).
  Proof.
    intros Hb. unfold fmt_macro, macro_pieces. 
    replace (base ++ lit "%AM" ++ name ++ lit "*" ++ concat (map (fun p => base ++ fmt_prim w o p) ps) ++
      base ++ (if f_macro_end o then f_lf o else []) ++ lit "%" ++ f_lf o) with
      (base ++ (lit "%AM" ++ name ++ lit "*") ++ concat (map (fun p => base ++ fmt_prim w o p) ps) ++
      (base ++ (if f_macro_end o then f_lf o else [])) ++ lit "%" ++ f_lf o) by (rewrite <- !app_assoc; reflexivity).
    apply sp_cons; [exact Hb|]. apply spaced_app.
    - induction ps as [|p ps IH]; [constructor; reflexivity|]. cbn [map concat]. apply spaced_app; [|exact IH].
      apply fmt_prim_spaced, Hb.
    - apply spaced_ws; [|apply spaced_end, Hlf]. apply ws_app; [exact Hb|]. destruct (f_macro_end o); [exact Hlf|reflexivity].
  Qed.
  Lemma prims_read n qs ps : forall s k, Forall (wf_prim rd) ps -> Forall (fun p => Forall good (prim_exprs p)) ps ->
    spaced (concat (map prim_pieces ps) ++ lit "%" :: qs) s -> length s < n -> length s < k ->
    exists s', many k (prim_p rd n) s = POk ps s' /\ spaced (lit "%" :: qs) s' /\ length s' <= length s.
  Proof.
    induction ps as [|p ps IH]; intros s k Hw Hg Hs Hn Hk; (destruct k as [|k]; [lia|]); cbn [many].
    - exists s. split; [|split; [exact Hs|lia]]. cbn [map concat app] in Hs. apply spaced_inv in Hs as (v & s' & -> & Hv & _).
      rewrite lead_prim by exact Hv. reflexivity.
    - apply Forall_cons_iff in Hw as [Hw1 Hw], Hg as [Hg1 Hg]. cbn [map concat] in Hs. rewrite <- app_assoc in Hs.
      destruct (prim_reads n p _ s Hw1 Hg1 Hs Hn) as (s1 & E1 & Hs1 & L1).
      destruct (IH s1 k Hw Hg Hs1 ltac:(lia) ltac:(lia)) as (s2 & E2 & Hs2 & L2).
      exists s2. rewrite E1, E2. split; [reflexivity|]. split; [exact Hs2|lia].
  Qed.
  Lemma macro_reads n name ps qs s : name_text name -> Forall (wf_prim rd) ps ->
    Forall (fun p => Forall good (prim_exprs p)) ps ->
    spaced (macro_pieces name ps ++ qs) s -> length s < n ->
    exists v s', s = v ++ lit "%AM" ++ s' /\ ws v /\ exists s2, macro_p rd n (lit "%AM" ++ s') = POk (CAM name ps) s2 /\ spaced qs s2 /\
      length s2 < length s.
  Proof.
    intros Hname Hw Hg Hs Hn. unfold macro_pieces in Hs. cbn [app] in Hs. apply spaced_inv in Hs as (v & s1 & -> & Hv & Hs).
    rewrite <- app_assoc in Hs. cbn [app] in Hs. rewrite !app_length in Hn.
    destruct (prims_read n qs ps s1 n Hw Hg Hs ltac:(lia) ltac:(lia)) as (s2 & E2 & Hs2 & L2).
    apply spaced_inv in Hs2 as (v2 & s3 & -> & Hv2 & Hq).
    exists v, (name ++ lit "*" ++ s1). split; [rewrite <- !app_assoc; reflexivity|]. split; [exact Hv|].
    exists s3. split; [|split; [exact Hq|rewrite !app_length in *; cbn [length lit list_ascii_of_string] in *; lia]].
    unfold macro_p. eapply then_ok; [refine (lit_app "%" _ _); reflexivity|].
    eapply then_ok; [refine (lit_app "AM" _ _); reflexivity|].
    eapply bind_ok; [apply name_app; [exact Hname|reflexivity]|].
    eapply then_ok; [refine (lit_app "*" _ _); reflexivity|].
    eapply bind_ok; [exact E2|]. rewrite lead_then; [|apply lead_token|exact Hv2].
    eapply then_ok; [refine (lit_app "%" _ _); reflexivity|]. reflexivity.
  Qed.
  Lemma macro_item n m name ps qs s : name_text name -> Forall (wf_prim rd) ps ->
    Forall (fun p => Forall good (prim_exprs p)) ps ->
    spaced (macro_pieces name ps ++ qs) s -> length s < n ->
    exists s2, body_item rd n (block_p rd n (S m)) s = POk [CAM name ps] s2 /\
      root_item rd n s = POk [CAM name ps] s2 /\ spaced qs s2 /\ length s2 < length s.
  Proof.
    intros Hname Hw Hg Hs Hn. destruct (macro_reads n name ps qs s Hname Hw Hg Hs Hn) as (v & s' & -> & Hv & s2 & E & Hq & L).
    exists s2. destruct n as [|n]; [lia|]. split; [|split; [|auto]].
    - rewrite lead_body; [|apply lead_block|exact Hv]. unfold body_item. do 7 (apply first_skip; [reflexivity|]).
      apply first_hit. unfold single. eapply bind_ok; [exact E|reflexivity].
    - rewrite lead_root by exact Hv. unfold root_item. do 3 (apply first_skip; [reflexivity|]).
      apply first_hit. unfold single. eapply bind_ok; [|reflexivity]. apply first_skip; [reflexivity|].
      apply first_hit. exact E.
  Qed.
  Lemma notab_args head ts : notab head -> Forall notab ts -> Forall notab (arg_pieces head ts).
  Proof.
    intros Hh Ht. revert head Hh. induction Ht as [|t ts Ht _ IH]; intros head Hh; cbn [arg_pieces]; constructor.
    - apply notab_app; [exact Hh|reflexivity].
    - constructor.
    - apply notab_app; [exact Hh|reflexivity].
    - apply IH, Ht.
  Qed.
  Lemma notab_prim p : wf_prim rd p -> Forall good (prim_exprs p) -> Forall notab (prim_pieces p).
  Proof.
    intros Hw Hg.
    assert (H : notab (lit (prim_code p)) -> Forall notab (arg_pieces (lit (prim_code p)) (map text (prim_exprs p)))).
    { intros Hc. apply notab_args; [exact Hc|]. apply Forall_map. revert Hg. apply Forall_impl. intros e. apply notab_expr. }
    destruct p; try (apply H; reflexivity).
    - constructor; [|constructor]. apply notab_app; [reflexivity|]. apply notab_app; [apply Hw|reflexivity].
    - constructor; [|constructor]. cbn in Hw, Hg. apply Forall_cons_iff in Hg as [Hg _].
      apply notab_app; [apply notab_var, Hw|]. apply notab_app; [reflexivity|].
      apply notab_app; [eapply notab_expr, Hg|reflexivity].
  Qed.
  Lemma notab_macro name ps : name_text name -> Forall (wf_prim rd) ps ->
    Forall (fun p => Forall good (prim_exprs p)) ps -> Forall notab (macro_pieces name ps).
  Proof.
    intros Hn Hw Hg. constructor.
    - apply notab_app; [reflexivity|]. apply notab_app; [apply notab_name, Hn|reflexivity].
    - apply Forall_app. split; [|repeat constructor]. induction ps as [|p ps IH]; [constructor|].
      apply Forall_cons_iff in Hw as [Hw1 Hw], Hg as [Hg1 Hg]. cbn [map concat]. apply Forall_app. split; auto using notab_prim.
  Qed.
  Lemma good_prim p : wf_prim rd p -> Forall (kept_expr rd w) (prim_exprs p) -> Forall good (prim_exprs p).
  Proof.
    intros Hw Hk.
    assert (Hs : Forall (shape (const_ok rd) 6) (prim_exprs p)).
    { destruct p; cbn [wf_prim prim_exprs] in *; try exact Hw; try apply Hw.
      - constructor.
      - apply Forall_app. split; [apply Hw|]. destruct rotation; [|constructor]. constructor; [apply Hw|constructor].
      - destruct Hw as (H1 & _ & H2 & H3). apply Forall_app. split; [exact H1|]. apply Forall_app. split; [|auto].
        clear Hk. induction points as [|q pts IH]; [constructor|]. apply Forall_cons_iff in H2 as [[] H2]. cbn.
        constructor; [assumption|]. constructor; [assumption|]. apply IH, H2.
      - constructor; [apply Hw|constructor]. }
    rewrite Forall_forall in *. intros e He. eapply shape_numbers; [apply Hs, He|]. exact (Hk e He).
  Qed.
End MacroRt.

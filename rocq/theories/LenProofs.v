(** Proofs about texts that are put together and texts that are read as far as possible. *)
From Verif Require Import Base Num Ast GramAst PegModel GramModel GramText GramTok GramWf GramPieces ResProofs LenModel LenSpec LenSafe LenGram LenFuel.
Local Open Scope nat_scope.

Lemma blank_ws s : blank s <-> ws s.
Proof.
  unfold blank, ws, all. rewrite Forall_forall, forallb_forall. split; intros H c Hc; specialize (H c Hc).
  - cbn in H. destruct H as [<-|[<-|[<-|[<-|[]]]]]; reflexivity.
  - unfold is_ws in H. cbn. destruct (Ascii.eqb c " ") eqn:E1; [apply Ascii.eqb_eq in E1; auto|]. destruct (Ascii.eqb c "010") eqn:E2; [apply Ascii.eqb_eq in E2; auto|].
    destruct (Ascii.eqb c "009") eqn:E3; [apply Ascii.eqb_eq in E3; auto|]. destruct (Ascii.eqb c "013") eqn:E4; [apply Ascii.eqb_eq in E4; auto 6|discriminate].
Qed.
Lemma ws_skip s : ws s <-> skip s = [].
Proof.
  split; [intros H; rewrite <- (app_nil_r s), skip_ws by exact H; reflexivity|]. intros H. destruct (skip_tail s) as (w & Hw & E). rewrite H, app_nil_r in E. subst. exact Hw.
Qed.
Lemma notab_in s : notab s <-> ~ In "009"%char s.
Proof.
  unfold notab, all. rewrite forallb_forall. split.
  - intros H Hi. specialize (H _ Hi). discriminate H.
  - intros H c Hc. destruct (Ascii.eqb c "009") eqn:E; [|reflexivity]. apply Ascii.eqb_eq in E as ->. destruct (H Hc).
Qed.
Lemma expand_id s : notab s -> forall col, expand col s = s.
Proof. intros H col. destruct (expand_keeps s H [] col) as (c & E). rewrite app_nil_r in E. rewrite E. apply app_nil_r. Qed.
Lemma expand_app_notab b : notab b -> forall a col, expand col (a ++ b) = expand col a ++ b.
Proof.
  intros Hb a. induction a as [|c a IH]; intros col; [apply expand_id, Hb|]. cbn [app expand]. destruct (Ascii.eqb c "009"); [rewrite IH; apply app_assoc|].
  destruct (Ascii.eqb c "010" || Ascii.eqb c "013"); rewrite IH; reflexivity.
Qed.
Lemma expand_app_line c b : c = "010"%char \/ c = "013"%char -> forall a col, expand col ((a ++ [c]) ++ b) = expand col (a ++ [c]) ++ expand 0 b.
Proof.
  intros Hc a. induction a as [|x a IH]; intros col; [destruct Hc as [->| ->]; reflexivity|]. cbn [app expand] in *.
  destruct (Ascii.eqb x "009"); [rewrite IH; apply app_assoc|]. destruct (Ascii.eqb x "010" || Ascii.eqb x "013"); rewrite IH; reflexivity.
Qed.
Lemma expand_fits a b : fits a b -> expandtabs (a ++ b) = expandtabs a ++ expandtabs b.
Proof.
  unfold expandtabs. intros [H|[->|(t & c & -> & Hc)]].
  - apply notab_in in H. rewrite (expand_app_notab b H), (expand_id b H). reflexivity.
  - reflexivity.
  - apply expand_app_line, Hc.
Qed.
Lemma expand_blank s : ws (expandtabs s) <-> ws s.
Proof.
  unfold expandtabs. generalize 0 at 1 as col. induction s as [|c s IH]; intros col; [reflexivity|]. cbn [expand]. rewrite (all_cons is_ws c s : ws (c :: s) <-> _).
  destruct (Ascii.eqb c "009") eqn:E.
  - apply Ascii.eqb_eq in E as ->. unfold ws. rewrite all_app. fold (ws (expand (col + (8 - col mod 8)) s)). rewrite IH. split.
    + intros [_ H]. split; [reflexivity|exact H].
    + intros [_ H]. split; [apply all_repeat; reflexivity|exact H].
  - destruct (Ascii.eqb c "010" || Ascii.eqb c "013"); unfold ws; rewrite all_cons;
      [fold (ws (expand 0 s))|fold (ws (expand (S col) s))]; rewrite IH; reflexivity.
Qed.

(** A repetition of a local parser, cut where it ended. *)
Lemma many_cat {A} (p : parser A) : local p -> forall k s l r, many k p s = POk l r ->
  exists u, s = u ++ r /\ forall t j, many (length l + j) p (u ++ t) = match many j p t with POk l' r' => POk (l ++ l') r' | x => x end.
Proof.
  intros Hp k. induction k as [|k IH]; intros s l r E; [discriminate|]. cbn [many] in E. destruct (p s) as [a s'| |e] eqn:Ep; try discriminate.
  - destruct (many k p s') as [l' s2| |e] eqn:Em; try discriminate. injection E as <- <-. destruct (IH _ _ _ Em) as (u & -> & Hu).
    destruct (Hp _ _ _ Ep) as (w & -> & Hw). exists (w ++ u). split; [apply app_assoc|]. intros t j. cbn [length plus many]. rewrite <- app_assoc, Hw, Hu.
    destruct (many j p t); reflexivity.
  - injection E as <- <-. exists []. split; [reflexivity|]. intros t j. cbn. destruct (many j p t); reflexivity.
Qed.

Section Len.
  Context {K T : Type} (rd : reader K T).
  Definition run (s : str) : pres (list (list (cmd K T))) := let n := S (length s) in many1 n (root_item rd n) s.
  Lemma run_fuel s n k : notab s -> length s < n -> length s < k -> many1 n (root_item rd k) s = run s.
  Proof.
    intros Ht Hn Hk. unfold run. set (m := S (length s)).
    destruct (ref_many1 (root_item rd m) (root_item rd k) m n (ref_root rd m k ltac:(subst m; lia)) ltac:(subst m; lia) s) as [E|E]; [|exact E]. exfalso.
    pose proof (yields_many1 m _ _ (yields_root rd m) s (Nat.lt_succ_diag_r _) Ht) as Y. rewrite E in Y. discriminate Y.
  Qed.
  Lemma run_total s : notab s -> match run s with PErr e => e = EValidation | POk l r => l <> [] /\ notab r | PFail => True end.
  Proof.
    intros Ht. pose proof (yields_many1 (S (length s)) _ _ (yields_root rd _) s (Nat.lt_succ_diag_r _) Ht) as Y. fold (run s) in Y. destruct (run s); [|exact I|exact Y].
    destruct Y as ((H1 & _) & H2 & _). auto.
  Qed.
  Lemma parse_run text : parse rd text = match run (expandtabs text) with
    | POk l r => match skip r with [] => Ok (concat l) | _ => Err ESyntax end | PFail => Err ESyntax | PErr e => Err (EOther e) end.
  Proof. reflexivity. Qed.
  Lemma lenient_run text : parse_lenient rd text = match run (expandtabs text) with
    | POk l _ => Ok (concat l) | PFail => Err ESyntax | PErr e => Err (EOther e) end.
  Proof. reflexivity. Qed.

  Lemma run_lead w s : ws w -> notab w -> notab s -> run (w ++ s) = run s.
  Proof.
    intros Hw Hn Hs. assert (Ha : notab (w ++ s)) by (apply all_app; auto). set (n := S (length (w ++ s))).
    rewrite <- (run_fuel (w ++ s) n n Ha) by (subst n; lia). rewrite <- (run_fuel s n n Hs) by (subst n; rewrite app_length; lia).
    unfold many1. apply lead_bind; [apply lead_root|exact Hw].
  Qed.
  Lemma run_nil s : ws s -> run s = PFail.
  Proof. intros H. unfold run, many1, pbind. rewrite root_nil; [reflexivity|]. apply ws_skip, H. Qed.

  (** What was read of a text is read in front of any other text. *)
  Lemma run_cat s l r : notab s -> run s = POk l r -> exists u, s = u ++ r /\ forall t, notab t ->
    run (u ++ t) = match run t with POk l' r' => POk (l ++ l') r' | PFail => POk l t | PErr e => PErr e end.
  Proof.
    intros Hs E.
    assert (G : forall K0, exists u, s = u ++ r /\ forall t, notab t -> length t < K0 -> length s <= K0 ->
      many1 (length l + K0) (root_item rd (length l + S K0 + length s)) (u ++ t) =
        match many1 K0 (root_item rd (length l + S K0 + length s)) t with POk l' r' => POk (l ++ l') r' | PFail => POk l t | PErr e => PErr e end).
    { intros K0. set (k := length l + S K0 + length s). pose proof (many1_many (length l + S K0 + length s) (root_item rd k) s) as M.
      rewrite (run_fuel s _ k Hs) in M by (subst k; lia). rewrite E in M. replace k with (S (length l + K0 + length s)) in * by (subst k; lia).
      destruct (many_cat _ (local_root rd _) _ _ _ _ M) as (u & -> & Hu). exists u. split; [reflexivity|]. intros t Ht H1 H2.
      specialize (Hu t (S K0)). rewrite Nat.add_succ_r in Hu. rewrite !many1_many in Hu.
      set (R := root_item rd (S (length l + K0 + length (u ++ r)))) in *.
      assert (L : l <> []) by (pose proof (run_total _ Hs) as Y; rewrite E in Y; apply Y).
      destruct (many1 (length l + K0) R (u ++ t)) as [l1 r1| |e]; destruct (many1 K0 R t) as [l2 r2| |e2]; try exact Hu; try discriminate.
      - rewrite app_nil_r in Hu. exact Hu.
      - exfalso. destruct l; [congruence|discriminate].
      - exfalso. destruct l; [congruence|discriminate]. }
    destruct (G 0) as (u & Eu & _). exists u. split; [exact Eu|]. intros t Ht. set (K0 := S (length s + length t)). destruct (G K0) as (u' & Eu' & H).
    rewrite Eu in Eu'. apply app_inv_tail in Eu' as <-. subst K0. specialize (H t Ht ltac:(lia) ltac:(lia)).
    assert (Hut : notab (u ++ t)). { apply all_app. split; [|exact Ht]. rewrite Eu in Hs. apply all_app in Hs. apply Hs. }
    assert (Lu : length u <= length s) by (rewrite Eu, app_length; lia).
    rewrite (run_fuel (u ++ t)) in H; [|exact Hut|rewrite app_length; lia|rewrite app_length; lia].
    rewrite (run_fuel t) in H; [exact H|exact Ht|lia|lia].
  Qed.
  Lemma run_prefix p q l r : notab (p ++ q) -> run p = POk l r -> run (p ++ q) <> PFail.
  Proof.
    intros Hpq E. assert (Hp : notab p) by (apply all_app in Hpq; apply Hpq). destruct (run_cat p l r Hp E) as (u & -> & H). rewrite <- app_assoc, H.
    - destruct (run (r ++ q)); discriminate.
    - rewrite <- app_assoc in Hpq. apply all_app in Hpq. apply Hpq.
  Qed.

  Lemma strict_lenient text l : parse rd text = Ok l -> parse_lenient rd text = Ok l.
  Proof.
    rewrite parse_run, lenient_run. destruct (run (expandtabs text)) as [l0 r| |e]; try discriminate. destruct (skip r); [auto|discriminate].
  Qed.
  Lemma expanded_notab text : notab (expandtabs text).
  Proof. apply expand_notab. Qed.

  Lemma lenient_longest text l : parse_lenient rd text = Ok l -> exists read rest,
    expandtabs text = read ++ rest /\ parse rd read = Ok l /\
    forall p q, rest = p ++ q -> (exists l', parse rd (read ++ p) = Ok l') -> blank p.
  Proof.
    rewrite lenient_run. pose proof (expanded_notab text) as Ht. set (s := expandtabs text) in *. destruct (run s) as [l0 r| |e] eqn:E; try discriminate. intros X. injection X as <-.
    destruct (run_cat s l0 r Ht E) as (u & Eu & H). exists u, r. split; [exact Eu|]. rewrite Eu in Ht. apply all_app in Ht as [Hu Hr].
    assert (X : run r = PFail).
    { specialize (H r Hr). rewrite <- Eu, E in H. pose proof (run_total r Hr) as Y. destruct (run r) as [l1 r1| |e]; [|reflexivity|discriminate].
      exfalso. injection H as H _. rewrite <- (app_nil_r l0) in H at 1. apply app_inv_head in H. subst l1. destruct Y as [Y _]. congruence. }
    split.
    - rewrite parse_run. unfold expandtabs. rewrite (expand_id u Hu). rewrite <- (app_nil_r u), (H [] eq_refl), run_nil by reflexivity. reflexivity.
    - intros p q -> (l' & Hl). apply all_app in Hr as Hpq. destruct Hpq as [Hp Hq]. rewrite parse_run in Hl. unfold expandtabs in Hl.
      rewrite (expand_id (u ++ p)) in Hl by (apply all_app; auto). rewrite (H p Hp) in Hl. destruct (run p) as [l1 r1| |e] eqn:Ep; [|..|discriminate].
      + destruct (run_prefix p q l1 r1 Hr Ep X).
      + apply blank_ws, ws_skip. destruct (skip p); [reflexivity|discriminate].
  Qed.
  Lemma lenient_none text : parse_lenient rd text = Err ESyntax -> forall p q, expandtabs text = p ++ q -> forall l, parse rd p <> Ok l.
  Proof.
    rewrite lenient_run. pose proof (expanded_notab text) as Ht. set (s := expandtabs text) in *. destruct (run s) as [l0 r| |e] eqn:E; try discriminate. intros _ p q Es l Hl.
    rewrite Es in Ht, E. assert (Hp : notab p) by (apply all_app in Ht; apply Ht). rewrite parse_run in Hl. unfold expandtabs in Hl. rewrite (expand_id p Hp) in Hl.
    destruct (run p) as [l1 r1| |e] eqn:Ep; try discriminate. exact (run_prefix p q l1 r1 Ht Ep E).
  Qed.
  Lemma lenient_err text e : parse_lenient rd text = Err (EOther e) -> e = EValidation /\ parse rd text = Err (EOther e).
  Proof.
    rewrite lenient_run, parse_run. pose proof (run_total _ (expanded_notab text)) as Y. destruct (run (expandtabs text)); try discriminate. intros X. injection X as <-. auto.
  Qed.

  (** ** Texts put together *)
  Lemma cat_run a b la : fits a b -> parse rd a = Ok la -> exists l,
    la = concat l /\ run (expandtabs (a ++ b)) = match run (expandtabs b) with
      | POk l' r' => POk (l ++ l') r'
      | PFail => match run (expandtabs (a ++ b)) with POk _ r => POk l r | x => x end
      | PErr e => PErr e end /\
    (run (expandtabs b) = PFail -> exists r, run (expandtabs (a ++ b)) = POk l r /\ skip r = skip (expandtabs b)).
  Proof.
    intros Hf. rewrite parse_run, (expand_fits a b Hf). pose proof (expanded_notab a) as Ha. pose proof (expanded_notab b) as Hb.
    set (sa := expandtabs a) in *. set (sb := expandtabs b) in *. destruct (run sa) as [l r| |e] eqn:E; try discriminate.
    destruct (skip r) eqn:Er; [|discriminate]. intros X. injection X as <-. apply ws_skip in Er. exists l. split; [reflexivity|].
    destruct (run_cat sa l r Ha E) as (u & Eu & H). rewrite Eu in Ha |- *. apply all_app in Ha as [Hu Hr]. rewrite <- app_assoc.
    assert (Hrb : notab (r ++ sb)) by (apply all_app; auto). rewrite (H _ Hrb), (run_lead r sb Er Hr Hb). destruct (run sb) as [l' r'| |e].
    - split; [reflexivity|discriminate].
    - split; [reflexivity|]. intros _. exists (r ++ sb). split; [reflexivity|]. apply skip_ws, Er.
    - split; [reflexivity|discriminate].
  Qed.
  Lemma parse_cat a b la : fits a b -> parse rd a = Ok la ->
    (blank b -> parse rd (a ++ b) = Ok la) /\
    (~ blank b -> parse rd (a ++ b) = match parse rd b with Ok lb => Ok (la ++ lb) | Err e => Err e end).
  Proof.
    intros Hf Ha. destruct (cat_run a b la Hf Ha) as (l & -> & H1 & H2). rewrite !blank_ws, <- (expand_blank b), !parse_run. split; intros Hb.
    - pose proof (run_nil _ Hb) as E. destruct (H2 E) as (r & -> & ->). apply ws_skip in Hb. rewrite Hb. reflexivity.
    - destruct (run (expandtabs b)) as [l' r'| |e].
      + rewrite H1. destruct (skip r'); [rewrite concat_app|]; reflexivity.
      + destruct (H2 eq_refl) as (r & -> & ->). rewrite ws_skip in Hb. destruct (skip (expandtabs b)); [destruct (Hb eq_refl)|reflexivity].
      + rewrite H1. reflexivity.
  Qed.
  Lemma lenient_cat a b la : fits a b -> parse rd a = Ok la ->
    parse_lenient rd (a ++ b) = match parse_lenient rd b with Ok lb => Ok (la ++ lb) | Err ESyntax => Ok la | Err e => Err e end.
  Proof.
    intros Hf Ha. destruct (cat_run a b la Hf Ha) as (l & -> & H1 & H2). rewrite !lenient_run. destruct (run (expandtabs b)) as [l' r'| |e].
    - rewrite H1, concat_app. reflexivity.
    - destruct (H2 eq_refl) as (r & -> & _). reflexivity.
    - rewrite H1. reflexivity.
  Qed.
End Len.

(** Proofs about the resilient parser behind a file and behind an unreadable line. *)
From Verif Require Import Base Num Ast GramAst PegModel GramModel GramText GramTok GramWf GramPieces ResModel ResSpec ResProofs LenModel LenSpec LenSafe LenGram LenFuel LenProofs.
Local Open Scope nat_scope.

Section Line.
  Context {K T : Type} (rd : reader K T).
  Lemma ref_item n m : n <= m -> refines (resilient_item rd n) (resilient_item rd m).
  Proof.
    intros H. unfold resilient_item. apply ref_first_of. constructor; [|constructor; [apply ref_refl|constructor]].
    apply ref_bind; [apply ref_root, H|intros; apply ref_refl].
  Qed.
  Definition rrun (s : str) : pres (list (list (rnode K T))) := let n := S (length s) in many n (resilient_item rd n) s.
  Lemma rrun_total s : notab s -> match rrun s with POk l r => skip r = [] | PFail => False | PErr e => e = EValidation end.
  Proof.
    intros Ht. pose proof (yields_many (S (length s)) _ _ (yields_item rd _) s (Nat.lt_succ_diag_r _) Ht) as Y. fold (rrun s) in Y.
    destruct (rrun s) as [l r| |e] eqn:E; [| |exact Y].
    - exact (proj1 (resilient_many rd _ _ _ _ _ E)).
    - unfold rrun in E. pose proof (many1_many (length s) (resilient_item rd (S (length s))) s) as M. cbv zeta in E. rewrite E in M.
      destruct (many1 _ _ s); discriminate M.
  Qed.
  Lemma rrun_fuel s n k : notab s -> length s < n -> length s < k -> many n (resilient_item rd k) s = rrun s.
  Proof.
    intros Ht Hn Hk. unfold rrun. set (m := S (length s)).
    destruct (ref_many (resilient_item rd m) (resilient_item rd k) (ref_item m k ltac:(subst m; lia)) m n ltac:(subst m; lia) s) as [E|E]; [|exact E]. exfalso.
    pose proof (rrun_total s Ht) as Y. unfold rrun in Y. fold m in Y. cbv zeta in Y. rewrite E in Y. discriminate Y.
  Qed.
  Lemma resilient_run text : parse_resilient rd text = match rrun (expandtabs text) with
    | POk [] _ => Err ESyntax | POk l _ => Ok (concat l) | PFail => Err ESyntax | PErr e => Err (EOther e) end.
  Proof.
    unfold parse_resilient. set (s := expandtabs text). assert (Ht : notab s) by apply expand_notab. pose proof (rrun_total s Ht) as Y.
    pose proof (many1_many (S (length s)) (resilient_item rd (S (length s))) s) as M.
    rewrite (rrun_fuel s _ _ Ht) in M by lia. destruct (many1 _ _ s) as [l r| |e] eqn:E; rewrite M in *; [|reflexivity|reflexivity].
    rewrite Y. apply many1_nonempty in E. destruct l; [congruence|reflexivity].
  Qed.

  (** Blanks in front are passed over. *)
  Lemma lead_item n w s : ws w -> resilient_item rd n (w ++ s) = resilient_item rd n s.
  Proof.
    intros Hw. unfold resilient_item. cbn [first_of]. unfold pbind at 1 3. rewrite (lead_root rd n w s Hw).
    destruct (root_item rd n s); try reflexivity. unfold invalid_p, pbind, token. rewrite skip_ws by exact Hw. reflexivity.
  Qed.
  Lemma rrun_nil s : ws s -> rrun s = POk [] s.
  Proof.
    intros H. unfold rrun. cbn [many]. apply ws_skip in H. destruct (item_cases rd (S (length s)) s) as [(cs & q & H1 & H2)|[(e & H1 & H2)|[(H1 & H2 & H3)|(t & q & H1 & H2 & H3 & H4 & H5)]]].
    - rewrite root_nil in H1 by exact H. discriminate.
    - rewrite root_nil in H1 by exact H. discriminate.
    - rewrite H3. reflexivity.
    - rewrite H in H3. destruct t; [congruence|discriminate].
  Qed.
  Lemma rrun_none s l r : notab s -> rrun s = POk l r -> l = [] -> ws s.
  Proof.
    intros Ht E ->. pose proof (rrun_total s Ht) as Y. rewrite E in Y. unfold rrun in E. cbn [many] in E. destruct (resilient_item rd (S (length s)) s) as [a q| |e].
    - destruct (many _ _ q); discriminate.
    - injection E as <-. apply ws_skip, Y.
    - discriminate.
  Qed.

  (** Commands read in front of any text. *)
  Lemma many_front n : forall k s l r, many k (root_item rd (S n)) s = POk l r ->
    exists u, s = u ++ r /\ forall t j, many (length l + j) (resilient_item rd (S n)) (u ++ t) =
      match many j (resilient_item rd (S n)) t with POk l' r' => POk (map (map Parsed) l ++ l') r' | x => x end.
  Proof.
    induction k as [|k IH]; intros s l r E; [discriminate|]. cbn [many] in E. destruct (root_item rd (S n) s) as [a s'| |e] eqn:Ep; try discriminate.
    - destruct (many k _ s') as [l' s2| |e] eqn:Em; try discriminate. injection E as <- <-. destruct (IH _ _ _ Em) as (u & -> & Hu).
      destruct (local_root rd n _ _ _ Ep) as (w & -> & Hw). exists (w ++ u). split; [apply app_assoc|]. intros t j. cbn [length plus many]. rewrite <- app_assoc.
      assert (X : resilient_item rd (S n) (w ++ u ++ t) = POk (map Parsed a) (u ++ t)).
      { unfold resilient_item. cbn [first_of]. unfold pbind at 1. rewrite Hw. reflexivity. }
      rewrite X, Hu. destruct (many j _ t); reflexivity.
    - injection E as <- <-. exists []. split; [reflexivity|]. intros t j. cbn. destruct (many j _ t); reflexivity.
  Qed.
  Lemma many_lead n w s : ws w -> forall k, many (S k) (resilient_item rd n) (w ++ s) = match many (S k) (resilient_item rd n) s with POk [] _ => POk [] (w ++ s) | x => x end.
  Proof.
    intros Hw k. cbn [many]. rewrite (lead_item n w s Hw). destruct (resilient_item rd n s) as [a q| |e]; try reflexivity. destruct (many k _ q); reflexivity.
  Qed.
  Lemma rrun_cat s l r t : notab s -> notab t -> run rd s = POk l r -> ws r ->
    exists r', rrun (s ++ t) = match rrun t with POk l' r0 => POk (map (map Parsed) l ++ l') r' | x => x end.
  Proof.
    intros Hs Ht E Hr. set (N := length l + S (length s + length t)).
    pose proof (many1_many (S N) (root_item rd (S N)) s) as M. rewrite (run_fuel rd s _ _ Hs) in M by (subst N; lia). rewrite E in M.
    destruct (many_front N _ _ _ _ M) as (u & Eu & H). specialize (H (r ++ t) (S (length s + length t))).
    assert (Hst : notab (s ++ t)) by (apply all_app; auto). rewrite app_assoc, <- Eu in H.
    rewrite (rrun_fuel (s ++ t)) in H; [|exact Hst|rewrite app_length; lia|rewrite app_length; subst N; lia].
    rewrite (many_lead _ r t Hr), (rrun_fuel t) in H; [|exact Ht|lia|subst N; lia]. rewrite H. destruct (rrun t) as [[|x l'] r0| |e]; eauto.
  Qed.
  Lemma resilient_cat a b la : fits a b -> parse rd a = Ok la ->
    (blank b -> parse_resilient rd (a ++ b) = Ok (map Parsed la)) /\
    (~ blank b -> parse_resilient rd (a ++ b) = match parse_resilient rd b with Ok lb => Ok (map Parsed la ++ lb) | Err e => Err e end).
  Proof.
    intros Hf. rewrite parse_run. rewrite !resilient_run, (expand_fits a b Hf). pose proof (expand_notab a 0) as Ha. pose proof (expand_notab b 0) as Hb.
    change (expand 0 a) with (expandtabs a) in Ha. change (expand 0 b) with (expandtabs b) in Hb. rewrite blank_ws, <- (expand_blank b).
    set (sa := expandtabs a) in *. set (sb := expandtabs b) in *. destruct (run rd sa) as [l r| |e] eqn:E; try discriminate.
    destruct (skip r) eqn:Er; [|discriminate]. intros X. injection X as <-. apply ws_skip in Er.
    destruct (rrun_cat sa l r sb Ha Hb E Er) as (r' & H). pose proof (run_total rd sa Ha) as Y. rewrite E in Y. destruct Y as [Y _]. rewrite H. split; intros Hw.
    - rewrite (rrun_nil sb Hw), app_nil_r. destruct l; [congruence|]. cbn [map]. rewrite <- (concat_parsed (l :: l0)). reflexivity.
    - pose proof (rrun_none sb) as Z. destruct (rrun sb) as [l' r0| |e]; try reflexivity. destruct l' as [|x l']; [destruct (Hw (Z [] r0 Hb eq_refl eq_refl))|].
      rewrite <- concat_parsed, <- concat_app. destruct l; reflexivity.
  Qed.

  (** A line no file begins with. *)
  Lemma resilient_line t b : ~ In "010"%char t -> ~ In "009"%char t -> t <> [] -> head_is is_ws t = false ->
    parse_lenient rd (t ++ "010"%char :: b) = Err ESyntax ->
    (blank b -> parse_resilient rd (t ++ "010"%char :: b) = Ok [Invalid t]) /\
    (~ blank b -> parse_resilient rd (t ++ "010"%char :: b) = match parse_resilient rd b with Ok lb => Ok (Invalid t :: lb) | Err e => Err e end).
  Proof.
    intros Hl Ht Hne Hh. rewrite lenient_run, !resilient_run. apply notab_in in Ht.
    assert (Ex : expandtabs (t ++ "010"%char :: b) = t ++ "010"%char :: expandtabs b).
    { change (t ++ "010"%char :: b) with (t ++ ["010"%char] ++ b). rewrite app_assoc. unfold expandtabs. rewrite expand_app_line by auto.
      rewrite (expand_id (t ++ ["010"%char])) by (apply all_app; split; [exact Ht|reflexivity]). rewrite <- app_assoc. reflexivity. }
    rewrite Ex. pose proof (expand_notab b 0) as Hb. change (expand 0 b) with (expandtabs b) in Hb. rewrite blank_ws, <- (expand_blank b). set (sb := expandtabs b) in *.
    assert (Hs : notab (t ++ "010"%char :: sb)) by (apply all_app; split; [exact Ht|apply all_cons; split; [reflexivity|exact Hb]]).
    set (s := t ++ "010"%char :: sb) in *. destruct (run rd s) as [l r| |e] eqn:E; try discriminate. intros _.
    set (N := S (length s)). assert (Er : root_item rd N s = PFail).
    { unfold run in E. fold N in E. cbv zeta in E. unfold many1, pbind in E. destruct (root_item rd N s) as [x q| |e] eqn:Ex'; [|reflexivity|discriminate].
      pose proof (many1_many N (root_item rd N) s) as M. unfold many1, pbind in M. rewrite Ex', E in M. cbn [many] in M. rewrite Ex' in M. destruct (many N _ q); discriminate M. }
    assert (Ei : resilient_item rd N s = POk [Invalid t] ("010"%char :: sb)).
    { unfold resilient_item. cbn [first_of]. unfold pbind at 1. rewrite Er. unfold pbind, invalid_p, token.
      assert (Hsk : skip s = s) by (subst s; destruct t as [|c t]; [congruence|]; cbn in Hh |- *; rewrite Hh; reflexivity). rewrite Hsk.
      assert (Hsp : span in_line s = (t, "010"%char :: sb)).
      { subst s. clear -Hl. induction t as [|c t IH]; [reflexivity|]. cbn [app span]. assert (Hc : in_line c = true).
        { unfold in_line. destruct (Ascii.eqb c "010") eqn:Ec; [|reflexivity]. apply Ascii.eqb_eq in Ec as ->. destruct Hl. left. reflexivity. }
        rewrite Hc, IH; [reflexivity|]. intros H. apply Hl. right. exact H. }
      rewrite Hsp. unfold nonempty. destruct t; [congruence|reflexivity]. }
    assert (Hr : exists r', rrun s = match rrun sb with POk l' r0 => POk ([Invalid t] :: l') r' | x => x end).
    { rewrite <- (rrun_fuel s (S (S N)) N Hs) by (subst N; lia). cbn [many]. rewrite Ei. change ("010"%char :: sb) with (["010"%char] ++ sb).
      fold (many (S N) (resilient_item rd N) (["010"%char] ++ sb)).
      pose proof (many_lead N ["010"%char] sb eq_refl N) as ML. cbn [many] in ML. rewrite ML. fold (many (S N) (resilient_item rd N) sb).
      assert (Lb : length sb < length s) by (subst s; rewrite app_length; cbn; lia).
      pose proof (rrun_fuel sb (S N) N Hb ltac:(subst N; lia) ltac:(subst N; lia)) as F. cbn [many] in F. rewrite F. destruct (rrun sb) as [[|x l'] r0| |e]; eauto. }
    destruct Hr as (r' & Hr). rewrite Hr. split; intros Hw.
    - rewrite (rrun_nil sb Hw). reflexivity.
    - pose proof (rrun_none sb) as Z. destruct (rrun sb) as [l' r0| |e]; try reflexivity. destruct l' as [|x l']; [destruct (Hw (Z [] r0 Hb eq_refl eq_refl))|reflexivity].
  Qed.
End Line.

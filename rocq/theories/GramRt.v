(** Files through the formatter and back. *)
From Verif Require Import Base Num CoordModel CoordProofs Ast GramAst PegModel GramModel FmtModel GramText GramExpr GramExprRt
  GramExprSpec GramExplicit GramTok GramWf GramFileSpec GramPieces GramRead GramReadAttr GramMacroRt GramTidy.
Local Open Scope nat_scope.

(** Settings that only add whitespace, drop codes or end a G code that was left open. *)
Record blank (o : settings) : Prop := MkBlank {
  b_body : ws (f_macro_body o); b_param : ws (f_macro_param o);
  b_block : ws (f_block o); b_sr : ws (f_sr o);
  b_d01 : ws (f_d01 o); b_d02 : ws (f_d02 o); b_d03 : ws (f_d03 o);
  b_lf : ws (f_lf o); b_polarity : ws (f_polarity o); b_plain : f_explicit o = false }.

(** ** Several rounds of a parser *)
Inductive steps {A} (p : parser A) : str -> list A -> str -> Prop :=
| st_nil s : steps p s [] s
| st_cons s a s1 l s2 : p s = POk a s1 -> length s1 < length s -> steps p s1 l s2 -> steps p s (a :: l) s2.
Lemma steps_app {A} (p : parser A) s l s1 l' s2 : steps p s l s1 -> steps p s1 l' s2 -> steps p s (l ++ l') s2.
Proof. intros H1 H2. induction H1; [exact H2|]. cbn. econstructor; eauto. Qed.
Lemma steps_one {A} (p : parser A) s a s1 : p s = POk a s1 -> length s1 < length s -> steps p s [a] s1.
Proof. intros H1 H2. econstructor; eauto. constructor. Qed.
Lemma steps_less {A} (p : parser A) s l s1 : steps p s l s1 -> length s1 <= length s.
Proof. intros H. induction H; lia. Qed.
Lemma steps_many {A} (p : parser A) s l s1 : steps p s l s1 -> p s1 = PFail ->
  forall k, length s < k -> many k p s = POk l s1.
Proof.
  intros H Hf. induction H as [s|s a s1 l s2 E L _ IH]; intros k Hk; (destruct k as [|k]; [lia|]); cbn [many].
  - rewrite Hf. reflexivity.
  - rewrite E, (IH Hf k) by lia. reflexivity.
Qed.

Section Rt.
  Context {K T : Type} (rd : reader K T) (w : writer K T) (o : settings).
  Hypothesis Ho : blank o.
  Notation keep := (f_keep o).
  Notation drop := (removed o).

  (** ** The formatted text of commands without a body *)
  Lemma ext_bare c b : ext o c b = ext bare c b ++ f_lf o.
  Proof. unfold ext. cbn [f_lf bare]. rewrite !app_nil_r, <- !app_assoc. reflexivity. Qed.
  Lemma com_bare b : com o b = com bare b ++ f_lf o.
  Proof. unfold com. cbn [f_lf bare]. rewrite !app_nil_r, <- !app_assoc. reflexivity. Qed.

  Definition dropped (c : cmd K T) : bool := match c with CG _ g => drop g | _ => false end.
  Lemma line_start_bare e sa : e = [] -> line_start bare [] e sa = [].
  Proof. intros ->. unfold line_start. destruct (sa || negb (f_keep bare))%bool; reflexivity. Qed.
  Lemma leaf_text base c : ws base -> wf_leaf rd c -> is_macro c = false -> dropped c = false ->
    exists v, ws v /\ fmt_leaf w o base c = v ++ cmd_text w c ++ f_lf o.
  Proof.
    intros Hb Hw Hm Hd. unfold cmd_text.
    destruct c; try contradiction; try discriminate; cbn [fmt_leaf].
    all: try (exists base; split; [exact Hb|]; rewrite ?ext_bare, ?com_bare; reflexivity).
    - exists base. split; [exact Hb|]. destruct (fmt_template w (ad_template a)). rewrite ext_bare. reflexivity.
    - exists base. split; [exact Hb|]. cbn [app]. f_equal. destruct a; cbn [fmt_ta]; apply ext_bare.
    - exists base. split; [exact Hb|]. cbn [app]. f_equal. destruct a; cbn [fmt_tf]; apply ext_bare.
    - exists base. split; [exact Hb|]. cbn [app]. f_equal. destruct a; cbn [fmt_to]; apply ext_bare.
    - destruct Hw as (-> & _). exists (base ++ f_d01 o). split; [apply ws_app; [exact Hb|apply Ho]|].
      rewrite (line_start_bare _ true) by reflexivity. unfold line_start. cbn [orb]. rewrite com_bare, <- !app_assoc. reflexivity.
    - destruct Hw as (-> & _). exists (base ++ f_d02 o). split; [apply ws_app; [exact Hb|apply Ho]|].
      rewrite (line_start_bare _ true) by reflexivity. unfold line_start. cbn [orb]. rewrite com_bare, <- !app_assoc. reflexivity.
    - destruct Hw as (-> & _). exists (base ++ f_d03 o). split; [apply ws_app; [exact Hb|apply Ho]|].
      rewrite (line_start_bare _ true) by reflexivity. unfold line_start. cbn [orb]. rewrite com_bare, <- !app_assoc. reflexivity.
    - destruct Hw as (-> & _). exists base. split; [exact Hb|].
      rewrite (line_start_bare _ true) by reflexivity. unfold line_start. cbn [orb]. rewrite com_bare, app_nil_r. reflexivity.
    - cbn in Hw. subst. exists base. split; [exact Hb|]. unfold fmt_g. cbn in Hd. rewrite Hd. cbn [orb].
      destruct g; rewrite com_bare; reflexivity.
    - exists (f_polarity o ++ base). split; [apply ws_app; [apply Ho|exact Hb]|]. rewrite ext_bare, <- app_assoc. reflexivity.
  Qed.

  (** A D code on its own. *)
  Definition solo (c : cmd K T) : cmd K T :=
    match c with
    | CD01 _ x y i j => CD01 true x y i j | CD02 _ x y => CD02 true x y
    | CD03 _ x y => CD03 true x y | CDnn _ id => CDnn true id | c => c
    end.
  Lemma solo_wf d : wf_d false d -> wf_leaf rd (solo d) /\ clean_leaf rd w (solo d) /\ is_macro (solo d) = false.
  Proof. destruct d; try contradiction; cbn; intros H; (split; [tauto|split; [exact I|reflexivity]]). Qed.
  Lemma glued_text base d : ws base -> wf_d false d ->
    exists v, ws v /\ fmt_leaf w o base d = v ++ cmd_text w (solo d) ++ f_lf o /\ cmd_text w (solo d) = cmd_text w d /\
      (keep = true -> v = []).
  Proof.
    intros Hb Hd. unfold cmd_text. destruct d; try contradiction; destruct Hd as (-> & _); cbn [solo fmt_leaf];
      rewrite ?(line_start_bare _ true), ?(line_start_bare _ false) by reflexivity;
      eexists; (split; [|split; [rewrite com_bare; cbn [app]; rewrite <- ?app_assoc; reflexivity|split; [reflexivity|]]]);
      unfold line_start; cbn [orb]; destruct keep; cbn [negb]; try reflexivity; try discriminate;
      try (apply ws_app; [exact Hb|apply Ho]).
    rewrite app_nil_r. exact Hb.
  Qed.

  (** ** No tabs *)
  Lemma notab_z z : notab (z_repr z).
  Proof. apply notab_double, z_repr_text. Qed.
  Lemma notab_ext c b : notab c -> notab b -> notab (ext bare c b).
  Proof. intros Hc Hb. unfold ext. apply notab_app; [reflexivity|]. apply notab_app; [exact Hc|]. apply notab_app; [exact Hb|reflexivity]. Qed.
  Lemma notab_com b : notab b -> notab (com bare b).
  Proof. intros Hb. unfold com. apply notab_app; [exact Hb|reflexivity]. Qed.
  Lemma notab_opt p t : notab (lit p) -> opt_ok notab t -> notab (opt_text p t).
  Proof. intros Hp Ht. destruct t; [|reflexivity]. apply notab_app; [exact Hp|exact Ht]. Qed.
  Lemma opt_imp {A} (P Q : A -> Prop) t : (forall a, P a -> Q a) -> opt_ok P t -> opt_ok Q t.
  Proof. intros H. destruct t; cbn; auto. Qed.
  Lemma notab_opt_num p k : notab (lit p) -> kept_opt (kept rd w) k -> notab (opt_num w p k).
  Proof. intros Hp Hk. apply notab_opt; [exact Hp|]. destruct k; [|exact I]. apply notab_double, Hk. reflexivity. Qed.
  Lemma notab_opt_str p k : notab (lit p) -> kept_opt (kept_str rd w) k -> notab (opt_text p (option_map (w_str w) k)).
  Proof. intros Hp Hk. apply notab_opt; [exact Hp|]. destruct k; [|exact I]. apply notab_double, Hk. reflexivity. Qed.
  Lemma notab_fields l : Forall field_text l -> notab (fields_text l).
  Proof.
    intros H. unfold fields_text. induction H as [|f l Hf _ IH]; [reflexivity|]. cbn [map concat].
    apply notab_app; [|exact IH]. apply notab_app; [reflexivity|apply Hf].
  Qed.
  Lemma notab_field f : field_text f -> notab f. Proof. intros H. apply H. Qed.
  Lemma notab_raw f : raw_text f -> notab f. Proof. intros H. apply H. Qed.
  Lemma notab_in l ls : Forall (fun x => notab (lit x)) ls -> In l (map lit ls) -> notab l.
  Proof. intros H Hi. apply in_map_iff in Hi as (x & <- & Hx). rewrite Forall_forall in H. auto. Qed.
  Lemma notab_xs l : Forall (kept_str rd w) l -> notab (concat (map (fun k => lit "X" ++ w_str w k) l)).
  Proof.
    intros H. induction H as [|k l Hk _ IH]; [reflexivity|]. cbn [map concat].
    apply notab_app; [|exact IH]. apply notab_app; [reflexivity|apply notab_double, Hk].
  Qed.
  Ltac nt := repeat match goal with
    | |- notab (_ ++ _) => apply notab_app
    | |- notab (lit _) => reflexivity
    | |- notab [] => reflexivity
    | |- notab (ext _ _ _) => apply notab_ext
    | |- notab (com _ _) => apply notab_com
    | |- notab (opt_text _ _) => apply notab_opt; [reflexivity|]
    | |- notab (opt_num _ _ _) => apply notab_opt_num; [reflexivity|tauto]
    | |- notab (fields_text _) => apply notab_fields; tauto
    | |- notab (z_repr _) => apply notab_z
    | |- notab (nat_text _) => apply notab_z
    | |- notab (w_num w _) => apply notab_double; tauto
    | |- notab (w_int w _) => apply notab_double; tauto
    | |- notab ?t => first [apply notab_field; tauto | apply notab_raw; tauto | apply notab_id; tauto
                           | apply notab_user; tauto | apply notab_name; tauto | reflexivity]
    | |- opt_ok notab _ => first
      [ (apply (opt_imp field_text notab); [exact notab_field|tauto])
      | (apply (opt_imp raw_text notab); [exact notab_raw|tauto])
      | (apply (opt_imp integer_text notab); [exact notab_integer|tauto])
      | (apply (opt_imp double_text notab); [exact notab_double|tauto]) ]
    end.
  Lemma notab_leaf c : wf_leaf rd c -> clean_leaf rd w c -> is_macro c = false -> notab (cmd_text w c).
  Proof.
    intros Hw Hc Hm. unfold cmd_text.
    destruct c; try contradiction; try discriminate; cbn [fmt_leaf app].
    - destruct a as [id t]. cbn [ad_id ad_template clean_leaf wf_leaf] in *. destruct t as [| | | |n [[|p l]|]];
        cbn [fmt_template clean_template wf_template] in *; unfold kept in Hc; fold (kept rd w) in *; try solve [nt].
      destruct Hc as [Hc _]. specialize (Hc _ eq_refl). apply Forall_cons_iff in Hc as [H1 H2]. nt.
      + apply notab_double, H1. + apply notab_xs, H2.
    - destruct a as [| |pl mi|? ? ? ? ? c]; cbn [fmt_ta wf_leaf wf_ta clean_leaf] in *; try solve [nt].
      + destruct Hw as [Hg Hf]. destruct function; nt. cbn. eapply notab_in; [|exact Hg]. repeat constructor.
      + destruct Hw as (H1 & H2 & H3 & (x & -> & Hx) & (y & -> & Hy) & H4).
        assert (notab mode) by (eapply notab_in; [|exact H2]; repeat constructor).
        assert (notab mirroring) by (eapply notab_in; [|exact H3]; repeat constructor).
        destruct c; nt; auto using notab_field.
    - destruct a; cbn [fmt_tf wf_leaf wf_tf clean_leaf] in *; try solve [nt].
    - destruct a as [| | | | |t s| | |]; cbn [fmt_to wf_leaf wf_to clean_leaf] in *; try solve [nt].
      + apply notab_ext; [reflexivity|]. apply notab_app; [reflexivity|]. apply notab_field, Hc.
      + destruct t; nt.
      + apply notab_ext; [reflexivity|]. apply notab_app; [reflexivity|]. apply notab_field, Hc.
    - cbn in Hw. nt.
    - cbn [wf_leaf wf_d] in Hw. rewrite line_start_bare by reflexivity. nt.
    - cbn [wf_leaf wf_d] in Hw. rewrite line_start_bare by reflexivity. nt.
    - cbn [wf_leaf wf_d] in Hw. rewrite line_start_bare by reflexivity. nt.
    - cbn [wf_leaf wf_d] in Hw. rewrite line_start_bare by reflexivity. nt.
    - destruct g, standalone; reflexivity.
    - cbn in Hw. nt.
    - destruct m; reflexivity.
    - cbn in Hw. nt.
    - destruct p; reflexivity.
    - cbn [wf_leaf clean_leaf kept] in *. unfold kept in Hc. nt.
    - cbn [wf_leaf clean_leaf kept] in *. unfold kept in Hc. nt.
    - reflexivity.
    - reflexivity.
    - reflexivity.
    - destruct c; reflexivity.
    - destruct f as [[] [] ? ? ? ?]; nt.
    - cbn in Hw. nt.
    - destruct p; reflexivity.
    - cbn [clean_leaf] in Hc. nt.
    - nt.
    - destruct u; reflexivity.
    - destruct Hc. apply notab_ext; [reflexivity|]. apply notab_app; apply notab_opt_str; auto; reflexivity.
    - cbn [wf_leaf clean_leaf kept] in *. unfold kept in Hc. nt.
  Qed.

  (** ** Reading the pieces *)
  Definition body_reads (ps : list str) (ls : list (list (cmd K T))) : Prop :=
    forall n m qs s, spaced (ps ++ qs) s -> length s < n -> length s < m ->
    exists s', steps (body_item rd n (block_p rd n m)) s ls s' /\ spaced qs s'.
  Definition root_reads (ps : list str) (ls : list (list (cmd K T))) : Prop :=
    forall n qs s, spaced (ps ++ qs) s -> length s < n ->
    exists s', steps (root_item rd n) s ls s' /\ spaced qs s'.
  Definition reads (ps : list str) (ls : list (list (cmd K T))) : Prop := body_reads ps ls /\ root_reads ps ls.
  Lemma root_nil : root_reads [] [].
  Proof. intros n qs s Hs Hn. exists s. split; [constructor|exact Hs]. Qed.
  Lemma reads_nil : reads [] [].
  Proof. split; [|apply root_nil]. intros n m qs s Hs Hn Hm. exists s. split; [constructor|exact Hs]. Qed.
  Lemma root_app ps ls ps' ls' : root_reads ps ls -> root_reads ps' ls' -> root_reads (ps ++ ps') (ls ++ ls').
  Proof.
    intros H1 H2 n qs s Hs Hn. rewrite <- app_assoc in Hs.
    destruct (H1 n _ s Hs Hn) as (s1 & B1 & Hs1). pose proof (steps_less _ _ _ _ B1).
    destruct (H2 n qs s1 Hs1 ltac:(lia)) as (s2 & B2 & Hs2).
    exists s2. split; [eapply steps_app; eauto|exact Hs2].
  Qed.
  Lemma reads_app ps ls ps' ls' : reads ps ls -> reads ps' ls' -> reads (ps ++ ps') (ls ++ ls').
  Proof.
    intros [H1 H1'] [H2 H2']. split; [|apply root_app; assumption]. intros n m qs s Hs Hn Hm. rewrite <- app_assoc in Hs.
    destruct (H1 n m _ s Hs Hn Hm) as (s1 & B1 & Hs1). pose proof (steps_less _ _ _ _ B1).
    destruct (H2 n m qs s1 Hs1 ltac:(lia) ltac:(lia)) as (s2 & B2 & Hs2).
    exists s2. split; [eapply steps_app; eauto|exact Hs2].
  Qed.
  Lemma reads_piece t l : t <> [] ->
    (forall n m s, length t < n -> body_item rd n (block_p rd n (S m)) (t ++ s) = POk l s /\ root_item rd n (t ++ s) = POk l s) ->
    reads [t] [l].
  Proof.
    intros Ht H. assert (length t <> 0) by (destruct t; [contradiction|discriminate]). split.
    - intros n m qs s Hs Hn Hm. cbn [app] in Hs. apply spaced_inv in Hs as (v & s' & -> & Hv & Hs).
      destruct m as [|m]; [lia|]. exists s'. rewrite !app_length in *. split; [|exact Hs].
      apply steps_one; [|rewrite !app_length; lia]. rewrite lead_body; [|apply lead_block|exact Hv]. apply H. lia.
    - intros n qs s Hs Hn. cbn [app] in Hs. apply spaced_inv in Hs as (v & s' & -> & Hv & Hs).
      exists s'. rewrite !app_length in *. split; [|exact Hs].
      apply steps_one; [|rewrite !app_length; lia]. rewrite lead_root by exact Hv. apply (H n 0). lia.
  Qed.
  Lemma pair_reads g d : wf_d false d -> reads [lit (g_name g) ++ cmd_text w d] [[CG false g; d]].
  Proof.
    intros Hd. apply reads_piece; [destruct g; discriminate|]. intros n m s _.
    pose proof (read_pair w g d s Hd) as H. split; (apply first_skip; [destruct g; reflexivity|]); apply first_hit, H.
  Qed.
  Lemma leaf_piece c : wf_leaf rd c -> clean_leaf rd w c -> is_macro c = false -> reads [cmd_text w c] [[c]].
  Proof.
    intros Hw Hc Hm. apply reads_piece.
    - intros E. pose proof (proj2 (leaf_reads rd w 1 0 c [] Hw Hc Hm ltac:(rewrite E; cbn; lia))) as H. rewrite E in H. discriminate H.
    - intros n m s Hn. apply leaf_reads; assumption.
  Qed.

  (** ** Lists of commands *)
  Lemma fmt_app l l' : forall base, fmt_cmds w o base (l ++ l') =
    let '(t, b) := fmt_cmds w o base l in let '(t', b') := fmt_cmds w o b l' in (t ++ t', b').
  Proof.
    induction l as [|c l IH]; intros base; cbn [app fmt_cmds].
    - destruct (fmt_cmds w o base l'). reflexivity.
    - destruct (fmt_cmd w o base c) as [t b]. rewrite IH. destruct (fmt_cmds w o b l) as [t1 b1].
      destruct (fmt_cmds w o b1 l') as [t2 b2]. rewrite app_assoc. reflexivity.
  Qed.
  Lemma fmt_block base id l : fmt_cmd w o base (CAB id l) =
    let '(t, b) := fmt_cmds w o (base ++ f_block o) l in
    let b' := decrease b (f_block o) in (base ++ ext o (lit "AB") id ++ t ++ b' ++ ext o (lit "AB") [], b').
  Proof. reflexivity. Qed.
  Lemma fmt_steprep base h l : fmt_cmd w o base (CSR h l) =
    let '(t, b) := fmt_cmds w o (base ++ f_sr o) l in
    let b' := decrease b (f_sr o) in (base ++ ext o (lit "SR") (fmt_sr h) ++ t ++ b' ++ ext o (lit "SR") [], b').
  Proof. reflexivity. Qed.
  Lemma tidy_block g id l : tidy_cmd keep drop g (CAB id l) = ([CAB id (@tidy K T keep drop false l)], false).
  Proof. reflexivity. Qed.
  Lemma tidy_steprep g h l : tidy_cmd keep drop g (CSR h l) = ([CSR h (@tidy K T keep drop false l)], false).
  Proof. reflexivity. Qed.
  Lemma clean_body l : (fix all (l : list (cmd K T)) : Prop := match l with [] => True | x :: r => clean rd w x /\ all r end) l
    <-> Forall (clean rd w) l.
  Proof.
    induction l as [|c l IH]; [split; auto|]. rewrite Forall_cons_iff, IH. reflexivity.
  Qed.
  Lemma ws_firstn k v : ws v -> ws (firstn k v).
  Proof.
    revert k. induction v as [|c v IH]; intros k H; [rewrite firstn_nil; exact H|].
    destruct k; [reflexivity|]. apply all_cons in H as [H1 H2]. cbn [firstn]. apply all_cons. split; [exact H1|apply IH, H2].
  Qed.
  Lemma ws_decrease b d : ws b -> ws (decrease b d).
  Proof.
    intros H. unfold decrease. destruct (ends_with b d); [|exact H]. destruct d; [reflexivity|]. apply ws_firstn, H.
  Qed.

  (** A list of commands that is written as pieces, which are read as its tidy form. *)
  Definition through (R : list str -> list (list (cmd K T)) -> Prop) (l : list (cmd K T)) : Prop :=
    exists ps ls, Forall notab ps /\
      (forall r, @tidy K T keep drop false (l ++ r) = concat ls ++ tidy keep drop false r) /\
      (forall base, ws base -> spaced ps (fst (fmt_cmds w o base l)) /\ ws (snd (fmt_cmds w o base l))) /\
      R ps ls.
  Lemma through_all (R : list str -> list (list (cmd K T)) -> Prop) (R0 : R [] []) (R1 : forall ps ls ps' ls', R ps ls -> R ps' ls' -> R (ps ++ ps') (ls ++ ls')) b :
    Forall (through R) b -> through R (concat b).
  Proof.
    intros H. induction H as [|l b (ps & ls & N1 & T1 & F1 & H1) _ (ps' & ls' & N2 & T2 & F2 & H2)].
    - exists [], []. split; [constructor|]. split; [reflexivity|]. split; [|exact R0].
      intros base Hb. split; [constructor; reflexivity|exact Hb].
    - exists (ps ++ ps'), (ls ++ ls'). split; [apply Forall_app; auto|]. split; [|split; [|auto]].
      + intros r. cbn [concat]. rewrite <- app_assoc, T1, T2, concat_app, app_assoc. reflexivity.
      + intros base Hb. cbn [concat]. rewrite fmt_app. destruct (F1 base Hb) as [S1 W1].
        destruct (fmt_cmds w o base l) as [t b1]. cbn [fst snd] in *. destruct (F2 b1 W1) as [S2 W2].
        destruct (fmt_cmds w o b1 (concat b)) as [t2 b2]. cbn [fst snd] in *. split; [apply spaced_app; assumption|exact W2].
  Qed.
  Lemma fmt_one base c t b : fmt_cmd w o base c = (t, b) -> fmt_cmds w o base [c] = (t, b).
  Proof. intros H. cbn [fmt_cmds]. rewrite H, app_nil_r. reflexivity. Qed.
  Lemma leaf_fmt base c : wf_leaf rd c -> fmt_cmd w o base c = (fmt_leaf w o base c, base).
  Proof. destruct c; try contradiction; reflexivity. Qed.
  Lemma leaf_tidy c r : wf_leaf rd c -> dropped c = false -> @tidy K T keep drop false (c :: r) = c :: tidy keep drop false r.
  Proof.
    intros Hw Hd. destruct c; try contradiction; cbn [tidy tidy_cmd]; try reflexivity.
    - destruct Hw as [-> _]. reflexivity.
    - destruct Hw as [-> _]. reflexivity.
    - destruct Hw as [-> _]. reflexivity.
    - destruct Hw as [-> _]. reflexivity.
    - cbn in Hw, Hd. rewrite Hw, Hd, andb_false_r. reflexivity.
  Qed.

  Lemma leaf_through c : wf_leaf rd c -> clean_leaf rd w c -> through reads [c].
  Proof.
    intros Hw Hc. destruct (dropped c) eqn:Hd.
    - exists [], []. split; [constructor|]. split; [|split; [|apply reads_nil]].
      + intros r. destruct c; try discriminate. cbn in Hd. cbn [app tidy tidy_cmd]. rewrite Hd. reflexivity.
      + intros base Hb. erewrite fmt_one by (apply leaf_fmt; exact Hw). split; [|exact Hb]. cbn [fst].
        destruct c; try discriminate. cbn in Hd. cbn [fmt_leaf]. unfold fmt_g. rewrite Hd, app_nil_r. constructor. exact Hb.
    - destruct (is_macro c) eqn:Hm.
      + destruct c; try discriminate.
        cbn [wf_leaf clean_leaf] in *. destruct Hw as [Hname Hw].
        assert (Hg : Forall (fun p => Forall (shape (survives rd w) 6) (prim_exprs p)) prims).
        { rewrite Forall_forall in *. intros p Hp. apply good_prim; auto. }
        exists (macro_pieces w o name prims), [[CAM name prims]]. split; [eapply notab_macro; eauto; apply Ho|].
        split; [reflexivity|]. split.
        * intros base Hb. erewrite fmt_one by reflexivity. split; [|exact Hb]. cbn [fst fmt_leaf].
          apply fmt_macro_spaced; auto; apply Ho.
        * split.
          -- intros n m qs s Hs Hn Hm'. destruct m as [|m]; [lia|].
             destruct (macro_item rd w o (b_plain o Ho) n m name prims qs s Hname Hw Hg Hs Hn) as (s2 & E1 & _ & Hq & L).
             exists s2. split; [apply steps_one; assumption|exact Hq].
          -- intros n qs s Hs Hn.
             destruct (macro_item rd w o (b_plain o Ho) n 0 name prims qs s Hname Hw Hg Hs Hn) as (s2 & _ & E2 & Hq & L).
             exists s2. split; [apply steps_one; assumption|exact Hq].
      + exists [cmd_text w c], [[c]]. split; [constructor; [apply notab_leaf; assumption|constructor]|].
        split; [intros r; cbn [app]; rewrite leaf_tidy by assumption; reflexivity|].
        split; [|apply leaf_piece; assumption].
        intros base Hb. erewrite fmt_one by (apply leaf_fmt; exact Hw). split; [|exact Hb]. cbn [fst].
        destruct (leaf_text base c Hb Hw Hm Hd) as (v & Hv & ->). apply spaced_ws; [exact Hv|]. apply spaced_end, Ho.
  Qed.
  Lemma g_text_bare g : cmd_text w (CG true g) = com bare (lit (g_name g)).
  Proof. unfold cmd_text. cbn [fmt_leaf app]. unfold fmt_g. destruct g; reflexivity. Qed.
  Lemma solo_tidy k g d r : wf_d false d ->
    @tidy K T k drop g (d :: r) = (if g then d else solo d) :: tidy k drop false r.
  Proof. intros Hd. destruct d; try contradiction; destruct Hd as [-> _]; destruct g; reflexivity. Qed.
  Lemma d_fmt base d : wf_d false d -> fmt_cmd w o base d = (fmt_leaf w o base d, base).
  Proof. destruct d; try contradiction; reflexivity. Qed.
  Lemma pair_through g d : wf_d false d -> through reads [CG false g; d].
  Proof.
    intros Hd. destruct (solo_wf d Hd) as (W & C & M).
    assert (F : forall base, fmt_cmds w o base [CG false g; d] = ((base ++ fmt_g o false g) ++ fmt_leaf w o base d, base)).
    { intros base. change (fmt_cmds w o base [CG false g; d]) with
        (let '(t, b) := fmt_cmds w o base [d] in ((base ++ fmt_g o false g) ++ t, b)).
      rewrite (fmt_one base d _ _ (d_fmt base d Hd)). reflexivity. }
    destruct (drop g) eqn:Eg.
    - exists [cmd_text w (solo d)], [[solo d]]. split; [constructor; [apply notab_leaf; assumption|constructor]|].
      split; [|split; [|apply leaf_piece; assumption]].
      + intros r. cbn [app]. cbn [tidy tidy_cmd]. rewrite Eg. apply (solo_tidy _ false d r Hd).
      + intros base Hb. rewrite F. split; [|exact Hb]. cbn [fst]. unfold fmt_g. rewrite Eg, app_nil_r.
        destruct (glued_text base d Hb Hd) as (v & Hv & -> & _). rewrite app_assoc. apply spaced_ws; [apply ws_app; assumption|].
        apply spaced_end, Ho.
    - destruct keep eqn:Ek.
      + exists [lit (g_name g) ++ cmd_text w d], [[CG false g; d]]. split; [constructor; [|constructor]|].
        { destruct (glued_text [] d ws_nil Hd) as (_ & _ & _ & <- & _). apply notab_app; [destruct g; reflexivity|]. apply notab_leaf; assumption. }
        split; [|split; [|apply pair_reads; exact Hd]].
        * intros r. change (@tidy K T keep drop false ([CG false g; d] ++ r)) with
            (let '(y, g') := @tidy_cmd K T keep drop false (CG false g) in y ++ tidy keep drop g' (d :: r)).
          cbn [tidy_cmd]. rewrite Eg, Ek. cbn [andb negb app concat].
          f_equal. exact (solo_tidy true true d r Hd).
        * intros base Hb. rewrite F. split; [|exact Hb]. cbn [fst]. unfold fmt_g. rewrite Eg, Ek. cbn [orb negb].
          destruct (glued_text base d Hb Hd) as (v & _ & -> & -> & Hv). rewrite (Hv Ek). cbn [app].
          rewrite <- app_assoc. apply spaced_ws; [exact Hb|]. rewrite app_assoc. apply spaced_end, Ho.
      + exists [cmd_text w (CG true g); cmd_text w (solo d)], [[CG true g]; [solo d]].
        split; [constructor; [destruct g; reflexivity|constructor; [apply notab_leaf; assumption|constructor]]|].
        split; [|split; [|apply (reads_app [_] [_] [_] [_]); apply leaf_piece; try assumption; reflexivity || exact I]].
        * intros r. change (@tidy K T keep drop false ([CG false g; d] ++ r)) with
            (let '(y, g') := @tidy_cmd K T keep drop false (CG false g) in y ++ tidy keep drop g' (d :: r)).
          cbn [tidy_cmd]. rewrite Eg, Ek. cbn [andb negb app concat].
          f_equal. exact (solo_tidy false false d r Hd).
        * intros base Hb. rewrite F. split; [|exact Hb]. cbn [fst]. unfold fmt_g. rewrite Eg, Ek. cbn [orb negb].
          destruct (glued_text base d Hb Hd) as (v & Hv & -> & _). apply (spaced_app [_] [_]).
          { apply spaced_ws; [exact Hb|]. rewrite com_bare, g_text_bare. apply spaced_end, Ho. }
          apply spaced_ws; [exact Hv|apply spaced_end, Ho].
  Qed.

  (** ** Blocks *)
  Lemma tidy_concat l ls : (forall r, @tidy K T keep drop false (l ++ r) = concat ls ++ tidy keep drop false r) ->
    @tidy K T keep drop false l = concat ls.
  Proof. intros H. specialize (H []). rewrite app_nil_r in H. cbn [tidy] in H. rewrite app_nil_r in H. exact H. Qed.
  Lemma block_through id l : id_text id -> through reads l -> through reads [CAB id l].
  Proof.
    intros Hid (ps & ls & N & Td & F & R).
    exists ((lit "%AB" ++ id ++ lit "*%") :: ps ++ [lit "%AB*%"]), [[CAB id (concat ls)]].
    split; [|split; [|split]].
    - constructor; [apply notab_app; [reflexivity|]; apply notab_app; [apply notab_id, Hid|reflexivity]|].
      apply Forall_app. split; [exact N|]. repeat constructor.
    - intros r. cbn [app tidy]. rewrite tidy_block, (tidy_concat _ _ Td). reflexivity.
    - intros base Hb. assert (Hb2 : ws (base ++ f_block o)) by (apply ws_app; [exact Hb|apply Ho]).
      destruct (F _ Hb2) as [S1 W1]. pose proof (fmt_block base id l) as Ef.
      destruct (fmt_cmds w o (base ++ f_block o) l) as [t b]. rewrite (fmt_one _ _ _ _ Ef).
      cbn [fst snd] in *. split; [|apply ws_decrease, W1].
      replace (base ++ ext o (lit "AB") id ++ t ++ decrease b (f_block o) ++ ext o (lit "AB") []) with
        (base ++ (lit "%AB" ++ id ++ lit "*%") ++ f_lf o ++ t ++ decrease b (f_block o) ++ lit "%AB*%" ++ f_lf o)
        by (unfold ext; rewrite <- !app_assoc; reflexivity).
      apply sp_cons; [exact Hb|]. apply spaced_ws; [apply Ho|]. apply spaced_app; [exact S1|].
      apply spaced_ws; [apply ws_decrease, W1|apply spaced_end, Ho].
    - assert (Hblock : forall n m qs s1, spaced (ps ++ lit "%AB*%" :: qs) s1 -> length s1 < n -> length s1 < m ->
        exists s3, block_p rd n (S m) (lit "%AB" ++ id ++ lit "*%" ++ s1) = POk (CAB id (concat ls)) s3 /\ spaced qs s3 /\
          length s3 <= length s1).
      { intros n m qs s1 Hs Hn Hm. destruct (proj1 R n m _ s1 Hs Hn Hm) as (s2 & B & Hs2).
        pose proof (steps_less _ _ _ _ B) as L. apply spaced_inv in Hs2 as (v2 & s3 & E2 & Hv2 & Hq).
        exists s3. split; [|split; [exact Hq|rewrite E2, !app_length in L; lia]].
        assert (Hf : body_item rd n (block_p rd n m) s2 = PFail).
        { rewrite E2, lead_body; [|apply lead_block|exact Hv2]. destruct m as [|m]; [lia|]. reflexivity. }
        cbn [block_p]. eapply bind_ok.
        { change (lit "%AB" ++ id ++ lit "*%" ++ s1) with (lit "%" ++ lit "AB" ++ id ++ lit "*%" ++ s1).
          unfold extended. eapply then_ok; [refine (lit_app "%" _ _); reflexivity|].
          eapply bind_ok.
          { eapply then_ok; [refine (lit_app "AB" _ _); reflexivity|]. apply id_app; [exact Hid|reflexivity]. }
          eapply then_ok; [refine (lit_app "*" _ _); reflexivity|].
          eapply then_ok; [refine (lit_app "%" _ _); reflexivity|]. reflexivity. }
        eapply bind_ok; [apply (steps_many _ _ _ _ B Hf); lia|].
        rewrite E2, lead_then; [|apply lead_extended|exact Hv2]. reflexivity. }
      assert (Hhead : forall qs s, spaced (((lit "%AB" ++ id ++ lit "*%") :: ps ++ [lit "%AB*%"]) ++ qs) s ->
        exists v s1, s = v ++ lit "%AB" ++ id ++ lit "*%" ++ s1 /\ ws v /\ spaced (ps ++ lit "%AB*%" :: qs) s1 /\ length s1 + 3 <= length s).
      { intros qs s Hs. cbn [app] in Hs. apply spaced_inv in Hs as (v & s1 & -> & Hv & Hs).
        rewrite <- app_assoc in Hs. cbn [app] in Hs. exists v, s1. split; [rewrite <- !app_assoc; reflexivity|].
        split; [exact Hv|]. split; [exact Hs|]. rewrite !app_length. cbn [length lit list_ascii_of_string]. lia. }
      split.
      + intros n m qs s Hs Hn Hm. destruct (Hhead qs s Hs) as (v & s1 & -> & Hv & Hs1 & L).
        destruct m as [|m]; [lia|]. destruct (Hblock n m qs s1 Hs1 ltac:(lia) ltac:(lia)) as (s3 & E3 & Hq & L3).
        exists s3. split; [|exact Hq]. apply steps_one; [|lia]. rewrite lead_body; [|apply lead_block|exact Hv].
        unfold body_item. do 6 (apply first_skip; [reflexivity|]). apply first_hit. apply single_ok. exact E3.
      + intros n qs s Hs Hn. destruct (Hhead qs s Hs) as (v & s1 & -> & Hv & Hs1 & L).
        destruct n as [|n]; [lia|]. destruct (Hblock (S n) n qs s1 Hs1 ltac:(lia) ltac:(lia)) as (s3 & E3 & Hq & L3).
        exists s3. split; [|exact Hq]. apply steps_one; [|lia]. rewrite lead_root by exact Hv.
        unfold root_item. do 3 (apply first_skip; [reflexivity|]). apply first_hit. apply single_ok. apply first_hit. exact E3.
  Qed.

  Lemma item_through m : forall l, item rd m l -> Forall (clean rd w) l -> through reads l.
  Proof.
    assert (Hc : forall c, wf_leaf rd c -> Forall (clean rd w) [c] -> clean_leaf rd w c).
    { intros c Hw H. apply Forall_cons_iff in H as [H _]. destruct c; try contradiction; exact H. }
    induction m as [|m IH]; intros l [(c & -> & Hw)|[(g & d & -> & Hd)|H]] Hl.
    - apply leaf_through; auto.
    - apply pair_through, Hd.
    - contradiction.
    - apply leaf_through; auto.
    - apply pair_through, Hd.
    - destruct H as (id & b & -> & Hid & Hb). apply block_through; [exact Hid|]. apply through_all; [apply reads_nil|apply reads_app|].
      apply Forall_cons_iff in Hl as [Hl _]. apply clean_body in Hl. apply Forall_concat in Hl.
      rewrite Forall_forall in *. intros x Hx. apply IH; auto.
  Qed.

  (** ** Step and repeat *)
  Lemma sr_header h s : wf_sr h -> clean_sr h -> sr_open_p (lit "%SR" ++ fmt_sr h ++ lit "*%" ++ s) = POk h s.
  Proof.
    intros Hw Hc. unfold sr_open_p, extended. 
    change (lit "%SR" ++ fmt_sr h ++ lit "*%" ++ s) with (lit "%" ++ lit "SR" ++ fmt_sr h ++ lit "*%" ++ s).
    eapply then_ok; [refine (lit_app "%" _ _); reflexivity|]. apply (bind_ok _ _ _ h (lit "*%" ++ s)).
    { eapply then_ok; [refine (lit_app "SR" _ _); destruct Hc as [->|(x & y & i & j & ->)]; reflexivity|].
      destruct Hc as [->|(x & y & i & j & ->)].
      - reflexivity.
      - destruct Hw as (Hx & Hy & Hi & Hj). cbn [sr_x sr_y sr_i sr_j opt_ok fmt_sr none_text] in *. rewrite <- !app_assoc.
        eapply bind_ok.
        { apply opt_some; [reflexivity|]. eapply then_ok; [refine (lit_app "X" _ _); reflexivity|].
          apply double_app; [exact Hx|reflexivity]. }
        eapply bind_ok.
        { apply opt_some; [reflexivity|]. eapply then_ok; [refine (lit_app "Y" _ _); reflexivity|].
          apply double_app; [exact Hy|reflexivity]. }
        eapply bind_ok.
        { apply opt_some; [reflexivity|]. eapply then_ok; [refine (lit_app "I" _ _); reflexivity|].
          apply double_app; [exact Hi|reflexivity]. }
        eapply bind_ok.
        { apply opt_some; [reflexivity|]. eapply then_ok; [refine (lit_app "J" _ _); reflexivity|].
          apply double_app; [exact Hj|reflexivity]. }
        reflexivity. }
    eapply then_ok; [refine (lit_app "*" _ _); reflexivity|].
    eapply then_ok; [refine (lit_app "%" _ _); reflexivity|]. reflexivity.
  Qed.
  Lemma notab_sr h : wf_sr h -> clean_sr h -> notab (fmt_sr h).
  Proof.
    intros (Hx & Hy & Hi & Hj) [->|(x & y & i & j & ->)]; [reflexivity|]. cbn in *.
    apply notab_cons; [reflexivity|]. 
    repeat first [apply notab_double; assumption | apply notab_app; [apply notab_double; assumption|] | apply notab_cons; [reflexivity|]].
  Qed.
  Lemma sr_through h l : wf_sr h -> clean_sr h -> through reads l -> through root_reads [CSR h l].
  Proof.
    intros Hh Hc (ps & ls & N & Td & F & R).
    exists ((lit "%SR" ++ fmt_sr h ++ lit "*%") :: ps ++ [lit "%SR*%"]), [[CSR h (concat ls)]].
    split; [|split; [|split]].
    - constructor; [apply notab_app; [reflexivity|]; apply notab_app; [apply notab_sr; assumption|reflexivity]|].
      apply Forall_app. split; [exact N|]. repeat constructor.
    - intros r. cbn [app tidy]. rewrite tidy_steprep, (tidy_concat _ _ Td). reflexivity.
    - intros base Hb. assert (Hb2 : ws (base ++ f_sr o)) by (apply ws_app; [exact Hb|apply Ho]).
      destruct (F _ Hb2) as [S1 W1]. pose proof (fmt_steprep base h l) as Ef.
      destruct (fmt_cmds w o (base ++ f_sr o) l) as [t b]. rewrite (fmt_one _ _ _ _ Ef).
      cbn [fst snd] in *. split; [|apply ws_decrease, W1].
      replace (base ++ ext o (lit "SR") (fmt_sr h) ++ t ++ decrease b (f_sr o) ++ ext o (lit "SR") []) with
        (base ++ (lit "%SR" ++ fmt_sr h ++ lit "*%") ++ f_lf o ++ t ++ decrease b (f_sr o) ++ lit "%SR*%" ++ f_lf o)
        by (unfold ext; rewrite <- !app_assoc; reflexivity).
      apply sp_cons; [exact Hb|]. apply spaced_ws; [apply Ho|]. apply spaced_app; [exact S1|].
      apply spaced_ws; [apply ws_decrease, W1|apply spaced_end, Ho].
    - intros n qs s Hs Hn. cbn [app] in Hs. apply spaced_inv in Hs as (v & s1 & -> & Hv & Hs).
      rewrite <- app_assoc in Hs. cbn [app] in Hs. rewrite !app_length in Hn. cbn [length lit list_ascii_of_string] in Hn.
      destruct (proj1 R n n _ s1 Hs ltac:(lia) ltac:(lia)) as (s2 & B & Hs2).
      pose proof (steps_less _ _ _ _ B) as L. apply spaced_inv in Hs2 as (v2 & s3 & E2 & Hv2 & Hq).
      exists s3. split; [|exact Hq].
      assert (Hf : body_item rd n (block_p rd n n) s2 = PFail).
      { rewrite E2, lead_body; [|apply lead_block|exact Hv2]. destruct n as [|n]; [lia|]. reflexivity. }
      apply steps_one; [|rewrite E2, !app_length in L; rewrite !app_length; cbn [length lit list_ascii_of_string] in *; lia].
      rewrite lead_root by exact Hv. rewrite <- !app_assoc. destruct n as [|n]; [lia|].
      unfold root_item. do 3 (apply first_skip; [reflexivity|]). apply first_hit. apply single_ok.
      do 2 (apply first_skip; [reflexivity|]). apply first_hit. unfold sr_p.
      eapply bind_ok; [apply sr_header; assumption|].
      eapply bind_ok; [apply (steps_many _ _ _ _ B Hf); lia|].
      rewrite E2, lead_then; [|apply lead_extended|exact Hv2]. reflexivity.
  Qed.
  Lemma root_through m l : root rd m l -> Forall (clean rd w) l -> through root_reads l.
  Proof.
    intros [H|(h & b & -> & Hh & Hb)] Hl.
    - destruct (item_through m l H Hl) as (ps & ls & N & Td & F & R). exists ps, ls. split; [exact N|].
      split; [exact Td|]. split; [exact F|apply R].
    - apply Forall_cons_iff in Hl as [[Hc Hl] _]. apply clean_body in Hl. apply Forall_concat in Hl.
      apply sr_through; [exact Hh|exact Hc|]. apply through_all; [apply reads_nil|apply reads_app|].
      rewrite Forall_forall in *. intros x Hx. eapply item_through; eauto.
  Qed.

  Theorem file_through m l : Forall (root rd m) l -> Forall (clean rd w) (concat l) ->
    parse rd (fst (fmt_cmds w o [] (concat l))) =
    match @tidy K T keep drop false (concat l) with [] => Err ESyntax | f => Ok f end.
  Proof.
    intros Hr Hc. apply Forall_concat in Hc.
    assert (H : through root_reads (concat l)).
    { apply through_all; [apply root_nil|apply root_app|]. rewrite Forall_forall in *. intros x Hx. eapply root_through; eauto. }
    destruct H as (ps & ls & N & Td & F & R). rewrite (tidy_concat _ _ Td). destruct (F [] ws_nil) as [Hs _].
    set (t := fst (fmt_cmds w o [] (concat l))) in *. clearbody t.
    pose proof (spaced_expand ps t N Hs 0) as Hx. pose proof (expand_notab t 0) as Ht. unfold parse.
    change (expand 0 t) with (expandtabs t) in *. set (s := expandtabs t) in *. clearbody s.
    rewrite <- (app_nil_r ps) in Hx. destruct (R (S (length s)) [] s Hx ltac:(lia)) as (s' & B & Hs').
    apply spaced_ws_inv in Hs'.
    assert (Hf : root_item rd (S (length s)) s' = PFail).
    { rewrite <- (app_nil_r s'), lead_root by exact Hs'. reflexivity. }
    inversion B as [s0|s0 a s1 ls' s2 E L B']; subst.
    - unfold many1, pbind. rewrite Hf. reflexivity.
    - unfold many1, pbind. rewrite E, (steps_many _ _ _ _ B' Hf) by lia. cbn [ret].
      rewrite <- (app_nil_r s'), skip_ws by exact Hs'. cbn [skip concat].
      assert (Ha : a <> []).
      { pose proof (yields_root rd (S (length s)) s ltac:(lia) Ht) as Y. rewrite E in Y. destruct Y as (Y & _).
        destruct Y as [[(c & -> & _)|[(g & d & -> & _)|(id & b & -> & _)]]|(h & b & -> & _)]; discriminate. }
      destruct a as [|c a]; [contradiction|reflexivity].
  Qed.
End Rt.

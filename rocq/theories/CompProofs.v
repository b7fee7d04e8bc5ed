(** Proofs for C92. *)
From Verif Require Import Base Num Dict CoordModel CoordSpec CoordProofs Ast StateModel StateSpec StateProofs StateProps MdEffectProps.
From Verif Require Import GramAst PegModel GramModel FmtModel GramText GramExpr GramExprRt GramExprSpec NumTextModel NumTextProofs
  GramNum GramTok GramWf GramFileSpec GramPieces GramRead GramReadAttr GramMacroRt GramTidy GramRt GramExact GramProps DumpProofs.
From Verif Require Import CompModel CompSpec.
Local Open Scope nat_scope.

Section Defs.
  Context {K : Type} {NK : Num K} {X : Type} (H : hooks K X).
  Definition stored (v : visitor K X) (before : list (node K)) : Prop :=
    (forall id, d_get id (s_apertures (v_state v)) = last_ad id before) /\
    (forall id x, d_get id (s_blocks (v_state v)) = Some x <-> x = id /\ block_defined id before) /\
    NoDup (d_keys (s_apertures (v_state v))) /\ NoDup (d_keys (s_blocks (v_state v))).
  Lemma last_ad_snoc id before (n : node K) : last_ad id (before ++ [n]) =
    match n with NAD a => if str_eqb id (ad_id a) then Some a else last_ad id before | _ => last_ad id before end.
  Proof. unfold last_ad. rewrite fold_left_app. reflexivity. Qed.
  Lemma block_snoc id before (n : node K) : block_defined id (before ++ [n]) <-> block_defined id before \/ exists b, n = NAB id b.
  Proof.
    unfold block_defined. split.
    - intros (b & I). apply in_app_or in I as [I|[I|[]]]; eauto.
    - intros [(b & I)|(b & ->)]; exists b; apply in_or_app; cbn; auto.
  Qed.
  Lemma stored_leaf n v v' before : is_leaf n -> stored v before ->
    visit_leaf H n v = Done v' \/ visit_leaf H n v = Stop v' -> stored v' (before ++ [n]).
  Proof.
    intros Hl (Ha & Hb & Na & Nb) E. pose proof (frame_leaf H n v v' E) as (Haps & Hbl & _). unfold stored. rewrite Hbl.
    assert (Bk : forall id, block_defined id (before ++ [n]) <-> block_defined id before).
    { intros id. rewrite block_snoc. split; [intros [Y|(b & ->)]; [exact Y|contradiction]|auto]. }
    split; [|split; [intros id x; rewrite Bk; apply Hb|split; [|exact Nb]]].
    - intros id. rewrite last_ad_snoc. destruct n; try (rewrite Haps; apply Ha). rewrite Haps, d_get_set. destruct (str_eqb id (ad_id a)); [reflexivity|apply Ha].
    - destruct n; try (rewrite Haps; exact Na). rewrite Haps. apply d_set_nodup, Na.
  Qed.
  Lemma stored_file b ns x v' : on_file H b ns (visitor_init x) = Ok v' -> stored v' (executed_file b ns).
  Proof.
    intros E.
    assert (HR : stored v' (fold_left (fun a n => a ++ [n]) (executed_file b ns) [])).
    { apply (sim_file H stored (fun a n => a ++ [n])) with (v := visitor_init x); try exact E.
      - intros n v v1 s. apply stored_leaf.
      - intros id v s HR. exact HR.
      - intros id v s (Ha & Hb & Na & Nb). unfold stored, ab_leave, register_block, set_store.
        cbn [with_ext with_state v_state s_apertures s_blocks]. split; [intros i; rewrite last_ad_snoc; apply Ha|]. split; [|split; [exact Na|apply d_set_nodup, Nb]].
        intros i y. rewrite d_get_set, block_snoc. destruct (str_eqb i id) eqn:Ei.
        + apply str_eqb_eq in Ei. subst i. split; [intros Ey; injection Ey as <-; eauto|intros [-> _]; reflexivity].
        + rewrite Hb. split; [tauto|]. intros [-> [Y|(b0 & Y)]]; [tauto|]. injection Y as -> _. rewrite str_eqb_refl in Ei. discriminate.
      - intros u v s HR. unfold sr_enter. destruct (hk_sr_open H u _ _). exact HR.
      - intros tmp hdr v v1 s HR E1. unfold sr_leave in E1. apply lift_done in E1 as (Hs & _). unfold stored. rewrite Hs. exact HR.
      - split; [reflexivity|]. split; [|split; apply NoDup_nil]. intros id y. split; [discriminate|intros [_ (b0 & [])]]. }
    rewrite fold_snoc in HR. exact HR.
  Qed.
End Defs.

(** ** One command through the formatter *)
Lemma one_read K T (rd : reader K T) (w : writer K T) c op : blank_options op -> op_keep_non_standalone op = true -> op_remove_g54 op = false -> op_remove_g55 op = false ->
  wf_leaf rd c -> clean rd w c -> parse rd (formats w op [c]) = Ok [c].
Proof.
  intros Hb Hk H4 H5 Hw Hc. unfold formats.
  assert (Hr : Forall (root rd 0) [[c]]) by (constructor; [left; left; eauto|constructor]).
  assert (Hcl : Forall (clean rd w) (concat [[c]])) by (constructor; [exact Hc|constructor]).
  pose proof (file_through rd w (init op) (blank_init op Hb) 0 _ Hr Hcl) as R. rewrite (tidy_exts (f_keep (init op)) (removed (init op)) (fun _ => false)) in R by (intros []; cbn; auto).
  cbn [init f_keep] in R. rewrite Hk, (file_same rd 0 _ Hr) in R. cbn [concat app] in R. exact R.
Qed.
(** The options that leave out line ends. *)
Definition tight_options : options :=
  MkOptions " " (ICount 0) (ICount 0) SplitOnPrimitives false (ICount 0) (ICount 0) (ICount 0) (ICount 0) (ICount 0)
    (lit (String "010" "")) false true false false false true.
Lemma tight_read K T (rd : reader K T) (w : writer K T) c t : wf_leaf rd c -> clean rd w c -> t = formats w tight_options [c] -> parse rd t = Ok [c].
Proof. intros Hw Hc ->. apply one_read; try reflexivity; try assumption. repeat (split; [reflexivity|]). repeat constructor. Qed.

(** ** Snippets *)
Lemma pieces_digits s r : all_digits s -> pieces Outside (s ++ r) = map inl s ++ pieces Outside r.
Proof.
  induction s as [|c s IH]; intros Hs; [reflexivity|]. apply all_digits_cons in Hs as [Hc Hs]. cbn [app pieces map].
  destruct (Ascii.eqb c "$") eqn:E; [apply Ascii.eqb_eq in E; subst c; discriminate Hc|]. rewrite (IH Hs). reflexivity.
Qed.
Lemma put_inl f s : concat (map (put f) (map inl s)) = s.
Proof. induction s as [|c s IH]; [reflexivity|]. cbn. rewrite IH. reflexivity. Qed.
Lemma filled_ad f n r : (0 <= n)%Z -> filled f (lit "ADD" ++ z_repr n ++ r) = lit "ADD" ++ z_repr n ++ filled f r.
Proof.
  intros Hn. unfold filled. change (pieces Outside (lit "ADD" ++ z_repr n ++ r)) with (map inl (lit "ADD") ++ pieces Outside (z_repr n ++ r)).
  rewrite pieces_digits by (rewrite repr_pos by exact Hn; apply int_digits_spec, Hn). rewrite !map_app, !concat_app, !put_inl. reflexivity.
Qed.
Lemma numbers_ad n r : (0 <= n)%Z -> numbers (lit "ADD" ++ z_repr n ++ r) = numbers r.
Proof.
  intros Hn. unfold numbers. change (pieces Outside (lit "ADD" ++ z_repr n ++ r)) with (map inl (lit "ADD") ++ pieces Outside (z_repr n ++ r)).
  rewrite pieces_digits by (rewrite repr_pos by exact Hn; apply int_digits_spec, Hn). rewrite !flat_map_app.
  assert (Z0 : forall l, flat_map (fun p : ascii + ascii * str => match p with inr (d, _) => [d] | inl _ => [] end) (map inl l) = []) by (induction l; auto).
  rewrite !Z0. reflexivity.
Qed.
Lemma id_number id : id_text id -> exists m, dcode id m /\ (10 <= m)%Z.
Proof.
  intros (z & a & d & -> & Hz & Ha & Hna & Hd & Hdd). unfold all in *.
  assert (A : all_digits (z ++ a :: d)).
  { apply all_digits_forallb. rewrite forallb_app. cbn [forallb]. rewrite Ha. apply andb_true_intro. split.
    - rewrite forallb_forall in *. intros c Hc. specialize (Hz c Hc). apply Ascii.eqb_eq in Hz. subst c. reflexivity.
    - exact Hdd. }
  exists (digits_value (z ++ a :: d)). split.
  - exists (z ++ a :: d). split; [reflexivity|]. split; [destruct z; discriminate|]. apply digits_spec, A.
  - assert (Az : all_digits z) by (intros c Hc; apply A, in_or_app; auto). assert (Ad : all_digits d) by (intros c Hc; apply A, in_or_app; cbn; auto).
    rewrite digits_value_app, digits_value_cons. pose proof (digits_value_bound z Az). pose proof (digits_value_bound d Ad).
    assert (Pa : (1 <= digit_val a)%Z).
    { revert Ha Hna. clear. destruct a as [[] [] [] [] [] [] [] []]; vm_compute; intros H1 H2; try discriminate H1; try discriminate H2; intros H3; discriminate H3. }
    assert (L : (10 <= 10 ^ Z.of_nat (length d))%Z).
    { destruct d as [|c d]; [congruence|]. cbn [length]. rewrite Nat2Z.inj_succ, Z.pow_succ_r by lia. assert (0 < 10 ^ Z.of_nat (length d))%Z by (apply Z.pow_pos_nonneg; lia). lia. }
    assert (0 <= digits_value z * 10 ^ Z.of_nat (length (a :: d)))%Z by (apply Z.mul_nonneg_nonneg; [lia|apply Z.pow_nonneg; lia]). nia.
Qed.

(** Texts up to the whitespace between pieces: the parser does not see the difference. *)
From Verif Require Import Base Num CoordModel Ast GramAst PegModel GramModel FmtModel GramText GramExpr GramExprRt
  GramTok GramWf.
Local Open Scope nat_scope.

(** [s] consists of the pieces, with whitespace in front of each and at the end. *)
Inductive spaced : list str -> str -> Prop :=
| sp_nil v : ws v -> spaced [] v
| sp_cons v p ps s : ws v -> spaced ps s -> spaced (p :: ps) (v ++ p ++ s).

Lemma ws_nil : ws []. Proof. reflexivity. Qed.
Lemma ws_app a b : ws a -> ws b -> ws (a ++ b).
Proof. intros H1 H2. apply all_app. auto. Qed.
Lemma spaced_ws v ps s : ws v -> spaced ps s -> spaced ps (v ++ s).
Proof.
  intros Hv H. destruct H as [w Hw|w p ps s Hw H]; [constructor; apply ws_app; auto|].
  rewrite app_assoc. constructor; [apply ws_app; auto|exact H].
Qed.
Lemma spaced_app ps qs s t : spaced ps s -> spaced qs t -> spaced (ps ++ qs) (s ++ t).
Proof.
  intros H. revert t. induction H as [v Hv|v p ps s Hv H IH]; intros t Ht.
  - apply spaced_ws; auto.
  - rewrite <- !app_assoc. cbn. constructor; [exact Hv|apply IH, Ht].
Qed.
Lemma spaced_one p : spaced [p] p.
Proof.
  pose proof (sp_cons [] p [] [] ws_nil (sp_nil [] ws_nil)) as H. rewrite app_nil_r in H. exact H.
Qed.
Lemma spaced_end p v : ws v -> spaced [p] (p ++ v).
Proof. intros H. apply (sp_cons [] p [] v ws_nil (sp_nil v H)). Qed.
Lemma spaced_inv p ps s : spaced (p :: ps) s -> exists v s', s = v ++ p ++ s' /\ ws v /\ spaced ps s'.
Proof. intros H. inversion H; subst. eauto. Qed.
Lemma spaced_ws_inv s : spaced [] s -> ws s.
Proof. intros H. inversion H; subst. assumption. Qed.
Lemma spaced_split ps qs s : spaced (ps ++ qs) s -> exists a b, s = a ++ b /\ spaced ps a /\ spaced qs b.
Proof.
  revert s. induction ps as [|p ps IH]; intros s H.
  - exists [], s. split; [reflexivity|]. split; [constructor; reflexivity|exact H].
  - cbn in H. apply spaced_inv in H as (v & s' & -> & Hv & H). destruct (IH s' H) as (a & b & -> & Ha & Hb).
    exists (v ++ p ++ a), b. split; [rewrite <- !app_assoc; reflexivity|]. split; [constructor; auto|exact Hb].
Qed.

(** Tabs are expanded between pieces only. *)
Lemma expand_keeps p : notab p -> forall s col, exists col', expand col (p ++ s) = p ++ expand col' s.
Proof.
  induction p as [|c p IH]; intros Hp s col; [exists col; reflexivity|].
  apply all_cons in Hp as [Hc Hp]. apply negb_true_iff in Hc. cbn [app expand]. rewrite Hc.
  destruct (Ascii.eqb c "010" || Ascii.eqb c "013").
  - destruct (IH Hp s 0) as [col' E]. exists col'. rewrite E. reflexivity.
  - destruct (IH Hp s (S col)) as [col' E]. exists col'. rewrite E. reflexivity.
Qed.
Lemma expand_ws v : ws v -> forall s col, exists v' col', ws v' /\ expand col (v ++ s) = v' ++ expand col' s.
Proof.
  induction v as [|c v IH]; intros Hv s col; [exists [], col; auto using ws_nil|].
  apply all_cons in Hv as [Hc Hv]. cbn [app expand].
  destruct (Ascii.eqb c "009").
  - destruct (IH Hv s (col + (8 - col mod 8))) as (v' & col' & Hv' & E). rewrite E.
    exists (repeat " "%char (8 - col mod 8) ++ v'), col'. split; [|rewrite app_assoc; reflexivity].
    apply ws_app; [|exact Hv']. apply all_repeat. reflexivity.
  - destruct (Ascii.eqb c "010" || Ascii.eqb c "013").
    + destruct (IH Hv s 0) as (v' & col' & Hv' & E). exists (c :: v'), col'. rewrite E.
      split; [apply all_cons; auto|reflexivity].
    + destruct (IH Hv s (S col)) as (v' & col' & Hv' & E). exists (c :: v'), col'. rewrite E.
      split; [apply all_cons; auto|reflexivity].
Qed.
Lemma spaced_expand ps s : Forall notab ps -> spaced ps s -> forall col, spaced ps (expand col s).
Proof.
  intros Hp H. induction H as [v Hv|v p ps s Hv H IH]; intros col.
  - destruct (expand_ws v Hv [] col) as (v' & col' & Hv' & E). rewrite app_nil_r in E. rewrite E.
    constructor. rewrite app_nil_r. exact Hv'.
  - inversion Hp; subst. destruct (expand_ws v Hv (p ++ s) col) as (v' & col' & Hv' & ->).
    destruct (expand_keeps p H2 s col') as (col2 & ->). constructor; auto.
Qed.

(** ** Parsers that skip leading whitespace *)
Definition lead {A} (p : parser A) : Prop := forall v s, ws v -> p (v ++ s) = p s.
Lemma lead_token {A} (f : str -> option (A * str)) : lead (token f).
Proof. intros v s Hv. unfold token. rewrite skip_ws by exact Hv. reflexivity. Qed.
Lemma lead_bind {A B} (p : parser A) (f : A -> parser B) : lead p -> lead (pbind p f).
Proof. intros H v s Hv. unfold pbind. rewrite (H v s Hv). reflexivity. Qed.
Lemma lead_opt_bind {A B} (p : parser A) (f : option A -> parser B) : lead (pbind (opt p) f).
Proof. apply lead_bind. intros v s Hv. unfold opt. rewrite skip_ws by exact Hv. reflexivity. Qed.
Lemma lead_then {A B} (p : parser A) (q : parser B) : lead p -> lead (p ;; q).
Proof. apply lead_bind. Qed.
Lemma lead_first_of {A} (ps : list (parser A)) : Forall lead ps -> lead (first_of ps).
Proof.
  intros H v s Hv. induction H as [|p ps Hp _ IH]; [reflexivity|]. cbn. rewrite (Hp v s Hv), IH. reflexivity.
Qed.
Lemma lead_command {A} (p : parser A) : lead p -> lead (command p).
Proof. apply lead_bind. Qed.
Lemma lead_extended {A} (p : parser A) : lead (extended p).
Proof. apply lead_then, lead_token. Qed.
Lemma lead_followed {A B} (p : parser A) (q : parser B) : lead p -> lead q -> lead (followed_by p ;; q).
Proof.
  intros Hp Hq v s Hv. unfold pthen, pbind, followed_by. rewrite (Hp v s Hv).
  destruct (p s); [apply Hq, Hv|reflexivity|reflexivity].
Qed.
Lemma lead_unary {K} n op (mk : expr K -> expr K) last : lead last -> lead (unary n op mk last).
Proof.
  intros H. destruct n; intros v s Hv; [reflexivity|]. cbn [unary]. apply lead_first_of; [|exact Hv].
  repeat constructor; [|exact H]. apply lead_followed; [apply lead_then, lead_token|].
  apply lead_bind, lead_then, lead_token.
Qed.
Lemma lead_binary {K O} n (op : parser O) (mk : expr K -> list (expr K) -> expr K) last :
  lead last -> lead (binary n op mk last).
Proof.
  intros H. apply lead_first_of. repeat constructor; [|exact H].
  apply lead_followed; [apply lead_then, H|apply lead_bind, H].
Qed.
Lemma lead_expr {K T} (rd : reader K T) n : lead (expr_p rd n).
Proof.
  destruct n; intros v s Hv; [reflexivity|]. cbn [expr_p].
  revert v s Hv. apply lead_binary, lead_binary, lead_binary, lead_binary, lead_unary, lead_unary, lead_first_of.
  repeat apply Forall_cons; try apply Forall_nil; [apply lead_bind, lead_token| |apply lead_then, lead_token].
  apply lead_bind, lead_bind, lead_token.
Qed.

Section Lead.
  Context {K T : Type} (rd : reader K T).
  Ltac lead_step := first
    [ apply lead_token | apply lead_extended | apply lead_opt_bind
    | apply lead_then | apply lead_bind | apply lead_command
    | apply lead_first_of; repeat apply Forall_cons; try apply Forall_nil ].
  Ltac lead_go := repeat lead_step.
  Lemma lead_d sa : lead (@d_codes K T sa).
  Proof. unfold d_codes, dnn_p, d01_p, d02_p, d03_p. lead_go. Qed.
  Lemma lead_g : lead (@g_codes K T).
  Proof.
    apply lead_first_of. apply Forall_cons; [unfold g04_p; lead_go|]. apply Forall_app. split.
    - apply Forall_map, Forall_forall. intros g _. unfold g_standalone. lead_go.
    - apply Forall_map, Forall_forall. intros g _. unfold g_non_standalone. lead_go.
  Qed.
  Lemma lead_load : lead (@load K T rd).
  Proof. unfold load. lead_go. Qed.
  Lemma lead_properties : lead (@properties K T rd).
  Proof. unfold properties, fs_p, mo_p, ip_p, ir_p, of_p, as_p, mi_p, in_p, sf_p. lead_go. Qed.
  Lemma lead_m : lead (@m_codes K T).
  Proof. unfold m_codes. lead_go. Qed.
  Lemma lead_macro n : lead (@macro_p K T rd n).
  Proof. unfold macro_p. lead_go. Qed.
  Lemma lead_adds n : lead (@add_aperture K T rd n).
  Proof. unfold add_aperture, adc_p, adr_p, adp_p, admacro_p. lead_go. Qed.
  Lemma lead_attribute n : lead (@attribute K T rd n).
  Proof.
    unfold attribute, ta_p, tf_p, to_p, td_p, ta_user_p, ta_aper_function_p, ta_drill_tolerance_p, ta_flash_text_p,
      tf_user_p, tf_enum_p, tf_one_p, tf_same_p, tf_three_p, to_user_p, to_n_p, to_p_p, to_one_p, to_csup_p.
    lead_go.
  Qed.
  Lemma lead_block n m : lead (@block_p K T rd n m).
  Proof. destruct m; intros v s Hv; [reflexivity|]. cbn [block_p]. apply lead_bind; [apply lead_extended|exact Hv]. Qed.
  Lemma lead_sr n m : lead (@sr_p K T rd n m).
  Proof. unfold sr_p, sr_open_p. lead_go. Qed.
  Lemma lead_body n block : lead block -> lead (@body_item K T rd n block).
  Proof.
    intros Hb. apply lead_first_of. repeat apply Forall_cons; try apply Forall_nil; try apply lead_bind;
      auto using lead_d, lead_g, lead_load, lead_properties, lead_attribute, lead_adds, lead_macro, lead_m.
  Qed.
  Lemma lead_root n : lead (@root_item K T rd n).
  Proof.
    apply lead_first_of. repeat apply Forall_cons; try apply Forall_nil; try apply lead_bind;
      auto using lead_d, lead_g, lead_load, lead_properties, lead_attribute, lead_m.
    apply lead_first_of. repeat apply Forall_cons; try apply Forall_nil;
      auto using lead_block, lead_macro, lead_sr, lead_adds.
  Qed.
  Lemma lead_prim n : lead (@prim_p K T rd n).
  Proof. unfold prim_p, assignment_p, primitive. lead_go. Qed.
End Lead.

(** Proofs for C76. *)
From Verif Require Import Base Num CoordModel CoordProofs Ast StateModel GbModel.
From Verif Require Import GramAst PegModel GramModel FmtModel GramText GramExpr GramExprRt
  GramExprSpec NumTextModel NumTextProofs GramNum GramTok GramWf GramFileSpec GramPieces GramRead GramReadAttr
  GramMacroRt GramTidy GramRt GramExact GramProps DumpModel DumpSpec.
From Coq Require Import Qabs.
Local Open Scope nat_scope.
Notation wr := (q_writer (-1) TrimYes).
Notation rd := q_reader.

(** ** Numbers *)
Lemma good_writable q : good q -> writable (-1) q.
Proof. intros (_ & H1 & H2). right. split; [lia|]. auto. Qed.
Lemma good_kept q : good q -> kept rd wr q.
Proof. intros H. apply writable_reads; [apply good_writable, H|apply H]. Qed.
Lemma good_num q : good q -> num_ok rd q.
Proof. intros H. destruct (good_kept q H) as [H1 H2]. eexists. split; [exact H1|]. symmetry. exact H2. Qed.
Lemma good_opp q : good q -> good (- q).
Proof.
  intros (H1 & (n & j & H2) & H3). split; [|split].
  - rewrite Qred_opp, H1. reflexivity.
  - exists (- n)%Z, j. rewrite H2, inject_Z_opp. unfold Qdiv. ring.
  - destruct H3 as [H3|H3]; [left; rewrite H3; reflexivity|right]. rewrite Qabs_opp. exact H3.
Qed.
Lemma good_const q : good q -> (0 <= q)%Q -> survives rd wr q /\ const_ok rd q.
Proof.
  intros H Hq. assert (S : survives rd wr q) by (apply writable_survives; [apply good_writable, H|apply H|exact Hq]).
  split; [exact S|]. destruct S as [S1 S2]. exists (w_num wr q). split; [|split; [|symmetry; exact S2]].
  - exists [], (w_num wr q). split; [reflexivity|]. split; [left; reflexivity|exact S1].
  - pose proof (unsigned_head _ [] S1) as [Hh _]. rewrite app_nil_r in Hh.
    destruct (w_num wr q); [reflexivity|]. cbn [head_is] in *. unfold is_sign in Hh. apply orb_false_iff in Hh as [H1 H2].
    rewrite Ascii.eqb_sym. assumption.
Qed.
Lemma str_opp q : Qle_bool 0 q = false -> q_str q = ch_minus :: q_str (- q).
Proof.
  intros H. assert (H' : Qle_bool 0 (- q) = true).
  { apply Qle_bool_iff. destruct (Qlt_le_dec q 0) as [L|L]; [|apply Qle_bool_iff in L; congruence].
    apply Qlt_le_weak in L. apply Qopp_le_compat in L. exact L. }
  unfold q_str. rewrite H, H'. cbn [Qopp Qnum Qden]. rewrite Z.abs_opp. cbn [negb].
  destruct (_ =? 0)%Z; reflexivity.
Qed.

(** ** What is written is written with or without signs *)
Section Fmt.
  Variable o : settings.
  Notation fe := (fmt_expr wr o).
  Lemma fmt_sign e : fe (sign_expr e) = fe e.
  Proof.
    destruct e as [k| | | | | | | |]; try reflexivity. cbn [sign_expr]. destruct (Qle_bool 0 k) eqn:E; [reflexivity|].
    cbn [fmt_expr]. symmetry. exact (str_opp _ E).
  Qed.
  Lemma fmt_prim_sign p : fmt_prim wr o (on_exprs sign_expr p) = fmt_prim wr o p.
  Proof.
    destruct p; cbn [on_exprs fmt_prim]; unfold prim_text; cbn [map app]; rewrite ?fmt_sign; try reflexivity.
    - destruct rotation; cbn [option_map map app]; rewrite ?fmt_sign; reflexivity.
    - rewrite map_map. cbn [fst snd].
      rewrite (map_ext _ (fun p => fe (fst p) ++ lit "," ++ fe (snd p))); [reflexivity|]. intros [a b]. cbn [fst snd]. rewrite !fmt_sign. reflexivity.
  Qed.
  Lemma fmt_cmd_sign base c : fmt_cmd wr o base (sign_cmd c) = fmt_cmd wr o base c.
  Proof.
    destruct c; try reflexivity. cbn [sign_cmd fmt_cmd fmt_leaf]. unfold fmt_macro. rewrite map_map.
    rewrite (map_ext _ (fun p => base ++ fmt_prim wr o p)); [reflexivity|]. intros p. rewrite fmt_prim_sign. reflexivity.
  Qed.
  Lemma fmt_cmds_sign l : forall base, fmt_cmds wr o base (map sign_cmd l) = fmt_cmds wr o base l.
  Proof.
    induction l as [|c l IH]; intros base; [reflexivity|]. cbn [map fmt_cmds]. rewrite fmt_cmd_sign.
    destruct (fmt_cmd wr o base c) as [t b]. rewrite IH. reflexivity.
  Qed.
End Fmt.

(** ** Macros *)
Definition const_good (e : expr Q) : Prop := exists q, e = EConst q /\ good q.
Definition fine_prim (p : prim Q) : Prop :=
  match p with PAssign _ _ | PCode0 _ => False | PCode4 _ _ _ _ pts _ => pts <> [] | _ => True end /\
  Forall const_good (prim_exprs p).
Lemma sign_shape e : const_good e -> shape (const_ok rd) 6 (sign_expr e) /\ kept_expr rd wr (sign_expr e).
Proof.
  intros (q & -> & H). cbn [sign_expr]. destruct (Qle_bool 0 q) eqn:E.
  - apply Qle_bool_iff in E. destruct (good_const q H E) as [G1 G2]. split; [constructor; exact G2|].
    intros k Hk. inversion Hk; subst. exact G1.
  - assert (E' : (0 <= - q)%Q).
    { destruct (Qlt_le_dec q 0) as [L|L]; [|apply Qle_bool_iff in L; congruence].
      apply Qlt_le_weak in L. apply Qopp_le_compat in L. exact L. }
    destruct (good_const (- q) (good_opp q H) E') as [G1 G2]. split; [constructor; [lia|constructor; exact G2]|].
    intros k Hk. inversion Hk as [|?|? Hk'|?|?|?|?|?]; subst. inversion Hk'; subst. exact G1.
Qed.
Lemma exprs_map {K} (f : expr K -> expr K) p : prim_exprs (on_exprs f p) = map f (prim_exprs p).
Proof.
  destruct p; try reflexivity; cbn [on_exprs prim_exprs].
  - destruct rotation; reflexivity.
  - rewrite !map_app. do 2 f_equal. induction points as [|[a b] l IH]; [reflexivity|]. cbn [map flat_map fst snd app]. rewrite IH. reflexivity.
Qed.
Lemma exprs_uid p : prim_exprs (no_uid p) = prim_exprs p.
Proof. destruct p; reflexivity. Qed.
Lemma macro_fine p : fine_prim p ->
  wf_prim rd (on_exprs sign_expr (no_uid p)) /\ Forall (kept_expr rd wr) (prim_exprs (on_exprs sign_expr (no_uid p))).
Proof.
  intros [H1 H2].
  assert (S : Forall (fun e => shape (const_ok rd) 6 e /\ kept_expr rd wr e) (prim_exprs (on_exprs sign_expr (no_uid p)))).
  { rewrite exprs_map, exprs_uid. apply Forall_map. eapply Forall_impl; [|exact H2]. exact sign_shape. }
  split; [|eapply Forall_impl; [|exact S]; intros e He; apply He].
  assert (S' : Forall (shape (const_ok rd) 6) (prim_exprs (on_exprs sign_expr (no_uid p)))) by (eapply Forall_impl; [|exact S]; intros e He; apply He).
  clear S H2. destruct p; cbn [no_uid on_exprs prim_exprs wf_prim] in *; try contradiction; try exact S'.
  - apply Forall_app in S' as [S1 S2]. split; [exact S1|]. destruct rotation; [|exact I]. inversion S2; assumption.
  - apply Forall_app in S' as [S1 S2]. apply Forall_app in S2 as [S2 S3]. split; [exact S1|]. split; [destruct points; [congruence|discriminate]|].
    split; [|inversion S3; assumption]. clear -S2. induction points as [|[a b] l IH]; [constructor|].
    cbn [map flat_map fst snd app] in *. inversion S2 as [|? ? A B]; subst. inversion B as [|? ? C D]; subst. constructor; [split; assumption|auto].
  - split; [reflexivity|exact S'].
Qed.

(** ** Commands *)
Definition fine (c : cmd Q str) : Prop := wf_leaf rd c /\ clean_leaf rd wr c.
Definition fine_macro (m : str * list (prim Q)) : Prop := name_text (fst m) /\ Forall fine_prim (snd m).
Definition template_numbers (t : template Q) : list Q :=
  match t with
  | TCircle d h => d :: hole_numbers h
  | TRect x y h | TObround x y h => x :: y :: hole_numbers h
  | TPolygon d _ r h => d :: hole_numbers r ++ hole_numbers h
  | TMacro _ _ => []
  end.
Definition fine_template (t : template Q) : Prop :=
  Forall good (template_numbers t) /\
  match t with TPolygon _ _ None _ => False | TMacro n ps => name_text n /\ ps = None | _ => True end.
Definition fine_pad (p : pad) : Prop :=
  id_text (ad_id (p_ad p)) /\ fine_template (ad_template (p_ad p)) /\
  match p_aper_function p with Some v => In v (map lit aper_functions) | None => True end /\
  match p_tolerance p with Some t => good (fst t) /\ good (snd t) | None => True end /\
  Forall (fun a => user_text (at_name a) /\ Forall field_text (at_fields a)) (p_user p).
Definition fine_node (n : Ast.node Q) : Prop :=
  match n with
  | NDnn id => id_text id
  | ND01 x y i j => Forall (opt_ok integer_text) [x; y; i; j]
  | ND02 x y | ND03 x y => Forall (opt_ok integer_text) [x; y]
  | NG _ | NLP _ | NLM _ => True
  | NLR q | NLS q => good q
  | _ => False
  end.
Lemma hole_ok h : Forall good (hole_numbers h) -> opt_ok (num_ok rd) h /\ kept_opt (kept rd wr) h.
Proof.
  intros H. destruct h as [q|]; [|split; [exact I|discriminate]]. inversion H; subst.
  split; [apply good_num; assumption|]. intros a [= <-]. apply good_kept. assumption.
Qed.
Lemma macro_cmd m : fine_macro m -> fine (sign_cmd (CAM (fst m) (map no_uid (snd m)))).
Proof.
  intros [H1 H2]. cbn [sign_cmd]. rewrite map_map. split.
  - split; [exact H1|]. apply Forall_map. eapply Forall_impl; [|exact H2]. intros p Hp. apply macro_fine, Hp.
  - cbn [clean_leaf]. apply Forall_map. eapply Forall_impl; [|exact H2]. intros p Hp. apply macro_fine, Hp.
Qed.
Lemma template_cmd t : fine_template t -> wf_template rd t /\ clean_template rd wr t.
Proof.
  intros [H1 H2]. destruct t as [d h|x y h|x y h|d v r h|n ps]; cbn [template_numbers wf_template clean_template] in *.
  - inversion H1 as [|? ? Hd Hh]; subst. destruct (hole_ok h Hh). auto using good_num, good_kept.
  - inversion H1 as [|? ? Hx Hy]; subst. inversion Hy as [|? ? Hy' Hh]; subst. destruct (hole_ok h Hh). auto 10 using good_num, good_kept.
  - inversion H1 as [|? ? Hx Hy]; subst. inversion Hy as [|? ? Hy' Hh]; subst. destruct (hole_ok h Hh). auto 10 using good_num, good_kept.
  - inversion H1 as [|? ? Hd Hr]; subst. apply Forall_app in Hr as [Hr Hh]. destruct (hole_ok r Hr), (hole_ok h Hh).
    destruct r; [|contradiction]. split; [split; [apply good_num; assumption|]; split; [assumption|]; split; [assumption|discriminate]|].
    auto using good_kept.
  - destruct H2 as [H2 ->]. split; [split; [exact H2|exact I]|]. split; [discriminate|reflexivity].
Qed.
Lemma pad_cmd p : fine_pad p -> Forall fine (map sign_cmd (pad_cmds p)).
Proof.
  intros (H1 & H2 & H3 & H4 & H5). unfold pad_cmds. rewrite !map_app.
  repeat (apply Forall_app; split).
  - destruct (p_aper_function p); [|constructor]. constructor; [|constructor]. split; [|exact I]. split; [exact H3|constructor].
  - destruct (p_tolerance p) as [[a b]|]; [|constructor]. destruct H4 as [Ha Hb]. cbn [fst snd] in *. constructor; [|constructor]. split.
    + split; [apply good_num, Ha|]. split; [apply good_num, Hb|discriminate].
    + split; intros x [= <-]; apply good_kept; assumption.
  - rewrite map_map. apply Forall_map. eapply Forall_impl; [|exact H5]. intros a Ha. split; [exact Ha|exact I].
  - destruct (template_cmd _ H2) as [T1 T2]. constructor; [|constructor]. split; [split; [exact H1|exact T1]|exact T2].
  - assert (F : Forall fine (map sign_cmd [CTD None])) by (constructor; [split; exact I|constructor]).
    destruct (p_aper_function p), (p_tolerance p), (p_user p); try exact F; constructor.
Qed.
Lemma node_cmd n : fine_node n -> fine (sign_cmd (draw_cmd n)).
Proof.
  destruct n; cbn [fine_node draw_cmd sign_cmd]; intros H; try contradiction; try (split; [reflexivity||exact I|exact I]).
  - split; [|exact I]. inversion H as [|? ? A B]; subst. inversion B as [|? ? C D]; subst. inversion D as [|? ? E F]; subst. inversion F; subst.
    split; [reflexivity|]. auto.
  - split; [|exact I]. inversion H as [|? ? A B]; subst. inversion B as [|? ? C D]; subst. split; [reflexivity|]. auto.
  - split; [|exact I]. inversion H as [|? ? A B]; subst. inversion B as [|? ? C D]; subst. split; [reflexivity|]. auto.
  - split; [|exact I]. split; [reflexivity|exact H].
  - split; [apply good_num, H|apply good_kept, H].
  - split; [apply good_num, H|apply good_kept, H].
Qed.

Record fine_gb (g : gb) : Prop := MkFine {
  fi_id : (9 <= g_id g)%Z; fi_macro : (-1 <= g_macro_id g)%Z;
  fi_pads : Forall fine_pad (g_pads g); fi_macros : Forall fine_macro (g_macros g);
  fi_draws : Forall (Forall fine_node) (g_draws g);
  fi_objs : Forall (fun o => match o with OPad i => i < length (g_pads g) | OCustom ps _ => Forall fine_prim ps | _ => True end) (g_objs g);
  fi_traces : Forall (fun t => snd t < length (g_pads g)) (g_trace_pads g) }.
Lemma file_fine g : fine_gb g -> Forall fine (map sign_cmd (get_file g)).
Proof.
  intros H. unfold get_file. rewrite !map_app. repeat (apply Forall_app; split).
  - constructor; [split; [cbn; lia|exact I]|]. constructor; [split; exact I|constructor].
  - rewrite map_map. apply Forall_map. eapply Forall_impl; [|exact (fi_macros g H)]. exact macro_cmd.
  - assert (F := fi_pads g H). induction F as [|p l Hp _ IH]; [constructor|]. cbn [flat_map]. rewrite map_app. apply Forall_app.
    split; [apply pad_cmd, Hp|exact IH].
  - constructor; [split; [reflexivity|exact I]|constructor].
  - rewrite map_map. apply Forall_map. assert (F := fi_draws g H). apply Forall_concat in F. eapply Forall_impl; [|exact F]. exact node_cmd.
  - constructor; [split; exact I|constructor].
Qed.

Lemma concat_single {A} (l : list A) : concat (map (fun c => [c]) l) = l.
Proof. induction l as [|c l IH]; [reflexivity|]. cbn. f_equal. exact IH. Qed.
Lemma dumps_read g : fine_gb g -> parse rd (dumps g) = Ok (map sign_cmd (get_file g)).
Proof.
  intros H. pose proof (file_fine g H) as F. set (f := map sign_cmd (get_file g)) in *.
  assert (E : dumps g = formats wr default_options f) by (unfold dumps, formats, f; rewrite fmt_cmds_sign; reflexivity).
  rewrite E. unfold formats.
  assert (Hb : blank_options default_options) by (repeat (split; [reflexivity|]); repeat constructor).
  assert (Hr : Forall (root rd 0) (map (fun c => [c]) f)).
  { apply Forall_map. eapply Forall_impl; [|exact F]. intros c [Hc _]. left. left. exists c. auto. }
  assert (Hc : Forall (clean rd wr) (concat (map (fun c => [c]) f))).
  { rewrite concat_single. eapply Forall_impl; [|exact F]. intros c [H1 H2]. destruct c; try contradiction; exact H2. }
  pose proof (file_through rd wr (init default_options) (blank_init _ Hb) 0 _ Hr Hc) as T.
  rewrite (tidy_exts (f_keep (init default_options)) (removed (init default_options)) (fun _ => false)) in T by (intros []; reflexivity).
  change (f_keep (init default_options)) with true in T. rewrite (file_same rd 0 _ Hr), concat_single in T. rewrite T. reflexivity.
Qed.

(** ** Texts made by the builder *)
Lemma digits_text s : all_digits s -> s <> [] -> digits1 s.
Proof. intros H1 H2. split; [exact H2|]. apply all_digits_forallb, H1. Qed.
Lemma repr_pos z : (0 <= z)%Z -> z_repr z = int_digits z.
Proof. intros H. unfold z_repr. rewrite (proj2 (Z.ltb_ge _ _)) by exact H. reflexivity. Qed.
Lemma id_new i : (10 <= i)%Z -> id_text (lit "D" ++ z_repr i).
Proof.
  intros H. rewrite repr_pos by lia. destruct (int_digits_spec i ltac:(lia)) as (Hv & Ha & Hne).
  assert (L : 2 <= length (int_digits i)).
  { destruct (Nat.le_gt_cases (length (int_digits i)) 1) as [L|L]; [|exact L]. apply int_digits_length in L; [|lia|lia]. cbn in L. lia. }
  assert (Z0 : forall c r, int_digits i = c :: r -> c <> ch_zero).
  { intros c r E Ec. unfold int_digits in E. set (s := lstrip ch_zero _) in E. destruct s as [|d t] eqn:Es.
    - cbn [str_or] in E. unfold int_digits in L. fold s in L. rewrite Es in L. cbn in L. lia.
    - cbn [str_or] in E. injection E as -> _. revert Ec. eapply lstrip_head. exact Es. }
  destruct (int_digits i) as [|a [|b r]] eqn:E; [cbn in L; lia|cbn in L; lia|].
  exists [], a, (b :: r). split; [reflexivity|]. split; [reflexivity|]. apply all_digits_cons in Ha as [Ha Hr]. split; [exact Ha|].
  split; [|apply digits_text; [exact Hr|discriminate]].
  specialize (Z0 a _ eq_refl). apply Ascii.eqb_neq. intros Hz. apply Z0. symmetry. exact Hz.
Qed.
Lemma name_new i : (0 <= i)%Z -> name_text (lit "M" ++ z_repr i).
Proof.
  intros H. rewrite repr_pos by lia. destruct (int_digits_spec i ltac:(lia)) as (_ & Ha & _).
  exists "M"%char, (int_digits i). split; [reflexivity|]. split; [reflexivity|].
  apply all_digits_forallb in Ha. unfold all. rewrite forallb_forall in *. intros c Hc. specialize (Ha c Hc). revert Ha. by_char c.
Qed.
Lemma pack_text q s : pack1 q = Ok s -> integer_text s.
Proof.
  unfold pack1. cbn [pack]. unfold pack_skip_leading. rewrite pack_split_spec by lia.
  destruct (_ <? _)%nat; [discriminate|]. cbn [bind].
  match goal with |- Ok ?a = Ok s -> _ => intros E; assert (Es : s = a) by congruence end. rewrite Es. clear E Es.
  set (body := int_digits _ ++ fixed_digits _ _).
  assert (Hb : all_digits body).
  { apply all_digits_app. split; [|apply fixed_digits_all]. apply int_digits_spec. apply Z.div_pos; [apply scaled_nonneg|apply pow10_pos]. }
  destruct (strip_or_value_l body Hb) as (_ & H1 & H2 & _). exists (if q_neg q then [ch_minus] else []). eexists. split; [reflexivity|].
  split; [|apply digits_text; assumption]. destruct (q_neg q); [right; right; reflexivity|left; reflexivity].
Qed.
Lemma pack2_text p x y : pack2 p = Ok (x, y) -> integer_text x /\ integer_text y.
Proof.
  unfold pack2. destruct (pack1 (fst p)) as [a|] eqn:E1; [|discriminate]. cbn [bind]. destruct (pack1 (snd p)) as [b|] eqn:E2; [|discriminate].
  cbn [bind]. intros [= -> ->]. split; eapply pack_text; eassumption.
Qed.
Lemma opt_text p i j : opt_pack p = Ok (i, j) -> opt_ok integer_text i /\ opt_ok integer_text j.
Proof.
  destruct p as [p|]; cbn [opt_pack]; [|intros [= <- <-]; split; exact I]. destruct (pack2 p) as [[x y]|] eqn:E; [|discriminate].
  cbn [bind fst snd]. intros [= <- <-]. exact (pack2_text _ _ _ E).
Qed.
Lemma good_1 : good 1.
Proof. split; [reflexivity|]. split; [exists 1%Z, 0; reflexivity|]. right. split; vm_compute; congruence. Qed.
Lemma good_0 : good 0.
Proof. split; [reflexivity|]. split; [exists 0%Z, 0; reflexivity|]. left. reflexivity. Qed.

(** ** Every call keeps the file fine *)
Definition store (g : gb) := (g_id g, g_macro_id g, g_pads g, g_macros g, g_draws g, g_objs g, g_trace_pads g).
Lemma fine_store g g' : store g' = store g -> fine_gb g -> fine_gb g'.
Proof.
  unfold store. intros E H. injection E as E1 E2 E3 E4 E5 E6 E7. destruct H. constructor; rewrite ?E1, ?E2, ?E3, ?E4, ?E5, ?E6, ?E7; assumption.
Qed.
Lemma updates_fine ap pol rot mx my sc mode g ns g' : state_updates ap pol rot mx my sc mode g = (ns, g') ->
  id_text ap -> good rot -> good sc -> Forall fine_node ns /\ store g' = store g.
Proof.
  intros E Hi Hr Hs. unfold state_updates in E. revert E.
  destruct (match g_selected g with Some s => negb (str_eqb s ap) | None => true end);
  destruct (negb (polarity_eqb pol _)); destruct (negb (Qeq_bool rot _)); destruct (negb (mirroring_eqb _ _)); destruct (negb (Qeq_bool sc _));
  (destruct mode as [m|]; [match goal with |- context [match ?a with Some b => negb (mode_eqb b m) | None => true end] =>
     destruct (match a with Some b => negb (mode_eqb b m) | None => true end) end|]);
  intros [= <- <-]; (split; [|reflexivity]); repeat (apply Forall_cons; [first [exact Hi|exact Hr|exact Hs|exact I]|]); apply Forall_nil.
Qed.
Lemma pad_id_fine g i : fine_gb g -> i < length (g_pads g) -> id_text (pad_id i g).
Proof.
  intros H L. unfold pad_id. destruct (nth_error (g_pads g) i) as [p|] eqn:E; [|apply nth_error_None in E; lia].
  apply nth_error_In in E. pose proof (fi_pads g H) as F. rewrite Forall_forall in F. apply (F p E).
Qed.
Lemma object_fine g n : fine_gb g ->
  match object n g with OPad i => i < length (g_pads g) | OCustom ps _ => Forall fine_prim ps | _ => True end.
Proof.
  intros H. unfold object. destruct (nth_in_or_default n (g_objs g) ONothing) as [Hi| ->]; [|exact I].
  pose proof (fi_objs g H) as F. rewrite Forall_forall in F. exact (F _ Hi).
Qed.
Lemma new_pad_fine t g i g' : new_pad t g = (i, g') -> fine_template t -> fine_gb g -> fine_gb g' /\ i < length (g_pads g').
Proof.
  unfold new_pad. intros [= <- <-] Ht H. split; [|cbn; rewrite app_length; cbn; lia]. destruct H. constructor; cbn; auto.
  - lia.
  - apply Forall_app. split; [assumption|]. constructor; [|constructor]. split; [apply id_new; lia|]. split; [exact Ht|]. repeat split. constructor.
  - eapply Forall_impl; [|exact fi_objs0]. intros []; auto. rewrite app_length. lia.
  - eapply Forall_impl; [|exact fi_traces0]. intros t' Ht'. cbn beta in *. rewrite app_length. cbn [length]. lia.
Qed.
Lemma circle_fine w : good w -> fine_template (TCircle w None).
Proof. intros H. split; [|exact I]. constructor; [exact H|constructor]. Qed.
Lemma trace_pad_fine w g i g' : trace_pad w g = (i, g') -> good w -> fine_gb g -> fine_gb g' /\ i < length (g_pads g').
Proof.
  unfold trace_pad. intros E Hw H. destruct (find_width w (g_trace_pads g)) as [k|] eqn:Ef.
  - injection E as <- <-. split; [exact H|]. pose proof (fi_traces g H) as F. clear -Ef F.
    induction F as [|[w' j] l Hj _ IH]; [discriminate|]. cbn [find_width] in Ef. destruct (Qeq_bool w w'); [injection Ef as <-; exact Hj|auto].
  - destruct (new_pad (TCircle w None) g) as [j g1] eqn:En. injection E as <- <-.
    destruct (new_pad_fine _ _ _ _ En (circle_fine w Hw) H) as [H1 L]. split; [|exact L]. destruct H1. constructor; cbn; auto.
    apply Forall_app. split; [|constructor; [exact L|constructor]].
    unfold new_pad in En. injection En as <- <-. cbn in *. destruct H. eapply Forall_impl; [|exact fi_traces1].
    intros t Ht. cbn beta in *. rewrite app_length. cbn. lia.
Qed.
Lemma add_draw_fine l ns g : Forall fine_node ns -> fine_gb g -> fine_gb (add_draw l ns g).
Proof. intros Hn H. destruct H. constructor; cbn; auto. apply Forall_app. split; [assumption|]. constructor; [exact Hn|constructor]. Qed.
Lemma replace_forall {A} (P : A -> Prop) l : forall n a, Forall P l -> P a -> Forall P (replace l n a).
Proof.
  induction l as [|x l IH]; intros n a H Ha; [exact H|]. inversion H; subst. destruct n; cbn [replace]; constructor; auto.
Qed.
Lemma replace_length {A} l : forall n (a : A), length (replace l n a) = length l.
Proof. induction l as [|x l IH]; intros [|n] a; cbn; auto. Qed.
Lemma set_object_fine n o g : match o with OPad i => i < length (g_pads g) | OCustom ps _ => Forall fine_prim ps | _ => True end ->
  fine_gb g -> fine_gb (set_object n o g).
Proof. intros Ho H. destruct H. constructor; cbn; auto. apply replace_forall; assumption. Qed.

Definition fine_obj (g : gb) (o : obj) : Prop :=
  match o with OPad i => i < length (g_pads g) | OCustom ps _ => Forall fine_prim ps | _ => True end.
(** Everything after a call. *)
Definition leaves (a : answer) : Prop := fine_gb (fst a) /\ match snd a with Ok o => fine_obj (fst a) o | Err _ => True end.
Lemma leaves_step g c : leaves (perform c g) -> fine_gb (gstep g c).
Proof.
  unfold gstep, leaves. destruct (perform c g) as [g' r]. cbn [fst snd]. intros [H Ho]. destruct H. constructor; cbn; auto.
  apply Forall_app. split; [assumption|]. constructor; [|constructor]. destruct r as [o|]; [exact Ho|exact I].
Qed.
Lemma pad_leaves t g : fine_template t -> fine_gb g -> leaves (returns_pad (new_pad t g)).
Proof.
  intros Ht H. unfold leaves, returns_pad. destruct (new_pad t g) as [i g'] eqn:E. cbn [fst snd]. exact (new_pad_fine _ _ _ _ E Ht H).
Qed.
Lemma figure_fine f u : Forall good (figure_numbers f) ->
  (match f with FgOutline _ pts _ => (length pts <? 3)%nat | _ => false end) = false -> fine_prim (prim_of u f).
Proof.
  assert (C : forall q, good q -> const_good (EConst q)) by (intros q Hq; exists q; auto).
  assert (X : forall on : bool, const_good (exposure on)) by (intros []; apply C; [apply good_1|apply good_0]).
  intros H L. destruct f as [on d c r|on w a b r|on w h c r|on ps r|on n c d r|c o i g r]; cbn [figure_numbers] in H;
    repeat match goal with H : Forall good (_ :: _) |- _ => apply Forall_cons_iff in H as [? H] end; cbn [prim_of];
    try (split; [exact I|]; unfold const; cbn [prim_exprs app]; repeat (apply Forall_cons; [auto|]); apply Forall_nil).
  split; [destruct ps; discriminate|]. cbn [prim_exprs].
  assert (F : Forall (fun p => good (fst p) /\ good (snd p)) ps).
  { clear -H. induction ps as [|p ps IH]; [constructor|]. cbn [flat_map app] in H. apply Forall_cons_iff in H as [? H]. apply Forall_cons_iff in H as [? H]. auto. }
  assert (Hl : good (fst (last ps (0, 0)%Q)) /\ good (snd (last ps (0, 0)%Q))).
  { clear -F. induction F as [|p ps Hp F IH]; [split; apply good_0|]. cbn [last]. destruct ps; [exact Hp|exact IH]. }
  destruct Hl. repeat (apply Forall_app; split).
  - repeat (apply Forall_cons; [auto; apply C; assumption|]). apply Forall_nil.
  - clear -F C. induction F as [|p ps [Hx Hy] F IH]; [constructor|]. cbn [map flat_map fst snd app]. repeat (apply Forall_cons; [apply C; assumption|]). exact IH.
  - apply Forall_cons; [apply C; assumption|apply Forall_nil].
Qed.
Lemma region_fine segs : forall mode ops, region_ops mode segs = Ok ops -> Forall fine_node ops.
Proof.
  induction segs as [|s segs IH]; intros mode ops E; cbn [region_ops] in E; [injection E as <-; constructor|].
  destruct (pack2 (o_end s)) as [[x y]|] eqn:E1; [|discriminate]. cbn [bind] in E.
  destruct (opt_pack _) as [[i j]|] eqn:E2 in E; [|discriminate]. cbn [bind] in E.
  destruct (region_ops _ segs) as [rest|] eqn:E3; [|discriminate]. cbn [bind fst snd] in E. injection E as <-.
  apply pack2_text in E1 as [? ?]. apply opt_text in E2 as [? ?]. apply Forall_app. split.
  - destruct mode as [b|]; [destruct (mode_eqb _ _)|]; repeat constructor.
  - constructor; [cbn [fine_node]; repeat (apply Forall_cons; [assumption|]); constructor|exact (IH _ _ E3)].
Qed.
Lemma draw2 x y : integer_text x -> integer_text y -> Forall (opt_ok integer_text) [Some x; Some y].
Proof. intros. repeat (constructor; [assumption|]). constructor. Qed.
Lemma perform_fine c g : legal c -> fine_gb g -> leaves (perform c g).
Proof.
  intros [HN HT] H. pose proof (fun n => object_fine g n H) as Ob.
  destruct c as [d h|x y h|x y h|d v r h| |n f|n|n v|n a b|n k vs|n p cut rot mx my sc|w b e|cw w b e c|b|n s|n]; cbn [perform numbers] in *.
  - apply pad_leaves; [|exact H]. split; [exact HN|exact I].
  - apply pad_leaves; [|exact H]. split; [exact HN|exact I].
  - apply pad_leaves; [|exact H]. split; [exact HN|exact I].
  - apply pad_leaves; [|exact H]. split; [exact HN|exact I].
  - split; [exact H|constructor].
  - unfold add_figure. specialize (Ob n). destruct (object n g) as [| |ps fin| | | |] eqn:E; try (split; [exact H|exact I]).
    destruct (match f with FgOutline _ pts _ => (length pts <? 3)%nat | _ => false end) eqn:L; [split; [exact H|exact I]|].
    destruct fin; [split; [exact H|exact I]|]. split; [|exact I]. apply set_object_fine; [|exact H]. apply Forall_app. split; [exact Ob|].
    constructor; [apply figure_fine; assumption|constructor].
  - unfold create_custom. specialize (Ob n). destruct (object n g) as [| |ps fin| | | |] eqn:E; try (split; [exact H|exact I]).
    destruct fin; [split; [exact H|exact I]|]. set (name := lit "M" ++ _).
    assert (Hn : name_text name) by (apply name_new; pose proof (fi_macro g H); lia).
    set (g1 := set_macros _ _ g). assert (H1 : fine_gb g1).
    { destruct H. constructor; cbn; auto; [lia|]. apply Forall_app. split; [assumption|]. constructor; [split; assumption|constructor]. }
    assert (Ht : fine_template (TMacro name None)) by (split; [constructor|auto]).
    destruct (new_pad (TMacro name None) g1) as [i g2] eqn:E2. destruct (new_pad_fine _ _ _ _ E2 Ht H1) as [H2 L].
    split; cbn [fst snd]; [apply set_object_fine; [exact Ob|exact H2]|exact L].
  - unfold set_attr. destruct (object n g) as [|i| | | | |]; try (split; [exact H|exact I]). destruct (nth_error (g_pads g) i) as [p|] eqn:E; [|split; [exact H|exact I]].
    apply nth_error_In in E. pose proof (proj1 (Forall_forall _ _) (fi_pads g H) p E) as Hp. split; [|exact I]. destruct H. constructor; cbn [fst set_pads g_id g_macro_id g_pads g_macros g_draws g_objs g_trace_pads]; rewrite ?replace_length; auto.
    apply replace_forall; [assumption|]. destruct Hp as (P1 & P2 & P3 & P4 & P5). exact (conj P1 (conj P2 (conj HT (conj P4 P5)))).
  - unfold set_attr. destruct (object n g) as [|i| | | | |]; try (split; [exact H|exact I]). destruct (nth_error (g_pads g) i) as [p|] eqn:E; [|split; [exact H|exact I]].
    apply nth_error_In in E. pose proof (proj1 (Forall_forall _ _) (fi_pads g H) p E) as Hp. split; [|exact I]. destruct H. constructor; cbn [fst set_pads g_id g_macro_id g_pads g_macros g_draws g_objs g_trace_pads]; rewrite ?replace_length; auto.
    apply replace_forall; [assumption|]. destruct Hp as (P1 & P2 & P3 & P4 & P5). apply Forall_cons_iff in HN as [Ha HN]. apply Forall_cons_iff in HN as [Hb _].
    exact (conj P1 (conj P2 (conj P3 (conj (conj Ha Hb) P5)))).
  - unfold set_attr. destruct (object n g) as [|i| | | | |]; try (split; [exact H|exact I]). destruct (nth_error (g_pads g) i) as [p|] eqn:E; [|split; [exact H|exact I]].
    apply nth_error_In in E. pose proof (proj1 (Forall_forall _ _) (fi_pads g H) p E) as Hp. split; [|exact I]. destruct H. constructor; cbn [fst set_pads g_id g_macro_id g_pads g_macros g_draws g_objs g_trace_pads]; rewrite ?replace_length; auto.
    apply replace_forall; [assumption|]. destruct Hp as (P1 & P2 & P3 & P4 & P5).
    refine (conj P1 (conj P2 (conj P3 (conj P4 _)))). apply Forall_app. split; [exact P5|]. constructor; [exact HT|constructor].
  - apply Forall_cons_iff in HN as [Hr HN]. apply Forall_cons_iff in HN as [Hs _].
    unfold add_pad. specialize (Ob n). destruct (object n g) as [|i| | | | |]; try (split; [exact H|exact I]).
    destruct (state_updates _ _ rot mx my sc None g) as [ups g1] eqn:E.
    destruct (updates_fine _ _ _ _ _ _ _ _ _ _ E (pad_id_fine g i H Ob) Hr Hs) as [U S]. pose proof (fine_store _ _ S H) as H1.
    destruct (pad_place p g1) as [l|]; [|split; [exact H1|exact I]]. destruct (pack2 l) as [[x y]|] eqn:Ep; [|split; [exact H1|exact I]].
    apply pack2_text in Ep as [Hx Hy]. split; [|exact I]. apply add_draw_fine; [|exact H1]. apply Forall_app. split; [exact U|].
    constructor; [apply draw2; assumption|constructor].
  - apply Forall_cons_iff in HN as [Hw _]. revert Hw. generalize PmLinear, (@None loc). intros mode center Hw.
    unfold add_trace. destruct (trace_pad w g) as [i g1] eqn:Et. destruct (trace_pad_fine _ _ _ _ Et Hw H) as [H1 L].
    destruct (begin_place b g1) as [lb|]; [|split; [exact H1|exact I]]. destruct (end_place e g1) as [le|]; [|split; [exact H1|exact I]].
    destruct (state_updates _ _ _ _ _ _ _ g1) as [ups g2] eqn:E.
    destruct (updates_fine _ _ _ _ _ _ _ _ _ _ E (pad_id_fine g1 i H1 L) good_0 good_1) as [U S]. pose proof (fine_store _ _ S H1) as H2.
    match goal with |- leaves (match ?a with _ => _ end) => destruct a as [ops|] eqn:Eo end; [|split; [exact H2|exact I]].
    split; [|exact I]. apply add_draw_fine; [|exact H2]. apply Forall_app. split; [exact U|]. revert Eo.
    match goal with |- context [bind ?a _] => destruct a as [d02|] eqn:Ed end; [|discriminate]. cbn [bind].
    destruct (pack2 le) as [[x y]|] eqn:Ep; [|discriminate]. cbn [bind]. destruct (opt_pack _) as [[ii jj]|] eqn:Ec; [|discriminate].
    cbn [bind fst snd]. intros [= <-]. apply pack2_text in Ep as [? ?]. apply opt_text in Ec as [? ?]. apply Forall_app. split.
    + destruct (match g_loc g2 with Some l => negb (loc_eqb l lb) | None => true end); [|injection Ed as <-; constructor].
      destruct (pack2 lb) as [[x' y']|] eqn:Ep'; [|discriminate]. cbn [bind fst snd] in Ed. injection Ed as <-. apply pack2_text in Ep' as [? ?].
      constructor; [apply draw2; assumption|constructor].
    + constructor; [|constructor]. cbn [fine_node]. repeat (apply Forall_cons; [assumption|]). constructor.
  - apply Forall_cons_iff in HN as [Hw _]. revert Hw. generalize (if cw then PmArc else PmCcwArc), (Some c). intros mode center Hw.
    unfold add_trace. destruct (trace_pad w g) as [i g1] eqn:Et. destruct (trace_pad_fine _ _ _ _ Et Hw H) as [H1 L].
    destruct (begin_place b g1) as [lb|]; [|split; [exact H1|exact I]]. destruct (end_place e g1) as [le|]; [|split; [exact H1|exact I]].
    destruct (state_updates _ _ _ _ _ _ _ g1) as [ups g2] eqn:E.
    destruct (updates_fine _ _ _ _ _ _ _ _ _ _ E (pad_id_fine g1 i H1 L) good_0 good_1) as [U S]. pose proof (fine_store _ _ S H1) as H2.
    match goal with |- leaves (match ?a with _ => _ end) => destruct a as [ops|] eqn:Eo end; [|split; [exact H2|exact I]].
    split; [|exact I]. apply add_draw_fine; [|exact H2]. apply Forall_app. split; [exact U|]. revert Eo.
    match goal with |- context [bind ?a _] => destruct a as [d02|] eqn:Ed end; [|discriminate]. cbn [bind].
    destruct (pack2 le) as [[x y]|] eqn:Ep; [|discriminate]. cbn [bind]. destruct (opt_pack _) as [[ii jj]|] eqn:Ec; [|discriminate].
    cbn [bind fst snd]. intros [= <-]. apply pack2_text in Ep as [? ?]. apply opt_text in Ec as [? ?]. apply Forall_app. split.
    + destruct (match g_loc g2 with Some l => negb (loc_eqb l lb) | None => true end); [|injection Ed as <-; constructor].
      destruct (pack2 lb) as [[x' y']|] eqn:Ep'; [|discriminate]. cbn [bind fst snd] in Ed. injection Ed as <-. apply pack2_text in Ep' as [? ?].
      constructor; [apply draw2; assumption|constructor].
    + constructor; [|constructor]. cbn [fine_node]. repeat (apply Forall_cons; [assumption|]). constructor.
  - split; [exact H|exact I].
  - unfold add_segment. destruct (object n g) as [| | |r| | |]; try (split; [exact H|exact I]). split; [|exact I]. apply set_object_fine; [exact I|exact H].
  - unfold create_region. destruct (object n g) as [| | |r| | |]; try (split; [exact H|exact I]). destruct (length (r_outline r) <? 3)%nat; [split; [exact H|exact I]|].
    destruct (trace_pad 1 g) as [i g1] eqn:Et. destruct (trace_pad_fine _ _ _ _ Et good_1 H) as [H1 L].
    destruct (state_updates _ _ _ _ _ _ _ g1) as [ups g2] eqn:E.
    destruct (updates_fine _ _ _ _ _ _ _ _ _ _ E (pad_id_fine g1 i H1 L) good_0 good_1) as [U S]. pose proof (fine_store _ _ S H1) as H2.
    destruct (pack2 (r_begin r)) as [[x y]|] eqn:Ep; [|split; [exact H2|exact I]]. apply pack2_text in Ep as [Px Py].
    set (g3 := set_object _ _ g2). assert (H4 : fine_gb g3) by (apply set_object_fine; [exact I|exact H2]).
    destruct (region_ops None (closed_outline r)) as [ops|] eqn:Er; [|split; [exact H4|exact I]]. split; [|exact I].
    apply add_draw_fine; [|exact H4]. apply region_fine in Er. apply Forall_app. split; [exact U|]. constructor; [exact I|]. constructor; [apply draw2; assumption|].
    apply Forall_app. split; [exact Er|]. constructor; [exact I|]. constructor; [apply draw2; assumption|constructor].
Qed.
Lemma build_fine cs : Forall legal cs -> fine_gb (build cs).
Proof.
  intros H. unfold build. assert (I0 : fine_gb gb_init) by (constructor; cbn; try lia; constructor).
  revert I0. generalize gb_init. induction H as [|c cs Hc _ IH]; intros g Hg; [exact Hg|]. cbn [fold_left]. apply IH. apply leaves_step, perform_fine; assumption.
Qed.

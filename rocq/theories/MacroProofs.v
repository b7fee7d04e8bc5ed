(** Lemmas for C21. *)
From Verif Require Import Base Num Dict CoordModel CoordSpec CoordProofs Ast StateModel StateSpec StateProofs GeomModel
  ExprModel ExprSpec ExprProofs CompilerModel LayerSpec LayerProofs LayerInv LayerOut MacroSpec.

(** ** Constants *)
Section Constants.
  Context {K : Type} {NK : Num K}.
  Notation env_of sc := (fun v => d_get v sc).

  Lemma fails_kinds (env : str -> option K) a x : fails env a x ->
    x = EKeyError \/ (x = EZeroDivision /\ exists y : K, n_eqb y (n_of_Q 0) = true).
  Proof. induction 1; eauto. Qed.
  Lemma failing_form (env : str -> option K) a x : fails env a x ->
    exists e : expr K, fails (fun _ => None) (meaning e) x.
  Proof.
    intros H. apply fails_kinds in H as [->|[-> [y Hy]]].
    - exists (EVar []). constructor. reflexivity.
    - exists (EDiv (EConst y) [EConst y]). cbn. eapply f_zero; [constructor|constructor|exact Hy].
  Qed.
  Lemma constant_exists sc (e : expr K) : exists e', constant (env_of sc) e e'.
  Proof.
    destruct (eval sc e) as [k|x] eqn:E.
    - exists (EConst k). left. exists k. split; [apply eval_value; exact E|reflexivity].
    - apply eval_fails in E. destruct (failing_form _ _ _ E) as [e' He']. exists e'. right. eauto.
  Qed.
  Lemma constant_eval sc (e e' : expr K) : constant (env_of sc) e e' -> eval sc e = eval [] e'.
  Proof.
    intros [(k & Hv & ->)|(x & H1 & H2)].
    - apply eval_value in Hv. rewrite Hv. reflexivity.
    - apply eval_fails in H1. rewrite H1. symmetry. apply eval_fails. exact H2.
  Qed.
End Constants.

Section Prims.
  Context {K : Type} {NK : Num K} (clock : nat -> Z) (md : meta).
  Notation env_of sc := (fun v => d_get v sc).

  Lemma prim_exists sc (p : prim K) : match p with PAssign _ _ => False | _ => True end ->
    exists p', prim_like (constant (env_of sc)) p p'.
  Proof.
    intros Hp. set (R := constant (env_of sc)).
    assert (HR : forall e, exists e', R e e') by (intros e; apply constant_exists).
    destruct p as [s|e d x y r|e w sx sy ex ey r|e n sx sy l r|e n x y d r|x y o g w n t c r|u x y o i g r
      |e w sx sy ex ey r|e w h x y r|e w h x y r|v e]; try contradiction.
    - eexists; constructor.
    - destruct (HR e), (HR d), (HR x), (HR y), r as [r|]; [destruct (HR r)|]; eexists; constructor; eassumption.
    - destruct (HR e), (HR w), (HR sx), (HR sy), (HR ex), (HR ey), (HR r); eexists; constructor; eassumption.
    - assert (Hl : exists l', Forall2 (fun p p' => R (fst p) (fst p') /\ R (snd p) (snd p')) l l').
      { induction l as [|[a b] l IH]; [eexists; constructor|]. destruct IH as [l' Hl].
        destruct (HR a) as [a' Ha], (HR b) as [b' Hb]. exists ((a', b') :: l'). constructor; auto. }
      destruct Hl, (HR e), (HR n), (HR sx), (HR sy), (HR r); eexists; constructor; eassumption.
    - destruct (HR e), (HR n), (HR x), (HR y), (HR d), (HR r); eexists; constructor; eassumption.
    - destruct (HR x), (HR y), (HR o), (HR g), (HR w), (HR n), (HR t), (HR c), (HR r); eexists; constructor; eassumption.
    - destruct (HR x), (HR y), (HR o), (HR i), (HR g), (HR r); eexists; constructor; eassumption.
    - destruct (HR e), (HR w), (HR sx), (HR sy), (HR ex), (HR ey), (HR r); eexists; constructor; eassumption.
    - destruct (HR e), (HR w), (HR h), (HR x), (HR y), (HR r); eexists; constructor; eassumption.
    - destruct (HR e), (HR w), (HR h), (HR x), (HR y), (HR r); eexists; constructor; eassumption.
  Qed.

  Definition rescope (sc : dict K) (r : result exc (mstate (K := K))) : result exc mstate :=
    let* m := r in Ok (MkM sc (ms_buf m) (ms_c m)).
  Lemma rescope_bind {A} sc (r : result exc A) f :
    rescope sc (bind r f) = bind r (fun a => rescope sc (f a)).
  Proof. destruct r; reflexivity. Qed.
  Lemma rescope_appends sc ds (b : buffer K) c :
    rescope sc (Ok (ms_appends ds (MkM [] b c))) = Ok (ms_appends ds (MkM sc b c)).
  Proof.
    unfold rescope. cbn [bind]. destruct (ms_appends_spec ds (MkM [] b c)) as (A1 & A2 & _).
    destruct (ms_appends_spec ds (MkM sc b c)) as (B1 & B2 & B3).
    rewrite A1, A2. destruct (ms_appends ds (MkM sc b c)) as [s1 b1 c1]. cbn in *. subst. reflexivity.
  Qed.
  Ltac ev := cbn [on_prim ms_scope ms_buf ms_c];
    repeat match goal with H : constant _ ?e _ |- context[eval _ ?e] => rewrite (constant_eval _ _ _ H) end;
    repeat (match goal with |- context[bind (eval [] ?e) _] => destruct (eval [] e) end;
      cbn [bind]; try reflexivity).
  Lemma prim_unfold sc (b : buffer K) c p p' : prim_like (constant (env_of sc)) p p' ->
    on_prim clock md p (MkM sc b c) = rescope sc (on_prim clock md p' (MkM [] b c)).
  Proof.
    intros H. destruct H; try solve [ev; reflexivity].
    - match goal with G : Forall2 _ l l' |- _ => rename G into HF end.
      ev; (match goal with |- bind (?f l) _ = rescope _ (bind (?f' l') _) =>
        assert (EF : f l = f' l'); [|rewrite EF; destruct (f' l'); reflexivity] end;
        clear - HF; induction HF as [|[x y] [x' y'] l l' [Hx Hy] _ IH]; [reflexivity|]; cbn [fst snd] in *;
        rewrite (constant_eval _ _ _ Hx), (constant_eval _ _ _ Hy);
        destruct (eval [] x'); [|reflexivity]; cbn [bind]; destruct (eval [] y'); [|reflexivity]; cbn [bind]; rewrite IH; reflexivity).
    - ev. destruct (new_polygon _ _ _ _ _ _); reflexivity.
    - ev. match goal with |- bind ?r _ = _ => destruct r end; [|reflexivity]. cbn [bind].
      rewrite rescope_appends. reflexivity.
    - cbn [on_prim ms_scope ms_buf ms_c].
      repeat match goal with H : constant _ ?e _ |- context[eval sc ?e] => rewrite (constant_eval _ _ _ H) end.
      do 4 (match goal with |- bind (eval [] ?e) _ = _ => destruct (eval [] e); [cbn [bind]|reflexivity] end).
      destruct (n_leb _ _); [reflexivity|].
      do 2 (match goal with |- bind (eval [] ?e) _ = _ => destruct (eval [] e); [cbn [bind]|reflexivity] end).
      destruct (n_leb _ _); [reflexivity|]. destruct (n_leb _ _); [reflexivity|].
      destruct (new_ring _ _ _ _ _); reflexivity.
  Qed.

  Lemma unfold_exists (ps : list (prim K)) : forall sc, exists ps',
    unfolded (env_of sc) ps ps' /\ forall b c,
    bind (on_prims clock md ps (MkM sc b c)) (fun m => Ok (ms_buf m, ms_c m)) =
    bind (on_prims clock md ps' (MkM [] b c)) (fun m => Ok (ms_buf m, ms_c m)).
  Proof.
    induction ps as [|p r IH]; intros sc.
    { exists []. split; [constructor|reflexivity]. }
    assert (Hp : match p with PAssign _ _ => False | _ => True end \/ exists v e, p = PAssign v e)
      by (destruct p; auto; right; eauto).
    destruct Hp as [Hp|(v & e & ->)].
    - destruct (prim_exists sc p Hp) as [p' Hl]. destruct (IH sc) as (r' & Hr & Er).
      exists (p' :: r'). split; [constructor; assumption|]. intros b c. cbn [on_prims].
      rewrite (prim_unfold sc b c p p' Hl).
      assert (Hs : forall m, on_prim clock md p' (MkM [] b c) = Ok m -> ms_scope m = []).
      { intros m Hm. clear - Hl Hm. destruct Hl; cbn [on_prim] in Hm; dbind Hm;
          repeat (match type of Hm with context[if ?b then _ else _] => destruct b end; dbind Hm);
          try (apply Ok_inj in Hm; subst m; try reflexivity; apply ms_appends_spec). }
      destruct (on_prim clock md p' (MkM [] b c)) as [m|]; [|reflexivity]. cbn [rescope bind].
      specialize (Hs m eq_refl). destruct m as [s1 b1 c1]. cbn in Hs. subst s1. apply Er.
    - destruct (eval sc e) as [k|x] eqn:E.
      + destruct (IH (d_set v k sc)) as (r' & Hr & Er). exists r'. split.
        * eapply un_assign; [apply eval_value; exact E|intros w; apply d_get_set|exact Hr].
        * intros b c. cbn [on_prims on_prim ms_scope]. rewrite E. cbn [bind]. apply Er.
      + pose proof E as E'. apply eval_fails in E'. destruct (failing_form _ _ _ E') as [e' He'].
        exists [PAssign v e']. split; [eapply un_fail; eauto|].
        intros b c. cbn [on_prims on_prim ms_scope]. rewrite E. apply eval_fails with (scope := []) in He'. rewrite He'. reflexivity.
  Qed.
End Prims.

Section Scope.
  Context {K : Type} {NK : Num K}.
  Lemma param_scope (l : list K) : forall n v k,
    d_get v (combine (map (fun i => lit "$" ++ z_repr (Z.of_nat i)) (seq n (length l))) l) = Some k <->
    exists i, v = lit "$" ++ z_repr (Z.of_nat (n + i)) /\ nth_error l i = Some k.
  Proof.
    induction l as [|a l IH]; intros n v k; cbn [length seq map combine d_get].
    - split; [discriminate|]. intros (i & _ & H). destruct i; discriminate H.
    - destruct (str_eqb v _) eqn:E.
      + apply str_eqb_eq in E. split.
        * intros H. injection H as ->. exists 0. rewrite Nat.add_0_r. auto.
        * intros (i & -> & Hi). apply app_inv_head in E. apply z_repr_inj in E.
          assert (i = 0) by lia. subst i. exact Hi.
      + apply str_eqb_neq in E. rewrite IH. split.
        * intros (i & -> & Hi). exists (S i). rewrite Nat.add_succ_r. auto.
        * intros ([|i] & -> & Hi); [rewrite Nat.add_0_r in E; contradiction|]. exists i. rewrite Nat.add_succ_r. auto.
  Qed.
  Lemma macro_scope_binds (p : option (list K)) :
    binds (fun v => d_get v (macro_scope p)) (match p with Some l => l | None => [] end).
  Proof.
    destruct p as [l|]; intros v k; [exact (param_scope l 1 v k)|].
    cbn. split; [discriminate|]. intros (i & _ & H). destruct i; discriminate H.
  Qed.
End Scope.

Lemma nodup_app_r {A} (l l' : list A) : NoDup (l ++ l') -> NoDup l'.
Proof. intros H. induction l; [exact H|]. inversion H; auto. Qed.

(** ** Isolation *)
Section Isolation.
  Context {K : Type} {NK : Num K} (clock : nat -> Z) (md : meta).

  (** What one primitive does, as a function of the scope alone. *)
  Inductive effect := EfScope (sc : dict K) | EfShapes (ds : list (draw K)) | EfThermal (uid : Z) (ds : list (draw K)) (c : vec K).
  Definition run_effect (ef : effect) (m : mstate (K := K)) : mstate :=
    match ef with
    | EfScope sc => MkM sc (ms_buf m) (ms_c m)
    | EfShapes ds => ms_appends ds m
    | EfThermal uid ds c =>
        let id := thermal_id clock uid (ms_c m) in
        MkM (ms_scope m) (append_draw (DPaste (MkPaste id c false None)) (ms_buf m)) (with_thermal id ds (ms_c m))
    end.
  Definition plain_effect (ef : effect) : Prop :=
    match ef with EfShapes ds => forall d, In d ds -> exists s, d = DShape s | _ => True end.
  Lemma prim_effect (p : prim K) sc : exists r, forall b c,
    on_prim clock md p (MkM sc b c) = match r with Ok ef => Ok (run_effect ef (MkM sc b c)) | Err e => Err e end /\
    match r with Ok ef => plain_effect ef | Err _ => True end.
  Proof.
    destruct p; cbn [on_prim ms_scope];
    try match goal with r : option (expr K) |- _ => destruct r end;
    repeat match goal with |- exists r, forall b c, bind ?q _ = _ /\ _ =>
      destruct q; cbn [bind]; [|solve [eexists (Err _); intros; split; [reflexivity|exact I]]] end.
    all: try solve [exists (Ok (EfScope sc)); intros; split; [reflexivity|exact I]].
    all: try solve [match goal with |- exists r, forall b c, Ok (ms_append (DShape ?s) _) = _ /\ _ =>
      exists (Ok (EfShapes [DShape s])); intros; split; [reflexivity|intros d0 [<-|[]]; eauto] end].
    - match goal with |- exists r, forall b c, Ok (ms_appends ?l _) = _ /\ _ => exists (Ok (EfShapes l)) end.
      intros; split; [reflexivity|]. intros d0 Hd. apply in_map_iff in Hd as (s & <- & _). eauto.
    - destruct (n_leb _ _); [exists (Ok (EfScope sc)); intros; split; [reflexivity|exact I]|].
      repeat match goal with |- exists r, forall b c, bind ?q _ = _ /\ _ =>
        destruct q; cbn [bind]; [|solve [eexists (Err _); intros; split; [reflexivity|exact I]]] end.
      destruct (n_leb _ _); [exists (Ok (EfScope sc)); intros; split; [reflexivity|exact I]|].
      destruct (n_leb _ _); [exists (Ok (EfScope sc)); intros; split; [reflexivity|exact I]|].
      destruct (new_ring _ _ _ _ _); [|eexists (Err _); intros; split; [reflexivity|exact I]].
      cbn [bind]. eexists (Ok (EfThermal uid _ _)). intros. split; [reflexivity|exact I].
    - eexists (Ok (EfScope _)). intros; split; [reflexivity|exact I].
  Qed.

  (** States made alike: same scope, same things shown, nested layers among the names made. *)
  Definition alike (m m' : mstate (K := K)) : Prop :=
    ms_scope m = ms_scope m' /\
    map (shown1 (c_buffers (ms_c m))) (bf_cmds (ms_buf m)) = map (shown1 (c_buffers (ms_c m'))) (bf_cmds (ms_buf m')).
  Definition named (m : mstate (K := K)) : Prop :=
    forall p, In (DPaste p) (bf_cmds (ms_buf m)) -> In (pa_src p) (c_stamps (ms_c m)) /\ exists r, pa_src p = "%"%char :: r.
  (** Growth of the names. *)
  Definition grows (m m' : mstate (K := K)) : Prop :=
    exists l, c_stamps (ms_c m') = l ++ c_stamps (ms_c m) /\ bf_id (ms_buf m') = bf_id (ms_buf m) /\
      (forall i, In i l -> exists r, i = "%"%char :: r) /\
      forall k, ~ In k l -> d_get k (c_buffers (ms_c m')) = d_get k (c_buffers (ms_c m)).
  Lemma effect_grows ef (m : mstate (K := K)) : grows m (run_effect ef m).
  Proof.
    destruct ef as [sc|ds|uid ds c]; cbn [run_effect].
    - exists []. repeat split; auto. intros i [].
    - destruct (ms_appends_spec ds m) as (A1 & A2 & _). exists []. rewrite A1, A2, append_draws_id. repeat split; auto. intros i [].
    - cbv zeta. exists [thermal_id clock uid (ms_c m)]. cbn [ms_c ms_buf c_stamps with_thermal set_buffer]. rewrite append_draw_id.
      repeat split; [intros i [<-|[]]; eexists; reflexivity|].
      intros k Hk. cbn [with_thermal set_buffer c_buffers]. rewrite d_get_set, append_draws_id.
      destruct (str_eqb k _) eqn:E; [|reflexivity]. apply str_eqb_eq in E. cbn in E. subst k. exfalso. apply Hk. left. reflexivity.
  Qed.
  Lemma grows_trans (m1 m2 m3 : mstate (K := K)) : grows m1 m2 -> grows m2 m3 -> grows m1 m3.
  Proof.
    intros (l & A1 & A2 & A3 & A4) (l' & B1 & B2 & B3 & B4). exists (l' ++ l). split; [rewrite B1, A1, app_assoc; reflexivity|].
    split; [congruence|]. split; [intros i Hi; apply in_app_or in Hi as [Hi|Hi]; auto|].
    intros k Hk. rewrite B4, A4; auto; intros H; apply Hk; apply in_or_app; auto.
  Qed.
  Lemma prims_grow ps : forall m m' : mstate (K := K), on_prims clock md ps m = Ok m' -> grows m m'.
  Proof.
    induction ps as [|p r IH]; intros m m'; cbn [on_prims]; intros E.
    - apply Ok_inj in E. subst m'. exists []. repeat split; auto. intros i [].
    - destruct m as [sc b c]. destruct (prim_effect p sc) as [q Hq]. destruct (Hq b c) as [E1 _]. rewrite E1 in E.
      destruct q as [ef|]; [|discriminate E]. cbn [bind] in E. eapply grows_trans; [apply effect_grows|apply IH; exact E].
  Qed.

  Lemma shown1_grow (m m' : mstate (K := K)) l : named m -> grows m m' -> NoDup (c_stamps (ms_c m')) ->
    incl l (bf_cmds (ms_buf m)) ->
    map (shown1 (c_buffers (ms_c m'))) l = map (shown1 (c_buffers (ms_c m))) l.
  Proof.
    intros Hn (l' & G1 & _ & _ & G4) Hd Hl. apply map_ext_in. intros [s|p] Hin; [reflexivity|]. cbn [shown1].
    rewrite G4; [reflexivity|]. intros Hc. destruct (Hn p (Hl _ Hin)) as [Hs _]. rewrite G1 in Hd.
    apply in_split in Hs as (a & b & Hs). rewrite Hs in Hd.
    rewrite app_assoc in Hd. apply NoDup_remove_2 in Hd. apply Hd. apply in_or_app. left. apply in_or_app. left. exact Hc.
  Qed.
  Lemma nodup_grow (m m' : mstate (K := K)) : grows m m' -> NoDup (c_stamps (ms_c m')) -> NoDup (c_stamps (ms_c m)).
  Proof. intros (l & -> & _) H. induction l; [exact H|]. inversion H; auto. Qed.

  Lemma effect_named ef (m : mstate (K := K)) : plain_effect ef -> named m -> named (run_effect ef m).
  Proof.
    intros Hp Hn. destruct ef as [sc|ds|uid ds c]; cbn [run_effect].
    - exact Hn.
    - destruct (ms_appends_spec ds m) as (A1 & A2 & _). intros p. rewrite A1, A2, append_draws_cmds. intros Hi.
      apply in_app_or in Hi as [Hi|Hi]; [exact (Hn p Hi)|]. destruct (Hp _ Hi) as [s Hs]. discriminate Hs.
    - intros p. cbv zeta. cbn [ms_buf ms_c]. rewrite append_draw_cmds. intros Hi. apply in_app_or in Hi as [Hi|[Hi|[]]].
      + destruct (Hn p Hi) as [H1 H2]. split; [right; exact H1|exact H2].
      + injection Hi as <-. split; [left; reflexivity|]. eexists. reflexivity.
  Qed.
  Lemma effect_alike ef (m m' : mstate (K := K)) : plain_effect ef -> alike m m' -> named m -> named m' ->
    NoDup (c_stamps (ms_c (run_effect ef m))) -> NoDup (c_stamps (ms_c (run_effect ef m'))) ->
    alike (run_effect ef m) (run_effect ef m').
  Proof.
    intros Hp [A1 A2] Hn Hn' Hd Hd'.
    pose proof (shown1_grow m _ _ Hn (effect_grows ef m) Hd (incl_refl _)) as S.
    pose proof (shown1_grow m' _ _ Hn' (effect_grows ef m') Hd' (incl_refl _)) as S'.
    destruct ef as [sc|ds|uid ds c]; cbn [run_effect] in *.
    - split; [reflexivity|exact A2].
    - destruct (ms_appends_spec ds m) as (B1 & B2 & B3), (ms_appends_spec ds m') as (C1 & C2 & C3).
      split; [congruence|]. rewrite B1, B2, C1, C2, !append_draws_cmds, !map_app, A2. f_equal.
      apply map_ext_in. intros d Hi. destruct (Hp d Hi) as [s ->]. reflexivity.
    - cbv zeta in *. split; [exact A1|]. cbn [ms_buf ms_c] in *. rewrite !append_draw_cmds, !map_app, S, S', A2.
      f_equal. cbn [map shown1 pa_center pa_neg pa_meta pa_src with_thermal set_buffer c_buffers].
      rewrite !d_get_set, !append_draws_id. cbn [empty_buffer bf_id]. rewrite !str_eqb_refl. cbn [option_map].
      rewrite !append_draws_cmds. reflexivity.
  Qed.
  Lemma prims_alike ps : forall m m' : mstate (K := K), alike m m' -> named m -> named m' ->
    match on_prims clock md ps m, on_prims clock md ps m' with
    | Ok n, Ok n' => NoDup (c_stamps (ms_c n)) -> NoDup (c_stamps (ms_c n')) -> alike n n' /\ named n /\ named n'
    | Err e, Err e' => e = e'
    | _, _ => ms_scope m = ms_scope m' -> False
    end.
  Proof.
    assert (G : forall ps m m', ms_scope m = ms_scope m' -> 
      (exists n n', on_prims clock md ps m = Ok n /\ on_prims clock md ps m' = Ok n' /\
         ((alike m m' /\ named m /\ named m') -> NoDup (c_stamps (ms_c n)) -> NoDup (c_stamps (ms_c n')) -> alike n n' /\ named n /\ named n')) \/
      (exists e, on_prims clock md ps m = Err e /\ on_prims clock md ps m' = Err e)).
    { clear ps. induction ps as [|p r IH]; intros m m' Hs.
      - left. exists m, m'. auto.
      - destruct m as [sc b c], m' as [sc' b' c']. cbn in Hs. subst sc'. destruct (prim_effect p sc) as [q Hq].
        destruct (Hq b c) as [E1 Hp], (Hq b' c') as [E2 _]. cbn [on_prims]. rewrite E1, E2.
        destruct q as [ef|e]; [|right; exists e; split; reflexivity]. cbn [bind].
        assert (Hs : ms_scope (run_effect ef (MkM sc b c)) = ms_scope (run_effect ef (MkM sc b' c'))).
        { destruct ef; cbn [run_effect]; try reflexivity.
          destruct (ms_appends_spec ds (MkM sc b c)) as (_ & _ & ->), (ms_appends_spec ds (MkM sc b' c')) as (_ & _ & ->). reflexivity. }
        destruct (IH _ _ Hs) as [(n & n' & G1 & G2 & G3)|G]; [left|right; exact G].
        exists n, n'. split; [exact G1|]. split; [exact G2|]. intros (Ha & Hn & Hn') Hd Hd'. apply G3; auto.
        pose proof (nodup_grow _ _ (prims_grow _ _ _ G1) Hd) as D1. pose proof (nodup_grow _ _ (prims_grow _ _ _ G2) Hd') as D2.
        split; [apply effect_alike; auto|]. split; apply effect_named; auto. }
    intros m m' Ha Hn Hn'. destruct (G ps m m' (proj1 Ha)) as [(n & n' & -> & -> & G3)|(e & -> & ->)]; auto.
  Qed.
End Isolation.

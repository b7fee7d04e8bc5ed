(** Property theorems C21: scoping of macro variables (specification in [MacroSpec]). *)
From Verif Require Import Base Num Dict CoordModel Ast StateModel StateSpec StateProofs GeomModel
  ExprModel ExprSpec ExprProofs CompilerModel LayerSpec LayerProofs LayerInv LayerOut LayerProps MacroSpec MacroProofs.

Section Theorems.
  Context {K : Type} {NK : Num K}.
  Notation macro id name params := (MkAD id (TMacro name params)).
  Definition args (params : option (list K)) : list K := match params with Some l => l | None => [] end.

  (** Instantiating a macro is instantiating, without parameters, the macro in which every
      expression is replaced by its value under $i = p_i and the assignments before it: the
      same layers or the same exception, in every state of the compiler. *)
  Theorem C21_sequential_scope :
    forall (md : bool) (clock : nat -> Z) (id name : str) (params : option (list K)) (prims : list (prim K)) (s : state K),
      d_get name (s_macros s) = Some prims ->
      exists env constants, binds env (args params) /\ unfolded env prims constants /\
        forall (s' : state K) (x : cstate K),
          d_get name (s_macros s') = Some constants -> s_ap_attrs s' = s_ap_attrs s ->
          on_aperture md clock (macro id name params) s x = on_aperture md clock (macro id name None) s' x.
  Proof.
    intros md clock id name params prims s Hs.
    destruct (unfold_exists clock (meta_of md (s_ap_attrs s)) prims (macro_scope params)) as (cs & Hu & He).
    exists (fun v => d_get v (macro_scope params)), cs. split; [apply macro_scope_binds|]. split; [exact Hu|].
    intros s' x Hs' Ha. unfold on_aperture. cbn [ad_template ad_id]. rewrite Hs, Hs', Ha. cbv zeta.
    specialize (He (empty_buffer id) (set_buffer (empty_buffer id) x)). cbn [macro_scope].
    match type of He with bind ?a _ = bind ?b _ => destruct a as [m|e], b as [m'|e'] end; cbn [bind] in *; try congruence.
  Qed.

  (** Two instantiations with the same body, parameters and attributes show the same, or fail
      the same, whatever was compiled before each of them.  Partial: names of nested layers distinct. *)
  Theorem C21_independent_of_history_partial :
    forall (md : bool) (clock : nat -> Z) (id name : str) (params : option (list K)) (s s' : state K) (x x' : cstate K),
      (exists n, dcode id n) ->
      d_get name (s_macros s) = d_get name (s_macros s') -> s_ap_attrs s = s_ap_attrs s' ->
      match on_aperture md clock (macro id name params) s x, on_aperture md clock (macro id name params) s' x' with
      | Ok y, Ok y' => NoDup (c_stamps y) -> NoDup (c_stamps y') -> shown id y = shown id y' /\ shown id y <> None
      | Err e, Err e' => e = e'
      | _, _ => False
      end.
  Proof.
    intros md clock id name params s s' x x' [n Hn] Hm Ha. unfold on_aperture. cbn [ad_template ad_id]. rewrite <- Hm, <- Ha. cbv zeta.
    destruct (d_get name (s_macros s)) as [prims|]; [|reflexivity].
    set (m0 := MkM (macro_scope params) (empty_buffer id) (set_buffer (empty_buffer id) x)).
    set (m0' := MkM (macro_scope params) (empty_buffer id) (set_buffer (empty_buffer id) x')).
    pose proof (prims_alike clock (meta_of md (s_ap_attrs s)) prims m0 m0') as H.
    destruct (on_prims _ _ prims m0) as [m|e] eqn:E, (on_prims _ _ prims m0') as [m'|e'] eqn:E'; cbn [bind].
    - intros D D'. destruct H as ([_ H] & Hn1 & Hn2); auto; [split; reflexivity|intros p []|intros p []|].
      assert (F : forall (m m0 : mstate (K := K)), grows m0 m -> bf_id (ms_buf m0) = id -> named m ->
        shown id (set_buffer (ms_buf m) (ms_c m)) = Some (map (shown1 (c_buffers (ms_c m))) (bf_cmds (ms_buf m)))).
      { intros m1 m2 (l & _ & G2 & _) Hid Hnm. unfold shown. cbn [set_buffer c_buffers].
        rewrite d_get_set, G2, Hid, str_eqb_refl. cbn [option_map]. f_equal. apply map_ext_in.
        intros [sh|p] Hin; [reflexivity|]. cbn [shown1]. rewrite d_get_set.
        destruct (str_eqb (pa_src p) id) eqn:Eq; [|reflexivity]. apply str_eqb_eq in Eq.
        destruct (Hnm p Hin) as [_ [r Hr]]. apply dcode_chars in Hn as (q & -> & _). congruence. }
      rewrite (F m m0 (prims_grow _ _ _ _ _ E) eq_refl Hn1), (F m' m0' (prims_grow _ _ _ _ _ E') eq_refl Hn2), H.
      split; [reflexivity|discriminate].
    - apply H; [split; reflexivity|intros p []|intros p []|reflexivity].
    - apply H; [split; reflexivity|intros p []|intros p []|reflexivity].
    - apply H; [split; reflexivity|intros p []|intros p []].
  Qed.

  (** An instantiation changes only its own layer and makes new nested ones. *)
  Theorem C21_other_layers_unchanged :
    forall (md : bool) (clock : nat -> Z) (id name : str) (params : option (list K)) (s : state K) (x y : cstate K),
      on_aperture md clock (macro id name params) s x = Ok y ->
      c_stack y = c_stack x /\ c_contour y = c_contour x /\
      exists fresh, c_stamps y = fresh ++ c_stamps x /\
        forall k, k <> id -> ~ In k fresh -> d_get k (c_buffers y) = d_get k (c_buffers x).
  Proof.
    intros md clock id name params s x y E. pose proof E as E0. unfold on_aperture in E. cbn [ad_template ad_id] in E. cbv zeta in E.
    destruct (d_get name (s_macros s)) as [prims|]; [|discriminate E]. dbind E. apply Ok_inj in E. subst y.
    pose proof (prims_grow _ _ _ _ _ Eb) as G. apply on_prims_steps in Eb.
    assert (Hst : c_stack (ms_c a) = c_stack x /\ c_contour (ms_c a) = c_contour x).
    { clear - Eb. remember (MkM _ _ _) as m0 eqn:E0 in Eb. induction Eb as [|m1 m2 _ IH Hp]; [subst; auto|].
      destruct Hp as [ds H _ _|uid ds c H _ _]; rewrite H; auto. }
    destruct Hst as [H1 H2]. split; [exact H1|]. split; [exact H2|].
    destruct G as (l & G1 & G2 & G3 & G4). exists l. cbn [set_buffer c_stamps c_buffers ms_c ms_buf empty_buffer bf_id] in *.
    split; [exact G1|].
    intros k Hk Hl. rewrite d_get_set, G2. destruct (str_eqb k id) eqn:Eq; [apply str_eqb_eq in Eq; contradiction|].
    rewrite G4 by exact Hl. rewrite d_get_set, Eq. reflexivity.
  Qed.

  (** What an instance shows is not changed by instantiating the same or another macro under
      another code.  Partial: names of nested layers distinct (refuted below without). *)
  Theorem C21_instances_do_not_interfere_partial :
    forall (md : bool) (clock : nat -> Z) (id1 id2 name1 name2 : str) (params1 params2 : option (list K))
           (s1 s2 : state K) (x y z : cstate K),
      (exists n, dcode id1 n) -> (exists n, dcode id2 n) -> id1 <> id2 ->
      on_aperture md clock (macro id1 name1 params1) s1 x = Ok y ->
      on_aperture md clock (macro id2 name2 params2) s2 y = Ok z ->
      NoDup (c_stamps z) -> shown id1 z = shown id1 y /\ shown id1 y <> None.
  Proof.
    intros md clock id1 id2 name1 name2 params1 params2 s1 s2 x y z [n1 Hn1] [n2 Hn2] Hne E1 E2 Hd.
    pose proof (dcode_chars _ _ Hn1) as (q1 & Q1 & _). pose proof (dcode_chars _ _ Hn2) as (q2 & Q2 & _).
    unfold on_aperture in E1, E2. cbn [ad_template ad_id] in E1, E2. cbv zeta in E1, E2.
    destruct (d_get name1 (s_macros s1)) as [p1|]; [|discriminate E1]. dbind E1. apply Ok_inj in E1.
    destruct (d_get name2 (s_macros s2)) as [p2|]; [|discriminate E2]. dbind E2. apply Ok_inj in E2.
    pose proof (prims_grow _ _ _ _ _ Eb) as (l & G1 & G2 & G3 & G4). pose proof (prims_grow _ _ _ _ _ Eb0) as (l' & H1 & H2 & H3 & H4).
    subst y z. cbn [set_buffer c_stamps c_buffers ms_c ms_buf empty_buffer bf_id] in *.
    assert (Hn : named a).
    { match type of Eb with on_prims _ _ _ ?m0 = _ =>
        pose proof (prims_alike clock (meta_of md (s_ap_attrs s1)) p1 m0 m0 (conj eq_refl eq_refl)) as HA end.
      rewrite Eb in HA. rewrite H1 in Hd. apply nodup_app_r in Hd.
      destruct HA as (_ & HN & _); auto; intros p []. }
    unfold shown. cbn [set_buffer c_buffers]. rewrite !d_get_set, G2, H2, str_eqb_refl.
    destruct (str_eqb id1 id2) eqn:Eq; [apply str_eqb_eq in Eq; contradiction|].
    assert (F : forall k, k <> id2 -> ~ In k l' -> d_get k (c_buffers (ms_c a0)) = d_get k (d_set id1 (ms_buf a) (c_buffers (ms_c a)))).
    { intros k Hk Hl. rewrite H4 by exact Hl. rewrite d_get_set. destruct (str_eqb k id2) eqn:E; [apply str_eqb_eq in E; contradiction|].
      rewrite G2. reflexivity. }
    rewrite F; [|exact Hne|intros Hc; apply H3 in Hc as [r Hr]; congruence].
    rewrite d_get_set, str_eqb_refl. cbn [option_map]. split; [|discriminate]. f_equal. apply map_ext_in.
    intros [sh|p] Hin; [reflexivity|]. cbn [shown1]. destruct (Hn p Hin) as [Hs [r Hr]]. rewrite d_get_set.
    destruct (str_eqb (pa_src p) id2) eqn:E; [apply str_eqb_eq in E; congruence|].
    rewrite F; [reflexivity|apply str_eqb_neq; exact E|].
    intros Hc. rewrite H1 in Hd. apply in_split in Hs as (u & w & Hs). rewrite Hs, app_assoc in Hd.
    apply NoDup_remove_2 in Hd. apply Hd. apply in_or_app. left. apply in_or_app. left. exact Hc.
  Qed.
End Theorems.

Local Existing Instance NumQ.
Local Open Scope Q_scope.
(** $3 is assigned from $1, used, reassigned from itself and used again; $2 is a parameter. *)
Definition v (n : string) : expr Q := EVar (lit n).
Definition scoped : list (prim Q) :=
  [PAssign (lit "$3") (EAdd (v "$1") [EConst 1]); PCode1 (EConst 1) (v "$3") (v "$2") (EConst 0) None;
   PAssign (lit "$3") (EMul (v "$3") [EConst 2]); PCode1 (EConst 1) (v "$3") (EConst 0) (EConst 0) None;
   PCode7 1 (EConst 0) (EConst 0) (v "$3") (EConst 1) (EConst (1 # 4)) (EConst 0)].
Definition in_state (ps : list (prim Q)) : state Q :=
  match on_file no_hooks false [NAM (lit "M") ps] (visitor_init tt) with Ok v => v_state v | Err _ => v_state (visitor_init (K := Q) tt) end.

(** The constants: diameter 3 + 1 = 4 at x = 5, then 8; the thermal uses 8 as well. *)
Definition constants : list (prim Q) :=
  [PCode1 (EConst 1) (EConst 4) (EConst 5) (EConst 0) None;
   PCode1 (EConst 1) (EConst 8) (EConst 0) (EConst 0) None;
   PCode7 1 (EConst 0) (EConst 0) (EConst 8) (EConst 1) (EConst (1 # 4)) (EConst 0)].
Example C21_case :
  let a p := MkAD (lit "D10") (TMacro (lit "M") p) in
  on_aperture true running (a (Some [3; 5])) (in_state scoped) compiler_init =
    on_aperture true running (a None) (in_state constants) compiler_init /\
  is_ok (on_aperture true running (a None) (in_state constants) compiler_init) = true /\
  on_aperture true running (a (Some [3])) (in_state scoped) compiler_init = Err EKeyError.
Proof. vm_compute. repeat split. Qed.
(** Two instances with different parameters, compiled one after the other: both layers are
    there and the second is what it is when compiled alone. *)
Example C21_case_two :
  let a (i : string) p := MkAD (lit i) (TMacro (lit "M") (Some p)) in
  match on_aperture true running (a "D10"%string [3; 5]) (in_state scoped) compiler_init with
  | Ok y => match on_aperture true running (a "D11"%string [1; 2]) (in_state scoped) y,
                  on_aperture true running (a "D11"%string [1; 2]) (in_state scoped) compiler_init with
            | Ok z, Ok z1 => shown (lit "D11") z = shown (lit "D11") z1 /\ shown (lit "D10") z = shown (lit "D10") y /\
                             length (c_stamps z) = 2%nat /\ option_map (@length _) (shown (lit "D10") z) = Some 3%nat
            | _, _ => False
            end
  | Err _ => False
  end.
Proof. vm_compute. repeat split. Qed.

(** With one clock reading the second instance overwrites the nested layer of the first. *)
Theorem C21_shared_reading_refuted :
  ~ forall (clock : nat -> Z) (id1 id2 name : str) (params1 params2 : option (list Q)) (s1 s2 : state Q) (x y z : cstate Q),
      (exists n, dcode id1 n) -> (exists n, dcode id2 n) -> id1 <> id2 ->
      on_aperture true clock (MkAD id1 (TMacro name params1)) s1 x = Ok y ->
      on_aperture true clock (MkAD id2 (TMacro name params2)) s2 y = Ok z ->
      shown id1 z = shown id1 y.
Proof.
  intros S.
  pose (two := let a (i : string) p := MkAD (lit i) (TMacro (lit "M") (Some p)) in
    match on_aperture true (fun _ => 5%Z) (a "D10"%string [3; 5]) (in_state scoped) compiler_init with
    | Ok y => match on_aperture true (fun _ => 5%Z) (a "D11"%string [1; 2]) (in_state scoped) y with Ok z => Some (y, z) | Err _ => None end
    | Err _ => None
    end).
  assert (N : match two with Some (y, z) => shown (lit "D10") z <> shown (lit "D10") y | None => False end)
    by (vm_compute; discriminate).
  subst two. cbv zeta in N.
  destruct (on_aperture true _ _ _ compiler_init) as [y|] eqn:E1; [|exact N].
  destruct (on_aperture true _ _ _ y) as [z|] eqn:E2; [|exact N]. apply N.
  eapply S; [| | |exact E1|exact E2];
    [eexists; eexists; (split; [reflexivity|]); (split; [discriminate|reflexivity])..|discriminate].
Qed.

Print Assumptions C21_shared_reading_refuted.
Print Assumptions C21_sequential_scope.
Print Assumptions C21_independent_of_history_partial.
Print Assumptions C21_other_layers_unchanged.
Print Assumptions C21_instances_do_not_interfere_partial.

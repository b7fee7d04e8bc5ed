(** C82, first part: coordinates and macros that can be evaluated. *)
From Coq Require Import Reals Lra Lia.
From Verif Require Import Base Num NumReal Dict CoordModel CoordSpec CoordProofs Ast StateModel StateSpec StateProofs ExprModel ExprSpec ExprProofs
  MacroSpec MacroProofs GeomModel CompilerModel LayerSpec LayerProofs DrawSpec FlashSpec PlaceSpec RenderSpec PolyProofs AcceptSpec.
From Verif Require NumTextProofs.
Open Scope R_scope.

(** ** Coordinates *)
Lemma py_float_digits neg a b q : py_float neg a b = Ok q -> all_digits (a ++ b) /\ a ++ b <> [].
Proof.
  unfold py_float. destruct (a ++ b) as [|c t] eqn:E; [discriminate|]. rewrite <- E. destruct (forallb is_digit (a ++ b)) eqn:F; [|discriminate].
  intros _. split; [|rewrite E; discriminate]. intros x Hx. rewrite forallb_forall in F. exact (F x Hx).
Qed.
Lemma unpack_text z i d t q : unpack z i d t = Ok q ->
  exists sg ds v, SignedText sg ds t /\ spec_value ds = Some v /\ ds <> [] /\ (length ds <= i + d)%nat.
Proof.
  intros E.
  assert (X : exists neg body, unpack_preprocess t i d = Ok (neg, body) /\ all_digits body).
  { assert (P : forall pad, (forall body x, In x body -> In x (pad body)) -> forall neg body,
      py_float neg (firstn i (pad body)) (skipn i (pad body)) = Ok q -> all_digits body).
    { intros pad Hp neg body F. apply py_float_digits in F as [F _]. rewrite firstn_skipn in F. intros x Hx. apply F, Hp, Hx. }
    destruct z; cbn [unpack] in E; unfold unpack_skip_leading, unpack_skip_trailing in E;
      (destruct (unpack_preprocess t i d) as [[neg body]|]; [|discriminate]); cbn [bind] in E; exists neg, body; (split; [reflexivity|]);
      [apply (P (rjust (i + d) ch_zero)) with neg|apply (P (ljust (i + d) ch_zero)) with neg|apply (P (rjust (i + d) ch_zero)) with neg];
      try exact E; intros b x Hx; unfold rjust, ljust; apply in_or_app; auto. }
  destruct X as (neg & body & X & Hd). unfold unpack_preprocess in X. destruct t as [|c r]; [discriminate|].
  assert (Hs : exists sg, SignedText sg body (c :: r)).
  { destruct (Ascii.eqb c ch_plus) eqn:E1; [|destruct (Ascii.eqb c ch_minus) eqn:E2]; cbn beta iota in X.
    - apply Ascii.eqb_eq in E1. subst c. exists 1%Z. destruct (_ <? _)%nat; [discriminate|]. destruct (_ <=? _)%nat; [discriminate|]. injection X as _ <-. apply st_plus.
    - apply Ascii.eqb_eq in E2. subst c. exists (-1)%Z. destruct (_ <? _)%nat; [discriminate|]. destruct (_ <=? _)%nat; [discriminate|]. injection X as _ <-. apply st_minus.
    - exists 1%Z. destruct (_ <? _)%nat; [discriminate|]. destruct (_ <=? _)%nat; [discriminate|]. injection X as _ <-. apply st_none. }
  destruct Hs as [sg Hs]. exists sg, body, (digits_value body). split; [exact Hs|]. split; [apply NumTextProofs.digits_spec; exact Hd|].
  destruct (if Ascii.eqb c ch_plus then _ else _) as [n b]. destruct (i + d <? length b)%nat eqn:L; [discriminate|]. destruct (length b <=? 0)%nat eqn:L0; [discriminate|].
  injection X as _ <-. apply Nat.ltb_ge in L. apply Nat.leb_gt in L0. split; [destruct b; [cbn in L0; lia|discriminate]|exact L].
Qed.
Lemma readable_iff {K} {NK : Num K} (s : state K) (b : bool) t old : (exists o, read_opt s b t old = Ok o) <-> readable (s_cf s) b t.
Proof.
  unfold read_opt, readable. destruct t as [t|]; [|split; [trivial|eauto]]. unfold read_coord. destruct (s_cf s) as [c|]; [|split; [intros [o E]; discriminate|intros (c & _ & _ & _ & E & _); discriminate]].
  assert (X : forall i d, (exists q, unpack (cf_zeros c) i d t = Ok q) <-> exists sg ds v, SignedText sg ds t /\ spec_value ds = Some v /\ ds <> [] /\ (length ds <= i + d)%nat).
  { intros i d. split; [intros [q E]; eapply unpack_text; exact E|]. intros (sg & ds & v & A & B & C & D). destruct (proj2 (proj2 (C02_lemma (cf_zeros c) i d sg ds t v A B)) C D) as (q & E & _). eauto. }
  split.
  - intros [o E]. assert (Y : exists q, unpack (cf_zeros c) (if b then cf_xi c else cf_yi c) (if b then cf_xd c else cf_yd c) t = Ok q).
    { destruct b; destruct (unpack _ _ _ t) eqn:U; try discriminate; eauto. }
    apply X in Y as (sg & ds & v & A & B & C & D). exists c, sg, ds, v. repeat (split; [assumption || reflexivity|]). destruct b; exact D.
  - intros (c' & sg & ds & v & E & A & B & C & D). injection E as <-.
    destruct (proj2 (X (if b then cf_xi c else cf_yi c) (if b then cf_xd c else cf_yd c))) as [q Eq]; [exists sg, ds, v; repeat (split; [assumption|]); destruct b; exact D|].
    destruct b; rewrite Eq; cbn [bind]; eauto.
Qed.
Lemma read_coords_iff {K} {NK : Num K} (s : state K) x y i j : (exists s', read_coords x y i j s = Ok s') <->
  readable (s_cf s) true x /\ readable (s_cf s) false y /\ readable (s_cf s) true i /\ readable (s_cf s) false j.
Proof.
  rewrite <- (readable_iff s true x (s_x s)), <- (readable_iff s false y (s_y s)), <- (readable_iff s true i (s_i s)), <- (readable_iff s false j (s_j s)).
  unfold read_coords. split.
  - intros [s' E]. dbind E. eauto 8.
  - intros ([a ->] & [b ->] & [c ->] & [d ->]). cbn [bind]. eauto.
Qed.

(** ** Expressions *)
Section Values.
  Context (text : R -> str).
  Notation NT := (with_text NumR text).
  Lemma value_text env a k : value (NK := NT) env a k <-> value (NK := NumR) env a k.
  Proof.
    split; (induction 1 as [| |? ? _ IH|? ? ? ? _ IH1 _ IH2|? ? ? ? _ IH1 _ IH2|? ? ? ? _ IH1 _ IH2|? ? ? ? _ IH1 _ IH2 E];
      [apply v_num|apply v_var; assumption|exact (v_negate _ _ _ IH)|exact (v_plus _ _ _ _ _ IH1 IH2)|exact (v_minus _ _ _ _ _ IH1 IH2)
      |exact (v_times _ _ _ _ _ IH1 IH2)|exact (v_over _ _ _ _ _ IH1 IH2 E)]).
  Qed.
  Lemma value_ext env env' (H : forall v, env v = env' v) (a : arith R) k : value env a k -> value env' a k.
  Proof.
    induction 1; first [apply v_num | apply v_var; rewrite <- H; assumption | apply v_negate; assumption | apply v_plus; assumption | apply v_minus; assumption
      | apply v_times; assumption | apply v_over; assumption].
  Qed.
  Definition at_scope (scope : dict R) : str -> option R := fun v => d_get v scope.
  Lemma eval_iff scope e k : eval (NK := NT) scope e = Ok k <-> value (at_scope scope) (meaning e) k.
  Proof. rewrite (eval_value (NK := NT) scope e k). apply value_text. Qed.
  Lemma eval_has scope e : (exists k, eval (NK := NT) scope e = Ok k) <-> has (at_scope scope) e.
  Proof. unfold has. split; intros [k E]; exists k; apply eval_iff; exact E. Qed.
  Lemma value_det env (a : arith R) k : value env a k -> forall k', value env a k' -> k = k'.
  Proof.
    induction 1 as [| |? ? _ IH|? ? ? ? _ IH1 _ IH2|? ? ? ? _ IH1 _ IH2|? ? ? ? _ IH1 _ IH2|? ? ? ? _ IH1 _ IH2 ?]; intros k' E'; inversion E'; subst; try congruence.
    1: rewrite (IH _ ltac:(eassumption)); reflexivity.
    all: rewrite (IH1 _ ltac:(eassumption)), (IH2 _ ltac:(eassumption)); reflexivity.
  Qed.

  (** *** Figures *)
  Lemma polygon_iff c d n r neg m : (exists s, new_polygon (NK := NT) c d n r neg m = Ok s) <-> (3 <= n)%Z.
  Proof.
    change (new_polygon (NK := NT) c d n r neg m) with (new_polygon (NK := NumR) c d n r neg m). split.
    - intros [s E]. unfold new_polygon in E. destruct (n <? 3)%Z eqn:L; [discriminate|]. apply Z.ltb_ge in L. exact L.
    - intros Hn. destruct (polygon_spec c d n r neg m Hn) as (N & _ & _ & E). rewrite E. eauto.
  Qed.
  Lemma ring_iff c o i neg m : (exists s, new_ring (NK := NT) c o i neg m = Ok s) <-> i < o /\ 0 < i.
  Proof.
    change (new_ring (NK := NT) c o i neg m) with (new_ring (NK := NumR) c o i neg m). unfold new_ring. cbv zeta. cbn [n_sub n_div n_ltb NumR]. rnum.
    destruct (r_ltb 0 ((o - i) / 2)) eqn:A; rdec; cbn [negb].
    - destruct (r_ltb 0 (i / 2)) eqn:B; rdec; cbn [negb]; split; try (intros [s E]; discriminate E); try (intros _; lra); intros; eauto. lra.
    - split; [intros [s E]; discriminate E|]. intros. lra.
  Qed.
  Lemma trunc_ge (k : R) z : (0 < z)%Z -> (z <= r_trunc k)%Z <-> IZR z <= k.
  Proof.
    intros Hz. apply IZR_lt in Hz as HzR. unfold r_trunc. destruct (Rle_dec 0 k) as [Hk|Hk].
    - destruct (base_Int_part k) as [A B]. split.
      + intros L. apply IZR_le in L. lra.
      + intros L. apply le_IZR. assert (X : (z < Int_part k + 1)%Z) by (apply lt_IZR; rewrite plus_IZR; lra). apply IZR_le. lia.
    - destruct (base_Int_part (- k)) as [A B]. split; [|lra]. intros L.
      assert (X : (-1 < Int_part (- k))%Z) by (apply lt_IZR; lra). lia.
  Qed.
  Lemma rings_iff c w g : 0 < w -> forall n o,
    (exists l, rings (NK := NT) n c w (n_add (Num := NT) (n_mul (Num := NT) g (n2 (H := NT))) (n_mul (Num := NT) w (n2 (H := NT)))) o (o - 2 * w) = Ok l) <->
    forall k, (k < n)%nat -> (forall j, (j <= k)%nat -> w < o - INR j * (2 * g + 2 * w)) -> 2 * w < o - INR k * (2 * g + 2 * w).
  Proof.
    intros Hw.
    assert (E2 : n_add (Num := NT) (n_mul (Num := NT) g (n2 (H := NT))) (n_mul (Num := NT) w (n2 (H := NT))) = 2 * g + 2 * w).
    { change (g * n2 (H := NumR) + w * n2 (H := NumR) = 2 * g + 2 * w). rnum. ring. }
    rewrite E2. induction n as [|n IH]; intros o; cbn [rings].
    { split; [intros _ k Hk; lia|eauto]. }
    change (n_leb (Num := NT) o w) with (r_leb o w). destruct (r_leb o w) eqn:L; rdec.
    { split; [|eauto]. intros _ k _ Hj. specialize (Hj 0%nat ltac:(lia)). cbn [INR] in Hj. lra. }
    change (n_sub (Num := NT)) with Rminus. replace (o - 2 * w - (2 * g + 2 * w)) with ((o - (2 * g + 2 * w)) - 2 * w) by ring.
    assert (S1 : forall j, o - (2 * g + 2 * w) - INR j * (2 * g + 2 * w) = o - INR (S j) * (2 * g + 2 * w)) by (intros j; rewrite S_INR; ring).
    split.
    - intros [l E] k Hk Hj. dbind E. injection E as _.
      assert (A : o - 2 * w < o /\ 0 < o - 2 * w) by (apply (ring_iff c o (o - 2 * w) false None); eauto).
      destruct k as [|k]; [cbn [INR]; lra|]. rewrite <- S1. apply (proj1 (IH (o - (2 * g + 2 * w))) (ex_intro _ _ Eb0)); [lia|].
      intros j Lj. rewrite S1. apply Hj. lia.
    - intros HH. assert (A : exists s, new_ring (NK := NT) c o (o - 2 * w) false None = Ok s).
      { apply ring_iff. specialize (HH 0%nat ltac:(lia)). cbn [INR] in HH. split; [lra|]. enough (2 * w < o - 0 * (2 * g + 2 * w)) by lra. apply HH. intros j Lj. assert (j = 0)%nat as -> by lia. cbn [INR]. lra. }
      destruct A as [s ->]. cbn [bind].
      assert (B : exists l, rings (NK := NT) n c w (2 * g + 2 * w) (o - (2 * g + 2 * w)) (o - (2 * g + 2 * w) - 2 * w) = Ok l).
      { apply IH. intros k Hk Hj. rewrite S1. apply HH; [lia|]. intros [|j] Lj; [cbn [INR]; lra|]. rewrite <- S1. apply Hj. lia. }
      destruct B as [l ->]. cbn [bind]. eauto.
  Qed.
  Lemma rings_fit_iff c w g o n : 0 < w ->
    (exists l, rings (NK := NT) (Z.to_nat (r_trunc n)) c w (n_add (Num := NT) (n_mul (Num := NT) g (n2 (H := NT))) (n_mul (Num := NT) w (n2 (H := NT)))) o (o - 2 * w) = Ok l) <->
    rings_fit o w g n.
  Proof.
    intros Hw. rewrite (rings_iff c w g Hw). unfold rings_fit.
    assert (X : forall k, (k < Z.to_nat (r_trunc n))%nat <-> INR (S k) <= n).
    { intros k. rewrite INR_IZR_INZ, <- (trunc_ge n (Z.of_nat (S k))) by lia. lia. }
    split; intros HH k Hk; apply HH; apply X; exact Hk.
  Qed.

  (** *** Primitives *)
  Context (clock : nat -> Z).
  Lemma prim_iff md p (m : mstate (K := R)) : (exists m', on_prim (NK := NT) clock md p m = Ok m') <-> fine_prim (at_scope (ms_scope m)) p.
  Proof.
    set (env := at_scope (ms_scope m)).
    assert (HE : forall e k, eval (NK := NT) (ms_scope m) e = Ok k <-> value env (meaning e) k) by (intros; apply eval_iff).
    assert (HH : forall e k, eval (NK := NT) (ms_scope m) e = Ok k -> has env e) by (intros e k E; exists k; apply HE; exact E).
    destruct p; cbn [on_prim fine_prim]; fold env.
    all: try (split; [intros [m' E]; dbind E; rewrite ?Forall_cons_iff; eauto 20; fail|
              rewrite ?Forall_cons_iff; intros X; decompose [and] X; clear X;
              repeat match goal with H : has _ ?e |- _ => let k := fresh "k" in let Hk := fresh "Hk" in destruct H as [k Hk]; apply HE in Hk; rewrite Hk; cbn [bind] end; eauto; fail]).
    Local Ltac given HE :=
      repeat match goal with H : has _ ?e |- _ => let k := fresh "k" in let Hk := fresh "Hk" in destruct H as [k Hk]; apply HE in Hk; rewrite Hk; cbn [bind] end.
    - (* circle *)
      destruct rotation as [r|].
      + split; [intros [m' E]; dbind E; rewrite ?Forall_cons_iff; eauto 20|]. rewrite ?Forall_cons_iff; intros X; decompose [and] X; clear X; given HE; eauto.
      + split; [intros [m' E]; dbind E; rewrite ?Forall_cons_iff; eauto 20|]. rewrite ?Forall_cons_iff; intros X; decompose [and] X; clear X; given HE; eauto.
    - (* outline *)
      set (go := fix go (l : list (expr R * expr R)) : result exc (list (vec R)) := _).
      assert (HG : (exists ps, go points = Ok ps) <-> Forall (has env) (flat_map (fun q => [fst q; snd q]) points)).
      { clear -HE HH. induction points as [|[a b] l IH]; [split; [constructor|intros _; exists []; reflexivity]|].
        cbn [flat_map fst snd app]. rewrite !Forall_cons_iff, <- IH. change (go ((a, b) :: l)) with (let* a := eval (NK := NT) (ms_scope m) a in let* b := eval (NK := NT) (ms_scope m) b in let* r := go l in Ok (MkVec a b :: r)).
        split; [intros [ps E]; dbind E; eauto 6|]. intros (A & B & [ps ->]). given HE. eauto. }
      rewrite !Forall_cons_iff, Forall_app, <- HG, Forall_cons_iff. split.
      + intros [m' E]. dbind E. eauto 20.
      + intros X. destruct X as (A & B & C & [ps Ep] & D & _). given HE. rewrite Ep. cbn [bind]. rewrite Hk2 || idtac. cbn [bind]. eauto.
    - (* polygon *)
      rewrite ?Forall_cons_iff. split.
      + intros [m' E]. dbind E. split; [eauto 20|]. intros k Hk. apply HE in Hk.
        match goal with H : eval (ms_scope m) nvertices = Ok ?r |- _ => assert (r = k) as -> by congruence end.
        apply (trunc_ge k 3 ltac:(lia)). eapply (proj1 (polygon_iff _ _ _ _ _ _)). eexists. exact Eb5.
      + intros [X HN]. decompose [and] X; clear X. pose proof H1 as HV. destruct HV as [kn Hkn]. specialize (HN kn Hkn). given HE.
        apply HE in Hkn. match goal with H : eval _ nvertices = Ok ?r |- _ => assert (r = kn) as -> by congruence end.
        match goal with |- context [new_polygon ?c ?d ?n ?r ?g ?md] => destruct (proj2 (polygon_iff c d n r g md)) as [s Es] end.
        { apply (trunc_ge kn 3 ltac:(lia)). exact HN. }
        rewrite Es. cbn [bind]. eauto.
    - (* moire *)
      assert (E0 : forall k, n_ltb (Num := NT) (n0 (H := NT)) k = r_ltb 0 k) by (intros k; change (r_ltb (n0 (H := NumR)) k = r_ltb 0 k); rnum; reflexivity).
      assert (E2 : forall o w, n_sub (Num := NT) o (n_mul (Num := NT) w (n2 (H := NT))) = o - 2 * w) by (intros o w; change (o - w * n2 (H := NumR) = o - 2 * w); rnum; ring).
      rewrite ?Forall_cons_iff. split.
      + intros [m' E]. dbind E. split; [eauto 20|]. intros o' w' g' n' Vo Vw Vg Vn Pw Po. apply HE in Vo, Vw, Vg, Vn.
        repeat match goal with H : eval ?s ?e = Ok ?a, H' : eval ?s ?e = Ok ?b |- _ => assert (a = b) by congruence; subst a; clear H' end.
        rewrite !E0, E2 in *. assert (r_ltb 0 w' = true) as Rw by (apply r_ltb_lt; exact Pw). assert (r_ltb 0 o' = true) as Ro by (apply r_ltb_lt; exact Po).
        rewrite Rw, Ro in *. cbn [andb] in *. destruct (r_ltb 0 n') eqn:Ln; rdec.
        * eapply (proj1 (rings_fit_iff _ w' g' o' n' Pw)). eexists. eassumption.
        * intros k Hk. pose proof (pos_INR k). rewrite S_INR in Hk. lra.
      + intros [X HN]. decompose [and] X; clear X. given HE. rewrite !E0, E2.
        match goal with |- context [rings (Z.to_nat (n_trunc ?n)) ?c ?w (n_add (n_mul ?g _) _) ?o _] =>
          assert (Q : exists l, (if r_ltb 0 w && r_ltb 0 o && r_ltb 0 n then rings (NK := NT) (Z.to_nat (n_trunc (Num := NT) n)) c w
              (n_add (Num := NT) (n_mul (Num := NT) g (n2 (H := NT))) (n_mul (Num := NT) w (n2 (H := NT)))) o (o - 2 * w) else Ok []) = Ok l) end.
        { match goal with |- context [r_ltb 0 ?w && r_ltb 0 ?o && r_ltb 0 ?n] => destruct (r_ltb 0 w) eqn:L1; [destruct (r_ltb 0 o) eqn:L2; [destruct (r_ltb 0 n) eqn:L3|]|] end; cbn [andb]; rdec; eauto.
          eapply (proj2 (rings_fit_iff _ _ _ _ _ L1)). apply HN; try assumption; apply HE; assumption. }
        destruct Q as [l ->]. cbn [bind]. eauto.
    - (* thermal *)
      change (n_leb (Num := NT)) with r_leb. change (n_mul (Num := NT)) with Rmult. change (n_sub (Num := NT)) with Rminus.
      assert (ES : n_sqrt (Num := NT) (n2 (H := NT)) = sqrt 2) by (change (sqrt (n2 (H := NumR)) = sqrt 2); rnum; reflexivity).
      assert (E0 : n0 (H := NT) = 0) by (change (n0 (H := NumR) = 0); rnum; reflexivity).
      rewrite ?Forall_cons_iff, ES. split.
      + intros [m' E]. dbind E. split; [eauto 20|]. intros o' i' Vo Vi L. apply HE in Vo, Vi.
        repeat match goal with H : eval ?s ?e = Ok ?a, H' : eval ?s ?e = Ok ?b |- _ => assert (a = b) by congruence; subst a; clear H' end.
        destruct (r_leb o' i') eqn:L1; rdec; [lra|]. dbind E. rewrite ?Forall_cons_iff. split; [eauto|]. intros g' Vg Lg. apply HE in Vg.
        repeat match goal with H : eval ?s ?e = Ok ?a, H' : eval ?s ?e = Ok ?b |- _ => assert (a = b) by congruence; subst a; clear H' end.
        destruct (r_leb i' (g' * sqrt 2)) eqn:L2; rdec; [lra|]. rewrite E0 in E. destruct (r_leb (o' - i') 0) eqn:L3; rdec; [lra|]. dbind E.
        eapply (proj1 (ring_iff _ _ _ _ _)). eexists. eassumption.
      + intros [X HN]. decompose [and] X; clear X. given HE.
        match goal with |- context [r_leb ?o ?i] => destruct (r_leb o i) eqn:L1 end; rdec; [eauto|].
        match goal with A : eval _ outer = Ok ?o, B : eval _ inner = Ok ?i |- _ => destruct (HN o i) as [Y HG]; [apply HE; exact A|apply HE; exact B|assumption|] end.
        rewrite ?Forall_cons_iff in Y. destruct Y as (Y1 & Y2 & _). given HE.
        match goal with |- context [r_leb ?o ?i] => destruct (r_leb o i) eqn:L2 end; rdec; [eauto|]. rewrite E0.
        match goal with |- context [r_leb ?o ?i] => destruct (r_leb o i) eqn:L3 end; rdec; [lra|].
        match goal with |- context [new_ring ?c ?o ?i ?g ?md] => destruct (proj2 (ring_iff c o i g md)) as [s Es] end.
        { split; [lra|]. eapply HG; [apply HE; eassumption|lra]. }
        rewrite Es. cbn [bind]. eauto.
    - split; [intros [m' E]; dbind E; eauto|]. intros [k Hk]. apply HE in Hk. rewrite Hk. cbn [bind]. eauto.
  Qed.
  Lemma has_ext env env' (H : forall v, env v = env' v) e : has env e -> has env' e.
  Proof. intros [k Hk]. exists k. eapply value_ext; eauto. Qed.
  Lemma fine_ext env env' p : (forall v, env v = env' v) -> fine_prim env p -> fine_prim env' p.
  Proof.
    intros H. assert (H' : forall v, env' v = env v) by (intros v; symmetry; apply H).
    assert (F : forall l, Forall (has env) l -> Forall (has env') l) by (intros l; apply Forall_impl; intros e; apply has_ext; exact H).
    destruct p; cbn [fine_prim]; auto.
    - intros [A B]. split; [auto|]. intros k Hk. apply B. eapply value_ext; eauto.
    - intros [A B]. split; [auto|]. intros o w g n Ho Hw Hg Hn. apply B; eapply value_ext; eauto.
    - intros [A B]. split; [auto|]. intros o i Ho Hi L. destruct (B o i) as [C D]; try assumption; try (eapply value_ext; eauto; fail).
      split; [auto|]. intros g Hg. apply D. eapply value_ext; eauto.
    - apply has_ext. exact H.
  Qed.
  Lemma runs_ext ps : forall env env', (forall v, env v = env' v) -> runs env ps -> runs env' ps.
  Proof.
    induction ps as [|p ps IH]; intros env env' H; [trivial|].
    destruct p; cbn [runs]; try (intros [A B]; split; [eapply fine_ext; eauto|eapply IH; eauto]).
    intros (k & A & B). exists k. split; [eapply value_ext; eauto|]. eapply IH; [|exact B]. intros w. unfold upd. rewrite H. reflexivity.
  Qed.
  Lemma assigned md v e (m m' : mstate (K := R)) : on_prim (NK := NT) clock md (PAssign v e) m = Ok m' ->
    exists k, value (at_scope (ms_scope m)) (meaning e) k /\ ms_scope m' = d_set v k (ms_scope m).
  Proof. cbn [on_prim]. intros E. dbind E. injection E as <-. eexists. split; [apply eval_iff; eassumption|reflexivity]. Qed.
  Lemma scope_kept md p (m m' : mstate (K := R)) : (forall v e, p <> PAssign v e) -> on_prim (NK := NT) clock md p m = Ok m' -> ms_scope m' = ms_scope m.
  Proof.
    intros Hp E.
    assert (A : forall ds (m0 : mstate (K := R)), ms_scope (ms_appends ds m0) = ms_scope m0) by (induction ds as [|d ds IHd]; intros m0; [reflexivity|apply (IHd (ms_append d m0))]).
    destruct p; cbn [on_prim] in E; try (dbind E; injection E as <-; reflexivity).
    - destruct rotation; dbind E; injection E as <-; reflexivity.
    - dbind E. injection E as <-. apply A.
    - dbind E. destruct (n_leb _ _); [injection E as <-; reflexivity|]. dbind E. destruct (n_leb _ _); [injection E as <-; reflexivity|]. destruct (n_leb _ _); [injection E as <-; reflexivity|].
      dbind E. injection E as <-. reflexivity.
    - destruct (Hp v e eq_refl).
  Qed.
  Lemma prims_iff md ps : forall m : mstate (K := R), (exists m', on_prims (NK := NT) clock md ps m = Ok m') <-> runs (at_scope (ms_scope m)) ps.
  Proof.
    induction ps as [|p ps IH]; intros m; cbn [on_prims]; [split; [intros _; exact I|eauto]|].
    assert (D : (exists v e, p = PAssign v e) \/ forall v e, p <> PAssign v e) by (destruct p; eauto; right; intros; discriminate).
    destruct D as [(v & e & ->)|D].
    - cbn [runs]. split.
      + intros [m' E]. destruct (on_prim (NK := NT) clock md (PAssign v e) m) as [m0|] eqn:Eb; [|discriminate]. cbn [bind] in E.
        apply assigned in Eb as (k & Hk & Hs). exists k. split; [exact Hk|].
        apply runs_ext with (env := at_scope (ms_scope m0)); [|apply IH; eauto]. intros w. unfold at_scope, upd. rewrite Hs, d_get_set. reflexivity.
      + intros (k & Hk & Hr). destruct (proj2 (prim_iff md (PAssign v e) m)) as [m0 E0]; [exists k; exact Hk|]. rewrite E0. cbn [bind]. apply IH.
        apply assigned in E0 as (k' & Hk' & Hs). rewrite (value_det _ _ _ Hk' _ Hk) in Hs. eapply runs_ext; [|exact Hr]. intros w. unfold at_scope, upd. rewrite Hs, d_get_set. reflexivity.
    - assert (X : runs (at_scope (ms_scope m)) (p :: ps) <-> fine_prim (at_scope (ms_scope m)) p /\ runs (at_scope (ms_scope m)) ps) by (destruct p; try reflexivity; destruct (D v e eq_refl)).
      rewrite X, <- (prim_iff md p m). split.
      + intros [m' E]. destruct (on_prim (NK := NT) clock md p m) as [m0|] eqn:Eb; [|discriminate]. cbn [bind] in E.
        split; [eauto|]. rewrite <- (scope_kept md p m m0 D Eb). apply IH. eauto.
      + intros [[m0 E0] Hr]. rewrite E0. cbn [bind]. apply IH. rewrite (scope_kept md p m m0 D E0). exact Hr.
  Qed.
  Lemma binds_same env env' (l : list R) : binds env l -> binds env' l -> forall v, env v = env' v.
  Proof.
    intros H H' v. destruct (env v) as [k|] eqn:E; [apply H, H' in E; auto|]. destruct (env' v) as [k|] eqn:E'; [|reflexivity]. apply H', H in E'. congruence.
  Qed.

  (** *** Definitions *)
  Lemma aperture_iff md (a : ad R) (s : state R) x pre : (forall name, d_get name (s_macros s) = macros_of pre name) ->
    (exists x', on_aperture (NK := NT) md clock a s x = Ok x') <-> acceptable pre (NAD a).
  Proof.
    intros HM. unfold on_aperture. cbn [acceptable]. destruct (ad_template a) as [d h|w h0 h|w h0 h|d n r h|name ps]; cbv zeta.
    1-3: split; [intros _; exact I|eauto].
    - split.
      + intros [x' E]. dbind E. eapply (proj1 (polygon_iff _ _ _ _ _ _)). eauto.
      + intros Hn. match goal with |- context [new_polygon ?c ?d ?n ?r ?g ?md] => destruct (proj2 (polygon_iff c d n r g md) Hn) as [sh Es] end. rewrite Es. cbn [bind]. eauto.
    - rewrite HM. destruct (macros_of pre name) as [prims|]; [|split; [intros [x' E]; discriminate|intros (prims & env & E & _); discriminate]].
      split.
      + intros [x' E]. dbind E. exists prims, (at_scope (macro_scope ps)). split; [reflexivity|]. split; [apply macro_scope_binds|].
        apply (proj1 (prims_iff _ prims _) (ex_intro _ _ Eb)).
      + intros (prims' & env & E & Hb & Hr). injection E as <-.
        match goal with |- context [on_prims clock ?md prims ?m] => destruct (proj2 (prims_iff md prims m)) as [m' Em] end.
        { cbn [ms_scope]. eapply runs_ext; [|exact Hr]. apply binds_same with (match ps with Some l => l | None => [] end); [exact Hb|apply macro_scope_binds]. }
        rewrite Em. cbn [bind]. eauto.
  Qed.
End Values.

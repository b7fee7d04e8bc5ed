(** Property theorem C16: what a flash shows in files that define codes again, exactly
    (specification in [FlashSpec] and [StaleSpec]). *)
From Verif Require Import Base Num Dict CoordModel CoordSpec Ast StateModel StateSpec StateProofs GeomModel CompilerModel
  LayerSpec LayerProofs LayerInv LayerOut LayerProps DrawSpec DrawProofs DrawProps FlashSpec FlashProofs FlashProps StaleSpec Stale
  StaleProps FirstFlash.

Section Theorems.
  Context {K : Type} {NK : Num K}.
  Notation point md clock ABs := (named_point (compiler_hooks (K := K) md clock) compiler_init ABs).

  (** The codes are D-codes and none is that of an aperture and of a block. *)
  Definition proper_codes (ABs : str -> Prop) (pre : list (node K)) : Prop :=
    (forall a, In (NAD a) pre -> exists n, dcode (ad_id a) n) /\ (forall id, ABs id -> exists n, dcode id n) /\
    (forall a, In (NAD a) pre -> ~ ABs (ad_id a)).

  Lemma under_tag pre p r id : tells_apart pre -> pre = p ++ r -> flashed p id (mtag (matrix_at pre)) -> flashed_under p id (matrix_at pre).
  Proof.
    intros (_ & Hm) E (p0 & x & y & q & -> & A1 & A2). exists p0, x, y, q. split; [reflexivity|]. split; [exact A1|].
    apply Hm with ((ND03 x y :: q) ++ r) []; [rewrite app_assoc; exact E|symmetry; apply app_nil_r|exact A2].
  Qed.

  (** The first flash of a code under a transformation shows the latest definition, also if the
      code was defined before.  Partial: as [C16_flash_shapes_partial] without the condition that
      no code is defined twice, but for first flashes only; [C16_exact] is about the others. *)
  Theorem C16_first_partial :
    C16_statement (fun ABs pre v => tells_apart pre /\ proper_codes ABs pre /\ NoDup (c_stamps (v_ext v)) /\
      forall id, latest_selection pre = Some id -> ~ flashed_under pre id (matrix_at pre)).
  Proof.
    intros md clock ABs pre v a x y v' Hp (Ht & (H1 & H2 & H3) & H4 & H5) Hd (p & q & Ea & Hl) Hs E.
    assert (Hin : In (NAD a) pre) by (rewrite Ea; apply in_or_app; right; left; reflexivity).
    assert (Hsel : selects pre (ad_id a)).
    { split; [exact Hs|]. unfold ad_codes. apply in_flat_map. exists (NAD a). split; [exact Hin|left; reflexivity]. }
    destruct (flash_key md clock ABs H2 pre v (ad_id a) x y v' Hp H1 Hsel Hd E) as (_ & _ & me & A).
    exists (layer_key (ad_id a) (matrix_at pre)), me. split; [exact A|].
    refine (flash_first md clock (fun m => exists p q, pre = p ++ q /\ m = matrix_at p) ABs (proj1 Ht) _ H2 pre v p a q x y v' Hp _ _ H4 Ea Hl Hs _ E).
    - intros m m' (p1 & q1 & E1 & ->) (p2 & q2 & E2 & ->). destruct Ht as [_ Ht]. eauto.
    - intros b Hb. split; [exact (H1 b Hb)|exact (H3 b Hb)].
    - eauto.
    - intros Hf. apply (H5 _ Hs). apply under_tag with []; auto. symmetry; apply app_nil_r.
  Qed.

  (** Every flash: it shows the definition that was the latest one when the code was flashed
      under this transformation for the first time, which may be this flash. *)
  Theorem C16_exact :
    forall (md : bool) (clock : nat -> Z) (ABs : str -> Prop) (pre : list (node K)) (v v' : visitor K (cstate K))
      (id : str) (x y : option str),
      point md clock ABs pre v -> tells_apart pre -> proper_codes ABs pre -> NoDup (c_stamps (v_ext v)) ->
      drawn v <> None -> selects pre id ->
      visit_leaf (compiler_hooks md clock) (ND03 x y) v = Done v' ->
      exists p x0 y0 q v0 v1 a src me,
        (* the first such flash *)
        pre ++ [ND03 x y] = p ++ ND03 x0 y0 :: q /\ latest_selection p = Some id /\ matrix_at p = matrix_at pre /\
        ~ flashed_under p id (matrix_at pre) /\
        point md clock ABs p v0 /\ visit_leaf (compiler_hooks md clock) (ND03 x0 y0) v0 = Done v1 /\
        walk (compiler_hooks md clock) ABs (p ++ [ND03 x0 y0]) v1 (pre ++ [ND03 x y]) v' /\
        (* the definition then *)
        latest_definition p a /\ ad_id a = id /\
        copy_of (c_buffers (v_ext v1)) (matrix_at pre) id src /\ defined_as md clock p a (c_buffers (v_ext v1)) /\
        (* what is shown now *)
        adds v v' [DPaste (MkPaste src (pen_vec (pre ++ [ND03 x y])) (clear_at pre) me)] /\
        forall k, shows (c_buffers (v_ext v1)) src k -> d_get k (c_buffers (v_ext v')) = d_get k (c_buffers (v_ext v1)).
  Proof.
    intros md clock ABs pre v v' id x y Hp Ht (H1 & H2 & H3) H4 Hd Hsel E.
    set (Ms := fun m : mat K => exists p q, pre = p ++ q /\ m = matrix_at p).
    assert (Mi : forall m m', Ms m -> Ms m' -> mtag m = mtag m' -> m = m').
    { intros m m' (p1 & q1 & E1 & ->) (p2 & q2 & E2 & ->). destruct Ht as [_ Ht]. eauto. }
    assert (Hin : exists b, In (NAD b) pre /\ ad_id b = id).
    { destruct Hsel as [_ Hi]. unfold ad_codes in Hi. apply in_flat_map in Hi as (n & Hn & Hi). destruct n; try (destruct Hi; fail). destruct Hi as [<-|[]]. eauto. }
    assert (Hc : code ABs id) by (destruct Hin as (b & Hb & <-); split; [exact (H1 b Hb)|exact (H3 b Hb)]).
    set (m := matrix_at pre) in *. set (t := mtag m).
    destruct (flash_key md clock ABs H2 pre v id x y v' Hp H1 Hsel Hd E) as ([bk Mk] & _ & me & A). fold m in Mk, A.
    (* the first flash *)
    assert (HF : flashed (pre ++ [ND03 x y]) id t) by (exists pre, x, y, []; split; [reflexivity|split; [exact (proj1 Hsel)|reflexivity]]).
    destruct (flashed_first _ _ _ HF) as (p & x0 & y0 & q & Ep & S1 & S2 & S3).
    assert (Hp' : point md clock ABs (pre ++ [ND03 x y]) v') by (eapply np_leaf; [exact Hp|exact Logic.I|left; exact E]).
    destruct (point_split md clock ABs _ _ Hp' _ _ _ _ Ep) as (v0 & v1 & P0 & E0 & Hw).
    assert (Pre : exists r, pre = p ++ r).
    { apply snoc_split in Ep as [(q' & Ep & _)|(t' & Ep & ->)]; [eexists; exact Ep|].
      destruct t' as [|n0 t']; cbn [app] in Ep; [exists []; rewrite !app_nil_r; reflexivity|injection Ep as _ Ep; destruct t'; discriminate Ep]. }
    destruct Pre as [r Er].
    assert (Hm : matrix_at p = m) by (apply Mi; [exists p, r; auto|exists pre, []; rewrite app_nil_r; auto|exact S2]).
    assert (HAd : forall b, In (NAD b) (pre ++ [ND03 x y]) -> In (NAD b) pre).
    { intros b Hb. apply in_app_or in Hb as [Hb|[Hb|[]]]; [exact Hb|discriminate Hb]. }
    assert (HA : forall b, In (NAD b) (pre ++ [ND03 x y]) -> code ABs (ad_id b)) by (intros b Hb; split; [apply H1|apply H3]; apply HAd; exact Hb).
    assert (HAp : forall b, In (NAD b) p -> In (NAD b) pre) by (intros b Hb; rewrite Er; apply in_or_app; left; exact Hb).
    assert (HM : forall p1 q1, pre ++ [ND03 x y] = p1 ++ q1 -> Ms (matrix_at p1)).
    { intros p1 q1 E1. destruct q1 as [|n1 q1 _] using rev_ind.
      - rewrite app_nil_r in E1. subst p1. exists pre, []. split; [symmetry; apply app_nil_r|]. unfold matrix_at, last_set. rewrite !fold_left_app. reflexivity.
      - rewrite app_assoc in E1. apply app_inj_tail in E1 as [E1 _]. exists p1, q1. auto. }
    assert (P1 : point md clock ABs (p ++ [ND03 x0 y0]) v1) by (eapply np_leaf; [exact P0|exact Logic.I|left; exact E0]).
    assert (N' : NoDup (c_stamps (v_ext v'))).
    { destruct (leaf_d03 _ _ _ _ _ E) as (s & ap & h & _ & _ & _ & Hf & _). cbn [compiler_hooks hk_flash] in Hf.
      assert (Hst : forall ds y1 y2, append_all (K := K) ds y1 = Ok y2 -> c_stamps y2 = c_stamps y1).
      { induction ds as [|d ds IH]; intros y1 y2; cbn [append_all]; [intros E1; injection E1 as <-; reflexivity|].
        destruct (append_current d y1) as [y3|] eqn:E1; [|discriminate]. cbn [bind]. intros E2. rewrite (IH _ _ E2).
        apply append_current_inv in E1 as (? & ? & ? & _ & _ & ->). reflexivity. }
      apply on_flash_cases in Hf as [(ad & _ & Hf)|(i & _ & Hf)].
      - apply flash_aperture_inv in Hf as (b & y1 & E1 & E2). apply aperture_buffer_inv in E1 as (bs' & _ & ->).
        apply append_current_inv in E2 as (? & ? & ? & _ & _ & ->). exact H4.
      - apply flash_block_inv in Hf as (b & y1 & E1 & E2). apply aperture_buffer_inv in E1 as (bs' & _ & ->). rewrite (Hst _ _ _ E2). exact H4. }
    pose proof (walk_stamps md clock Ms ABs (proj1 Ht) Mi H2 _ _ _ _ Hw P1 HA HM N') as N1.
    assert (HMp : forall p1 q1, p = p1 ++ q1 -> Ms (matrix_at p1)) by (intros p1 q1 ->; exists p1, (q1 ++ r); rewrite app_assoc; auto).
    assert (HMp1 : forall p1 q1, p ++ [ND03 x0 y0] = p1 ++ q1 -> Ms (matrix_at p1)).
    { intros p1 q1 E1. apply HM with (q1 ++ q). rewrite Ep, app_assoc, <- E1, <- app_assoc. reflexivity. }
    assert (N0 : NoDup (c_stamps (v_ext v0))).
    { apply (walk_stamps md clock Ms ABs (proj1 Ht) Mi H2 p v0 (p ++ [ND03 x0 y0]) v1); auto.
      - eapply wk_leaf; [apply wk_here|exact Logic.I|left; exact E0].
      - intros b Hb. apply HA. rewrite Ep. apply in_app_or in Hb as [Hb|[Hb|[]]]; [apply in_or_app; left; exact Hb|discriminate Hb]. }
    destruct (flash_has_definition md clock ABs p v0 id x0 y0 v1 P0 S1 Hc E0) as (pd & a & qd & Ed & Ia & Ld). subst id.
    destruct (flash_first md clock Ms ABs (proj1 Ht) Mi H2 p v0 pd a qd x0 y0 v1 P0) as [Hcopy Hdef]; auto.
    { intros b Hb. split; [exact (H1 b (HAp b Hb))|exact (H3 b (HAp b Hb))]. }
    { rewrite Hm. exact S3. }
    exists p, x0, y0, q, v0, v1, a, (layer_key (ad_id a) m), me. rewrite Hm in Hcopy.
    split; [exact Ep|]. split; [exact S1|]. split; [exact Hm|]. split.
    { intros (p1 & a1 & b1 & q1 & F1 & F2 & F3). apply S3. exists p1, a1, b1, q1. split; [exact F1|]. split; [exact F2|]. rewrite F3. reflexivity. }
    split; [exact P0|]. split; [exact E0|]. split; [exact Hw|]. split; [exists pd, qd; auto|]. split; [reflexivity|].
    split; [exact Hcopy|]. split; [exact Hdef|]. split; [exact A|]. intros k Hk.
    assert (Hcd : coded (pre ++ [ND03 x y])) by (intros b Hb; apply H1, HAd, Hb).
    assert (R1 : ready (v_ext v1)).
    { apply (ready_point md clock ABs H2 _ _ P1). intros b Hb. apply Hcd. rewrite Ep. apply in_app_or in Hb as [Hb|[Hb|[]]]; [apply in_or_app; left; exact Hb|discriminate Hb]. }
    destruct (walk_goes md clock ABs H2 _ _ _ _ Hw Hcd R1) as [_ L].
    destruct (shown_keys _ _ _ (proj2 (proj2 R1)) Hk) as (k1 & m1 & -> & [b M]); [eauto|]. rewrite M. apply L, M.
  Qed.
End Theorems.
Print Assumptions C16_first_partial.
Print Assumptions C16_exact.

(** *** Cases *)
Local Existing Instance NumQ.
Local Open Scope Q_scope.
Definition shown_pt (v : visitor Q (cstate Q)) : option (vec Q) :=
  match last_src (drawn v) with Some k => first_pt (d_get k (c_buffers (v_ext v))) | None => None end.
(** Defined twice before the first flash: the second definition is shown. *)
Definition twice : list (node Q) := [fs26; adc "D10" 1; adc "D10" 2; NDnn (lit "D10")].
Example C16_ex_first : nprobe twice (ND03 pos pos) (fun v v' =>
  ad_codes twice = [lit "D10"; lit "D10"] /\ c_stamps (v_ext v) = [] /\ drawn v <> None /\ shown_pt v' = Some (pt (-1) 0)).
Proof. vm_compute. repeat split. discriminate. Qed.
(** Defined again after a flash: scaled by 3 the second definition is shown, of size 2, unscaled
    still the first one, of size 1. *)
Definition again (k : Q) : list (node Q) :=
  [fs26; adc "D10" 1; NDnn (lit "D10"); ND03 pos pos; adc "D10" 2; NLS 3; ND03 pos pos; NLS k].
Example C16_ex_exact :
  nprobe (again 3) (ND03 pos pos) (fun _ v' => shown_pt v' = Some (pt (-3) 0)) /\
  nprobe (again 1) (ND03 pos pos) (fun v v' => selects (again 1) (lit "D10") /\ drawn v <> None /\ shown_pt v' = Some (pt (-1 # 2) 0)).
Proof. vm_compute. repeat split; auto. discriminate. Qed.

(** Proofs for C80: what the commands determine, for rational and for real numbers. *)
From Coq Require Import Reals Qreals Lra.
From Verif Require Import Base Num NumReal Dict CoordModel CoordSpec Ast StateModel StateSpec StateProofs ExprModel ExprSpec ExprProofs GeomModel CompilerModel
  LayerSpec LayerProofs DrawSpec DrawProofs FlashSpec.
From Verif Require Import GbModel GbSpec RenderSpec DepictSpec.

Section Nodes.
  Context (text : R -> str).
  Notation NT := (with_text NumR text).
  Notation rn := real_node.
  Notation rns := (map real_node).

  Lemma leaf_real n : is_leaf n -> is_leaf (rn n).
  Proof. destruct n; intros H; try exact I; contradiction. Qed.
  Lemma executed_real (n : node Q) : is_leaf n -> executed (rn n) = (rns (fst (executed n)), snd (executed n)).
  Proof. destruct n; intros H; try reflexivity; contradiction. Qed.
  Lemma executed_file_real b (ns : list (node Q)) : Forall is_leaf ns -> executed_file b (rns ns) = rns (executed_file b ns).
  Proof.
    induction 1 as [|n r Hn _ IH]; [reflexivity|]. cbn [map executed_file]. rewrite (executed_real n Hn). destruct (executed n) as [a st]. cbn [fst snd].
    destruct (st && b); [reflexivity|]. rewrite IH, map_app. reflexivity.
  Qed.
  Lemma last_real {A B} (f : A -> B) (g : node Q -> option A) (g' : node R -> option B) d ns :
    (forall n, g' (rn n) = option_map f (g n)) -> last_set g' (f d) (rns ns) = f (last_set g d ns).
  Proof.
    intros E. unfold last_set. revert d. induction ns as [|n r IH]; intros d; [reflexivity|]. cbn [map fold_left]. rewrite E.
    destruct (g n); cbn [option_map]; apply IH.
  Qed.
  Lemma clear_real ns : clear_at (rns ns) = clear_at ns.
  Proof. unfold clear_at. rewrite (last_real (fun x => x) sets_polarity sets_polarity Dark ns); [reflexivity|]. intros n. destruct n; reflexivity. Qed.
  Lemma region_real ns : in_region (rns ns) = in_region ns.
  Proof. apply (last_real (fun x => x)). intros n. destruct n; try reflexivity; destruct g; reflexivity. Qed.
  Lemma plot_real ns : plot_of (rns ns) = plot_of ns.
  Proof. apply (last_real (fun x => x)). intros n. destruct n; try reflexivity; destruct g; reflexivity. Qed.
  Lemma arc_real ns : arc_mode (rns ns) = arc_mode ns.
  Proof. apply (last_real (fun x => x)). intros n. destruct n; try reflexivity; destruct g; reflexivity. Qed.
  Lemma selection_real ns : latest_selection (rns ns) = latest_selection ns.
  Proof. apply (last_real (fun x => x)). intros n. destruct n; reflexivity. Qed.
  Lemma mirroring_real ns : last_set sets_mirroring MirNone (rns ns) = last_set sets_mirroring MirNone ns.
  Proof. apply (last_real (fun x => x)). intros n. destruct n; reflexivity. Qed.
  Lemma rotation_real d ns : last_set sets_rotation (Q2R d) (rns ns) = Q2R (last_set sets_rotation d ns).
  Proof. apply (last_real Q2R). intros n. destruct n; reflexivity. Qed.
  Lemma scaling_real d ns : last_set sets_scaling (Q2R d) (rns ns) = Q2R (last_set sets_scaling d ns).
  Proof. apply (last_real Q2R). intros n. destruct n; reflexivity. Qed.
  Lemma codes_real ns : ad_codes (rns ns) = ad_codes ns.
  Proof. unfold ad_codes. induction ns as [|n r IH]; [reflexivity|]. cbn [map flat_map]. rewrite IH. destruct n; reflexivity. Qed.
  Lemma macros_real ns name : macros_of (rns ns) name = option_map (map real_prim) (macros_of ns name).
  Proof.
    unfold macros_of. change None with (option_map (map real_prim) None) at 1. generalize (@None (list (prim Q))).
    induction ns as [|n r IH]; intros d; [reflexivity|]. cbn [map fold_left]. rewrite <- IH. f_equal. destruct n; try reflexivity. cbn [real_node].
    destruct (str_eqb name name0); reflexivity.
  Qed.
  Lemma in_real a ns : In (NAD a) (rns ns) -> exists a', a = real_ad a' /\ In (NAD a') ns.
  Proof. intros H. apply in_map_iff in H as (n & E & Hn). destruct n; try discriminate E. injection E as <-. eauto. Qed.

  (** Coordinates. *)
  Definition real_pair (p : Q * Q) : R * R := (Q2R (fst p), Q2R (snd p)).
  Definition real_vec (v : vec Q) : vec R := MkVec (Q2R (vx v)) (Q2R (vy v)).
  Lemma format_real f n : format_step f (rn n) = format_step f n.
  Proof. destruct n; try reflexivity; destruct g; reflexivity. Qed.
  Lemma red_real q : Q2R (Qred q) = Q2R q.
  Proof. apply Qeq_eqR, Qred_correct. Qed.
  Lemma axis_real f b t k : axis_value (NK := NT) f b t (Q2R k) = Q2R (axis_value (NK := NumQ) f b t k).
  Proof.
    unfold axis_value. destruct t as [t|]; [|reflexivity]. destruct f as [f|]; [|reflexivity].
    destruct (unpack (cf_zeros f) (if b then cf_xi f else cf_yi f) (if b then cf_xd f else cf_yd f) t); [|reflexivity].
    symmetry. apply red_real.
  Qed.
  Definition real_pen (p : @pen Q) : @pen R := MkPen (pen_fmt p) (real_pair (pen_at p)) (map (fun s => (real_pair (fst s), real_pair (snd s))) (pen_segs p)).
  Lemma pen_step_real p n : pen_step (NK := NT) (real_pen p) (rn n) = real_pen (pen_step (NK := NumQ) p n).
  Proof.
    destruct n; try reflexivity; cbn [real_node pen_step real_pen pen_fmt pen_at pen_segs].
    - unfold real_pen, real_pair. cbn [pen_fmt pen_at pen_segs fst snd]. rewrite !axis_real, map_app. reflexivity.
    - unfold real_pen, real_pair. cbn [pen_fmt pen_at pen_segs fst snd]. rewrite !axis_real. reflexivity.
    - unfold real_pen, real_pair. cbn [pen_fmt pen_at pen_segs fst snd]. rewrite !axis_real. reflexivity.
  Qed.
  Lemma zero_real : n_of_Q (Num := NT) 0 = Q2R (n_of_Q (Num := NumQ) 0).
  Proof. symmetry. apply red_real. Qed.
  Lemma pen_of_real ns : pen_of (NK := NT) (rns ns) = real_pen (pen_of (NK := NumQ) ns).
  Proof.
    unfold pen_of. unfold n0. change (MkPen None (n_of_Q (Num := NT) 0, n_of_Q (Num := NT) 0) []) with (MkPen None (n_of_Q (Num := NT) 0, n_of_Q (Num := NT) 0) (@nil ((R * R) * (R * R)))).
    rewrite zero_real. change (MkPen None (Q2R (n_of_Q (Num := NumQ) 0), Q2R (n_of_Q (Num := NumQ) 0)) [])
      with (real_pen (MkPen None (n_of_Q (Num := NumQ) 0, n_of_Q (Num := NumQ) 0) [])).
    generalize (MkPen None (n_of_Q (Num := NumQ) 0, n_of_Q (Num := NumQ) 0) []). induction ns as [|n r IH]; intros p; [reflexivity|].
    cbn [map fold_left]. rewrite pen_step_real. apply IH.
  Qed.
  Lemma pen_vec_real ns : pen_vec (NK := NT) (rns ns) = real_vec (pen_vec (NK := NumQ) ns).
  Proof. unfold pen_vec. rewrite pen_of_real. destruct (pen_of (NK := NumQ) ns) as [f [x y] s]. reflexivity. Qed.
  Definition real_off (c : option cfmt * vec Q) : option cfmt * vec R := (fst c, real_vec (snd c)).
  Lemma offset_step_real c n : offset_step (NK := NT) (real_off c) (rn n) = real_off (offset_step (NK := NumQ) c n).
  Proof.
    destruct c as [f o]. cbn [offset_step real_off fst snd]. unfold real_off. cbn [fst snd]. rewrite format_real. f_equal.
    destruct n; try reflexivity. cbn [real_node real_vec vx vy]. unfold real_vec. cbn [vx vy]. rewrite !axis_real. reflexivity.
  Qed.
  Definition off_init : option cfmt * vec Q := (None, MkVec (n_of_Q (Num := NumQ) 0) (n_of_Q (Num := NumQ) 0)).
  Lemma off_init_real : (None, MkVec (n_of_Q (Num := NT) 0) (n_of_Q (Num := NT) 0)) = real_off off_init.
  Proof. rewrite zero_real. reflexivity. Qed.
  Lemma last_offset_real ns : last_offset (NK := NT) (rns ns) = real_vec (last_offset (NK := NumQ) ns).
  Proof.
    unfold last_offset, n0. rewrite off_init_real. fold off_init.
    assert (E : forall c, fold_left (offset_step (NK := NT)) (rns ns) (real_off c) = real_off (fold_left (offset_step (NK := NumQ)) ns c)).
    { induction ns as [|n r IH]; intros c; [reflexivity|]. cbn [map fold_left]. rewrite offset_step_real. apply IH. }
    rewrite E. reflexivity.
  Qed.

  (** Contours. *)
  Definition real_stroke (k : DrawSpec.stroke (K := Q)) : DrawSpec.stroke (K := R) :=
    MkStroke (real_vec (sk_from k)) (real_vec (sk_to k)) (sk_mode k) (real_vec (sk_offset k)).
  Definition real_contour (c : contour (K := Q)) : contour (K := R) :=
    MkContour (real_pen (ct_pen c)) (ct_modes c) (real_off (ct_offset c)) (real_vec (ct_start c)) (map real_stroke (ct_strokes c)) (ct_regular c).
  Lemma modes_real m n : modes_step m (rn n) = modes_step m n.
  Proof. destruct n; try reflexivity; destruct g; reflexivity. Qed.
  Lemma contour_step_real c n : contour_step (NK := NT) (real_contour c) (rn n) = real_contour (contour_step (NK := NumQ) c n).
  Proof.
    unfold contour_step. cbn [real_contour ct_pen ct_modes ct_offset ct_start ct_strokes ct_regular]. rewrite pen_step_real, modes_real, offset_step_real.
    generalize (pen_step (NK := NumQ) (ct_pen c) n), (offset_step (NK := NumQ) (ct_offset c) n), (modes_step (ct_modes c) n). intros p o m.
    destruct n; try reflexivity; cbn [real_node].
    - destruct (mo_region m); [|reflexivity]. unfold real_contour. cbn [ct_pen ct_modes ct_offset ct_start ct_strokes ct_regular]. rewrite map_app. reflexivity.
    - destruct (mo_region m); reflexivity.
    - destruct g; reflexivity.
  Qed.
  Lemma contour_real ns : contour_of (NK := NT) (rns ns) = real_contour (contour_of (NK := NumQ) ns).
  Proof.
    unfold contour_of. assert (E : contour_init (NK := NT) = real_contour (contour_init (NK := NumQ))).
    { unfold contour_init, n0. rewrite zero_real. reflexivity. }
    rewrite E. generalize (contour_init (NK := NumQ)). induction ns as [|n r IH]; intros c; [reflexivity|]. cbn [map fold_left].
    rewrite contour_step_real. apply IH.
  Qed.

  (** Constants. *)
  Lemma qeqb_real q : n_eqb (Num := NumQ) q (n_of_Q (Num := NumQ) 0) = false -> Q2R q <> 0%R.
  Proof.
    cbn [n_eqb NumQ n_of_Q]. intros H E. apply Qeq_bool_neq in H. apply H. rewrite Qred_correct. apply eqR_Qeq. rewrite E. unfold Q2R. cbn. lra.
  Qed.
  Definition real_arith : arith Q -> arith R := fix f a :=
    match a with
    | ANum k => ANum (Q2R k) | AVar v => AVar v | ANeg a => ANeg (f a) | APlus a b => APlus (f a) (f b)
    | AMinus a b => AMinus (f a) (f b) | ATimes a b => ATimes (f a) (f b) | AOver a b => AOver (f a) (f b)
    end.
  Lemma fold_real (op : arith Q -> arith Q -> arith Q) (op' : arith R -> arith R -> arith R) l : forall h,
    (forall a b, real_arith (op a b) = op' (real_arith a) (real_arith b)) ->
    Forall (fun e => meaning (real_expr e) = real_arith (meaning e)) l ->
    fold_left op' (map meaning (map real_expr l)) (real_arith h) = real_arith (fold_left op (map meaning l) h).
  Proof.
    induction l as [|e l IH]; intros h E H; [reflexivity|]. inversion H as [|? ? E1 H1]; subst. cbn [map fold_left]. rewrite E1, <- E. apply IH; assumption.
  Qed.
  Lemma meaning_real e : meaning (real_expr e) = real_arith (meaning e).
  Proof.
    induction e as [c|v|e IH|e IH|e IH|h t IH H|h t IH H|h t IH H|h t IH H] using expr_ind'; cbn [real_expr meaning real_arith]; try reflexivity; try congruence.
    all: rewrite IH; apply fold_real; [reflexivity|exact H].
  Qed.
  Lemma value_real (env : str -> option R) a k : value (NK := NumQ) (fun _ => None) a k -> value (NK := NumR) env (real_arith a) (Q2R k).
  Proof.
    induction 1; cbn [real_arith].
    - constructor.
    - discriminate.
    - assert (E : Q2R (n_opp (Num := NumQ) x) = n_opp (Num := NumR) (Q2R x)) by (etransitivity; [apply red_real|]; apply Q2R_opp). rewrite E. constructor. assumption.
    - assert (E : Q2R (n_add (Num := NumQ) x y) = n_add (Num := NumR) (Q2R x) (Q2R y)) by (etransitivity; [apply red_real|]; apply Q2R_plus). rewrite E. constructor; assumption.
    - assert (E : Q2R (n_sub (Num := NumQ) x y) = n_sub (Num := NumR) (Q2R x) (Q2R y)) by (etransitivity; [apply red_real|]; apply Q2R_minus). rewrite E. constructor; assumption.
    - assert (E : Q2R (n_mul (Num := NumQ) x y) = n_mul (Num := NumR) (Q2R x) (Q2R y)) by (etransitivity; [apply red_real|]; apply Q2R_mult). rewrite E. constructor; assumption.
    - assert (N : Q2R y <> 0%R) by (apply qeqb_real; assumption).
      assert (E : Q2R (n_div (Num := NumQ) x y) = n_div (Num := NumR) (Q2R x) (Q2R y)).
      { etransitivity; [apply red_real|]. apply Q2R_div. intros E. apply N. apply Qeq_eqR in E. rewrite E. unfold Q2R. cbn. lra. }
      rewrite E. constructor; try assumption. cbn. apply r_eqb_neq. intros E0. apply N. rewrite E0. unfold Q2R. cbn. lra.
  Qed.
  Lemma const_real env e q : is_const e q -> FigSpec.val env (real_expr e) (Q2R q).
  Proof.
    intros H. destruct (H []) as (c & E & Eq). apply eval_value in E. unfold FigSpec.val. rewrite meaning_real. rewrite <- (Qeq_eqR _ _ Eq). apply value_real.
    assert (X : forall a k, value (NK := NumQ) (fun v => d_get v []) a k -> value (NK := NumQ) (fun _ => None) a k) by (induction 1; constructor; assumption).
    apply X. exact E.
  Qed.
End Nodes.

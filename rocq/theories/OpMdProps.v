(** C91, what hover texts say about drawing commands. *)
From Verif Require Import Base Num Dict CoordModel Ast GramTok StateModel HoverModel HoverSpec LayerProps MdModel MdSpec OpMdModel MdProps.
Local Open Scope nat_scope.
Local Notation span := MdModel.span.

(** ** Specification *)
(** The texts shown for a point and for the state a command is carried out in. *)
Section Texts.
  Context {K : Type} (show : K -> str).
  Definition point_texts (p : option (K * K)) : list str := match p with Some (x, y) => [show x; show y] | None => [] end.
  Definition plot_text (m : plot_mode) : str := match m with PmLinear => lit "Linear" | PmArc => lit "Clockwise Arc" | PmCcwArc => lit "Counter-clockwise Arc" end.
  Definition quadrant_texts (m : plot_mode) (a : arc_interp) : list str :=
    match m, a with PmLinear, _ => [] | _, MultiQuadrant => [lit "Multi-quadrant"] | _, SingleQuadrant => [lit "Single-quadrant"] end.
  Definition polarity_text (p : polarity) : str := match p with Dark => lit "Dark polarity" | Clear => lit "Clear polarity" end.
  Definition mirroring_text (m : mirroring) : str :=
    match m with MirNone => lit "No Mirroring" | MirX => lit "Mirroring X" | MirY => lit "Mirroring Y" | MirXY => lit "Mirroring X and Y" end.
  Definition state_texts (s : state K) : list str :=
    [lit "Aperture: " ++ match s_apid s with Some id => id | None => lit "None" end] ++ quadrant_texts (s_plot s) (s_arc s) ++
    [plot_text (s_plot s); polarity_text (tr_polarity (s_tr s)); mirroring_text (tr_mirroring (s_tr s));
     lit "Rotation: " ++ show (tr_rotation (s_tr s)); lit "Scale: " ++ show (tr_scaling (s_tr s))].
  (** The parts of the state that a drawing command depends on, with texts in place of numbers;
      quadrants matter for arcs only. *)
  Definition manner (s : state K) :=
    (s_apid s, s_plot s, match s_plot s with PmLinear => None | _ => Some (s_arc s) end, tr_polarity (s_tr s), tr_mirroring (s_tr s),
     show (tr_rotation (s_tr s)), show (tr_scaling (s_tr s))).
End Texts.

Section Ops.
  Context {K : Type} {NK : Num K} (show : K -> str).
  Hypothesis numbers : forall k, numeric (show k).
  Lemma shows k : without tick (show k).
  Proof. exact (numeric_tick _ (numbers k)). Qed.
  Lemma joined a b : without tick a -> without tick b -> without tick (a ++ b).
  Proof. intros A B X. apply in_app_or in X as [X|X]; [exact (A X)|exact (B X)]. Qed.
  Lemma spans_point message gap p b : without tick message -> without tick gap -> spans (point_md show message gap p ++ b) = show (fst p) :: show (snd p) :: spans b.
  Proof.
    intros Hm Hg. unfold point_md, pieces. cbn [concat]. rewrite app_nil_r, <- !app_assoc. rewrite spans_skip by plain. rewrite spans_skip by exact Hm. rewrite spans_skip by plain. rewrite spans_skip by exact Hg.
    rewrite spans_skip by plain. rewrite spans_span by apply shows. rewrite spans_skip by plain. rewrite spans_span by apply shows. rewrite spans_skip by plain. reflexivity.
  Qed.
  Lemma spans_xy message p b : without tick message -> spans (xy_md show message p ++ b) = point_texts show p ++ spans b.
  Proof. intros Hm. destruct p as [[x y]|]; [|reflexivity]. cbn [xy_md]. rewrite spans_point by (assumption || plain). reflexivity. Qed.
  Lemma spans_printed t b : without tick t -> spans (printed (span t) ++ b) = t :: spans b.
  Proof. intros H. unfold printed. rewrite <- app_assoc, spans_span by exact H. rewrite spans_skip by plain. reflexivity. Qed.
  Ltac word x := match goal with |- _ = ?t :: _ => let t' := eval cbv [plot_text polarity_text mirroring_text] in t in exact (spans_printed t' x ltac:(plain)) end.
  Definition known (s : state K) : Prop := forall id, s_apid s = Some id -> without "`"%char id.
  Lemma spans_state s b : known s -> spans (state_md show s ++ b) = state_texts show s ++ spans b.
  Proof.
    intros Hid. unfold state_md, pieces. cbn [concat]. rewrite app_nil_r, <- !app_assoc. rewrite spans_skip by plain. unfold aperture_md. rewrite spans_printed.
    2: apply joined; [plain|]; destruct (s_apid s) eqn:E; [exact (Hid _ E)|plain].
    unfold state_texts. cbn [app]. f_equal. assert (A : forall x, spans (arc_md s ++ x) = quadrant_texts (s_plot s) (s_arc s) ++ spans x).
    { intros x. unfold arc_md, quadrant_texts. destruct (s_plot s), (s_arc s); try reflexivity; cbn [app]; word x. }
    rewrite A, <- app_assoc. f_equal. assert (P : forall x, spans (plot_md s ++ x) = plot_text (s_plot s) :: spans x) by (intros x; unfold plot_md; destruct (s_plot s); word x).
    rewrite P. assert (Q : forall x, spans (polarity_md s ++ x) = polarity_text (tr_polarity (s_tr s)) :: spans x) by (intros x; unfold polarity_md; destruct (tr_polarity (s_tr s)); word x).
    rewrite Q. unfold transform_md. rewrite <- !app_assoc.
    assert (M : forall m x, spans (printed match m with MirNone => lit "`No Mirroring`" | MirX => lit "`Mirroring X`" | MirY => lit "`Mirroring Y`" | MirXY => lit "`Mirroring X and Y`" end ++ x) = mirroring_text m :: spans x)
      by (intros m x; destruct m; word x).
    rewrite M. unfold printed. rewrite <- !app_assoc. rewrite spans_span by (apply joined; [plain|apply shows]). rewrite !spans_skip by plain. rewrite spans_span by (apply joined; [plain|apply shows]).
    rewrite spans_skip by plain. reflexivity.
  Qed.
  Lemma spans_state_end s : known s -> spans (state_md show s) = state_texts show s.
  Proof. intros H. rewrite <- (app_nil_r (state_md show s)), spans_state by exact H. apply app_nil_r. Qed.

  (** The text of a command shows its points and the state it is carried out in. *)
  Theorem C91_operations : forall s x y i j, known s ->
    (forall e c, shown_end s x y = Ok e -> shown_center s i j = Ok c ->
       exists t, d01_md show s x y i j = Ok t /\ spans t = point_texts show (Some (s_cur_x s, s_cur_y s)) ++ point_texts show e ++ point_texts show c ++ state_texts show s) /\
    (forall e, shown_end s x y = Ok e -> exists t, d02_md show s x y = Ok t /\ spans t = point_texts show e) /\
    (forall e, shown_end s x y = Ok e -> exists t, d03_md show s x y = Ok t /\ spans t = point_texts show e ++ state_texts show s).
  Proof.
    intros s x y i j Hid. unfold d01_md, d02_md, d03_md. split; [|split].
    - intros e c -> ->. cbn [bind]. eexists. split; [reflexivity|]. unfold pieces. cbn [concat]. rewrite app_nil_r. unfold start_md. rewrite spans_point by plain. rewrite !spans_xy by plain.
      rewrite spans_state_end by exact Hid. reflexivity.
    - intros e ->. cbn [bind]. eexists. split; [reflexivity|]. rewrite <- (app_nil_r (xy_md _ _ e)), spans_xy by plain. apply app_nil_r.
    - intros e ->. cbn [bind]. eexists. split; [reflexivity|]. unfold pieces. cbn [concat]. rewrite app_nil_r, spans_xy by plain. rewrite spans_state_end by exact Hid. reflexivity.
  Qed.
  (** States shown alike are alike in all that drawing depends on, up to the texts of numbers. *)
  Theorem C91_states : forall s s' : state K, (forall id, s_apid s = Some id \/ s_apid s' = Some id -> id_text id) ->
    state_md show s = state_md show s' -> manner show s = manner show s'.
  Proof.
    intros s s' Hid E. assert (I : forall id, id_text id -> without tick id /\ id <> lit "None").
    { intros id (z & a & d & -> & Hz & Ha & _ & _ & Hd). split; [|discriminate]. unfold GramText.all in Hz, Hd. rewrite forallb_forall in Hz, Hd. intros [X|X]; [discriminate|]. apply in_app_or in X as [X|[X|X]].
      - specialize (Hz _ X). discriminate.
      - subst a. discriminate.
      - specialize (Hd _ X). discriminate. }
    assert (T : state_texts show s = state_texts show s').
    { rewrite <- !spans_state_end; [rewrite E; reflexivity|intros id X; apply I, Hid; auto..]. }
    unfold state_texts in T. cbn [app] in T. injection T as T1 T2. assert (A : s_apid s = s_apid s').
    { destruct (s_apid s) as [id|], (s_apid s') as [id'|]; [congruence| | |reflexivity]; exfalso; [apply (proj2 (I id (Hid id (or_introl eq_refl)))); exact T1|apply (proj2 (I id' (Hid id' (or_intror eq_refl)))); symmetry; exact T1]. }
    assert (M : s_plot s = s_plot s' /\ match s_plot s with PmLinear => None | _ => Some (s_arc s) end = match s_plot s' with PmLinear => None | _ => Some (s_arc s') end /\
      [polarity_text (tr_polarity (s_tr s)); mirroring_text (tr_mirroring (s_tr s)); lit "Rotation: " ++ show (tr_rotation (s_tr s)); lit "Scale: " ++ show (tr_scaling (s_tr s))] =
      [polarity_text (tr_polarity (s_tr s')); mirroring_text (tr_mirroring (s_tr s')); lit "Rotation: " ++ show (tr_rotation (s_tr s')); lit "Scale: " ++ show (tr_scaling (s_tr s'))]).
    { destruct (s_plot s), (s_plot s'); try destruct (s_arc s); try destruct (s_arc s'); cbn [quadrant_texts plot_text app] in T2; try discriminate T2; repeat split;
        repeat match type of T2 with lit _ :: _ = lit _ :: _ => apply (f_equal (@tl str)) in T2; cbn [tl] in T2 end; exact T2. }
    destruct M as (M1 & M2 & M3). assert (P : polarity_text (tr_polarity (s_tr s)) = polarity_text (tr_polarity (s_tr s'))) by congruence.
    assert (Q : mirroring_text (tr_mirroring (s_tr s)) = mirroring_text (tr_mirroring (s_tr s'))) by congruence.
    assert (R : lit "Rotation: " ++ show (tr_rotation (s_tr s)) = lit "Rotation: " ++ show (tr_rotation (s_tr s'))) by congruence. apply app_inv_head in R.
    assert (S : lit "Scale: " ++ show (tr_scaling (s_tr s)) = lit "Scale: " ++ show (tr_scaling (s_tr s'))) by congruence. apply app_inv_head in S.
    unfold manner. rewrite A, M1, R, S. rewrite M1 in M2. rewrite M2. replace (tr_polarity (s_tr s')) with (tr_polarity (s_tr s)) by (destruct (tr_polarity (s_tr s)), (tr_polarity (s_tr s')); (reflexivity || discriminate)).
    replace (tr_mirroring (s_tr s')) with (tr_mirroring (s_tr s)) by (destruct (tr_mirroring (s_tr s)), (tr_mirroring (s_tr s')); (reflexivity || discriminate)). reflexivity.
  Qed.
End Ops.

(** ** Cases *)
Local Existing Instance NumQ.
Definition words (q : Q) : str := if Qeq_bool q 0 then lit "0.0" else if Qeq_bool q 1 then lit "1.0" else if Qeq_bool q (3#2) then lit "1.5" else lit "9.9".
Definition C91_before : list (node Q) := [fs26; NMO Metric; adc "D10" (1#2); NDnn (lit "D10"); NG G02; NG G75; NLM MirX; ND02 (Some (lit "1000000")) (Some (lit "0"))].
Definition texts_after (before : list (node Q)) (x y i j : option str) : option (list str) :=
  match state_after before with
  | Ok s => match d01_md words s x y i j with Ok t => Some (spans t) | Err _ => None end
  | Err _ => None
  end.
Example C91_operation_case :
  texts_after C91_before (Some (lit "1500000")) None (Some (lit "1000000")) None =
  Some (map lit ["1.0"; "0.0"; "1.5"; "0.0"; "1.0"; "0.0"; "Aperture: D10"; "Multi-quadrant"; "Clockwise Arc"; "Dark polarity"; "Mirroring X"; "Rotation: 0.0"; "Scale: 1.0"]%string).
Proof. vm_compute. reflexivity. Qed.
Example C91_line_case :
  texts_after [fs26; NMO Metric] None None None None =
  Some (map lit ["0.0"; "0.0"; "0.0"; "0.0"; "Aperture: None"; "Linear"; "Dark polarity"; "No Mirroring"; "Rotation: 0.0"; "Scale: 1.0"]%string).
Proof. vm_compute. reflexivity. Qed.
Print Assumptions C91_operations.
Print Assumptions C91_states.

(** Lemmas behind C14, C17 and C19, with real numbers. *)
From Coq Require Import Reals Lra.
From Verif Require Import Base Num NumReal Dict CoordModel Ast StateModel StateSpec StateProofs GeomModel CompilerModel
  CoordSpec CoordProofs LayerProofs DrawSpec DrawProofs PlaceSpec.
From Verif Require NumTextProofs.
Local Open Scope R_scope.

Ltac veq := first [reflexivity | apply f_equal2; cbn; rewrite ?r_n0, ?r_n1; cbn; lra].

Lemma translate_vec a b v : v_transform (mtranslate a b) v = plus v (MkVec a b).
Proof.
  unfold v_transform, mtranslate, plus. cbn [m00 m01 m02 m10 m11 m12 vx vy]. rewrite r_n0, r_n1. cbn.
  f_equal; lra.
Qed.
Lemma translate_cw : n_ltb n0 (n_mul (n1 : R) n1) = true.
Proof. rewrite r_n0, r_n1. cbn. apply r_ltb_lt. lra. Qed.
Lemma translate_seg a b s : seg_transform (mtranslate a b) s = move_seg (MkVec a b) s.
Proof.
  destruct s as [p q|p q c cw]; cbn [seg_transform move_seg]; rewrite !translate_vec; [reflexivity|].
  change (m00 (mtranslate a b)) with (n1 : R). change (m11 (mtranslate a b)) with (n1 : R). rewrite translate_cw. reflexivity.
Qed.
Lemma translate_draw a b d : shift_draw (mtranslate a b) d = move (MkVec a b) d.
Proof.
  destruct d as [s|p]; cbn [shift_draw move].
  - unfold shape_transform, move_shape. do 2 f_equal. apply map_ext. apply translate_seg.
  - rewrite translate_vec. reflexivity.
Qed.

(** Headers *)
Lemma sign_inv sg ds t : SignedText sg ds t -> (exists c r, ds = c :: r /\ (is_digit c = true \/ c = ch_dot)) -> take_sign t = (sg, ds).
Proof.
  intros H (c & r & E & Hc). destruct H as [ds|ds|ds]; [|reflexivity|reflexivity]. subst ds. cbn [take_sign].
  destruct (Ascii.eqb c ch_minus) eqn:E; [apply Ascii.eqb_eq in E; subst; destruct Hc; discriminate|].
  destruct (Ascii.eqb c ch_plus) eqn:E'; [apply Ascii.eqb_eq in E'; subst; destruct Hc; discriminate|]. reflexivity.
Qed.
Lemma sign_of t sg ds : take_sign t = (sg, ds) -> SignedText sg ds t.
Proof.
  destruct t as [|c r]; cbn [take_sign]; [intros H; injection H as <- <-; constructor|].
  destruct (Ascii.eqb c ch_minus) eqn:E; [apply Ascii.eqb_eq in E; subst; intros H; injection H as <- <-; constructor|].
  destruct (Ascii.eqb c ch_plus) eqn:E'; [apply Ascii.eqb_eq in E'; subst; intros H; injection H as <- <-; constructor|].
  intros H; injection H as <- <-; constructor.
Qed.
Lemma int_text_iff t z : int_text t z <-> parse_int t = Some z.
Proof.
  unfold parse_int. split.
  - intros (sg & ds & v & Hs & Hn & Hv & ->). apply spec_value_model in Hv as [Hd Hv].
    rewrite (sign_inv _ _ _ Hs) by (destruct ds as [|c r]; [contradiction|]; apply all_digits_cons in Hd as [Hc _]; eauto).
    rewrite (proj2 (all_digits_forallb ds) Hd), Hv. destruct ds; [contradiction|reflexivity].
  - destruct (take_sign t) as [sg ds] eqn:E. apply sign_of in E. destruct ds as [|c r]; [discriminate|].
    destruct (forallb is_digit (c :: r)) eqn:Ed; [|discriminate]. apply all_digits_forallb in Ed. intros H; injection H as <-.
    exists sg, (c :: r), (digits_value (c :: r)). split; [exact E|]. split; [discriminate|]. split; [apply NumTextProofs.digits_spec, Ed|reflexivity].
Qed.
Lemma split_inv s : match split_on ch_dot s with [a] => s = a | [a; b] => s = a ++ ch_dot :: b | l => l <> [] end.
Proof.
  induction s as [|x s IH]; [reflexivity|]. cbn [split_on]. destruct (Ascii.eqb x ch_dot) eqn:E.
  - apply Ascii.eqb_eq in E. subst x. destruct (split_on ch_dot s) as [|a [|b [|c l]]]; [contradiction|subst; reflexivity|discriminate|discriminate].
  - destruct (split_on ch_dot s) as [|a [|b [|c l]]]; [contradiction|subst; reflexivity|subst; reflexivity|discriminate].
Qed.
Lemma dec_text_iff t q : dec_text t q <-> parse_dec t = Some q.
Proof.
  unfold parse_dec. split.
  - intros (sg & i & f & ds & v & Hs & Hds & Hn & Hv & ->). apply spec_value_model in Hv as [Hd Hv]. pose proof Hd as Hd'. apply all_digits_app in Hd' as [Hi Hf].
    destruct Hds as [->|[-> ->]].
    + rewrite (sign_inv _ _ _ Hs) by (destruct i as [|c r]; [eexists _, _; split; [reflexivity|auto]|]; apply all_digits_cons in Hi as [Hc _]; eexists _, _; split; [reflexivity|auto]).
      change "."%char with ch_dot. rewrite split_on_one_dot by (apply all_digits_no_dot; assumption).
      destruct (i ++ f) as [|c r]; [contradiction|]. rewrite (proj2 (all_digits_forallb _) Hd), Hv. reflexivity.
    + rewrite app_nil_r in *. rewrite (sign_inv _ _ _ Hs) by (destruct i as [|c r]; [contradiction|]; apply all_digits_cons in Hi as [Hc _]; eexists _, _; split; [reflexivity|auto]).
      rewrite split_on_no_dot by (apply all_digits_no_dot; assumption). destruct i as [|c r]; [contradiction|]. rewrite (proj2 (all_digits_forallb _) Hd), Hv. reflexivity.
  - destruct (take_sign t) as [sg ds] eqn:E. apply sign_of in E. pose proof (split_inv ds) as Hs. destruct (split_on ch_dot ds) as [|i [|f [|x l]]]; try discriminate.
    + subst ds. destruct i as [|c r]; [discriminate|]. destruct (forallb is_digit (c :: r)) eqn:Ed; [|discriminate]. apply all_digits_forallb in Ed. intros H; injection H as <-.
      exists sg, (c :: r), [], (c :: r), (digits_value (c :: r)). rewrite app_nil_r. repeat split; auto; [discriminate|apply NumTextProofs.digits_spec, Ed].
    + subst ds. destruct (i ++ f) as [|c r] eqn:Ei; [discriminate|]. destruct (forallb is_digit (c :: r)) eqn:Ed; [|discriminate]. apply all_digits_forallb in Ed. intros H; injection H as <-.
      exists sg, i, f, (i ++ ch_dot :: f), (digits_value (c :: r)). rewrite Ei. repeat split; auto; [discriminate|apply NumTextProofs.digits_spec, Ed].
Qed.
Section Header.
  Context {K : Type} {NK : Num K}.
  Lemma count_ok t n : sr_count t = Ok n -> count_means t n.
  Proof.
    unfold sr_count, count_means. destruct t as [t|]; [|intros E; injection E as <-; reflexivity].
    destruct (parse_int t) as [z|] eqn:Ep; [|discriminate]. destruct (0 <? z)%Z eqn:Ez; [|discriminate].
    apply Z.ltb_lt in Ez. intros E; injection E as <-. rewrite Z2Nat.id by lia. split; [apply int_text_iff; exact Ep|lia].
  Qed.
  Lemma count_fun t n m : count_means t n -> count_means t m -> n = m.
  Proof. unfold count_means. destruct t; [|congruence]. intros [A _] [B _]. apply int_text_iff in A, B. rewrite A in B. injection B as B. lia. Qed.
  Lemma delta_ok t (k : K) : sr_delta t = Ok k -> step_means t k.
  Proof.
    unfold sr_delta, step_means. destruct t as [t|]; [|intros E; injection E as <-; reflexivity].
    destruct (parse_dec t) as [q|] eqn:Ep; [|discriminate]. intros E; injection E as <-. exists q. split; [apply dec_text_iff; exact Ep|reflexivity].
  Qed.
  Lemma delta_fun t (n m : K) : step_means t n -> step_means t m -> n = m.
  Proof. unfold step_means. destruct t; [|congruence]. intros (q & A & ->) (q' & B & ->). apply dec_text_iff in A, B. congruence. Qed.
  Lemma count_means_ok t n : count_means t n -> sr_count t = Ok n.
  Proof.
    unfold sr_count, count_means. destruct t as [t|]; [|intros ->; reflexivity]. intros [Hi Hn]. apply int_text_iff in Hi. rewrite Hi.
    destruct (0 <? Z.of_nat n)%Z eqn:E; [rewrite Nat2Z.id; reflexivity|]. apply Z.ltb_ge in E. lia.
  Qed.
  Lemma delta_means_ok t (k : K) : step_means t k -> sr_delta t = Ok k.
  Proof. unfold sr_delta, step_means. destruct t as [t|]; [|intros ->; reflexivity]. intros (q & Hq & ->). apply dec_text_iff in Hq. rewrite Hq. reflexivity. Qed.
End Header.

Lemma copies_loop (at0 : vec R) nx ny dx dy body :
  flat_map (fun ix => flat_map (fun iy =>
    map (shift_draw (mtranslate (n_add (vx at0) (n_mul (n_of_Z (Z.of_nat ix)) dx))
                                (n_add (vy at0) (n_mul (n_of_Z (Z.of_nat iy)) dy)))) body)
    (seq 0 ny)) (seq 0 nx) = copies at0 nx ny dx dy body.
Proof.
  unfold copies. generalize (seq 0 nx) as lx. generalize (seq 0 ny) as ly. intros ly lx.
  induction lx as [|ix lx IH]; [reflexivity|]. cbn [flat_map list_prod]. rewrite flat_map_app, IH. f_equal.
  clear IH. induction ly as [|iy ly IH]; [reflexivity|]. cbn [flat_map map fst snd]. rewrite IH. f_equal.
  apply map_ext. intros d. rewrite translate_draw. reflexivity.
Qed.

(** Appending is possible whenever there is a current buffer. *)
Lemma append_all_total {K} {NK : Num K} ds : forall (x : cstate K) b, current x = Some b -> exists x', append_all ds x = Ok x'.
Proof.
  induction ds as [|d r IH]; intros x b Eb; cbn [append_all]; [eauto|]. unfold append_current.
  unfold current in Eb. destruct (c_stack x) as [|id st] eqn:Es; [discriminate|]. unfold get_buffer. rewrite Eb. cbn [bind].
  eapply IH. unfold current. cbn [set_buffers c_stack c_buffers]. rewrite Es, d_get_set, str_eqb_refl. reflexivity.
Qed.

Section Repeat.
  Context (md : bool) (clock : nat -> Z).
  Notation H := (compiler_hooks (K := R) md clock).
  (** Leaving a step and repeat block: the current buffer is the block's, below it the one
      that receives the copies. *)
  Lemma sr_leave_copies pre v tmp outer st h nx ny dx dy body old :
    at_point H compiler_init pre v -> c_stack (v_ext v) = tmp :: outer :: st -> outer <> tmp ->
    header_means h nx ny dx dy ->
    drawn v = Some body ->
    (match d_get outer (c_buffers (v_ext v)) with Some b => Some (bf_cmds b) | None => None end) = Some old ->
    exists v', sr_leave H tmp h v = Done v' /\ c_stack (v_ext v') = outer :: st /\
      drawn v' = Some (old ++ copies (pen_vec pre) nx ny dx dy body).
  Proof.
    intros Hp Hst Hne (H1 & H2 & H3 & H4) Hd Ho.
    pose proof (settled_point H _ _ _ Hp) as (_ & Hat & Hsx & Hsy).
    assert (Hpen : pen_vec pre = MkVec (coordinate_x (v_state v)) (coordinate_y (v_state v))).
    { rewrite pen_vec_of. rewrite <- Hat. unfold vec_of, coordinate_x, coordinate_y. cbn [fst snd].
      f_equal; [destruct (s_x (v_state v)) eqn:E; [exact (Hsx _ eq_refl)|reflexivity]|destruct (s_y (v_state v)) eqn:E; [exact (Hsy _ eq_refl)|reflexivity]]. }
    unfold drawn, current in Hd. rewrite Hst in Hd. destruct (d_get tmp (c_buffers (v_ext v))) as [b|] eqn:Eb; [|discriminate].
    injection Hd as Hd. destruct (d_get outer (c_buffers (v_ext v))) as [bo|] eqn:Ebo; [|discriminate]. injection Ho as Ho.
    assert (Ec : current (pop (v_ext v)) = Some bo) by (unfold current, pop; cbn [c_stack c_buffers]; rewrite Hst; exact Ebo).
    destruct (append_all_total (copies (pen_vec pre) nx ny dx dy body) (pop (v_ext v)) bo Ec) as (x1 & Ea).
    assert (E : sr_close tmp h (v_state v) (v_ext v) = Ok (set_buffers (d_del tmp (c_buffers x1)) x1)).
    { unfold sr_close. cbv zeta. unfold get_buffer. change (c_buffers (pop (v_ext v))) with (c_buffers (v_ext v)). rewrite Eb. cbn [bind].
      rewrite (delta_means_ok _ _ H3), (delta_means_ok _ _ H4), (count_means_ok _ _ H1), (count_means_ok _ _ H2). cbn [bind].
      pose proof (copies_loop (MkVec (coordinate_x (v_state v)) (coordinate_y (v_state v))) nx ny dx dy (bf_cmds b)) as L. cbn [vx vy] in L. rewrite L.
      rewrite <- Hpen, Hd, Ea. reflexivity. }
    unfold sr_leave. cbn [compiler_hooks hk_sr_close]. rewrite E. cbn [lift]. eexists. split; [reflexivity|].
    apply append_all_grows in Ea as (S1 & _ & G). destruct (G bo Ec) as (b' & G1 & G2).
    unfold current in G1. rewrite S1 in G1. unfold drawn, current. cbn [with_ext v_ext set_buffers c_stack c_buffers]. rewrite S1.
    change (c_stack (pop (v_ext v))) with (tl (c_stack (v_ext v))) in *. rewrite Hst in G1 |- *. cbn [tl] in G1 |- *. split; [reflexivity|].
    rewrite d_get_del. destruct (str_eqb outer tmp) eqn:Et; [apply str_eqb_eq in Et; contradiction|].
    rewrite G1, G2, Ho. reflexivity.
  Qed.
End Repeat.

(** Copies of a body that ends at the origin are plain translations. *)
Lemma plus_0_l (t : vec R) : plus (MkVec n0 n0) t = t.
Proof. destruct t as [a b]. unfold plus. cbn [vx vy]. rewrite r_n0. cbn. f_equal; lra. Qed.

(** ** Holes *)
Lemma new_circle_disc {K} {NK : Num K} (c : vec K) d neg m : disc c (n_div d n2) (new_circle c d neg m).
Proof. reflexivity. Qed.

(** ** Translation of drawing commands *)
Lemma v_sub_plus (a b t : vec R) : v_sub (plus a t) (plus b t) = v_sub a b.
Proof. destruct a, b, t. unfold v_sub, plus. cbn. f_equal; lra. Qed.
Lemma v_add_plus (a t e : vec R) : v_add (plus a t) e = plus (v_add a e) t.
Proof. destruct a, e, t. unfold v_add, plus. cbn. f_equal; lra. Qed.
Lemma v_sub_plus_l (a t e : vec R) : v_sub (plus a t) e = plus (v_sub a e) t.
Proof. destruct a, e, t. unfold v_sub, plus. cbn. f_equal; lra. Qed.
Lemma v_eqb_plus (a b t : vec R) : v_eqb (plus a t) (plus b t) = v_eqb a b.
Proof.
  destruct a as [ax ay], b as [bx by_], t as [tx ty]. unfold v_eqb, plus. cbn.
  destruct (r_eqb ax bx) eqn:E1, (r_eqb (ax + tx) (bx + tx)) eqn:E2,
    (r_eqb ay by_) eqn:E3, (r_eqb (ay + ty) (by_ + ty)) eqn:E4; rdec; try reflexivity; exfalso; lra.
Qed.
Lemma circle_plus (c t : vec R) d neg m : new_circle (plus c t) d neg m = move_shape t (new_circle c d neg m).
Proof.
  unfold new_circle, move_shape. cbn [sh_segs sh_neg sh_meta map move_seg].
  assert (E1 : at_ (n_sub (vx (plus c t)) (n_div d n2)) (vy (plus c t)) = plus (at_ (n_sub (vx c) (n_div d n2)) (vy c)) t)
    by (unfold at_, plus; cbn; f_equal; lra).
  assert (E2 : at_ (n_add (vx (plus c t)) (n_div d n2)) (vy (plus c t)) = plus (at_ (n_add (vx c) (n_div d n2)) (vy c)) t)
    by (unfold at_, plus; cbn; f_equal; lra).
  rewrite E1, E2. reflexivity.
Qed.
Lemma line_plus (a b t : vec R) th neg m : new_line (plus a t) (plus b t) th neg m = move_shape t (new_line a b th neg m).
Proof.
  unfold new_line. rewrite v_sub_plus. cbv zeta. unfold move_shape. cbn [sh_segs sh_neg sh_meta map move_seg].
  rewrite (v_add_plus a t), (v_add_plus b t), (v_sub_plus_l a t), (v_sub_plus_l b t). reflexivity.
Qed.
Lemma cw_arc_plus (a b c t : vec R) th neg m :
  new_cw_arc (plus a t) (plus b t) (plus c t) th neg m = move_shape t (new_cw_arc a b c th neg m).
Proof.
  unfold new_cw_arc. rewrite !v_sub_plus. cbv zeta. unfold move_shape. cbn [sh_segs sh_neg sh_meta map move_seg].
  rewrite (v_add_plus a t), (v_add_plus b t), (v_sub_plus_l a t), (v_sub_plus_l b t). reflexivity.
Qed.
Lemma arc_plus cw (a b c t : vec R) th neg m :
  arc_factory cw (plus a t) (plus b t) (plus c t) th neg m = move_shape t (arc_factory cw a b c th neg m).
Proof. destruct cw; cbn [arc_factory]; [|unfold new_ccw_arc]; apply cw_arc_plus. Qed.

Section Translate.
  Context (md : bool) (t : vec R) (s s' : state R) (Ht : translated t s s').
  Lemma tr_start : start_point s' = plus (start_point s) t.
  Proof. destruct Ht as (x & y & _ & _ & ->). reflexivity. Qed.
  Lemma tr_end : end_point s' = plus (end_point s) t.
  Proof. destruct Ht as (x & y & E1 & E2 & ->). unfold end_point, coordinate_x, coordinate_y. rewrite E1, E2. reflexivity. Qed.
  Lemma tr_ij : coordinate_i s' = coordinate_i s /\ coordinate_j s' = coordinate_j s.
  Proof. destruct Ht as (x & y & _ & _ & ->). split; reflexivity. Qed.
  Lemma tr_center : arc_center s' = plus (arc_center s) t.
  Proof.
    destruct tr_ij as [Ei Ej]. destruct Ht as (x & y & _ & _ & ->). unfold arc_center.
    change (coordinate_i _) with (coordinate_i s). change (coordinate_j _) with (coordinate_j s).
    unfold plus. cbn. f_equal; lra.
  Qed.
  Lemma tr_rest : is_negative s' = is_negative s /\ s_obj_attrs s' = s_obj_attrs s /\ current_aperture s' = current_aperture s.
  Proof. destruct Ht as (x & y & _ & _ & ->). repeat split. Qed.

  (** Shapes drawn by a callback outside regions. *)
  Definition line_draws (th : R) : list (draw R) :=
    let m := meta_of md (s_obj_attrs s) in let neg := is_negative s in
    [DShape (new_circle (start_point s) th neg m); DShape (new_line (start_point s) (end_point s) th neg m);
     DShape (new_circle (end_point s) th neg m)].
  Lemma line_translate th x b : line_thickness (end_point s) s = Ok th -> line_thickness (end_point s') s' = Ok th ->
    current x = Some b -> exists ds x1 x2, draw_line md s x = Ok x1 /\ draw_line md s' x = Ok x2 /\
      grows x x1 ds /\ grows x x2 (map (move t) ds).
  Proof.
    intros T1 T2 Eb. destruct tr_rest as (R1 & R2 & _). exists (line_draws th).
    destruct (append_all_total (line_draws th) x b Eb) as (x1 & E1).
    destruct (append_all_total (map (move t) (line_draws th)) x b Eb) as (x2 & E2).
    exists x1, x2. split; [|split; [|split; apply append_all_grows; assumption]].
    - unfold draw_line. cbv zeta. rewrite T1. exact E1.
    - unfold draw_line. cbv zeta. rewrite T2. cbn [bind]. rewrite R1, R2, tr_start, tr_end, line_plus, !circle_plus. exact E2.
  Qed.
  Lemma arc_translate cw th x b : line_thickness (end_point s) s = Ok th -> line_thickness (end_point s') s' = Ok th ->
    current x = Some b -> exists ds x1 x2, draw_arc md cw s x = Ok x1 /\ draw_arc md cw s' x = Ok x2 /\
      grows x x1 ds /\ grows x x2 (map (move t) ds).
  Proof.
    intros T1 T2 Eb. destruct tr_rest as (R1 & R2 & _). destruct tr_ij as [Ei Ej]. unfold draw_arc. cbv zeta. rewrite T1, T2. cbn [bind].
    rewrite R1, R2, tr_start, tr_end, tr_center, v_eqb_plus, Ei, Ej.
    set (m := meta_of md (s_obj_attrs s)). set (neg := is_negative s). set (a := start_point s). set (e := end_point s). set (c := arc_center s).
    set (len := v_len (MkVec (coordinate_i s) (coordinate_j s))).
    assert (Hp : MkVec (n_sub (vx (plus c t)) len) (vy (plus c t)) = plus (MkVec (n_sub (vx c) len) (vy c)) t) by (unfold plus; cbn; f_equal; lra).
    assert (Hq : MkVec (n_add (vx (plus c t)) len) (vy (plus c t)) = plus (MkVec (n_add (vx c) len) (vy c)) t) by (unfold plus; cbn; f_equal; lra).
    rewrite Hp, Hq, !arc_plus, !circle_plus.
    assert (Happ : forall ds, exists x1 x2, append_all ds x = Ok x1 /\ append_all (map (move t) ds) x = Ok x2 /\ grows x x1 ds /\ grows x x2 (map (move t) ds)).
    { intros ds. destruct (append_all_total ds x b Eb) as (x1 & E1). destruct (append_all_total (map (move t) ds) x b Eb) as (x2 & E2).
      exists x1, x2. do 2 (split; [assumption|]). split; apply append_all_grows; assumption. }
    destruct (v_eqb a e).
    - destruct (Happ [DShape (new_circle a th neg m);
        DShape (arc_factory cw (MkVec (n_sub (vx c) len) (vy c)) (MkVec (n_add (vx c) len) (vy c)) c th neg m);
        DShape (arc_factory cw (MkVec (n_add (vx c) len) (vy c)) (MkVec (n_sub (vx c) len) (vy c)) c th neg m);
        DShape (new_circle (MkVec (n_add (vx c) len) (vy c)) th neg m)]) as (x1 & x2 & E1 & E2 & G1 & G2). eexists. exists x1, x2. split; [exact E1|]. split; [exact E2|]. split; [exact G1|exact G2].
    - destruct (Happ [DShape (new_circle a th neg m); DShape (arc_factory cw a e c th neg m); DShape (new_circle e th neg m)]) as (x1 & x2 & E1 & E2 & G1 & G2).
      eexists. exists x1, x2. split; [exact E1|]. split; [exact E2|]. split; [exact G1|exact G2].
  Qed.
  Lemma region_line_translate x l : c_contour x = Some l -> exists segs x1 x2,
    region_line s x = Ok x1 /\ region_line s' x = Ok x2 /\ x1 = set_contour (Some (l ++ segs)) x /\
    x2 = set_contour (Some (l ++ map (move_seg t) segs)) x.
  Proof.
    intros Ec. unfold region_line. rewrite Ec. do 3 eexists. split; [reflexivity|]. split; [reflexivity|]. split; [reflexivity|].
    rewrite tr_start, tr_end. reflexivity.
  Qed.
  Lemma region_arc_translate cw x l : c_contour x = Some l -> exists segs x1 x2,
    region_arc cw s x = Ok x1 /\ region_arc cw s' x = Ok x2 /\ x1 = set_contour (Some (l ++ segs)) x /\
    x2 = set_contour (Some (l ++ map (move_seg t) segs)) x.
  Proof.
    intros Ec. unfold region_arc. rewrite Ec. cbv zeta. do 3 eexists. split; [reflexivity|]. split; [reflexivity|]. split; [reflexivity|].
    destruct tr_ij as [Ei Ej]. rewrite tr_start, tr_end, tr_center, v_eqb_plus, Ei, Ej.
    destruct (v_eqb _ _); [|reflexivity]. cbn [map move_seg].
    assert (E : MkVec (n_add (vx (plus (arc_center s) t)) (coordinate_i s)) (n_add (vy (plus (arc_center s) t)) (coordinate_j s))
              = plus (MkVec (n_add (vx (arc_center s)) (coordinate_i s)) (n_add (vy (arc_center s)) (coordinate_j s))) t)
      by (unfold plus; cbn; f_equal; lra).
    rewrite E. reflexivity.
  Qed.
End Translate.

(** Round apertures: the thickness does not depend on the direction. *)
Lemma round_thickness {K} {NK : Num K} (s : state K) a dir dir' : current_aperture s = Ok (ApAD a) -> round_template (ad_template a) = true ->
  exists th, line_thickness dir s = Ok th /\ line_thickness dir' s = Ok th.
Proof. intros E Hr. unfold line_thickness. rewrite E. cbn [bind]. destruct (ad_template a); try discriminate; eexists; split; reflexivity. Qed.

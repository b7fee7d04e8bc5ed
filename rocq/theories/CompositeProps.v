(** C50: layers of a composite view. *)
From Verif Require Import Base Num CompositeModel CompositeSpec CompositeProofs.
From Coq Require Import Qabs Lqa.
Local Open Scope Q_scope.

(** Full statement: for any files, every sub-image lies inside the composite and points of the
    board coincide up to truncation.  Proved for metric files: the composite exists, sub-images
    stick out by at most one pixel, and by none unless they extend on both sides of zero; a
    point of the board is shown less than two columns and three rows beside its exact place.
    Refuted without files, for inches and for mixed units below. *)
Theorem C50_metric_partial subs d :
  subs <> [] -> (0 < d)%Z ->
  (forall i, In i subs -> i = rendered (si_space i) /\ proper (si_space i) /\
     sp_inch (si_space i) = false /\ sp_dpmm (si_space i) = d) ->
  exists c X0 Y0, composite subs = Ok c /\ length (co_places c) = length subs /\
  forall i p, In (i, p) (combine subs (co_places c)) ->
    let s := si_space i in
    (0 <= fst p /\ fst p + si_width i <= co_width c + 1)%Z /\
    (~ (sp_min_x s < 0 /\ 0 < sp_max_x s) -> (fst p + si_width i <= co_width c)%Z) /\
    (0 <= snd p /\ snd p + si_height i <= co_height c + 1)%Z /\
    (~ (sp_min_y s < 0 /\ 0 < sp_max_y s) -> (snd p + si_height i <= co_height c)%Z) /\
    forall x y, covers i x y ->
      off_by 2 1 (fst (shown_at i p x y)) (x * inject_Z d - inject_Z X0) /\
      off_by 3 1 (snd (shown_at i p x y)) (inject_Z Y0 - y * inject_Z d).
Proof.
  intros Hne Hd Hall. destruct subs as [|i0 rest]; [congruence|]. clear Hne.
  set (subs := i0 :: rest) in *.
  pose (kMx := fun i => sp_max_x (si_space i)). pose (kMy := fun i => sp_max_y (si_space i)).
  pose (kmx := fun i => sp_min_x (si_space i)). pose (kmy := fun i => sp_min_y (si_space i)).
  destruct (arg_max_spec kMx rest i0) as [IMx HMx]. destruct (arg_max_spec kMy rest i0) as [IMy HMy].
  destruct (arg_min_spec kmx rest i0) as [Imx Hmx]. destruct (arg_min_spec kmy rest i0) as [Imy Hmy].
  set (iMx := arg_max kMx i0 rest) in *. set (iMy := arg_max kMy i0 rest) in *.
  set (imx := arg_min kmx i0 rest) in *. set (imy := arg_min kmy i0 rest) in *.
  set (D := inject_Z d).
  assert (HD : 0 < D). { unfold D. change 0 with (inject_Z 0). rewrite <- Zlt_Qlt. exact Hd. }
  assert (Px : forall i, In i subs -> min_x_pixels (si_space i) = q_trunc (kmx i * D)
     /\ max_x_pixels (si_space i) = q_trunc (kMx i * D) /\ min_y_pixels (si_space i) = q_trunc (kmy i * D)
     /\ max_y_pixels (si_space i) = q_trunc (kMy i * D)).
  { intros i Hi. destruct (Hall i Hi) as (_ & _ & U & Ed).
    unfold min_x_pixels, max_x_pixels, min_y_pixels, max_y_pixels, min_x_mm, max_x_mm, min_y_mm, max_y_mm, to_mm.
    rewrite U, Ed. repeat split; reflexivity. }
  assert (Hmul : forall a b, a <= b -> a * D <= b * D).
  { intros a b H. apply Qmult_le_compat_r; lra. }
  destruct (Px _ IMx) as (_ & EMx & _ & _). destruct (Px _ IMy) as (_ & _ & _ & EMy).
  destruct (Px _ Imx) as (Emx & _ & _ & _). destruct (Px _ Imy) as (_ & _ & Emy & _).
  pose (X0 := q_trunc (kmx imx * D)). pose (Y0 := q_trunc (kMy iMy * D)).
  pose (w := (max_x_pixels (si_space iMx) - min_x_pixels (si_space imx))%Z).
  pose (h := (max_y_pixels (si_space iMy) - min_y_pixels (si_space imy))%Z).
  assert (Ends : forall i, In i subs ->
    (q_trunc (kmx imx * D) <= q_trunc (kmx i * D) /\ q_trunc (kMx i * D) <= q_trunc (kMx iMx * D) /\
     q_trunc (kmy imy * D) <= q_trunc (kmy i * D) /\ q_trunc (kMy i * D) <= q_trunc (kMy iMy * D) /\
     q_trunc (kmx i * D) <= q_trunc (kMx i * D) /\ q_trunc (kmy i * D) <= q_trunc (kMy i * D))%Z).
  { intros i Hi. destruct (Hall i Hi) as (_ & [P1 P2] & _). repeat split; apply q_trunc_mono, Hmul.
    - apply (Hmx i Hi). - apply (HMx i Hi). - apply (Hmy i Hi). - apply (HMy i Hi). - exact P1. - exact P2. }
  assert (Hw : (0 <= w /\ 0 <= h)%Z).
  { destruct (Ends i0 (or_introl eq_refl)) as (A & B & C & E & F & G). unfold w, h. rewrite EMx, EMy, Emx, Emy. lia. }
  exists (MkComposite w h (map (fun i => (Z.abs (min_x_pixels (si_space imx) - min_x_pixels (si_space i)),
                        Z.abs (max_y_pixels (si_space iMy) - max_y_pixels (si_space i)))%Z) subs)), X0, Y0.
  split; [|split; [cbn [co_places]; apply map_length|]].
  { change (composite (i0 :: rest) = Ok (MkComposite w h
      (map (fun i => (Z.abs (min_x_pixels (si_space imx) - min_x_pixels (si_space i)),
                      Z.abs (max_y_pixels (si_space iMy) - max_y_pixels (si_space i)))%Z) (i0 :: rest)))).
    unfold composite. fold kMx kMy kmx kmy. fold iMx iMy imx imy. fold w h.
    destruct (Z.ltb_spec w 0); [lia|]. destruct (Z.ltb_spec h 0); [lia|]. reflexivity. }
  intros i p Hin s. cbn [co_places co_width co_height] in *.
  assert (Hi : In i subs) by (eapply in_combine_l; exact Hin).
  assert (Ep : p = (q_trunc (kmx i * D) - X0, Y0 - q_trunc (kMy i * D))%Z).
  { destruct (Px i Hi) as (E1 & E2 & E3 & E4). destruct (Ends i Hi) as (A & B & C & E & F & G).
    assert (X : forall (f : sub_image -> Z * Z) l a b, In (a, b) (combine l (map f l)) -> b = f a).
    { clear. intros f l. induction l as [|y l IH]; cbn; intros a b H; [contradiction|].
      destruct H as [[= <- <-]|H]; [reflexivity|auto]. }
    apply X in Hin. rewrite Hin, E1, E4, Emx, EMy. f_equal; unfold X0, Y0; lia. }
  destruct (Hall i Hi) as (Er & P & U & Ed). destruct (Ends i Hi) as (A & B & C & E & F & G).
  assert (Hkx : kmx i <= kMx i) by apply P. assert (Hky : kmy i <= kMy i) by apply P.
  assert (EW : si_width i = q_trunc (kMx i * D - kmx i * D)).
  { transitivity (si_width (rendered (si_space i))); [f_equal; exact Er|]. cbn [rendered si_width]. unfold to_pixel. rewrite Ed. apply q_trunc_comp.
    rewrite width_eq by apply P. unfold kMx, kmx, D. ring. }
  assert (EH : si_height i = q_trunc (kMy i * D - kmy i * D)).
  { transitivity (si_height (rendered (si_space i))); [f_equal; exact Er|]. cbn [rendered si_height]. unfold to_pixel. rewrite Ed. apply q_trunc_comp.
    rewrite width_eq by apply P. unfold kMy, kmy, D. ring. }
  assert (Hsx := Hmul _ _ Hkx). assert (Hsy := Hmul _ _ Hky).
  rewrite Ep. cbn [fst snd]. unfold w, h. rewrite EMx, EMy, Emx, Emy, EW, EH.
  fold X0 in A. fold Y0 in E. fold X0 Y0.
  pose proof (size_le _ _ Hsx) as Lx. pose proof (size_le _ _ Hsy) as Ly.
  split; [lia|]. split; [|split; [lia|split]].
  { intros N. assert (S : 0 <= kmx i * D \/ kMx i * D <= 0).
    { destruct (Qlt_le_dec (sp_min_x s) 0) as [Q1|Q1].
      - destruct (Qlt_le_dec 0 (sp_max_x s)) as [Q2|Q2]; [exfalso; apply N; split; assumption|].
        right. assert (T := Hmul _ _ Q2). unfold kMx. fold s. lra.
      - left. assert (T := Hmul _ _ Q1). unfold kmx. fold s. lra. }
    pose proof (size_le_exact _ _ Hsx S). lia. }
  { intros N. assert (S : 0 <= kmy i * D \/ kMy i * D <= 0).
    { destruct (Qlt_le_dec (sp_min_y s) 0) as [Q1|Q1].
      - destruct (Qlt_le_dec 0 (sp_max_y s)) as [Q2|Q2]; [exfalso; apply N; split; assumption|].
        right. assert (T := Hmul _ _ Q2). unfold kMy. fold s. lra.
      - left. assert (T := Hmul _ _ Q1). unfold kmy. fold s. lra. }
    pose proof (size_le_exact _ _ Hsy S). lia. }
  intros x y [Cx Cy]. unfold in_file_units in Cx, Cy. rewrite U in Cx, Cy.
  unfold shown_at, in_file_units. rewrite U. cbn [fst snd]. unfold pixel_x, pixel_y, to_pixel. rewrite Ed. fold D.
  assert (E1 : q_trunc ((x - x_offset (si_space i)) * D) = q_trunc (x * D - kmx i * D)).
  { apply q_trunc_comp. rewrite x_offset_eq by exact P. unfold kmx. ring. }
  assert (E2 : q_trunc ((y - y_offset (si_space i)) * D) = q_trunc (y * D - kmy i * D)).
  { apply q_trunc_comp. rewrite y_offset_eq by exact P. unfold kmy. ring. }
  rewrite E1, E2, EH. clear E1 E2.
  assert (T1 : kmx i * D <= x * D) by (apply Hmul; apply Cx).
  assert (T2 : kmy i * D <= y * D) by (apply Hmul; apply Cy).
  destruct (q_trunc_bound_pos (x * D - kmx i * D)) as (B1 & B2 & _); [lra|].
  destruct (q_trunc_bound_pos (y * D - kmy i * D)) as (B3 & B4 & _); [lra|].
  destruct (q_trunc_bound_pos (kMy i * D - kmy i * D)) as (B5 & B6 & _); [lra|].
  destruct (q_trunc_bound (kmx i * D)) as (B7 & B8).
  destruct (q_trunc_bound (kMy i * D)) as (B9 & B10).
  unfold off_by, Z.sub.
  rewrite !inject_Z_plus, !inject_Z_opp. change (inject_Z 1) with 1.
  repeat split; lra.
Qed.

(** Two metric layers show a point both cover within two columns and three rows of each other. *)
Theorem C50_metric_aligned subs d c i j p q x y :
  (0 < d)%Z ->
  (forall i, In i subs -> i = rendered (si_space i) /\ proper (si_space i) /\
     sp_inch (si_space i) = false /\ sp_dpmm (si_space i) = d) ->
  composite subs = Ok c ->
  In (i, p) (combine subs (co_places c)) -> In (j, q) (combine subs (co_places c)) ->
  covers i x y -> covers j x y ->
  (Z.abs (fst (shown_at i p x y) - fst (shown_at j q x y)) <= 2 /\
   Z.abs (snd (shown_at i p x y) - snd (shown_at j q x y)) <= 3)%Z.
Proof.
  intros Hd Hall Hc Hi Hj Ci Cj.
  assert (Hne : subs <> []). { intros ->. destruct Hi. }
  destruct (C50_metric_partial subs d Hne Hd Hall) as (c' & X0 & Y0 & Hc' & _ & H).
  rewrite Hc in Hc'. injection Hc' as <-.
  destruct (H i p Hi) as (_ & _ & _ & _ & Ai). destruct (H j q Hj) as (_ & _ & _ & _ & Aj).
  destruct (Ai x y Ci) as [[A1 A2] [A3 A4]]. destruct (Aj x y Cj) as [[B1 B2] [B3 B4]].
  assert (Z3 : forall a b, inject_Z a < inject_Z b + 3 -> (a <= b + 2)%Z).
  { intros a b X. change 3 with (inject_Z 3) in X. rewrite <- inject_Z_plus, <- Zlt_Qlt in X. lia. }
  assert (Z4 : forall a b, inject_Z a < inject_Z b + 4 -> (a <= b + 3)%Z).
  { intros a b X. change 4 with (inject_Z 4) in X. rewrite <- inject_Z_plus, <- Zlt_Qlt in X. lia. }
  split.
  - assert (fst (shown_at i p x y) <= fst (shown_at j q x y) + 2)%Z by (apply Z3; lra).
    assert (fst (shown_at j q x y) <= fst (shown_at i p x y) + 2)%Z by (apply Z3; lra). lia.
  - assert (snd (shown_at i p x y) <= snd (shown_at j q x y) + 3)%Z by (apply Z4; lra).
    assert (snd (shown_at j q x y) <= snd (shown_at i p x y) + 3)%Z by (apply Z4; lra). lia.
Qed.

(** One pixel does stick out, and is cut off: a box from -0.5 to 0.9 at one pixel per millimetre. *)
Theorem C50_inside_refuted :
  ~ (forall subs c d, (0 < d)%Z ->
       (forall i, In i subs -> i = rendered (si_space i) /\ proper (si_space i) /\
          sp_inch (si_space i) = false /\ sp_dpmm (si_space i) = d) ->
       composite subs = Ok c ->
       forall i p, In (i, p) (combine subs (co_places c)) -> (fst p + si_width i <= co_width c)%Z).
Proof.
  intros H.
  specialize (H [rendered (MkISpace false (-5 # 10) 0 (9 # 10) 1 1)] (MkComposite 0 1 [(0, 0)]%Z) 1%Z).
  assert (X : (0 + 1 <= 0)%Z).
  { apply (H ltac:(lia)) with (i := rendered (MkISpace false (-5 # 10) 0 (9 # 10) 1 1)) (p := (0, 0)%Z).
    - intros i [<-|[]]. repeat split; discriminate.
    - reflexivity.
    - left. reflexivity. }
  lia.
Qed.

(** Without files there is no composite (a job file without bottom layers has such a view). *)
Theorem C50_no_files_refuted : ~ (forall subs, exists c, composite subs = Ok c).
Proof. intros H. destruct (H []) as [c E]. discriminate E. Qed.

(** A metric and an imperial file side by side: the size is negative. *)
Theorem C50_mixed_units_refuted :
  ~ (forall subs d, subs <> [] -> (0 < d)%Z ->
       (forall i, In i subs -> i = rendered (si_space i) /\ proper (si_space i) /\ sp_dpmm (si_space i) = d) ->
       exists c, composite subs = Ok c).
Proof.
  intros H. destruct (H [rendered (MkISpace false 10 10 20 20 20); rendered (MkISpace true 1 1 2 2 20)] 20%Z)
    as [c E]; [discriminate|lia| |].
  - intros i [<-|[<-|[]]]; repeat split; discriminate.
  - vm_compute in E. discriminate E.
Qed.

(** Two imperial files: the corner of the second is shown 488 pixels beside where the first
    shows it, as images are drawn at [dpmm] pixels per inch but placed in millimetres. *)
Theorem C50_inches_refuted :
  ~ (forall subs c i j p q x y, 
       (forall i, In i subs -> i = rendered (si_space i) /\ proper (si_space i) /\
          sp_inch (si_space i) = true /\ sp_dpmm (si_space i) = 20%Z) ->
       composite subs = Ok c ->
       In (i, p) (combine subs (co_places c)) -> In (j, q) (combine subs (co_places c)) ->
       covers i x y -> covers j x y ->
       (Z.abs (fst (shown_at i p x y) - fst (shown_at j q x y)) <= 487)%Z).
Proof.
  intros H.
  pose (a := rendered (MkISpace true 0 0 2 2 20)). pose (b := rendered (MkISpace true 1 0 2 2 20)).
  specialize (H [a; b] (MkComposite 1016 1016 [(0, 0); (508, 0)]%Z) a b (0, 0)%Z (508, 0)%Z (254 # 10) (254 # 10)).
  assert (X : (Z.abs (fst (shown_at a (0, 0)%Z (254 # 10) (254 # 10)) - fst (shown_at b (508, 0)%Z (254 # 10) (254 # 10))) <= 487)%Z).
  { apply H.
    - intros i [<-|[<-|[]]]; repeat split; discriminate.
    - reflexivity.
    - left. reflexivity.
    - right. left. reflexivity.
    - unfold covers, a, in_file_units; cbn. repeat split; discriminate.
    - unfold covers, b, in_file_units; cbn. repeat split; discriminate. }
  vm_compute in X. apply X. reflexivity.
Qed.

Print Assumptions C50_metric_partial.
Print Assumptions C50_metric_aligned.
Print Assumptions C50_inside_refuted.
Print Assumptions C50_no_files_refuted.
Print Assumptions C50_mixed_units_refuted.
Print Assumptions C50_inches_refuted.

(** Two metric layers, one with negative coordinates. *)
Example composite_example :
  let a := rendered (MkISpace false 0 0 10 5 20) in
  let b := rendered (MkISpace false (-21 # 10) 1 (31 # 10) 7 20) in
  composite [a; b] = Ok (MkComposite 242 140 [(42, 40); (0, 0)]%Z)
  /\ shown_at a (42, 40)%Z 2 3 = (82, 79)%Z /\ shown_at b (0, 0)%Z 2 3 = (82, 79)%Z.
Proof. vm_compute. repeat split; reflexivity. Qed.

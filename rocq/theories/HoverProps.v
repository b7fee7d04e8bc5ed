(** * C67: what a hover over a command shows
    The state shown is the one the commands before it lead to, the points shown are the ends of
    the stroke, and the illustration draws what the command draws in its file. *)
From Verif Require Import Base Num Dict CoordModel CoordSpec CoordProofs Ast StateModel StateSpec StateProofs GeomModel ExprModel
  CompilerModel LayerSpec LayerProofs LayerProps DrawSpec DrawProofs DrawProps HoverModel HoverSpec HoverProofs.
From Coq Require Import Qabs.
Open Scope Z_scope.

Section Theorems.
  Context {K : Type} {NK : Num K}.

  (** The state shown for a top level command is the one after the commands before it; it is
      also the one the compiler has when it gets there. *)
  Theorem C67_state :
    forall (pre post : list (placed K)) (p : placed K),
      in_order 0 (pre ++ p :: post) ->
      hover_state (pre ++ p :: post) (pl_loc p) = state_after (map pl_node pre) /\
      forall md clock v, on_file (compiler_hooks md clock) false (map pl_node pre) (visitor_init compiler_init) = Ok v ->
        hover_state (pre ++ p :: post) (pl_loc p) = Ok (v_state v).
  Proof.
    intros pre post p Ho.
    assert (Hl : 0 < pl_len p).
    { clear - Ho. revert Ho. generalize 0 at 1. induction pre as [|a pre IH]; cbn [app in_order]; intros z (_ & H & Hr); [exact H|eauto]. }
    assert (E : hover_state (pre ++ p :: post) (pl_loc p) = state_after (map pl_node pre)).
    { unfold hover_state, state_after. rewrite (proj1 (limited_prefix (pl_loc p) pre 0 p post (visitor_init tt) Ho ltac:(lia))). reflexivity. }
    split; [exact E|]. intros md clock v Ev. rewrite E. exact (state_of_run _ _ _ _ Ev).
  Qed.

  (** "Starts at" and "Ends at": where the pen is before and after the command.  Nothing is
      shown as the end point when there is no format. *)
  Theorem C67_points :
    forall (pre : list (node K)) s x y i j s1,
      state_after pre = Ok s -> read_coords x y i j s = Ok s1 ->
      shown_start s = pen_at (pen_of (executed_file false pre)) /\
      (s_cf s <> None -> shown_end s x y = Ok (Some (pen_at (pen_of (executed_file false pre ++ [ND01 x y i j]))))) /\
      (s_cf s = None -> shown_end s x y = Ok None).
  Proof.
    intros pre s x y i j s1 Hs Hr. unfold state_after in Hs. destruct (on_file no_hooks false pre _) as [v|] eqn:Ev; [|discriminate].
    cbn [bind] in Hs. injection Hs as <-. pose proof (point_file _ _ false pre [] _ _ (pt_start _ _) Ev) as Hp. cbn [app] in Hp.
    pose proof (settled_point _ _ _ _ Hp) as (Sf & Sa & _). split; [exact Sa|].
    unfold shown_end, shown_xy, pen_of. rewrite fold_left_app. cbn [fold_left pen_step pen_at]. fold (pen_of (executed_file false pre)).
    rewrite <- Sa, <- Sf. cbn [fst snd]. apply read_coords_inv in Hr as (x' & y' & i' & j' & Hx & Hy & _).
    split; [|intros ->; reflexivity]. destruct (s_cf (v_state v)) as [f|] eqn:Ef; [|congruence]. intros _.
    unfold shown_axis, read_opt, axis_value, read_coord in *. rewrite Ef in *.
    destruct x as [tx|]; [destruct (unpack _ _ _ tx); [|discriminate]|]; cbn [bind];
    (destruct y as [ty|]; [destruct (unpack _ _ _ ty); [|discriminate]|]; reflexivity).
  Qed.

  (** "Arc center at": the offset of the command, where left out offsets are zero; it is shown
      for arcs only. *)
  Theorem C67_offset :
    forall (pre : list (node K)) s x y i j s1,
      state_after pre = Ok s -> read_coords x y i j s = Ok s1 -> s_cf s <> None ->
      let o := own_offset (pen_fmt (pen_of (executed_file false pre))) i j in
      shown_center s i j = Ok (match s_plot s with PmLinear => None | _ => Some (vx o, vy o) end).
  Proof.
    intros pre s x y i j s1 Hs Hr. unfold state_after in Hs. destruct (on_file no_hooks false pre _) as [v|] eqn:Ev; [|discriminate].
    cbn [bind] in Hs. injection Hs as <-. pose proof (point_file _ _ false pre [] _ _ (pt_start _ _) Ev) as Hp. cbn [app] in Hp.
    pose proof (settled_point _ _ _ _ Hp) as (Sf & Sa & _). intros Hf o. unfold o.
    unfold shown_center, own_offset. rewrite <- Sf. cbn [vx vy]. apply read_coords_inv in Hr as (x' & y' & i' & j' & _ & _ & Hi & Hj & _).
    assert (G : shown_xy (v_state v) i j n0 n0 = Ok (Some (axis_value (s_cf (v_state v)) true i n0, axis_value (s_cf (v_state v)) false j n0))).
    { unfold shown_xy. destruct (s_cf (v_state v)) as [f|] eqn:Ef; [|congruence].
      unfold shown_axis, read_opt, axis_value, read_coord in *. rewrite Ef in *.
      destruct i as [tx|]; [destruct (unpack _ _ _ tx); [|discriminate]|]; cbn [bind];
      (destruct j as [ty|]; [destruct (unpack _ _ _ ty); [|discriminate]|]; reflexivity). }
    rewrite G. destruct (s_plot (v_state v)); reflexivity.
  Qed.

  (** The illustration of a D01 or D03 draws exactly what the command adds to its file.  Full
      statement ([ok] always true) in view; refuted below. *)
  Definition C67_statement (to_Q : K -> Q) (ok : state K -> node K -> Prop) : Prop :=
    forall clock (pre : list (node K)) n v v2 P w,
      let H := compiler_hooks false clock in
      match n with ND01 _ _ _ _ | ND03 _ _ => True | _ => False end ->
      pen_on_grid to_Q (v_state v) ->
      (forall a, d_get (ad_id a) (s_apertures (v_state v)) = Some a -> ad_id a <> main_id) -> drawn v <> None ->
      on_file H false pre (visitor_init compiler_init) = Ok v -> visit H n v = Done v2 ->
      preview to_Q (v_state v) [n] = Ok P -> on_file H false P (visitor_init compiler_init) = Ok w ->
      ok (v_state v) n ->
      exists ds, adds v v2 ds /\ drawn w = Some ds.
  (** Dark, outside regions, not a counterclockwise arc, both offsets given for arcs, and an
      aperture defined by AD selected. *)
  Definition plain (s : state K) (n : node K) : Prop :=
    is_negative s = false /\
    (exists id a, s_apid s = Some id /\ d_get id (s_apertures s) = Some a) /\
    match n with
    | ND01 _ _ i j => s_region s = false /\ s_plot s <> PmCcwArc /\ (s_plot s = PmLinear \/ i <> None /\ j <> None)
    | _ => True
    end.
  Theorem C67_preview_partial : forall to_Q, reads_values (K := K) -> C67_statement to_Q plain.
  Proof.
    intros to_Q Hv clock pre n v v2 P w H Hn Hg Hm Hd Ev E2 HP Ew (Hneg & Hap & Hok).
    pose proof (point_file _ _ false pre [] _ _ (pt_start _ _) Ev) as Hp. cbn [app] in Hp.
    assert (Hk0 : keyed (c_buffers (v_ext (visitor_init (K := K) (compiler_init (K := K)))))).
    { intros k b E. cbn in E. destruct (str_eqb k _) eqn:E1; [|discriminate]. injection E as <-. apply str_eqb_eq in E1. symmetry. exact E1. }
    pose proof (keyed_file false clock false pre _ _ Hk0 Ev) as Hk.
    destruct (run_base to_Q false clock (v_state v) [n] P w Hv Hg (tidy_point _ _ _ _ Hp) Hm HP Ew) as (vp & Hr & Hkp & E).
    cbn [on_file] in E. fold H in E. destruct (visit H n vp) as [w'|w'|e] eqn:En; [| |discriminate]; injection E as ->.
    - destruct n; try contradiction.
      + destruct Hok as (H1 & H2 & H3). exact (d01_same clock _ _ _ _ _ _ _ _ _ Hp Hr Hd H1 Hneg H2 H3 Hap E2 En).
      + exact (d03_same clock _ _ _ _ _ _ _ Hp Hr Hd Hneg Hk Hkp Hap E2 En).
    - exfalso. destruct n; try contradiction; rewrite visit_is_leaf in En by exact I; cbn [visit_leaf] in En.
      + unfold on_d01, on_coords in En. destruct (read_coords _ _ _ _ _); [|discriminate]. unfold lift in En.
        destruct (hk_draw _ _ _ _); discriminate En.
      + unfold on_d03, on_coords in En. destruct (read_coords _ _ _ _ _); [|discriminate].
        destruct (current_aperture _); [|discriminate]. destruct (v_d03 _); [|discriminate]. unfold lift in En.
        destruct (hk_flash _ _ _ _ _); discriminate En.
  Qed.
End Theorems.

(** *** Cases *)
Local Existing Instance NumQ.
Local Open Scope Q_scope.
Lemma q_reads : reads_values (K := Q).
Proof. intros q q' E. apply Qred_complete. exact E. Qed.

(** Compile a file and one more command, and the illustration of that command. *)
Definition compared (pre : list (node Q)) (n : node Q) : option (option (list (draw Q)) * option (list (draw Q)) * option (list (draw Q))) :=
  match run pre with
  | Ok v => match visit (compiler_hooks false running) n v, preview (fun x => x) (v_state v) [n] with
            | Done v2, Ok P => match run P with Ok w => Some (drawn v, drawn v2, drawn w) | Err _ => None end
            | _, _ => None
            end
  | Err _ => None
  end.
Definition check_grid (i d : nat) (x : Q) : bool :=
  let n := Qred (x * inject_Z (10 ^ Z.of_nat d)) in
  Z.eqb (Zpos (Qden n)) 1 && Z.ltb (Z.abs (Qnum n)) (10 ^ Z.of_nat (i + d)) &&
  match Qred x with Qmake a b => Z.eqb a (Qnum x) && Pos.eqb b (Qden x) end.
Lemma grid_by i d x : check_grid i d x = true -> grid_number (fun x => x) i d x.
Proof.
  unfold check_grid. set (n := Qred _). intros E. apply andb_prop in E as [E E3]. apply andb_prop in E as [E1 E2].
  apply Z.eqb_eq in E1. apply Z.ltb_lt in E2. pose proof (pow10_pos d) as Hp.
  assert (HP : ~ inject_Z (10 ^ Z.of_nat d) == 0) by (unfold Qeq; cbn [inject_Z Qnum Qden]; lia).
  assert (En : inject_Z (Qnum n) == x * inject_Z (10 ^ Z.of_nat d)).
  { rewrite <- (Qred_correct (x * _)). fold n. unfold Qeq, inject_Z. cbn [Qnum Qden]. lia. }
  assert (Ex : inject_Z (Qnum n) / inject_Z (10 ^ Z.of_nat d) == x) by (rewrite En; field; exact HP).
  exists (Qnum n). split; [exact E2|]. split.
  - cbn [n_of_Q NumQ]. rewrite (Qred_complete _ _ Ex). destruct (Qred x) as [a b], x as [a' b']. cbn [Qnum Qden] in E3.
    apply andb_prop in E3 as [E3 E4]. apply Z.eqb_eq in E3. apply Pos.eqb_eq in E4. congruence.
  - rewrite Ex. setoid_replace (x - x) with 0 by ring. reflexivity.
Qed.
(** The assumptions other than [ok]. *)
Definition regular (pre : list (node Q)) : bool :=
  match run pre with
  | Ok v => match s_cf (v_state v) with
            | Some f => (1 <=? cf_xi f)%nat && (1 <=? cf_xd f)%nat && (1 <=? cf_yi f)%nat && (1 <=? cf_yd f)%nat &&
                        check_grid (cf_xi f) (cf_xd f) (s_cur_x (v_state v)) && check_grid (cf_yi f) (cf_yd f) (s_cur_y (v_state v)) &&
                        forallb (fun a => negb (str_eqb (fst a) main_id)) (s_apertures (v_state v))
            | None => false
            end
  | Err _ => false
  end.
Lemma regular_ok pre v : regular pre = true -> run pre = Ok v ->
  pen_on_grid (fun x => x) (v_state v) /\ forall a, d_get (ad_id a) (s_apertures (v_state v)) = Some a -> ad_id a <> main_id.
Proof.
  unfold regular. intros R E. rewrite E in R. destruct (s_cf (v_state v)) as [f|] eqn:Ef; [|discriminate].
  repeat (apply andb_prop in R as [R ?]). repeat match goal with H : (_ <=? _)%nat = true |- _ => apply Nat.leb_le in H end. split.
  - intros f' Ef'. rewrite Ef in Ef'. injection Ef' as <-. repeat split; try assumption; apply grid_by; assumption.
  - intros a Ha Hm. rewrite Hm in Ha. rewrite forallb_forall in H. clear - H Ha. induction (s_apertures (v_state v)) as [|[k b] d IH]; [discriminate|].
    cbn [d_get] in Ha. destruct (str_eqb main_id k) eqn:E; [|apply IH; [intros; apply H; right; assumption|exact Ha]].
    apply str_eqb_eq in E. subst k. specialize (H (main_id, b) (or_introl eq_refl)). cbn [fst] in H. rewrite str_eqb_refl in H. discriminate.
Qed.
Definition mirrored : list (node Q) := [fs26; NMO Metric; adc "D10" (1#2); adc "D11" (1#4); NDnn (lit "D11"); NG G75; go "1500000" "-2500000"; NLM MirX; NLS 2].

(** A stroke, a clockwise arc and a flash, after two apertures have been defined. *)
Example C67_preview_case :
  (forall n, In n [to U "0"; ND03 None (Some (lit U))] -> exists old ds, compared mirrored n = Some (Some old, Some (old ++ ds), Some ds) /\ ds <> []) /\
  (exists old ds, compared (mirrored ++ [NG G02]) (arc U "0" U "0") = Some (Some old, Some (old ++ ds), Some ds) /\ ds <> []) /\
  regular mirrored = true /\ regular (mirrored ++ [NG G02]) = true.
Proof.
  split; [|split; [|split; reflexivity]].
  - intros n [<-|[<-|[]]]; exists []; eexists; (split; [vm_compute; reflexivity|discriminate]).
  - exists []; eexists; (split; [vm_compute; reflexivity|discriminate]).
Qed.

Lemma differs ok pre n old new pic : regular pre = true -> compared pre n = Some (Some old, Some new, Some pic) -> new <> old ++ pic ->
  match n with ND01 _ _ _ _ | ND03 _ _ => True | _ => False end ->
  match run pre with Ok v => ok (v_state v) n | Err _ => False end -> ~ C67_statement (fun x => x) ok.
Proof.
  intros R C D Hn Hok S. unfold compared in C. destruct (run pre) as [v|] eqn:Ev; [|discriminate].
  destruct (visit _ n v) as [v2| |] eqn:E2; try discriminate. destruct (preview _ _ _) as [P|] eqn:EP; [|discriminate].
  destruct (run P) as [w|] eqn:Ew; [|discriminate]. injection C as D1 D2 D3. destruct (regular_ok pre v R Ev) as (G & M).
  destruct (S running pre n v v2 P w Hn G M ltac:(congruence) Ev E2 EP Ew Hok) as (ds & (old' & A1 & A2) & A3). congruence.
Qed.

(** A counterclockwise arc is illustrated by a clockwise one. *)
Theorem C67_ccw_refuted :
  ~ C67_statement (fun x : Q => x) (fun s n => is_negative s = false /\ s_region s = false /\
      (exists id a, s_apid s = Some id /\ d_get id (s_apertures s) = Some a) /\
      match n with ND01 _ _ i j => i <> None /\ j <> None | _ => True end).
Proof.
  eapply (differs _ (mirrored ++ [NG G03]) (arc U "0" U "0")); [reflexivity|vm_compute; reflexivity|vm_compute; discriminate|exact I|].
  vm_compute. repeat split; try discriminate. eexists _, _. split; reflexivity.
Qed.
(** A flash with clear polarity is illustrated by a dark one. *)
Theorem C67_polarity_refuted :
  ~ C67_statement (fun x : Q => x) (fun s n => s_region s = false /\ s_plot s = PmLinear /\
      exists id a, s_apid s = Some id /\ d_get id (s_apertures s) = Some a).
Proof.
  eapply (differs _ (mirrored ++ [NLP Clear]) (ND03 None None)); [reflexivity|vm_compute; reflexivity|vm_compute; discriminate|exact I|].
  vm_compute. repeat split. eexists _, _. split; reflexivity.
Qed.
(** With a block aperture selected there is no picture: the illustration does not define it. *)
Definition with_block : list (node Q) := [fs26; adc "D10" (1#2); NAB (lit "D20") [NDnn (lit "D10"); ND03 (Some (lit "0")) (Some (lit "0"))]; NDnn (lit "D20")].
Definition no_picture (pre : list (node Q)) (n : node Q) : bool :=
  match run pre with
  | Ok v => match visit (compiler_hooks false running) n v, preview (fun x => x) (v_state v) [n] with
            | Done _, Ok P => match run P with Ok _ => false | Err _ => true end
            | _, _ => false
            end
  | Err _ => false
  end.
Theorem C67_block_aperture_refuted :
  ~ forall (pre : list (node Q)) n v v2 P, run pre = Ok v -> visit (compiler_hooks false running) n v = Done v2 ->
      preview (fun x => x) (v_state v) [n] = Ok P -> exists w, run P = Ok w.
Proof.
  intros S. assert (N : no_picture with_block (ND03 None None) = true) by (vm_compute; reflexivity). unfold no_picture in N.
  destruct (run with_block) as [v|] eqn:Ev; [|discriminate]. destruct (visit _ _ v) as [v2| |] eqn:E2; try discriminate.
  destruct (preview _ _ _) as [P|] eqn:EP; [|discriminate]. destruct (S _ _ _ _ _ Ev E2 EP) as (w & Ew). rewrite Ew in N. discriminate.
Qed.

(** Inside a block: the state before the block is shown, not the one before the command. *)
Theorem C67_block_state :
  forall (pre post : list (placed Q)) p loc, in_order 0 (pre ++ p :: post) -> (pl_loc p <= loc < pl_loc p + pl_len p)%Z ->
    hover_state (pre ++ p :: post) loc = state_after (map pl_node pre).
Proof.
  intros pre post p loc Ho Hl. unfold hover_state, state_after. rewrite (proj1 (limited_prefix loc pre 0 p post _ Ho Hl)). reflexivity.
Qed.
Theorem C67_block_state_refuted :
  ~ forall (pre post : list (placed Q)) p loc id before n after v0 v, in_order 0 (pre ++ p :: post) ->
      (pl_loc p <= loc < pl_loc p + pl_len p)%Z -> pl_node p = NAB id (before ++ n :: after) ->
      on_file no_hooks false (map pl_node pre) (visitor_init tt) = Ok v0 -> visits no_hooks before (ab_enter no_hooks id v0) = Done v ->
      hover_state (pre ++ p :: post) loc = Ok (v_state v).
Proof.
  intros S. specialize (S [MkPl 0 15 fs26; MkPl 15 14 (adc "D10" (1#2))] [] (MkPl 30 40 (NAB (lit "D20") [NDnn (lit "D10"); ND03 None None])) 50%Z
    (lit "D20") [NDnn (lit "D10")] (ND03 None None) []). cbn [app map pl_node] in S.
  eassert (S1 := S _ _ _ _ eq_refl eq_refl eq_refl). clear S. revert S1. vm_compute. intros S. 
  discriminate S. Unshelve. all: cbn; lia.
Qed.

(** The centre shown for an arc is the offset, not the point it leads to from the start. *)
Theorem C67_center_refuted :
  ~ forall (pre : list (node Q)) s x y i j s1, state_after pre = Ok s -> s_plot s = PmArc -> read_coords x y (Some i) (Some j) s = Ok s1 ->
      shown_center s (Some i) (Some j) = Ok (Some (vx (arc_center s1), vy (arc_center s1))).
Proof.
  intros S. set (pre := mirrored ++ [NG G02]).
  assert (C : match state_after pre with
              | Ok s => match s_plot s, read_coords (Some (lit U)) (Some (lit "0")) (Some (lit U)) (Some (lit "0")) s, shown_center s (Some (lit U)) (Some (lit "0")) with
                        | PmArc, Ok s1, Ok (Some p) => fst p = 1 /\ vx (arc_center s1) = 5 # 2
                        | _, _, _ => False
                        end
              | Err _ => False
              end) by (vm_compute; split; reflexivity).
  destruct (state_after pre) as [s|] eqn:Es; [|contradiction]. destruct (s_plot s) eqn:Ep; try contradiction.
  destruct (read_coords _ _ _ _ s) as [s1|] eqn:Er; [|contradiction]. rewrite (S pre s _ _ _ _ s1 Es Ep Er) in C.
  destruct C as (C1 & C2). cbn [fst] in C1. rewrite C1 in C2. discriminate.
Qed.
Definition C67_file : list (placed Q) := [MkPl 0 15 fs26; MkPl 16 13 (adc "D10" (1#2)); MkPl 30 4 (NDnn (lit "D10")); MkPl 35 12 (go U U); MkPl 48 12 (to U "0"); MkPl 60 4 (NDnn (lit "D10"))].
Example C67_state_case :
  in_order 0 C67_file /\
  match hover_state C67_file 48 with Ok s => (s_apid s, shown_start s, shown_end s (Some (lit U)) (Some (lit "0"))) = (Some (lit "D10"), (1, 1), Ok (Some (1, 0))) | Err _ => False end.
Proof. split; [cbn; lia|vm_compute; reflexivity]. Qed.

Print Assumptions C67_state.
Print Assumptions C67_points.
Print Assumptions C67_offset.
Print Assumptions C67_preview_partial.
Print Assumptions C67_ccw_refuted.
Print Assumptions C67_polarity_refuted.
Print Assumptions C67_block_aperture_refuted.
Print Assumptions C67_block_state.
Print Assumptions C67_block_state_refuted.
Print Assumptions C67_center_refuted.

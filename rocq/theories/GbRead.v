(** Proofs for C38: reading the definitions, and reading the whole file back. *)
From Verif Require Import Base Num Dict CoordModel CoordProofs Ast StateModel StateProofs LayerOut GbModel GbSpec GbProofs GbInv GbStep.
From Coq Require Import Qabs Lqa.
Local Open Scope Q_scope.
Local Existing Instance NumQ.
Local Notation vis := (visitor Q (list (@call Q))).

(** *** The history *)
Lemma happened_app cs : forall g h, exists e, happened cs g h = e ++ h.
Proof.
  induction cs as [|c cs IH]; intros g h; cbn [happened]; [exists []; reflexivity|].
  destruct (IH (gstep g c) ((c, is_ok (snd (perform c g))) :: h)) as [e ->].
  exists (e ++ [(c, is_ok (snd (perform c g)))]). rewrite <- app_assoc. reflexivity.
Qed.
Lemma left_alone_tail e h : regions_left_alone (e ++ h) -> regions_left_alone h.
Proof.
  induction e as [|[c ok] e IH]; [auto|]. cbn [app]. intros H. apply IH. destruct c, ok; try exact H. exact (proj2 H).
Qed.
Lemma inv_run cs : forall g h, inv h g -> future h -> clean cs g -> regions_left_alone (happened cs g h) ->
  inv (happened cs g h) (fold_left gstep cs g).
Proof.
  induction cs as [|c cs IH]; intros g h HI F HC R; [exact HI|]. cbn [happened fold_left clean] in *. destruct HC as [C HC].
  apply IH; [apply inv_step; try assumption|apply future_step; assumption|exact HC|exact R].
  destruct (happened_app cs (gstep g c) ((c, is_ok (snd (perform c g))) :: h)) as [e E]. rewrite E in R. exact (left_alone_tail _ _ R).
Qed.
Lemma defs_init : defs_ok gb_init.
Proof. constructor; try reflexivity; try (intros [|i] m H; discriminate). intros w i []. Qed.
Lemma inv_init : inv [] gb_init.
Proof.
  split; constructor; try reflexivity.
  - exact defs_init.
  - intros n H. inversion H.
  - intros l H. discriminate.
  - intros A M v0 _ [S X]. exists v0. split; [reflexivity|]. split; [exact S|]. exists []. split; [exact X|constructor].
Qed.
Lemma inv_build cs : clean cs gb_init -> regions_left_alone (happened cs gb_init []) -> inv (happened cs gb_init []) (build cs).
Proof. apply inv_run; [exact inv_init|]. intros n _. repeat split. Qed.

(** *** Definitions *)
Definition head (arc : arc_interp) (A : dict (ad Q)) (M : dict (list (prim Q))) (P : dict (dict attr)) (a : dict attr) : vis :=
  MkV (MkState Metric (Some fmt46) PmLinear arc None 0 0 None None None None tr_default A [] M P a [] [] ia_default false)
    (d01_table PmLinear arc) None false [].
Definition add_attr (d : dict attr) (a : attr) := d_set (at_name a) a d.
Definition own_attrs (p : pad) : list attr :=
  match p_function p with Some a => [a] | None => [] end ++ match p_drill p with Some a => [a] | None => [] end ++ p_user p.
Lemma read_macros ms : forall arc A M P a, visits recorder (map (fun m => NAM (fst m) (snd m)) ms) (head arc A M P a) =
  Done (head arc A (fold_left (fun d m => d_set (fst m) (snd m) d) ms M) P a).
Proof. induction ms as [|m ms IH]; intros arc A M P a; [reflexivity|]. exact (IH arc A (d_set (fst m) (snd m) M) P a). Qed.
Lemma read_attrs l : forall arc A M P a, visits recorder (map NTA l) (head arc A M P a) = Done (head arc A M P (fold_left add_attr l a)).
Proof. induction l as [|x l IH]; intros arc A M P a; [reflexivity|]. exact (IH arc A M P (add_attr a x)). Qed.
Lemma pad_nodes_alt p : pad_nodes p = map NTA (own_attrs p) ++ [NAD (p_ad p)] ++ match own_attrs p with [] => [] | _ => [NTD None] end.
Proof. unfold pad_nodes, own_attrs, opt_attr. destruct (p_function p), (p_drill p), (p_user p); reflexivity. Qed.
Lemma read_pad p arc A M P : visits recorder (pad_nodes p) (head arc A M P []) =
  Done (head arc (d_set (ad_id (p_ad p)) (p_ad p) A) M (d_set (ad_id (p_ad p)) (fold_left add_attr (own_attrs p) []) P) []).
Proof. rewrite pad_nodes_alt, visits_app, read_attrs. cbn [obind]. destruct (own_attrs p); reflexivity. Qed.
Definition put_ad (A : dict (ad Q)) (p : pad) := d_set (ad_id (p_ad p)) (p_ad p) A.
Definition put_attrs (P : dict (dict attr)) (p : pad) := d_set (ad_id (p_ad p)) (fold_left add_attr (own_attrs p) []) P.
Lemma read_pads ps : forall arc A M P, visits recorder (flat_map pad_nodes ps) (head arc A M P []) =
  Done (head arc (fold_left put_ad ps A) M (fold_left put_attrs ps P) []).
Proof.
  induction ps as [|p ps IH]; intros arc A M P; [reflexivity|]. cbn [flat_map fold_left]. rewrite visits_app, read_pad. apply IH.
Qed.

(** What ends up in the dictionaries. *)
Lemma fold_put {T V} (key : T -> str) (val : T -> V) l : forall d x, NoDup (map key l) -> In x l ->
  d_get (key x) (fold_left (fun d y => d_set (key y) (val y) d) l d) = Some (val x).
Proof.
  assert (Hout : forall l d k, ~ In k (map key l) -> d_get k (fold_left (fun d y => d_set (key y) (val y) d) l d) = d_get k d).
  { intros l0. induction l0 as [|y r IH]; intros d k Hk; [reflexivity|]. cbn [fold_left]. rewrite IH by (intros H; apply Hk; right; exact H).
    rewrite d_get_set. destruct (str_eqb k (key y)) eqn:E; [|reflexivity]. apply str_eqb_eq in E. exfalso. apply Hk. left. symmetry. exact E. }
  induction l as [|y r IH]; intros d x Hn Hin; [destruct Hin|]; destruct Hin as [->|Hx]; inversion Hn as [|? ? Hni Hn']; subst; cbn [fold_left].
  - rewrite Hout by exact Hni. rewrite d_get_set, str_eqb_refl. reflexivity.
  - apply IH; assumption.
Qed.
Lemma fold_put_inv {T V} (key : T -> str) (val : T -> V) l : forall d k w,
  d_get k (fold_left (fun d y => d_set (key y) (val y) d) l d) = Some w ->
  d_get k d = Some w \/ exists x, In x l /\ k = key x /\ w = val x.
Proof.
  induction l as [|y r IH]; intros d k w H; [auto|]. cbn [fold_left] in H. destruct (IH _ _ _ H) as [H1|(x & Hx & E)].
  - rewrite d_get_set in H1. destruct (str_eqb k (key y)) eqn:E; [|auto]. apply str_eqb_eq in E. right. exists y.
    split; [left; reflexivity|]. split; [exact E|congruence].
  - right. exists x. split; [right; exact Hx|exact E].
Qed.
Lemma numbered_nodup {T} (key : T -> str) (pre : str) (z : Z) (l : list T) :
  (forall i x, nth_error l i = Some x -> key x = pre ++ z_repr (z + Z.of_nat i)) -> NoDup (map key l).
Proof.
  intros H. apply NoDup_nth_error. intros i j Hi E. rewrite map_length in Hi. rewrite !nth_error_map in E.
  destruct (nth_error l i) as [x|] eqn:Ei; [|apply nth_error_None in Ei; lia]. cbn in E.
  destruct (nth_error l j) as [y|] eqn:Ej; [|discriminate]. cbn in E.
  assert (E' : key x = key y) by congruence. rewrite (H _ _ Ei), (H _ _ Ej) in E'. apply app_inv_head, z_repr_inj in E'. lia.
Qed.
Lemma ids_nodup g : defs_ok g -> NoDup (map (fun p => ad_id (p_ad p)) (g_pads g)).
Proof.
  intros D. apply (numbered_nodup _ (lit "D") 10). intros i p Hp. apply (do_ids _ D). unfold ads. rewrite nth_error_map, Hp. reflexivity.
Qed.
Lemma names_nodup g : defs_ok g -> NoDup (map fst (g_macros g)).
Proof. intros D. apply (numbered_nodup _ (lit "M") 0). intros i m Hm. exact (do_macs _ D _ _ Hm). Qed.

Definition heads (g : gb) : vis :=
  head MultiQuadrant (fold_left put_ad (g_pads g) []) (fold_left (fun d m => d_set (fst m) (snd m) d) (g_macros g) []) (fold_left put_attrs (g_pads g) []) [].
Definition intro (g : gb) : list (node Q) :=
  [NFS (MkFS SkipLeading Absolute 4 6 4 6); NMO Metric] ++
  map (fun m => NAM (fst m) (snd m)) (g_macros g) ++ flat_map pad_nodes (g_pads g) ++ [NG G75].
Lemma read_intro g : visits recorder (intro g) (visitor_init []) = Done (heads g).
Proof.
  unfold intro. rewrite visits_app. change (visits recorder [NFS _; NMO Metric] (visitor_init [])) with (Done (head SingleQuadrant [] [] [] [])).
  cbn [obind]. rewrite visits_app, read_macros. cbn [obind]. rewrite visits_app, read_pads. reflexivity.
Qed.
Lemma get_code_intro g : get_code g = intro g ++ concat (g_draws g) ++ [NM02].
Proof. unfold get_code, intro. rewrite <- !app_assoc. reflexivity. Qed.
Lemma heads_defines g : defs_ok g -> defines (fold_left put_ad (g_pads g) []) (fold_left (fun d m => d_set (fst m) (snd m) d) (g_macros g) []) g.
Proof.
  intros D. split.
  - intros a Ha. unfold ads in Ha. apply in_map_iff in Ha as (p & <- & Hp).
    exact (fold_put (fun p => ad_id (p_ad p)) p_ad (g_pads g) [] p (ids_nodup g D) Hp).
  - intros nm ps Hm. exact (fold_put fst snd (g_macros g) [] (nm, ps) (names_nodup g D) Hm).
Qed.
Lemma heads_begins g : begins (fold_left put_ad (g_pads g) []) (fold_left (fun d m => d_set (fst m) (snd m) d) (g_macros g) []) (heads g).
Proof. split; [|reflexivity]. constructor; try reflexivity; discriminate. Qed.

Lemma on_file_visits b ns r (v v' : vis) : visits recorder ns v = Done v' -> on_file recorder b (ns ++ r) v = on_file recorder b r v'.
Proof.
  revert v. induction ns as [|n ns IH]; intros v H; [injection H as <-; reflexivity|]. cbn [visits] in H. cbn [app on_file].
  destruct (visit recorder n v) as [v1|v1|e]; cbn [obind] in H; [exact (IH _ H)|discriminate|discriminate].
Qed.
Lemma read_back cs b : clean cs gb_init -> regions_left_alone (happened cs gb_init []) ->
  exists v, on_file recorder b (get_code (build cs)) (visitor_init []) = Ok v /\
    drawn (happened cs gb_init []) (slip None PmLinear (wishes (happened cs gb_init []))) (v_ext v).
Proof.
  intros HC HR. destruct (inv_build cs HC HR) as [I D]. set (g := build cs) in *. set (h := happened cs gb_init []) in *.
  destruct (id_draw _ _ D _ _ _ (heads_defines g (io_defs _ _ I)) (heads_begins g)) as (v & V & _ & W).
  exists v. split; [|exact W]. rewrite get_code_intro, (on_file_visits _ _ _ _ _ (read_intro g)), (on_file_visits _ _ _ _ _ V).
  destruct b; reflexivity.
Qed.

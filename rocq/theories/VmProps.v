(** Property theorems C23-C26 (specification in [VmSpec] and [BoxSpec]). *)
From Coq Require Import Reals Lra.
From Verif Require Import Base Num NumReal Dict Ast StateModel GeomModel CompilerModel BoxModel VmModel BoxSpec BoxProofs BoxProps VmSpec VmProofs VmInv VmSim VmAccept.

Section Theorems.
  Context {K : Type} {NK : Num K}.
  Implicit Types (be : backend K) (cs : list (cmd K)).

  (** C23.  A run that succeeds closed only open layers, defined no name twice, created exactly
      the layers started; its stack holds the layers not closed, so it is empty when the stream
      closes every layer.  (In full the property says the stack is always empty, which is
      refuted below.) *)
  Theorem C23_layers_partial :
    forall be fl cs m b, vm_run be fl cs = Ok (m, b) ->
      exists open closed, brackets cs = Some (open, closed) /\ NoDup (started cs) /\
        vm_stack m = map o_id open /\ NoDup (map o_id open ++ closed) /\
        (forall id, In id (started cs) <-> In id (map o_id open ++ closed)) /\
        (forall id, d_get id (vm_layers m) <> None <-> In id (started cs)) /\
        (balanced cs -> vm_stack m = []).
  Proof.
    intros be fl cs m b E. unfold vm_run in E. destruct (exec be fl cs vm_init) as [m0|] eqn:Ex; [|discriminate E]. cbn [bind] in E.
    destruct (vm_result be fl m0) as [b0|]; [|discriminate E]. cbn [bind] in E. injection E as -> ->.
    destruct (exec_inv _ _ _ _ Ex) as [(open & closed & Hb & Hst & _ & Hnd & Hs & Hl & _) Hdup _ _ _ _].
    exists open, closed. repeat (split; [assumption|]). intros (cl & H). rewrite Hb in H. injection H as -> _. exact Hst.
  Qed.
  (** C23.  Pasted layers exist.  A layer without box is complete when it is pasted: it was
      closed and nothing is drawn on it afterwards.  (For layers with a box this is refuted.) *)
  Theorem C23_pastes_partial :
    forall be fl cs m l1 a p l2, be_strict be = true -> exec be fl cs vm_init = Ok m -> vm_log m = l1 ++ (a, DPaste p) :: l2 ->
      In (pa_src p) (started cs) /\
      (forall o, In (KStart (pa_src p) None o) cs ->
         exists open closed, brackets cs = Some (open, closed) /\ In (pa_src p) closed /\ ~ In (Some (pa_src p)) (map fst l2)).
  Proof.
    intros be fl cs m l1 a p l2 Hs Ex Hlog.
    destruct (exec_inv _ _ _ _ Ex) as [(open & closed & Hb & _ & _ & _ & _ & Hl & Hp) _ _ _ Hpast _]. split.
    - apply Hl. destruct (Hpast Hs a p) as (b & o & l & ->); [rewrite Hlog; apply in_or_app; right; left; reflexivity|discriminate].
    - intros o Ho. exists open, closed. split; [exact Hb|]. eapply Hp; [exact Hs|exact Hlog|exists o; exact Ho].
  Qed.
  (** C23.  Every layer holds the drawing commands given while it was the innermost open layer,
      all of them and in order, and they are painted in that order. *)
  Theorem C23_contents :
    forall be fl cs m id, exec be fl cs vm_init = Ok m ->
      match d_get id (vm_layers m) with
      | Some (LEager _ _ l) => l = given [] id cs /\ calls_on id (vm_log m) = l
      | Some (LDeferred _ l) => l = given [] id cs /\ calls_on id (vm_log m) = []
      | None => calls_on id (vm_log m) = []
      end.
  Proof.
    intros be fl cs m id Ex. pose proof (held_exec be fl cs _ _ id Ex) as H. pose proof (i_log _ _ _ (exec_inv _ _ _ _ Ex) id) as Hl.
    unfold held, content in H. cbn [vm_init vm_layers vm_stack d_get app] in H. destruct (d_get id (vm_layers m)) as [[]|]; auto.
  Qed.
  (** C23.  Conversely the streams that keep the rules are run without error: names are new,
      drawings are inside of layers, pasted layers are closed, no layer without box is closed
      empty, all layers are closed and one is the main layer. *)
  Theorem C23_accepts :
    forall be fl cs (good : box K -> Prop),
      (forall b, good b -> be_size be b = true) -> (forall a b, good a -> good b -> good (b_join a b)) ->
      (forall b v, good b -> good (b_shift b v)) -> (forall b v, good b -> good (b_unshift b v)) ->
      all_proper good shape_box (be_shape be) cs -> (exists closed, brackets cs = Some ([], closed) /\ In main_id closed) ->
      exists m b, vm_run be fl cs = Ok (m, Some b) /\ vm_stack m = [].
  Proof. intros be fl cs good H1 H2 H3 H4. exact (accepted be fl good H1 H2 H3 H4 cs). Qed.

  (** C24.  Declaring the computed boxes of any of the layers changes neither the layers nor
      the calls on each of them, nor, when no layer is inside another, the order of all calls.
      It is assumed that every layer got a box and that layers are closed before they are
      pasted; both are needed, and the order is refuted for nested layers, see below. *)
  Theorem C24_declared_boxes_partial :
    forall be fl cs m b (boxes : str -> option (box K)),
      vm_run be fl cs = Ok (m, b) ->
      (forall id x, d_get id (vm_layers m) = Some x -> exists b o l, x = LEager b o l) ->
      pastes_closed cs ->
      (forall id b, boxes id = Some b -> In id (started cs) -> exists o l, d_get id (vm_layers m) = Some (LEager b o l)) ->
      exists m', vm_run be fl (map (declare boxes) cs) = Ok (m', b) /\
        (forall id, d_get id (vm_layers m') = d_get id (vm_layers m)) /\
        (forall id, calls_on id (vm_log m') = calls_on id (vm_log m)) /\
        (flat cs -> vm_log m' = vm_log m).
  Proof.
    intros be fl cs m b boxes E Hall Hpc Hbx. unfold vm_run in E. destruct (exec be fl cs vm_init) as [m0|] eqn:Ex; [|discriminate E]. cbn [bind] in E.
    destruct (vm_result be fl m0) as [b0|] eqn:Er; [|discriminate E]. cbn [bind] in E. injection E as -> ->.
    pose (er := fun id => match boxes id with Some _ => true | None => false end).
    assert (Hm : map (declare boxes) cs = map (fill_cmd er (vm_layers m)) cs).
    { apply map_ext_in. intros c Hc. destruct c as [id [bb|] o|d|]; try reflexivity. cbn [declare fill_cmd]. unfold er.
      destruct (boxes id) as [bb|] eqn:Ebb; [|reflexivity]. destruct (Hbx id bb Ebb) as (o1 & l1 & ->); [|reflexivity].
      unfold started. apply in_flat_map. eexists; split; [exact Hc|left; reflexivity]. }
    assert (HS0 : sim er (vm_layers m) vm_init vm_init) by (constructor; cbn; auto).
    destruct (sim_exec be fl er (vm_layers m) cs [] vm_init m vm_init (inv_init be) HS0 Ex eq_refl Hall (exec_sound be fl cs _ _ (sound_init be) Ex) Hpc)
      as (m' & E' & [S1 S2 S3 S4] & Hlog).
    assert (Hlay : forall id, d_get id (vm_layers m') = d_get id (vm_layers m)).
    { intros id. rewrite S2. destruct (d_get id (vm_layers m)) as [x|] eqn:Eg; [|reflexivity]. destruct (Hall _ _ Eg) as (b1 & o1 & l1 & ->). reflexivity. }
    assert (E'' : exec be fl (map (declare boxes) cs) vm_init = Ok m') by (rewrite Hm; exact E').
    exists m'. split; [|split; [exact Hlay|split]].
    - unfold vm_run. rewrite E''. cbn [bind]. unfold vm_result in *. rewrite Hlay, Er. reflexivity.
    - intros id. rewrite (i_log _ _ _ (exec_inv _ _ _ _ E'')), (i_log _ _ _ (exec_inv _ _ _ _ Ex)), Hlay. reflexivity.
    - intros Hf. rewrite (Hlog Hf eq_refl). unfold pending. destruct (vm_stack m) as [|id st]; [apply app_nil_r|].
      destruct (d_get id (vm_layers m)) as [x|] eqn:Eg; [|apply app_nil_r]. destruct (Hall _ _ Eg) as (b1 & o1 & l1 & ->). apply app_nil_r.
  Qed.

  (** C25.  For any run and any layer without declared box that was completed: its box is the
      least one including the boxes of its shapes and of the layers pasted. *)
  Theorem C25_exact_hull :
    forall (le : K -> K -> Prop), ordered le -> forall be fl cs m id o b o' l,
      exec be fl cs vm_init = Ok m -> In (KStart id None o) cs -> d_get id (vm_layers m) = Some (LEager b o' l) ->
      o' = o /\ l = given [] id cs /\ l <> [] /\
      Forall (fun d => exists c, covers (vm_layers m) d c) l /\
      least le (fun c => Forall (fun d => forall a, covers (vm_layers m) d a -> within le a c) l) (embed b).
  Proof.
    intros le O be fl cs m id o b o' l Ex Hin Hg. destruct (exec_computed be fl cs m Ex id b o' l (ex_intro _ o Hin) Hg) as (Hn & Hb & Hin').
    split; [symmetry; eapply (nodup_in_start cs); [exact (i_dup _ _ _ (exec_inv _ _ _ _ Ex))|exact Hin|exact Hin']|].
    split; [pose proof (C23_contents be fl cs m id Ex) as H; rewrite Hg in H; apply H|].
    split; [exact Hn|]. apply (deferred_box_least le O) in Hb. exact Hb.
  Qed.

  (** C26.  An empty layer inside a layer without box, or before a command that is no drawing,
      changes nothing but the table of layers.  (Everywhere else it does, next theorem.) *)
  Theorem C26_empty_layer_partial :
    forall be cs1 cs2 m b k o,
      vm_run be false (cs1 ++ cs2) = Ok (m, b) ->
      ~ In k (started (cs1 ++ cs2)) -> ~ In k (pasted (cs1 ++ cs2)) -> k <> main_id -> harmless_place cs1 cs2 ->
      exists m', vm_run be false (cs1 ++ [KStart k None o; KEnd] ++ cs2) = Ok (m', b) /\
        (forall j, j <> k -> d_get j (vm_layers m') = d_get j (vm_layers m)) /\ vm_log m' = vm_log m /\ vm_stack m' = vm_stack m.
  Proof.
    intros be cs1 cs2 m b k o E Hs Hp Hk Hpl. eapply empty_harmless; eauto.
    apply Forall_forall. intros c Hc. destruct c as [id bb o1|[s|p]|]; cbn [avoids]; auto; intros Heq; subst k.
    - apply Hs. unfold started. apply in_flat_map. eexists; split; [exact Hc|left; reflexivity].
    - apply Hp. unfold pasted. apply in_flat_map. eexists; split; [exact Hc|left; reflexivity].
  Qed.
  (** C26.  Before a drawing inside of a layer with a box, or outside of all layers, an empty
      layer always makes the run fail. *)
  Theorem C26_empty_layer_refuted :
    forall be cs m d k o,
      exec be false cs vm_init = Ok m -> ~ In k (started cs) -> ~ In k (pasted cs) -> ~ harmless_place cs [KDraw d] ->
      exists e, exec be false (cs ++ [KStart k None o; KEnd; KDraw d]) vm_init = Err e.
  Proof.
    intros be cs m d k o E Hs Hp Hpl. eexists. apply empty_breaks with (2 := E).
    - apply Forall_forall. intros c Hc. destruct c as [id bb o1|[s|p]|]; cbn [avoids]; auto; intros Heq; subst k.
      + apply Hs. unfold started. apply in_flat_map. eexists; split; [exact Hc|left; reflexivity].
      + apply Hp. unfold pasted. apply in_flat_map. eexists; split; [exact Hc|left; reflexivity].
    - destruct (exec_inv _ _ _ _ E) as [(open & closed & Hb & Hst & Ho & _) _ _ _ _ _]. rewrite Hst. unfold harmless_place in Hpl. rewrite Hb in Hpl.
      destruct open as [|x open]; [reflexivity|]. cbn [map top_deferred]. inversion Ho as [|? ? Hx _]; subst. unfold open_ok in Hx.
      destruct (d_get (o_id x) (vm_layers m)) as [[]|]; [reflexivity| |reflexivity]. exfalso. apply Hpl. left. apply Hx.
  Qed.
  (** C26.  An empty main layer without box is an error instead of an empty result. *)
  Theorem C26_empty_main_refuted :
    forall be o, vm_run be false [KStart main_id None o; KEnd] = Err VAssertion.
  Proof. reflexivity. Qed.
End Theorems.

(** The backends: boxes with an area are those accepted by Pillow, Shapely accepts all. *)
Definition area (b : box R) : Prop := match b with BoxNone => False | BoxOf x0 y0 x1 y1 => (x0 < x1 /\ y0 < y1)%R end.
Theorem C23_pillow_accepts :
  forall (paints : shape R -> option exc) (fl : bool) (cs : list (cmd R)),
    all_proper area shape_box paints cs -> (exists closed, brackets cs = Some ([], closed) /\ In main_id closed) ->
    exists m b, vm_run (pillow paints) fl cs = Ok (m, Some b) /\ vm_stack m = [].
Proof.
  intros paints fl cs. apply (C23_accepts (pillow paints) fl cs area).
  - intros [|x0 y0 x1 y1] H; [reflexivity|]. destruct H as [H1 H2]. cbn [pillow be_size has_area]. rewrite r_n0.
    apply andb_true_intro. split; apply r_ltb_lt; cbn [n_abs n_sub NumR]; apply Rabs_pos_lt; lra.
  - intros [|x0 y0 x1 y1] [|a0 b0 a1 b1]; cbn [area b_join]; try tauto. rewrite !r_min, !r_max. intros [] [].
    split; (eapply Rle_lt_trans; [apply Rmin_l|]); (eapply Rlt_le_trans; [|apply Rmax_l]); assumption.
  - intros [|x0 y0 x1 y1] v; cbn [area b_shift n_add NumR]; lra.
  - intros [|x0 y0 x1 y1] v; cbn [area b_unshift n_sub NumR]; lra.
Qed.
Theorem C23_shapely_accepts :
  forall (K : Type) (NK : Num K) (paints : shape K -> option exc) (fl : bool) (cs : list (cmd K)),
    all_proper (fun _ => True) shape_box paints cs -> (exists closed, brackets cs = Some ([], closed) /\ In main_id closed) ->
    exists m b, vm_run (shapely paints) fl cs = Ok (m, Some b) /\ vm_stack m = [].
Proof. intros K NK paints fl cs. apply (C23_accepts (shapely paints) fl cs (fun _ => True)); auto. Qed.

(** Concrete streams. *)
Section Cases.
  Local Existing Instance NumQ.
  Local Open Scope Q_scope.
  Let be : backend Q := pillow (fun _ => None).
  Let v (x y : Q) : vec Q := MkVec x y.
  Let sq (x y : Q) : draw Q := DShape (MkShape [SLine (v x y) (v (x + 1) (y + 1))] false None).
  Let put (s : str) (x y : Q) : draw Q := DPaste (MkPaste s (v x y) false None).
  Let A := lit "a". Let B := lit "b".
  Let z := v 0 0.

  (** Undocumented errors; a run ending inside of a layer; a layer pasted into itself. *)
  Theorem C23_undocumented_error_refuted :
    exists cs, balanced cs /\ vm_run be false cs = Err (VKeyError A) /\ ~ documented (VKeyError A).
  Proof.
    exists [KStart main_id None z; KDraw (put A 0 0); KEnd]. split; [eexists; reflexivity|]. split; [vm_compute; reflexivity|intros []].
  Qed.
  Theorem C23_ends_open_refuted :
    exists cs m b, vm_run be false cs = Ok (m, b) /\ vm_stack m <> [].
  Proof.
    eexists [KStart main_id None z; KDraw (sq 0 0); KEnd; KStart A None z], _, _. split; [vm_compute; reflexivity|discriminate].
  Qed.
  Theorem C23_paste_open_refuted :
    exists cs m b p, vm_run be false cs = Ok (m, b) /\ balanced cs /\ In (Some (pa_src p), DPaste p) (vm_log m).
  Proof.
    eexists [KStart main_id (Some (BoxOf 0 0 1 1)) z; KDraw (put main_id 0 0); KEnd], _, _, (MkPaste main_id (v 0 0) false None).
    split; [vm_compute; reflexivity|]. split; [eexists; reflexivity|left; reflexivity].
  Qed.
  (** Order of calls with nested layers; pasting a layer defined later. *)
  Let outer := [KStart main_id None z; KDraw (sq 0 0); KStart A None z; KDraw (sq 5 5); KEnd; KDraw (put A 1 1); KEnd].
  Let calls (cs : list (cmd Q)) : list str :=
    match vm_run be false cs with Ok (m, _) => flat_map (fun e => match fst e with Some i => [i] | None => [] end) (vm_log m) | Err _ => [] end.
  Let found (m : result vm_error (vm Q * option (box Q))) (id : str) : option (box Q) :=
    match m with Ok (m, _) => match d_get id (vm_layers m) with Some (LEager b _ _) => Some b | _ => None end | Err _ => None end.
  Theorem C24_nested_order_refuted :
    exists cs boxes, pastes_closed cs /\ (forall id b, boxes id = Some b -> found (vm_run be false cs) id = Some b) /\
      calls cs = [A; main_id; main_id] /\ calls (map (declare boxes) cs) = [main_id; A; main_id].
  Proof.
    exists outer, (found (vm_run be false outer)). split; [|split; [auto|split; vm_compute; reflexivity]].
    intros pre p post E. unfold outer in E.
    do 5 (destruct pre as [|? pre]; [discriminate E|]; injection E as <- E). destruct pre as [|? pre].
    - injection E as <- <-. exists [MkOpen main_id false true], [A]. split; [reflexivity|left; reflexivity].
    - injection E as <- E. destruct pre as [|? pre]; [discriminate E|]. injection E as <- E. destruct pre; discriminate E.
  Qed.
  Theorem C24_defined_later_refuted :
    exists cs m b boxes, vm_run be false cs = Ok (m, b) /\ balanced cs /\
      (forall id b, boxes id = Some b -> found (Ok (m, None)) id = Some b) /\
      vm_run be false (map (declare boxes) cs) = Err (VLayerNotFound A).
  Proof.
    pose (cs := [KStart main_id None z; KDraw (put A 1 1); KStart A None z; KDraw (sq 5 5); KEnd; KEnd]).
    exists cs. destruct (vm_run be false cs) as [[m b]|] eqn:E; [|vm_compute in E; discriminate E].
    exists m, b, (found (vm_run be false cs)). split; [reflexivity|]. split; [eexists; reflexivity|]. split.
    - intros id b0. rewrite E. auto.
    - vm_compute. reflexivity.
  Qed.
  (** The positive theorems apply to [outer], whose boxes are as expected. *)
  Example C23_case : all_proper (fun b => has_area b = true) shape_box (be_shape be) outer.
  Proof.
    intros pre c post E. unfold outer in E.
    do 7 (destruct pre as [|? pre];
      [injection E as <- <-; match goal with |- proper _ _ _ ?p _ =>
         let r := eval vm_compute in (brackets p) in match r with Some (?o, ?c) => exists o, c end end;
       (split; [reflexivity|]); cbn; repeat split; auto; try discriminate; vm_compute; tauto || intuition discriminate
      |injection E as <- E]).
    destruct pre; discriminate E.
  Qed.
  Example C25_case : found (vm_run be false outer) A = Some (BoxOf 5 5 6 6) /\ found (vm_run be false outer) main_id = Some (BoxOf 0 0 7 7).
  Proof. split; vm_compute; reflexivity. Qed.
  Example C26_case :
    let cs1 := [KStart main_id None z; KDraw (sq 0 0)] in let cs2 := [KDraw (sq 2 0); KEnd] in
    harmless_place cs1 cs2 /\ calls (cs1 ++ cs2) = [main_id; main_id] /\
    calls (cs1 ++ [KStart B None z; KEnd] ++ cs2) = [main_id; main_id].
  Proof. split; [left; reflexivity|split; vm_compute; reflexivity]. Qed.
  Example C26_refuted_case :
    vm_run be false [KStart main_id (Some (BoxOf 0 0 9 9)) z; KStart B None z; KEnd; KDraw (sq 0 0); KEnd] = Err VAssertion.
  Proof. vm_compute. reflexivity. Qed.
End Cases.

Print Assumptions C23_layers_partial.
Print Assumptions C23_pastes_partial.
Print Assumptions C23_contents.
Print Assumptions C23_accepts.
Print Assumptions C23_pillow_accepts.
Print Assumptions C23_shapely_accepts.
Print Assumptions C23_undocumented_error_refuted.
Print Assumptions C23_ends_open_refuted.
Print Assumptions C23_paste_open_refuted.
Print Assumptions C24_declared_boxes_partial.
Print Assumptions C24_nested_order_refuted.
Print Assumptions C24_defined_later_refuted.
Print Assumptions C25_exact_hull.
Print Assumptions C26_empty_layer_partial.
Print Assumptions C26_empty_layer_refuted.
Print Assumptions C26_empty_main_refuted.

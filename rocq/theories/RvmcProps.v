(** C36 and C37. *)
From Verif Require Import Base Num Dict Ast StateModel GeomModel CompilerModel VmModel VmSpec RvmcModel RvmcSpec RvmcProofs VmProps NumReal.
Require Import Reals QArith.

Section Props.
  Context {K : Type} {NK : Num K}.

  (** C36.  The program is what the history of calls says (see [contents]): every layer left
      normally is one block, put where it was opened, with its drawings and the layers
      finished in it in the order of the calls; calls that raise and layers left by an
      exception add nothing.  Hence it is properly nested.  Clients may do anything but call
      [finalize] themselves, see [C36_finalize_refuted]. *)
  Theorem C36_contents_partial :
    forall cs : list (call K), (forall h, ~ In (Finalize h) cs) ->
      rvmc cs = contents (observed cs w_init []) None.
  Proof.
    intros cs H. apply rvmc_contents. apply Forall_forall. intros c Hc. destruct c; cbn; auto. exact (H _ Hc).
  Qed.
  Theorem C36_nested_partial :
    forall cs : list (call K), (forall h, ~ In (Finalize h) cs) -> blocks (rvmc cs).
  Proof. intros cs H. rewrite C36_contents_partial by exact H. apply contents_blocks. Qed.
  (** C36.  A layer that was left normally once is finished: whatever happens later (this
      includes calls of [finalize]), drawing on it, pasting into it or opening a layer in it
      raises and changes nothing. *)
  Theorem C36_finished :
    forall (cs1 cs2 : list (call K)) k c x,
      nth_error (w_layers (run cs1)) k = Some x -> lb_open x = true ->
      match c with Add j _ | Paste j _ _ _ | OpenLayer j _ _ _ => j = k | _ => False end ->
      let w := run (cs1 ++ Leave k true :: cs2) in
      fst (step c w) = w /\ exists e, snd (step c w) = Some e.
  Proof.
    intros cs1 cs2 k c x E O Hc w. unfold w. rewrite run_app. cbn [fold_left].
    assert (exists x', nth_error (w_layers (fst (step (Leave k true) (run cs1)))) k = Some x' /\ lb_final x' = true) as (x' & E' & F').
    { cbn [step]. rewrite E, O. cbn [negb]. destruct (lb_parent x) as [p|]; cbn [fst upd w_layers w_locked].
      - rewrite !nth_update, Nat.eqb_refl, E. destruct (k =? p)%nat; eexists; split; reflexivity.
      - destruct (w_locked (run cs1)); cbn [fst upd w_layers]; rewrite nth_update, Nat.eqb_refl, E; eexists; split; reflexivity. }
    destruct (final_forever cs2 _ k x' E' F') as (x'' & E'' & F''). eapply final_refuses; [exact E''|exact F''|exact Hc].
  Qed.
  (** C36.  After [get_rvmc] the program never changes, and opening a main layer raises. *)
  Theorem C36_locked :
    forall cs1 cs2 : list (call K), rvmc (cs1 ++ GetRvmc :: cs2) = rvmc cs1 /\
      forall b o, snd (step (OpenMain b o) (run (cs1 ++ GetRvmc :: cs2))) = Some BLocked.
  Proof.
    intros cs1 cs2. unfold rvmc. rewrite run_app. cbn [fold_left step fst].
    assert (forall cs w, w_locked w = true -> w_locked (fold_left (fun w c => fst (step (K := K) c w)) cs w) = true) as L.
    { induction cs as [|c r IH]; intros w H; [exact H|]. cbn [fold_left]. apply IH. apply (locked_step c w H). }
    split; [rewrite locked_run by reflexivity; reflexivity|]. intros b o. cbn [step]. rewrite L by reflexivity. reflexivity.
  Qed.

  (** C37.  Clients that use the [with] blocks as intended, one main layer, and keep the rules
      of [careful] get programs the VM runs to the end.  The full statement (every program
      obtained without builder errors is accepted) is refuted below for each rule left out. *)
  Theorem C37_runs_partial :
    forall be fl cs n (good : box K -> Prop),
      (forall b, good b -> be_size be b = true) -> (forall a b, good a -> good b -> good (b_join a b)) ->
      (forall b v, good b -> good (b_shift b v)) -> (forall b v, good b -> good (b_unshift b v)) ->
      tidy cs [] n -> cs <> [] -> careful good shape_box (be_shape be) cs ->
      exists m b, vm_run be fl (rvmc cs) = Ok (m, Some b) /\ vm_stack m = [].
  Proof.
    intros be fl cs n good H1 H2 H3 H4 T N C. destruct (tidy_proper good shape_box (be_shape be) cs n T N C) as [A B].
    apply (C23_accepts be fl (rvmc cs) good H1 H2 H3 H4 A B).
  Qed.
  Theorem C37_shapely_partial :
    forall (paints : shape K -> option exc) (fl : bool) (cs : list (call K)) n,
      tidy cs [] n -> cs <> [] -> careful (fun _ => True) shape_box paints cs ->
      exists m b, vm_run (shapely paints) fl (rvmc cs) = Ok (m, Some b) /\ vm_stack m = [].
  Proof. intros paints fl cs n. apply (C37_runs_partial (shapely paints) fl cs n (fun _ => True)); auto. Qed.
End Props.

(** C37.  The same for the pillow backend, over the reals: boxes need an area. *)
Theorem C37_pillow_partial :
  forall (paints : shape R -> option exc) (fl : bool) (cs : list (call R)) n,
    tidy cs [] n -> cs <> [] -> careful area shape_box paints cs ->
    exists m b, vm_run (pillow paints) fl (rvmc cs) = Ok (m, Some b) /\ vm_stack m = [].
Proof.
  intros paints fl cs n T N C. destruct (tidy_proper area shape_box paints cs n T N C) as [A B].
  exact (C23_pillow_accepts paints fl (rvmc cs) A B).
Qed.

Section Cases.
  Local Existing Instance NumQ.
  Local Open Scope Q_scope.
  Let be : backend Q := pillow (fun _ => None).
  Let v (x y : Q) : vec Q := MkVec x y.
  Let A := lit "a". Let B := lit "b".
  Let sq (k : nat) : call Q := Add k (RRectangle (v 1 1) 2 2 false).
  (** No exception was raised by any call. *)
  Let calm (cs : list (call Q)) : bool := forallb snd (observed cs w_init []).
  Let error (cs : list (call Q)) : option vm_error := match vm_run be false (rvmc cs) with Ok _ => None | Err e => Some e end.
  Fixpoint shape_of (cs : list (cmd Q)) : list (option str) :=
    match cs with
    | [] => []
    | KStart id _ _ :: r => Some (lit "<" ++ id) :: shape_of r
    | KEnd :: r => Some (lit ">") :: shape_of r
    | KDraw _ :: r => None :: shape_of r
    end.
  (** A client with two nested layers and several illegal calls. *)
  Let wild := [OpenMain None None; sq 0; OpenLayer 0 A None None; OpenLayer 0 B None None; sq 1; sq 0;
               Leave 1 true; sq 1; Paste 0 1 (v 5 5) false; OpenLayer 0 B None None; sq 2; Leave 2 false;
               OpenLayer 0 B None None; Leave 0 true; Leave 0 true; GetRvmc; OpenMain None None].
  Example C36_case :
    map snd (rev (observed wild w_init [])) =
      [true; true; true; false; true; true; true; false; true; true; true; true; false; true; true; true; false] /\
    shape_of (rvmc wild) = [Some (lit "<%main%"); None; None; Some (lit "<a"); None; Some (lit ">"); None; Some (lit ">")].
  Proof. vm_compute. split; reflexivity. Qed.
  (** Calling [finalize] inside of the [with] block ends the layer twice. *)
  Theorem C36_finalize_refuted :
    exists cs, calm cs = true /\ ~ blocks (rvmc cs) /\ error cs = Some VNoLayer.
  Proof.
    exists [OpenMain None None; sq 0; Finalize 0; Leave 0 true]. split; [vm_compute; reflexivity|].
    split; [|vm_compute; reflexivity]. intros H.
    assert (forall l, items (K := Q) l -> forall e, fold_left (fun (d : option Z) c => match d, c with
        | None, _ => None | Some d, KStart _ _ _ => Some (d + 1)%Z | Some d, KEnd => Some (d - 1)%Z | Some d, KDraw _ => Some d end) l (Some e) = Some e) as Hi.
    { induction 1 as [|d r _ IH|id b o body r _ IH1 _ IH2]; intros e; cbn [fold_left]; auto.
      rewrite fold_left_app, IH1. cbn [fold_left]. rewrite IH2. f_equal. lia. }
    assert (forall l, blocks (K := Q) l -> items l) as Hb.
    { induction 1; constructor; assumption. }
    apply Hb in H. apply Hi with (e := 0%Z) in H. vm_compute in H. discriminate H.
  Qed.

  (** A careful client; its program is run. *)
  Let fine := [OpenMain None None; OpenLayer 0 A None None; sq 1; Leave 1 true; Paste 0 1 (v 3 3) false; Leave 0 true].
  Example C37_case : tidy fine [] 2 /\ careful (fun _ => True) shape_box (fun _ => None) fine /\ error fine = None.
  Proof.
    split; [|split; [|vm_compute; reflexivity]].
    - apply (tidy_leave (removelast fine) 0 [] 2). apply (tidy_paste (removelast (removelast fine)) 0 [] 2); [|lia].
      apply (tidy_leave (firstn 3 fine) 1 [0%nat] 2). eapply (tidy_add (firstn 2 fine) 1 [0%nat] 2); [|reflexivity].
      apply (tidy_open (firstn 1 fine) 0 [] 1). apply tidy_main.
    - constructor.
      + repeat constructor; cbn; intuition discriminate.
      + intros pre k src a neg post E. repeat (destruct pre as [|? pre]; [discriminate E || injection E as <- <- <- <- <-|injection E as <- E]); try (destruct pre; discriminate E).
        cbn. tauto.
      + intros pre k post E. right.
        repeat (destruct pre as [|? pre]; [discriminate E || injection E as <- <-|injection E as <- E]); try (destruct pre; discriminate E).
        * exists (sq 1). cbn. tauto.
        * exists (Paste 0 1 (v 3 3) false). cbn. tauto.
      + auto. + auto. + auto.
  Qed.
  (** Each rule is needed: programs of clients that raise no builder error. *)
  Theorem C37_nothing_refuted : exists cs, calm cs = true /\ error cs = Some VAssertion.
  Proof. exists [OpenMain None None; Leave 0 true]. vm_compute. split; reflexivity. Qed.
  Theorem C37_empty_layer_refuted : exists cs, tidy cs [] 2 /\ calm cs = true /\ touched cs 0 /\ error cs = Some VAssertion.
  Proof.
    exists [OpenMain (Some (BoxOf 0 0 9 9)) None; OpenLayer 0 A None None; Leave 1 true; sq 0; Leave 0 true]. split; [|split; [vm_compute; reflexivity|split; [|vm_compute; reflexivity]]].
    - apply (tidy_leave [OpenMain (Some (BoxOf 0 0 9 9)) None; OpenLayer 0 A None None; Leave 1 true; sq 0] 0 [] 2).
      eapply (tidy_add [OpenMain (Some (BoxOf 0 0 9 9)) None; OpenLayer 0 A None None; Leave 1 true] 0 [] 2); [|reflexivity].
      apply (tidy_leave [OpenMain (Some (BoxOf 0 0 9 9)) None; OpenLayer 0 A None None] 1 [0%nat] 2).
      apply (tidy_open [OpenMain (Some (BoxOf 0 0 9 9)) None] 0 [] 1). apply tidy_main.
    - exists (sq 0). cbn. tauto.
  Qed.
  Theorem C37_two_mains_refuted : exists cs, calm cs = true /\ error cs = Some (VLayerExists main_id).
  Proof. exists [OpenMain None None; sq 0; Leave 0 true; OpenMain None None; sq 1; Leave 1 true]. vm_compute. split; reflexivity. Qed.
  Theorem C37_same_name_refuted : exists cs, calm cs = true /\ error cs = Some (VLayerExists A).
  Proof.
    exists [OpenMain None None; OpenLayer 0 A None None; sq 1; Leave 1 true; OpenLayer 0 A None None; sq 2; Leave 2 true; sq 0; Leave 0 true].
    vm_compute. split; reflexivity.
  Qed.
  (** Pasting the surrounding layer. *)
  Theorem C37_paste_open_refuted : exists cs, calm cs = true /\ error cs = Some VAssertion.
  Proof.
    exists [OpenMain None None; sq 0; OpenLayer 0 A None None; Paste 1 0 (v 0 0) false; Leave 1 true; Leave 0 true].
    vm_compute. split; reflexivity.
  Qed.
  (** Drawing on the outer layer while the inner one is open: the paste comes first in the
      program, although the layer pasted was finished before. *)
  Theorem C37_outer_paste_refuted : exists cs, calm cs = true /\ error cs = Some (VLayerNotFound B).
  Proof.
    exists [OpenMain (Some (BoxOf 0 0 9 9)) None; OpenLayer 0 A None None; OpenLayer 1 B None None; sq 2; Leave 2 true;
            Paste 0 2 (v 1 1) false; sq 1; Leave 1 true; Leave 0 true].
    vm_compute. split; reflexivity.
  Qed.
End Cases.

Print Assumptions C36_contents_partial. Print Assumptions C36_nested_partial. Print Assumptions C36_finished.
Print Assumptions C36_locked. Print Assumptions C36_finalize_refuted.
Print Assumptions C37_runs_partial. Print Assumptions C37_shapely_partial. Print Assumptions C37_pillow_partial.
Print Assumptions C37_nothing_refuted. Print Assumptions C37_empty_layer_refuted. Print Assumptions C37_two_mains_refuted.
Print Assumptions C37_same_name_refuted. Print Assumptions C37_paste_open_refuted. Print Assumptions C37_outer_paste_refuted.

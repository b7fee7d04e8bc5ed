(** Property theorem C16 in files that define codes again (specification in [StaleSpec]). *)
From Verif Require Import Base Num Dict CoordModel CoordSpec Ast StateModel StateSpec StateProofs GeomModel CompilerModel
  LayerSpec LayerProofs LayerInv LayerOut LayerProps DrawSpec DrawProofs DrawProps FlashSpec FlashProofs FlashProps StaleSpec Stale.

Section Theorems.
  Context {K : Type} {NK : Num K}.
  Notation point md clock ABs := (named_point (compiler_hooks (K := K) md clock) compiler_init ABs).

  (** Two flashes with the same code and the same transformation show the same, whatever is
      walked between them and in particular however the code is defined again: the second pastes
      the layer pasted by the first, and all that this layer shows is as the first flash left it. *)
  Theorem C16_cached :
    forall (md : bool) (clock : nat -> Z) (ABs : str -> Prop) (pre pre' : list (node K)) (v v1 v2 v3 : visitor K (cstate K))
      (id : str) (x y x' y' : option str),
      point md clock ABs pre v -> drawn v <> None -> selects pre id ->
      visit_leaf (compiler_hooks md clock) (ND03 x y) v = Done v1 ->
      walk (compiler_hooks md clock) ABs (pre ++ [ND03 x y]) v1 pre' v2 -> drawn v2 <> None -> selects pre' id ->
      visit_leaf (compiler_hooks md clock) (ND03 x' y') v2 = Done v3 ->
      matrix_at pre' = matrix_at pre ->
      (forall a, In (NAD a) pre' -> exists n, dcode (ad_id a) n) -> (forall i, ABs i -> exists n, dcode i n) ->
      exists src me me',
        adds v v1 [DPaste (MkPaste src (pen_vec (pre ++ [ND03 x y])) (clear_at pre) me)] /\
        adds v2 v3 [DPaste (MkPaste src (pen_vec (pre' ++ [ND03 x' y'])) (clear_at pre') me')] /\
        shows (c_buffers (v_ext v1)) src src /\
        forall k, shows (c_buffers (v_ext v1)) src k ->
          d_get k (c_buffers (v_ext v3)) = d_get k (c_buffers (v_ext v1)).
  Proof.
    intros md clock ABs pre pre' v v1 v2 v3 id x y x' y' Hp Hd Hs E Hw Hd2 Hs2 E2 Em Hc HA.
    assert (Hsub : exists q, pre' = (pre ++ [ND03 x y]) ++ q).
    { clear - Hw. induction Hw as [|? ? n ? _ [q ->]| |? ? i _ [q ->] _| |]; auto.
      - exists []. rewrite app_nil_r. reflexivity.
      - exists (q ++ [n]). rewrite <- app_assoc. reflexivity.
      - exists (q ++ [NAB i []]). rewrite <- app_assoc. reflexivity. }
    assert (Hc1 : coded (pre ++ [ND03 x y])) by (destruct Hsub as [q ->]; eapply coded_app; exact Hc).
    assert (Hp1 : point md clock ABs (pre ++ [ND03 x y]) v1) by (eapply np_leaf; [exact Hp|exact Logic.I|left; exact E]).
    pose proof (walk_point md clock ABs _ _ _ _ Hw Hp1) as Hp2.
    destruct (flash_key md clock ABs HA _ _ _ _ _ _ Hp (coded_app _ _ Hc1) Hs Hd E) as ([b1 M1] & _ & me & A1).
    destruct (flash_key md clock ABs HA _ _ _ _ _ _ Hp2 Hc Hs2 Hd2 E2) as (_ & _ & me' & A2).
    exists (layer_key id (matrix_at pre)), me, me'. split; [exact A1|]. split; [rewrite <- Em; exact A2|].
    split; [eapply sh_self; exact M1|]. intros k Hk.
    pose proof (ready_point md clock ABs HA _ _ Hp1 Hc1) as R1.
    destruct (walk_goes md clock ABs HA _ _ _ _ Hw Hc R1) as [R2 L2].
    destruct (goes_leaf md clock (ND03 x' y') v2 v3 ltac:(discriminate) (or_introl E2) R2) as [_ L3].
    destruct (shown_keys _ _ _ (proj2 (proj2 R1)) Hk) as (k1 & m1 & -> & [b M]); [eauto|].
    rewrite M. apply L3, L2, M.
  Qed.
End Theorems.
Print Assumptions C16_cached.

(** *** Cases *)
Local Existing Instance NumQ.
Local Open Scope Q_scope.
(** The point of the thermal pasted by a layer. *)
Definition inner_pt (k : str) (v : visitor Q (cstate Q)) : option (vec Q) :=
  match d_get k (c_buffers (v_ext v)) with
  | Some b => match bf_cmds b with [DPaste p] => first_pt (d_get (pa_src p) (c_buffers (v_ext v))) | _ => None end
  | None => None
  end.
(** A macro with a thermal is flashed, then its code is defined with twice the size, and flashed
    again at another place: the layer of the code is new, the second flash shows the old one. *)
Definition before : list (node Q) := [fs26; thermal_am; th "D11" 2; NDnn (lit "D11")].
Definition between : list (node Q) := [th "D11" 4; NLP Clear].
Definition pos := Some (lit U).
Example C16_ex_cached :
  match run before with
  | Ok v =>
      selects before (lit "D11") /\
      match visit_leaf (compiler_hooks false running) (ND03 pos pos) v with
      | Done v1 =>
          inner_pt (lit "D11") v1 = Some (pt 1 0) /\
          match fold_left (fun r n => match r with Done v => visit_leaf (compiler_hooks false running) n v | _ => r end) between (Done v1) with
          | Done v2 =>
              selects (before ++ [ND03 pos pos] ++ between) (lit "D11") /\ drawn v2 <> None /\
              matrix_at (before ++ [ND03 pos pos] ++ between) = matrix_at before /\
              match visit_leaf (compiler_hooks false running) (ND03 (Some (lit "2000000")) pos) v2 with
              | Done v3 =>
                  inner_pt (lit "D11") v3 = Some (pt 2 0) /\
                  match last_src (drawn v1), last_src (drawn v3) with
                  | Some a, Some b => a = b /\ inner_pt b v3 = Some (pt 1 0)
                  | _, _ => False
                  end
              | _ => False
              end
          | _ => False
          end
      | _ => False
      end
  | Err _ => False
  end.
Proof. vm_compute. repeat split; auto; try discriminate. Qed.

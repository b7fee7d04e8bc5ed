(** C91, which attributes hover texts list: those in effect at the command. *)
From Verif Require Import Base Num Dict CoordModel Ast StateModel StateSpec StateProofs StateProps HoverModel HoverSpec HoverProofs HoverProps LayerProps MdModel MdSpec MdProps.
Local Open Scope nat_scope.

Section Keys.
  Context {V : Type}.
  Lemma d_set_nodup k (v : V) d : NoDup (d_keys d) -> NoDup (d_keys (d_set k v d)).
  Proof.
    unfold d_keys. induction d as [|[k' v'] d IH]; intros H; cbn [d_set]; [repeat constructor; intros []|]. inversion H as [|? ? Hn Hd]; subst. destruct (str_eqb k k') eqn:E; [exact H|].
    cbn [map fst]. constructor; [|exact (IH Hd)]. intros X. change (In k' (d_keys (d_set k v d))) in X. apply d_keys_set in X as [X|X]; [|exact (Hn X)].
    subst k'. rewrite str_eqb_refl in E. discriminate.
  Qed.
  Lemma d_del_sub k k' (d : dict V) : In k' (d_keys (d_del k d)) -> In k' (d_keys d).
  Proof. unfold d_keys. induction d as [|[a v] d IH]; cbn [d_del]; [intros []|]. destruct (str_eqb k a); cbn; tauto. Qed.
  Lemma d_del_nodup k (d : dict V) : NoDup (d_keys d) -> NoDup (d_keys (d_del k d)).
  Proof.
    unfold d_keys. induction d as [|[a v] d IH]; intros H; cbn [d_del]; [exact H|]. inversion H as [|? ? Hn Hd]; subst. destruct (str_eqb k a); [exact (IH Hd)|].
    cbn [map fst]. constructor; [|exact (IH Hd)]. intros X. exact (Hn (d_del_sub k a d X)).
  Qed.
  Lemma d_get_in k (v : V) d : NoDup (d_keys d) -> (In (k, v) d <-> d_get k d = Some v).
  Proof.
    unfold d_keys. induction d as [|[a w] d IH]; intros H; cbn [d_get]; [split; [intros []|discriminate]|]. inversion H as [|? ? Hn Hd]; subst. destruct (str_eqb k a) eqn:E.
    - apply str_eqb_eq in E. subst a. split; [intros [X|X]; [congruence|exfalso; apply Hn; exact (in_map fst _ _ X)]|]. intros X. left. congruence.
    - rewrite <- (IH Hd). split; [intros [X|X]; [|exact X]|intros X; right; exact X]. injection X as -> _. rewrite str_eqb_refl in E. discriminate.
  Qed.
End Keys.

Section Effect.
  Context {K : Type} {NK : Num K}.
  Definition distinct (s : state K) : Prop :=
    NoDup (d_keys (s_ap_attrs s)) /\ NoDup (d_keys (s_obj_attrs s)) /\ forall id d, d_get id (s_per_ap_attrs s) = Some d -> NoDup (d_keys d).
  Lemma snaps_set id k (a : dict attr) (d : dict (dict attr)) d' : NoDup (d_keys a) -> (forall id d', d_get id d = Some d' -> NoDup (d_keys d')) ->
    d_get id (d_set k a d) = Some d' -> NoDup (d_keys d').
  Proof. intros Ha Hd. rewrite d_get_set. destruct (str_eqb id k); [intros E; injection E as <-; exact Ha|apply Hd]. Qed.
  Lemma distinct_leaf {X} (H : hooks K X) n v v' (u : unit) : is_leaf n -> distinct (v_state v) -> visit_leaf H n v = Done v' \/ visit_leaf H n v = Stop v' -> distinct (v_state v').
  Proof.
    intros Hl HR E. apply leaf_state_spec in E. revert HR E. generalize (v_state v) (v_state v'). clear v v'. intros s s' (Ha & Ho & Hs) E.
    leaf_cases n s s' E; unfold distinct; cbn; repeat split; eauto using d_set_nodup, d_del_nodup, snaps_set, NoDup_nil.
  Qed.
  Lemma distinct_file {X} (H : hooks K X) b ns v v' : distinct (v_state v) -> on_file H b ns v = Ok v' -> distinct (v_state v').
  Proof.
    intros HR E. refine (sim_file H (fun v (_ : unit) => distinct (v_state v)) (fun _ _ => tt) _ _ _ _ _ b ns v tt v' HR E).
    - intros n w w' u Hl. apply (distinct_leaf H n w w' u Hl).
    - intros id w u HR'. exact HR'.
    - intros id w u (Ha & Ho & Hs). split; [exact Ha|]. split; [exact Ho|]. intros i d. apply snaps_set; assumption.
    - intros z w u HR'. unfold sr_enter. destruct (hk_sr_open H z _ _). exact HR'.
    - intros tmp hdr w w' u HR' E'. unfold sr_leave in E'. apply lift_done in E' as (Hs & _). rewrite Hs. exact HR'.
  Qed.

  (** [l] are the entries of [m], each once, and the text lists them. *)
  Definition listed (md : attr -> str) (title text : str) (m : amap) : Prop :=
    exists l : list (str * attr), NoDup (map fst l) /\ (forall k a, In (k, a) l <-> m k = Some a) /\
      (l = [] -> text = []) /\
      (l <> [] -> (forall k a, m k = Some a -> without newline (md a)) ->
         split_on newline text = [[]; lit "---"; title] ++ map (fun x => lit "- " ++ md (snd x)) l ++ [[]; []]).
  Lemma listed_dict md title (d : dict attr) m : without newline title -> NoDup (d_keys d) -> (forall k, d_get k d = m k) -> listed md title (section title (map md (map snd d))) m.
  Proof.
    intros Ht Hn Hd. exists d. split; [exact Hn|]. split; [intros k a; rewrite (d_get_in k a d Hn), Hd; reflexivity|]. split; [intros ->; reflexivity|].
    intros Hne Hl. rewrite lines_section.
    - rewrite !map_map. reflexivity.
    - exact Ht.
    - rewrite Forall_forall. intros t Ht'. rewrite map_map in Ht'. apply in_map_iff in Ht' as ([k a] & <- & X). apply (Hl k). rewrite <- Hd. apply d_get_in; assumption.
    - destruct d; [congruence|discriminate].
  Qed.
  (** Over a command the text lists each object attribute in effect there once, and each
      attribute that was in effect where the selected aperture was defined. *)
  Theorem C91_in_effect : forall (md : attr -> str) (pre post : list (placed K)) p s, in_order 0 (pre ++ p :: post) -> hover_state (pre ++ p :: post) (pl_loc p) = Ok s ->
    let m := fold_left attrs_step (executed_file false (map pl_node pre)) attrs_init in
    listed md (lit "### Object attributes") (section (lit "### Object attributes") (map md (map snd (s_obj_attrs s)))) (as_obj m) /\
    forall id, without newline id -> as_snap m id <> None ->
      exists d f, d_get id (s_per_ap_attrs s) = Some d /\ as_snap m id = Some f /\
        listed md (lit "### Aperture attributes (`" ++ id ++ lit "`)") (section (lit "### Aperture attributes (`" ++ id ++ lit "`)") (map md (map snd d))) f.
  Proof.
    intros md pre post p s Ho E m. rewrite (proj1 (C67_state pre post p Ho)) in E. unfold state_after in E.
    destruct (on_file no_hooks false (map pl_node pre) (visitor_init tt)) as [v|] eqn:Ev; [|discriminate]. cbn [bind] in E. injection E as <-.
    assert (D : distinct (v_state v)).
    { apply (distinct_file no_hooks false (map pl_node pre) (visitor_init tt)); [|exact Ev]. repeat split; try apply NoDup_nil. intros id d X. discriminate X. }
    destruct D as (_ & Dobj & Dsnap). destruct (C08_attribute_maps _ no_hooks tt false (map pl_node pre) v Ev) as (_ & _ & Hobj & Hnone & Hsnap). fold m in Hobj, Hnone, Hsnap.
    split; [apply listed_dict; [plain|exact Dobj|exact Hobj]|]. intros id Hid Hs. destruct (d_get id (s_per_ap_attrs (v_state v))) as [d|] eqn:Ed; [|exfalso; apply Hs; apply Hnone; exact Ed].
    destruct (as_snap m id) as [f|] eqn:Ef; [|congruence]. exists d, f. split; [reflexivity|]. split; [reflexivity|]. apply listed_dict; [|exact (Dsnap id d Ed)|exact (Hsnap id d f Ed Ef)].
    intros X. apply in_app_or in X as [X|X]; [revert X; plain|]. apply in_app_or in X as [X|X]; [exact (Hid X)|revert X; plain].
  Qed.
End Effect.
Local Existing Instance NumQ.
Definition C91_attrs : list (placed Q) :=
  [MkPl 0 15 fs26; MkPl 16 9 (NTO (MkAttr (lit ".N") [lit "GND"])); MkPl 26 9 (NTO (MkAttr (lit ".C") [lit "R1"])); MkPl 36 9 (NTA (MkAttr (lit "k") [lit "v"]));
   MkPl 46 13 (adc "D10" (1#2)); MkPl 60 9 (NTO (MkAttr (lit ".N") [lit "VCC"])); MkPl 70 6 (NTD (Some (lit ".C"))); MkPl 78 6 (NDnn (lit "D10")); MkPl 90 4 (ND03 None None)].
Example C91_in_effect_case :
  match hover_state C91_attrs 90 with
  | Ok s => (section (lit "T") (map (fun a => at_name a ++ concat (at_fields a)) (map snd (s_obj_attrs s))), d_get (lit "D10") (s_per_ap_attrs s))
  | Err _ => ([], None)
  end = (sep ++ lit "T" ++ [newline] ++ lit "- .NVCC" ++ [newline; newline], Some [(lit "k", MkAttr (lit "k") [lit "v"])]).
Proof. vm_compute. reflexivity. Qed.
Print Assumptions C91_in_effect.

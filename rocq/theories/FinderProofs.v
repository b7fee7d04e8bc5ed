(** Proofs about the node finder. *)
From Verif Require Import Base FinderModel FinderSpec.
Local Open Scope nat_scope.

Section TreeInd.
  Variable P : ftree -> Prop.
  Hypothesis HT : forall name s kids, Forall P kids -> P (FT name s kids).
  Fixpoint ftree_ind' (t : ftree) : P t :=
    let 'FT name s kids := t in
    HT name s kids ((fix all l : Forall P l := match l with
      | [] => Forall_nil P | x :: r => Forall_cons x (ftree_ind' x) (all r) end) kids).
End TreeInd.

Lemma before_trans a b c : before a b -> at_or_before b c = true -> at_or_before a c = true.
Proof. unfold before, at_or_before. lia. Qed.

Lemma located_inv name s kids : located (FT name s kids) ->
  exists p, s = Some p /\ (kids = [] \/
    exists k r, kids = k :: r /\ ft_start k = Some p /\ located_list kids).
Proof. intros L. inversion L; subst; eexists; (split; [reflexivity|]); [left; reflexivity|right; eauto 6]. Qed.
Lemma located_list_inv n r : located_list (n :: r) ->
  located n /\ (forall d m, In d (document n) -> In m r -> starts_before d m) /\ located_list r.
Proof. intros L. inversion L; subst; auto. Qed.
Lemma located_app a b : located_list (a ++ b) ->
  located_list a /\ located_list b /\
  (forall d m, In d (documents a) -> In m b -> starts_before d m).
Proof.
  induction a as [|n a IH]; cbn [app]; intros L.
  - split; [constructor|]. split; [exact L|intros d m []].
  - apply located_list_inv in L as (L1 & L2 & L3). destruct (IH L3) as (A & B & C).
    split; [constructor; auto|].
    + intros d m Hd Hm. apply L2; [exact Hd|]. apply in_app_iff; auto.
    + split; [exact B|]. intros d m Hd Hm. cbn [documents flat_map] in Hd.
      apply in_app_iff in Hd as [Hd|Hd]; [|exact (C d m Hd Hm)].
      apply L2; [exact Hd|]. apply in_app_iff; auto.
Qed.
Lemma self_document t : In t (document t). Proof. destruct t; left; reflexivity. Qed.
Lemma in_documents t f : In t f -> In t (documents f).
Proof. intros H. apply in_flat_map. exists t. split; [exact H|apply self_document]. Qed.

Section Loc.
  Variable loc : pos.

  (** What is inside a command starts with or after it. *)
  Lemma inside_started t : located t -> forall d, In d (document t) ->
    starts_by loc d = true -> starts_by loc t = true.
  Proof.
    induction t as [name s kids IH] using ftree_ind'; intros L d Hd Hs.
    cbn [document] in Hd. destruct Hd as [<-|Hd]; [exact Hs|].
    apply located_inv in L as (p & -> & [->|(k & r & -> & Ek & L)]); [destruct Hd|].
    apply in_flat_map in Hd as (m & Hm & Hd). rewrite Forall_forall in IH.
    assert (Lm : located m).
    { clear -L Hm. revert L. generalize (k :: r) as l, Hm. clear. induction l as [|x l IHl]; intros Hm L; [destruct Hm|].
      apply located_list_inv in L as (L1 & _ & L3). destruct Hm as [<-|Hm]; auto. }
    pose proof (IH m Hm Lm d Hd Hs) as Hsm.
    assert (Hk : starts_by loc k = true).
    { destruct Hm as [<-|Hm]; [exact Hsm|]. apply located_list_inv in L as (_ & L2 & _).
      destruct (L2 k m (self_document k) Hm) as (a & b & Ea & Eb & Hb).
      unfold starts_by in *. rewrite Ea. rewrite Eb in Hsm. exact (before_trans _ _ _ Hb Hsm). }
    unfold starts_by in *. cbn [ft_start]. rewrite Ek in Hk. exact Hk.
  Qed.
  Lemma none_started r : located_list r -> (forall m, In m r -> starts_by loc m = false) ->
    filter (starts_by loc) (documents r) = [].
  Proof.
    induction r as [|n r IH]; intros L Hn; [reflexivity|].
    apply located_list_inv in L as (L1 & _ & L3). cbn [documents flat_map]. rewrite filter_app.
    fold (documents r). rewrite IH; [|exact L3|intros m Hm; apply Hn; right; exact Hm].
    rewrite app_nil_r.
    assert (A : forall d, In d (document n) -> starts_by loc d = false).
    { intros d Hd. destruct (starts_by loc d) eqn:E; [|reflexivity].
      pose proof (inside_started n L1 d Hd E) as E2. rewrite (Hn n (or_introl eq_refl)) in E2. discriminate. }
    revert A. generalize (document n). induction l as [|d l IHl]; intros A; [reflexivity|].
    cbn [filter]. rewrite (A d (or_introl eq_refl)). apply IHl. intros e He. apply A. right; exact He.
  Qed.

  Lemma last_cons {A} (r : list A) x d : last (x :: r) d = last r x.
  Proof. revert x d. induction r as [|y r IH]; intros x d; [reflexivity|]. exact (eq_trans (IH y d) (eq_sym (IH y x))). Qed.
  Lemma last_app_cons {A} (a b : list A) y d : last (a ++ y :: b) d = last b y.
  Proof.
    revert d. induction a as [|x a IH]; intros d; cbn [app].
    - apply last_cons.
    - rewrite last_cons. apply IH.
  Qed.
  Lemma last_opt_app {A} (a b : list A) u : last_opt b = Some u -> last_opt (a ++ b) = Some u.
  Proof.
    destruct b as [|y b]; [discriminate|]. cbn [last_opt]. intros E; injection E as <-.
    destruct a as [|x a]; [reflexivity|]. cbn [app last_opt]. f_equal. apply last_app_cons.
  Qed.
  Lemma last_started_prefix a b u : last_started loc b = Some u -> last_started loc (a ++ b) = Some u.
  Proof.
    unfold last_started, documents. rewrite flat_map_app, filter_app. apply last_opt_app.
  Qed.
  Lemma last_started_suffix a b : located_list b -> (forall m, In m b -> starts_by loc m = false) ->
    last_started loc (a ++ b) = last_started loc a.
  Proof.
    intros L Hn. unfold last_started. unfold documents at 1. rewrite flat_map_app, filter_app.
    fold (documents a) (documents b). rewrite (none_started b L Hn), app_nil_r. reflexivity.
  Qed.
  Lemma within_prefix a b c : within loc b c -> within loc (a ++ b) c.
  Proof. intros W. inversion W; subst; rewrite app_assoc; constructor; assumption. Qed.
  Lemma within_suffix a b c : (forall m, In m b -> starts_by loc m = false) ->
    within loc a c -> within loc (a ++ b) c.
  Proof.
    intros Hn W. inversion W as [l t r H1 H2 H3|l t r c' H1 H2 H3]; subst; rewrite <- app_assoc; cbn [app].
    - apply WLeaf; auto. intros m Hm. apply in_app_iff in Hm as [Hm|Hm]; auto.
    - apply WBlock; auto. intros m Hm. apply in_app_iff in Hm as [Hm|Hm]; auto.
  Qed.

  (** The finder's answer for a chain of nested commands. *)
  Definition column_ok (t : ftree) : bool :=
    match ft_start t with Some p => (p_column p <=? p_column loc)%Z | None => true end.
  Definition answer (c : list ftree) : found :=
    if forallb column_ok c then match last_opt c with Some u => FNode u | None => FNothing end
    else FNothing.

  Lemma last_opt_cons {A} (x : A) l u : last_opt l = Some u -> last_opt (x :: l) = Some u.
  Proof. apply (last_opt_app [x]). Qed.

  Lemma search_ok fuel : forall ns n0 r0 rn, ns = n0 :: r0 ->
    length (documents ns) < fuel -> located_list ns -> starts_by loc n0 = true ->
    exists c u, within loc ns c /\ last_opt c = Some u /\ last_started loc ns = Some u /\
      bin_search loc fuel ns rn = Ok (answer c, answer c).
  Proof.
    induction fuel as [|fuel IH]; intros ns n0 r0 rn -> Hf L H0; [lia|].
    destruct r0 as [|n1 r1].
    - (* a single node *)
      destruct n0 as [name s kids]. apply located_list_inv in L as (L & _ & _).
      apply located_inv in L as (p & -> & Hk).
      cbn [bin_search ft_start ft_kids].
      destruct Hk as [->|(k & r & -> & Ek & Lk)].
      + set (n := FT name (Some p) []) in *. exists [n], n. split; [|split; [reflexivity|split]].
        * apply (WLeaf loc [] n []); [exact H0|intros m []|reflexivity].
        * unfold last_started. cbn [documents flat_map document n app filter]. unfold n in H0. rewrite H0. reflexivity.
        * unfold answer. cbn [forallb column_ok ft_start n]. rewrite andb_true_r, Z.leb_antisym.
          destruct (p_column loc <? p_column p)%Z; reflexivity.
      + set (n := FT name (Some p) (k :: r)) in *.
        assert (Hks : starts_by loc k = true).
        { unfold starts_by in *. rewrite Ek. exact H0. }
        assert (Hf' : length (documents (k :: r)) < fuel).
        { cbn [documents flat_map document n] in Hf. rewrite app_nil_r in Hf. cbn [length] in Hf.
          unfold documents. cbn [flat_map]. lia. }
        destruct (IH (k :: r) k r (FNode n) eq_refl Hf' Lk Hks) as (c & u & W & Hc & Hl & Hb).
        exists (n :: c), u. split; [|split; [|split]].
        * apply (WBlock loc [] n [] c); [exact H0|intros m []|exact W].
        * apply last_opt_cons, Hc.
        * unfold last_started in *. cbn [documents flat_map document n]. rewrite app_nil_r. cbn [filter].
          unfold n in H0. rewrite H0. apply last_opt_cons. exact Hl.
        * fold (bin_search loc). rewrite Hb. cbn [bind snd].
          unfold answer at 3 4. cbn [forallb column_ok ft_start n]. rewrite Z.leb_antisym.
          destruct (p_column loc <? p_column p)%Z; cbn [negb andb]; [reflexivity|].
          unfold answer. rewrite (last_opt_cons n c u Hc), Hc. reflexivity.
    - (* two or more *)
      set (ns := n0 :: n1 :: r1) in *. set (c := Nat.div (length ns) 2).
      assert (Hlen : 2 <= length ns) by (unfold ns; cbn [length]; lia).
      assert (Hc1 : 1 <= c) by (unfold c; apply (Nat.div_le_mono 2 (length ns) 2); lia).
      assert (Hc2 : c < length ns) by (unfold c; apply Nat.div_lt; lia).
      destruct (nth_error ns c) as [center|] eqn:Ec; [|apply nth_error_None in Ec; lia].
      destruct (nth_error_split ns c Ec) as (a & b & Eab & Ea).
      assert (Ef : firstn c ns = a).
      { rewrite Eab, <- Ea. rewrite firstn_app, firstn_all, Nat.sub_diag. apply app_nil_r. }
      assert (Es : skipn c ns = center :: b).
      { rewrite Eab, <- Ea. rewrite skipn_app, skipn_all, Nat.sub_diag. reflexivity. }
      assert (Hd : length (documents ns) = length (documents a) + (length (document center) + length (documents b))).
      { rewrite Eab. unfold documents. rewrite flat_map_app. cbn [flat_map]. rewrite !app_length. reflexivity. }
      assert (Hdc : 1 <= length (document center)) by (destruct center; cbn; lia).
      assert (Hda : 1 <= length (documents a)).
      { destruct a as [|x a']; [cbn [length] in Ea; lia|]. unfold documents. cbn [flat_map].
        rewrite app_length. destruct x; cbn; lia. }
      pose proof L as L'. rewrite Eab in L'. apply located_app in L' as (La & Lb & Lab).
      apply located_list_inv in Lb as (Lc & Lcb & Lb).
      assert (Hst : exists p, ft_start center = Some p).
      { destruct center as [nm s k]. apply located_inv in Lc as (p & -> & _). exists p; reflexivity. }
      destruct Hst as [p Hp].
      assert (Eb : bin_search loc (S fuel) ns rn =
        if (p_line loc =? p_line p)%Z then
          if (p_column loc =? p_column p)%Z then bin_search loc fuel [center] rn
          else if (p_column loc <? p_column p)%Z then bin_search loc fuel a rn
          else bin_search loc fuel (center :: b) rn
        else if (p_line loc <? p_line p)%Z then bin_search loc fuel a rn
        else bin_search loc fuel (center :: b) rn).
      { rewrite <- Ef, <- Es. unfold ns. cbn [bin_search]. fold ns. fold c. rewrite Ec, Hp. reflexivity. }
      rewrite Eb. clear Eb.
      (* the three continuations *)
      assert (Later : (forall m, In m b -> before p (match ft_start m with Some q => q | None => p end) /\ exists q, ft_start m = Some q)).
      { intros m Hm. destruct (Lcb center m (self_document center) Hm) as (x & y & Ex & Ey & Hxy).
        rewrite Hp in Ex. injection Ex as <-. rewrite Ey. eauto. }
      assert (CaseA : at_or_before p loc = false ->
        exists ch u, within loc ns ch /\ last_opt ch = Some u /\ last_started loc ns = Some u /\
          bin_search loc fuel a rn = Ok (answer ch, answer ch)).
      { intros Hn.
        assert (Hnone : forall m, In m (center :: b) -> starts_by loc m = false).
        { intros m [<-|Hm]; unfold starts_by; [rewrite Hp; exact Hn|].
          destruct (Later m Hm) as [Hb [q Eq]]. rewrite Eq in *.
          revert Hn Hb. unfold at_or_before, before. lia. }
        destruct a as [|a0 a']; [cbn in Hda; lia|].
        assert (a0 = n0) as -> by (unfold ns in Eab; cbn [app] in Eab; congruence).
        destruct (IH (n0 :: a') n0 a' rn eq_refl) as (ch & u & W & Hc & Hl & Hb); auto; [lia|].
        exists ch, u. rewrite Eab. split; [apply within_suffix; assumption|].
        split; [exact Hc|]. split; [|exact Hb].
        rewrite last_started_suffix; [exact Hl| |exact Hnone].
        constructor; assumption. }
      assert (CaseB : at_or_before p loc = true ->
        exists ch u, within loc ns ch /\ last_opt ch = Some u /\ last_started loc ns = Some u /\
          bin_search loc fuel (center :: b) rn = Ok (answer ch, answer ch)).
      { intros Hn.
        assert (Hsc : starts_by loc center = true) by (unfold starts_by; rewrite Hp; exact Hn).
        assert (Hfu : length (documents (center :: b)) < fuel).
        { unfold documents. cbn [flat_map]. rewrite app_length. fold (documents b). lia. }
        destruct (IH (center :: b) center b rn eq_refl Hfu) as (ch & u & W & Hc & Hl & Hb); auto.
        { constructor; assumption. }
        exists ch, u. rewrite Eab. split; [apply within_prefix, W|]. split; [exact Hc|].
        split; [apply last_started_prefix, Hl|exact Hb]. }
      destruct (p_line loc =? p_line p)%Z eqn:E1.
      + destruct (p_column loc =? p_column p)%Z eqn:E2.
        * assert (Hsc : starts_by loc center = true).
          { unfold starts_by. rewrite Hp. unfold at_or_before. lia. }
          assert (Hnone : forall m, In m b -> starts_by loc m = false).
          { intros m Hm. unfold starts_by. destruct (Later m Hm) as [Hb [q Eq]]. rewrite Eq in *.
            revert Hb. unfold at_or_before, before. lia. }
          assert (Hfu : length (documents [center]) < fuel).
          { unfold documents. cbn [flat_map]. rewrite app_nil_r. lia. }
          destruct (IH [center] center [] rn eq_refl Hfu) as (ch & u & W & Hc & Hl & Hb); auto.
          { constructor; [assumption|intros d m _ []|constructor]. }
          exists ch, u. rewrite Eab. change (center :: b) with ([center] ++ b).
          split; [apply within_prefix, within_suffix; assumption|]. split; [exact Hc|].
          split; [|exact Hb]. apply last_started_prefix. rewrite last_started_suffix; assumption.
        * destruct (p_column loc <? p_column p)%Z eqn:E3.
          -- apply CaseA. unfold at_or_before. lia.
          -- apply CaseB. unfold at_or_before. lia.
      + destruct (p_line loc <? p_line p)%Z eqn:E3.
        * apply CaseA. unfold at_or_before. lia.
        * apply CaseB. unfold at_or_before. lia.
  Qed.
End Loc.

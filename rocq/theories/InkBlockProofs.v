(** C85 with blocks: empty groups of pictures, and what commands leave. *)
From Coq Require Import Reals Lra Lia Permutation.
From Verif Require Import Base Num NumReal Dict CoordModel CoordSpec Ast StateModel StateSpec StateProofs GeomModel CompilerModel LayerSpec LayerProofs LayerInv LayerOut
  DrawSpec DrawProofs FlashSpec FlashProofs PlaceSpec PlaceProofs RenderSpec RenderProofs InkSpec InkProofs BlockSpec BlockProofs InkBlockSpec.

(** ** Pictures without empty groups *)
Fixpoint solid {K} (p : pic K) : bool :=
  match p with PShape _ => true | PGroup _ _ l => match l with [] => false | _ => forallb solid l end end.
Definition inked {K} (l : list (pic K)) : ink := Ink (match l with [] => false | _ => true end) (forallb solid l).

Section Pictures.
  Context {K : Type} {NK : Num K}.
  Lemma solid_group neg c (l : list (pic K)) : solid (PGroup neg c l) = some (inked l) && sound (inked l).
  Proof. destruct l; reflexivity. Qed.
  Lemma inked_app (a b : list (pic K)) : inked (a ++ b) = both (inked a) (inked b).
  Proof. unfold inked, both. cbn [some sound]. rewrite forallb_app. destruct a, b; reflexivity. Qed.
  Lemma image_solid M p : forall p' : pic K, pic_image M p p' -> solid p' = solid p.
  Proof.
    induction p as [s|neg c l IH] using pic_ind'; intros p' H; inversion H as [s0 s' Hs|n0 c0 l0 l' Hl]; subst; [reflexivity|].
    rewrite !solid_group. assert (X : inked l' = inked l).
    { unfold inked. f_equal; [inversion Hl; reflexivity|]. clear H. induction Hl as [|x y l l' Hx Hl' IHl]; [reflexivity|]. inversion IH; subst. cbn [forallb]. f_equal; auto. }
    rewrite X. reflexivity.
  Qed.
  Lemma images_inked M (l l' : list (pic K)) : Forall2 (pic_image M) l l' -> inked l' = inked l.
  Proof.
    intros H. unfold inked. f_equal; [inversion H; reflexivity|]. induction H as [|x y l l' Hx _ IH]; [reflexivity|]. cbn [forallb]. f_equal; [eapply image_solid; eauto|exact IH].
  Qed.
  Lemma displaced_inked t (l : list (pic K)) : inked (map (displace t) l) = inked l.
  Proof.
    unfold inked. f_equal; [destruct l; reflexivity|]. induction l as [|x l IH]; [reflexivity|]. cbn [map forallb]. f_equal; [destruct x; reflexivity|exact IH].
  Qed.
  Lemma repeated_inked at0 nx ny dx dy (l : list (pic K)) : (1 <= nx)%nat -> (1 <= ny)%nat -> inked (repeated at0 nx ny dx dy l) = inked l.
  Proof.
    intros Hx Hy. unfold repeated. assert (Hne : list_prod (seq 0 nx) (seq 0 ny) <> []) by (destruct nx, ny; try lia; discriminate).
    assert (X : forall js, js <> [] -> inked (flat_map (fun ij => map (displace (plus at0 (MkVec (times (fst ij) dx) (times (snd ij) dy)))) l) js) = inked l).
    { clear. induction js as [|j js IH]; [congruence|]. intros _. cbn [flat_map]. rewrite inked_app, displaced_inked. destruct js as [|j' js].
      - unfold both. cbn. rewrite orb_false_r, andb_true_r. reflexivity.
      - rewrite IH by discriminate. unfold both. rewrite orb_diag, andb_diag. destruct (inked l); reflexivity. }
    apply X, Hne.
  Qed.

  (** Layers that are not empty have pictures without empty groups. *)
  Lemma depicts_solid (bs : dict (buffer K)) (S : str -> Prop) :
    (forall src, S src -> exists b, d_get src bs = Some b /\ bf_cmds b <> [] /\ forall s, pastes (bf_cmds b) s -> S s) ->
    forall p d, depicts bs d p -> (forall src, pastes [d] src -> S src) -> solid p = true.
  Proof.
    intros HS. induction p as [s|neg c l IH] using pic_ind'; intros d Hd Hp; [reflexivity|]. inversion Hd as [|q b l0 Hb Hl]; subst.
    destruct (HS (pa_src q)) as (b' & B1 & B2 & B3); [apply Hp; exists q; split; [left; reflexivity|reflexivity]|]. rewrite Hb in B1. injection B1 as <-.
    rewrite solid_group. unfold inked. cbn [some sound]. destruct l as [|p0 l]; [inversion Hl as [X|]; symmetry in X; contradiction|]. cbn [andb].
    clear Hd Hb. revert B3 Hl IH. generalize (bf_cmds b), (p0 :: l). clear - HS. intros ds ps B3 Hl. induction Hl as [|d p ds ps Hd _ IHl]; intros IH; [reflexivity|]. inversion IH; subst.
    cbn [forallb]. rewrite (H1 d Hd), (IHl); auto.
    - intros s (q & Hq & Es). apply B3. exists q. split; [right; exact Hq|exact Es].
    - intros s (q & [Hq|[]] & Es). apply B3. exists q. split; [left; exact Hq|exact Es].
  Qed.
End Pictures.

(** ** What commands leave *)
Scheme node_pics_mut := Minimality for node_pics Sort Prop with list_pics_mut := Minimality for list_pics Sort Prop.
Scheme node_ink_mut := Minimality for node_ink Sort Prop with list_ink_mut := Minimality for list_ink Sort Prop.

Section Leaves.
  Context (text : R -> str) (width : vec R -> ad R -> R -> Prop) (md : bool) (clock : nat -> Z).
  Notation NT := (with_text NumR text).
  Definition inks (B : dict (list (pic R))) : dict ink := map (fun kl => (fst kl, inked (snd kl))) B.
  Lemma inks_get id B : d_get id (inks B) = option_map inked (d_get id B).
  Proof. induction B as [|[k l] B IH]; [reflexivity|]. cbn [inks map fst snd d_get]. destruct (str_eqb id k); [reflexivity|exact IH]. Qed.

  Lemma aperture_inked pre a p q l : NoDup (ad_codes pre) -> pre = p ++ NAD a :: q -> aperture_pics (NK := NT) md clock pre a l ->
    some (inked l) && sound (inked l) = true <-> marks_aperture p a.
  Proof.
    intros HD Ep (p' & q' & s & x0 & x1 & b & Ep' & Hm & Ha & Hb & Hl).
    assert (p' = p) as -> by (apply (ad_split p' q' p q a); [rewrite <- Ep'; exact HD|congruence]).
    destruct (aperture_marks text clock md a s x0 x1 p Hm Ha) as (b' & B1 & B2 & B3). rewrite Hb in B1. injection B1 as <-. rewrite <- B2. unfold inked. cbn [some sound].
    assert (X : forallb solid l = true).
    { assert (Y : forall ds l, Forall2 (depicts (c_buffers x1)) ds l -> (forall s, pastes ds s -> pastes (bf_cmds b) s) -> forallb solid l = true).
      { clear - B3. induction 1 as [|d p ds l Hd _ IH]; intros Hs; [reflexivity|]. cbn [forallb].
        rewrite (depicts_solid (c_buffers x1) (pastes (bf_cmds b)) B3 p d Hd), IH; [reflexivity| |].
        - intros s (q & Hq & Es). apply Hs. exists q. split; [right; exact Hq|exact Es].
        - intros s (q & [Hq|[]] & Es). apply Hs. exists q. split; [left; exact Hq|exact Es]. }
      apply (Y _ _ Hl). auto. }
    rewrite X, andb_true_r. inversion Hl; split; congruence || discriminate.
  Qed.

  Lemma leaf_inked pre B n ps : NoDup (ad_codes pre) -> leaf_pics (NK := NT) width md clock pre B n ps -> leaf_ink pre (inks B) n (inked ps).
  Proof.
    intros HD H. assert (Dec : (exists x y, n = ND03 x y) \/ match n with ND03 _ _ => False | _ => True end) by (destruct n; eauto). destruct Dec as [(x & y & ->)|Dec].
    - cbn [leaf_pics leaf_ink] in *. destruct H as [(a & l & l' & [S1 (p & q & S2 & S3)] & Ha & Hi & ->)|(id & l & l' & S1 & S2 & S3 & Hi & ->)].
      + left. exists a, p, q. repeat (split; [assumption|]). split; [reflexivity|]. rewrite <- (aperture_inked pre a p q l HD S2 Ha), <- (images_inked (NK := NT) _ _ _ Hi).
        unfold inked at 1. cbn [sound forallb]. rewrite andb_true_r, solid_group. reflexivity.
      + right. exists id. split; [exact S1|]. split; [exact S2|]. rewrite inks_get, S3. cbn [option_map]. f_equal. rewrite displaced_inked. symmetry. exact (images_inked (NK := NT) _ _ _ Hi).
    - assert (H' : exists ds, Forall2 shape_pic ds ps /\ (ds <> [] <-> marks pre n)) by (destruct n; try contradiction; destruct H as (ds & A & _ & C & _); exists ds; auto).
      destruct H' as (ds & A & C). assert (X : (some (inked ps) = true <-> marks pre n) /\ sound (inked ps) = true).
      { rewrite <- C. unfold inked. cbn [some sound]. split; [inversion A; split; congruence || discriminate|]. clear C H. induction A as [|d p ds ps (s & _ & ->) _ IH]; [reflexivity|exact IH]. }
      destruct n; try contradiction; exact X.
  Qed.

  Lemma list_extends : forall pre B ns pre' B' ps, list_pics (NK := NT) width md clock pre B ns pre' B' ps -> exists q, pre' = pre ++ q.
  Proof.
    apply (list_pics_mut R NT width md clock (fun pre _ _ pre' _ _ => exists q, pre' = pre ++ q) (fun pre _ _ pre' _ _ => exists q, pre' = pre ++ q)).
    - intros pre B n ps _ _. eauto.
    - intros pre B id body pre' B' l _ (q & ->). exists (q ++ [NAB id []]). rewrite app_assoc. reflexivity.
    - auto.
    - intros pre B. exists []. rewrite app_nil_r. reflexivity.
    - intros pre B n pre1 B1 a r pre2 B2 b _ (q & ->) _ (q2 & ->). exists (q ++ q2). rewrite app_assoc. reflexivity.
  Qed.
  Lemma list_inked : forall pre B ns pre' B' ps, list_pics (NK := NT) width md clock pre B ns pre' B' ps -> NoDup (ad_codes pre') -> list_ink pre (inks B) ns pre' (inks B') (inked ps).
  Proof.
    assert (HP : forall (a b : list (node R)), NoDup (ad_codes (a ++ b)) -> NoDup (ad_codes a)) by (intros a b X; unfold ad_codes in *; rewrite flat_map_app in X; eapply NoDup_app_l; exact X).
    apply (list_pics_mut R NT width md clock (fun pre B n pre' B' ps => NoDup (ad_codes pre') -> node_ink pre (inks B) n pre' (inks B') (inked ps))
      (fun pre B ns pre' B' ps => NoDup (ad_codes pre') -> list_ink pre (inks B) ns pre' (inks B') (inked ps))).
    - intros pre B n ps Hn H HD. constructor; [exact Hn|]. apply leaf_inked; [exact (HP _ _ HD)|exact H].
    - intros pre B id body pre' B' l _ IH HD. cbn [inks map fst snd]. change (inked (@nil (pic R))) with blank. apply ni_block. apply IH. exact (HP _ _ HD).
    - intros pre B u h body pre' B' l nx ny dx dy _ IH (C1 & C2 & _) HD.
      assert (C : forall t n, count_means t n -> (1 <= n)%nat) by (intros t n; unfold count_means; destruct t; [intros [_ X]|intros ->]; lia).
      rewrite repeated_inked by eauto. apply ni_repeat. apply IH, HD.
    - intros pre B _. apply li_nil.
    - intros pre B n pre1 B1 a r pre2 B2 b _ IH1 Hr IH2 HD. rewrite inked_app. eapply li_cons; [apply IH1|apply IH2, HD].
      destruct (list_extends _ _ _ _ _ _ Hr) as (q & ->). exact (HP _ _ HD).
  Qed.
End Leaves.

Lemma leaf_ink_fun pre B n i j : leaf_ink pre B n i -> leaf_ink pre B n j -> i = j.
Proof.
  assert (Bool : forall a b : bool, (a = true <-> b = true) -> a = b) by (intros [] [] [X Y]; auto; symmetry; auto).
  destruct i as [a b], j as [c d]. intros H1 H2.
  assert (Dec : (exists x y, n = ND03 x y) \/ match n with ND03 _ _ => False | _ => True end) by (destruct n; eauto). destruct Dec as [(x & y & ->)|Dec].
  - cbn [leaf_ink some sound] in *. destruct H1 as [(a1 & p & q & A1 & A2 & A3 & A4 & A5)|(id & A1 & A2 & A3)], H2 as [(a2 & p2 & q2 & C1 & C2 & C3 & C4 & C5)|(id2 & C1 & C2 & C3)].
    + assert (X : p2 = p /\ a2 = a1).
      { assert (Eid : ad_id a2 = ad_id a1) by congruence. clear - A2 A3 C2 C3 Eid. rewrite A2 in C2. clear A2. revert p2 C2. induction p as [|z p IH]; intros [|z2 p2] E; cbn [app] in E.
        - injection E as <- _. auto.
        - exfalso. injection E as _ E. subst q. apply A3. unfold ad_codes. rewrite flat_map_app. apply in_or_app. right. cbn [flat_map ad_code]. left. symmetry in Eid. rewrite Eid. reflexivity.
        - exfalso. injection E as _ E. subst q2. apply C3. unfold ad_codes. rewrite flat_map_app. apply in_or_app. right. cbn [flat_map ad_code]. left. symmetry. exact Eid.
        - injection E as -> E. destruct (IH p2 E) as [-> ->]. auto. }
      destruct X as [-> ->]. f_equal; [congruence|]. apply Bool. rewrite A5, C5. reflexivity.
    + exfalso. apply C2. assert (id2 = ad_id a1) as -> by congruence. rewrite A2. unfold ad_codes. rewrite flat_map_app. apply in_or_app. right. left. reflexivity.
    + exfalso. apply A2. assert (id = ad_id a2) as -> by congruence. rewrite C2. unfold ad_codes. rewrite flat_map_app. apply in_or_app. right. left. reflexivity.
    + congruence.
  - assert (X : forall i : ink, leaf_ink pre B n i -> (some i = true <-> marks pre n) /\ sound i = true) by (intros k; destruct n; try contradiction; auto).
    destruct (X _ H1) as [A1 A2], (X _ H2) as [C1 C2]. cbn [some sound] in *. f_equal; [|congruence]. apply Bool. rewrite A1, C1. reflexivity.
Qed.
Lemma list_ink_fun : forall pre B ns pre' B' i, list_ink pre B ns pre' B' i -> forall pre2 B2 j, list_ink pre B ns pre2 B2 j -> pre2 = pre' /\ B2 = B' /\ j = i.
Proof.
  apply (list_ink_mut (fun pre B n pre' B' i => forall pre2 B2 j, node_ink pre B n pre2 B2 j -> pre2 = pre' /\ B2 = B' /\ j = i)
    (fun pre B ns pre' B' i => forall pre2 B2 j, list_ink pre B ns pre2 B2 j -> pre2 = pre' /\ B2 = B' /\ j = i)).
  - intros pre B n i Hn H pre2 B2 j H2. inversion H2; subst; try contradiction. repeat split; auto. eapply leaf_ink_fun; eauto.
  - intros pre B id body pre' B' i _ IH pre2 B2 j H2. inversion H2; subst; [contradiction|]. match goal with X : list_ink _ _ _ _ _ _ |- _ => destruct (IH _ _ _ X) as (-> & -> & ->) end. auto.
  - intros pre B u h body pre' B' i _ IH pre2 B2 j H2. inversion H2; subst; [contradiction|]. apply IH. assumption.
  - intros pre B pre2 B2 j H2. inversion H2; auto.
  - intros pre B n pre1 B1 i r pre' B' j _ IH1 _ IH2 pre2 B2 k H2. inversion H2; subst.
    match goal with X : node_ink _ _ _ _ _ _ |- _ => destruct (IH1 _ _ _ X) as (-> & -> & ->) end.
    match goal with X : list_ink _ _ _ _ _ _ |- _ => destruct (IH2 _ _ _ X) as (-> & -> & ->) end. auto.
Qed.

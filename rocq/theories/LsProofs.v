(** The document of the language server computes its answers from its latest text. *)
From Verif Require Import Base LockModel LockSpec LsModel LsSpec.
Local Open Scope nat_scope.

Section Proofs.
Context {Ast State Node Pos Range Items Code : Type}.
Variable G : gerber_lib Ast State Node Pos Range Items Code.
Variable sup : str -> bool.
Notation doc := (gdoc Ast State Items).
Notation ans := (answer Range Items Code).

(** A document that agrees with its text. *)
Record agrees (text : option str) (d : doc) : Prop := {
  g_ast : d_ast d = tree G text;
  g_st : forall s, d_state d = Some s -> exists a, d_ast d = Some a /\ g_track G a = Some s;
  g_ap : forall x, d_apertures d = Some x ->
           exists a s, d_ast d = Some a /\ g_track G a = Some s /\ g_items G s = Some x
}.

Lemma agrees_flushed : agrees None (flushed G).
Proof. constructor; cbn; [reflexivity|discriminate|discriminate]. Qed.

Lemma load_agrees t d : d_ast d = None -> d_state d = None -> d_apertures d = None ->
  agrees (Some t) (fst (load_ast G t d)) /\ snd (load_ast G t d) = g_parse G t.
Proof.
  intros H1 H2 H3. unfold load_ast. rewrite H1. destruct (g_parse G t) as [a|] eqn:E; cbn.
  - split; [|reflexivity]. constructor; cbn; rewrite ?E, ?H2, ?H3; try discriminate. reflexivity.
  - split; [|reflexivity]. constructor; cbn; rewrite ?E, ?H1, ?H2, ?H3; try discriminate. reflexivity.
Qed.

Lemma get_state_agrees text d : agrees text d ->
  agrees text (fst (get_state G d)) /\
  d_ast (fst (get_state G d)) = d_ast d /\
  d_apertures (fst (get_state G d)) = d_apertures d /\
  forall a, d_ast d = Some a ->
    snd (get_state G d) = match g_track G a with Some s => Some (Some s) | None => None end.
Proof.
  intros A. unfold get_state. destruct (d_state d) as [s|] eqn:Es.
  - cbn. repeat split; try apply A. intros a Ha. destruct (g_st _ _ A _ Es) as [a' [H1 H2]].
    assert (a' = a) by congruence. subst a'. rewrite H2. reflexivity.
  - destruct (d_ast d) as [a|] eqn:Ea.
    + destruct (g_track G a) as [s|] eqn:Et; cbn.
      * split; [|repeat split; try congruence].
        -- constructor; cbn.
           ++ rewrite <- Ea. exact (g_ast _ _ A).
           ++ intros s' H. injection H as <-. exists a. auto.
           ++ intros x Hx. destruct (g_ap _ _ A _ Hx) as [a' [s' [H1 H2]]]. exists a', s'.
              rewrite Ea in H1. auto.
        -- intros a' Ha. injection Ha as <-. rewrite Et. reflexivity.
      * split; [exact A|]. repeat split; try congruence. intros a' Ha. injection Ha as <-. rewrite Et. reflexivity.
    + cbn. split; [exact A|]. repeat split; try congruence.
Qed.

Lemma apertures_agrees text d a : agrees text d -> d_ast d = Some a ->
  agrees text (fst (complete_apertures G d)) /\
  snd (complete_apertures G d : doc * option ans) =
    match g_track G a with
    | Some s => match g_items G s with Some x => Some (AApertures x) | None => None end
    | None => None end.
Proof.
  intros A Ha. unfold complete_apertures. destruct (d_apertures d) as [x|] eqn:Ex.
  - cbn. split; [exact A|]. destruct (g_ap _ _ A _ Ex) as [a' [s [H1 [H2 H3]]]].
    assert (a' = a) by congruence. subst a'. rewrite H2, H3. reflexivity.
  - destruct (get_state_agrees _ _ A) as [A1 [E1 [E2 E3]]]. specialize (E3 a Ha).
    destruct (get_state G d) as [d1 o]. cbn in *. subst o.
    destruct (g_track G a) as [s|] eqn:Et; [|cbn; auto].
    destruct (g_items G s) as [x|] eqn:Ei; [|cbn; auto]. cbn. split; [|reflexivity].
    constructor; cbn; try apply A1.
    intros y Hy. injection Hy as <-. exists a, s. rewrite E1. auto.
Qed.

Lemma extended_agrees text d a : agrees text d -> d_ast d = Some a ->
  agrees text (fst (complete_extended G d)) /\
  snd (complete_extended G d : doc * option ans) =
    match g_track G a with
    | Some s => match g_next_code G s with Some c => Some (AExtended (Some c)) | None => None end
    | None => None end.
Proof.
  intros A Ha. unfold complete_extended.
  destruct (get_state_agrees _ _ A) as [A1 [E1 [E2 E3]]]. specialize (E3 a Ha).
  destruct (get_state G d) as [d1 o]. cbn in *. subst o. destruct (g_track G a); cbn; auto.
Qed.

Lemma starts_cons c y l : starts c (y :: l) = true <-> y = c.
Proof. cbn. rewrite Ascii.eqb_eq. split; congruence. Qed.

Lemma completion_agrees text d p : agrees text d ->
  agrees text (fst (on_completion G p d)) /\
  snd (on_completion G p d : doc * option ans) =
    match tree G text with Some a => completion_of G a p | None => Some ANothing end.
Proof.
  intros A. unfold on_completion, completion_of. pose proof (g_ast _ _ A) as Ea. rewrite <- Ea.
  destruct (d_ast d) as [a|] eqn:Ed; [|cbn; auto].
  destruct (g_find G a p) as [[n|]|]; try (cbn; auto; fail).
  destruct (g_invalid G n) as [[|y l]|]; try (cbn; auto; fail).
  destruct (starts "G" (y :: l)) eqn:E1; [apply starts_cons in E1; subst y; cbn; auto|].
  destruct (starts "D" (y :: l)) eqn:E2.
  { apply starts_cons in E2; subst y. exact (apertures_agrees _ _ _ A Ed). }
  destruct (starts "%" (y :: l)) eqn:E3.
  { apply starts_cons in E3; subst y. exact (extended_agrees _ _ _ A Ed). }
  cbn [fst snd]. split; [exact A|].
  destruct y as [[] [] [] [] [] [] [] []]; try reflexivity; discriminate.
Qed.

Lemma hover_agrees text d p :
  agrees text d ->
  snd (on_hover G p d : doc * option ans) =
    match tree G text with Some a => hover_of G a p | None => Some ANothing end.
Proof.
  intros A. unfold on_hover, hover_of. rewrite <- (g_ast _ _ A). cbn.
  destruct (d_ast d) as [a|]; [|reflexivity].
  destruct (g_find G a p) as [[n|]|]; try reflexivity.
  destruct (g_markdown G a n); [|reflexivity]. destruct (g_source G n); reflexivity.
Qed.

(** Documents of the server against texts. *)
Definition rel (s : str -> option doc) (x : texts) : Prop :=
  forall u, match s u with
            | Some d => agrees (x u) d /\ sup u = true
            | None => x u = None
            end.

Lemma on_gerber_agrees r text d : agrees text d ->
  let text' := match rq_kind r with
               | KOpen | KChange => Some (p_text (rq_par r)) | _ => text end in
  agrees text' (fst (on_gerber G r d)) /\
  snd (on_gerber G r d : doc * option ans) =
    match rq_kind r with
    | KOpen | KChange => match g_parse G (p_text (rq_par r)) with
                         | Some _ => Some ANothing | None => None end
    | KClose => Some ANothing
    | KHover => match tree G text with
                | Some a => hover_of G a (p_pos (rq_par r)) | None => Some ANothing end
    | KCompletion => match tree G text with
                | Some a => completion_of G a (p_pos (rq_par r)) | None => Some ANothing end
    end.
Proof.
  intros A. unfold on_gerber. destruct (rq_kind r); cbn zeta.
  - unfold on_open, done. cbn [fst snd].
    destruct (load_agrees (p_text (rq_par r)) (set_uri (rq_uri r) (flushed G))
                eq_refl eq_refl eq_refl) as [B1 B2].
    rewrite B2. auto.
  - cbn. auto.
  - unfold on_change, done. cbn [fst snd].
    destruct (load_agrees (p_text (rq_par r)) (flushed G) eq_refl eq_refl eq_refl) as [B1 B2].
    rewrite B2. auto.
  - split; [exact A|]. apply hover_agrees. exact A.
  - apply completion_agrees. exact A.
Qed.

Lemma serve_respond r s x : rel s x ->
  rel (fst (serve (gerber_server G sup) r s)) (fst (respond G sup r x)) /\
  snd (serve (gerber_server G sup) r s) = snd (respond G sup r x).
Proof.
  intros R.
  assert (Go : forall d, agrees (x (rq_uri r)) d -> sup (rq_uri r) = true ->
    let (d', a) := on_gerber G r d in
    rel (upd s (rq_uri r) (match rq_kind r, a with KClose, Some _ => None | _, _ => Some d' end))
        (fst (respond G sup r x)) /\ a = snd (respond G sup r x)).
  { intros d A Hs. pose proof (on_gerber_agrees r _ _ A) as B.
    destruct (on_gerber G r d) as [d' a]. cbn zeta in B. cbn [fst snd] in B. destruct B as [B1 B2].
    unfold respond. rewrite Hs. rewrite B2.
    destruct (rq_kind r); cbn [fst snd]; (split; [|reflexivity]); intros u;
      unfold upd, set_text; destruct (str_eqb u (rq_uri r)) eqn:Eu; try exact (R u); try reflexivity;
      apply str_eqb_eq in Eu; subst u; auto.
    }
  unfold serve. cbn [on_request gerber_server supported new_doc].
  pose proof (R (rq_uri r)) as Ru. destruct (s (rq_uri r)) as [d|].
  - destruct Ru as [A Hs]. specialize (Go d A Hs). destruct (on_gerber G r d) as [d' a]. exact Go.
  - destruct (sup (rq_uri r)) eqn:Hs.
    + specialize (Go (flushed G)). rewrite Ru in Go. specialize (Go agrees_flushed eq_refl).
      destruct (on_gerber G r (flushed G)) as [d' a]. exact Go.
    + unfold respond. rewrite Hs. cbn. auto.
Qed.

Lemma serve_all_respond rs s x : rel s x ->
  snd (serve_all (gerber_server G sup) rs s) = respond_all G sup rs x.
Proof.
  revert s x. induction rs as [|r rs IH]; intros s x R; [reflexivity|].
  cbn [serve_all respond_all]. destruct (serve_respond r s x R) as [R1 E].
  destruct (serve (gerber_server G sup) r s) as [s1 a]. cbn [fst snd] in *.
  specialize (IH _ _ R1). destruct (serve_all (gerber_server G sup) rs s1) as [s2 l]. cbn in *. congruence.
Qed.
End Proofs.

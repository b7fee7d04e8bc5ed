(** Proofs about locations of coordinates. *)
From Verif Require Import Base Num CoordModel Ast GramAst PegModel LocModel LocSpec LocTexts LocProofs SpotModel SpotSpec.
Local Open Scope nat_scope.

(** ** The same commands *)
Definition same {A B} (R : A -> B -> Prop) (p : parser A) (q : parser B) : Prop := forall s,
  match p s, q s with
  | POk (a, k) r, POk (b, k') r' => R a b /\ k = k' /\ r = r'
  | PFail, PFail => True
  | PErr e, PErr e' => e = e'
  | _, _ => False
  end.
Lemma same_refl {A} (p : parser A) : same eq p p.
Proof. intros s. destruct (p s) as [[a k] r| |]; auto. Qed.
Lemma same_bind {A B C D} (R : A -> B -> Prop) (Q : C -> D -> Prop) p q f g : same R p q -> (forall a b, R a b -> same Q (f a) (g b)) ->
  same Q (pbind p f) (pbind q g).
Proof.
  intros H Hf s. unfold pbind. specialize (H s). destruct (p s) as [[a k] r| |], (q s) as [[b k'] r'| |]; try contradiction; auto.
  destruct H as (H & <- & <-). specialize (Hf a b H r). destruct (f a r) as [[c k1] r1| |], (g b r) as [[d k2] r2| |]; try contradiction; auto.
  destruct Hf as (? & <- & <-). auto.
Qed.
Lemma same_ret {A B} (R : A -> B -> Prop) a b : R a b -> same R (ret a) (ret b).
Proof. intros H s. cbn. auto. Qed.
Lemma same_opt {A B} (R : A -> B -> Prop) p q : same R p q ->
  same (fun a b => match a, b with Some x, Some y => R x y | None, None => True | _, _ => False end) (opt p) (opt q).
Proof. intros H s. unfold opt. specialize (H (skip s)). destruct (p (skip s)) as [[a k] r| |], (q (skip s)) as [[b k'] r'| |]; try contradiction; auto. Qed.
Lemma same_first {A B} (R : A -> B -> Prop) ps qs : Forall2 (same R) ps qs -> same R (first_of ps) (first_of qs).
Proof.
  intros H s. induction H as [|p q ps qs H _ IH]; [exact I|]. cbn. specialize (H s).
  destruct (p s) as [[a k] r| |], (q s) as [[b k'] r'| |]; try contradiction; auto.
Qed.
Lemma same_command {A B} (R : A -> B -> Prop) p q : same R p q -> same R (command p) (command q).
Proof.
  intros H. unfold command, pthen. apply (same_bind R); [exact H|]. intros a b Hab. apply (same_bind eq); [apply same_refl|]. intros ? ? _.
  apply same_ret, Hab.
Qed.
Lemma same_spot total a : same (fun x v => sp_value x = v /\ sp_axis x = a) (spot_p total a) (axis_p a).
Proof. intros s. unfold spot_p. destruct (axis_p a s) as [[v k] r| |]; cbn; auto. Qed.

(** ** Where they are *)
Definition all_blank (u : str) : Prop := Forall (fun c => blank c = true) u.
Lemma axis_not_blank a c : axis_letter a c -> blank c = false.
Proof. intros H. repeat (destruct H as [[= _ <-]|H]; [reflexivity|]). destruct H. Qed.
Lemma blank_no_axis c : blank c = true -> forall a, ~ axis_letter a c.
Proof. intros H a Ha. apply axis_not_blank in Ha. congruence. Qed.
Lemma placed_blanks g t from l : all_blank g -> placed (from + length g) t l -> placed from (g ++ t) l.
Proof.
  intros Hg H. inversion H as [? ? Ht|? gap a c w v rest l' H1 H2 H3 H4 H5]; subst.
  - constructor. apply Forall_app. split; [|exact Ht]. eapply Forall_impl; [|exact Hg]. intros c. apply blank_no_axis.
  - rewrite app_assoc. replace (from + length g + length gap) with (from + length (g ++ gap)) in * by (rewrite app_length; lia).
    constructor; auto. apply Forall_app. auto.
Qed.
Lemma integer_reads s v r : re_integer s = Some (v, r) -> s = v ++ r /\ integer_text v.
Proof.
  unfold re_integer, re_digits. assert (X : s = fst (opt_sign s) ++ snd (opt_sign s) /\ In (fst (opt_sign s)) [[]; ["+"]; ["-"]]%char).
  { destruct s as [|c s]; [split; [reflexivity|left; reflexivity]|]. cbn. destruct (is_sign c) eqn:E; [|split; [reflexivity|left; reflexivity]]. split; [reflexivity|].
    unfold is_sign in E. apply orb_true_iff in E as [E|E]; apply Ascii.eqb_eq in E as ->; cbn; auto. }
  destruct (opt_sign s) as [sg s1]. cbn in X. destruct X as [-> Hs].
  pose proof (GramText.span_spec is_digit s1) as (Ha & E & _). destruct (span is_digit s1) as [[|c d] q]; [discriminate|]. cbn [fst snd nonempty] in *.
  intros [= <- <-]. rewrite <- app_assoc, <- E. split; [reflexivity|]. exists sg, (c :: d). split; [reflexivity|]. split; [exact Hs|]. split; [discriminate|].
  unfold GramText.all in Ha. apply Forall_forall. intros x Hx. exact (proj1 (forallb_forall _ _) Ha _ Hx).
Qed.
Lemma upper_axis a c : In a ["X"; "Y"; "I"; "J"]%char -> Ascii.eqb (upper a) (upper c) = true -> axis_letter a c.
Proof.
  intros Ha E. apply Ascii.eqb_eq in E. unfold axis_letter.
  repeat (destruct Ha as [<-|Ha]; [destruct c as [[] [] [] [] [] [] [] []]; cbn in E; try discriminate E; cbn; tauto|]). destruct Ha.
Qed.
(** Coordinate [o] is written in [u], which begins at [from]. *)
Definition spotted (from : nat) (u : str) (a : ascii) (o : option spot) : Prop :=
  match o with
  | None => all_blank u
  | Some x => exists gap c w v, u = gap ++ c :: w ++ v /\ all_blank gap /\ axis_letter a c /\ all_blank w /\ integer_text v /\
                x = MkSpot a v (from + length gap) (1 + length v)
  end.
Lemma letter_reads a s x k r : caseless_p (String a "") s = POk (x, k) r -> exists c, skip s = c :: r /\ Ascii.eqb (upper a) (upper c) = true /\ k = 1.
Proof.
  unfold caseless_p, token. destruct (skip s) as [|c t]; [discriminate|]. cbn [lit list_ascii_of_string strip_upper].
  destruct (Ascii.eqb (upper a) (upper c)) eqn:E; [|discriminate]. intros [= _ Ek <-]. exists c. repeat split; auto. rewrite <- Ek. change (S (length t) - length t = 1). lia.
Qed.
Lemma axis_reads a s v k r : In a ["X"; "Y"; "I"; "J"]%char -> axis_p a s = POk (v, k) r ->
  exists c w, skip s = c :: w ++ v ++ r /\ axis_letter a c /\ all_blank w /\ integer_text v /\ k = 1 + length v.
Proof.
  intros Ha E. unfold axis_p, pthen, pbind in E. destruct (caseless_p _ s) as [[x k1] t| |] eqn:Ec; try discriminate.
  apply letter_reads in Ec as (c & Es & Ec & ->). unfold integer_p, token in E.
  destruct (skip_split t) as (w & Et & Hw). destruct (re_integer (skip t)) as [[v' r']|] eqn:Ei; [|discriminate]. injection E as <- <- <-.
  apply integer_reads in Ei as [Ei Hv]. exists c, w. rewrite Ei in Et |- *. split; [congruence|]. split; [apply upper_axis; assumption|]. split; [exact Hw|]. split; [exact Hv|].
  rewrite app_length. lia.
Qed.
Lemma spot_reads total a s o k r : In a ["X"; "Y"; "I"; "J"]%char -> length s <= total -> opt (spot_p total a) s = POk (o, k) r ->
  exists u, s = u ++ r /\ spotted (total - length s) u a o.
Proof.
  intros Ha Hs E. unfold opt, spot_p in E. destruct (skip_split s) as (b & Eb & Hb).
  destruct (axis_p a (skip s)) as [[v k'] r'| |] eqn:Ep; try discriminate; injection E as <- <- <-.
  - destruct (axis_reads _ _ _ _ _ Ha Ep) as (c & w & E & Hc & Hw & Hv & ->). rewrite skip_idem in *. rewrite E in *.
    exists (b ++ c :: w ++ v). split; [rewrite Eb, <- app_assoc; cbn; rewrite <- app_assoc; reflexivity|].
    exists b, c, w, v. repeat (split; [reflexivity || assumption|]). f_equal. rewrite Eb in Hs |- *. rewrite app_length in *. lia.
  - exists b. split; [exact Eb|]. exact Hb.
Qed.
Lemma placed_spot from u a o rest l : spotted from u a o -> placed (from + length u) rest l -> placed from (u ++ rest) (values [o] ++ l).
Proof.
  destruct o as [x|]; cbn [values flat_map app spotted].
  - intros (gap & c & w & v & -> & H1 & H2 & H3 & H4 & ->) H. rewrite <- app_assoc. cbn [app]. rewrite <- app_assoc. constructor; auto.
    rewrite !app_length in H. cbn [length] in H. rewrite app_length in H. replace (from + length gap + 1 + length w + length v) with (from + (length gap + S (length w + length v))) by lia. exact H.
  - apply placed_blanks.
Qed.
(** The code and the asterisk contain no axis. *)
Definition dull (u : str) : Prop := Forall (fun c => forall a, ~ axis_letter a c) u.
Lemma dull_ok u : forallb (fun c => negb (existsb (Ascii.eqb c) ["X"; "x"; "Y"; "y"; "I"; "i"; "J"; "j"]%char)) u = true -> dull u.
Proof.
  rewrite forallb_forall. intros H. apply Forall_forall. intros c Hc a Ha. specialize (H c Hc).
  repeat (destruct Ha as [[= _ <-]|Ha]; [discriminate H|]). destruct Ha.
Qed.
Lemma dull_blank u : all_blank u -> dull u.
Proof. apply Forall_impl. intros c. apply blank_no_axis. Qed.
Lemma dull_app u v : dull u -> dull v -> dull (u ++ v). Proof. intros. apply Forall_app. auto. Qed.
Lemma code_reads c s a r : is_digit c = true -> re_code "D" (String c "") s = Some (a, r) -> exists u, s = u ++ r /\ dull u.
Proof.
  unfold re_code. intros Hd. destruct s as [|d t]; [discriminate|]. destruct (Ascii.eqb d "D") eqn:E; [|discriminate]. apply Ascii.eqb_eq in E as ->.
  pose proof (GramText.span_spec (Ascii.eqb "0") t) as (Ha & Et & _). destruct (strip_prefix _ _) as [q|] eqn:Eq; [|discriminate]. intros [= <- <-].
  apply GramText.strip_prefix_some in Eq. exists ("D"%char :: fst (span (Ascii.eqb "0") t) ++ [c]). rewrite Et at 1. rewrite Eq. cbn. rewrite <- app_assoc. split; [reflexivity|].
  apply (dull_app ["D"%char]); [apply dull_ok; reflexivity|]. apply dull_app.
  - apply Forall_forall. intros x Hx. unfold GramText.all in Ha. pose proof (proj1 (forallb_forall _ _) Ha _ Hx) as Ex. apply Ascii.eqb_eq in Ex as <-.
    apply (Forall_inv (dull_ok ["0"%char] eq_refl)).
  - apply dull_ok. cbn. destruct c as [[] [] [] [] [] [] [] []]; try discriminate Hd; reflexivity.
Qed.
Definition dully {A} (p : parser A) : Prop := forall s a k r, p s = POk (a, k) r -> exists u, s = u ++ r /\ dull u.
Lemma dully_token {A} (f : str -> option (A * str)) : (forall s a r, f s = Some (a, r) -> exists u, s = u ++ r /\ dull u) -> dully (token f).
Proof.
  intros H s a k r E. unfold token in E. destruct (f (skip s)) as [[x q]|] eqn:Ef; [|discriminate]. injection E as <- _ <-. destruct (H _ _ _ Ef) as (u & Eu & Hu).
  destruct (skip_split s) as (b & Eb & Hb). exists (b ++ u). rewrite <- app_assoc, <- Eu. split; [exact Eb|]. apply dull_app; [apply dull_blank, Hb|exact Hu].
Qed.
Lemma dully_opt {A} (p : parser A) : dully p -> dully (opt p).
Proof.
  intros H s a k r E. unfold opt in E. destruct (skip_split s) as (b & Eb & Hb). destruct (p (skip s)) as [[x k'] q| |] eqn:Ep; try discriminate; injection E as <- <- <-.
  - destruct (H _ _ _ _ Ep) as (u & Eu & Hu). exists (b ++ u). rewrite <- app_assoc, <- Eu. split; [exact Eb|]. apply dull_app; [apply dull_blank, Hb|exact Hu].
  - exists b. split; [exact Eb|]. apply dull_blank, Hb.
Qed.
Lemma dully_asterisk : dully asterisk.
Proof.
  apply dully_token. intros s a r. destruct (strip_prefix _ s) eqn:E; [|discriminate]. intros [= <- <-]. apply GramText.strip_prefix_some in E. exists (lit "*"). split; [exact E|].
  apply dull_ok. reflexivity.
Qed.
Lemma dully_code c : is_digit c = true -> dully (token (re_code "D" (String c ""))).
Proof. intros H. apply dully_token. intros s a r. apply code_reads, H. Qed.

Section Commands.
  Context {K T : Type} (total : nat).
  Lemma same_d sa : same (fun x c => fst x = c) (d_spots (K := K) (T := T) total sa) (d_codes sa).
  Proof.
    assert (V : forall a o (v : option str), match o, v with Some x, Some y => sp_value x = y /\ sp_axis x = a | None, None => True | _, _ => False end -> value o = v).
    { intros a [x|] [y|]; cbn; try contradiction; auto. intros [<- _]. reflexivity. }
    unfold d_spots, d_codes. apply same_first. repeat apply Forall2_cons; try apply Forall2_nil; apply same_command.
    - apply (same_bind eq); [apply same_refl|]. intros a ? <-. apply same_ret. reflexivity.
    - do 4 (eapply same_bind; [apply same_opt, same_spot|intros ? ? ?%V]). subst. apply (same_bind eq); [apply same_refl|]. intros ? ? _. apply same_ret. reflexivity.
    - do 2 (eapply same_bind; [apply same_opt, same_spot|intros ? ? ?%V]). subst. apply (same_bind eq); [apply same_refl|]. intros ? ? _. apply same_ret. reflexivity.
    - do 2 (eapply same_bind; [apply same_opt, same_spot|intros ? ? ?%V]). subst. apply (same_bind eq); [apply same_refl|]. intros ? ? _. apply same_ret. reflexivity.
  Qed.

  (** What [p] reads contains the coordinates it returns. *)
  Definition puts {A} (R : A -> list spot -> Prop) (p : parser A) : Prop := forall s a k r, length s <= total -> p s = POk (a, k) r ->
    exists u l, s = u ++ r /\ R a l /\ placed (total - length s) u l.
  Lemma puts_spot {A} a (f : option spot -> parser A) R : In a ["X"; "Y"; "I"; "J"]%char -> (forall o, (forall x, o = Some x -> sp_axis x = a) -> puts (fun b l => R b (values [o] ++ l)) (f o)) ->
    puts R (pbind (opt (spot_p total a)) f).
  Proof.
    intros Ha Hf s b k r Hs E. unfold pbind in E. destruct (opt (spot_p total a) s) as [[o k1] r1| |] eqn:E1; try discriminate.
    destruct (f o r1) as [[b2 k2] r2| |] eqn:E2; try discriminate. injection E as <- <- <-.
    destruct (spot_reads _ _ _ _ _ _ Ha Hs E1) as (u1 & Eu1 & H1).
    assert (Hr1 : length r1 <= total) by (rewrite Eu1, app_length in Hs; lia).
    assert (Ho : forall x, o = Some x -> sp_axis x = a) by (intros x ->; destruct H1 as (? & ? & ? & ? & _ & _ & _ & _ & _ & ->); reflexivity).
    destruct (Hf o Ho _ _ _ _ Hr1 E2) as (u2 & l & Eu2 & HR & H2). exists (u1 ++ u2), (values [o] ++ l). rewrite <- app_assoc, <- Eu2. split; [exact Eu1|]. split; [exact HR|].
    apply (placed_spot _ _ a); [exact H1|]. replace (total - length s + length u1) with (total - length r1); [exact H2|].
    rewrite Eu1, app_length in *. lia.
  Qed.
  Lemma puts_last {A B} (p : parser A) (g : A -> B) (R : B -> list spot -> Prop) : dully p -> (forall a, R (g a) []) -> puts R (pbind p (fun a => ret (g a))).
  Proof.
    intros Hp HR s b k r Hs E. unfold pbind in E. destruct (p s) as [[a k1] r1| |] eqn:E1; try discriminate. cbn in E. injection E as <- <- <-.
    destruct (Hp _ _ _ _ E1) as (u & Eu & H). exists u, []. split; [exact Eu|]. split; [apply HR|]. constructor. exact H.
  Qed.
  Lemma placed_dull from u l v : placed from u l -> dull v -> placed from (u ++ v) l.
  Proof.
    intros H Hv. induction H as [from t Ht|from gap a c w x rest l H1 H2 H3 H4 _ IH].
    - constructor. apply dull_app; assumption.
    - rewrite <- app_assoc. cbn [app]. rewrite <- !app_assoc. constructor; auto.
  Qed.
  Lemma puts_command {A} R (p : parser A) : puts R p -> puts R (command p).
  Proof.
    intros H s b k r Hs E. unfold command, pthen, pbind in E. destruct (p s) as [[a k1] r1| |] eqn:E1; try discriminate.
    destruct (asterisk r1) as [[b2 k2] r2| |] eqn:E2; try discriminate. cbn in E. injection E as <- <- <-.
    destruct (H _ _ _ _ Hs E1) as (u & l & Eu & HR & Hl). destruct (dully_asterisk _ _ _ _ E2) as (v & Ev & Hv). exists (u ++ v), l.
    rewrite <- app_assoc, <- Ev. split; [exact Eu|]. split; [exact HR|]. apply placed_dull; assumption.
  Qed.
  Lemma dully_id : dully aperture_id_p.
  Proof.
    apply dully_token. intros s a r. unfold re_aperture_id. destruct s as [|d t]; [discriminate|]. destruct (Ascii.eqb d "D") eqn:E; [|discriminate]. apply Ascii.eqb_eq in E as ->.
    pose proof (GramText.span_spec (Ascii.eqb "0") t) as (Ha & Et & _). destruct (span (Ascii.eqb "0") t) as [z [|c q]]; [discriminate|]. cbn [fst snd] in *.
    destruct (is_digit c) eqn:Ec; [|discriminate]. unfold re_digits. pose proof (GramText.span_spec is_digit q) as (Hd & Eq & _). destruct (span is_digit q) as [[|x y] q']; [discriminate|].
    cbn [fst snd nonempty] in *. intros [= <- <-]. exists ("D"%char :: z ++ c :: x :: y). subst t q. cbn. rewrite <- app_assoc. split; [reflexivity|].
    assert (D : forall e, is_digit e = true -> forall b, ~ axis_letter b e).
    { intros e He b Hb. repeat (destruct Hb as [[= _ <-]|Hb]; [discriminate He|]). destruct Hb. }
    apply (dull_app ["D"%char]); [apply dull_ok; reflexivity|]. apply dull_app.
    - apply Forall_forall. intros e He. unfold GramText.all in Ha. pose proof (proj1 (forallb_forall _ _) Ha _ He) as Ex. apply Ascii.eqb_eq in Ex as <-. apply D. reflexivity.
    - constructor; [apply D, Ec|]. apply Forall_forall. intros e He. apply D. exact (proj1 (forallb_forall _ _) Hd _ He).
  Qed.
  Lemma given_one a o : (forall x, o = Some x -> sp_axis x = a) ->
    map (fun c => (sp_axis c, sp_value c)) (values [o]) = match value o with Some v => [(a, v)] | None => [] end.
  Proof. destruct o as [x|]; intros H; cbn; [rewrite (H x eq_refl)|]; reflexivity. Qed.
  Lemma values_cons o l : values (o :: l) = values [o] ++ values l.
  Proof. unfold values. cbn [flat_map]. rewrite app_nil_r. reflexivity. Qed.
  Lemma puts_d sa : puts (fun x l => l = snd x /\ map (fun c => (sp_axis c, sp_value c)) l = given (fst x)) (d_spots (K := K) (T := T) total sa).
  Proof.
    intros s a k r Hs E. unfold d_spots in E. apply first_inv in E as (p & Hp & E). revert s a k r Hs E.
    change (puts (fun x l => l = snd x /\ map (fun c => (sp_axis c, sp_value c)) l = given (fst x)) p).
    destruct Hp as [<-|[<-|[<-|[<-|[]]]]]; apply puts_command.
    - apply puts_last; [apply dully_id|intros; split; reflexivity].
    - do 4 (apply puts_spot; [cbn; tauto|intros ? ?%given_one]). apply puts_last; [apply dully_opt, dully_code; reflexivity|]. intros _. cbn [fst snd given].
      rewrite (values_cons o [o0; o1; o2]), (values_cons o0 [o1; o2]), (values_cons o1 [o2]), app_nil_r, !map_app. split; [reflexivity|congruence].
    - do 2 (apply puts_spot; [cbn; tauto|intros ? ?%given_one]). apply puts_last; [apply dully_code; reflexivity|]. intros _. cbn [fst snd given].
      rewrite (values_cons o [o0]), app_nil_r, !map_app. split; [reflexivity|congruence].
    - do 2 (apply puts_spot; [cbn; tauto|intros ? ?%given_one]). apply puts_last; [apply dully_code; reflexivity|]. intros _. cbn [fst snd given].
      rewrite (values_cons o [o0]), app_nil_r, !map_app. split; [reflexivity|congruence].
  Qed.
  Lemma placed_unique from t l : placed from t l -> forall l', placed from t l' ->
    map (fun c => (sp_axis c, sp_value c)) l = map (fun c => (sp_axis c, sp_value c)) l' -> l = l'.
  Proof.
    induction 1 as [from t Ht|from gap a c w v rest l H1 H2 H3 H4 _ IH]; intros l' H' E.
    - destruct l'; [reflexivity|discriminate].
    - inversion H' as [|? gap' a' c' w' v' rest' l2 G1 G2 G3 G4 G5]; subst; [discriminate|]. cbn in E. injection E as <- <- E.
      match goal with X : _ ++ _ :: _ = _ ++ _ :: _ |- _ => apply gap_unique in X as [<- X]; eauto using axis_not_blank; injection X as <- X; rename X into Y end.
      assert (W : w = w' /\ rest = rest').
      { destruct H4 as (sg & d & -> & Hsg & Hd & Hdd). destruct (sg ++ d) as [|e q] eqn:Eq; [destruct sg, d; try discriminate; contradiction|].
        assert (Be : blank e = false).
        { destruct sg as [|x sg]; cbn in Eq; [subst d; apply Forall_inv in Hdd; destruct e as [[] [] [] [] [] [] [] []]; try discriminate Hdd; reflexivity|].
          injection Eq as -> _. destruct Hsg as [Q|[[= <- _]|[[= <- _]|[]]]]; [discriminate|reflexivity|reflexivity]. }
        cbn [app] in Y. apply gap_unique in Y as [<- Y]; auto. split; [reflexivity|]. injection Y as Y. apply app_inv_head in Y. auto. }
      destruct W as [<- <-]. f_equal. apply IH; assumption.
  Qed.
End Commands.

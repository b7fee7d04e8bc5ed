(** C77: SVG files (specification in [SvgSpec]). *)
From Coq Require Import Qfield Lqa.
From Verif Require Import Base ColorModel ColorSpec NumTextModel LayerInv SvgModel SvgSpec SvgProofs.
Local Open Scope Q_scope.

Lemma hex_clean c : valid c -> clean (to_hex c).
Proof.
  intros (A & B & C & D).
  assert (H : forall n, (0 <= n < 16)%Z -> hex_char n <> "s"%char /\ hex_char n <> """"%char).
  { intros n Hn. assert (X : (n = 0 \/ n = 1 \/ n = 2 \/ n = 3 \/ n = 4 \/ n = 5 \/ n = 6 \/ n = 7 \/ n = 8 \/ n = 9 \/ n = 10 \/ n = 11 \/ n = 12 \/ n = 13 \/ n = 14 \/ n = 15)%Z) by lia.
    repeat (destruct X as [->|X]; [split; discriminate|]). subst. split; discriminate. }
  assert (H2 : forall n, (0 <= n <= 255)%Z -> clean (hex2 n)).
  { intros n Hn. unfold hex2. constructor; [|constructor; [|constructor]]; apply H; [|apply Z.mod_pos_bound; lia].
    split; [apply Z.div_pos; lia|]. apply Z.div_lt_upper_bound; lia. }
  unfold to_hex. constructor; [split; discriminate|]. repeat (apply clean_app; [apply H2; assumption|]). apply H2. assumption.
Qed.

(** Rings of polygons have points (and close, which does not matter here). *)
Definition closed (p : polygon) : Prop := poly_empty p = false -> Forall long (po_outer p :: po_holes p).
(** Texts of floats: digits, sign, point, exponent. *)
Definition number_texts (text : Q -> str) : Prop := forall q, clean (text q).

(** Full statement of C77: a saved file is an SVG document that shows the shape upright, as large
    as it is, in the foreground colour.  Missing: the opacity, which is 0.6 times that of the
    foreground ([C77_opacity_refuted]). *)
Theorem C77_picture_partial :
  forall text c g xmin ymin xmax ymax,
    number_texts text -> valid c -> Forall closed (polygons g) ->
    Forall (fun p => valid_holes (po_outer p) (po_holes p)) (polygons g) ->
    is_empty g = false -> bounds g = (xmin, ymin, xmax, ymax) -> xmin < xmax -> ymin < ymax ->
    exists doc, writes doc (dump_svg text c g) /\
      (** right: [u], down: [v] *)
      forall u v o, shown doc (u, v) o <->
        0 <= u <= xmax - xmin /\ 0 <= v <= ymax - ymin /\
        (exists p, In p (polygons g) /\ in_polygon (po_outer p) (po_holes p) (xmin + u, ymax - v)) /\ o = (to_hex c, 3#5).
Proof.
  intros text c g xmin ymin xmax ymax Ht Hc Hp Hv He Hb Hx Hy. exists (doc_of text (to_hex c) g). split.
  - apply dump_writes; [exact Ht|apply hex_clean, Hc|exact Hp].
  - intros u v o. apply doc_shown; assumption.
Qed.
Print Assumptions C77_picture_partial.

(** Nothing is cut off and no margin is added: corners are inside, and some are on each side. *)
Theorem C77_fits :
  forall g xmin ymin xmax ymax, is_empty g = false -> bounds g = (xmin, ymin, xmax, ymax) ->
    (forall p x y, In p (polygons g) -> In (x, y) (po_outer p) ->
       0 <= x - xmin <= xmax - xmin /\ 0 <= ymax - y <= ymax - ymin) /\
    (exists p q r s, Forall (fun z => In z (flat_map po_outer (polygons g))) [p; q; r; s] /\
       fst p = xmin /\ snd q = ymin /\ fst r = xmax /\ snd s = ymax).
Proof.
  intros g xmin ymin xmax ymax He Hb.
  assert (N : vertices g <> []).
  { unfold is_empty in He. intros E. apply Bool.not_true_iff_false in He. apply He. apply forallb_forall. intros p Hp. unfold poly_empty.
    destruct (po_outer p) as [|z r] eqn:Ep; [reflexivity|]. exfalso. assert (X : In z (vertices g)) by (apply in_flat_map; exists p; rewrite Ep; cbn; auto).
    rewrite E in X. destruct X. }
  pose proof (bounds_tight g N) as T. rewrite Hb in T. destruct T as (F & A & B & C & D). split.
  - intros p x y Hp Hi. rewrite Forall_forall in F. assert (X : In (x, y) (vertices g)) by (apply in_flat_map; eauto). apply F in X. destruct X as [[X1 X2] [X3 X4]]. cbn [fst snd] in *.
    assert (S : forall a b, a <= b -> 0 <= b - a) by (intros a b L; apply (proj1 (Qle_minus_iff a b)) in L; exact L).
    assert (S2 : forall a b c, a <= b -> a - c <= b - c) by (intros; apply Qplus_le_compat; [assumption|apply Qle_refl]).
    assert (S3 : forall a b c, a <= b -> c - b <= c - a) by (intros; apply Qplus_le_compat; [apply Qle_refl|apply Qopp_le_compat; assumption]).
    repeat split; auto.
  - apply in_map_iff in A as (p & A1 & A2). apply in_map_iff in B as (q & B1 & B2). apply in_map_iff in C as (r & C1 & C2). apply in_map_iff in D as (s & D1 & D2).
    exists p, q, r, s. split; [repeat constructor; assumption|auto].
Qed.
Print Assumptions C77_fits.

(** An empty shape is a document without drawings. *)
Theorem C77_empty :
  forall text c g, is_empty g = true -> exists attrs, writes (Elt (lit "svg") attrs []) (dump_svg text c g).
Proof.
  intros text c g He. exists [(lit "xmlns", VText (lit "http://www.w3.org/2000/svg")); (lit "xmlns:xlink", VText (lit "http://www.w3.org/1999/xlink"))].
  unfold dump_svg. rewrite He. apply (w_closed (lit "svg") _ (lit " " ++ lit "xmlns" ++ lit "=" ++ quoted (lit "http://www.w3.org/2000/svg") ++
        lit " " ++ lit "xmlns:xlink" ++ lit "=" ++ quoted (lit "http://www.w3.org/1999/xlink") ++ lit " ")).
  do 2 (apply attr_step; [constructor|intros H; vm_compute in H; repeat (destruct H as [H|H]; [discriminate H|]); exact H|]). constructor. repeat constructor.
Qed.
Print Assumptions C77_empty.

(** ** Cases *)
Definition plain : Q -> str := fun q => q_str q.
Definition square (a b : Q) : ring := [(a, a); (b, a); (b, b); (a, b); (a, a)].
Definition frame : geometry := GMulti [MkPolygon (square 0 4) [square 1 2]; MkPolygon [] []; MkPolygon [(5, 0); (6, 0); (5, 1); (5, 0)] []].
Definition copper : color := MkColor 181 101 30 255.
Example C77_text : dump_svg plain copper frame =
  lit "<svg xmlns=""http://www.w3.org/2000/svg"" xmlns:xlink=""http://www.w3.org/1999/xlink"" width=""6.0"" height=""4.0"" viewBox=""0.0 0.0 6.0 4.0"" preserveAspectRatio=""xMidYMid meet"" ><g transform=""matrix(1,0,0,-1,0,4.0)""><g><path fill-rule=""evenodd"" fill=""#b5651eff"" stroke=""#00000000"" stroke-width=""0.0"" opacity=""0.6"" d=""M 0.0,0.0 L 4.0,0.0 L 4.0,4.0 L 0.0,4.0 L 0.0,0.0 z M 1.0,1.0 L 2.0,1.0 L 2.0,2.0 L 1.0,2.0 L 1.0,1.0 z"" /><g /><path fill-rule=""evenodd"" fill=""#b5651eff"" stroke=""#00000000"" stroke-width=""0.0"" opacity=""0.6"" d=""M 5.0,0.0 L 6.0,0.0 L 5.0,1.0 L 5.0,0.0 z"" /></g></g></svg>".
Proof. vm_compute. reflexivity. Qed.

(** Points of a square; lower and left side included. *)
Lemma square_odd a b x y : a < b -> (odd_ring (square a b) (x, y) = true <-> a <= x < b /\ a <= y < b).
Proof.
  intros L.
  assert (T : forall u v, negb (Qle_bool u v) = true <-> v < u).
  { intros u v. rewrite Bool.negb_true_iff, <- Bool.not_true_iff_false, Qle_bool_iff. split; [apply Qnot_le_lt|apply Qlt_not_le]. }
  assert (E : forall c, fst (c, a) + (y - a) * (c - c) / (b - a) == c) by (intros c; cbn; unfold Qdiv; ring).
  assert (E' : forall c, fst (c, b) + (y - b) * (c - c) / (a - b) == c) by (intros c; cbn; unfold Qdiv; ring).
  assert (C1 : forall c, crosses (x, y) (c, a) (c, b) = (xorb (negb (Qle_bool a y)) (negb (Qle_bool b y)) && negb (Qle_bool c x))%bool).
  { intros c. unfold crosses, above. cbn [snd]. rewrite (E c). reflexivity. }
  assert (C2 : forall c, crosses (x, y) (c, b) (c, a) = (xorb (negb (Qle_bool b y)) (negb (Qle_bool a y)) && negb (Qle_bool c x))%bool).
  { intros c. unfold crosses, above. cbn [snd]. rewrite (E' c). reflexivity. }
  assert (C3 : forall c d e, crosses (x, y) (c, e) (d, e) = false) by (intros; unfold crosses, above; cbn [snd]; rewrite Bool.xorb_nilpotent; reflexivity).
  unfold square. cbn [odd_ring app odd_line]. rewrite !C3, C1, C2.
  destruct (Qle_bool a y) eqn:Ay; destruct (Qle_bool b y) eqn:By; destruct (Qle_bool a x) eqn:Ax; destruct (Qle_bool b x) eqn:Bx; cbn;
    rewrite ?Qle_bool_iff in *; repeat match goal with H : Qle_bool _ _ = false |- _ => apply (f_equal negb) in H; apply T in H end;
    (split; [intros H; first [discriminate H|repeat split; lra|exfalso; lra]|intros H; first [reflexivity|exfalso; lra]]).
Qed.
(** The texts Python writes are such texts. *)
Lemma plain_clean : number_texts plain.
Proof.
  assert (Dg : forall n, clean (int_digits n)).
  { intros n. destruct (int_digits_all' n) as [H _]. apply Forall_forall. intros c Hc. specialize (H c Hc).
    split; intros ->; discriminate H. }
  assert (Rp : forall c k, c <> "s"%char /\ c <> """"%char -> clean (repeat c k)).
  { intros c k H. apply Forall_forall. intros d Hd. apply repeat_spec in Hd. subst. exact H. }
  assert (In_ : forall a b : str, (forall c, In c a -> In c b) -> clean b -> clean a).
  { intros a b H Hb. apply Forall_forall. intros c Hc. unfold clean in Hb. rewrite Forall_forall in Hb. apply Hb, H, Hc. }
  assert (Ls : forall c l, forall d, In d (lstrip c l) -> In d l).
  { intros c l d. induction l as [|e l IH]; [intros []|]. cbn [lstrip]. destruct (Ascii.eqb e c); [right; auto|auto]. }
  assert (Rs : forall c l, clean l -> clean (rstrip c l)).
  { intros c l. apply In_. intros d H. unfold rstrip in H. apply in_rev in H. apply Ls in H. apply in_rev in H. exact H. }
  assert (R : forall neg ds pt, clean ds -> clean (repr_digits neg ds pt)).
  { intros neg ds pt Hd. unfold repr_digits. apply clean_app; [destruct neg; repeat constructor; discriminate|].
    assert (Fs : forall k, clean (firstn k ds)) by (intros k; apply (In_ _ ds); [|exact Hd]; intros c Hc; rewrite <- (firstn_skipn k ds); apply in_or_app; auto).
    assert (Sk : forall k, clean (skipn k ds)) by (intros k; apply (In_ _ ds); [|exact Hd]; intros c Hc; rewrite <- (firstn_skipn k ds); apply in_or_app; auto).
    assert (Z0 : ch_zero <> "s"%char /\ ch_zero <> """"%char) by (split; discriminate). assert (D0 : ch_dot <> "s"%char /\ ch_dot <> """"%char) by (split; discriminate).
    destruct ((-4 <? pt)%Z && (pt <=? 16)%Z)%bool.
    - destruct (pt <=? 0)%Z; [constructor; [exact Z0|]; constructor; [exact D0|]; apply clean_app; [apply Rp, Z0|exact Hd]|].
      destruct (pt <? Z.of_nat (length ds))%Z; [apply clean_app; [apply Fs|]; constructor; [exact D0|apply Sk]|].
      apply clean_app; [exact Hd|]. apply clean_app; [apply Rp, Z0|]. repeat constructor; discriminate.
    - apply clean_app; [apply Fs|]. apply clean_app.
      + specialize (Sk 1%nat). destruct (skipn 1 ds); [constructor|]. constructor; [exact D0|exact Sk].
      + apply clean_app; [repeat constructor; discriminate|]. apply clean_app; [destruct (pt - 1 <? 0)%Z; repeat constructor; discriminate|].
        unfold rjust. apply clean_app; [apply Rp, Z0|apply Dg]. }
  intros q. unfold plain, q_str. destruct (_ =? 0)%Z; apply R; [repeat constructor; discriminate|]. apply Rs, Dg.
Qed.

Lemma frame_ok : Forall closed (polygons frame) /\ Forall (fun p => valid_holes (po_outer p) (po_holes p)) (polygons frame) /\
  is_empty frame = false /\ bounds frame = (0, 0, 6, 4).
Proof.
  split; [|split; [|split; reflexivity]].
  - repeat (apply Forall_cons; [|]); try apply Forall_nil; intros H; try discriminate H; repeat constructor.
  - cbn [polygons frame]. repeat (apply Forall_cons; [|]); try apply Forall_nil; cbn [po_outer po_holes].
    + intros [x y]. split; [|repeat constructor]. intros h [<-|[]] H. apply square_odd in H; [|reflexivity]. apply square_odd; [reflexivity|]. lra.
    + intros p. split; [intros h []|constructor].
    + intros p. split; [intros h []|constructor].
Qed.
(** The frame is shown at its lower left, a distance of 1/2 from the edges, but not in its hole. *)
Example C77_frame : exists doc, writes doc (dump_svg plain copper frame) /\
  shown doc (1#2, 7#2) (lit "#b5651eff", 3#5) /\ forall o, ~ shown doc (3#2, 5#2) o.
Proof.
  destruct frame_ok as (H1 & H2 & H3 & H4).
  destruct (C77_picture_partial plain copper frame 0 0 6 4 plain_clean) as (doc & W & S); try assumption; try reflexivity; [cbv; repeat split; discriminate|].
  exists doc. split; [exact W|]. split.
  - apply S. cbn [fst snd]. split; [lra|]. split; [lra|]. split; [|reflexivity]. exists (MkPolygon (square 0 4) [square 1 2]). split; [left; reflexivity|].
    split; [vm_compute; reflexivity|]. intros h [<-|[]]. vm_compute. reflexivity.
  - intros o H. apply S in H. destruct H as (_ & _ & (p & Hp & Hi & Hh) & _). destruct Hp as [<-|[<-|[<-|[]]]]; cbn [po_outer po_holes] in *.
    + specialize (Hh (square 1 2) (or_introl eq_refl)). vm_compute in Hh. discriminate.
    + discriminate.
    + vm_compute in Hi. discriminate.
Qed.

(** An opaque colour is not painted opaquely. *)
Theorem C77_opacity_refuted :
  exists text c g doc v o, number_texts text /\ valid c /\ c_alpha c = 255%Z /\ writes doc (dump_svg text c g) /\ shown doc v o /\ snd o < 1.
Proof.
  destruct C77_frame as (doc & W & S & _). exists plain, copper, frame, doc, (1#2, 7#2), (lit "#b5651eff", 3#5).
  split; [exact plain_clean|]. split; [cbv; repeat split; discriminate|]. split; [reflexivity|]. split; [exact W|]. split; [exact S|reflexivity].
Qed.

(** Paths and buffers are written to, whatever the case of the format. *)
Theorem C77_save_partial :
  forall text c g d, d = ToPath \/ d = ToBytesIO ->
    forall fmt, In fmt (map lit ["svg"; "SVG"; "Svg"; "sVg"; "svG"; "SVg"; "SvG"; "sVG"]%string) -> save text d fmt c g = Some (dump_svg text c g).
Proof.
  intros text c g d Hd fmt Hf.
  assert (E : str_eqb (map casefold_char fmt) (lit "svg") = true) by (repeat (destruct Hf as [<-|Hf]; [reflexivity|]); destruct Hf).
  unfold save. rewrite E. destruct Hd as [-> | ->]; reflexivity.
Qed.
(** A file opened for writing is not, although the documentation names files. *)
Theorem C77_file_refuted : forall text c g fmt, save text ToFile fmt c g = None.
Proof. intros. unfold save. destruct (str_eqb _ _); reflexivity. Qed.
Print Assumptions C77_opacity_refuted. Print Assumptions C77_save_partial. Print Assumptions C77_file_refuted.

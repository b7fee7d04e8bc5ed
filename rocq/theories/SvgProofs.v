(** Proofs for C77. *)
From Coq Require Import Setoid Morphisms Qfield.
From Verif Require Import Base ColorModel SvgModel SvgSpec.
Local Open Scope Q_scope.

(** ** [replace] *)
Section Replace.
  Context (old new : str) (c0 : ascii) (rest : str) (Hold : old = c0 :: rest).
  Lemma replace_plain a b : ~ In c0 a -> replace old new (a ++ b) = a ++ replace old new b.
  Proof.
    unfold replace. induction a as [|c a IH]; intros H; [reflexivity|]. cbn [app replace_from].
    assert (S : starts old (c :: a ++ b) = false).
    { rewrite Hold. cbn [starts]. destruct (Ascii.eqb c0 c) eqn:E; [|reflexivity]. apply Ascii.eqb_eq in E. exfalso. apply H. left. auto. }
    rewrite S. f_equal. apply IH. intros Hi. apply H. right. exact Hi.
  Qed.
  Lemma skip_app k a : forall b, length a = k -> replace_from old new k (a ++ b) = replace_from old new 0 b.
  Proof.
    revert k. induction a as [|c a IH]; intros k b <-; [reflexivity|]. cbn [app length replace_from]. apply IH. reflexivity.
  Qed.
  Lemma starts_self a : forall b, starts a (a ++ b) = true.
  Proof. induction a as [|c a IH]; intros b; [reflexivity|]. cbn. rewrite Ascii.eqb_refl. apply IH. Qed.
  Lemma replace_hit b : replace old new (old ++ b) = new ++ replace old new b.
  Proof.
    unfold replace. pose proof (starts_self old b) as S. rewrite Hold in S |- *. cbn [app replace_from] in *. rewrite S. f_equal.
    rewrite <- Hold. apply skip_app. rewrite Hold. cbn [length]. lia.
  Qed.
End Replace.

(** ** Even-odd *)
Add Parametric Morphism : Qle_bool with signature Qeq ==> Qeq ==> eq as qle_bool_eq.
Proof. intros a b E c d F. apply Bool.eq_iff_eq_true. rewrite !Qle_bool_iff, E, F. reflexivity. Qed.
Definition same (p q : point) : Prop := fst p == fst q /\ snd p == snd q.
Lemma crosses_same p q a b : same p q -> crosses p a b = crosses q a b.
Proof. intros [E F]. unfold crosses, above. rewrite E, F. reflexivity. Qed.
Lemma odd_line_same p q : same p q -> forall r a, odd_line p a r = odd_line q a r.
Proof. intros H. induction r as [|b r IH]; intros a; [reflexivity|]. cbn [odd_line]. rewrite (crosses_same _ _ _ _ H), IH. reflexivity. Qed.
Lemma even_odd_same p q rs : same p q -> even_odd rs p = even_odd rs q.
Proof.
  intros H. unfold even_odd. f_equal. apply map_ext. intros [|a l]; [reflexivity|]. apply odd_line_same, H.
Qed.

(** ** Boxes *)
Lemma q_min_spec a b : q_min a b <= a /\ q_min a b <= b /\ (q_min a b = a \/ q_min a b = b).
Proof.
  unfold q_min. destruct (Qle_bool a b) eqn:E; [apply Qle_bool_iff in E; auto using Qle_refl|].
  split; [|auto using Qle_refl]. destruct (Qlt_le_dec b a) as [L|L]; [apply Qlt_le_weak, L|apply Qle_bool_iff in L; congruence].
Qed.
Lemma q_max_spec a b : a <= q_max a b /\ b <= q_max a b /\ (q_max a b = a \/ q_max a b = b).
Proof.
  unfold q_max. destruct (Qle_bool a b) eqn:E; [apply Qle_bool_iff in E; auto using Qle_refl|].
  split; [auto using Qle_refl|]. split; [|auto]. destruct (Qlt_le_dec b a) as [L|L]; [apply Qlt_le_weak, L|apply Qle_bool_iff in L; congruence].
Qed.
Definition covers (b : Q * Q * Q * Q) (p : point) : Prop :=
  let '(x0, y0, x1, y1) := b in x0 <= fst p <= x1 /\ y0 <= snd p <= y1.
(** The box around the points: it covers them and touches some on all four sides. *)
Definition tight (b : Q * Q * Q * Q) (l : list point) : Prop :=
  let '(x0, y0, x1, y1) := b in
  Forall (covers b) l /\ In x0 (map fst l) /\ In y0 (map snd l) /\ In x1 (map fst l) /\ In y1 (map snd l).
Lemma widen_tight b l p : tight b l -> tight (widen b p) (l ++ [p]).
Proof.
  destruct b as [[[x0 y0] x1] y1], p as [x y]. intros (F & A & B & C & D). cbn [widen fst snd].
  destruct (q_min_spec x0 x) as (X1 & X2 & X3), (q_min_spec y0 y) as (Y1 & Y2 & Y3), (q_max_spec x1 x) as (Z1 & Z2 & Z3), (q_max_spec y1 y) as (W1 & W2 & W3).
  unfold tight. rewrite !map_app. cbn [map fst snd]. split.
  - apply Forall_app. split; [|repeat constructor; cbn; assumption].
    eapply Forall_impl; [|exact F]. intros [u v] ((P1 & P2) & P3 & P4). cbn [covers fst snd] in *. repeat split; eauto using Qle_trans.
  - repeat split; apply in_or_app.
    + destruct X3 as [->| ->]; cbn; auto.
    + destruct Y3 as [->| ->]; cbn; auto.
    + destruct Z3 as [->| ->]; cbn; auto.
    + destruct W3 as [->| ->]; cbn; auto.
Qed.
Lemma bounds_tight g : vertices g <> [] -> tight (bounds g) (vertices g).
Proof.
  unfold bounds. destruct (vertices g) as [|p r]; [congruence|]. intros _.
  assert (H : forall r l b, tight b l -> tight (fold_left widen r b) (l ++ r)).
  { induction r0 as [|q r0 IH]; intros l b H; [rewrite app_nil_r; exact H|]. cbn [fold_left].
    replace (l ++ q :: r0) with ((l ++ [q]) ++ r0) by (rewrite <- app_assoc; reflexivity). apply IH, widen_tight, H. }
  apply (H r [p]). destruct p as [x y]. cbn. repeat split; auto. repeat constructor; cbn; apply Qle_refl.
Qed.

(** ** The document *)
Section Doc.
  Context (text : Q -> str).
  Definition clean (t : str) : Prop := Forall (fun c => c <> "s"%char /\ c <> """"%char) t.
  Context (Htext : forall q, clean (text q)).
  Definition nm (q : Q) : num := (text q, q).
  Definition ring_nums (r : ring) : list (num * num) := map (fun p => (nm (fst p), nm (snd p))) r.
  Definition path_of (fill stroke : str) (p : polygon) : xml :=
    if poly_empty p then Elt (lit "g") [] []
    else Elt (lit "path")
      [(lit "fill-rule", VText (lit "evenodd")); (lit "fill", VText fill); (lit "stroke", VText stroke);
       (lit "stroke-width", VNum (lit "0.0", 0)); (lit "opacity", VNum (lit "0.6", 3#5));
       (lit "d", VPath (map ring_nums (po_outer p :: po_holes p)))] [].
  Definition group_of (fill stroke : str) (g : geometry) : xml :=
    match g with
    | GPolygon p => path_of fill stroke p
    | GMulti ps => if is_empty g then Elt (lit "g") [] [] else Elt (lit "g") [] (map (path_of fill stroke) ps)
    end.
  Definition clear_stroke : str := lit "#00000000".
  Definition doc_of (fill : str) (g : geometry) : xml :=
    let ns := [(lit "xmlns", VText (lit "http://www.w3.org/2000/svg")); (lit "xmlns:xlink", VText (lit "http://www.w3.org/1999/xlink"))] in
    if is_empty g then Elt (lit "svg") ns []
    else let '(xmin, ymin, xmax, ymax) := bounds g in
      let dx := xmax - xmin in let dy := ymax - ymin in
      Elt (lit "svg") (ns ++ [(lit "width", VNum (nm dx)); (lit "height", VNum (nm dy)); (lit "viewBox", VBox (nm xmin) (nm ymin) (nm dx) (nm dy));
                              (lit "preserveAspectRatio", VText (lit "xMidYMid meet"))])
        [Elt (lit "g") [(lit "transform", VMatrix (lit "1", 1) (lit "0", 0) (lit "0", 0) (lit "-1", - (1)) (lit "0", 0) (nm (ymax + ymin)))]
           [group_of fill clear_stroke g]].

  (** The text after [replace] is that of elements with another stroke. *)
  Definition stroke_svg (stroke fill : str) (p : polygon) : str :=
    if poly_empty p then lit "<g />"
    else lit "<path fill-rule=" ++ quoted (lit "evenodd") ++ lit " fill=" ++ quoted fill ++ lit " stroke=" ++ quoted stroke
      ++ lit " stroke-width=" ++ quoted (lit "0.0") ++ lit " opacity=" ++ quoted (lit "0.6") ++ lit " d=" ++ quoted (path_text text p) ++ lit " />".
  Definition strokes_svg (stroke fill : str) (g : geometry) : str :=
    match g with
    | GPolygon p => stroke_svg stroke fill p
    | GMulti ps => if is_empty g then lit "<g />" else lit "<g>" ++ concat (map (stroke_svg stroke fill) ps) ++ lit "</g>"
    end.
  Definition OLD := lit "stroke=" ++ quoted (lit "#555555").
  Definition NEW := lit "stroke=" ++ quoted clear_stroke.
  Notation rep := (replace OLD NEW).
  Notation "a '#s'" := (~ In "s"%char a) (at level 70).
  Lemma rep_plain a b : a #s -> rep (a ++ b) = a ++ rep b.
  Proof. apply (replace_plain OLD NEW "s"%char (lit "troke=" ++ quoted (lit "#555555"))). reflexivity. Qed.
  Lemma rep_old b : rep (OLD ++ b) = NEW ++ rep b.
  Proof. apply (replace_hit OLD NEW "s"%char (lit "troke=" ++ quoted (lit "#555555"))). reflexivity. Qed.
  Lemma no_app a b : a #s -> b #s -> (a ++ b) #s.
  Proof. intros A B H. apply in_app_or in H as [H|H]; auto. Qed.
  Ltac nos := match goal with |- ?a #s => let H := fresh in intros H; vm_compute in H; repeat (destruct H as [H|H]; [discriminate H|]); exact H end.
  Ltac cl := repeat (apply Forall_cons; [split; discriminate|]); apply Forall_nil.
  Lemma clean_s t : clean t -> t #s.
  Proof. intros H Hi. unfold clean in H. rewrite Forall_forall in H. destruct (H _ Hi) as [X _]. congruence. Qed.
  Lemma clean_q t : clean t -> ~ In """"%char t.
  Proof. intros H Hi. unfold clean in H. rewrite Forall_forall in H. destruct (H _ Hi) as [_ X]. congruence. Qed.
  Lemma clean_app a b : clean a -> clean b -> clean (a ++ b).
  Proof. intros A B. apply Forall_app. auto. Qed.
  Lemma coords_clean p : clean (coords_text text p).
  Proof. unfold coords_text. apply clean_app; [apply Htext|]. apply clean_app; [cl|apply Htext]. Qed.
  Lemma join_clean sep l : clean sep -> Forall clean l -> clean (join sep l).
  Proof.
    intros Hs H. induction H as [|a l Ha Hl IH]; [constructor|]. cbn [join]. destruct l as [|b l]; [exact Ha|].
    apply clean_app; [exact Ha|]. apply clean_app; [exact Hs|exact IH].
  Qed.
  Lemma ring_clean r : clean (ring_text text r).
  Proof.
    destruct r as [|p r]; [constructor|]. cbn [ring_text]. apply clean_app; [cl|]. apply clean_app; [apply coords_clean|]. apply clean_app; [cl|].
    apply clean_app; [|cl]. apply join_clean; [cl|]. apply Forall_map. apply Forall_forall. intros q _. apply coords_clean.
  Qed.
  Lemma path_clean p : clean (path_text text p).
  Proof. unfold path_text. apply join_clean; [cl|]. apply Forall_map. apply Forall_forall. intros r _. apply ring_clean. Qed.
  Lemma rep_polygon fill p b : fill #s -> rep (polygon_svg text fill p ++ b) = stroke_svg clear_stroke fill p ++ rep b.
  Proof.
    intros Hf. unfold polygon_svg, stroke_svg. destruct (poly_empty p); [apply rep_plain; nos|].
    transitivity (rep (((lit "<path fill-rule=" ++ quoted (lit "evenodd") ++ lit " fill=") ++ quoted fill ++ lit " ") ++ OLD ++ lit " " ++
      lit "s" ++ (lit "troke-width=" ++ quoted (lit "0.0") ++ lit " opacity=" ++ quoted (lit "0.6") ++ lit " d=") ++ (quoted (path_text text p) ++ lit " />") ++ b)).
    { f_equal. unfold OLD. rewrite <- !app_assoc. reflexivity. }
    rewrite rep_plain by (apply no_app; [nos|]; apply no_app; [|nos]; unfold quoted; apply no_app; [nos|]; apply no_app; [exact Hf|nos]).
    rewrite rep_old. rewrite rep_plain by nos.
    set (tail := (quoted (path_text text p) ++ lit " />") ++ b).
    assert (S : rep (lit "s" ++ (lit "troke-width=" ++ quoted (lit "0.0") ++ lit " opacity=" ++ quoted (lit "0.6") ++ lit " d=") ++ tail) =
      lit "s" ++ rep ((lit "troke-width=" ++ quoted (lit "0.0") ++ lit " opacity=" ++ quoted (lit "0.6") ++ lit " d=") ++ tail)) by reflexivity.
    rewrite S. rewrite rep_plain by nos. unfold tail.
    rewrite rep_plain by (apply no_app; [|nos]; unfold quoted; apply no_app; [nos|]; apply no_app; [apply clean_s, path_clean|nos]).
    unfold NEW. rewrite <- !app_assoc. reflexivity.
  Qed.
  Lemma rep_geometry fill g b : fill #s -> rep (geometry_svg text fill g ++ b) = strokes_svg clear_stroke fill g ++ rep b.
  Proof.
    intros Hf. destruct g as [p|ps]; cbn [geometry_svg strokes_svg]; [apply rep_polygon, Hf|].
    destruct (is_empty (GMulti ps)); [apply rep_plain; nos|]. rewrite <- !app_assoc. rewrite rep_plain by nos. f_equal.
    induction ps as [|p ps IH]; cbn [map concat]; [apply rep_plain; nos|]. rewrite <- !app_assoc. rewrite rep_polygon by exact Hf. f_equal. exact IH.
  Qed.

  (** The text is the document. *)
  Definition fine_polygon (p : polygon) : Prop := Forall (fun h => h <> []) (po_holes p).
  Lemma lines_join r : r <> [] -> lit " L " ++ join (lit " L ") (map (coords_text text) r) = lines_text (ring_nums r).
  Proof.
    induction r as [|p r IH]; intros H; [congruence|]. destruct r as [|q r].
    - cbn [map join ring_nums lines_text]. unfold coords_text. cbn [fst snd nm]. rewrite app_nil_r. reflexivity.
    - specialize (IH ltac:(discriminate)). cbn [map join ring_nums lines_text] in *. unfold coords_text at 1. rewrite <- !app_assoc.
      cbn [fst snd nm]. do 3 f_equal. f_equal. exact IH.
  Qed.
  Definition long (r : ring) : Prop := match r with [] | [_] => False | _ => True end.
  Lemma ring_writes r : long r -> subpath_text (ring_nums r) (ring_text text r).
  Proof.
    destruct r as [|p [|q r]]; intros H; try contradiction. cbn [ring_text ring_nums map].
    assert (E : lit "M " ++ coords_text text p ++ lit " L " ++ join (lit " L ") (map (coords_text text) (q :: r)) ++ lit " z" =
      lit "M " ++ fst (nm (fst p)) ++ lit "," ++ fst (nm (snd p)) ++ lines_text (ring_nums (q :: r)) ++ lit " z").
    { rewrite <- lines_join by discriminate. unfold coords_text at 1. rewrite <- !app_assoc. reflexivity. }
    change (coords_text text q :: map (coords_text text) r) with (map (coords_text text) (q :: r)). rewrite E. apply st_ring.
  Qed.
  Lemma path_writes rs : rs <> [] -> Forall long rs -> path_data (map ring_nums rs) (join (lit " ") (map (ring_text text) rs)).
  Proof.
    intros N H. induction H as [|r rs Hr Hrs IH]; [congruence|]. destruct rs as [|r' rs].
    - constructor. apply ring_writes, Hr.
    - cbn [map join]. apply pd_more; [apply ring_writes, Hr|]. apply IH. discriminate.
  Qed.
  Definition proper (p : polygon) : Prop := poly_empty p = false -> Forall long (po_outer p :: po_holes p).
  Lemma attr_step k v r vt rt : value_text v vt -> ~ In """"%char vt -> attrs_text r rt ->
    attrs_text ((k, v) :: r) (lit " " ++ k ++ lit "=" ++ quoted vt ++ rt).
  Proof.
    intros Hv Hq Hr. replace (quoted vt ++ rt) with (""""%char :: vt ++ """"%char :: rt) by (unfold quoted, quote; cbn [app]; rewrite <- app_assoc; reflexivity).
    apply at_cons; [repeat constructor|discriminate|exact Hv|exact Hq|exact Hr].
  Qed.
  Ltac noq := let H := fresh in intros H; vm_compute in H; repeat (destruct H as [H|H]; [discriminate H|]); exact H.
  Ltac at_lit := apply attr_step; [constructor|noq|].
  Lemma polygon_writes stroke fill p : clean fill -> ~ In """"%char stroke -> proper p -> writes (path_of fill stroke p) (stroke_svg stroke fill p).
  Proof.
    intros Hf Hst Hp. unfold path_of, stroke_svg. destruct (poly_empty p) eqn:Ep.
    - change (lit "<g />") with (lit "<" ++ lit "g" ++ lit " " ++ lit "/>"). constructor. constructor. repeat constructor.
    - match goal with |- writes (Elt _ ?at_ []) _ => assert (A : attrs_text at_ (
        lit " " ++ lit "fill-rule" ++ lit "=" ++ quoted (lit "evenodd") ++ lit " " ++ lit "fill" ++ lit "=" ++ quoted fill ++
        lit " " ++ lit "stroke" ++ lit "=" ++ quoted stroke ++ lit " " ++ lit "stroke-width" ++ lit "=" ++ quoted (lit "0.0") ++
        lit " " ++ lit "opacity" ++ lit "=" ++ quoted (lit "0.6") ++ lit " " ++ lit "d" ++ lit "=" ++ quoted (path_text text p) ++ lit " ")) end.
      { at_lit. apply attr_step; [constructor|apply clean_q, Hf|]. apply attr_step; [constructor|exact Hst|].
        apply attr_step; [exact (vt_num (lit "0.0", 0))|noq|]. apply attr_step; [exact (vt_num (lit "0.6", 3#5))|noq|].
        apply attr_step; [|apply clean_q, path_clean|constructor; repeat constructor]. constructor. apply path_writes; [discriminate|apply Hp, Ep]. }
      apply (w_closed (lit "path")) in A. rewrite <- !app_assoc in A. rewrite <- ?app_assoc. exact A.
  Qed.
  Lemma group_writes stroke fill g : clean fill -> ~ In """"%char stroke -> Forall proper (polygons g) -> writes (group_of fill stroke g) (strokes_svg stroke fill g).
  Proof.
    intros Hf Hst Hp. destruct g as [p|ps]; cbn [group_of strokes_svg polygons] in *.
    - apply polygon_writes; [exact Hf|exact Hst|]. apply Forall_inv in Hp. exact Hp.
    - destruct (is_empty (GMulti ps)) eqn:E.
      + change (lit "<g />") with (lit "<" ++ lit "g" ++ lit " " ++ lit "/>"). constructor. constructor. repeat constructor.
      + change (lit "<g>" ++ concat (map (stroke_svg stroke fill) ps) ++ lit "</g>") with
          (lit "<" ++ lit "g" ++ [] ++ lit ">" ++ concat (map (stroke_svg stroke fill) ps) ++ lit "</" ++ lit "g" ++ lit ">").
        apply w_open; [constructor; constructor|]. clear E. induction Hp as [|p ps H _ IH]; [constructor|]. cbn [map concat]. constructor; [|exact IH].
        apply polygon_writes; assumption.
  Qed.
  Lemma dump_writes c g : clean (to_hex c) -> Forall proper (polygons g) -> writes (doc_of (to_hex c) g) (dump_svg text c g).
  Proof.
    intros Hf Hp. unfold doc_of, dump_svg. set (fill := to_hex c) in *.
    destruct (is_empty g) eqn:Ee.
    - apply (w_closed (lit "svg") _ (lit " " ++ lit "xmlns" ++ lit "=" ++ quoted (lit "http://www.w3.org/2000/svg") ++
        lit " " ++ lit "xmlns:xlink" ++ lit "=" ++ quoted (lit "http://www.w3.org/1999/xlink") ++ lit " ")).
      at_lit. at_lit. constructor. repeat constructor.
    - destruct (bounds g) as [[[xmin ymin] xmax] ymax]. set (dx := xmax - xmin). set (dy := ymax - ymin).
      change (lit "stroke=" ++ quoted (lit "#555555")) with OLD. change (lit "stroke=" ++ quoted (lit "#00000000")) with NEW.
      assert (R : rep (lit "<g transform=" ++ quoted (lit "matrix(1,0,0,-1,0," ++ text (ymax + ymin) ++ lit ")") ++ lit ">" ++ geometry_svg text fill g ++ lit "</g>") =
        lit "<g transform=" ++ quoted (lit "matrix(1,0,0,-1,0," ++ text (ymax + ymin) ++ lit ")") ++ lit ">" ++ strokes_svg clear_stroke fill g ++ lit "</g>").
      { change (lit "<g transform=" ++ quoted (lit "matrix(1,0,0,-1,0," ++ text (ymax + ymin) ++ lit ")") ++ lit ">" ++ geometry_svg text fill g ++ lit "</g>") with
          (lit "<g tran" ++ lit "s" ++ lit "form=" ++ quoted (lit "matrix(1,0,0,-1,0," ++ text (ymax + ymin) ++ lit ")") ++ lit ">" ++ geometry_svg text fill g ++ lit "</g>").
        rewrite rep_plain by nos.
        set (tl := quoted _ ++ _).
        assert (S : rep (lit "s" ++ lit "form=" ++ tl) = lit "s" ++ rep (lit "form=" ++ tl)) by reflexivity. rewrite S. rewrite rep_plain by nos. unfold tl.
        rewrite rep_plain by (unfold quoted; apply no_app; [nos|]; apply no_app; [|nos]; apply no_app; [nos|]; apply no_app; [apply clean_s, Htext|nos]).
        rewrite rep_plain by nos. rewrite rep_geometry by apply clean_s, Hf. rewrite <- (app_nil_r (lit "</g>")) at 1. rewrite rep_plain by nos.
        change (rep []) with (@nil ascii). rewrite app_nil_r. reflexivity. }
      rewrite R. clear R.
      assert (A : attrs_text ([(lit "xmlns", VText (lit "http://www.w3.org/2000/svg")); (lit "xmlns:xlink", VText (lit "http://www.w3.org/1999/xlink"))] ++
        [(lit "width", VNum (nm dx)); (lit "height", VNum (nm dy)); (lit "viewBox", VBox (nm xmin) (nm ymin) (nm dx) (nm dy)); (lit "preserveAspectRatio", VText (lit "xMidYMid meet"))])
        (lit " " ++ lit "xmlns" ++ lit "=" ++ quoted (lit "http://www.w3.org/2000/svg") ++ lit " " ++ lit "xmlns:xlink" ++ lit "=" ++ quoted (lit "http://www.w3.org/1999/xlink") ++
         lit " " ++ lit "width" ++ lit "=" ++ quoted (text dx) ++ lit " " ++ lit "height" ++ lit "=" ++ quoted (text dy) ++
         lit " " ++ lit "viewBox" ++ lit "=" ++ quoted (text xmin ++ lit " " ++ text ymin ++ lit " " ++ text dx ++ lit " " ++ text dy) ++
         lit " " ++ lit "preserveAspectRatio" ++ lit "=" ++ quoted (lit "xMidYMid meet") ++ lit " ")).
      { cbn [app]. at_lit. at_lit.
        apply attr_step; [exact (vt_num (nm dx))|apply clean_q, Htext|]. apply attr_step; [exact (vt_num (nm dy))|apply clean_q, Htext|].
        apply attr_step; [exact (vt_box (nm xmin) (nm ymin) (nm dx) (nm dy))|
          apply clean_q; repeat (apply clean_app; [first [apply Htext|cl]|]); apply Htext|]. at_lit. constructor. repeat constructor. }
      assert (B : attrs_text [(lit "transform", VMatrix (lit "1", 1) (lit "0", 0) (lit "0", 0) (lit "-1", - (1)) (lit "0", 0) (nm (ymax + ymin)))]
        (lit " " ++ lit "transform" ++ lit "=" ++ quoted (lit "matrix(1,0,0,-1,0," ++ text (ymax + ymin) ++ lit ")") ++ [])).
      { apply attr_step; [|apply clean_q; apply clean_app; [cl|]; apply clean_app; [apply Htext|cl]|constructor; constructor].
        exact (vt_matrix (lit "1", 1) (lit "0", 0) (lit "0", 0) (lit "-1", - (1)) (lit "0", 0) (nm (ymax + ymin))). }
      assert (G : all_write [group_of fill clear_stroke g] (strokes_svg clear_stroke fill g ++ [])).
      { constructor; [|constructor]. apply group_writes; [exact Hf| |exact Hp]. intros H. vm_compute in H. repeat (destruct H as [H|H]; [discriminate H|]). exact H. }
      pose proof (w_open (lit "g") _ _ _ _ B G) as W. pose proof (aw_cons _ _ _ _ W aw_nil) as W'. pose proof (w_open (lit "svg") _ _ _ _ A W') as W2.
      clear -W2. rewrite ?app_nil_r, <- ?app_assoc in W2. rewrite <- ?app_assoc. exact W2.
  Qed.
End Doc.

(** ** What is shown *)
Lemma even_odd_holes outer holes p : valid_holes outer holes -> (even_odd (outer :: holes) p = true <-> in_polygon outer holes p).
Proof.
  intros V. destruct (V p) as [V1 V2]. unfold even_odd, in_polygon. cbn [map fold_right].
  assert (X : fold_right xorb false (map (fun r => odd_ring r p) holes) = existsb (fun h => odd_ring h p) holes).
  { clear V V1. induction V2 as [|h l H _ IH]; [reflexivity|]. cbn [map fold_right existsb]. rewrite IH. destruct (odd_ring h p); [|destruct (existsb _ l); reflexivity].
    assert (E : existsb (fun h => odd_ring h p) l = false).
    { destruct (existsb (fun h => odd_ring h p) l) eqn:E; [|reflexivity]. apply existsb_exists in E as (k & Hk & E). rewrite Forall_forall in H. rewrite (H k Hk eq_refl) in E. discriminate. }
    rewrite E. reflexivity. }
  rewrite X. split.
  - intros H. destruct (existsb (fun h => odd_ring h p) holes) eqn:E.
    + apply existsb_exists in E as (k & Hk & E). rewrite (V1 k Hk E) in H. discriminate.
    + destruct (odd_ring outer p); [|discriminate]. split; [reflexivity|]. intros h Hh. destruct (odd_ring h p) eqn:F; [|reflexivity].
      assert (G : existsb (fun h => odd_ring h p) holes = true) by (apply existsb_exists; eauto). congruence.
  - intros [H1 H2]. rewrite H1. destruct (existsb (fun h => odd_ring h p) holes) eqn:E; [|reflexivity].
    apply existsb_exists in E as (k & Hk & E). rewrite (H2 k Hk) in E. discriminate.
Qed.
Section Shown.
  Context (text : Q -> str).
  Lemma values_of rs : values (map (ring_nums text) rs) = rs.
  Proof.
    unfold values. rewrite map_map. rewrite <- (map_id rs) at 2. apply map_ext. intros r. unfold ring_nums. rewrite map_map.
    rewrite <- (map_id r) at 2. apply map_ext. intros [x y]. reflexivity.
  Qed.
  Lemma path_painted fill stroke p q o : painted (path_of text fill stroke p) q o <->
    poly_empty p = false /\ even_odd (po_outer p :: po_holes p) q = true /\ o = (fill, 3#5).
  Proof.
    unfold path_of. destruct (poly_empty p).
    - split; [|intros (X & _); discriminate]. intros H. inversion H as [|? ? ? ? ? ? Hi]; subst. destruct Hi.
    - split.
      + intros H. inversion H as [attrs kids rs c op q' A1 A2 A3 A4 A5| ]; subst. cbn in A1, A3, A4. injection A1 as <-. injection A3 as <-. injection A4 as <-.
        rewrite <- (map_cons (ring_nums text)), values_of in A5. auto.
      + intros (_ & H & ->). eapply pt_path; try reflexivity. rewrite values_of. exact H.
  Qed.
  Lemma empty_painted q o : ~ painted (Elt (lit "g") [] []) q o.
  Proof. intros H. inversion H as [|? ? ? ? ? ? Hi]; subst. destruct Hi. Qed.
  Lemma group_painted fill stroke g q o : painted (group_of text fill stroke g) q o <->
    (exists p, In p (polygons g) /\ poly_empty p = false /\ even_odd (po_outer p :: po_holes p) q = true) /\ o = (fill, 3#5).
  Proof.
    destruct g as [p|ps]; cbn [group_of polygons].
    - rewrite path_painted. split; [intros (A & B & C); split; [exists p; cbn; auto|exact C]|].
      intros [(p' & [<-|[]] & A & B) C]. auto.
    - destruct (is_empty (GMulti ps)) eqn:E.
      + split; [intros H; destruct (empty_painted _ _ H)|]. intros [(p & Hp & A & _) _]. unfold is_empty in E. cbn in E. rewrite forallb_forall in E.
        rewrite (E p Hp) in A. discriminate.
      + split.
        * intros H. inversion H as [|attrs kids x p q' o' Hi Hpl Hx]; subst. apply in_map_iff in Hi as (y & <- & Hy). apply path_painted in Hx as (A & B & C).
          split; [|exact C]. exists y. split; [exact Hy|]. split; [exact A|]. rewrite <- B. apply even_odd_same. destruct Hpl as [P1 P2]. split; assumption.
        * intros [(p & Hp & A & B) ->]. eapply (pt_group _ _ (path_of text fill stroke p) q q); [apply in_map, Hp|split; reflexivity|].
          apply path_painted. auto.
  Qed.
  Lemma doc_shown fill g u v o xmin ymin xmax ymax : bounds g = (xmin, ymin, xmax, ymax) -> xmin < xmax -> ymin < ymax -> is_empty g = false ->
    Forall (fun p => valid_holes (po_outer p) (po_holes p)) (polygons g) ->
    (shown (doc_of text fill g) (u, v) o <->
       0 <= u <= xmax - xmin /\ 0 <= v <= ymax - ymin /\
       (exists p, In p (polygons g) /\ in_polygon (po_outer p) (po_holes p) (xmin + u, ymax - v)) /\ o = (fill, 3#5)).
  Proof.
    intros Eb Hx Hy He Hv. unfold doc_of. rewrite He, Eb.
    assert (Dx : ~ xmax - xmin == 0) by (intros E; apply (Qlt_irrefl xmin); setoid_replace xmin with xmax at 2; [exact Hx|]; setoid_replace xmax with (xmax - xmin + xmin) by ring; rewrite E; ring).
    assert (Dy : ~ ymax - ymin == 0) by (intros E; apply (Qlt_irrefl ymin); setoid_replace ymin with ymax at 2; [exact Hy|]; setoid_replace ymax with (ymax - ymin + ymin) by ring; rewrite E; ring).
    assert (Sm : q_small ((xmax - xmin) / (xmax - xmin)) ((ymax - ymin) / (ymax - ymin)) == 1).
    { unfold q_small. destruct (Qle_bool _ _); field; assumption. }
    assert (EO : forall q q', same q q' -> (exists p, In p (polygons g) /\ poly_empty p = false /\ even_odd (po_outer p :: po_holes p) q = true) <->
      (exists p, In p (polygons g) /\ in_polygon (po_outer p) (po_holes p) q')).
    { intros q q' S. rewrite Forall_forall in Hv. split.
      - intros (p & Hp & _ & H). exists p. split; [exact Hp|]. apply even_odd_holes; [apply Hv, Hp|]. rewrite <- H. apply even_odd_same. destruct S. split; symmetry; assumption.
      - intros (p & Hp & H). exists p. split; [exact Hp|]. split; [|apply even_odd_holes in H; [|apply Hv, Hp]; rewrite <- H; apply even_odd_same, S].
        destruct H as [H _]. unfold poly_empty. destruct (po_outer p); [discriminate|reflexivity]. }
    split.
    - intros (attrs & kids & x & w & h & p & E & (V1 & V2 & V3 & bx & by_ & bw & bh & V4 & V5) & B1 & B2 & Hi & Hp).
      injection E as <- <-. cbn in V1, V2, V4. injection V1 as <-. injection V2 as <-. injection V4 as <- <- <- <-. cbn [fst snd nm] in *.
      destruct V5 as [V5 V6]. destruct Hi as [<-|[]]. inversion Hp as [|attrs' kids' x' p' q' o' Hi' Hpl Hx']; subst. destruct Hi' as [<-|[]].
      apply group_painted in Hx' as [Hx' ->]. destruct Hpl as [P1 P2]. cbn [fst snd nm] in P1, P2. rewrite Sm in V5, V6.
      split; [exact B1|]. split; [exact B2|]. split; [|reflexivity]. revert Hx'. apply EO. split; cbn [fst snd].
      + rewrite V5, P1. field.
      + rewrite V6, P2. field.
    - intros (B1 & B2 & Hp & ->). eexists _, _, _, _, _, (xmin + u, ymin + v). split; [reflexivity|].
      split; [|split; [exact B1|]; split; [exact B2|]; split; [left; reflexivity|]].
      + repeat split; try reflexivity. eexists _, _, _, _. split; [reflexivity|]. cbn [fst snd nm]. cbv zeta. rewrite Sm. split; field.
      + apply (pt_group _ _ (group_of text fill clear_stroke g) (xmin + u, ymax - v)); [left; reflexivity| |].
        * split; cbn [fst snd nm]; ring.
        * apply group_painted. split; [|reflexivity]. revert Hp. apply EO. split; reflexivity.
  Qed.
End Shown.

(** C84: who hears of which node when a file is visited. *)
From Verif Require Import Base Num Dict Ast GramAst ResModel WalkModel WalkSpec WalkProofs LinkModel.
From Verif Require LinterModel.

Scheme listed_mut := Induction for listed Sort Prop with listed_all_mut := Induction for listed_all Sort Prop.

Section Heard.
  Context {K T S E : Type}.
  Notation thing := (thing K T).
  Notation visitor regs := (fold_left (fun d r => register_listener (fst r) (snd r) d) regs []).

  (** Every file has one listing. *)
  Theorem C84_order : forall f : list (rnode K T), exists! o, listed (XFile f) (XFile f :: o).
  Proof.
    intros f. destruct (file_listed f) as (o & H). exists o. split; [exact H|]. intros o' H'.
    assert (U : forall (t : thing) a, listed t a -> forall b, listed t b -> a = b).
    { apply (listed_mut K T (fun t a _ => forall b, listed t b -> a = b) (fun ts a _ => forall b, listed_all ts b -> a = b)).
      - intros t ls _ IH b Hb. inversion Hb; subst. f_equal. apply IH. assumption.
      - intros b Hb. inversion Hb. reflexivity.
      - intros t r a b _ IHa _ IHb c Hc. inversion Hc; subst. rewrite (IHa a0), (IHb b0) by assumption. reflexivity. }
    pose proof (U _ _ H _ H') as X. congruence.
  Qed.

  (** Full statement of C84: every listener hears of the nodes of its class in the order of the
      text.  It is told of the file first and last (even after an exception), of nodes with a
      common base class twice in a row, of other nodes once; an exception ends the visit. *)
  Theorem C84_heard : forall (regs : list (str * listener K T S E)) f o s s' x, listed (XFile f) (XFile f :: o) ->
    (on_file (visitor regs) f s = (s', x) <->
     (exists e, ran (reactions regs [XFile f]) s s' (Some e) /\ x = Some e) \/
     (exists s1 s2 y z, ran (reactions regs [XFile f]) s s1 None /\ ran (reactions regs (flat_map told o)) s1 s2 y /\
        ran (reactions regs [XFile f]) s2 s' z /\ x = match z with Some e => Some e | None => y end)).
  Proof.
    intros regs f o s s' x H. inversion H as [? ls Hl]; subst. cbn [parts] in Hl.
    assert (R : forall ts a a' e, tells (visitor regs) ts a = (a', e) <-> ran (reactions regs ts) a a' e).
    { intros ts a a' e. rewrite tells_steps. apply ran_each. }
    assert (R1 : forall a a' e, trigger_listeners (visitor regs) (XFile f) a = (a', e) <-> ran (reactions regs [XFile f]) a a' e).
    { intros a a' e. rewrite <- R. unfold tells. cbn [each]. rewrite seq_skip. reflexivity. }
    unfold on_file, seq. destruct (trigger_listeners (visitor regs) (XFile f) s) as [s1 [e1|]] eqn:E1.
    - pose proof (proj1 (R1 _ _ _) E1) as P1. split.
      + intros X. injection X as <- <-. left. exists e1. split; [exact P1|reflexivity].
      + intros [(e & P & ->)|(s2 & s3 & y & z & P & _)]; apply R1 in P; congruence.
    - rewrite (file_visits (visitor regs) f o Hl). unfold heard. destruct (tells (visitor regs) (flat_map told o) s1) as [s2 y] eqn:E2.
      unfold on_end_of_file. destruct (trigger_listeners (visitor regs) (XFile f) s2) as [s3 z] eqn:E3.
      assert (X : match z with None => (s3, y) | Some e => (s3, Some e) end = (s3, match z with Some e => Some e | None => y end)) by (destruct z; reflexivity).
      assert (Y : (let '(sa, ea) := (s2, y) in match trigger_listeners (visitor regs) (XFile f) sa with (sb, None) => (sb, ea) | (sb, Some e) => (sb, Some e) end) = (s3, match z with Some e => Some e | None => y end)).
      { cbv beta iota. rewrite E3. destruct z; reflexivity. }
      apply R1 in E1, E3. apply R in E2. split.
      + intros Z. right. exists s1, s2, y, z. repeat split; try assumption; destruct z; congruence.
      + intros [(e & P & ->)|(s1' & s2' & y' & z' & P1 & P2 & P3 & ->)].
        * apply R1 in P, E1. congruence.
        * apply R1 in P1, P3, E1, E3. apply R in P2, E2. assert (s1' = s1) as -> by congruence. assert (s2' = s2 /\ y' = y) as [-> ->] by (split; congruence).
          assert (s3 = s' /\ z' = z) as [-> ->] by (split; congruence). destruct z; reflexivity.
  Qed.

  (** Nobody who listens to a base class hears anything. *)
  Theorem C84_base_classes : forall (r1 r2 : list (str * listener K T S E)) b l f s, In b base_classes ->
    on_file (visitor (r1 ++ (b, l) :: r2)) f s = on_file (visitor (r1 ++ r2)) f s.
  Proof.
    intros r1 r2 b l f s Hb.
    assert (Q : forall t : thing, str_eqb b (type_of t) = false).
    { intros t. repeat (destruct Hb as [<-|Hb]; [destruct t as [|[]| | | | | | | |[]|[]| |[]]; try reflexivity; cbn [type_of cmd_type];
        repeat match goal with |- context [match ?x with _ => _ end] => destruct x end; try reflexivity|]); try destruct Hb.
      all: try (destruct a; reflexivity). all: try (destruct g; reflexivity). all: try (destruct a as [? []]; reflexivity). all: try (destruct a; try reflexivity; destruct t; reflexivity). }
    assert (F : forall ts, reactions (r1 ++ (b, l) :: r2) ts = reactions (r1 ++ r2) ts).
    { intros ts. unfold reactions. apply flat_map_ext. intros t. rewrite !filter_app. cbn [filter fst]. rewrite Q. reflexivity. }
    destruct (file_listed f) as (o & Ho). destruct (on_file (visitor (r1 ++ r2)) f s) as [s' x] eqn:E0.
    apply (C84_heard _ f o _ _ _ Ho). apply (C84_heard _ f o _ _ _ Ho) in E0. rewrite !F. exact E0.
  Qed.
End Heard.
Print Assumptions C84_order.
Print Assumptions C84_heard.
Print Assumptions C84_base_classes.

(** ** The linter *)
(** The classes the rules of the linter listen to, as the linter of C46, C47 and C73 names them. *)
Definition named (c : LinterModel.cls) : list str :=
  match c with LinterModel.KG g => [g_type g] | LinterModel.KABclose => [lit "ABclose"] | LinterModel.KOther => [] end.
Definition every_g : list gcode := [G01; G02; G03; G36; G37; G54; G55; G70; G71; G74; G75; G90; G91].
Definition of_interest (k : str) : bool := existsb (str_eqb k) (lit "ABclose" :: map g_type every_g).

Section Linter.
  Context {K T : Type} (u : nat -> Z) (fa : ta K -> list str) (ff : tf T -> list str) (fo : to K -> list str).
  Notation thing := (thing K T).
  Notation types o := (filter of_interest (map type_of (flat_map told (o : list thing)))).
  Notation names l := (flat_map named (map fst l)).

  Definition dull (t : thing) : Prop := match t with XExpr _ | XPrim _ | XPoint _ _ | XCoord _ _ | XAMopen _ | XAMclose => True | _ => False end.
  Lemma dull_parts t : dull t -> Forall dull (parts t).
  Proof.
    assert (X : forall l, Forall dull (xs l)) by (intros l; apply Forall_map, Forall_forall; intros ? _; exact I).
    destruct t as [|c| | | | | | | |p|e|x y|a v]; intros []; try (constructor; fail); try apply X.
    - destruct p; try apply X; [constructor|]. cbn [parts]. apply Forall_app. split; [apply X|]. apply Forall_app. split; [|apply X]. apply Forall_map, Forall_forall. intros ? _. exact I.
    - destruct e; try (constructor; fail); apply X.
  Qed.
  Lemma dull_type t : dull t -> of_interest (type_of t) = false.
  Proof. destruct t as [|c| | | | | | | |[]|[]|x y|[] v]; intros []; reflexivity. Qed.
  Lemma types_app a b : types (a ++ b) = types a ++ types b.
  Proof. rewrite flat_map_app, map_app, filter_app. reflexivity. Qed.
  Lemma dull_types o : Forall dull o -> types o = [].
  Proof.
    induction 1 as [|t o H _ IH]; [reflexivity|]. change (t :: o) with ([t] ++ o). rewrite types_app, IH, app_nil_r. cbn [flat_map]. rewrite app_nil_r. unfold told.
    destruct (grouped t); cbn [map filter]; rewrite !(dull_type t H); reflexivity.
  Qed.
  Lemma dull_listed : forall ts o, listed_all ts o -> Forall dull ts -> Forall dull o.
  Proof.
    apply (listed_all_mut K T (fun t a _ => dull t -> Forall dull a) (fun ts a _ => Forall dull ts -> Forall dull a)).
    - intros t ls _ IH Ht. constructor; [exact Ht|]. apply IH, dull_parts, Ht.
    - constructor.
    - intros t r a b _ IHa _ IHb H. inversion H; subst. apply Forall_app. auto.
  Qed.
  Lemma coord_dull a o : Forall dull (coord a o).
  Proof. destruct o; repeat constructor. Qed.

  Lemma link_body l : forall n, (fix body (l : list (cmd K T)) (n : nat) : list (node K) * nat :=
      match l with
      | [] => ([], n)
      | x :: r => let '(y, n) := link u fa ff fo x n in let '(r, n) := body r n in (y :: r, n)
      end) l n = links u fa ff fo l n.
  Proof. induction l as [|x l IH]; intros n; [reflexivity|]. cbn [links]. destruct (link u fa ff fo x n) as [y m]. rewrite IH. reflexivity. Qed.
  Lemma link_ab id body n : fst (link u fa ff fo (CAB id body) n) = NAB id (fst (links u fa ff fo body n)).
  Proof. cbn [link]. rewrite link_body. destruct (links u fa ff fo body n). reflexivity. Qed.
  Lemma link_sr h body n : fst (link u fa ff fo (CSR h body) n) = NSR (u n) h (fst (links u fa ff fo body (Datatypes.S n))).
  Proof. cbn [link]. rewrite link_body. destruct (links u fa ff fo body (Datatypes.S n)). reflexivity. Qed.
  Lemma quiet_cmd (c : cmd K T) n p o : listed_all [XCmd c] o -> Forall dull (parts (XCmd c)) ->
    filter of_interest (map type_of (told (XCmd c))) = names (LinterModel.events p (fst (link u fa ff fo c n))) ->
    types o = names (LinterModel.events p (fst (link u fa ff fo c n))).
  Proof.
    intros H Hd E. inversion H as [|? ? x y H1 H2]; subst. inversion H2; subst. rewrite app_nil_r. inversion H1 as [? ls H3]; subst. change (XCmd c :: ls) with ([XCmd c] ++ ls).
    rewrite types_app, (dull_types ls (dull_listed _ _ H3 Hd)), app_nil_r. cbn [flat_map]. rewrite app_nil_r. exact E.
  Qed.
  Lemma cmd_types : forall (c : cmd K T) n p o, listed_all [XCmd c] o -> types o = names (LinterModel.events p (fst (link u fa ff fo c n))).
  Proof.
    assert (L : forall body, Forall (fun c : cmd K T => forall n p o, listed_all [XCmd c] o -> types o = names (LinterModel.events p (fst (link u fa ff fo c n)))) body ->
      forall n p i o, listed_all (map XCmd body) o -> types o = names (LinterModel.events_list p i (fst (links u fa ff fo body n)))).
    { induction 1 as [|c body Hc _ IH]; intros n p i o Ho; cbn [map] in Ho; inversion Ho as [|? ? x y H1 H2]; subst; [reflexivity|].
      cbn [links]. destruct (link u fa ff fo c n) as [d m] eqn:El. destruct (links u fa ff fo body m) as [ds m'] eqn:Els. cbn [fst LinterModel.events_list].
      rewrite types_app, map_app, flat_map_app. f_equal.
      - specialize (Hc n (p ++ [i]) x). rewrite El in Hc. apply Hc. rewrite <- (app_nil_r x). constructor; [exact H1|constructor].
      - specialize (IH m p (Datatypes.S i) y H2). rewrite Els in IH. exact IH. }
    assert (B : forall (t1 t2 : thing) ls body k n p, listed_all ([t1] ++ map XCmd body ++ [t2]) ls -> parts t1 = [] -> parts t2 = [] ->
      filter of_interest (map type_of (told t1)) = [] -> filter of_interest (map type_of (told t2)) = named k ->
      Forall (fun c : cmd K T => forall n p o, listed_all [XCmd c] o -> types o = names (LinterModel.events p (fst (link u fa ff fo c n)))) body ->
      types ls = names (LinterModel.events_list p 1 (fst (links u fa ff fo body n))) ++ named k).
    { intros t1 t2 ls body k n p H P1 P2 Q1 Q2 HB. apply all_split in H as (x & y & -> & H1 & H2). apply all_split in H2 as (y1 & y2 & -> & H2 & H3).
      inversion H1 as [|? ? a b Ha Hb]; subst. inversion Hb; subst. inversion Ha as [? l1 Hl]; subst. rewrite P1 in Hl. inversion Hl; subst.
      inversion H3 as [|? ? a b Ha' Hb']; subst. inversion Hb'; subst. inversion Ha' as [? l2 Hl']; subst. rewrite P2 in Hl'. inversion Hl'; subst.
      rewrite !types_app, (L body HB n p 1 y1 H2). cbn [flat_map app]. rewrite !app_nil_r, Q1, Q2. reflexivity. }
    intros c. induction c as [id body H|h body H|c Hc] using cmd_ind'; intros n p o Ho.
    - inversion Ho as [|? ? x y H1 H2]; subst. inversion H2; subst. rewrite app_nil_r. inversion H1 as [? ls H3]; subst. cbn [parts] in H3.
      change (XCmd (CAB id body) :: ls) with ([XCmd (CAB id body)] ++ ls). rewrite types_app.
      rewrite (B _ _ ls body LinterModel.KABclose n p H3 eq_refl eq_refl eq_refl eq_refl H).
      rewrite link_ab. set (ds := fst (links u fa ff fo body n)).
      change (LinterModel.events p (NAB id ds)) with ((LinterModel.KOther, p) :: (LinterModel.KOther, p ++ [0]) :: LinterModel.events_list p 1 ds ++ [(LinterModel.KABclose, p ++ [Datatypes.S (length ds)])]).
      cbn [map fst flat_map named app]. rewrite (map_app fst), flat_map_app. reflexivity.
    - inversion Ho as [|? ? x y H1 H2]; subst. inversion H2; subst. rewrite app_nil_r. inversion H1 as [? ls H3]; subst. cbn [parts] in H3.
      change (XCmd (CSR h body) :: ls) with ([XCmd (CSR h body)] ++ ls). rewrite types_app.
      rewrite (B _ _ ls body LinterModel.KOther (Datatypes.S n) p H3 eq_refl eq_refl eq_refl eq_refl H).
      rewrite link_sr. set (ds := fst (links u fa ff fo body (Datatypes.S n))).
      change (LinterModel.events p (NSR (u n) h ds)) with ((LinterModel.KOther, p) :: (LinterModel.KOther, p ++ [0]) :: LinterModel.events_list p 1 ds ++ [(LinterModel.KOther, p ++ [Datatypes.S (length ds)])]).
      cbn [map fst flat_map named app]. rewrite (map_app fst), flat_map_app. reflexivity.
    - apply quiet_cmd; [exact Ho| |].
      + destruct c; try contradiction; cbn [parts]; repeat (apply Forall_app; split); try apply coord_dull; try (constructor; fail); try (repeat constructor; fail).
        apply Forall_map, Forall_forall. intros ? _. exact I.
      + destruct c; try contradiction; try reflexivity; cbn [link told grouped map type_of cmd_type link_leaf fst].
        * destruct a as [i []]; reflexivity.
        * destruct (link_prims u prims n). reflexivity.
        * destruct a; reflexivity.
        * destruct a; reflexivity.
        * destruct a as [| | | | |[]| | |]; reflexivity.
        * destruct g; reflexivity.
  Qed.
  Lemma cmds_types l : forall n p i o, listed_all (map XCmd l) o -> types o = names (LinterModel.events_list p i (fst (links u fa ff fo l n))).
  Proof.
    induction l as [|c l IH]; intros n p i o Ho; cbn [map] in Ho; inversion Ho as [|? ? x y H1 H2]; subst; [reflexivity|].
    cbn [links]. destruct (link u fa ff fo c n) as [d m] eqn:El. destruct (links u fa ff fo l m) as [ds m'] eqn:Els. cbn [fst LinterModel.events_list].
    rewrite types_app, map_app, flat_map_app. f_equal.
    - pose proof (cmd_types c n (p ++ [i]) x) as Hc. rewrite El in Hc. apply Hc. rewrite <- (app_nil_r x). constructor; [exact H1|constructor].
    - specialize (IH m p (Datatypes.S i) y H2). rewrite Els in IH. exact IH.
  Qed.

  (** What the rules of the linter can hear is what C46, C47 and C73 say they hear. *)
  Theorem C84_linter : forall (f : list (cmd K T)) o, let x := XFile (map Parsed f) in listed x (x :: o) ->
    filter of_interest (map type_of (x :: flat_map told o ++ [x])) = flat_map named (map fst (LinterModel.file_events (nodes u fa ff fo f))).
  Proof.
    intros f o x H. inversion H as [? ls Hl]; subst. cbn [map]. rewrite map_app. cbn [filter]. change (of_interest (type_of x)) with false. cbv iota.
    rewrite filter_app. change (filter of_interest (map type_of [x])) with (@nil str). rewrite app_nil_r. subst x. cbn [parts] in Hl. rewrite map_map in Hl. cbn [top_node] in Hl. exact (cmds_types f 0 [] 0 o Hl).
  Qed.
End Linter.
Print Assumptions C84_linter.

(** ** Cases *)
(** Listeners that count. *)
Definition count {K T} : listener K T nat unit := fun _ n => (Datatypes.S n, None).
Definition disk : list (rnode Q unit) := [Parsed (CAD (MkAD (lit "D10") (TCircle 1%Q None))); Parsed (CD03 true (Some (lit "5")) None); Invalid (lit "?"); Parsed (CG true G01); Parsed CM02].
(** One definition of an aperture, one coordinate and one file are each reported twice. *)
Theorem C84_once_refuted : ~ (forall k (f : list (rnode Q unit)) o, listed (XFile f) (XFile f :: o) ->
  on_file (register_listener k count []) f 0 = (length (filter (fun t => str_eqb k (type_of t)) (XFile f :: o)), None)).
Proof.
  intros H. destruct (file_listed disk) as (o & Ho). specialize (H (lit "ADC") disk o Ho).
  replace o with ([XCmd (CAD (MkAD (lit "D10") (TCircle 1%Q None))); XCmd (CD03 true (Some (lit "5")) None); XCoord AxX (lit "5"); XInvalid (lit "?"); XCmd (CG true G01); XCmd CM02] : list (thing Q unit)) in H; [discriminate H|].
  inversion Ho as [? ls Hl]; subst. repeat match goal with
    | X : listed_all (_ :: _) _ |- _ => inversion X; clear X; subst | X : listed_all [] _ |- _ => inversion X; clear X; subst
    | X : listed _ _ |- _ => inversion X; clear X; subst | X : listed_all (parts _) _ |- _ => cbn in X end. reflexivity.
Qed.
Print Assumptions C84_once_refuted.
Example C84_counts : map (fun k => fst (on_file (register_listener (lit k) count []) disk 0)) ["ADC"; "CoordinateX"; "File"; "G01"; "D03"; "Invalid"; "AD"; "Node"]%string = [2; 2; 2; 1; 1; 1; 0; 0].
Proof. reflexivity. Qed.
(** A listener that raises at the first D03: the file is reported once more and the exception goes on. *)
Definition raises : listener Q unit nat str := fun _ n => (n, Some (lit "boom")).
Definition adds : listener Q unit nat str := fun _ n => (Datatypes.S n, None).
Example C84_raises : on_file (fold_left (fun d r => register_listener (fst r) (snd r) d) [(lit "D03", raises); (lit "G01", adds); (lit "File", adds); (lit "ADC", adds)] []) disk 0 = (4, Some (lit "boom")).
Proof. reflexivity. Qed.

(** Proofs for C84. *)
From Verif Require Import Base Num Dict Ast GramAst ResModel WalkModel WalkSpec.

Section Order.
  Context {K T : Type}.
  Notation thing := (thing K T).
  Lemma all_app (a b : list thing) x y : listed_all a x -> listed_all b y -> listed_all (a ++ b) (x ++ y).
  Proof. revert x. induction a as [|t a IH]; intros x Ha Hb; inversion Ha; subst; [exact Hb|]. cbn [app]. rewrite <- app_assoc. constructor; [assumption|]. apply IH; assumption. Qed.
  Lemma all_split (a b : list thing) z : listed_all (a ++ b) z -> exists x y, z = x ++ y /\ listed_all a x /\ listed_all b y.
  Proof.
    revert z. induction a as [|t a IH]; intros z H; [exists [], z; split; [reflexivity|]; split; [constructor|exact H]|].
    cbn [app] in H. inversion H; subst. destruct (IH _ ltac:(eassumption)) as (x & y & -> & Hx & Hy). exists (a0 ++ x), y. rewrite app_assoc. split; [reflexivity|]. split; [constructor; assumption|exact Hy].
  Qed.

  Lemma list_all (l : list thing) : Forall (fun t => exists o, listed t o) l -> exists o, listed_all l o.
  Proof. induction 1 as [|t r (o & H) _ (o' & IH)]; [exists []; constructor|]. exists (o ++ o'). constructor; assumption. Qed.
  Lemma list_this (t : thing) : Forall (fun t => exists o, listed t o) (parts t) -> exists o, listed t o.
  Proof. intros H. apply list_all in H as (o & H). exists (t :: o). constructor. exact H. Qed.

  Lemma expr_listed (e : expr K) : exists o, listed (XExpr e : thing) o.
  Proof.
    assert (L : forall h l, (exists o, listed (XExpr h : thing) o) -> Forall (fun e => exists o, listed (XExpr e : thing) o) l ->
      Forall (fun t : thing => exists o, listed t o) (xs (h :: l))) by (intros h l Hh Hl; apply Forall_map; constructor; assumption).
    induction e as [c|v|e IH|e IH|e IH|h t IH IHt|h t IH IHt|h t IH IHt|h t IH IHt] using expr_ind'; apply list_this; cbn [parts];
      try (constructor; fail); try (apply L; assumption); repeat (constructor; [assumption|]); constructor.
  Qed.
  Lemma exprs_listed (l : list (expr K)) : Forall (fun t : thing => exists o, listed t o) (xs l).
  Proof. apply Forall_map, Forall_forall. intros e _. apply expr_listed. Qed.
  Lemma small_listed (t : thing) : parts t = [] -> exists o, listed t o.
  Proof. intros E. apply list_this. rewrite E. constructor. Qed.
  Lemma point_listed x y : exists o, listed (XPoint x y : thing) o.
  Proof. apply list_this, exprs_listed. Qed.
  Lemma prim_listed (p : prim K) : exists o, listed (XPrim p : thing) o.
  Proof.
    apply list_this. destruct p; cbn [parts]; try apply exprs_listed; [constructor|].
    apply Forall_app. split; [apply exprs_listed|]. apply Forall_app. split; [|apply exprs_listed].
    apply Forall_map, Forall_forall. intros xy _. apply point_listed.
  Qed.
  Lemma coord_listed a o : Forall (fun t : thing => exists o, listed t o) (coord a o).
  Proof. destruct o; repeat constructor. apply small_listed. reflexivity. Qed.
  Lemma cmd_listed (c : cmd K T) : exists o, listed (XCmd c : thing) o.
  Proof.
    induction c as [id body H|h body H|c Hc] using cmd_ind'; apply list_this; cbn [parts].
    - repeat (apply Forall_app; split); try (constructor; [apply small_listed; reflexivity|constructor]). apply Forall_map. exact H.
    - repeat (apply Forall_app; split); try (constructor; [apply small_listed; reflexivity|constructor]). apply Forall_map. exact H.
    - destruct c; try contradiction; try (constructor; fail); repeat (apply Forall_app; split); try apply coord_listed;
        try (constructor; [apply small_listed; reflexivity|constructor]). apply Forall_map, Forall_forall. intros p _. apply prim_listed.
  Qed.
  Lemma file_listed (f : list (rnode K T)) : exists o, listed (XFile f) (XFile f :: o).
  Proof.
    destruct (list_all (map top_node f)) as (o & H); [|exists o; constructor; exact H]. apply Forall_map, Forall_forall. intros [c|t] _; [apply cmd_listed|apply small_listed; reflexivity].
  Qed.
End Order.

(** ** What the visitor does *)
Section Visit.
  Context {K T S E : Type}.
  Notation thing := (thing K T).
  Notation act := (act S E).
  Definition eqa (a b : act) : Prop := forall s, a s = b s.
  Infix "==" := eqa (at level 70).
  Infix ";;" := seq (at level 60, right associativity).
  Lemma seq_assoc (a b c : act) : (a ;; b) ;; c == a ;; (b ;; c).
  Proof. intros s. unfold seq. destruct (a s) as [s' [e|]]; reflexivity. Qed.
  Lemma seq_skip (a : act) : a ;; skip == a.
  Proof. intros s. unfold seq, skip. destruct (a s) as [s' [e|]]; reflexivity. Qed.
  Lemma seq_eq (a a' b b' : act) : a == a' -> b == b' -> a ;; b == a' ;; b'.
  Proof. intros Ha Hb s. unfold seq. rewrite Ha. destruct (a' s) as [s' [e|]]; [reflexivity|apply Hb]. Qed.
  Lemma each_app {A} (f : A -> act) l r : each f (l ++ r) == each f l ;; each f r.
  Proof. induction l as [|x l IH]; intros s; [reflexivity|]. cbn [app each]. rewrite seq_assoc. apply seq_eq; [intros ?; reflexivity|exact IH]. Qed.

  Context (D : dict (list (listener K T S E))).
  Notation tell := (trigger_listeners D).
  Definition tells (l : list thing) : act := each tell l.
  Definition heard (l : list thing) : act := tells (flat_map told l).
  Lemma heard_app l r : heard (l ++ r) == heard l ;; heard r.
  Proof. unfold heard, tells. rewrite flat_map_app. apply each_app. Qed.
  Lemma heard_one t l : grouped t = false -> heard (t :: l) == tell t ;; heard l.
  Proof. intros G s. unfold heard. cbn [flat_map]. unfold told at 1. rewrite G. reflexivity. Qed.
  Lemma heard_two t l : grouped t = true -> heard (t :: l) == tell t ;; (on_group D t ;; heard l).
  Proof.
    intros G s. unfold heard. cbn [flat_map]. unfold told at 1. rewrite G. cbn [app]. unfold tells. cbn [each].
    apply seq_eq; [intros ?; reflexivity|]. unfold on_group. intros s'. rewrite seq_assoc. apply seq_eq; intros ?; reflexivity.
  Qed.
  (** A visit that does what is said about a node. *)
  Definition visits (a : act) (ts : list thing) : Prop := forall o, listed_all ts o -> a == heard o.
  Lemma visits_nil : visits skip [].
  Proof. intros o H. inversion H; subst. intros s. reflexivity. Qed.
  Lemma visits_seq a b x y : visits a x -> visits b y -> visits (a ;; b) (x ++ y).
  Proof.
    intros Ha Hb o H. apply all_split in H as (p & q & -> & Hx & Hy). intros s. rewrite heard_app. apply seq_eq; [apply Ha; exact Hx|apply Hb; exact Hy].
  Qed.
  Lemma visits_node a t : grouped t = false -> visits a (parts t) -> visits (tell t ;; a) [t].
  Proof.
    intros G Ha o H. inversion H as [|? ? x y H1 H2]; subst. inversion H2; subst. rewrite app_nil_r. inversion H1 as [? ls H3]; subst. intros s. rewrite (heard_one t ls G). apply seq_eq; [intros ?; reflexivity|apply Ha; exact H3].
  Qed.
  Lemma visits_group a t : grouped t = true -> visits a (parts t) -> visits (tell t ;; (on_group D t ;; a)) [t].
  Proof.
    intros G Ha o H. inversion H as [|? ? x y H1 H2]; subst. inversion H2; subst. rewrite app_nil_r. inversion H1 as [? ls H3]; subst. intros s. rewrite (heard_two t ls G).
    apply seq_eq; [intros ?; reflexivity|]. apply seq_eq; [intros ?; reflexivity|apply Ha; exact H3].
  Qed.
  Lemma visits_eq a b ts : a == b -> visits a ts -> visits b ts.
  Proof. intros H Ha o Ho s. rewrite <- H. apply Ha, Ho. Qed.
  Lemma visits_leaf t : grouped t = false -> parts t = [] -> visits (tell t) [t].
  Proof. intros G P. apply (visits_eq (tell t ;; skip)); [apply seq_skip|]. apply visits_node; [exact G|]. rewrite P. apply visits_nil. Qed.
  Lemma visits_leaf2 t : grouped t = true -> parts t = [] -> visits (tell t ;; on_group D t) [t].
  Proof.
    intros G P. apply (visits_eq (tell t ;; (on_group D t ;; skip))); [|apply visits_group; [exact G|rewrite P; apply visits_nil]].
    intros s. apply seq_eq; [intros ?; reflexivity|apply seq_skip].
  Qed.
  Lemma visits_each {A} (f : A -> act) (g : A -> thing) l : Forall (fun x => visits (f x) [g x]) l -> visits (each f l) (map g l).
  Proof. induction 1 as [|x l H _ IH]; [apply visits_nil|]. cbn [each map]. change (g x :: map g l) with ([g x] ++ map g l). apply visits_seq; assumption. Qed.
  Lemma visits_cons a b t ts : visits a [t] -> visits b ts -> visits (a ;; b) (t :: ts).
  Proof. apply visits_seq. Qed.

  Lemma expr_visits e : visits (on_expr D e) [XExpr e].
  Proof.
    assert (L : forall l, Forall (fun e => visits (on_expr D e) [XExpr e]) l ->
      visits ((fix operands (l : list (expr K)) : act := match l with [] => skip | x :: r => on_expr D x ;; operands r end) l) (xs l)).
    { induction 1 as [|x l H _ IH]; [apply visits_nil|]. apply visits_cons; assumption. }
    induction e as [c|v|e IH|e IH|e IH|h t IH IHt|h t IH IHt|h t IH IHt|h t IH IHt] using expr_ind'; cbn [on_expr];
      try (apply visits_leaf2; reflexivity); (apply visits_group; [reflexivity|]); try exact IH; (apply visits_cons; [exact IH|apply L, IHt]).
  Qed.
  Lemma point_visits xy : visits (on_point D xy) [XPoint (fst xy) (snd xy)].
  Proof. unfold on_point. apply visits_node; [reflexivity|]. apply visits_cons; apply expr_visits. Qed.
  Lemma prim_visits p : visits (on_prim D p) [XPrim p].
  Proof.
    unfold on_prim. apply visits_node; [reflexivity|]. destruct p; cbn [parts xs map]; try apply visits_nil;
      try (repeat (apply visits_cons; [apply expr_visits|]); apply expr_visits).
    - repeat (apply visits_cons; [apply expr_visits|]). destruct rotation; [apply expr_visits|apply visits_nil].
    - repeat (apply visits_cons; [apply expr_visits|]). apply visits_seq; [|apply expr_visits]. apply (visits_each (on_point D)). apply Forall_forall. intros xy _. apply point_visits.
  Qed.
  Lemma coord_visits a o : visits (maybe (on_coord D a) o) (coord a o).
  Proof. destruct o as [s|]; [|apply visits_nil]. apply visits_leaf2; reflexivity. Qed.
  Lemma cmd_visits c : visits (on_cmd D c) [XCmd c].
  Proof.
    assert (L : forall l, Forall (fun c => visits (on_cmd D c) [XCmd c]) l ->
      visits ((fix inner (l : list (cmd K T)) : act := match l with [] => skip | x :: r => on_cmd D x ;; inner r end) l) (map XCmd l)).
    { induction 1 as [|x l H _ IH]; [apply visits_nil|]. apply visits_cons; assumption. }
    induction c as [id body H|h body H|c Hc] using cmd_ind'.
    - cbn [on_cmd]. apply visits_node; [reflexivity|]. apply visits_cons; [apply visits_leaf; reflexivity|]. apply visits_seq; [apply L, H|apply visits_leaf; reflexivity].
    - cbn [on_cmd]. apply visits_node; [reflexivity|]. apply visits_cons; [apply visits_leaf; reflexivity|]. apply visits_seq; [apply L, H|apply visits_leaf; reflexivity].
    - destruct c; try contradiction; cbn [on_cmd]; try (apply visits_leaf2; reflexivity); (apply visits_node; [reflexivity|]); try apply visits_nil;
        try (repeat (apply visits_seq; [apply coord_visits|]); apply coord_visits).
      apply visits_cons; [apply visits_leaf; reflexivity|]. apply visits_seq; [|apply visits_leaf; reflexivity]. apply (visits_each (on_prim D)). apply Forall_forall. intros p _. apply prim_visits.
  Qed.
  Lemma file_visits f o : listed_all (map top_node f) o -> each (guarded D) f == heard o.
  Proof.
    intros H. refine (visits_each (guarded D) top_node f _ o H). apply Forall_forall. intros n _. apply (visits_eq (on_node D n)).
    - intros s. unfold guarded, on_exception. destruct (on_node D n s) as [s' [e|]]; reflexivity.
    - destruct n as [c|t]; [apply cmd_visits|]. apply visits_node; [reflexivity|apply visits_nil].
  Qed.
End Visit.

Section Registered.
  Context {K T S E : Type}.
  Notation lst := (listener K T S E).
  Lemma registered (regs : list (str * lst)) k : forall d0,
    d_get k (fold_left (fun d r => register_listener (fst r) (snd r) d) regs d0) =
    match map snd (filter (fun r => str_eqb (fst r) k) regs), d_get k d0 with
    | [], o => o | l, o => Some (match o with Some l0 => l0 | None => [] end ++ l) end.
  Proof.
    induction regs as [|[c l] regs IH]; intros d0; cbn [fold_left filter map fst snd]; [reflexivity|].
    rewrite IH. unfold register_listener. rewrite d_get_set. destruct (str_eqb c k) eqn:Ec.
    - apply str_eqb_eq in Ec as ->. rewrite str_eqb_refl. cbn [map]. destruct (map snd _); [reflexivity|]. rewrite <- app_assoc. reflexivity.
    - assert (X : str_eqb k c = false). { destruct (str_eqb k c) eqn:X; [|reflexivity]. apply str_eqb_eq in X as ->. rewrite str_eqb_refl in Ec. discriminate. }
      rewrite X. reflexivity.
  Qed.
  Lemma ran_each (l : list (act S E)) s s' o : each (fun a => a) l s = (s', o) <-> ran l s s' o.
  Proof.
    split.
    - revert s. induction l as [|a l IH]; intros s H; cbn [each] in H; [injection H as <- <-; constructor|]. unfold seq in H. destruct (a s) as [s1 [e|]] eqn:Ea.
      + injection H as <- <-. apply RanFail. exact Ea.
      + eapply RanOn; [exact Ea|]. apply IH, H.
    - induction 1 as [s|a r s s' e H|a r s s' s'' o H _ IH]; [reflexivity| |]; cbn [each]; unfold seq; rewrite H; [reflexivity|exact IH].
  Qed.
  Lemma each_map {A B} (f : B -> act S E) (g : A -> B) l : eqa (each f (map g l)) (each (fun x => f (g x)) l).
  Proof. induction l as [|x l IH]; intros s; [reflexivity|]. cbn [map each]. apply seq_eq; [intros ?; reflexivity|exact IH]. Qed.
  Lemma tells_steps (regs : list (str * lst)) (ts : list (thing K T)) :
    eqa (tells (fold_left (fun d r => register_listener (fst r) (snd r) d) regs []) ts) (each (fun a => a) (reactions regs ts)).
  Proof.
    induction ts as [|t ts IH]; intros s; [reflexivity|]. unfold tells, reactions in *. cbn [each flat_map]. rewrite each_app. apply seq_eq; [|exact IH].
    intros s1. unfold trigger_listeners. rewrite registered. cbn [d_get].
    assert (X : forall l : list (str * lst), map (fun r => snd r t) l = map (fun f => f t) (map snd l)) by (intros l; rewrite map_map; reflexivity).
    rewrite X. destruct (map snd _) as [|y l]; [reflexivity|]. cbn [app]. rewrite each_map. reflexivity.
  Qed.
End Registered.

(** Proofs for C73: paths of nodes and places in the text. *)
From Verif Require Import Base Num CoordModel Ast GramAst PegModel LinkModel LocModel LocSpec LocProofs LocTiles LinterModel LinterSpec LintLocModel.
Local Open Scope nat_scope.

Section Spec.
  Context {K T : Type}.
  Notation lnode := (lnode K T).
  Definition is_code (g : gcode) (x : lnode) : bool := match kind_of x with KCmd (CG _ h) => gcode_beq g h | _ => false end.
  (** The nodes of one G code in the order of the text. *)
  Definition codes (g : gcode) (l : list lnode) : list lnode := filter (is_code g) (flat_map every l).

  (** Interpolation commands and ends of block apertures in the order of the text. *)
  Definition interpolation (g : gcode) : bool := match g with G01 | G02 | G03 => true | _ => false end.
  Fixpoint turns (x : lnode) : list (option (gcode * lnode)) :=
    let 'LN k _ _ kids := x in
    match k with
    | KCmd (CG _ g) => if interpolation g then [Some (g, x)] else []
    | KCmd (CAB _ _) => flat_map turns kids ++ [None]
    | _ => flat_map turns kids
    end.
  (** Interpolation commands that are the same as the one directly before. *)
  Fixpoint again (before : option gcode) (l : list (option (gcode * lnode))) : list (gcode * lnode) :=
    match l with
    | [] => []
    | None :: r => again None r
    | Some (g, x) :: r =>
        (match before with Some h => if gcode_beq h g then [(g, x)] else [] | None => [] end) ++ again (Some g) r
    end.
End Spec.

Section Proofs.
  Context {K T : Type} (u : nat -> Z) (taf : ta K -> list str) (tff : tf T -> list str) (tof : to K -> list str).
  Notation lnode := (lnode K T).
  Notation link := (link u taf tff tof).
  Notation links := (links u taf tff tof).

  Definition sound (x : lnode) : Prop := forall y, In y (every x) -> framed (kind_of y) (inside y).
  Lemma tiles_sound from t (l : list lnode) : tiles from t l -> Forall sound l.
  Proof.
    revert from t l. apply (tiles_deep (fun from t l => Forall sound l)); [constructor|].
    intros from gap c v k len kids rest r H1 H2 H3 H4 H5 H6 H7 IH. constructor; [|exact IH]. intros y [<-|Hy]; [exact H4|].
    apply in_flat_map in Hy as (z & Hz & Hy). destruct H5 as [->|[_ IHk]]; [destruct Hz|]. rewrite Forall_forall in IHk. exact (IHk z Hz y Hy).
  Qed.
  Lemma sound_inside x : sound x -> Forall sound (inside x).
  Proof.
    intros H. apply Forall_forall. intros y Hy z Hz. apply H. destruct x as [k loc len kids]. cbn in *. right. apply in_flat_map. eauto.
  Qed.
  Lemma sound_self x : sound x -> framed (kind_of x) (inside x).
  Proof. intros H. apply H. destruct x. left. reflexivity. Qed.

  (** [f] finds the nodes of [m], which begin at index [i] under the path [p]. *)
  Definition finds (f : path -> option lnode) (p : path) (i : nat) (m : list lnode) : Prop :=
    forall j x q, nth_error m j = Some x -> f (p ++ (i + j) :: q) = down x q.
  Lemma finds_tail f p i x m : finds f p i (x :: m) -> finds f p (S i) m.
  Proof. intros H j y q Hj. specialize (H (S j) y q Hj). rewrite Nat.add_succ_r in H. exact H. Qed.
  Lemma finds_head f p i x m q : finds f p i (x :: m) -> f ((p ++ [i]) ++ q) = down x q.
  Proof. intros H. specialize (H 0 x q eq_refl). rewrite Nat.add_0_r in H. rewrite <- app_assoc. exact H. Qed.
  Lemma finds_inside f p x o m c : inside x = o :: m ++ [c] -> (forall q, f (p ++ q) = down x q) -> finds f p 1 m.
  Proof.
    intros E H j y q Hj. rewrite H. cbn [down plus]. rewrite E. cbn [nth_error]. rewrite nth_error_app1; [rewrite Hj; reflexivity|].
    apply nth_error_Some. congruence.
  Qed.

  Definition hits (f : path -> option lnode) (g : gcode) (cs : list (path * Ast.node K)) : list (option lnode) :=
    map (fun pn => f (fst pn)) (filter (fun pn => is_g g (snd pn)) cs).
  Lemma hits_app f g a b : hits f g (a ++ b) = hits f g a ++ hits f g b.
  Proof. unfold hits. rewrite filter_app, map_app. reflexivity. Qed.
  Notation found g l := (map Some (filter (is_code g) (flat_map every l))).

  (** Headers, ends and primitives have no parts and are no G codes. *)
  Lemma bare_part g x : sound x -> (forall c, kind_of x <> KCmd c) -> filter (is_code g) (every x) = [] /\ turns x = [].
  Proof.
    intros S Hk. pose proof (sound_self x S) as F. destruct x as [k loc len kids]. cbn [kind_of inside] in *.
    destruct k as [c|p| | | | |t]; try (cbn in F; subst kids; split; reflexivity). exfalso. exact (Hk c eq_refl).
  Qed.
  Lemma bare_parts g l : Forall sound l -> (forall x c, In x l -> kind_of x <> KCmd c) -> filter (is_code g) (flat_map every l) = [] /\ flat_map turns l = [].
  Proof.
    induction 1 as [|x l Hx Hl IH]; intros Hk; [split; reflexivity|]. cbn [flat_map]. rewrite filter_app.
    destruct (bare_part g x Hx (fun c => Hk x c (or_introl eq_refl))) as [-> ->]. destruct IH as [-> ->]; [|split; reflexivity]. intros y c Hy. apply Hk. right. exact Hy.
  Qed.

  Lemma macro_parts name (ps : list (prim K)) (kids : list lnode) : framed (KCmd (CAM name ps)) kids -> forall x c, In x kids -> kind_of x <> KCmd c.
  Proof.
    intros F. cbn [framed] in F. destruct F as (o & m' & e & -> & Eo & Ee & Em). intros x c [<-|Hx]; [congruence|]. apply in_app_or in Hx as [Hx|[<-|[]]]; [|congruence].
    intros Ex. assert (I : In (kind_of x) (map kind_of m')) by (apply in_map, Hx). rewrite Em, Ex in I. apply in_map_iff in I as (z & Ez & _). discriminate.
  Qed.

  (** Lists of commands from single commands. *)
  Notation body_of := (fix body (l : list (cmd K T)) (n : nat) : list (Ast.node K) * nat :=
      match l with
      | [] => ([], n)
      | x :: r => let '(y, n) := link x n in let '(r, n) := body r n in (y :: r, n)
      end).
  Lemma body_links l : forall n, body_of l n = links l n.
  Proof. induction l as [|x l IH]; intros n; [reflexivity|]. cbn. destruct (link x n) as [y m]. rewrite IH. reflexivity. Qed.

  Definition good_hits (x : lnode) : Prop := forall c n f p g, kind_of x = KCmd c -> sound x -> (forall q, f (p ++ q) = down x q) ->
    hits f g (commands p (fst (link c n))) = map Some (filter (is_code g) (every x)).
  Lemma hits_list m : Forall good_hits m -> Forall sound m -> forall cs n f p i g, map kind_of m = map KCmd cs -> finds f p i m ->
    hits f g (commands_list p i (fst (links cs n))) = found g m.
  Proof.
    induction 1 as [|x m Hx Hm IH]; intros Hs cs n f p i g Ek Hf; destruct cs as [|c cs]; try discriminate; [reflexivity|].
    inversion Hs as [|? ? S1 S2]. subst. cbn [map] in Ek. injection Ek as Ec Ek. cbn [LinkModel.links]. specialize (Hx c n f (p ++ [i]) g Ec S1 (fun q => finds_head f p i x m q Hf)).
    destruct (link c n) as [y n1]. cbn [fst] in Hx. specialize (IH S2 cs n1 f p (S i) g Ek (finds_tail f p i x m Hf)).
    destruct (links cs n1) as [r n2]. cbn [fst] in *. change (commands_list p i (y :: r)) with (commands (p ++ [i]) y ++ commands_list p (S i) r).
    rewrite hits_app, Hx, IH. cbn [flat_map]. rewrite filter_app, map_app. reflexivity.
  Qed.
  Lemma commands_block p (n : Ast.node K) : commands p n = (p, n) :: match n with NAB _ body | NSR _ _ body => commands_list p 1 body | _ => [] end.
  Proof. destruct n; reflexivity. Qed.
  Lemma all_hits x : good_hits x.
  Proof.
    induction x as [k loc len kids IH] using lnode_deep. intros c n f p g Ec Hs Hf. cbn [kind_of] in Ec. subst k.
    pose proof (sound_self _ Hs) as F. pose proof (sound_inside _ Hs) as Si. cbn [kind_of inside] in F, Si. rewrite commands_block.
    assert (B : forall body nb, (exists o m e, kids = o :: m ++ [e] /\ kind_of o = KOpen /\ kind_of e = KClose /\ map kind_of m = map KCmd body) ->
      hits f g (commands_list p 1 (fst (links body nb))) = found g kids).
    { intros body nb (o & m & e & -> & Eo & Ee & Em). inversion Si as [|? ? So Sr]. subst. apply Forall_app in Sr as [Sm Se]. inversion Se as [|? ? Se' _]. subst.
      cbn [flat_map]. rewrite flat_map_app. cbn [flat_map]. rewrite app_nil_r, !filter_app.
      rewrite (proj1 (bare_part g o So ltac:(congruence))), (proj1 (bare_part g e Se' ltac:(congruence))), app_nil_r. cbn [app].
      apply hits_list; auto; [|exact (finds_inside f p (LN (KCmd c) loc len (o :: m ++ [e])) o m e eq_refl Hf)]. inversion IH as [|? ? _ IHr]. subst. apply Forall_app in IHr. apply IHr. }
    assert (Q : forall (y : Ast.node K), fst (link c n) = y -> is_g g y = is_code g (LN (KCmd c) loc len kids) ->
      match y with NAB _ body | NSR _ _ body => hits f g (commands_list p 1 body) = found g kids | _ => filter (is_code g) (flat_map every kids) = [] end ->
      hits f g ((p, fst (link c n)) :: match fst (link c n) with NAB _ body | NSR _ _ body => commands_list p 1 body | _ => [] end) =
      map Some (filter (is_code g) (every (LN (KCmd c) loc len kids)))).
    { intros y -> E H. cbn [every filter]. unfold hits. cbn [filter snd]. rewrite E. pose proof (Hf []) as H0. rewrite app_nil_r in H0. cbn [down] in H0.
      destruct (is_code g (LN (KCmd c) loc len kids)); cbn [map fst]; rewrite ?H0; [f_equal|]; destruct y; try (rewrite H; reflexivity); exact H. }
    destruct c; try (cbn [framed] in F; subst kids; apply (Q _ eq_refl); reflexivity).
    - cbn [framed] in F. cbn [LinkModel.link] in Q |- *. rewrite body_links in Q |- *. specialize (B body n F). destruct (links body n) as [b m]. apply (Q _ eq_refl); [reflexivity|exact B].
    - cbn [framed] in F. cbn [LinkModel.link] in Q |- *. rewrite body_links in Q |- *. specialize (B body (S n) F). destruct (links body (S n)) as [b m]. apply (Q _ eq_refl); [reflexivity|exact B].
    - cbn [framed] in F. cbn [LinkModel.link] in Q |- *. destruct (link_prims u prims n) as [ps m]. apply (Q _ eq_refl); [reflexivity|].
      exact (proj1 (bare_parts g kids Si (macro_parts name prims kids F))).
  Qed.

  (** ** The same for interpolation commands and ends of blocks *)
  Definition seen (f : path -> option lnode) (mp : mark * path) : option (gcode * option lnode) :=
    match fst mp with MBlockEnd => None | MInterp g => Some (g, f (snd mp)) end.
  Definition here (t : option (gcode * lnode)) : option (gcode * option lnode) := option_map (fun gx => (fst gx, Some (snd gx))) t.
  Definition good_marks (x : lnode) : Prop := forall c n f p, kind_of x = KCmd c -> sound x -> (forall q, f (p ++ q) = down x q) ->
    map (seen f) (marks p (fst (link c n))) = map here (turns x).
  Lemma marks_all m : Forall good_marks m -> Forall sound m -> forall cs n f p i, map kind_of m = map KCmd cs -> finds f p i m ->
    map (seen f) (marks_list p i (fst (links cs n))) = map here (flat_map turns m).
  Proof.
    induction 1 as [|x m Hx Hm IH]; intros Hs cs n f p i Ek Hf; destruct cs as [|c cs]; try discriminate; [reflexivity|].
    inversion Hs as [|? ? S1 S2]. subst. cbn [map] in Ek. injection Ek as Ec Ek. cbn [LinkModel.links]. specialize (Hx c n f (p ++ [i]) Ec S1 (fun q => finds_head f p i x m q Hf)).
    destruct (link c n) as [y n1]. cbn [fst] in Hx. specialize (IH S2 cs n1 f p (S i) Ek (finds_tail f p i x m Hf)).
    destruct (links cs n1) as [r n2]. cbn [fst] in *. change (marks_list p i (y :: r)) with (marks (p ++ [i]) y ++ marks_list p (S i) r).
    rewrite map_app, Hx, IH. cbn [flat_map]. rewrite map_app. reflexivity.
  Qed.
  Lemma all_marks x : good_marks x.
  Proof.
    induction x as [k loc len kids IH] using lnode_deep. intros c n f p Ec Hs Hf. cbn [kind_of] in Ec. subst k.
    pose proof (sound_self _ Hs) as F. pose proof (sound_inside _ Hs) as Si. cbn [kind_of inside] in F, Si.
    assert (B : forall body nb, (exists o m e, kids = o :: m ++ [e] /\ kind_of o = KOpen /\ kind_of e = KClose /\ map kind_of m = map KCmd body) ->
      map (seen f) (marks_list p 1 (fst (links body nb))) = map here (flat_map turns kids)).
    { intros body nb (o & m & e & -> & Eo & Ee & Em). inversion Si as [|? ? So Sr]. subst. apply Forall_app in Sr as [Sm Se]. inversion Se as [|? ? Se' _]. subst.
      cbn [flat_map]. rewrite flat_map_app. cbn [flat_map]. rewrite app_nil_r.
      rewrite (proj2 (bare_part G01 o So ltac:(congruence))), (proj2 (bare_part G01 e Se' ltac:(congruence))), app_nil_r. cbn [app].
      apply marks_all; auto; [|exact (finds_inside f p (LN (KCmd c) loc len (o :: m ++ [e])) o m e eq_refl Hf)]. inversion IH as [|? ? _ IHr]. subst. apply Forall_app in IHr. apply IHr. }
    destruct c; try (cbn [framed] in F; subst kids; reflexivity).
    - cbn [framed] in F. cbn [LinkModel.link]. rewrite body_links. specialize (B body n F). destruct (links body n) as [b m]. cbn [fst] in *.
      change (map (seen f) (marks_list p 1 b ++ [(MBlockEnd, p ++ [S (length b)])]) = map here (flat_map turns kids ++ [None])). rewrite !map_app, B. reflexivity.
    - cbn [framed] in F. cbn [LinkModel.link]. rewrite body_links. specialize (B body (S n) F). destruct (links body (S n)) as [b m]. exact B.
    - cbn [framed] in F. cbn [LinkModel.link]. destruct (link_prims u prims n) as [ps m]. cbn [fst turns marks map].
      rewrite (proj2 (bare_parts G01 kids Si (macro_parts name prims kids F))). reflexivity.
    - cbn [framed] in F. subst kids. cbn [LinkModel.link link_leaf fst marks turns]. change (interp g) with (interpolation g). destruct (interpolation g); [|reflexivity].
      cbn [map]. unfold seen. cbn [fst snd]. rewrite <- (app_nil_r p), Hf. reflexivity.
  Qed.
  Definition prior (b : option mark) : option gcode := match b with Some (MInterp g) => Some g | _ => None end.
  Lemma repeats_again f l : forall l' b, map (seen f) l = map here l' ->
    map (fun gp => (fst gp, f (snd gp))) (repeats b l) = map (fun gx => (fst gx, Some (snd gx))) (again (prior b) l').
  Proof.
    induction l as [|[mk p] l IH]; intros [|t l'] b E; try discriminate; [reflexivity|]. cbn [map] in E. injection E as E1 E. unfold seen in E1. cbn [fst snd] in E1.
    destruct mk as [g|], t as [[h x]|]; try discriminate.
    - cbn in E1. injection E1 as -> E1. cbn [repeats again]. rewrite !map_app. rewrite (IH l' (Some (MInterp h)) E). cbn [prior]. f_equal.
      destruct b as [[g|]|]; try reflexivity. cbn [prior]. destruct (gcode_beq g h); [|reflexivity]. cbn [map fst snd]. rewrite E1. reflexivity.
    - cbn [repeats again]. exact (IH l' (Some MBlockEnd) E).
  Qed.
End Proofs.

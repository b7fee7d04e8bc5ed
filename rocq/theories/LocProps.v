(** C72: where the parser says commands are. *)
From Verif Require Import Base Num CoordModel Ast GramAst PegModel GramModel ResModel LinkModel LocModel LocSpec LocTexts LocProofs LocErase LocTiles
  FinderModel FinderSpec StateModel HoverModel HoverSpec.
From Verif Require GramNum PosModel PosProps HashProps FinderProps HoverProps.
Local Open Scope nat_scope.

Section Locations.
  Context {K T : Type} (rd : reader K T).

  (** The nodes make up the whole text; the file begins with the first character that is not
      white space and ends with the text. *)
  Definition covers (s : str) (l : list (lnode K T)) (loc len : nat) : Prop :=
    tiles 0 s l /\ loc + len = length s /\
    exists gap rest, s = gap ++ rest /\ Forall (fun c => blank c = true) gap /\ loc = length gap /\ (forall c r, rest = c :: r -> blank c = false).

  (** Locations do not change what is read: commands and errors are those of C43. *)
  Theorem C72_same : forall text,
    (forall cs, GramModel.parse rd text = Ok cs <-> exists l f, parse_located rd text = Ok (l, f) /\ named l cs) /\
    (forall e, GramModel.parse rd text = Err e <-> parse_located rd text = Err e).
  Proof.
    assert (I : forall cs cs' : list (cmd K T), map (@KCmd K T) cs = map KCmd cs' -> cs = cs').
    { induction cs as [|c cs IH]; intros [|c' cs'] E; cbn in E; try discriminate; auto. injection E as -> E. f_equal. auto. }
    intros text. pose proof (strict_agree rd text) as H. unfold agree, named in *.
    destruct (parse_located rd text) as [[l f]|e], (GramModel.parse rd text) as [cs|e']; try contradiction; split; intros x; split; intros E; try discriminate.
    - injection E as <-. eauto.
    - destruct E as (l' & f' & E & Hn). injection E as <- <-. f_equal. apply I. congruence.
    - destruct E as (l' & f' & E & _). discriminate.
    - congruence.
    - congruence.
  Qed.
  Theorem C72_locations : forall text l loc len, parse_located rd text = Ok (l, (loc, len)) ->
    exists s, HashProps.untabbed text s /\ covers s l loc len /\ Forall (fun x => exists c, kind_of x = KCmd c) l.
  Proof.
    intros text l loc len E. destruct (read_tiles _ _ _ _ _ _ (root_ok rd) E) as (HP & HT & gap & rest & Es & Hg & -> & -> & Hr).
    exists (expandtabs text). split; [apply HashProps.C68_tabs; reflexivity|]. split; [|exact HP]. split; [exact HT|].
    split; [rewrite Es, app_length; reflexivity|]. eauto 10.
  Qed.
  (** The same for the parser of the language server, where lines that cannot be read are nodes
      of their own. *)
  Theorem C72_resilient : forall text,
    (forall e, parse_resilient rd text = Err e <-> parse_located_resilient rd text = Err e) /\
    (forall xs, parse_resilient rd text = Ok xs -> exists l f, parse_located_resilient rd text = Ok (l, f) /\ map kind_of l = map as_node xs) /\
    (forall l loc len, parse_located_resilient rd text = Ok (l, (loc, len)) -> exists s, HashProps.untabbed text s /\ covers s l loc len).
  Proof.
    intros text. pose proof (resilient_agree rd text) as H. unfold agree, relr in H. split; [|split].
    - intros e. destruct (parse_located_resilient rd text) as [[l f]|e1], (parse_resilient rd text) as [cs|e2]; try contradiction; split; intros E; congruence.
    - intros xs E. rewrite E in H. destruct (parse_located_resilient rd text) as [[l f]|e1]; [eauto|contradiction].
    - intros l loc len E. destruct (read_tiles _ _ _ _ _ _ (resilient_ok rd) E) as (_ & HT & gap & rest & Es & Hg & -> & -> & Hr).
      exists (expandtabs text). split; [apply HashProps.C68_tabs; reflexivity|]. split; [exact HT|]. split; [rewrite Es, app_length; reflexivity|]. eauto 10.
  Qed.

  (** There is only one way to lay given commands out, so [covers] says where every command is. *)
  Theorem C72_unique : forall s (l l' : list (lnode K T)), tiles 0 s l -> tiles 0 s l' -> map kind_of l = map kind_of l' ->
    flat_map starts l = flat_map starts l'.
  Proof. intros s l l' H H' E. exact (proj1 (tiles_unique_prefix 0 s l H s l' [] [] H' eq_refl E)). Qed.

  (** At the location of a node, also of those in blocks and macros, its text begins.  The length
      is that of the text if there is no white space in it. *)
  Theorem C72_texts : forall text l f x, parse_located rd text = Ok (l, f) -> In x (flat_map every l) ->
    exists s a u b, HashProps.untabbed text s /\ s = a ++ u ++ b /\ start_of x = length a /\ written (kind_of x) u /\
      length_of x <= length u <= length_of x + blanks u /\ (blanks u = 0 -> length_of x = length u).
  Proof.
    intros text l [loc len] x E Hx. destruct (C72_locations _ _ _ _ E) as (s & Hs & (HT & _) & _).
    destruct (tiles_slices _ _ _ HT x Hx) as (a & c & u & b & Es & Ea & Hw & Hb & Hl).
    exists s, a, (c :: u), b. assert (blanks (c :: u) = blanks u) as B by (unfold blanks; cbn [filter]; rewrite Hb; reflexivity). rewrite B.
    repeat split; auto; lia.
  Qed.

  (** What the searches of the language server rely on (C48, C67) holds for every text. *)
  Theorem C72_finder : forall text nm l f, parse_located rd text = Ok (l, f) ->
    located_list (map (tree (expandtabs text) nm) l).
  Proof.
    intros text nm l [loc len] E. destruct (read_tiles _ _ _ _ _ _ (root_ok rd) E) as (_ & HT & _). apply (tiles_located _ nm 0 _ _ HT). cbn. lia.
  Qed.
  Theorem C72_hover : forall text u ta_fields tf_fields to_fields cs l f, GramModel.parse rd text = Ok cs -> parse_located rd text = Ok (l, f) ->
    let ns := nodes u ta_fields tf_fields to_fields cs in
    let ps := map at_place (combine l ns) in
    in_order 0 ps /\ map pl_node ps = ns /\ map pl_loc ps = map (fun x => Z.of_nat (start_of x)) l.
  Proof.
    intros text u taf tff tof cs l [loc len] Ec E ns ps. destruct (read_tiles _ _ _ _ _ _ (root_ok rd) E) as (_ & HT & _).
    assert (L : length l = length ns).
    { pose proof (strict_agree rd text) as H. rewrite Ec, E in H. cbn in H. unfold named in H. apply (f_equal (@length _)) in H. rewrite !map_length in H. rewrite H. subst ns. unfold nodes.
      generalize 0. clear. induction cs as [|c cs IH]; intros n; [reflexivity|]. cbn. destruct (link u taf tff tof c n) as [y m]. specialize (IH m).
      destruct (links u taf tff tof cs m) as [r m']. cbn in *. lia. }
    split; [apply (tiles_order 0 _ _ HT); cbn; lia|]. subst ps. clearbody ns. clear - L. rewrite !map_map. revert ns L.
    induction l as [|x l IH]; intros [|n ns] L; cbn in *; try discriminate; auto. destruct (IH ns) as [-> ->]; auto.
  Qed.
  (** So the state shown for the command that begins at an offset is the one all commands
      written before it lead to. *)
  Theorem C72_shown_state `{Num K} : forall text u ta_fields tf_fields to_fields cs l f i x, GramModel.parse rd text = Ok cs -> parse_located rd text = Ok (l, f) ->
    nth_error l i = Some x ->
    let ns := nodes u ta_fields tf_fields to_fields cs in
    hover_state (map at_place (combine l ns)) (Z.of_nat (start_of x)) = state_after (firstn i ns).
  Proof.
    intros text u taf tff tof cs l f i x Ec E Ex ns. destruct (C72_hover text u taf tff tof cs l f Ec E) as (Ho & Hn & Hl). fold ns in Ho, Hn, Hl.
    set (ps := map at_place (combine l ns)) in *.
    assert (X : exists p, nth_error ps i = Some p /\ pl_loc p = Z.of_nat (start_of x)).
    { assert (A : nth_error (map pl_loc ps) i = Some (Z.of_nat (start_of x))) by (rewrite Hl; exact (map_nth_error _ _ _ Ex)).
      destruct (nth_error ps i) as [p|] eqn:Ep; [exists p; split; [reflexivity|]; rewrite (map_nth_error _ _ _ Ep) in A; congruence|].
      apply nth_error_None in Ep. assert (Some (Z.of_nat (start_of x)) <> None) as A' by discriminate. rewrite <- A in A'. apply nth_error_Some in A'. rewrite map_length in A'. lia. }
    destruct X as (p & Ep & <-). apply nth_error_split in Ep as (pre & post & Eps & Ei).
    rewrite Eps in Ho |- *. rewrite (proj1 (HoverProps.C67_state pre post p Ho)). f_equal.
    rewrite <- Hn, Eps, map_app. rewrite <- Ei, <- (map_length pl_node pre). rewrite firstn_app, firstn_all, Nat.sub_diag. cbn. symmetry. apply app_nil_r.
  Qed.
End Locations.

(** ** What is wrong *)
Notation show := (parse_located (K := Q) (T := str) GramNum.q_reader).
Definition lf : string := String (ascii_of_nat 10) "".
Definition places (x : lnode Q str) : list (nat * nat) := map (fun y => (start_of y, length_of y)) (every x).
Definition shown (t : str) : option (list (list (nat * nat))) := match show t with Ok (l, _) => Some (map places l) | Err _ => None end.

(** Commands do not end where [SourceInfo] says: the length leaves out line feeds and spaces. *)
Theorem C72_end_refuted :
  ~ forall text l f, show text = Ok (l, f) -> ~ In "009"%char text -> Forall (fun x => exists a u b, text = a ++ u ++ b /\ start_of x = length a /\ written (kind_of x) u /\ length_of x = length u) l.
Proof.
  intros H. set (t := lit ("%AMA*" ++ lf ++ "1,1,1,0,0*%")). assert (X : exists l f, show t = Ok (l, f)) by (vm_compute; eauto). destruct X as (l & f & E).
  assert (N : ~ In "009"%char t) by (vm_compute; intuition discriminate). specialize (H t l f E N). vm_compute in E. injection E as <- <-.
  apply Forall_inv in H. destruct H as (a & u & b & Et & Ea & Hw & El). cbn in Ea, El, Hw. destruct Hw as (v & Eu). destruct a; [|discriminate]. cbn in Et.
  assert (L : length (u ++ b) = 17) by (rewrite <- Et; reflexivity). rewrite app_length in L. change (16 = length u) in El. assert (Lb : length b = 1) by lia. destruct b as [|c [|]]; try discriminate.
  subst u. rewrite <- app_assoc in Et. rewrite app_length in El. cbn in El. assert (Lv : length v = 15) by lia.
  do 15 (destruct v as [|? v]; [discriminate|]). destruct v; [|discriminate]. vm_compute in Et. discriminate.
Qed.
(** Locations are in the text with expanded tabs. *)
Theorem C72_tabs_refuted :
  ~ forall text l f, show text = Ok (l, f) -> Forall (fun x => exists a u b, text = a ++ u ++ b /\ start_of x = length a /\ written (kind_of x) u) l.
Proof.
  intros H. set (t := lit (String "009" "M02*")). assert (X : exists l f, show t = Ok (l, f)) by (vm_compute; eauto). destruct X as (l & f & E).
  specialize (H t l f E). vm_compute in E. injection E as <- <-. apply Forall_inv in H. destruct H as (a & u & b & Et & Ea & _). cbn in Ea.
  apply (f_equal (@length _)) in Et. rewrite app_length, <- Ea in Et. cbn in Et. discriminate.
Qed.

Example C72_ex1 : shown (lit ("%FSLAX24Y24*%" ++ lf ++ "%ABD12*%" ++ lf ++ "D10*" ++ lf ++ "G01X1D01*" ++ lf ++ "%AB*%" ++ lf ++ "M02*")) =
  Some [[(0, 13)]; [(14, 26); (14, 8); (23, 4); (28, 3); (31, 6); (38, 5)]; [(44, 4)]].
Proof. vm_compute. reflexivity. Qed.
Example C72_ex2 : shown (lit (" %AMA*" ++ lf ++ "0 note*" ++ lf ++ "$1=2*" ++ lf ++ "1,1,$1,0,0* %  X1 D02*")) =
  Some [[(1, 29); (1, 5); (7, 7); (15, 5); (21, 11); (33, 1)]; [(36, 6)]].
Proof. vm_compute. reflexivity. Qed.
(** A step and repeat is not read inside of a block, although the grammar lists it there: the
    rule is never given a meaning. *)
Example C72_ex3 : let sr := ("%SRX2Y2I1J1*%" ++ lf ++ "D10*" ++ lf ++ "%SR*%" ++ lf)%string in
  shown (lit sr) = Some [[(0, 22); (0, 13); (14, 4); (19, 5)]] /\ show (lit ("%ABD12*%" ++ lf ++ sr ++ "%AB*%")) = Err ESyntax.
Proof. vm_compute. auto. Qed.

Print Assumptions C72_same.
Print Assumptions C72_locations.
Print Assumptions C72_resilient.
Print Assumptions C72_unique.
Print Assumptions C72_texts.
Print Assumptions C72_finder.
Print Assumptions C72_hover.
Print Assumptions C72_shown_state.
Print Assumptions C72_end_refuted.
Print Assumptions C72_tabs_refuted.

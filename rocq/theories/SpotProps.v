(** C72: where the parser says the coordinates of commands are. *)
From Verif Require Import Base Num CoordModel Ast GramAst PegModel GramModel ResModel LocModel LocSpec LocTexts LocProofs LocTiles SpotModel SpotSpec SpotProofs SpotTrace.
From Verif Require GramNum HashProps LocProps.
Local Open Scope nat_scope.

Section Spots.
  Context {K T : Type} (rd : reader K T).
  (** [d_spots] is the grammar of D commands: the same commands with the same lengths are read,
      and coordinates besides. *)
  Theorem C72_spots_same : forall total sa s (c : cmd K T) k r,
    d_codes sa s = POk (c, k) r <-> exists cs, d_spots total sa s = POk ((c, cs), k) r.
  Proof.
    intros total sa s c k r. pose proof (same_d (K := K) (T := T) total sa s) as H. destruct (d_spots total sa s) as [[[c' cs] k'] r'| |], (d_codes sa s) as [[d k2] r2| |]; try contradiction;
      (split; [intros E|intros (cs' & E)]); try discriminate; try (destruct E; discriminate).
    - destruct H as (H & <- & <-). cbn in H. subst d. injection E as <- <- <-. eauto.
    - destruct H as (H & <- & <-). cbn in H. subst d. injection E as <- <- <- <-. reflexivity.
  Qed.
  (** The coordinates of every D command in a text, also in blocks.  [u] is the text of the
      command, where [d_spots] reads it: coordinates are located at their letters. *)
  Definition located_spots (text : str) (x : lnode K T) (c : cmd K T) : Prop :=
    exists s a u b sa cs, HashProps.untabbed text s /\ s = a ++ u ++ b /\ start_of x = length a /\
      d_spots (length s) sa (u ++ b) = POk ((c, cs), length_of x) b /\
      placed (length a) u cs /\ map (fun q => (sp_axis q, sp_value q)) cs = given c.
  Lemma spots_at text x c : read_at rd (expandtabs text) x -> start_of x <= length (expandtabs text) -> kind_of x = KCmd c -> d_command c -> located_spots text x c.
  Proof.
    set (s := expandtabs text). intros [H _] Hx E Hc. destruct (H c E Hc) as (sa & r & Er). apply (C72_spots_same (length s)) in Er as (cs & Er).
    assert (L : length (skipn (start_of x) s) <= length s) by (rewrite skipn_length; lia).
    destruct (puts_d (length s) sa _ _ _ _ L Er) as (u & l & Eu & [El Eg] & Hp). cbn in El, Eg. subst l.
    exists s, (firstn (start_of x) s), u, r, sa, cs. rewrite firstn_length_le by exact Hx. rewrite <- Eu.
    split; [apply HashProps.C68_tabs; reflexivity|]. split; [symmetry; apply firstn_skipn|]. split; [reflexivity|]. split; [exact Er|]. split; [|exact Eg].
    rewrite skipn_length in Hp. replace (length s - (length s - start_of x)) with (start_of x) in Hp by lia. exact Hp.
  Qed.
  Lemma start_inside s (l : list (lnode K T)) x : tiles 0 s l -> In x (flat_map every l) -> start_of x <= length s.
  Proof. intros H Hx. destruct (tiles_slices _ _ _ H x Hx) as (a & c & u & b & -> & Ea & _). rewrite app_length. cbn in Ea. lia. Qed.
  Theorem C72_coordinates : forall text l f x c, parse_located rd text = Ok (l, f) \/ parse_located_resilient rd text = Ok (l, f) ->
    In x (flat_map every l) -> kind_of x = KCmd c -> d_command c -> located_spots text x c.
  Proof.
    intros text l [loc len] x c E Hx Ek Hc. destruct E as [E|E].
    - pose proof (read_traced rd _ _ _ _ (traced_root rd (expandtabs text)) E x Hx) as H. destruct (read_tiles _ _ _ _ _ _ (root_ok rd) E) as (_ & HT & _).
      apply spots_at; auto. exact (start_inside _ _ _ HT Hx).
    - pose proof (read_traced rd _ _ _ _ (traced_resilient rd (expandtabs text)) E x Hx) as H. destruct (read_tiles _ _ _ _ _ _ (resilient_ok rd) E) as (_ & HT & _).
      apply spots_at; auto. exact (start_inside _ _ _ HT Hx).
  Qed.
End Spots.
(** [placed] leaves no choice: the text and the values of the coordinates determine where they
    are. *)
Theorem C72_spots_unique : forall from t l l', placed from t l -> placed from t l' ->
  map (fun q => (sp_axis q, sp_value q)) l = map (fun q => (sp_axis q, sp_value q)) l' -> l = l'.
Proof. intros from t l l' H H'. exact (placed_unique from t l H l' H'). Qed.
(** A coordinate lies in its text: the letter at its location, then the number; without white
    space in between its length is that of its text. *)
Theorem C72_coordinate_texts : forall from t l q, placed from t l -> In q l ->
  exists a c w v b, t = a ++ c :: w ++ v ++ b /\ sp_loc q = from + length a /\ axis_letter (sp_axis q) c /\ v = sp_value q /\
    Forall (fun d => blank d = true) w /\ sp_len q + length w = length (c :: w ++ v).
Proof.
  intros from t l q H. induction H as [from t Ht|from gap a c w v rest l H1 H2 H3 H4 _ IH]; [intros []|]. intros [<-|Hq].
  - exists gap, c, w, v, rest. cbn. rewrite app_length. repeat split; auto; lia.
  - destruct (IH Hq) as (a' & c' & w' & v' & b' & -> & El & Hl & Hv & Hw & Hn). exists (gap ++ c :: w ++ v ++ a'), c', w', v', b'.
    split; [rewrite <- !app_assoc; cbn; rewrite <- !app_assoc; reflexivity|]. repeat split; auto. rewrite El, app_length. cbn. rewrite !app_length. lia.
Qed.

(** Where a coordinate ends is wrong when there is white space inside: the number of the first
    coordinate here ends at offset 3. *)
Definition spots_of (t : str) := match d_spots (K := Q) (T := str) (length t) true t with POk (_, cs, _) _ => Some (map (fun q => (sp_loc q, sp_len q)) cs) | _ => None end.
Example C72_spots_ex1 : spots_of (lit "X 1 y-20D01*") = Some [(0, 2); (4, 4)].
Proof. vm_compute. reflexivity. Qed.
Example C72_spots_ex2 : spots_of (lit " X100Y200I+5J0D1*") = Some [(1, 4); (5, 4); (9, 3); (12, 2)].
Proof. vm_compute. reflexivity. Qed.
(** All together for commands in a block and after a G code without an asterisk. *)
Definition spots_in (text : str) : option (list (list (nat * nat))) :=
  match LocProps.show text with
  | Ok (l, _) => Some (flat_map (fun x => match kind_of x with
      | KCmd (CD01 sa _ _ _ _) | KCmd (CD02 sa _ _) | KCmd (CD03 sa _ _) =>
          match d_spots (K := Q) (T := str) (length text) sa (skipn (start_of x) text) with POk (_, cs, _) _ => [map (fun q => (sp_loc q, sp_len q)) cs] | _ => [] end
      | _ => [] end) (flat_map every l))
  | Err _ => None
  end.
Example C72_spots_ex3 : spots_in (lit "%ABD12*%X1D02*G01X2Y3D01*%AB*%D12*Y77D03*") = Some [[(8, 2)]; [(17, 2); (19, 2)]; [(34, 3)]].
Proof. vm_compute. reflexivity. Qed.

Print Assumptions C72_spots_same.
Print Assumptions C72_coordinates.
Print Assumptions C72_spots_unique.
Print Assumptions C72_coordinate_texts.

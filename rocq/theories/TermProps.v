(** C72: where the parser says the expressions of macros are. *)
From Verif Require Import Base Num CoordModel Ast GramAst PegModel GramModel ResModel LocModel LocSpec LocTexts LocProofs LocTiles SpotProofs SpotTrace TermModel TermSpec TermProofs.
From Verif Require GramNum HashProps LocProps SpotProps.
Local Open Scope nat_scope.

Section Terms.
  Context {K T : Type} (rd : reader K T).
  (** [prim_t] is the grammar of primitives: the same primitives with the same lengths are read,
      and expressions besides. *)
  Theorem C72_terms_same : forall total n s (p : prim K) k r,
    prim_p rd n s = POk (p, k) r <-> exists l, prim_t rd total n s = POk ((p, l), k) r.
  Proof.
    intros total n s p k r. pose proof (same_prim rd total n s) as H. destruct (prim_t rd total n s) as [[[p' l] k'] r'| |], (prim_p rd n s) as [[d k2] r2| |]; try contradiction;
      (split; [intros E|intros (l' & E)]); try discriminate; try (destruct E; discriminate).
    - destruct H as (H & <- & <-). cbn in H. subst d. injection E as <- <- <-. eauto.
    - destruct H as (H & <- & <-). cbn in H. subst d. injection E as <- <- <- <-. reflexivity.
  Qed.
  (** The expressions of every primitive and assignment in a text.  [u] is its text, where
      [prim_t] reads it: expressions are located where their texts begin. *)
  Definition located_terms (text : str) (x : lnode K T) (p : prim K) : Prop :=
    exists s a u b n l, HashProps.untabbed text s /\ s = a ++ u ++ b /\ start_of x = length a /\
      prim_t rd (length s) n (u ++ b) = POk ((p, l), length_of x) b /\
      laid_out (r_num rd) (length a) u p l /\ map bare l = args_of p.
  Lemma terms_at text x p : read_at rd (expandtabs text) x -> start_of x <= length (expandtabs text) ->
    skip (skipn (start_of x) (expandtabs text)) = skipn (start_of x) (expandtabs text) -> kind_of x = KPrim p -> located_terms text x p.
  Proof.
    set (s := expandtabs text). intros [_ H] Hx Ef E. destruct (H p E) as (n & r & Er). apply (C72_terms_same (length s)) in Er as (l & Er).
    assert (L : length (skipn (start_of x) s) <= length s) by (rewrite skipn_length; lia).
    destruct (outs_prim rd (length s) n _ _ _ _ L Er) as (u & Eu & Hl & Hb). cbn in Hl, Hb. rewrite Ef in Eu, Hl.
    exists s, (firstn (start_of x) s), u, r, n, l. rewrite firstn_length_le by exact Hx. rewrite <- Eu.
    split; [apply HashProps.C68_tabs; reflexivity|]. split; [symmetry; apply firstn_skipn|]. split; [reflexivity|]. split; [exact Er|]. split; [|exact Hb].
    rewrite skipn_length in Hl. replace (length s - (length s - start_of x)) with (start_of x) in Hl by lia. exact Hl.
  Qed.
  Lemma front_of s (l : list (lnode K T)) x : tiles 0 s l -> In x (flat_map every l) -> start_of x <= length s /\ skip (skipn (start_of x) s) = skipn (start_of x) s.
  Proof.
    intros H Hx. destruct (tiles_slices _ _ _ H x Hx) as (a & c & u & b & -> & Ea & _ & Hc & _). cbn in Ea. rewrite Ea. split; [rewrite app_length; lia|].
    rewrite skipn_app, skipn_all, Nat.sub_diag. cbn [app]. rewrite blank_ws in Hc. cbn [skip skipn]. rewrite Hc. reflexivity.
  Qed.
  Theorem C72_expressions : forall text l f x p, parse_located rd text = Ok (l, f) \/ parse_located_resilient rd text = Ok (l, f) ->
    In x (flat_map every l) -> kind_of x = KPrim p -> located_terms text x p.
  Proof.
    intros text l [loc len] x p E Hx Ek. destruct E as [E|E].
    - pose proof (read_traced rd _ _ _ _ (traced_root rd (expandtabs text)) E x Hx) as H. destruct (read_tiles _ _ _ _ _ _ (root_ok rd) E) as (_ & HT & _).
      destruct (front_of _ _ _ HT Hx). apply terms_at; auto.
    - pose proof (read_traced rd _ _ _ _ (traced_resilient rd (expandtabs text)) E x Hx) as H. destruct (read_tiles _ _ _ _ _ _ (resilient_ok rd) E) as (_ & HT & _).
      destruct (front_of _ _ _ HT Hx). apply terms_at; auto.
  Qed.
End Terms.

(** An expression and all expressions inside of it lie where they say, in their texts; their
    lengths are those of the texts without white space. *)
Definition solid (t : str) : str := filter (fun c => negb (blank c)) t.
Definition slice_of {K} (num : str -> K) (from : nat) (u : str) (y : term K) : Prop :=
  exists a v b, u = a ++ v ++ b /\ loc_of y = from + length a /\ spelled num (loc_of y) v y /\ len_of y = length (solid v).
Section Texts.
  Context {K : Type} (num : str -> K).
  Lemma solid_app a b : solid (a ++ b) = solid a ++ solid b.
  Proof. apply filter_app. Qed.
  Lemma solid_gap w : gap w -> solid w = [].
  Proof. unfold solid. induction 1 as [|c w H _ IH]; [reflexivity|]. cbn [filter]. rewrite H. exact IH. Qed.
  Lemma solid_digits d : Forall (fun c => is_digit c = true) d -> solid d = d.
  Proof.
    unfold solid. induction 1 as [|c d H _ IH]; [reflexivity|]. cbn [filter]. rewrite IH. replace (blank c) with false; [reflexivity|]. symmetry.
    destruct c as [[] [] [] [] [] [] [] []]; vm_compute in H |- *; congruence.
  Qed.
  Lemma solid_variable v : variable_text v -> solid v = v.
  Proof. intros (d & -> & _ & H). change ("$"%char :: d) with (["$"%char] ++ d). rewrite solid_app, (solid_digits d H). reflexivity. Qed.
  Lemma solid_number v : number_text v -> solid v = v.
  Proof.
    intros (sg & d & -> & Hs & H). rewrite solid_app. f_equal; [cbn in Hs; intuition subst; reflexivity|].
    destruct H as [[_ H]|(a & b & -> & Ha & _ & Hb)]; [apply solid_digits, H|]. change ("."%char :: b) with (["."%char] ++ b). rewrite !solid_app, (solid_digits b Hb). change (solid ["."%char]) with ["."%char]. f_equal.
    destruct Ha as [->|[_ Ha]]; [reflexivity|apply solid_digits, Ha].
  Qed.
  Lemma slice_move from u y a b : slice_of num (from + length a) u y -> slice_of num from (a ++ u ++ b) y.
  Proof.
    intros (a' & v & b' & -> & El & Hs & Hn). exists (a ++ a'), v, (b' ++ b). split; [rewrite <- !app_assoc; reflexivity|]. rewrite app_length. split; [lia|]. auto.
  Qed.
  Lemma op_solid c d : (d = c \/ In c ["x"; "X"]%char /\ In d ["x"; "X"]%char) -> (exists h t (e : expr K), joined c h t = Some e) -> blank d = false.
  Proof.
    intros [->|[_ H]] (h & t & e & E); [|cbn in H; intuition subst; reflexivity]. unfold joined in E.
    destruct (Ascii.eqb_spec c "+") as [->|_]; [reflexivity|]. destruct (Ascii.eqb_spec c "-") as [->|_]; [reflexivity|].
    destruct (Ascii.eqb_spec c "/") as [->|_]; [reflexivity|]. destruct (Ascii.eqb_spec c "x") as [->|_]; [reflexivity|].
    destruct (Ascii.eqb_spec c "X") as [->|_]; [reflexivity|discriminate].
  Qed.
  Lemma spelled_loc from u x : spelled num from u x -> loc_of x = from.
  Proof. destruct 1; reflexivity. Qed.
  Lemma spelled_texts : forall from u x, spelled num from u x -> len_of x = length (solid u) /\ forall y, In y (pieces x) -> slice_of num from u y.
  Proof.
    apply (spelled_mut K num (fun from u x _ => len_of x = length (solid u) /\ forall y, In y (pieces x) -> slice_of num from u y)
      (fun from u c t _ => ((exists h l (e : expr K), joined c h l = Some e) -> list_sum (map (fun x => 1 + len_of x) t) = length (solid u)) /\ forall y, In y (flat_map pieces t) -> slice_of num from u y)).
    - intros from v Hv. cbn [len_of]. rewrite (solid_variable v Hv). split; [reflexivity|]. intros y [<-|[]]. exists [], v, []. rewrite app_nil_r. cbn [loc_of len_of length].
      rewrite Nat.add_0_r, (solid_variable v Hv). repeat split; auto. constructor. exact Hv.
    - intros from v Hv. cbn [len_of]. rewrite (solid_number v Hv). split; [reflexivity|]. intros y [<-|[]]. exists [], v, []. rewrite app_nil_r. cbn [loc_of len_of length].
      rewrite Nat.add_0_r, (solid_number v Hv). repeat split; auto. constructor. exact Hv.
    - intros from w u w' x Hw Hx [Hn Hy] Hw'. assert (S : solid ("("%char :: w ++ u ++ w' ++ [")"%char]) = "("%char :: solid u ++ [")"%char]).
      { change (solid (["("%char] ++ w ++ u ++ w' ++ [")"%char]) = "("%char :: solid u ++ [")"%char]). rewrite !solid_app, (solid_gap w Hw), (solid_gap w' Hw'). reflexivity. }
      cbn [len_of]. rewrite S. cbn [length]. rewrite app_length. cbn [length]. split; [lia|]. intros y [<-|Hi].
      + exists [], ("("%char :: w ++ u ++ w' ++ [")"%char]), []. rewrite app_nil_r. cbn [loc_of len_of length app]. rewrite Nat.add_0_r, S. split; [reflexivity|]. split; [reflexivity|].
        split; [constructor; assumption|]. cbn [length]. rewrite app_length. cbn [length]. lia.
      + cbn in Hi. rewrite app_nil_r in Hi. apply (slice_move from u y ("("%char :: w)). replace (from + length ("("%char :: w)) with (from + 1 + length w) by (cbn; lia). auto.
    - intros from w u x Hw Hx [Hn Hy]. assert (S : solid ("-"%char :: w ++ u) = "-"%char :: solid u).
      { change (solid (["-"%char] ++ w ++ u) = "-"%char :: solid u). rewrite !solid_app, (solid_gap w Hw). reflexivity. }
      cbn [len_of]. rewrite S. cbn [length]. split; [lia|]. intros y [<-|Hi].
      + exists [], ("-"%char :: w ++ u), []. rewrite app_nil_r. cbn [loc_of len_of length app]. rewrite Nat.add_0_r, S. split; [reflexivity|]. split; [reflexivity|].
        split; [constructor; assumption|]. cbn [length]. lia.
      + cbn in Hi. rewrite app_nil_r in Hi. rewrite <- (app_nil_r u). apply (slice_move from u y ("-"%char :: w)). replace (from + length ("-"%char :: w)) with (from + 1 + length w) by (cbn; lia). auto.
    - intros from w u x Hw Hx [Hn Hy]. assert (S : solid ("+"%char :: w ++ u) = "+"%char :: solid u).
      { change (solid (["+"%char] ++ w ++ u) = "+"%char :: solid u). rewrite !solid_app, (solid_gap w Hw). reflexivity. }
      cbn [len_of]. rewrite S. cbn [length]. split; [lia|]. intros y [<-|Hi].
      + exists [], ("+"%char :: w ++ u), []. rewrite app_nil_r. cbn [loc_of len_of length app]. rewrite Nat.add_0_r, S. split; [reflexivity|]. split; [reflexivity|].
        split; [constructor; assumption|]. cbn [length]. lia.
      + cbn in Hi. rewrite app_nil_r in Hi. rewrite <- (app_nil_r u). apply (slice_move from u y ("+"%char :: w)). replace (from + length ("+"%char :: w)) with (from + 1 + length w) by (cbn; lia). auto.
    - intros from u h rest t c e Hh [Hn Hy] Ht Ho [Hm Hz] Hj. assert (S : len_of h + list_sum (map (fun x => 1 + len_of x) t) = length (solid (u ++ rest))).
      { rewrite solid_app, app_length, Hn, Hm by eauto. reflexivity. }
      cbn [len_of]. split; [exact S|]. intros y [<-|Hi].
      + exists [], (u ++ rest), []. rewrite app_nil_r. cbn [loc_of len_of length]. rewrite Nat.add_0_r. split; [reflexivity|]. split; [reflexivity|]. split; [econstructor; eassumption|exact S].
      + cbn in Hi. apply in_app_or in Hi as [Hi|Hi].
        * apply (slice_move from u y []). cbn. rewrite Nat.add_0_r. auto.
        * rewrite <- (app_nil_r rest). apply (slice_move from rest y u). auto.
    - intros from c. split; [reflexivity|]. intros y [].
    - intros from w d w' u rest c x t Hw Hd Hw' Hx [Hn Hy] Ho [Hm Hz]. split.
      + intros Hj. cbn. fold (list_sum (map (fun x => 1 + len_of x) t)). change (d :: w' ++ u ++ rest) with ([d] ++ w' ++ u ++ rest). rewrite !solid_app.
        replace (solid [d]) with [d] by (unfold solid; cbn [filter]; rewrite (op_solid c d Hd Hj); reflexivity). rewrite (solid_gap w Hw), (solid_gap w' Hw').
        cbn. rewrite app_length, Hn. rewrite <- (Hm Hj). reflexivity.
      + intros y Hi. cbn in Hi. apply in_app_or in Hi as [Hi|Hi].
        * pose proof (slice_move from u y (w ++ d :: w') rest) as M. rewrite <- app_assoc in M. cbn in M. apply M. rewrite app_length. cbn [length].
          replace (from + (length w + S (length w'))) with (from + length w + 1 + length w') by lia. auto.
        * pose proof (slice_move from rest y (w ++ d :: w' ++ u) []) as M. rewrite app_nil_r, <- app_assoc in M. cbn in M. rewrite <- app_assoc in M. apply M. rewrite app_length. cbn [length]. rewrite app_length.
          replace (from + (length w + S (length w' + length u))) with (from + length w + 1 + length w' + length u) by lia. auto.
  Qed.
  Lemma listed_texts : forall from u l, listed num from u l -> forall x y, In x l -> In y (pieces x) -> slice_of num from u y.
  Proof.
    induction 1 as [from w Hw|from w w' u rest x l H1 H2 H3 _ IH]; intros z y Hz Hy; [destruct Hz|]. destruct Hz as [<-|Hz].
    - pose proof (slice_move from u y (w ++ ","%char :: w') rest) as M. rewrite <- app_assoc in M. cbn in M. apply M. rewrite app_length. cbn [length].
      replace (from + (length w + S (length w'))) with (from + length w + 1 + length w') by lia. exact (proj2 (spelled_texts _ _ _ H3) y Hy).
    - pose proof (slice_move from rest y (w ++ ","%char :: w' ++ u) []) as M. rewrite app_nil_r, <- app_assoc in M. cbn in M. rewrite <- app_assoc in M. apply M. rewrite app_length. cbn [length]. rewrite app_length.
      replace (from + (length w + S (length w' + length u))) with (from + length w + 1 + length w' + length u) by lia. exact (IH z y Hz Hy).
  Qed.
  Theorem C72_expression_texts : forall from u p l x y, laid_out num from u p l -> In x l -> In y (pieces x) -> slice_of num from u y.
  Proof.
    intros from u p l x y H Hx Hy.
    assert (C : forall code t, u = code ++ t ++ ["*"%char] -> listed num (from + length code) t l -> slice_of num from u y).
    { intros code t -> Hl. apply slice_move. exact (listed_texts _ _ _ Hl x y Hx Hy). }
    destruct p; try (destruct H as (t & Eu & Hl); exact (C _ t Eu Hl)).
    - destruct H as (w & _ & _ & ->). destruct Hx.
    - destruct H as (w & w' & t & w2 & q & z & -> & H1 & H2 & H3 & H4 & H5 & ->). destruct Hx as [<-|[<-|[]]].
      { apply (slice_move from v y []). cbn. rewrite Nat.add_0_r. exact (proj2 (spelled_texts _ _ _ H5) y Hy). }
      pose proof (slice_move from t y (v ++ w ++ "="%char :: w') (w2 ++ ["*"%char])) as M. rewrite <- !app_assoc in M. cbn in M. apply M. rewrite !app_length. cbn [length].
      replace (from + (length v + (length w + S (length w')))) with (from + length v + length w + 1 + length w') by lia. exact (proj2 (spelled_texts _ _ _ H4) y Hy).
  Qed.
End Texts.

(** Locations and lengths of all expressions in the macros of a text.  The length of the second
    expression does not count the white space in its text. *)
Definition terms_in (text : str) : option (list (list (nat * nat))) :=
  match LocProps.show text with
  | Ok (l, _) => Some (flat_map (fun x => match kind_of x with
      | KPrim _ =>
          match prim_t GramNum.q_reader (length text) (S (length text)) (skipn (start_of x) text) with
          | POk (_, ts, _) _ => [map (fun y => (loc_of y, len_of y)) (flat_map pieces ts)] | _ => [] end
      | _ => [] end) (flat_map every l))
  | Err _ => None
  end.
Example C72_terms_ex1 : terms_in (lit "%AMA*1,1, $1 + 2,0,-$2*$3=($1x2)/3*%") =
  Some [[(7, 1); (10, 4); (10, 2); (15, 1); (17, 1); (19, 3); (20, 2)]; [(23, 2); (26, 8); (26, 6); (27, 4); (27, 2); (30, 1); (33, 1)]].
Proof. vm_compute. reflexivity. Qed.
Example C72_terms_ex2 : terms_in (lit "%AMB*0 note, 1*4,1,1,0,0,1 , 1,0*%") = Some [[]; [(17, 1); (19, 1); (21, 1); (23, 1); (25, 1); (29, 1); (31, 1)]].
Proof. vm_compute. reflexivity. Qed.

Print Assumptions C72_terms_same.
Print Assumptions C72_expressions.
Print Assumptions C72_expression_texts.

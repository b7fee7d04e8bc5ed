(** Proofs about job files. *)
From Verif Require Import Base Dict ApiModel ApiSpec ApiProofs JobModel JobSpec.
From Coq Require Import Permutation Sorted.
Local Open Scope nat_scope.

(** ** Layer numbers *)
Lemma digits_of_spec s : exists rest, s = digits_of s ++ rest /\
  Forall (fun c => is_digit c = true) (digits_of s) /\
  (rest = [] \/ exists c r, rest = c :: r /\ is_digit c = false).
Proof.
  induction s as [|c s IH]; cbn.
  - exists []. auto.
  - destruct (is_digit c) eqn:E.
    + destruct IH as (rest & Es & F & R). exists rest. cbn. rewrite <- Es. auto.
    + exists (c :: s). split; [reflexivity|]. split; [constructor|]. right. exists c, s. auto.
Qed.
Lemma digits_of_app n rest : Forall (fun c => is_digit c = true) n ->
  (rest = [] \/ exists c r, rest = c :: r /\ is_digit c = false) -> digits_of (n ++ rest) = n.
Proof.
  intros F R. induction F as [|c n Hc F IH]; cbn.
  - destruct R as [->|(c & r & -> & E)]; [reflexivity|]. cbn. rewrite E. reflexivity.
  - rewrite Hc, IH. reflexivity.
Qed.
Lemma layer_number_iff f n : layer_number f = Some n <-> names_layer f n.
Proof.
  unfold names_layer, layer_number, is_number. split.
  - destruct f as [|c s]; [discriminate|]. destruct (Ascii.eqb c "L") eqn:E; [|discriminate].
    apply Ascii.eqb_eq in E. subst c. destruct (digits_of_spec s) as (rest & Es & F & R).
    destruct (digits_of s) as [|d ds] eqn:D; [discriminate|]. intros [= <-].
    exists rest. rewrite Es. split; [reflexivity|]. split; [|exact R]. split; [discriminate|exact F].
  - intros (rest & -> & (Hn & F) & R). cbn [lit list_ascii_of_string app]. cbn [Ascii.eqb Bool.eqb].
    rewrite (digits_of_app n rest F R). destruct n; [congruence|reflexivity].
Qed.
Lemma layer_number_none f : layer_number f = None <-> forall n, ~ names_layer f n.
Proof.
  split.
  - intros H n N. apply layer_number_iff in N. congruence.
  - intros H. destruct (layer_number f) as [n|] eqn:E; [|reflexivity]. apply layer_number_iff in E.
    destruct (H n E).
Qed.
Lemma first_layer_iff parts n : first_layer parts = Some n <->
  exists l f r, parts = l ++ f :: r /\ names_layer f n /\ forall g m, In g l -> ~ names_layer g m.
Proof.
  split.
  - induction parts as [|p ps IH]; cbn; [discriminate|]. destruct (layer_number p) as [m|] eqn:E.
    + intros [= <-]. exists [], p, ps. apply layer_number_iff in E. repeat split; auto.
    + intros H. destruct (IH H) as (l & f & r & -> & N & A). exists (p :: l), f, r.
      repeat split; auto. intros g m [<-|Hg]; [apply layer_number_none; exact E|exact (A g m Hg)].
  - intros (l & f & r & -> & N & A). induction l as [|p l IH]; cbn.
    + apply layer_number_iff in N. rewrite N. reflexivity.
    + assert (layer_number p = None) as ->.
      { apply layer_number_none. intros m. apply A. left. reflexivity. }
      apply IH. intros g m Hg. apply A. right. exact Hg.
Qed.
Lemma contains_iff s l : contains s l = true <-> In s l.
Proof.
  unfold contains. rewrite existsb_exists. split.
  - intros (x & Hx & E). apply str_eqb_eq in E. subst x. exact Hx.
  - intros H. exists s. split; [exact H|apply str_eqb_refl].
Qed.

(** ** Membership as the code decides it *)
Definition is_profile (e : entry) : bool := ftype_eqb (type_named e) TProfile.
Definition in_view (v : view) (e : entry) : bool :=
  negb (is_profile e) &&
  match v with
  | VTop => contains (lit "TOP") (fields e)
  | VBottom => negb (contains (lit "TOP") (fields e)) && contains (lit "BOT") (fields e)
  | VInner n => negb (contains (lit "TOP") (fields e)) && negb (contains (lit "BOT") (fields e)) &&
      match first_layer (fields e) with Some m => str_eqb n m | None => false end
  end.
Lemma belongs_iff e v : belongs e v <-> is_profile e || in_view v e = true.
Proof.
  unfold belongs, in_view, is_profile. destruct (ftype_eqb (type_named e) TProfile) eqn:E.
  - apply ftype_eqb_eq in E. cbn. tauto.
  - apply ftype_eqb_neq in E. cbn [orb negb andb].
    assert (T := contains_iff (lit "TOP") (fields e)). assert (B := contains_iff (lit "BOT") (fields e)).
    destruct v as [| |n].
    + tauto.
    + rewrite andb_true_iff, negb_true_iff, B, <- T. destruct (contains (lit "TOP") (fields e)); intuition congruence.
    + rewrite !andb_true_iff, !negb_true_iff.
      assert (O : on_layer e n <-> match first_layer (fields e) with Some m => str_eqb n m | None => false end = true).
      { unfold on_layer. rewrite <- first_layer_iff. destruct (first_layer (fields e)) as [m|].
        - rewrite str_eqb_eq. split; congruence.
        - split; discriminate. }
      rewrite O, <- T, <- B.
      destruct (contains (lit "TOP") (fields e)), (contains (lit "BOT") (fields e)); intuition congruence.
Qed.

(** ** The last entry with a property *)
Definition last_where (p : entry -> bool) (es : list entry) : option entry := find p (rev es).
Lemma find_app {A} (p : A -> bool) l1 l2 : find p (l1 ++ l2) = match find p l1 with Some x => Some x | None => find p l2 end.
Proof. induction l1 as [|x l1 IH]; cbn; [reflexivity|]. destruct (p x); [reflexivity|exact IH]. Qed.
Lemma last_where_snoc p es e : last_where p (es ++ [e]) = if p e then Some e else last_where p es.
Proof. unfold last_where. rewrite rev_app_distr. reflexivity. Qed.
Lemma last_where_iff p es e : last_where p es = Some e <->
  exists l r, es = l ++ e :: r /\ p e = true /\ forall e', In e' r -> p e' = false.
Proof.
  split.
  - revert e. induction es as [|x es IH] using rev_ind; intros e H; [discriminate|].
    rewrite last_where_snoc in H. destruct (p x) eqn:E.
    + injection H as <-. exists es, []. repeat split; auto. intros e' [].
    + destruct (IH e H) as (l & r & -> & P & A). exists l, (r ++ [x]).
      split; [rewrite <- app_assoc; reflexivity|]. split; [exact P|].
      intros e' He. apply in_app_or in He. destruct He as [He|[<-|[]]]; auto.
  - intros (l & r & -> & P & A). unfold last_where. rewrite rev_app_distr. cbn. rewrite <- app_assoc, find_app.
    assert (N : find p (rev r) = None).
    { destruct (find p (rev r)) as [y|] eqn:F; [|reflexivity]. apply find_some in F. destruct F as [F1 F2].
      apply in_rev in F1. rewrite (A y F1) in F2. discriminate. }
    rewrite N. cbn. rewrite P. reflexivity.
Qed.
Lemma last_where_ext p q es : (forall e, p e = q e) -> last_where p es = last_where q es.
Proof.
  intros H. unfold last_where. induction (rev es) as [|x l IH]; cbn; [reflexivity|]. rewrite H, IH. reflexivity.
Qed.
Lemma last_where_none p es : (forall e, In e es -> p e = false) -> last_where p es = None.
Proof.
  intros H. destruct (last_where p es) as [e|] eqn:E; [|reflexivity].
  apply last_where_iff in E. destruct E as (l & r & -> & P & _). rewrite H in P; [discriminate|]. apply in_elt.
Qed.

Lemma tm_get_set t t' f m : tm_get t (tm_set t' f m) = if ftype_eqb t' t then Some f else tm_get t m.
Proof. unfold tm_get, tm_set. cbn. destruct (ftype_eqb t' t); reflexivity. Qed.

Section Job.
  Variable join : str -> str -> str.
  Variable suffix : str -> str.
  Variable readable : str -> bool.
  Variable root : str.
  Definition file_of (e : entry) : jfile :=
    MkJFile (join root (en_path e)) (type_on_open (suffix (join root (en_path e))) (type_named e)).

  Definition inner_map (n : str) (y : layers) : tmap :=
    match d_get n (y_inner y) with Some m => m | None => [] end.
  (** The map of a view. *)
  Definition map_of (v : view) (y : layers) : tmap :=
    match v with VTop => y_top y | VBottom => y_bottom y | VInner n => inner_map n y end.

  Record seen (es : list entry) (y : layers) : Prop := {
    sn_maps : forall v t, tm_get t (map_of v y) =
      option_map file_of (last_where (fun e => in_view v e && ftype_eqb (type_named e) t) es);
    sn_keys : forall n, In n (d_keys (y_inner y)) <-> exists e, In e es /\ in_view (VInner n) e = true;
    sn_nodup : NoDup (d_keys (y_inner y));
    sn_all : y_all y = map file_of (filter is_profile es) }.

  Lemma d_keys_set_cases {V} k (v : V) d :
    d_keys (d_set k v d) = d_keys d \/ (~ In k (d_keys d) /\ d_keys (d_set k v d) = d_keys d ++ [k]).
  Proof.
    induction d as [|[a b] d IH]; cbn.
    - right. auto.
    - destruct (str_eqb k a) eqn:E; cbn.
      + left. reflexivity.
      + apply str_eqb_neq in E. destruct IH as [IH|[N IH]].
        * left. unfold d_keys in *. cbn. rewrite IH. reflexivity.
        * right. split; [intros [H|H]; [congruence|exact (N H)]|]. unfold d_keys in *. rewrite IH. reflexivity.
  Qed.

  Lemma exists_snoc (es : list entry) x (P : entry -> Prop) :
    (exists e, In e (es ++ [x]) /\ P e) <-> (exists e, In e es /\ P e) \/ P x.
  Proof.
    split.
    - intros (e & He & H). apply in_app_or in He. destruct He as [He|[<-|[]]]; eauto.
    - intros [(e & He & H)|H]; [exists e|exists x]; (split; [apply in_or_app; cbn; auto|exact H]).
  Qed.

  Lemma add_entry_seen es e y y' : seen es y -> add_entry join suffix readable root e y = Ok y' -> seen (es ++ [e]) y'.
  Proof.
    intros S H. unfold add_entry in H. fold (fields e) in H. fold (type_named e) in H.
    destruct (readable (join root (en_path e))); [|discriminate H]. cbn [negb] in H. fold (file_of e) in H.
    assert (IP : is_profile e = ftype_eqb (type_named e) TProfile) by reflexivity.
    destruct (ftype_eqb (type_named e) TProfile) eqn:EP.
    { injection H as <-. destruct S as [M K N A].
      assert (NV : forall v, in_view v e = false) by (intros v; unfold in_view; rewrite IP; reflexivity).
      split; cbn.
      - intros v t. rewrite last_where_snoc, NV. cbn [andb]. rewrite <- M. destruct v; reflexivity.
      - intros n. rewrite exists_snoc, K, NV. intuition discriminate.
      - exact N.
      - rewrite filter_app, map_app, A. cbn. rewrite IP. reflexivity. }
    assert (FA : filter is_profile (es ++ [e]) = filter is_profile es).
    { rewrite filter_app. cbn. rewrite IP. apply app_nil_r. }
    destruct (contains (lit "TOP") (fields e)) eqn:ET.
    { injection H as <-. destruct S as [M K N A]. split; cbn.
      - intros v t. rewrite last_where_snoc.
        assert (NV : in_view v e = match v with VTop => true | _ => false end).
        { unfold in_view. rewrite IP, ET. destruct v; reflexivity. }
        rewrite NV. destruct v; cbn [map_of y_top y_bottom y_inner andb].
        + rewrite tm_get_set. destruct (ftype_eqb (type_named e) t); [reflexivity|]. apply (M VTop t).
        + apply (M VBottom t).
        + apply (M (VInner n) t).
      - intros n. rewrite exists_snoc, K.
        assert (NV : in_view (VInner n) e = false) by (unfold in_view; rewrite IP, ET; reflexivity).
        rewrite NV. intuition discriminate.
      - exact N.
      - rewrite FA. exact A. }
    destruct (contains (lit "BOT") (fields e)) eqn:EB.
    { injection H as <-. destruct S as [M K N A]. split; cbn.
      - intros v t. rewrite last_where_snoc.
        assert (NV : in_view v e = match v with VBottom => true | _ => false end).
        { unfold in_view. rewrite IP, ET, EB. destruct v; reflexivity. }
        rewrite NV. destruct v; cbn [map_of y_top y_bottom y_inner andb].
        + apply (M VTop t).
        + rewrite tm_get_set. destruct (ftype_eqb (type_named e) t); [reflexivity|]. apply (M VBottom t).
        + apply (M (VInner n) t).
      - intros n. rewrite exists_snoc, K.
        assert (NV : in_view (VInner n) e = false) by (unfold in_view; rewrite IP, ET, EB; reflexivity).
        rewrite NV. intuition discriminate.
      - exact N.
      - rewrite FA. exact A. }
    destruct (first_layer (fields e)) as [n0|] eqn:EL.
    { injection H as <-. destruct S as [M K N A].
      assert (NV : forall v, in_view v e = match v with VInner n => str_eqb n n0 | _ => false end).
      { intros v. unfold in_view. rewrite IP, ET, EB, EL. destruct v; reflexivity. }
      split; cbn [y_inner y_all].
      - intros v t. rewrite last_where_snoc, NV. destruct v; cbn [map_of y_top y_bottom y_inner andb].
        + apply (M VTop t).
        + apply (M VBottom t).
        + unfold inner_map. cbn [y_inner]. rewrite d_get_set.
          specialize (M (VInner n) t). cbn [map_of] in M. unfold inner_map in M.
          destruct (str_eqb n n0) eqn:En; cbn [andb].
          * apply str_eqb_eq in En. subst n0. rewrite tm_get_set.
            destruct (ftype_eqb (type_named e) t); [reflexivity|]. exact M.
          * exact M.
      - intros n. rewrite exists_snoc, NV, <- K.
        destruct (d_keys_set_cases n0 (tm_set (type_named e) (file_of e)
            match d_get n0 (y_inner y) with Some m => m | None => [] end) (y_inner y)) as [E|[_ E]].
        + rewrite E. split; [auto|]. intros [H|H]; [exact H|]. apply str_eqb_eq in H. subst n0.
          rewrite <- E. apply d_in_keys_get. rewrite d_get_set, str_eqb_refl. eauto.
        + rewrite E, in_app_iff. cbn. rewrite str_eqb_eq. intuition congruence.
      - destruct (d_keys_set_cases n0 (tm_set (type_named e) (file_of e)
            match d_get n0 (y_inner y) with Some m => m | None => [] end) (y_inner y)) as [E|[Nin E]]; rewrite E.
        + exact N.
        + apply (Permutation_NoDup (Permutation_cons_append (d_keys (y_inner y)) n0)). constructor; assumption.
      - rewrite FA. exact A. }
    injection H as <-. destruct S as [M K N A].
    assert (NV : forall v, in_view v e = false).
    { intros v. unfold in_view. rewrite IP, ET, EB, EL. destruct v; reflexivity. }
    split.
    - intros v t. rewrite last_where_snoc, NV. apply M.
    - intros n. rewrite exists_snoc, K, NV. intuition discriminate.
    - exact N.
    - rewrite FA. exact A.
  Qed.

  Lemma add_entries_seen es2 : forall es y y', seen es y ->
    add_entries join suffix readable root es2 y = Ok y' -> seen (es ++ es2) y'.
  Proof.
    induction es2 as [|e es2 IH]; intros es y y' S H; cbn in H.
    - injection H as <-. rewrite app_nil_r. exact S.
    - destruct (add_entry join suffix readable root e y) as [y1|] eqn:E; [|discriminate H]. cbn in H.
      replace (es ++ e :: es2) with ((es ++ [e]) ++ es2) by (rewrite <- app_assoc; reflexivity).
      apply (IH _ y1); [|exact H]. apply (add_entry_seen es e y); assumption.
  Qed.
  Lemma seen_nil : seen [] (MkLayers [] [] [] []).
  Proof.
    split; cbn.
    - intros v t. destruct v; reflexivity.
    - intros n. split; [intros []|]. intros (e & [] & _).
    - constructor.
    - reflexivity.
  Qed.

  (** ** The outlines *)
  Lemma profile_type e : is_profile e = true -> jf_type (file_of e) = TProfile.
  Proof. unfold is_profile. intros H. apply ftype_eqb_eq in H. cbn. rewrite H. reflexivity. Qed.

  Lemma keys_everywhere fs : forall y, d_keys (y_inner (fold_left add_everywhere fs y)) = d_keys (y_inner y).
  Proof.
    induction fs as [|f fs IH]; intros y; cbn; [reflexivity|]. rewrite IH. cbn. unfold d_keys.
    rewrite map_map. reflexivity.
  Qed.
  Lemma d_get_map {V} (g : V -> V) k (d : dict V) :
    d_get k (map (fun p => (fst p, g (snd p))) d) = option_map g (d_get k d).
  Proof. induction d as [|[a b] d IH]; cbn; [reflexivity|]. destruct (str_eqb k a); [reflexivity|exact IH]. Qed.
  Definition is_key (v : view) (y : layers) : Prop :=
    match v with VInner n => In n (d_keys (y_inner y)) | _ => True end.
  Lemma map_everywhere v f y t : is_key v y -> jf_type f = TProfile ->
    tm_get t (map_of v (add_everywhere y f)) = if ftype_eqb TProfile t then Some f else tm_get t (map_of v y).
  Proof.
    intros K Hf. unfold add_everywhere. rewrite Hf. destruct v as [| |n]; cbn [map_of y_top y_bottom].
    - apply tm_get_set.
    - apply tm_get_set.
    - unfold inner_map. cbn [y_inner]. rewrite d_get_map. cbn in K. apply d_in_keys_get in K.
      destruct K as [m ->]. cbn. apply tm_get_set.
  Qed.
  Lemma maps_everywhere v t es : forall y, is_key v y -> (forall e, In e es -> is_profile e = true) ->
    tm_get t (map_of v (fold_left add_everywhere (map file_of es) y)) =
    match (if ftype_eqb TProfile t then last_where (fun _ => true) es else None) with
    | Some e => Some (file_of e)
    | None => tm_get t (map_of v y)
    end.
  Proof.
    induction es as [|e es IH]; intros y K P; cbn [map fold_left].
    - destruct (ftype_eqb TProfile t); reflexivity.
    - rewrite IH.
      + rewrite map_everywhere; [|exact K|apply profile_type, P; left; reflexivity].
        destruct (ftype_eqb TProfile t); [|reflexivity].
        unfold last_where. cbn [rev]. rewrite find_app. cbn.
        destruct (find (fun _ => true) (rev es)); reflexivity.
      + destruct v; auto. cbn in K |- *. unfold d_keys in *. rewrite map_map. exact K.
      + intros e' He. apply P. right. exact He.
  Qed.

  Lemma last_filter p es : last_where (fun _ => true) (filter p es) = last_where p es.
  Proof.
    induction es as [|x es IH] using rev_ind; [reflexivity|]. rewrite filter_app. cbn.
    rewrite (last_where_snoc p). destruct (p x) eqn:E.
    - rewrite last_where_snoc. reflexivity.
    - rewrite app_nil_r. exact IH.
  Qed.

  Lemma final_map es y v t : seen es y -> is_key v y ->
    tm_get t (map_of v (fold_left add_everywhere (y_all y) y)) =
    option_map file_of (last_where (fun e => (is_profile e || in_view v e) && ftype_eqb (type_named e) t) es).
  Proof.
    intros [M K N A] Hk. rewrite A.
    rewrite maps_everywhere; [|exact Hk|intros e He; apply filter_In in He; apply He].
    rewrite last_filter, M. destruct (ftype_eqb TProfile t) eqn:E.
    - apply ftype_eqb_eq in E. subst t.
      rewrite (last_where_ext (fun e => (is_profile e || in_view v e) && ftype_eqb (type_named e) TProfile) is_profile).
      + rewrite (last_where_none (fun e => in_view v e && ftype_eqb (type_named e) TProfile)).
        * destruct (last_where is_profile es); reflexivity.
        * intros e _. unfold in_view, is_profile. destruct (ftype_eqb (type_named e) TProfile); [reflexivity|].
          apply andb_false_r.
      + intros e. unfold is_profile. destruct (ftype_eqb (type_named e) TProfile); [reflexivity|]. apply andb_false_r.
    - apply ftype_eqb_neq in E. f_equal. apply last_where_ext. intros e. unfold is_profile.
      destruct (ftype_eqb (type_named e) t) eqn:E2; [|rewrite !andb_false_r; reflexivity].
      apply ftype_eqb_eq in E2.
      assert (ftype_eqb (type_named e) TProfile = false) as -> by (apply ftype_eqb_neq; congruence). reflexivity.
  Qed.

  Lemma stack_type e : In (type_named e) stack_order -> jf_type (file_of e) = type_named e.
  Proof.
    cbn [file_of jf_type]. intros H. unfold type_on_open.
    assert (ftype_eqb (type_named e) TInferExtension = false) as ->.
    { apply ftype_eqb_neq. intros X. rewrite X in H. cbn in H. intuition discriminate. }
    assert (ftype_eqb (type_named e) TInfer = false) as ->.
    { apply ftype_eqb_neq. intros X. rewrite X in H. cbn in H. intuition discriminate. }
    reflexivity.
  Qed.

  Lemma extract_ok es y v : seen es y -> is_key v y ->
    shows_last file_of es v (extract_and_sort_files (map_of v (fold_left add_everywhere (y_all y) y))).
  Proof.
    intros S Hk. unfold extract_and_sort_files.
    set (m := map_of v _).
    assert (G : forall t, tm_get t m = option_map file_of
      (last_where (fun e => (is_profile e || in_view v e) && ftype_eqb (type_named e) t) es)).
    { intros t. apply final_map; assumption. }
    assert (T : forall t f, In t stack_order -> tm_get t m = Some f -> jf_type f = t).
    { intros t f Ht Hf. rewrite G in Hf.
      destruct (last_where _ es) as [e|] eqn:E; [|discriminate Hf]. cbn in Hf. injection Hf as <-.
      apply last_where_iff in E. destruct E as (l & r & _ & P & _). apply andb_true_iff in P. destruct P as [_ P].
      apply ftype_eqb_eq in P. rewrite <- P. apply stack_type. rewrite P. exact Ht. }
    split.
    - exists (fun t => match tm_get t m with Some _ => true | None => false end).
      assert (X : forall l, incl l stack_order ->
        map jf_type (flat_map (fun t => match tm_get t m with Some f => [f] | None => [] end) l) =
        filter (fun t => match tm_get t m with Some _ => true | None => false end) l).
      { induction l as [|t l IH]; intros I; cbn; [reflexivity|].
        rewrite map_app, IH by (intros x Hx; apply I; right; exact Hx).
        destruct (tm_get t m) as [f|] eqn:E; [|reflexivity]. cbn.
        rewrite (T t f); [reflexivity|apply I; left; reflexivity|exact E]. }
      apply X, incl_refl.
    - intros f. rewrite in_flat_map. split.
      + intros (t & Ht & Hf). destruct (tm_get t m) as [f'|] eqn:E; [|destruct Hf]. destruct Hf as [<-|[]].
        rewrite G in E. destruct (last_where _ es) as [e|] eqn:W; [|discriminate E]. cbn in E. injection E as <-.
        apply last_where_iff in W. destruct W as (l & r & -> & P & A). apply andb_true_iff in P. destruct P as [P1 P2].
        apply ftype_eqb_eq in P2. subst t. exists l, e, r. split; [reflexivity|]. split; [reflexivity|].
        split; [apply belongs_iff; exact P1|]. split; [exact Ht|].
        intros e' He Hb Heq. specialize (A e' He). apply belongs_iff in Hb. rewrite Hb, Heq, ftype_eqb_refl in A.
        discriminate A.
      + intros (l & e & r & Ees & -> & Hb & Ht & A). exists (type_named e). split; [exact Ht|].
        assert (W : last_where (fun x => (is_profile x || in_view v x) && ftype_eqb (type_named x) (type_named e)) es = Some e).
        { apply last_where_iff. exists l, r. split; [exact Ees|]. split.
          - rewrite ftype_eqb_refl, andb_true_r. apply belongs_iff. exact Hb.
          - intros e' He. destruct (is_profile e' || in_view v e') eqn:B; [|reflexivity]. cbn.
            apply ftype_eqb_neq. apply A; [exact He|]. apply belongs_iff. exact B. }
        rewrite G, W. cbn. left. reflexivity.
  Qed.
End Job.

(** ** Sorting *)
Definition str_le (a b : str) : Prop := str_leb a b = true.
Lemma N_of_ascii_inj a b : N_of_ascii a = N_of_ascii b -> a = b.
Proof. intros H. rewrite <- (ascii_N_embedding a), <- (ascii_N_embedding b), H. reflexivity. Qed.
Lemma str_leb_total a : forall b, str_leb a b = false -> str_leb b a = true.
Proof.
  induction a as [|x a IH]; intros [|y b]; cbn; try congruence.
  destruct (N.ltb_spec (N_of_ascii x) (N_of_ascii y)); [discriminate|].
  destruct (N.ltb_spec (N_of_ascii y) (N_of_ascii x)); [reflexivity|].
  destruct (N.ltb_spec (N_of_ascii y) (N_of_ascii x)); [lia|]. apply IH.
Qed.
Lemma str_leb_antisym a : forall b, str_leb a b = true -> str_leb b a = true -> a = b.
Proof.
  induction a as [|x a IH]; intros [|y b]; cbn; try congruence.
  destruct (N.ltb_spec (N_of_ascii x) (N_of_ascii y)).
  - destruct (N.ltb_spec (N_of_ascii y) (N_of_ascii x)); [lia|]. discriminate.
  - destruct (N.ltb_spec (N_of_ascii y) (N_of_ascii x)); [discriminate|].
    intros A B. f_equal; [apply N_of_ascii_inj; lia|auto].
Qed.
Lemma insert_perm k l : Permutation (k :: l) (insert k l).
Proof.
  induction l as [|x l IH]; cbn; [apply Permutation_refl|]. destruct (str_leb k x); [apply Permutation_refl|].
  eapply Permutation_trans; [apply perm_swap|]. apply perm_skip. exact IH.
Qed.
Lemma sort_perm l : Permutation l (sort_keys l).
Proof.
  induction l as [|x l IH]; cbn; [apply Permutation_refl|].
  eapply Permutation_trans; [apply perm_skip; exact IH|apply insert_perm].
Qed.
Lemma insert_sorted k l : Sorted str_le l -> Sorted str_le (insert k l).
Proof.
  induction l as [|x l IH]; intros S; cbn.
  - repeat constructor.
  - destruct (str_leb k x) eqn:E.
    + constructor; [exact S|]. constructor. exact E.
    + apply str_leb_total in E. inversion S as [|? ? S' H]; subst. constructor; [apply IH; exact S'|].
      destruct l as [|y l]; cbn; [constructor; exact E|].
      inversion H; subst. destruct (str_leb k y); constructor; assumption.
Qed.
Lemma sort_sorted l : Sorted str_le (sort_keys l).
Proof. induction l as [|x l IH]; cbn; [constructor|]. apply insert_sorted. exact IH. Qed.

(** Texts of digits of equal length are ordered like their numbers. *)
Lemma number_acc n : forall v, fold_left (fun v c => 10 * v + digit_val c)%Z n v =
  (v * 10 ^ Z.of_nat (length n) + number_of n)%Z.
Proof.
  unfold number_of. induction n as [|c n IH]; intros v.
  - cbn. lia.
  - cbn [fold_left length]. rewrite IH, (IH (10 * 0 + digit_val c)%Z).
    rewrite Nat2Z.inj_succ, Z.pow_succ_r by lia. ring.
Qed.
Lemma number_cons c n : number_of (c :: n) = (digit_val c * 10 ^ Z.of_nat (length n) + number_of n)%Z.
Proof. unfold number_of at 1. cbn [fold_left]. rewrite number_acc. ring. Qed.
Lemma digit_bounds c : is_digit c = true -> (0 <= digit_val c <= 9)%Z.
Proof.
  unfold is_digit, digit_val. intros H. apply andb_true_iff in H. destruct H as [H1 H2].
  apply N.leb_le in H1, H2. lia.
Qed.
Lemma number_bounds n : Forall (fun c => is_digit c = true) n ->
  (0 <= number_of n < 10 ^ Z.of_nat (length n))%Z.
Proof.
  induction 1 as [|c n Hc F IH]; [cbn; lia|]. rewrite number_cons.
  cbn [length]. rewrite Nat2Z.inj_succ, Z.pow_succ_r by lia. pose proof (digit_bounds c Hc). nia.
Qed.
Lemma same_length_order a : forall b, length a = length b ->
  Forall (fun c => is_digit c = true) a -> Forall (fun c => is_digit c = true) b ->
  str_leb a b = true -> (number_of a <= number_of b)%Z /\ (number_of a = number_of b -> a = b).
Proof.
  induction a as [|x a IH]; intros [|y b] L Fa Fb H; try discriminate L.
  - split; [lia|reflexivity].
  - inversion Fa as [|? ? Hx Fa']; subst. inversion Fb as [|? ? Hy Fb']; subst. injection L as L.
    rewrite !number_cons, <- L. pose proof (number_bounds a Fa'). pose proof (number_bounds b Fb').
    rewrite <- L in H1. cbn in H.
    destruct (N.ltb_spec (N_of_ascii x) (N_of_ascii y)) as [Lt|Ge].
    + assert (digit_val x + 1 <= digit_val y)%Z by (unfold digit_val; lia).
      set (p := (10 ^ Z.of_nat (length a))%Z) in *. assert (0 < p)%Z by lia. split; nia.
    + destruct (N.ltb_spec (N_of_ascii y) (N_of_ascii x)) as [Lt2|Ge2]; [discriminate H|].
      assert (x = y) by (apply N_of_ascii_inj; lia). subst y.
      destruct (IH b L Fa' Fb' H) as [A B]. split; [lia|]. intros E. f_equal. apply B. lia.
Qed.

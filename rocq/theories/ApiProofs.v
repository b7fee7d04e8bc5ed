(** Proofs about file types, styles and caches. *)
From Verif Require Import Base ApiModel ApiSpec.
Local Open Scope nat_scope.

Lemma ftype_eqb_eq a b : ftype_eqb a b = true <-> a = b.
Proof. unfold ftype_eqb. destruct (ftype_eq_dec a b); split; congruence. Qed.
Lemma ftype_eqb_refl a : ftype_eqb a a = true.
Proof. apply ftype_eqb_eq. reflexivity. Qed.
Lemma ftype_eqb_neq a b : ftype_eqb a b = false <-> a <> b.
Proof. unfold ftype_eqb. destruct (ftype_eq_dec a b); split; congruence. Qed.

Lemma type_of_function_ok f : infer_from_attributes (Some (ffunction_value f)) = type_of_function f.
Proof. destruct f; reflexivity. Qed.
Lemma type_of_function_real f :
  type_of_function f <> TInfer /\ type_of_function f <> TInferExtension /\ type_of_function f <> TInferAttributes.
Proof. destruct f; repeat split; discriminate. Qed.

(** ** Extensions *)
Definition code (s : says) : ftype :=
  match s with SType t => t | SFile => TInferAttributes | SNothing => TUndefined end.

Lemma match_digit_app p c r : is_digit c = true -> match_then_digit p (p ++ c :: r) = true.
Proof.
  intros H. induction p as [|a p IH]; cbn.
  - exact H.
  - rewrite Ascii.eqb_refl. exact IH.
Qed.
Lemma match_digit_inv p s : match_then_digit p s = true ->
  exists c r, s = p ++ c :: r /\ is_digit c = true.
Proof.
  revert s. induction p as [|a p IH]; intros [|c s] H; cbn in H; try discriminate H.
  - exists c, s. split; [reflexivity|exact H].
  - apply andb_true_iff in H. destruct H as [H1 H2]. apply Ascii.eqb_eq in H1. subst c.
    destruct (IH s H2) as (d & r & -> & Hd). exists d, r. split; [reflexivity|exact Hd].
Qed.

Lemma down_digit c : is_digit c = true -> down c = c.
Proof.
  unfold is_digit, down. intros H. apply andb_true_iff in H. destruct H as [H1 H2].
  apply N.leb_le in H1, H2.
  assert ((65 <=? N_of_ascii c)%N = false) as -> by (apply N.leb_gt; lia). reflexivity.
Qed.
Lemma digit_not c d : is_digit c = true -> is_digit d = false -> c <> d.
Proof. intros H1 H2 ->. congruence. Qed.

(** What a known extension looks like after [lower]: no digit after its prefix. *)
Definition known_extension (e : str) (s : says) : Prop :=
  exists k, In (k, code s) extension_types /\ lower e = k.

Lemma known_no_digit e k t p : In p [lit ".g"; lit ".gp"; lit ".gm"] -> In (k, t) extension_types ->
  lower e = k -> match_then_digit p e = false.
Proof.
  intros Hp Hk He. destruct (match_then_digit p e) eqn:M; [|reflexivity]. exfalso.
  apply match_digit_inv in M. destruct M as (c & r & -> & Hd).
  unfold lower in He. rewrite map_app in He. cbn [map] in He. rewrite (down_digit c Hd) in He.
  cbn in Hp, Hk.
  repeat (destruct Hp as [<-|Hp]; [|]); try contradiction;
  repeat (destruct Hk as [Hk|Hk]; [injection Hk as <- <-; cbn in He; injection He; intros; subst c; discriminate Hd|]);
  exact Hk.
Qed.

Lemma infer_known e k t : In (k, t) extension_types -> lower e = k -> infer_from_extension e = t.
Proof.
  intros Hk He. unfold infer_from_extension.
  rewrite (known_no_digit e k t (lit ".g")) by (auto; cbn; auto).
  rewrite (known_no_digit e k t (lit ".gp")) by (auto; cbn; auto).
  rewrite (known_no_digit e k t (lit ".gm")) by (auto; cbn; auto).
  rewrite He. cbn in Hk.
  repeat (destruct Hk as [Hk|Hk]; [injection Hk as <- <-; reflexivity|]). contradiction.
Qed.

Lemma infer_says e s : extension_says e s -> infer_from_extension e = code s.
Proof.
  intros H. destruct H as [p d r Hp Hd|e H|e H|e H|e H|e H|e H].
  - unfold infer_from_extension.
    destruct Hp as [<-|[<-|[<-|[]]]].
    + rewrite (match_digit_app (lit ".g") d r Hd). reflexivity.
    + destruct (match_then_digit (lit ".g") (lit ".gp" ++ d :: r)); [reflexivity|].
      rewrite (match_digit_app (lit ".gp") d r Hd). reflexivity.
    + destruct (match_then_digit (lit ".g") (lit ".gm" ++ d :: r)); [reflexivity|].
      destruct (match_then_digit (lit ".gp") (lit ".gm" ++ d :: r)); [reflexivity|].
      rewrite (match_digit_app (lit ".gm") d r Hd). reflexivity.
  - destruct H as [H|H]; (eapply infer_known; [|exact H]); cbn; tauto.
  - destruct H as [H|H]; (eapply infer_known; [|exact H]); cbn; tauto.
  - destruct H as [H|H]; (eapply infer_known; [|exact H]); cbn; tauto.
  - destruct H as [H|H]; (eapply infer_known; [|exact H]); cbn; tauto.
  - destruct H as [H|H]; (eapply infer_known; [|exact H]); cbn; tauto.
  - destruct H as [H|H]; (eapply infer_known; [|exact H]); cbn; tauto.
Qed.

Lemma infer_defined e : infer_from_extension e <> TUndefined -> exists s, extension_says e s.
Proof.
  unfold infer_from_extension. intros H.
  destruct (match_then_digit (lit ".g") e) eqn:M1.
  { apply match_digit_inv in M1. destruct M1 as (c & r & -> & Hd). eexists. eapply ENumbered; [cbn; tauto|exact Hd]. }
  destruct (match_then_digit (lit ".gp") e) eqn:M2.
  { apply match_digit_inv in M2. destruct M2 as (c & r & -> & Hd). eexists. eapply ENumbered; [cbn; tauto|exact Hd]. }
  destruct (match_then_digit (lit ".gm") e) eqn:M3.
  { apply match_digit_inv in M3. destruct M3 as (c & r & -> & Hd). eexists. eapply ENumbered; [cbn; tauto|exact Hd]. }
  destruct (find _ _) as [[k t]|] eqn:F; [|congruence]. clear H.
  apply find_some in F. destruct F as [Hin Heq]. apply str_eqb_eq in Heq. cbn [fst] in Heq.
  symmetry in Heq.
  unfold extension_types in Hin. cbn [In] in Hin.
  repeat (destruct Hin as [Hin|Hin]; [injection Hin as <- <-|]); try contradiction.
  all: first
    [ eexists; apply EGeneric; solve [left; exact Heq | right; exact Heq]
    | eexists; apply ELegend; solve [left; exact Heq | right; exact Heq]
    | eexists; apply EPads; solve [left; exact Heq | right; exact Heq]
    | eexists; apply EMask; solve [left; exact Heq | right; exact Heq]
    | eexists; apply ECopper; solve [left; exact Heq | right; exact Heq]
    | eexists; apply EPaste; solve [left; exact Heq | right; exact Heq] ].
Qed.

Lemma says_not e s : extension_says e s -> code s <> TUndefined /\ code s <> TInfer /\ code s <> TInferExtension.
Proof. intros H. destruct H; cbn; repeat split; discriminate. Qed.
Lemma says_real e t : extension_says e (SType t) -> t <> TInferAttributes /\ t <> TUndefined /\ t <> TInfer /\ t <> TInferExtension /\ t <> TDrillmap.
Proof. intros H. inversion H; subst; repeat split; discriminate. Qed.

(** The type after looking at the extension. *)
Definition stage1 (t : ftype) (s : says) : ftype :=
  match t, s with
  | TInferExtension, s => code s
  | TInfer, SNothing => TInferAttributes
  | TInfer, s => code s
  | t, _ => t
  end.

Lemma origin_infer o s suffix : o = OPath suffix -> origin_says o s -> infer_from_extension suffix = code s.
Proof.
  intros -> [H|[-> H]]; [apply infer_says; exact H|].
  destruct (ftype_eq_dec (infer_from_extension suffix) TUndefined) as [E|E]; [exact E|].
  destruct (infer_defined suffix E) as [s Hs]. destruct (H s Hs).
Qed.

(** Every origin says something. *)
Lemma origin_total o : exists s, origin_says o s.
Proof.
  destruct o as [suffix| |]; [|exists SNothing; reflexivity..].
  destruct (ftype_eq_dec (infer_from_extension suffix) TUndefined) as [E|E].
  - exists SNothing. right. split; [reflexivity|]. intros s Hs.
    pose proof (infer_says _ _ Hs). pose proof (says_not _ _ Hs). destruct H0 as [H0 _]. congruence.
  - destruct (infer_defined suffix E) as [s Hs]. exists s. left. exact Hs.
Qed.

Lemma code_facts o s : origin_says o s ->
  code s <> TInfer /\ code s <> TInferExtension /\
  (code s = TUndefined -> s = SNothing) /\ (forall t, s = SType t -> t <> TInferAttributes).
Proof.
  intros H. assert (C : s = SNothing \/ exists e, extension_says e s).
  { destruct o as [suffix| |]; cbn in H; [|left; exact H..].
    destruct H as [H|[H _]]; [right; eexists; exact H|left; exact H]. }
  destruct C as [->|[e He]].
  - repeat split; try discriminate.
  - destruct (says_not _ _ He) as (A & B & C). repeat split; auto; [congruence|].
    intros t ->. apply says_real in He. tauto.
Qed.

Lemma stage1_facts o s t : origin_says o s ->
  stage1 t s <> TInfer /\ stage1 t s <> TInferExtension /\
  (stage1 t s = TInferAttributes <-> asks_file t s = true) /\
  (asks_file t s = false -> forall f, type_wanted t s f = stage1 t s) /\
  (asks_file t s = true -> forall f, type_wanted t s f = type_said f).
Proof.
  intros H. apply code_facts in H. destruct H as (A & B & C & D).
  destruct t; cbn; try (repeat split; first [discriminate|reflexivity|congruence]).
  - destruct s as [t0| |]; cbn in *; repeat split; try congruence; try discriminate.
    intros ->. destruct (D TInferAttributes eq_refl eq_refl).
  - destruct s as [t0| |]; cbn in *; repeat split; try congruence; try discriminate.
    intros ->. destruct (D TInferAttributes eq_refl eq_refl).
Qed.

Lemma stage1_idem o s t : origin_says o s -> stage1 (stage1 t s) s = stage1 t s.
Proof.
  intros H. destruct (stage1_facts o s t H) as (A & B & _). destruct (stage1 t s); try reflexivity; congruence.
Qed.

(** ** What the methods return, whatever is cached *)
Section Caches.
  Variable L : library.
  Variables (source : str) (t0 : ftype) (o : origin) (s : says).
  Hypothesis Hs : origin_says o s.

  (** [f] is a file with the given settings whose caches are up to date. *)
  Record inv (po : t_popts L) (co : t_copts L) (cm : list (ftype * t_style L)) (f : gfile L) : Prop := {
    i_source : g_source L f = source; i_origin : g_origin L f = o;
    i_popts : g_popts L f = po; i_copts : g_copts L f = co; i_colors : g_colors L f = cm;
    i_type : g_type L f = t0 \/ g_type L f = stage1 t0 s \/
      (asks_file t0 s = true /\ exists fn, function_in L source po = Ok fn /\ g_type L f = type_said fn);
    i_ast : forall a, g_ast L f = Some a -> parse L source po = Ok a;
    i_rvmc : forall r, g_rvmc L f = Some r ->
      exists a, parse L source po = Ok a /\ compile L a co = Ok r;
    i_final : forall st, g_final L f = Some st ->
      exists a, parse L source po = Ok a /\ final_state L a = Ok st }.

  Variables (po : t_popts L) (co : t_copts L) (cm : list (ftype * t_style L)).
  Definition d_ast : result (aerr L) (t_ast L) := from_lib L (parse L source po).
  Definition d_final : result (aerr L) (t_state L) :=
    let* a := d_ast in from_lib L (final_state L a).
  Definition d_rvmc : result (aerr L) (t_rvmc L) :=
    let* a := d_ast in from_lib L (compile L a co).
  Definition d_type : result (aerr L) ftype :=
    if asks_file t0 s then
      let* st := d_final in Ok (type_said (file_function L st))
    else Ok (stage1 t0 s).
  Definition d_style (style : option (t_style L)) : result (aerr L) (t_style L) :=
    match style with
    | Some x => Ok x
    | None => let* t := d_type in
              match find (fun p => ftype_eqb (fst p) t) cm with
              | Some (_, x) => Ok x
              | None => Err (EKey L t)
              end
    end.

  (** A method that computes [d] and keeps the object in order. *)
  Definition good {A} (d : result (aerr L) A) (p : result (aerr L) A * gfile L) : Prop :=
    fst p = d /\ inv po co cm (snd p).
  Definition computes {A} (m : method L A) (d : result (aerr L) A) : Prop :=
    forall f, inv po co cm f -> good d (m f).

  Lemma computes_bind {A B} (m : method L A) (k : A -> method L B) d e :
    computes m d -> (forall a, d = Ok a -> computes (k a) (e a)) ->
    computes (mbind L m k) (bind d e).
  Proof.
    intros Hm Hk f I. specialize (Hm f I). unfold mbind. destruct (m f) as [[a|x] f'] eqn:E; cbn in Hm.
    - destruct Hm as [<- I']. cbn [bind]. apply Hk; [reflexivity|exact I'].
    - destruct Hm as [<- I']. split; [reflexivity|exact I'].
  Qed.
  Lemma computes_call {A} (r : result (t_error L) A) : computes (mcall L r) (from_lib L r).
  Proof. intros f I. split; [reflexivity|exact I]. Qed.
  Lemma computes_ret {A} (a : A) : computes (mret L a) (Ok a).
  Proof. intros f I. split; [reflexivity|exact I]. Qed.

  Lemma computes_ast : computes (get_ast L) d_ast.
  Proof.
    intros f I. unfold get_ast, d_ast. destruct (g_ast L f) as [a|] eqn:E.
    - split; [cbn; rewrite (i_ast _ _ _ _ I a E); reflexivity|exact I].
    - rewrite (i_source _ _ _ _ I), (i_popts _ _ _ _ I).
      destruct (parse L source po) as [a|x] eqn:P; (split; [reflexivity|]); [|exact I].
      destruct I. constructor; cbn; auto. intros b [= <-]. exact P.
  Qed.

  Lemma computes_final : computes (get_final_state L) d_final.
  Proof.
    intros f I. unfold get_final_state. destruct (g_final L f) as [st|] eqn:E.
    - destruct (i_final _ _ _ _ I st E) as (a & Pa & Fa). split; [|exact I].
      unfold d_final, d_ast. rewrite Pa. cbn. rewrite Fa. reflexivity.
    - unfold mbind. destruct (computes_ast f I) as [Ha Ia].
      destruct (get_ast L f) as [[a|x] f1]; cbn in Ha, Ia |- *.
      + unfold d_final. rewrite <- Ha. cbn [bind]. unfold mcall.
        destruct (final_state L a) as [st|x] eqn:F; cbn [from_lib]; (split; [reflexivity|]); [|exact Ia].
        unfold d_ast in Ha. destruct (parse L source po) as [a'|] eqn:P; [|discriminate Ha].
        injection Ha as <-. destruct Ia. constructor; cbn; auto.
        intros st' [= <-]. exists a. rewrite P. auto.
      + unfold d_final. rewrite <- Ha. split; [reflexivity|exact Ia].
  Qed.

  Lemma computes_rvmc : computes (get_rvmc L) d_rvmc.
  Proof.
    apply computes_bind; [apply computes_ast|]. intros a Ha f I.
    unfold d_ast in Ha. destruct (parse L source po) as [a'|] eqn:P; [|discriminate Ha].
    injection Ha as <-.
    destruct (g_rvmc L f) as [r|] eqn:E.
    - destruct (i_rvmc _ _ _ _ I r E) as (a'' & Pa & C). rewrite P in Pa. injection Pa as <-.
      rewrite C. split; [reflexivity|exact I].
    - unfold mbind, mcall. rewrite (i_copts _ _ _ _ I).
      destruct (compile L a' co) as [r|x] eqn:C; cbn [from_lib]; (split; [reflexivity|]); [|exact I].
      destruct I. constructor; cbn; auto. intros r' [= <-]. exists a'. auto.
  Qed.

  Lemma function_in_final : d_final = match parse L source po with
    | Ok a => from_lib L (final_state L a) | Err e => Err (ELib L e) end.
  Proof. unfold d_final, d_ast. destruct (parse L source po); reflexivity. Qed.

  Lemma type_said_real fn : type_said fn <> TInfer /\ type_said fn <> TInferExtension /\ type_said fn <> TInferAttributes.
  Proof. destruct fn as [f|]; cbn; [apply type_of_function_real|]. repeat split; discriminate. Qed.

  (** First step of [_dispatch_style]: afterwards the type is past the extension. *)
  Lemma dispatch_extension f : inv po co cm f ->
    (if is_one_of (g_type L f) TInferExtension TInfer then
       match file_type_from_extension L f with
       | Ok t => (Ok tt, with_type L f t)
       | Err e => (Err e, f)
       end
     else (Ok tt, f)) =
    (Ok tt, with_type L f (stage1 (g_type L f) s)).
  Proof.
    intros I.
    assert (W : f = with_type L f (g_type L f)) by (destruct f; reflexivity).
    unfold is_one_of, file_type_from_extension. rewrite (i_origin _ _ _ _ I).
    pose proof (code_facts o s Hs) as (A & B & C & D).
    assert (Hx : forall t, t = TInferExtension \/ t = TInfer ->
      match o with
      | OPath suffix => if ftype_eqb (infer_from_extension suffix) TUndefined then
          (if ftype_eqb t TInferExtension then Ok TUndefined
           else if ftype_eqb t TInfer then Ok TInferAttributes else Err (ENotImplemented L t))
          else Ok (infer_from_extension suffix)
      | _ => (if ftype_eqb t TInferExtension then Ok TUndefined
           else if ftype_eqb t TInfer then Ok TInferAttributes else Err (ENotImplemented L t))
      end = Ok (stage1 t s)).
    { intros t Ht. destruct o as [suffix| |] eqn:Eo.
      - rewrite (origin_infer _ s suffix eq_refl Hs).
        destruct (ftype_eqb (code s) TUndefined) eqn:E.
        + apply ftype_eqb_eq in E. rewrite (C E). destruct Ht as [->| ->]; reflexivity.
        + apply ftype_eqb_neq in E. destruct Ht as [->| ->]; cbn; [reflexivity|].
          destruct s; [reflexivity..|]. cbn in E. congruence.
      - cbn in Hs. rewrite Hs. destruct Ht as [->| ->]; reflexivity.
      - cbn in Hs. rewrite Hs. destruct Ht as [->| ->]; reflexivity. }
    destruct (ftype_eq_dec (g_type L f) TInferExtension) as [E1|E1].
    { specialize (Hx _ (or_introl E1)). rewrite E1 in Hx |- *. cbn zeta.
      change (ftype_eqb TInferExtension TInferExtension) with true in *. cbn [orb] in *.
      destruct o as [suffix| |]; first [rewrite Hx; reflexivity|congruence]. }
    destruct (ftype_eq_dec (g_type L f) TInfer) as [E2|E2].
    { specialize (Hx _ (or_intror E2)). rewrite E2 in Hx |- *. cbn zeta.
      change (ftype_eqb TInfer TInferExtension) with false in *.
      change (ftype_eqb TInfer TInfer) with true in *. cbn [orb] in *.
      destruct o as [suffix| |]; first [rewrite Hx; reflexivity|congruence]. }
    assert (ftype_eqb (g_type L f) TInferExtension = false) as -> by (apply ftype_eqb_neq; exact E1).
    assert (ftype_eqb (g_type L f) TInfer = false) as -> by (apply ftype_eqb_neq; exact E2).
    cbn [orb].
    replace (stage1 (g_type L f) s) with (g_type L f); [f_equal; exact W|].
    destruct (g_type L f); try reflexivity; congruence.
  Qed.

  Lemma inv_with_type f t : inv po co cm f ->
    (t = t0 \/ t = stage1 t0 s \/
      (asks_file t0 s = true /\ exists fn, function_in L source po = Ok fn /\ t = type_said fn)) ->
    inv po co cm (with_type L f t).
  Proof. intros [] H. constructor; cbn; auto. Qed.

  Lemma computes_style style : computes (dispatch_style L style) (d_style style).
  Proof.
    destruct style as [x|].
    { intros f I. split; [reflexivity|exact I]. }
    intros f I. unfold dispatch_style, d_style.
    pose proof (stage1_facts o s t0 Hs) as (A & B & C & D & E).
    (* after the extension *)
    pose proof (dispatch_extension f I) as Hext.
    set (t1 := stage1 (g_type L f) s) in Hext.
    assert (T1 : t1 = stage1 t0 s \/
      (asks_file t0 s = true /\ exists fn, function_in L source po = Ok fn /\ t1 = type_said fn)).
    { unfold t1. destruct (i_type _ _ _ _ I) as [->|[->|(X & fn & Y & ->)]].
      - left. reflexivity.
      - left. apply (stage1_idem o). exact Hs.
      - right. split; [exact X|]. exists fn. split; [exact Y|].
        destruct (type_said_real fn) as (P & Q & _). destruct (type_said fn); try reflexivity; congruence. }
    assert (I1 : inv po co cm (with_type L f t1)) by (apply inv_with_type; [exact I|right; exact T1]).
    unfold mbind at 1. rewrite Hext. clear Hext.
    unfold mbind at 1. cbn [g_type with_type].
    assert (Look : forall f' t, inv po co cm f' -> g_type L f' = t -> d_type = Ok t ->
      good (let* t := d_type in
            match find (fun p => ftype_eqb (fst p) t) cm with
            | Some (_, x) => Ok x
            | None => Err (EKey L t)
            end)
        (match find (fun p => ftype_eqb (fst p) (g_type L f')) (g_colors L f') with
         | Some (_, x) => (Ok x, f')
         | None => (Err (EKey L (g_type L f')), f')
         end)).
    { intros f' t I' Ht Hd. rewrite Hd, Ht, (i_colors _ _ _ _ I'). cbn [bind].
      destruct (find _ cm) as [[k x]|]; (split; [reflexivity|exact I']). }
    destruct (is_one_of t1 TInferAttributes TInfer) eqn:O.
    - (* the attributes are needed *)
      assert (Ask : asks_file t0 s = true).
      { unfold is_one_of in O. apply orb_true_iff in O. destruct T1 as [T1|(X & _)]; [|exact X].
        rewrite T1 in O. destruct O as [O|O]; apply ftype_eqb_eq in O; [apply C; exact O|congruence]. }
      assert (T1' : t1 = stage1 t0 s).
      { destruct T1 as [T1|(_ & fn & _ & Y)]; [exact T1|]. exfalso. rewrite Y in O. unfold is_one_of in O.
        apply orb_true_iff in O. destruct (type_said_real fn) as (P & Q & R).
        destruct O as [O|O]; apply ftype_eqb_eq in O; congruence. }
      unfold file_type_from_attributes. unfold mbind at 1. unfold mbind at 1.
      destruct (computes_final _ I1) as [Hf If].
      destruct (get_final_state L (with_type L f t1)) as [[st|x] f2]; cbn [fst snd] in Hf, If |- *.
      + assert (T2 : d_type = Ok (type_said (file_function L st))).
        { unfold d_type. rewrite Ask, <- Hf. reflexivity. }
        assert (Fn : function_in L source po = Ok (file_function L st)).
        { unfold function_in. rewrite function_in_final in Hf.
          destruct (parse L source po) as [a|]; [|discriminate Hf]. cbn [bind].
          destruct (final_state L a) as [st'|]; [|discriminate Hf]. injection Hf as <-. reflexivity. }
        destruct (file_function L st) as [fn|] eqn:Ef; unfold mret.
        * rewrite type_of_function_ok. apply (Look _ (type_of_function fn)); [|reflexivity|exact T2].
          apply inv_with_type; [exact If|]. right. right. split; [exact Ask|]. exists (Some fn). auto.
        * apply (Look _ TUndefined); [|reflexivity|exact T2].
          apply inv_with_type; [exact If|]. right. right. split; [exact Ask|]. exists None. auto.
      + unfold d_type. rewrite Ask, <- Hf. split; [reflexivity|exact If].
    - apply (Look _ t1); [exact I1|reflexivity|]. unfold d_type.
      destruct T1 as [T1|(X & fn & Y & T1)].
      + destruct (asks_file t0 s) eqn:Ask.
        * exfalso. destruct C as [_ C]. specialize (C eq_refl). rewrite T1, C in O. discriminate O.
        * rewrite T1. reflexivity.
      + rewrite X. rewrite function_in_final. unfold function_in in Y.
        destruct (parse L source po) as [a|]; [|discriminate Y]. cbn [bind] in Y.
        destruct (final_state L a) as [st|]; [|discriminate Y]. cbn [bind] in Y. injection Y as Y.
        cbn. rewrite Y, T1. reflexivity.
  Qed.

  (** The answer to a call, from the settings alone. *)
  Definition d_answer (c : call L) : answer L :=
    match c with
    | CPillow _ style dpmm => APillow L (
        let* x := d_style style in
        let* r := d_rvmc in
        let* res := from_lib L (raster L r dpmm) in
        let* st := d_final in
        let* img := from_lib L (raster_image L res x) in
        Ok (MkSpace L (unit_mode L st) (raster_box L res) dpmm, img))
    | CShapely _ style => AShapely L (
        let* x := d_style style in
        let* r := d_rvmc in
        let* res := from_lib L (vector L r) in
        let* st := d_final in
        Ok (MkSpace L (unit_mode L st) (vector_box L res) 0, (res, x)))
    | CFormats _ fo => AText L (let* a := d_ast in from_lib L (formats L a fo))
    | _ => ANone L
    end.

  Lemma answer_ok c f : inv po co cm f -> is_setting c = false ->
    fst (do_call L c f) = d_answer c /\ inv po co cm (snd (do_call L c f)).
  Proof.
    intros I Hc. destruct c as [po'|co'|cm'|style dpmm|style|fo]; try discriminate Hc; clear Hc; cbn [do_call d_answer].
    - assert (X : computes (render_with_pillow L style dpmm) (
        let* x := d_style style in
        let* r := d_rvmc in
        let* res := from_lib L (raster L r dpmm) in
        let* st := d_final in
        let* img := from_lib L (raster_image L res x) in
        Ok (MkSpace L (unit_mode L st) (raster_box L res) dpmm, img))).
      { apply computes_bind; [apply computes_style|intros x _].
        apply computes_bind; [apply computes_rvmc|intros r _].
        apply computes_bind; [apply computes_call|intros res _].
        apply computes_bind; [apply computes_final|intros st _].
        apply computes_bind; [apply computes_call|intros img _].
        apply computes_ret. }
      destruct (X f I) as [Y J]. destruct (render_with_pillow L style dpmm f) as [r f'].
      cbn in Y, J |- *. rewrite Y. auto.
    - assert (X : computes (render_with_shapely L style) (
        let* x := d_style style in
        let* r := d_rvmc in
        let* res := from_lib L (vector L r) in
        let* st := d_final in
        Ok (MkSpace L (unit_mode L st) (vector_box L res) 0, (res, x)))).
      { apply computes_bind; [apply computes_style|intros x _].
        apply computes_bind; [apply computes_rvmc|intros r _].
        apply computes_bind; [apply computes_call|intros res _].
        apply computes_bind; [apply computes_final|intros st _].
        apply computes_ret. }
      destruct (X f I) as [Y J]. destruct (render_with_shapely L style f) as [r f'].
      cbn in Y, J |- *. rewrite Y. auto.
    - assert (X : computes (file_formats L fo) (let* a := d_ast in from_lib L (formats L a fo))).
      { apply computes_bind; [apply computes_ast|intros a _]. apply computes_call. }
      destruct (X f I) as [Y J]. destruct (file_formats L fo f) as [r f'].
      cbn in Y, J |- *. rewrite Y. auto.
  Qed.
End Caches.

(** ** Settings *)
Section Settings.
  Variable L : library.
  Variables (source : str) (t0 : ftype) (o : origin) (s : says).
  Hypothesis Hs : origin_says o s.
  Definition settings := (t_popts L * t_copts L * list (ftype * t_style L))%type.
  Definition after (c : call L) (x : settings) : settings :=
    let '(po, co, cm) := x in
    match c with
    | CParserOptions _ po => (po, co, cm)
    | CCompilerOptions _ co => (po, co, cm)
    | CColorMap _ cm => (po, co, cm)
    | _ => x
    end.
  Definition inv3 (x : settings) := let '(po, co, cm) := x in inv L source t0 o s po co cm.

  (** Parser options may only be changed if that does not change the inferred type. *)
  Lemma step_inv x c f :
    (asks_file t0 s = true -> function_in L source (fst (fst x)) = function_in L source (fst (fst (after c x)))) ->
    inv3 x f -> inv3 (after c x) (snd (do_call L c f)).
  Proof.
    destruct x as [[po co] cm]. intros Hp I.
    destruct (is_setting c) eqn:Hc.
    - destruct c as [po'|co'|cm'| | |]; try discriminate Hc; cbn in Hp, I |- *; destruct I;
        constructor; cbn; auto; try discriminate.
      destruct i_type0 as [X|[X|(X & Y)]]; auto. right. right. split; [exact X|]. rewrite <- (Hp X). exact Y.
    - replace (after c (po, co, cm)) with (po, co, cm) by (destruct c; try discriminate Hc; reflexivity).
      cbn in I |- *. apply answer_ok; assumption.
  Qed.

  Lemma run_inv cs : forall x f,
    (asks_file t0 s = true -> forall p q, In p (parser_options_used (fst (fst x)) cs) ->
       In q (parser_options_used (fst (fst x)) cs) -> function_in L source p = function_in L source q) ->
    inv3 x f -> inv3 (fold_left (fun x c => after c x) cs x) (do_calls L cs f).
  Proof.
    induction cs as [|c cs IH]; intros x f Hp I; [exact I|].
    cbn [fold_left do_calls]. unfold do_calls in *. cbn [fold_left].
    apply IH.
    - intros Ha p q P Q. apply (Hp Ha).
      + destruct x as [[po co] cm]. destruct c; cbn in P |- *; right; exact P.
      + destruct x as [[po co] cm]. destruct c; cbn in Q |- *; right; exact Q.
    - apply step_inv; [|exact I]. intros Ha. apply (Hp Ha); [left; reflexivity|].
      destruct x as [[po co] cm]. destruct c; cbn; right; destruct cs; cbn; auto.
  Qed.

  (** Setters alone. *)
  Lemma setters_inv cs : forall x f, g_type L f = t0 -> inv3 x f ->
    inv3 (fold_left (fun x c => after c x) cs x) (do_calls L (filter is_setting cs) f).
  Proof.
    induction cs as [|c cs IH]; intros x f Ht I; [exact I|]. cbn [fold_left filter].
    destruct (is_setting c) eqn:Hc.
    - unfold do_calls. cbn [fold_left]. apply IH.
      + destruct c; try discriminate Hc; cbn; exact Ht.
      + destruct x as [[po co] cm].
        destruct c as [po'|co'|cm'| | |]; try discriminate Hc; cbn in I |- *; destruct I;
          constructor; cbn; auto; discriminate.
    - replace (after c x) with x by (destruct x as [[? ?] ?], c; try discriminate Hc; reflexivity).
      apply IH; assumption.
  Qed.

  Lemma new_inv : inv3 (no_popts L, no_copts L, map (fun p => (fst p, preset L (snd p))) default_alpha_color_map)
    (new_file L source t0 o).
  Proof. cbn. constructor; cbn; auto; discriminate. Qed.
End Settings.

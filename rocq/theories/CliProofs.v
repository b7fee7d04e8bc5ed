(** Proofs for C74. *)
From Verif Require Import Base ColorModel ColorSpec ColorProofs ApiModel ApiSpec ApiProofs ApiProps CliModel CliSpec.
From Verif Require ColorProps.
Local Open Scope nat_scope.

(** ** Letters *)
Lemma lower_upper s : lower (upper s) = lower s.
Proof.
  unfold lower, upper. rewrite map_map. apply map_ext. intros c.
  destruct c as [[] [] [] [] [] [] [] []]; reflexivity.
Qed.
Lemma upper_lower s : upper (lower s) = upper s.
Proof.
  unfold lower, upper. rewrite map_map. apply map_ext. intros c.
  destruct c as [[] [] [] [] [] [] [] []]; reflexivity.
Qed.
Lemma same_upper a b : lower a = lower b -> upper a = upper b.
Proof. intros H. rewrite <- (upper_lower a), H. apply upper_lower. Qed.

(** [click.Choice]: choices that differ in more than case. *)
Lemma choice_ok cs v c : In c cs -> lower c = lower v ->
  exists c', choice cs v = Some c' /\ In c' cs /\ lower c' = lower v.
Proof.
  unfold choice. induction cs as [|d cs IH]; intros Hin E; [destruct Hin|]. cbn.
  destruct (str_eqb (lower d) (lower v)) eqn:X.
  - apply str_eqb_eq in X. exists d. cbn. auto.
  - destruct Hin as [->|Hin].
    + rewrite E in X. rewrite str_eqb_refl in X. discriminate X.
    + destruct (IH Hin E) as (c' & A & B & C). exists c'. cbn. auto.
Qed.
Lemma choice_some cs v c : choice cs v = Some c -> In c cs /\ lower c = lower v.
Proof. intros H. apply find_some in H. destruct H as [A B]. apply str_eqb_eq in B. auto. Qed.
Lemma choice_none cs v : (forall c, In c cs -> lower c <> lower v) -> choice cs v = None.
Proof.
  unfold choice. induction cs as [|d cs IH]; intros H; [reflexivity|]. cbn.
  destruct (str_eqb (lower d) (lower v)) eqn:X.
  - apply str_eqb_eq in X. destruct (H d (or_introl eq_refl) X).
  - apply IH. intros c Hc. apply H. right. exact Hc.
Qed.

(** ** File types *)
Lemma type_choices_names : type_choices = map (fun p => lit (fst p)) type_names.
Proof. reflexivity. Qed.
Lemma type_names_lookup : Forall (fun p => snd p = TNonPlated \/ ftype_of (upper (lit (fst p))) = snd p) type_names.
Proof.
  apply Forall_forall. intros p Hp.
  assert (F : forallb (fun p => ftype_eqb (snd p) TNonPlated || ftype_eqb (ftype_of (upper (lit (fst p)))) (snd p)) type_names = true)
    by (vm_compute; reflexivity).
  rewrite forallb_forall in F. specialize (F p Hp). apply orb_true_iff in F.
  destruct F as [F|F]; apply ftype_eqb_eq in F; auto.
Qed.

Lemma type_ok v t : asks_type v t -> t <> TNonPlated ->
  exists c, choice type_choices (default v (lit "INFER")) = Some c /\ ftype_of (upper c) = t.
Proof.
  intros A N. destruct A as [|v name t Hin E].
  - exists (lit "INFER"). split; reflexivity.
  - assert (I : In (lit name) type_choices).
    { rewrite type_choices_names. change (lit name) with ((fun p : string * ftype => lit (fst p)) (name, t)). apply in_map. exact Hin. }
    destruct (choice_ok _ v (lit name) I (eq_sym E)) as (c & C1 & C2 & C3). exists c. split; [exact C1|].
    rewrite (same_upper c (lit name)) by (rewrite C3; exact E).
    pose proof type_names_lookup as F. rewrite Forall_forall in F. specialize (F _ Hin). cbn in F.
    destruct F as [F|F]; [congruence|exact F].
Qed.

(** ** Paths *)
Lemma existsb_in c (s : str) : existsb (Ascii.eqb c) s = true <-> In c s.
Proof.
  rewrite existsb_exists. split.
  - intros (d & Hd & E). apply Ascii.eqb_eq in E. subst d. exact Hd.
  - intros H. exists c. split; [exact H|apply Ascii.eqb_refl].
Qed.
Lemma existsb_not c (s : str) : existsb (Ascii.eqb c) s = false <-> ~ In c s.
Proof. rewrite <- existsb_in. destruct (existsb _ s); split; intros; congruence. Qed.

Lemma last_part_none c s : ~ In c s -> last_part c s = s.
Proof.
  intros H. destruct s as [|d r]; [reflexivity|]. cbn.
  assert (existsb (Ascii.eqb c) r = false) as -> by (apply existsb_not; intros X; apply H; right; exact X).
  destruct (Ascii.eqb c d) eqn:E; [|reflexivity]. apply Ascii.eqb_eq in E. subst d. destruct H. left. reflexivity.
Qed.
Lemma last_part_app c a s : ~ In c s -> last_part c (a ++ c :: s) = s.
Proof.
  intros H. induction a as [|d a IH]; cbn.
  - assert (existsb (Ascii.eqb c) s = false) as -> by (apply existsb_not; exact H).
    rewrite Ascii.eqb_refl. reflexivity.
  - assert (existsb (Ascii.eqb c) (a ++ c :: s) = true) as ->.
    { apply existsb_in. apply in_or_app. right. left. reflexivity. }
    exact IH.
Qed.
Lemma last_part_name path name : file_name path name -> last_part "/" path = name.
Proof. intros [N [->|(dir & ->)]]; [apply last_part_none|apply last_part_app]; exact N. Qed.
Lemma has_name path : exists name, file_name path name.
Proof.
  induction path as [|c r IH].
  - exists []. split; [intros []|left; reflexivity].
  - destruct IH as (name & N & E). destruct (Ascii.eqb c "/") eqn:Ec.
    + apply Ascii.eqb_eq in Ec. subst c. exists name. split; [exact N|]. right.
      destruct E as [->|(dir & ->)]; [exists []; reflexivity|exists ("/"%char :: dir); reflexivity].
    + apply Ascii.eqb_neq in Ec. destruct E as [->|(dir & ->)].
      * exists (c :: name). split; [|left; reflexivity]. intros [X|X]; [congruence|exact (N X)].
      * exists name. split; [exact N|]. right. exists (c :: dir). reflexivity.
Qed.

Lemma from_dot_none s : ~ In "."%char s -> from_dot s = None.
Proof.
  induction s as [|d r IH]; intros H; [reflexivity|]. cbn. rewrite IH by (intros X; apply H; right; exact X).
  destruct (Ascii.eqb d ".") eqn:E; [|reflexivity]. apply Ascii.eqb_eq in E. subst d. destruct H. left. reflexivity.
Qed.
Lemma from_dot_app a s : ~ In "."%char s -> from_dot (a ++ "."%char :: s) = Some ("."%char :: s).
Proof.
  intros H. induction a as [|d a IH]; cbn.
  - rewrite from_dot_none by exact H. reflexivity.
  - rewrite IH. reflexivity.
Qed.
Lemma from_dot_cases s :
  (~ In "."%char s) \/ exists a e, s = a ++ "."%char :: e /\ ~ In "."%char e.
Proof.
  induction s as [|d r IH]; [left; intros []|].
  destruct IH as [N|(a & e & -> & N)].
  - destruct (Ascii.eqb d ".") eqn:E.
    + apply Ascii.eqb_eq in E. subst d. right. exists [], r. auto.
    + apply Ascii.eqb_neq in E. left. intros [X|X]; [congruence|exact (N X)].
  - right. exists (d :: a), e. auto.
Qed.

Lemma suffix_is path e : extension path e -> suffix path = e.
Proof.
  intros (name & Hn & H). unfold suffix. rewrite (last_part_name _ _ Hn). clear Hn.
  destruct H as [(stem & ext & -> & Hs & He & N & ->)|(-> & H)].
  - destruct stem as [|c stem]; [congruence|]. cbn. rewrite from_dot_app by exact N.
    destruct ext as [|d ext]; [congruence|]. reflexivity.
  - destruct name as [|c r]; [reflexivity|]. destruct (from_dot_cases r) as [N|(a & e & -> & N)].
    + rewrite from_dot_none by exact N. reflexivity.
    + rewrite from_dot_app by exact N. destruct (H (c :: a) e eq_refl N) as [X| ->]; [discriminate X|]. reflexivity.
Qed.
Lemma has_extension path : extension path (suffix path).
Proof.
  destruct (has_name path) as (name & Hn). unfold suffix. rewrite (last_part_name _ _ Hn). exists name. split; [exact Hn|]. clear Hn.
  destruct name as [|c r].
  - right. split; [reflexivity|]. intros stem ext E _. left. destruct stem; [reflexivity|discriminate E].
  - destruct (from_dot_cases r) as [N|(a & e & -> & N)].
    + rewrite from_dot_none by exact N. right. split; [reflexivity|]. intros stem ext E _.
      destruct stem as [|d stem]; [left; reflexivity|]. injection E as <- E. destruct N. rewrite E. apply in_or_app. right. left. reflexivity.
    + rewrite from_dot_app by exact N. destruct e as [|d e].
      * right. split; [reflexivity|]. intros stem ext E N'.
        destruct stem as [|x stem]; [left; reflexivity|]. right. injection E as <- E.
        destruct ext as [|y ext] using rev_ind; [reflexivity|]. clear IHext.
        rewrite app_comm_cons, app_assoc in E. apply app_inj_tail in E. destruct E as [_ <-].
        destruct N'. apply in_or_app. right. left. reflexivity.
      * left. exists (c :: a), (d :: e). repeat split; try discriminate; auto.
Qed.

(** ** Rendering a new file *)
Section Render.
  Variable L : library.
  Variables (text sfx : str) (t : ftype).
  Let f := from_file L text sfx t.

  Lemma new_answers c : is_setting c = false -> exists t' s,
    origin_says (OPath sfx) s /\
    fst (do_call L c f) = d_answer L text t' s (no_popts L) (no_copts L) (map (fun p => (fst p, preset L (snd p))) default_alpha_color_map) c /\
    forall st, fst (dispatch_style L st f) = d_style L text t' s (no_popts L) (map (fun p => (fst p, preset L (snd p))) default_alpha_color_map) st.
  Proof.
    intros Hc. destruct (origin_total (OPath sfx)) as (s & Hs).
    destruct (made_new L text t (OPath sfx) f s (MadeFile _ _ _ _) Hs) as (t' & E & _).
    exists t', s. split; [exact Hs|]. rewrite E.
    assert (I : inv L text t' (OPath sfx) s (no_popts L) (no_copts L) (map (fun p => (fst p, preset L (snd p))) default_alpha_color_map) (new_file L text t' (OPath sfx)))
      by exact (new_inv L text t' (OPath sfx) s).
    split.
    - apply (answer_ok L text t' (OPath sfx) s Hs); [exact I|exact Hc].
    - intros st. exact (proj1 (computes_style L text t' (OPath sfx) s Hs _ _ _ st _ I)).
  Qed.

  Lemma pillow_is style dpmm : fst (render_with_pillow L style dpmm f) =
    (let* x := fst (dispatch_style L style f) in
     let* a := from_lib L (parse L text (no_popts L)) in
     let* r := from_lib L (compile L a (no_copts L)) in
     let* res := from_lib L (raster L r dpmm) in
     let* st := from_lib L (final_state L a) in
     let* i := from_lib L (raster_image L res x) in
     Ok (MkSpace L (unit_mode L st) (raster_box L res) dpmm, i)).
  Proof.
    destruct (new_answers (CPillow L style dpmm) eq_refl) as (t' & s & _ & A & B). rewrite B. clear B.
    cbn [do_call d_answer] in A. destruct (render_with_pillow L style dpmm f) as [r f']. cbn [fst] in A |- *. injection A as A. rewrite A.
    destruct (d_style _ _ _ _ _ _ _) as [x|e]; [|reflexivity]. cbn [bind]. unfold d_rvmc, d_final, d_ast.
    destruct (parse L text (no_popts L)) as [a|e]; [|reflexivity]. cbn [bind from_lib]. reflexivity.
  Qed.
  Lemma shapely_is style : fst (render_with_shapely L style f) =
    (let* x := fst (dispatch_style L style f) in
     let* a := from_lib L (parse L text (no_popts L)) in
     let* r := from_lib L (compile L a (no_copts L)) in
     let* v := from_lib L (vector L r) in
     let* st := from_lib L (final_state L a) in
     Ok (MkSpace L (unit_mode L st) (vector_box L v) 0, (v, x))).
  Proof.
    destruct (new_answers (CShapely L style) eq_refl) as (t' & s & _ & A & B). rewrite B. clear B.
    cbn [do_call d_answer] in A. destruct (render_with_shapely L style f) as [r f']. cbn [fst] in A |- *. injection A as A. rewrite A.
    destruct (d_style _ _ _ _ _ _ _) as [x|e]; [|reflexivity]. cbn [bind]. unfold d_rvmc, d_final, d_ast.
    destruct (parse L text (no_popts L)) as [a|e]; [|reflexivity]. cbn [bind from_lib]. reflexivity.
  Qed.
  Lemma formats_is o : fst (file_formats L o f) =
    (let* a := from_lib L (parse L text (no_popts L)) in from_lib L (formats L a o)).
  Proof.
    destruct (new_answers (CFormats L o) eq_refl) as (t' & s & _ & A & _).
    cbn [do_call d_answer] in A. destruct (file_formats L o f) as [r f']. cbn [fst] in A |- *. injection A as A. exact A.
  Qed.
End Render.

Section Commands.
  Variable L : library.
  Variable style_of : color * color -> t_style L.

  Lemma coloured_ok text path t sc x : coloured L style_of text path t sc x ->
    fst (dispatch_style L (option_map style_of sc) (from_file L text (suffix path) t)) = Ok x.
  Proof.
    destruct sc as [c|]; cbn [coloured option_map].
    - intros ->. reflexivity.
    - intros (e & s & said & He & Hs & Hask & D & ->). rewrite (suffix_is _ _ He).
      destruct (C49_default_style_partial L text t (OPath e) _ s (MadeFile _ _ _ _) Hs) as [_ H].
      destruct (H said Hask) as [A B]. clear H.
      exact (A D).
  Qed.
  Lemma dispatch_coloured text path t sc x :
    fst (dispatch_style L (option_map style_of sc) (from_file L text (suffix path) t)) = Ok x ->
    coloured L style_of text path t sc x.
  Proof.
    destruct sc as [c|]; cbn [coloured option_map].
    - cbn. intros [= <-]. reflexivity.
    - intros H. destruct (origin_total (OPath (suffix path))) as (s & Hs).
      destruct (C49_default_style_partial L text t (OPath (suffix path)) _ s (MadeFile _ _ _ _) Hs) as [E G].
      assert (X : exists said, asks_file t s = true -> function_in L text (no_popts L) = Ok said).
      { destruct (asks_file t s) eqn:K; [|exists None; discriminate].
        destruct (function_in L text (no_popts L)) as [said|e] eqn:F; [exists said; reflexivity|].
        rewrite (E e eq_refl eq_refl) in H. discriminate H. }
      destruct X as (said & X). destruct (G said X) as [A B].
      destruct (ftype_eq_dec (type_wanted t s said) TDrillmap) as [D|D].
      + rewrite (B D) in H. discriminate H.
      + rewrite (A D) in H. injection H as <-.
        exists (suffix path), s, said. repeat split; auto. apply has_extension.
  Qed.

  Lemma pillow_ok text path t sc x dpmm p : coloured L style_of text path t sc x -> drawn L text x dpmm p ->
    fst (render_with_pillow L (option_map style_of sc) dpmm (from_file L text (suffix path) t)) = Ok p.
  Proof.
    intros C (a & r & res & st & i & Ha & Hr & Hst & Hres & Hi & ->).
    rewrite pillow_is, (coloured_ok _ _ _ _ _ C). cbn [bind]. rewrite Ha. cbn [bind from_lib]. rewrite Hr. cbn [bind from_lib].
    rewrite Hres. cbn [bind from_lib]. rewrite Hst. cbn [bind from_lib]. rewrite Hi. reflexivity.
  Qed.
  Lemma pillow_inv text path t sc dpmm p :
    fst (render_with_pillow L (option_map style_of sc) dpmm (from_file L text (suffix path) t)) = Ok p ->
    exists x, coloured L style_of text path t sc x /\ drawn L text x dpmm p.
  Proof.
    rewrite pillow_is. destruct (fst (dispatch_style _ _ _)) as [x|] eqn:X; [|discriminate]. apply dispatch_coloured in X. cbn [bind].
    destruct (parse L text _) as [a|] eqn:Ha; [|discriminate]. cbn [bind from_lib].
    destruct (compile L a _) as [r|] eqn:Hr; [|discriminate]. cbn [bind from_lib].
    destruct (raster L r dpmm) as [res|] eqn:Hres; [|discriminate]. cbn [bind from_lib].
    destruct (final_state L a) as [st|] eqn:Hst; [|discriminate]. cbn [bind from_lib].
    destruct (raster_image L res x) as [i|] eqn:Hi; [|discriminate]. cbn [bind from_lib].
    intros [= <-]. exists x. split; [exact X|]. exists a, r, res, st, i. auto 10.
  Qed.
  Lemma shapely_ok text path t sc x v : coloured L style_of text path t sc x -> traced L text v ->
    exists sp, fst (render_with_shapely L (option_map style_of sc) (from_file L text (suffix path) t)) = Ok (sp, (v, x)).
  Proof.
    intros C (a & r & st & Ha & Hr & Hst & Hv).
    rewrite shapely_is, (coloured_ok _ _ _ _ _ C). cbn [bind]. rewrite Ha. cbn [bind from_lib]. rewrite Hr. cbn [bind from_lib].
    rewrite Hv. cbn [bind from_lib]. rewrite Hst. cbn [bind from_lib]. eexists. reflexivity.
  Qed.
  Lemma shapely_inv text path t sc sp v x :
    fst (render_with_shapely L (option_map style_of sc) (from_file L text (suffix path) t)) = Ok (sp, (v, x)) ->
    coloured L style_of text path t sc x /\ traced L text v.
  Proof.
    rewrite shapely_is. destruct (fst (dispatch_style _ _ _)) as [y|] eqn:X; [|discriminate]. apply dispatch_coloured in X. cbn [bind].
    destruct (parse L text _) as [a|] eqn:Ha; [|discriminate]. cbn [bind from_lib].
    destruct (compile L a _) as [r|] eqn:Hr; [|discriminate]. cbn [bind from_lib].
    destruct (vector L r) as [w|] eqn:Hw; [|discriminate]. cbn [bind from_lib].
    destruct (final_state L a) as [st|] eqn:Hst; [|discriminate]. cbn [bind from_lib].
    intros [= _ <- <-]. split; [exact X|]. exists a, r, st. auto.
  Qed.

  (** ** Styles *)
  Lemma preset_names : Forall (fun p => upper (fst p) = fst p /\ get_style (fst p) = Some (snd p) /\ fst p <> lit "CUSTOM") style_presets.
  Proof. repeat (apply Forall_cons; [split; [reflexivity|split; [reflexivity|discriminate]]|]). apply Forall_nil. Qed.

  Lemma style_ok f b st sc : asks_style f b st sc ->
    match st with
    | None => sanitize_style L style_of None f b = Ok (option_map style_of sc)
    | Some v => exists c, choice style_choices v = Some c /\ sanitize_style L style_of (Some c) f b = Ok (option_map style_of sc)
    end.
  Proof.
    intros A. destruct A as [|v name c Hin E|v sf sb cf cb E -> -> Hf Hb].
    - reflexivity.
    - assert (I : In name style_choices).
      { apply in_or_app. left. apply in_map_iff. exists (name, c). auto. }
      destruct (choice_ok _ v name I (eq_sym E)) as (c' & C1 & C2 & C3). exists c'. split; [exact C1|].
      unfold sanitize_style. pose proof preset_names as F. rewrite Forall_forall in F. destruct (F _ Hin) as (U & G & N). cbn [fst snd] in *.
      rewrite (same_upper c' name) by (rewrite C3; exact E). rewrite U.
      destruct (str_eqb name (lit "CUSTOM")) eqn:X; [apply str_eqb_eq in X; congruence|]. rewrite G. reflexivity.
    - assert (I : In (lit "CUSTOM") style_choices) by (apply in_or_app; right; left; reflexivity).
      destruct (choice_ok _ v _ I (eq_sym E)) as (c' & C1 & C2 & C3). exists c'. split; [exact C1|].
      unfold sanitize_style. rewrite (same_upper c' (lit "CUSTOM")) by (rewrite C3; exact E).
      change (str_eqb (upper (lit "CUSTOM")) (lit "CUSTOM")) with true. cbn match.
      rewrite (ColorProps.C35_accepts _ _ Hb), (ColorProps.C35_accepts _ _ Hf). reflexivity.
  Qed.
  (** Whatever the arguments are, the style is none or made from two colours. *)
  Lemma sanitize_inv st f b x : sanitize_style L style_of st f b = Ok x -> exists sc, x = option_map style_of sc.
  Proof.
    unfold sanitize_style. destruct st as [st|]; [|intros [= <-]; exists None; reflexivity].
    destruct (str_eqb _ _).
    - destruct f as [f|]; [|discriminate]. destruct b as [b|]; [|discriminate].
      destruct (from_hex b) as [cb|]; [|discriminate]. destruct (from_hex f) as [cf|]; [|discriminate].
      intros [= <-]. exists (Some (cf, cb)). reflexivity.
    - destruct (get_style _) as [c|]; [|discriminate]. intros [= <-]. exists (Some c). reflexivity.
  Qed.

  Lemma open_ok a fs t sc text : asks_type (a_type a) t -> t <> TNonPlated ->
    asks_style (a_foreground a) (a_background a) (a_style a) sc -> fs (a_source a) = Some text ->
    open_source L style_of a fs = Ok (option_map style_of sc, from_file L text (suffix (a_source a)) t).
  Proof.
    intros Ht N Hs Hf. unfold open_source, choose. destruct (type_ok _ _ Ht N) as (c & -> & E). cbn [bind].
    pose proof (style_ok _ _ _ _ Hs) as S. destruct (a_style a) as [v|].
    - destruct S as (c' & -> & S). cbn [bind]. rewrite Hf, S. cbn [bind]. rewrite E. reflexivity.
    - cbn [bind]. rewrite Hf, S. cbn [bind]. rewrite E. reflexivity.
  Qed.
  Lemma open_inv a fs x f : open_source L style_of a fs = Ok (x, f) ->
    exists text t sc, fs (a_source a) = Some text /\ x = option_map style_of sc /\ f = from_file L text (suffix (a_source a)) t.
  Proof.
    unfold open_source, choose. destruct (choice type_choices _) as [c|]; [|discriminate]. cbn [bind].
    assert (forall st, match fs (a_source a) with
      | None => Err (EUsage L (lit "source"))
      | Some text => let* style := sanitize_style L style_of st (a_foreground a) (a_background a) in
          Ok (style, from_file L text (suffix (a_source a)) (ftype_of (upper c)))
      end = Ok (x, f) -> exists text t sc, fs (a_source a) = Some text /\ x = option_map style_of sc /\ f = from_file L text (suffix (a_source a)) t) as G.
    { intros st H. destruct (fs (a_source a)) as [text|]; [|discriminate H].
      destruct (sanitize_style L style_of st _ _) as [y|] eqn:S; [|discriminate H]. cbn [bind] in H. injection H as <- <-.
      destruct (sanitize_inv _ _ _ _ S) as (sc & ->). exists text, (ftype_of (upper c)), sc. auto. }
    destruct (a_style a) as [v|].
    - destruct (choice style_choices v) as [d|]; [|discriminate]. cbn [bind]. apply G.
    - cbn [bind]. apply G.
  Qed.
End Commands.

Lemma saved_write fs p data : saved fs p data (write p data fs).
Proof.
  unfold saved, write. rewrite str_eqb_refl. split; [reflexivity|]. intros q N.
  destruct (str_eqb q p) eqn:E; [apply str_eqb_eq in E; congruence|reflexivity].
Qed.

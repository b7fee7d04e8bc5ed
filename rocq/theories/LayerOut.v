(** C11, C12, C22: from buffers to the submitted layers. *)
From Coq Require Import Permutation.
From Verif Require Import Base Num Dict CoordModel CoordSpec CoordProofs Ast StateModel StateSpec
  StateProofs GeomModel ExprModel CompilerModel LayerSpec LayerProofs LayerInv.

(** ** Every buffer records its pastes (no hypotheses on the file) *)
Section Sound.
  Context {K : Type} {NK : Num K} (md : bool) (clock : nat -> Z).
  Implicit Types (bs : dict (buffer K)) (x : cstate K).

  Definition sound bs : Prop := forall k b, d_get k bs = Some b -> bf_id b = k /\ deps_ok b.
  Lemma sound_set k b bs : sound bs -> bf_id b = k -> deps_ok b -> sound (d_set k b bs).
  Proof.
    intros Hs Hb Hd k' b'. rewrite d_get_set. destruct (str_eqb k' k) eqn:E; [|apply Hs].
    intros E'; injection E' as <-. apply str_eqb_eq in E. subst. auto.
  Qed.
  Lemma sound_append d x x' : sound (c_buffers x) -> append_current d x = Ok x' -> sound (c_buffers x').
  Proof.
    intros Hs E. apply append_current_inv in E as (id & st & b & _ & Eb & ->).
    destruct (Hs _ _ Eb) as [H1 H2]. cbn [set_buffers c_buffers]. apply sound_set; [exact Hs| |].
    - rewrite append_draw_id. exact H1.
    - apply deps_append; exact H2.
  Qed.
  Lemma sound_append_all ds : forall x x', sound (c_buffers x) -> append_all ds x = Ok x' -> sound (c_buffers x').
  Proof.
    induction ds as [|d r IH]; intros x x' Hk; cbn [append_all].
    - intros E; injection E as <-; exact Hk.
    - destruct (append_current d x) as [x1|] eqn:E; [|discriminate]. apply IH. eapply sound_append; eauto.
  Qed.
  Lemma sound_transformed (m : mat K) : forall f id bs b bs', sound bs -> transformed f m id bs = Ok (b, bs') -> sound bs'.
  Proof.
    induction f as [|f IH]; intros id bs b bs' HI; rewrite transformed_eq;
      (destruct (d_get (layer_key id m) bs) as [b0|]; [intros E; injection E as _ <-; exact HI|]); [discriminate|].
    destruct (get_buffer id bs) as [base|]; [|discriminate]. cbn [bind].
    assert (HL : forall cs acc deps bs r, sound bs -> deps_ok (MkBuf (layer_key id m) acc deps) ->
      copy_loop f m cs acc deps bs = Ok r ->
      sound (snd r) /\ deps_ok (MkBuf (layer_key id m) (fst (fst r)) (snd (fst r)))).
    { induction cs as [|[sh|p] cs IHc]; intros acc deps bs0 r H0 Hd; cbn [copy_loop].
      - intros E; injection E as <-; auto.
      - apply IHc; [exact H0|]. exact (deps_append (DShape (shape_transform m sh)) (MkBuf (layer_key id m) acc deps) Hd).
      - destruct (transformed f m (pa_src p) bs0) as [[b1 bs1]|] eqn:Et; [|discriminate]. cbn [bind].
        apply IHc; [eapply IH; eauto|].
        exact (deps_append (DPaste (MkPaste (bf_id b1) (v_transform m (pa_center p)) (pa_neg p) (pa_meta p)))
                 (MkBuf (layer_key id m) acc deps) Hd). }
    destruct (copy_loop f m (bf_cmds base) [] [] bs) as [[[cmds deps] bs1]|] eqn:El; [|discriminate].
    cbn [bind]. intros E; injection E as _ <-.
    destruct (HL _ _ _ _ _ HI (deps_empty _) El) as [H1 H2]. apply sound_set; auto.
  Qed.

  Lemma sound_file ips ns v v' : sound (c_buffers (v_ext v)) ->
    on_file (compiler_hooks md clock) ips ns v = Ok v' -> sound (c_buffers (v_ext v')).
  Proof.
    intros Hv E.
    refine (proj1 (walk_file md clock (fun x => sound (c_buffers x)) (fun _ => True) (fun _ => True) (fun _ => True)
              _ _ _ _ _ _ _ _ _ _ _ ips ns _ v v' (conj Hv I) E)); auto.
    - intros sh x x'. apply sound_append.
    - intros h a s x x' _ _ Hx Ef. apply on_flash_cases in Ef as [(ad & -> & Ef)|(id & -> & Ef)].
      + apply flash_aperture_inv in Ef as (b & x1 & Ea & Ef). eapply sound_append; [|exact Ef].
        apply aperture_buffer_inv in Ea as (bs' & Et & ->). eapply sound_transformed; eauto.
      + apply flash_block_inv in Ef as (b & x1 & Ea & Ef). eapply sound_append_all; [|exact Ef].
        apply aperture_buffer_inv in Ea as (bs' & Et & ->). eapply sound_transformed; eauto.
    - intros a s x x' _ Hx Ea. apply on_aperture_inv in Ea as [(ds & -> & _)|(sc & m & Hm & ->)].
      + cbn [set_buffer c_buffers]. apply sound_set; [exact Hx|reflexivity|]. apply deps_append_all, deps_empty.
      + cbn [set_buffer c_buffers].
        remember (MkM sc (empty_buffer (ad_id a)) (set_buffer (empty_buffer (ad_id a)) x)) as m0 eqn:E0.
        assert (HM : sound (c_buffers (ms_c m)) /\ deps_ok (ms_buf m)).
        { induction Hm as [|m1 m2 _ IH [ds E1 E2 _|uid ds c E1 E2 _]].
          - subst m0. split; [|apply deps_empty]. cbn. apply sound_set; [exact Hx|reflexivity|apply deps_empty].
          - rewrite E1, E2. destruct IH. split; [assumption|]. apply deps_append_all. assumption.
          - rewrite E1, E2. destruct IH. split; [|apply deps_append; assumption].
            unfold with_thermal, set_buffer. cbn [c_buffers]. apply sound_set; [assumption|reflexivity|].
            apply deps_append_all, deps_empty. }
        destruct HM. apply sound_set; auto.
    - intros id body s x _ Hx. cbn. apply sound_set; [exact Hx|reflexivity|apply deps_empty].
    - intros uid s x Hx. split; [|exact I]. cbn. apply sound_set; [exact Hx|reflexivity|apply deps_empty].
    - intros tmp h s x x' _ Hx Es. apply sr_close_inv in Es as (b & nx & ny & dx & dy & x1 & _ & _ & _ & _ & _ & Ea & ->).
      apply (sound_append_all _ _ _ (Hx : sound (c_buffers (pop x)))) in Ea. cbn [set_buffers c_buffers].
      intros k b'. rewrite d_get_del. destruct (str_eqb k tmp); [discriminate|apply Ea].
  Qed.
  Lemma sound_init : sound (c_buffers (compiler_init (K := K))).
  Proof.
    intros k b. cbn [compiler_init c_buffers d_get]. destruct (str_eqb k main_id) eqn:E; [|discriminate].
    apply str_eqb_eq in E. intros E'; injection E' as <-. subst; split; [reflexivity|apply deps_empty].
  Qed.
  Lemma sound_keyed bs : sound bs -> keyed bs.
  Proof. intros H k b Hb. apply (H k b Hb). Qed.
End Sound.

Lemma NoDup_app_intro {A} (l l' : list A) : NoDup l -> NoDup l' -> (forall a, In a l -> ~ In a l') -> NoDup (l ++ l').
Proof.
  induction 1 as [|a l Ha Hl IH]; intros H' Hd; cbn [app]; [exact H'|]. constructor.
  - rewrite in_app_iff. intros [H|H]; [auto|]. eapply Hd; [left; reflexivity|exact H].
  - apply IH; [exact H'|]. intros b Hb. apply Hd. right; exact Hb.
Qed.
Lemma NoDup_app_inv {A} (l l' : list A) : NoDup (l ++ l') -> NoDup l /\ NoDup l' /\ forall a, In a l -> ~ In a l'.
Proof.
  induction l as [|a l IH]; cbn [app]; intros H.
  - split; [constructor|]. split; [exact H|intros a []].
  - inversion H as [|? ? H1 H2]; subst. rewrite in_app_iff in H1. destruct (IH H2) as (A1 & A2 & A3).
    split; [constructor; tauto|]. split; [exact A2|]. intros b [<-|Hb]; [tauto|auto].
Qed.

(** ** The program of a buffer table *)
Section Program.
  Context {K : Type} {NK : Num K} (iter : str -> list str -> list str).
  Implicit Types (bs : dict (buffer K)).
  Hypothesis iter_perm : forall id l, Permutation (iter id l) l.

  Definition layer_of (b : buffer K) : str * list (draw K) := (bf_id b, bf_cmds b).

  Lemma convert_inv bs cmds : keyed bs -> convert iter bs = Ok cmds ->
    exists main ids l, d_get main_id bs = Some main /\ resolve iter (S (length bs)) bs main [] = Ok ids /\
      Forall2 (fun i b => d_get i bs = Some b) ids l /\ map bf_id l = ids /\
      layers cmds = Some (map layer_of l).
  Proof.
    intros Hk. unfold convert, submit_order. destruct (get_buffer main_id bs) as [main|] eqn:Em; [|discriminate].
    apply get_buffer_ok in Em. cbn [bind]. destruct (resolve iter _ bs main []) as [ids|] eqn:Er; [|discriminate].
    cbn [bind]. destruct (get_buffers bs ids) as [l|] eqn:El; [|discriminate]. cbn [bind].
    intros E; injection E as <-. exists main, ids, l.
    split; [exact Em|]. split; [exact Er|]. split; [apply get_buffers_spec; exact El|].
    split; [eapply get_buffers_ids; eauto|]. apply layers_convert.
  Qed.

  Lemma forall2_split {A B} (R : A -> B -> Prop) l l' : Forall2 R l l' -> forall pre b post, l' = pre ++ b :: post ->
    exists pre0 a post0, l = pre0 ++ a :: post0 /\ R a b /\ Forall2 R pre0 pre.
  Proof.
    induction 1 as [|a b l l' Hab H IH]; intros pre b0 post E; [destruct pre; discriminate|].
    destruct pre as [|p pre]; cbn [app] in E; injection E as -> ->.
    - exists [], a, l. auto.
    - destruct (IH pre b0 post eq_refl) as (pre0 & a0 & post0 & -> & H1 & H2).
      exists (a :: pre0), a0, post0. cbn [app]. auto.
  Qed.

  Lemma map_split {A B} (f : A -> B) l : forall pre b post, map f l = pre ++ b :: post ->
    exists pre0 a post0, l = pre0 ++ a :: post0 /\ f a = b /\ map f pre0 = pre /\ map f post0 = post.
  Proof.
    induction l as [|a l IH]; intros pre b post E; [destruct pre; discriminate|].
    destruct pre as [|p pre]; cbn [app map] in E; injection E as E1 E2.
    - exists [], a, l. auto.
    - destruct (IH pre b post E2) as (pre0 & a0 & post0 & -> & H1 & H2 & H3).
      exists (a :: pre0), a0, post0. cbn [app map]. rewrite H2, E1. auto.
  Qed.

  (** Whatever the graph, what is submitted is ordered. *)
  Lemma convert_ordered bs cmds : sound bs -> convert iter bs = Ok cmds ->
    exists ls, layers cmds = Some ls /\ defined_before_use ls /\ exists pre ds, ls = pre ++ [(main_id, ds)].
  Proof.
    intros Hs E. pose proof (sound_keyed bs Hs) as Hk.
    destruct (convert_inv bs cmds Hk E) as (main & ids & l & Em & Er & Hl & Hids & Hlay).
    exists (map layer_of l). split; [exact Hlay|].
    assert (Hmid : bf_id main = main_id) by (apply Hk; exact Em).
    destruct (resolve_closed iter iter_perm bs Hk (S (length bs)) main [] ids) as (Hc & _ & out & Ho); [rewrite Hmid; exact Em| |exact Er|].
    { intros pre id post b E'. destruct pre; discriminate. }
    split.
    - intros pre id ds post src El Hp. apply map_split in El as (pre0 & b & post0 & -> & Eb & <- & _).
      injection Eb as Eid Ecmds. rewrite map_map. cbn [layer_of fst].
      rewrite map_app in Hids. cbn [map] in Hids.
      assert (Hg : d_get (bf_id b) bs = Some b).
      { destruct (forall2_split _ _ _ Hl pre0 b post0 eq_refl) as (? & i & ? & _ & Hi & _).
        rewrite (Hk _ _ Hi). exact Hi. }
      change (In src (map bf_id pre0)). eapply (Hc (map bf_id pre0) (bf_id b) (map bf_id post0) b); [auto|exact Hg|].
      apply (Hs _ _ Hg). rewrite Ecmds. exact Hp.
    - destruct (exists_last (l := l)) as (l0 & b & ->).
      { intros ->. rewrite Ho in Hids. destruct out; discriminate. }
      assert (Hbid : bf_id b = main_id).
      { rewrite map_app in Hids. cbn [map] in Hids. rewrite Ho in Hids. apply snoc_inj in Hids as [_ ->]. exact Hmid. }
      exists (map layer_of l0), (bf_cmds b). rewrite map_app. cbn [map]. unfold layer_of at 2. rewrite Hbid. reflexivity.
  Qed.

  (** *** Two-level graphs: the shape reached by compiling *)
  Lemma nodup_flat_map {A B} (g : A -> list B) l : NoDup l -> (forall a, In a l -> NoDup (g a)) ->
    (forall a a' b, In a l -> In a' l -> In b (g a) -> In b (g a') -> a = a') -> NoDup (flat_map g l).
  Proof.
    induction 1 as [|a l Ha Hl IH]; intros Hg Hd; cbn [flat_map]; [constructor|].
    apply NoDup_app_intro.
    - apply Hg. left; reflexivity.
    - apply IH; [intros a' Ha'; apply Hg; right; exact Ha'|].
      intros a1 a2 b H1 H2. apply Hd; right; assumption.
    - intros b H1 H2. apply in_flat_map in H2 as (a' & Ha' & Hb).
      assert (a = a') by (eapply Hd; eauto; [left; reflexivity|right; exact Ha']). subst. contradiction.
  Qed.

  Definition iter_nil id : iter id [] = [].
  Proof. apply Permutation_nil. apply Permutation_sym, iter_perm. Qed.

  Lemma resolve_leaf f bs b out : bf_deps b = [] -> resolve iter (S f) bs b out = Ok (out ++ [bf_id b]).
  Proof. intros H. rewrite resolve_eq, H, iter_nil. reflexivity. Qed.

  Lemma not_existsb id l : ~ In id l -> existsb (str_eqb id) l = false.
  Proof.
    intros H. apply not_true_iff_false. intros E. apply existsb_exists in E as (y & Hy & Ey).
    apply str_eqb_eq in Ey. subst y. contradiction.
  Qed.
  Lemma deps_loop_total f bs self g deps : (forall d, In d deps -> In d (g d)) ->
    (forall d, In d deps -> exists db, d_get d bs = Some db /\
       forall out, ~ In d out -> resolve iter f bs db out = Ok (out ++ g d)) ->
    forall out, NoDup (out ++ flat_map g deps) -> ~ In self (out ++ flat_map g deps) ->
    deps_loop iter f bs self deps out = Ok (out ++ flat_map g deps).
  Proof.
    induction deps as [|d r IH]; intros Hself Hd out Hnd Hs; cbn [deps_loop flat_map].
    - rewrite app_nil_r. reflexivity.
    - destruct (Hd d (or_introl eq_refl)) as (db & Eg & Er). apply get_buffer_ok in Eg. rewrite Eg. cbn [bind].
      cbn [flat_map] in Hnd, Hs. rewrite app_assoc in Hnd, Hs.
      rewrite Er.
      2:{ intros Hin. pose proof Hnd as H'. rewrite <- app_assoc in H'.
          apply NoDup_app_inv in H' as (_ & _ & H'). apply (H' d Hin). apply in_or_app. left.
          apply Hself. left; reflexivity. }
      cbn [bind]. rewrite not_existsb by (intros H'; apply Hs; apply in_or_app; auto).
      rewrite app_assoc. apply IH; auto.
      + intros d' Hd'. apply Hself. right; exact Hd'.
      + intros d' Hd'. apply Hd. right; exact Hd'.
  Qed.

  Lemma deps_loop_leaf f bs self deps : (forall d, In d deps -> d <> self /\ exists db, d_get d bs = Some db /\
       bf_id db = d /\ bf_deps db = []) ->
    forall out, ~ In self out -> deps_loop iter (S f) bs self deps out = Ok (out ++ deps).
  Proof.
    induction deps as [|d r IH]; intros Hd out Hs; cbn [deps_loop].
    - rewrite app_nil_r. reflexivity.
    - destruct (Hd d (or_introl eq_refl)) as (Hne & db & Eg & Hid & Hdep). apply get_buffer_ok in Eg. rewrite Eg. cbn [bind].
      rewrite (resolve_leaf f bs db out Hdep). cbn [bind]. rewrite Hid.
      assert (Hs' : ~ In self (out ++ [d])).
      { rewrite in_app_iff. cbn [In]. intros [H|[H|[]]]; [auto|congruence]. }
      rewrite not_existsb by exact Hs'. rewrite IH; [rewrite <- app_assoc; reflexivity| |exact Hs'].
      intros d' Hd'. apply Hd. right; exact Hd'.
  Qed.

  (** A needed layer is needed later. *)
  Lemma all_needed_intro (ls : list (str * list (draw K))) :
    NoDup (map fst ls) -> defined_before_use ls ->
    (forall pre id ds l post, ls = pre ++ (id, ds) :: l :: post -> exists id' ds', In (id', ds') ls /\ pastes ds' id) ->
    all_needed ls.
  Proof.
    intros Hnd Hdb Hn pre id ds l post E. destruct (Hn pre id ds l post E) as (id' & ds' & Hin & Hp).
    exists id', ds'. split; [|exact Hp].
    destruct (in_split _ _ Hin) as (p1 & p2 & E2).
    pose proof (Hdb p1 id' ds' p2 id E2 Hp) as Hbefore.
    rewrite E in Hin. apply in_app_or in Hin as [Hin|[Hin|Hin]]; [exfalso|exfalso|exact Hin].
    - apply in_split in Hin as (q1 & q2 & ->). rewrite <- app_assoc in E. cbn [app] in E.
      rewrite E in Hnd.
      assert (p1 = q1).
      { rewrite E in E2. clear -E2 Hnd. revert p1 E2. rewrite map_app in Hnd. cbn [map fst] in Hnd.
        induction q1 as [|[i d] q1 IH]; intros [|[i' d'] p1] E2; cbn [app] in E2.
        - reflexivity.
        - injection E2 as <- <- E2. cbn [map app] in Hnd. inversion Hnd as [|? ? H1 H2]; subst. exfalso. apply H1.
          rewrite E2, map_app. apply in_or_app. right. left. reflexivity.
        - injection E2 as -> -> E2. cbn [map app fst] in Hnd. inversion Hnd as [|? ? H1 H2]; subst. exfalso. apply H1.
          apply in_or_app. right. left. reflexivity.
        - injection E2 as -> -> E2. f_equal. apply IH; [|exact E2]. cbn [map app] in Hnd. inversion Hnd; assumption. }
      subst q1. rewrite map_app in Hnd. cbn [map fst] in Hnd. apply NoDup_app_inv in Hnd as (_ & _ & Hnd).
      apply (Hnd id Hbefore). right. rewrite map_app. cbn [map fst]. apply in_or_app. right. left. reflexivity.
    - injection Hin as <- <-.
      assert (p1 = pre).
      { rewrite E in E2. rewrite E in Hnd. clear -E2 Hnd. revert p1 E2. rewrite map_app in Hnd. cbn [map fst] in Hnd.
        induction pre as [|[i d] q1 IH]; intros [|[i' d'] p1] E2; cbn [app] in E2.
        - reflexivity.
        - injection E2 as <- <- E2. cbn [map app] in Hnd. inversion Hnd as [|? ? H1 H2]; subst. exfalso. apply H1.
          change (fst l :: map fst post) with (map fst (l :: post)).
          rewrite E2, map_app. apply in_or_app. right. left. reflexivity.
        - injection E2 as -> -> E2. cbn [map app fst] in Hnd. inversion Hnd as [|? ? H1 H2]; subst. exfalso. apply H1.
          apply in_or_app. right. left. reflexivity.
        - injection E2 as -> -> E2. f_equal. apply IH; [|exact E2]. cbn [map app] in Hnd. inversion Hnd; assumption. }
      subst p1. rewrite E, map_app in Hnd. cbn [map fst] in Hnd. apply NoDup_app_inv in Hnd as (_ & _ & Hnd).
      apply (Hnd id Hbefore). left; reflexivity.
  Qed.
End Program.

(** ** Reachable tables *)
Section Reach.
  Context {K : Type} {NK : Num K} (iter : str -> list str -> list str).
  Hypothesis iter_perm : forall id l, Permutation (iter id l) l.
  Hypothesis repr_no_pct : forall k : K, no_pct (n_repr k).
  Context (ADs ABs : str -> Prop).
  Hypothesis AD_code : forall id, ADs id -> exists n, dcode id n.
  Hypothesis AB_code : forall id, ABs id -> exists n, dcode id n.
  Hypothesis AD_AB : forall id, ADs id -> ABs id -> False.
  Context (bs : dict (buffer K)) (used : list str) (own : str -> str).
  Hypothesis HI : Inv ADs ABs bs used own.
  Hypothesis Hmain : mem main_id bs.
  Notation tags := (tags (K := K)).

  Let Hk : keyed bs := proj1 HI.
  Lemma HI_sound : sound bs.
  Proof. intros k b Hb. split; [apply Hk; exact Hb|]. apply (proj2 HI k b Hb). Qed.
  Hint Resolve plain_ad plain_blocky plain_thermal : core.

  Lemma blocky_main : blocky ABs main_id. Proof. left; reflexivity. Qed.
  Hint Resolve blocky_main : core.
  Lemma main_deps b d : d_get main_id bs = Some b -> In d (bf_deps b) ->
    exists a us db, ADs a /\ tags us /\ d = ext a us /\ d_get d bs = Some db.
  Proof.
    intros Hb Hd. apply (HI_sound _ _ Hb) in Hd.
    destruct (kind_blocky repr_no_pct ADs ABs AD_code AB_code AD_AB _ _ _ _ _ main_id [] HI Hb blocky_main (Forall_nil _) eq_refl d Hd)
      as (a & us & H1 & H2 & H3 & db & H4). eauto 8.
  Qed.
  Lemma ad_deps a us db d : ADs a -> tags us -> d_get (ext a us) bs = Some db -> In d (bf_deps db) ->
    exists c tb, thermal c /\ own c = a /\ d = ext c us /\ d_get d bs = Some tb /\ bf_id tb = d /\ bf_deps tb = [].
  Proof.
    intros Ha Hus Hb Hd. apply (HI_sound _ _ Hb) in Hd.
    destruct (kind_ad repr_no_pct ADs ABs AD_code AB_code AD_AB _ _ _ _ _ a us HI Hb Ha Hus eq_refl d Hd)
      as (c & H1 & H2 & H3 & H4 & tb & H5). exists c, tb. repeat (split; [assumption|]).
    split; [apply Hk; exact H5|]. destruct (bf_deps tb) as [|e l] eqn:E; [reflexivity|]. exfalso.
    eapply (kind_thermal repr_no_pct ADs ABs AD_code AB_code _ _ _ _ _ c us HI H5 H1 Hus H4 e).
    apply (HI_sound _ _ H5). rewrite E. left; reflexivity.
  Qed.

  Definition group (d : str) : list str :=
    match d_get d bs with Some b => iter d (bf_deps b) ++ [d] | None => [] end.
  Lemma in_iter id l x : In x (iter id l) <-> In x l.
  Proof. split; apply Permutation_in; [apply iter_perm|apply Permutation_sym, iter_perm]. Qed.

  Lemma ext_ne_main a us : (ADs a \/ thermal a) -> tags us -> ext a us <> main_id.
  Proof.
    intros Ha Hus E. change main_id with (ext main_id []) in E.
    assert (Hp : plain (K := K) a) by (destruct Ha as [Ha|Ha]; [exact (plain_ad ADs AD_code a Ha)|exact (plain_thermal a Ha)]).
    assert (Hpm : plain (K := K) main_id) by (exact (plain_blocky ABs AB_code main_id blocky_main)).
    destruct (ext_inj repr_no_pct a main_id Hp Hpm us [] Hus (Forall_nil _) E) as [-> _].
    destruct Ha as [Ha|Ha]; [exact (ad_not_blocky ADs ABs AD_code AD_AB _ Ha blocky_main)|exact (thermal_not_blocky ABs AB_code _ Ha blocky_main)].
  Qed.

  Lemma ad_th_ne a us c us' : ADs a -> thermal c -> tags us -> tags us' -> ext a us <> ext c us'.
  Proof.
    intros Ha Hc Hu Hu' E.
    destruct (ext_inj repr_no_pct a c (plain_ad ADs AD_code a Ha) (plain_thermal c Hc) us us' Hu Hu' E) as [-> _].
    exact (ad_not_thermal ADs AD_code c Ha Hc).
  Qed.

  Lemma group_elem b d i : d_get main_id bs = Some b -> In d (bf_deps b) -> In i (group d) ->
    exists a us, ADs a /\ tags us /\ d = ext a us /\
      (i = d \/ exists c, thermal c /\ own c = a /\ i = ext c us).
  Proof.
    intros Hb Hd Hi. destruct (main_deps b d Hb Hd) as (a & us & db & H1 & H2 & H3 & H4).
    exists a, us. repeat (split; [assumption|]). unfold group in Hi. rewrite H4 in Hi.
    apply in_app_or in Hi as [Hi|[<-|[]]]; [|auto]. apply in_iter in Hi. right.
    rewrite H3 in H4. destruct (ad_deps a us db i H1 H2 H4 Hi) as (c & tb & G1 & G2 & G3 & _). eauto.
  Qed.

  Lemma length_two a b : a <> b -> mem a bs -> mem b bs -> exists n, length bs = S (S n).
  Proof.
    intros Hne [x Ha] [y Hb]. apply d_get_in in Ha, Hb. destruct bs as [|p [|q r]]; cbn [In] in *.
    - contradiction.
    - destruct Ha as [->|[]], Hb as [E|[]]. injection E as <- _. contradiction.
    - exists (length r). reflexivity.
  Qed.

  Lemma reach_resolve b : d_get main_id bs = Some b ->
    let ids := flat_map group (iter main_id (bf_deps b)) ++ [main_id] in
    resolve iter (S (length bs)) bs b [] = Ok ids /\ NoDup ids /\
    (forall i, In i ids -> mem i bs) /\
    (forall i, In i ids -> i <> main_id -> exists j jb, In j ids /\ d_get j bs = Some jb /\ In i (bf_deps jb)).
  Proof.
    intros Hb ids. subst ids. set (A := iter main_id (bf_deps b)).
    assert (HA : forall d, In d A <-> In d (bf_deps b)) by (intros d; apply in_iter).
    assert (Hg : forall d, In d A -> In d (group d)).
    { intros d Hd. apply HA in Hd. destruct (main_deps b d Hb Hd) as (a & us & db & H1 & H2 & H3 & H4).
      unfold group. rewrite H4. apply in_or_app. right. left. reflexivity. }
    assert (Hnm : ~ In main_id (flat_map group A)).
    { intros H. apply in_flat_map in H as (d & Hd & Hi). apply HA in Hd.
      destruct (group_elem b d main_id Hb Hd Hi) as (a & us & H1 & H2 & H3 & [H4|(c & H4 & H5 & H6)]).
      - eapply (ext_ne_main a us); eauto. congruence.
      - eapply (ext_ne_main c us); eauto. }
    assert (Hnd : NoDup (flat_map group A)).
    { apply nodup_flat_map.
      - eapply Permutation_NoDup; [apply Permutation_sym, iter_perm|]. apply (HI_sound _ _ Hb).
      - intros d Hd. apply HA in Hd. destruct (main_deps b d Hb Hd) as (a & us & db & H1 & H2 & H3 & H4).
        unfold group. rewrite H4. apply NoDup_app_intro.
        + eapply Permutation_NoDup; [apply Permutation_sym, iter_perm|]. apply (HI_sound _ _ H4).
        + constructor; [intros []|constructor].
        + intros i Hi [<-|[]]. apply in_iter in Hi. rewrite H3 in H4.
          destruct (ad_deps a us db d H1 H2 H4 Hi) as (c & tb & G1 & G2 & G3 & _).
          rewrite H3 in G3. exact (ad_th_ne a us c us H1 G1 H2 H2 G3).
      - intros d d' i Hd Hd' Hi Hi'. apply HA in Hd, Hd'.
        destruct (group_elem b d i Hb Hd Hi) as (a & us & H1 & H2 & H3 & H4).
        destruct (group_elem b d' i Hb Hd' Hi') as (a' & us' & H1' & H2' & H3' & H4').
        destruct H4 as [->|(c & C1 & C2 & C3)], H4' as [E|(c' & C1' & C2' & C3')].
        + exact E.
        + exfalso. rewrite H3 in C3'. exact (ad_th_ne a us c' us' H1 C1' H2 H2' C3').
        + exfalso. rewrite E, H3' in C3. exact (ad_th_ne a' us' c us H1' C1 H2' H2 C3).
        + rewrite C3 in C3'.
          destruct (ext_inj repr_no_pct c c' (plain_thermal c C1) (plain_thermal c' C1') us us' H2 H2' C3') as [-> ->]. congruence. }
    split; [|split; [|split]].
    - rewrite resolve_eq. rewrite (Hk _ _ Hb). fold A.
      rewrite (deps_loop_total iter (length bs) bs main_id group A Hg); [reflexivity| |exact Hnd|exact Hnm].
      intros d Hd. apply HA in Hd. destruct (main_deps b d Hb Hd) as (a & us & db & H1 & H2 & H3 & H4).
      exists db. split; [exact H4|]. intros out Hout.
      destruct (length_two main_id d) as [n ->]; [|exact Hmain|exists db; exact H4|].
      { intros E. symmetry in E. rewrite H3 in E. eapply (ext_ne_main a us); eauto. }
      rewrite resolve_eq, (Hk _ _ H4). rewrite (deps_loop_leaf iter iter_perm); [| |exact Hout].
      + cbn [bind]. unfold group. rewrite H4, app_assoc. reflexivity.
      + intros t Ht. apply in_iter in Ht. pose proof H4 as H4'. rewrite H3 in H4'.
        destruct (ad_deps a us db t H1 H2 H4' Ht) as (c & tb & G1 & G2 & G3 & G4 & G5 & G6).
        split; [|eauto]. rewrite G3, H3. intros E. symmetry in E. exact (ad_th_ne a us c us H1 G1 H2 H2 E).
    - apply NoDup_app_intro; [exact Hnd|constructor; [intros []|constructor]|].
      intros i Hi [<-|[]]. contradiction.
    - intros i Hi. apply in_app_or in Hi as [Hi|[<-|[]]]; [|exact Hmain].
      apply in_flat_map in Hi as (d & Hd & Hi). apply HA in Hd.
      destruct (main_deps b d Hb Hd) as (a & us & db & H1 & H2 & H3 & H4).
      unfold group in Hi. rewrite H4 in Hi. apply in_app_or in Hi as [Hi|[<-|[]]]; [|exists db; exact H4].
      apply in_iter in Hi. rewrite H3 in H4.
      destruct (ad_deps a us db i H1 H2 H4 Hi) as (c & tb & _ & _ & _ & G4 & _). exists tb. exact G4.
    - intros i Hi Hne. apply in_app_or in Hi as [Hi|[Hi|[]]]; [|congruence].
      apply in_flat_map in Hi as (d & Hd & Hi). pose proof Hd as Hd'. apply HA in Hd.
      destruct (main_deps b d Hb Hd) as (a & us & db & H1 & H2 & H3 & H4).
      pose proof Hi as Hi'. unfold group in Hi. rewrite H4 in Hi. apply in_app_or in Hi as [Hi|[<-|[]]].
      + exists d, db. split; [|split; [exact H4|apply in_iter in Hi; exact Hi]].
        apply in_or_app. left. apply in_flat_map. exists d. auto.
      + exists main_id, b. split; [apply in_or_app; right; left; reflexivity|]. auto.
  Qed.

  Lemma reach_program : exists cmds ls, convert iter bs = Ok cmds /\ layers cmds = Some ls /\
    defined_before_use ls /\ defined_once ls /\ all_needed ls /\ exists pre ds, ls = pre ++ [(main_id, ds)].
  Proof.
    destruct Hmain as [b Hb]. destruct (reach_resolve b Hb) as (Hr & Hnd & Hmem & Hneed).
    set (ids := flat_map group (iter main_id (bf_deps b)) ++ [main_id]) in *.
    destruct (get_buffers_total bs ids Hmem) as [l Hl].
    assert (Hids : map bf_id l = ids) by (eapply get_buffers_ids; eauto).
    assert (Hc : convert iter bs = Ok (flat_map block_of l)).
    { unfold convert, submit_order. pose proof Hb as Hb'. apply get_buffer_ok in Hb'. rewrite Hb'. cbn [bind].
      rewrite Hr. cbn [bind]. rewrite Hl. reflexivity. }
    destruct (convert_ordered iter iter_perm bs _ HI_sound Hc) as (ls & H1 & H2 & pre & ds & H3).
    exists (flat_map block_of l), ls. split; [exact Hc|]. split; [exact H1|]. split; [exact H2|].
    rewrite layers_convert in H1. injection H1 as H1.
    assert (Hfst : map fst ls = ids) by (rewrite <- H1, map_map; cbn [fst]; exact Hids).
    assert (Honce : defined_once ls) by (unfold defined_once; rewrite Hfst; exact Hnd).
    split; [exact Honce|]. split; [|eauto].
    apply all_needed_intro; [exact Honce|exact H2|].
    intros p id d0 x post E.
    assert (Hin : In id ids).
    { rewrite <- Hfst, E, map_app. apply in_or_app. right. left. reflexivity. }
    assert (Hne : id <> main_id).
    { intros ->. unfold defined_once in Honce. rewrite E in Honce. rewrite E in H3.
      destruct (exists_last (l := x :: post)) as (q & y & Eq); [discriminate|]. rewrite Eq in Honce, H3.
      rewrite app_comm_cons, app_assoc in H3. apply snoc_inj in H3 as [_ ->].
      rewrite map_app in Honce. cbn [map fst] in Honce. apply NoDup_app_inv in Honce as (_ & Honce & _).
      inversion Honce as [|? ? Hx _]; subst. apply Hx. rewrite map_app. apply in_or_app. right. left. reflexivity. }
    destruct (Hneed id Hin Hne) as (j & jb & J1 & J2 & J3).
    exists j, (bf_cmds jb). split; [|apply (HI_sound _ _ J2); exact J3].
    rewrite <- H1. apply get_buffers_spec in Hl. clear -Hl J1 J2 Hk.
    revert l Hl. induction ids as [|i ids IH]; intros l Hl; [contradiction|].
    inversion Hl as [|? b' ? l' G1 G2]; subst. destruct J1 as [->|J1].
    - left. rewrite J2 in G1. injection G1 as <-. rewrite (Hk _ _ J2). reflexivity.
    - right. apply IH; auto.
  Qed.
End Reach.

(** ** Distinct stamps *)
Section Stamps.
  Context {K : Type} {NK : Num K} (md : bool) (clock : nat -> Z).

  Lemma z_repr_no_pct z : no_pct (z_repr z).
  Proof.
    intros Hin. assert (Hd : forall n, In pct (int_digits n) -> False).
    { intros n Hn. assert (HA : all_digits (int_digits n)) by apply int_digits_all. apply HA in Hn. discriminate Hn. }
    unfold z_repr in Hin. destruct (z <? 0)%Z; [destruct Hin as [Hin|Hin]; [discriminate|]|]; eauto.
  Qed.

  Lemma z_repr_inj a b : z_repr a = z_repr b -> a = b.
  Proof.
    assert (Hm : forall n r, int_digits n <> ch_minus :: r).
    { intros n r E. pose proof (int_digits_all n) as HA. rewrite E in HA.
      specialize (HA ch_minus (or_introl eq_refl)). discriminate HA. }
    assert (Hi : forall x y, (0 <= x)%Z -> (0 <= y)%Z -> int_digits x = int_digits y -> x = y).
    { intros x y Hx Hy E. destruct (int_digits_spec x Hx) as [<- _]. destruct (int_digits_spec y Hy) as [<- _]. congruence. }
    unfold z_repr. destruct (Z.ltb_spec a 0), (Z.ltb_spec b 0); intros E.
    - injection E as E. apply Hi in E; lia.
    - symmetry in E. apply Hm in E. contradiction.
    - apply Hm in E. contradiction.
    - apply Hi; assumption.
  Qed.

  (** Each stamp ends in its clock reading. *)
  Definition stamped (l : list str) : Prop :=
    forall n, (n < length l)%nat -> exists p, nth_error (rev l) n = Some (p ++ pct :: z_repr (clock n)).

  Lemma stamped_cons l p : stamped l -> stamped ((p ++ pct :: z_repr (clock (length l))) :: l).
  Proof.
    intros H n Hn. cbn [length rev] in *. destruct (Nat.eq_dec n (length l)) as [->|Hne].
    - exists p. rewrite nth_error_app2 by (rewrite rev_length; auto with arith).
      rewrite rev_length, Nat.sub_diag. reflexivity.
    - destruct (H n) as [q Hq]; [lia|]. exists q. rewrite nth_error_app1 by (rewrite rev_length; lia). exact Hq.
  Qed.
  Lemma stamped_nodup l : (forall i j, clock i = clock j -> i = j) -> stamped l -> NoDup l.
  Proof.
    intros Hinj H. rewrite <- (rev_involutive l). apply NoDup_rev. apply NoDup_nth_error. intros i j Hi E.
    rewrite rev_length in Hi. destruct (H i Hi) as [p Hp]. rewrite Hp in E.
    assert (Hj : (j < length l)%nat) by (rewrite <- rev_length; apply nth_error_Some; congruence).
    destruct (H j Hj) as [q Hq]. rewrite Hq in E. injection E as E.
    apply last_pct_inj in E as [_ E]; try apply z_repr_no_pct. apply Hinj, z_repr_inj. exact E.
  Qed.

  Lemma append_all_stamps ds : forall x x' : cstate K, append_all ds x = Ok x' -> c_stamps x' = c_stamps x.
  Proof.
    induction ds as [|d r IH]; intros x x'; cbn [append_all].
    - intros E; injection E as <-. reflexivity.
    - destruct (append_current d x) as [x1|] eqn:E1; [|discriminate]. cbn [bind]. intros E.
      rewrite (IH _ _ E). apply append_current_inv in E1 as (? & ? & ? & _ & _ & ->). reflexivity.
  Qed.
  Lemma stamped_file ips ns v v' : stamped (c_stamps (v_ext v)) ->
    on_file (compiler_hooks md clock) ips ns v = Ok v' -> stamped (c_stamps (v_ext v')).
  Proof.
    intros Hv E.
    refine (proj1 (walk_file md clock (fun x => stamped (c_stamps x)) (fun _ => True) (fun _ => True) (fun _ => True)
              _ _ _ _ _ _ _ _ _ _ _ ips ns _ v v' (conj Hv I) E)); auto.
    - intros sh x x' Hx E1. apply append_current_inv in E1 as (? & ? & ? & _ & _ & ->). exact Hx.
    - intros h a s x x' _ _ Hx Ef. apply on_flash_cases in Ef as [(ad & -> & Ef)|(id & -> & Ef)].
      + apply flash_aperture_inv in Ef as (b & x1 & Ea & Ef). apply append_current_inv in Ef as (? & ? & ? & _ & _ & ->).
        apply aperture_buffer_inv in Ea as (bs' & Et & ->). exact Hx.
      + apply flash_block_inv in Ef as (b & x1 & Ea & Ef). rewrite (append_all_stamps _ _ _ Ef).
        apply aperture_buffer_inv in Ea as (bs' & Et & ->). exact Hx.
    - intros a s x x' _ Hx Ea. apply on_aperture_inv in Ea as [(ds & -> & _)|(sc & m & Hm & ->)]; [exact Hx|].
      cbn [set_buffer c_stamps].
      remember (MkM sc (empty_buffer (ad_id a)) (set_buffer (empty_buffer (ad_id a)) x)) as m0 eqn:E0.
      induction Hm as [|m1 m2 _ IH [ds E1 _ _|uid ds c E1 _ _]]; [subst m0; exact Hx|rewrite E1; exact IH|].
      rewrite E1. cbn [with_thermal set_buffer c_stamps]. unfold thermal_id, stamp.
      rewrite !app_assoc. change (lit "%") with [pct].
      rewrite <- (app_assoc _ [pct]). apply stamped_cons. exact IH.
    - intros uid s x Hx. split; [|exact I]. cbn [sr_open snd c_stamps]. unfold stamp.
      rewrite !app_assoc. change (lit "%") with [pct].
      rewrite <- (app_assoc _ [pct]). apply stamped_cons. exact Hx.
    - intros tmp h s x x' _ Hx Es. apply sr_close_inv in Es as (b & nx & ny & dx & dy & x1 & _ & _ & _ & _ & _ & Ea & ->).
      cbn [set_buffers c_stamps]. rewrite (append_all_stamps _ _ _ Ea). exact Hx.
  Qed.
End Stamps.

(** ** Cycles are never accepted *)
Section Cycles.
  Context {K : Type} {NK : Num K} (iter : str -> list str -> list str).
  Hypothesis iter_perm : forall id l, Permutation (iter id l) l.
  Implicit Types (bs : dict (buffer K)).

  Definition graph_of bs : edges := map (fun kb => (fst kb, bf_deps (snd kb))) bs.
  Lemma targets_of bs a d : In d (targets (graph_of bs) a) <-> exists b, d_get a bs = Some b /\ In d (bf_deps b).
  Proof.
    induction bs as [|[k b] r IH]; cbn [graph_of map targets d_get fst snd].
    - split; [intros []|intros (b & E & _); discriminate].
    - destruct (str_eqb a k); [|exact IH]. split; [eauto|intros (b' & E & H); injection E as <-; exact H].
  Qed.
  Fixpoint position (a : str) (l : list str) : nat :=
    match l with [] => 0%nat | b :: r => if str_eqb a b then 0%nat else S (position a r) end.
  Lemma position_split a l : In a l -> exists pre post, l = pre ++ a :: post /\ length pre = position a l /\ ~ In a pre.
  Proof.
    induction l as [|b l IH]; intros H; [contradiction|]. cbn [position].
    destruct (str_eqb a b) eqn:E.
    - apply str_eqb_eq in E; subst b. exists [], l. split; [reflexivity|]. split; [reflexivity|intros []].
    - apply str_eqb_neq in E. destruct H as [H|H]; [congruence|]. destruct (IH H) as (pre & post & -> & H1 & H2).
      exists (b :: pre), post. split; [reflexivity|]. split; [cbn [length]; rewrite H1; reflexivity|].
      intros [H3|H3]; [congruence|contradiction].
  Qed.
  Lemma position_lt a pre post : In a pre -> (position a (pre ++ post) < length pre)%nat.
  Proof.
    induction pre as [|b pre IH]; intros H; [contradiction|]. cbn [app position length].
    destruct (str_eqb a b) eqn:E; [lia|]. apply str_eqb_neq in E. destruct H as [H|H]; [congruence|].
    specialize (IH H). lia.
  Qed.
  Lemma closed_reaches bs out a c : closed bs out -> In a out -> reaches (graph_of bs) a c ->
    In c out /\ (position c out < position a out)%nat.
  Proof.
    intros Hc Ha Hr.
    assert (Hstep : forall a b, In a out -> In b (targets (graph_of bs) a) ->
      In b out /\ (position b out < position a out)%nat).
    { clear a c Ha Hr. intros a b Ha Hb. apply targets_of in Hb as (buf & Eb & Hd).
      destruct (position_split a out Ha) as (pre & post & E & Hlen & _).
      pose proof (Hc pre a post buf E Eb b Hd) as Hin. split; [rewrite E; apply in_or_app; auto|].
      rewrite <- Hlen. rewrite E. apply position_lt. exact Hin. }
    induction Hr as [a b Hb|a b c Hb _ IH]; [auto|].
    destruct (Hstep a b Ha Hb) as [H1 H2]. destruct (IH H1) as [H3 H4]. split; [exact H3|lia].
  Qed.

  Lemma convert_acyclic bs cmds : sound bs -> convert iter bs = Ok cmds ->
    forall a, a = main_id \/ reaches (graph_of bs) main_id a -> ~ reaches (graph_of bs) a a.
  Proof.
    intros Hs E a Ha Hcyc. pose proof (sound_keyed bs Hs) as Hk.
    destruct (convert_inv iter bs cmds Hk E) as (main & ids & l & Em & Er & _ & _ & _).
    assert (Hmid : bf_id main = main_id) by (apply Hk; exact Em).
    destruct (resolve_closed iter iter_perm bs Hk (S (length bs)) main [] ids) as (Hc & _ & out & Ho); [rewrite Hmid; exact Em| |exact Er|].
    { intros pre id post b E'. destruct pre; discriminate. }
    assert (Hmain : In main_id ids) by (rewrite Ho, Hmid; apply in_or_app; right; left; reflexivity).
    assert (Hin : In a ids).
    { destruct Ha as [->|Ha]; [exact Hmain|]. eapply closed_reaches; eauto. }
    destruct (closed_reaches bs ids a a Hc Hin Hcyc). lia.
  Qed.
End Cycles.

(** ** Whole files *)
Section Files.
  Context {K : Type} {NK : Num K} (md : bool) (clock : nat -> Z) (iter : str -> list str -> list str).
  Hypothesis iter_perm : forall id l, Permutation (iter id l) l.

  Lemma compile_inv ips ns cmds : compile md clock iter ips ns = Ok cmds ->
    exists v, on_file (compiler_hooks md clock) ips ns (visitor_init (compiler_init (K := K))) = Ok v /\
      convert iter (c_buffers (v_ext v)) = Ok cmds /\ sound (c_buffers (v_ext v)).
  Proof.
    unfold compile. destruct (on_file _ ips ns _) as [v|] eqn:E; [|discriminate]. cbn [bind]. intros E2.
    exists v. split; [reflexivity|]. split; [exact E2|]. eapply sound_file; [|exact E]. exact sound_init.
  Qed.

  Lemma file_program ips ns v : (forall k : K, ~ In "%"%char (n_repr k)) -> codes_valid ns -> codes_disjoint ns ->
    on_file (compiler_hooks md clock) ips ns (visitor_init (compiler_init (K := K))) = Ok v ->
    NoDup (c_stamps (v_ext v)) ->
    exists cmds ls, compile md clock iter ips ns = Ok cmds /\ layers cmds = Some ls /\
      defined_before_use ls /\ defined_once ls /\ all_needed ls /\ exists pre ds, ls = pre ++ [(main_id, ds)].
  Proof.
    intros Hrep [Hv1 Hv2] Hdis E HN.
    set (ADs := fun id => exists n a, In n ns /\ In (NAD a) (subnodes n) /\ ad_id a = id).
    set (ABs := fun id => exists n body, In n ns /\ In (NAB id body) (subnodes n)).
    assert (H1 : forall id, ADs id -> exists n, dcode id n) by (intros id (n & a & G1 & G2 & <-); eauto).
    assert (H2 : forall id, ABs id -> exists n, dcode id n) by (intros id (n & body & G1 & G2); eauto).
    assert (H3 : forall id, ADs id -> ABs id -> False).
    { intros id (n & a & G1 & G2 & G3) (n' & body & G4 & G5). exact (Hdis n n' a id body G1 G4 G2 G5 G3). }
    assert (HC : CInv ADs ABs (v_ext v)).
    { refine (CInv_file md clock Hrep ADs ABs H1 H2 H3 ips ns (visitor_init compiler_init) v _ (CInv_init ADs ABs) _ E).
      - intros n m Hn Hm. destruct m; try exact I; cbn [QInv]; [exists n, body|exists n, a]; auto.
      - split; intros id ? Hg; discriminate Hg. }
    destruct HC as (Hmain & _ & HI). destruct (HI HN) as [own HI'].
    destruct (reach_program iter iter_perm Hrep ADs ABs H1 H2 H3 _ _ _ HI' Hmain) as (cmds & ls & R1 & R).
    exists cmds, ls. split; [|exact R]. unfold compile. rewrite E. cbn [bind]. exact R1.
  Qed.
End Files.

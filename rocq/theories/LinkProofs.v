(** Proofs for C70. *)
From Verif Require Import Base Num Dict CoordModel Ast StateModel GeomModel ExprSpec ExprModel CompilerModel.
From Verif Require GramAst.
From Verif Require Import GramExplicit GramExplFile GramTidy LinkModel.
Local Open Scope nat_scope.
Notation gcmd := GramAst.cmd.

(** ** Codes left out *)
Section Drop.
  Context {K : Type} (d : gcode -> bool).
  Fixpoint dropped (n : node K) : list (node K) :=
    match n with
    | NG g => if d g then [] else [n]
    | NAB id b => [NAB id (flat_map dropped b)]
    | NSR u h b => [NSR u h (flat_map dropped b)]
    | n => [n]
    end.
End Drop.

Section Links.
  Context {K T : Type} (u : nat -> Z)
          (ta_fields : GramAst.ta K -> list str) (tf_fields : GramAst.tf T -> list str) (to_fields : GramAst.to K -> list str).
  Notation link := (@link K T u ta_fields tf_fields to_fields).
  Notation links := (@links K T u ta_fields tf_fields to_fields).

  Lemma link_ab id l n : link (GramAst.CAB id l) n = let '(b, n) := links l n in (NAB id b, n).
  Proof. reflexivity. Qed.
  Lemma link_sr h l n : link (GramAst.CSR h l) n = let '(b, m) := links l (S n) in (NSR (u n) h b, m).
  Proof. reflexivity. Qed.
  Lemma tidy_cab keep drop g id l : tidy_cmd keep drop g (GramAst.CAB id l) = ([GramAst.CAB id (@tidy K T keep drop false l)], false).
  Proof. reflexivity. Qed.
  Lemma tidy_csr keep drop g h l : tidy_cmd keep drop g (GramAst.CSR h l) = ([GramAst.CSR h (@tidy K T keep drop false l)], false).
  Proof. reflexivity. Qed.
  Lemma links_app a : forall b n, links (a ++ b) n = let '(x, n) := links a n in let '(y, n) := links b n in (x ++ y, n).
  Proof.
    induction a as [|c a IH]; intros b n; cbn [app LinkModel.links].
    - destruct (links b n); reflexivity.
    - destruct (link c n) as [x m]. rewrite IH. destruct (links a m) as [y k]. destruct (links b k). reflexivity.
  Qed.

  Definition tidied (drop : gcode -> bool) (p : list (node K) * nat) : list (node K) * nat := (flat_map (dropped drop) (fst p), snd p).
  Lemma links_tidy_of keep drop l :
    Forall (fun c => forall g n, links (fst (tidy_cmd keep drop g c)) n = (dropped drop (fst (link c n)), snd (link c n))) l ->
    forall g n, links (tidy keep drop g l) n = tidied drop (links l n).
  Proof.
    induction 1 as [|c l Hc _ IH]; intros g n; [reflexivity|]. cbn [tidy LinkModel.links]. specialize (Hc g n).
    destruct (tidy_cmd keep drop g c) as [y g']. cbn [fst] in Hc. rewrite links_app, Hc. destruct (link c n) as [x m]. cbn [fst snd].
    rewrite IH. destruct (links l m) as [r k]. unfold tidied. cbn [fst snd flat_map]. reflexivity.
  Qed.
  Lemma link_tidy keep drop c : forall g n, links (fst (tidy_cmd keep drop g c)) n = (dropped drop (fst (link c n)), snd (link c n)).
  Proof.
    induction c as [id b Hb|h b Hb|c Hc] using GramAst.cmd_ind'; intros g n.
    - rewrite tidy_cab, link_ab. cbn [fst LinkModel.links]. rewrite link_ab, (links_tidy_of _ _ _ Hb). destruct (links b n). reflexivity.
    - rewrite tidy_csr, link_sr. cbn [fst LinkModel.links]. rewrite link_sr, (links_tidy_of _ _ _ Hb). destruct (links b (S n)). reflexivity.
    - destruct c; try contradiction; try reflexivity.
      + cbn [tidy_cmd fst LinkModel.links LinkModel.link]. destruct (link_prims u prims n). reflexivity.
      + cbn [tidy_cmd LinkModel.link LinkModel.link_leaf]. cbn [fst snd dropped]. destruct (drop g0); [reflexivity|].
        destruct (keep && negb standalone)%bool; reflexivity.
  Qed.
  Lemma links_tidy keep drop l g n : links (tidy keep drop g l) n = tidied drop (links l n).
  Proof. apply links_tidy_of. apply Forall_forall. intros c _. apply link_tidy. Qed.

  (** ** Explicit parentheses *)
  Fixpoint expl_node (n : node K) : node K :=
    match n with
    | NAB id b => NAB id (map expl_node b)
    | NSR u h b => NSR u h (map expl_node b)
    | NAM name ps => NAM name (map expl_prim ps)
    | n => n
    end.
  Lemma link_prims_expl ps : forall n, link_prims u (map expl_prim ps) n = (map expl_prim (fst (link_prims u ps n)), snd (@link_prims K u ps n)).
  Proof.
    induction ps as [|p ps IH]; intros n; [reflexivity|].
    destruct p; cbn [map expl_prim link_prims]; rewrite IH; [..|]; match goal with |- context [link_prims u ps ?m] => destruct (link_prims u ps m) end; reflexivity.
  Qed.
  Definition explained (p : list (node K) * nat) : list (node K) * nat := (map expl_node (fst p), snd p).
  Lemma links_expl_of l :
    Forall (fun c => forall n, link (expl_cmd c) n = (expl_node (fst (link c n)), snd (link c n))) l ->
    forall n, links (map expl_cmd l) n = explained (links l n).
  Proof.
    induction 1 as [|c l Hc _ IH]; intros n; [reflexivity|]. cbn [map LinkModel.links]. rewrite Hc. destruct (link c n) as [x m]. cbn [fst snd].
    rewrite IH. destruct (links l m). reflexivity.
  Qed.
  Lemma link_expl c : forall n, link (expl_cmd c) n = (expl_node (fst (link c n)), snd (link c n)).
  Proof.
    induction c as [id b Hb|h b Hb|c Hc] using GramAst.cmd_ind'; intros n.
    - cbn [expl_cmd]. rewrite !link_ab, (links_expl_of _ Hb). destruct (links b n). reflexivity.
    - cbn [expl_cmd]. rewrite !link_sr, (links_expl_of _ Hb). destruct (links b (S n)). reflexivity.
    - destruct c; try contradiction; try reflexivity. cbn [expl_cmd LinkModel.link]. rewrite link_prims_expl. destruct (link_prims u prims n). reflexivity.
  Qed.
  Lemma links_expl l n : links (map expl_cmd l) n = explained (links l n).
  Proof. apply links_expl_of. apply Forall_forall. intros c _. apply link_expl. Qed.
End Links.

(** ** What the visitors make of it *)
Section Visit.
  Context {K X : Type} {NK : Num K} (H : hooks K X) (d : gcode -> bool).
  Hypothesis Hd : forall g, d g = true -> g = G54 \/ g = G55.

  Lemma visit_ab id b v : visit H (NAB id b) v = obind (visits H b (ab_enter H id v)) (fun v => Done (ab_leave H id v)) (fun v => v).
  Proof. reflexivity. Qed.
  Lemma visit_sr i h b v : visit H (NSR i h b) v = let '(tmp, v) := sr_enter H i v in obind (visits H b v) (sr_leave H tmp h) (fun v => v).
  Proof. reflexivity. Qed.
  Lemma visits_app a : forall b v, visits H (a ++ b) v = obind (visits H a v) (visits H b) (fun v => v).
  Proof.
    induction a as [|n a IH]; intros b v; [reflexivity|]. cbn [app visits]. destruct (visit H n v); cbn [obind]; auto.
  Qed.
  Lemma visits_one n v : visits H [n] v = visit H n v.
  Proof. cbn [visits]. destruct (visit H n v); reflexivity. Qed.
  Lemma visits_dropped_of ns : Forall (fun n => forall v, visits H (dropped d n) v = visit H n v) ns ->
    forall v, visits H (flat_map (dropped d) ns) v = visits H ns v.
  Proof.
    induction 1 as [|n ns Hn _ IH]; intros v; [reflexivity|]. cbn [flat_map visits]. rewrite visits_app, Hn.
    destruct (visit H n v); cbn [obind]; auto.
  Qed.
  Lemma visit_dropped n : forall v, visits H (dropped d n) v = visit H n v.
  Proof.
    induction n as [id b Hb|i h b Hb|n Hn] using node_ind'; intros v.
    - cbn [dropped]. rewrite visits_one, !visit_ab, (visits_dropped_of _ Hb). reflexivity.
    - cbn [dropped]. rewrite visits_one, !visit_sr. destruct (sr_enter H i v) as [tmp v']. rewrite (visits_dropped_of _ Hb). reflexivity.
    - destruct n; try contradiction; try apply visits_one. cbn [dropped]. destruct (d g) eqn:E; [|apply visits_one].
      destruct (Hd g E) as [-> | ->]; reflexivity.
  Qed.
  Lemma on_file_dropped ips ns : forall v, on_file H ips (flat_map (dropped d) ns) v = on_file H ips ns v.
  Proof.
    induction ns as [|n ns IH]; intros v; [reflexivity|]. cbn [flat_map].
    assert (A : exists m, dropped d n = [m] /\ (forall v, visit H m v = visit H n v) \/ dropped d n = [] /\ forall v, visit H n v = Done v).
    { pose proof (visit_dropped n) as V. destruct n; try (eexists; left; split; [reflexivity|]; intros w; rewrite <- V; cbn [dropped]; rewrite visits_one; reflexivity).
      cbn [dropped] in *. exists (NG g). destruct (d g); [right|left]; split; auto. intros w. symmetry. apply V. }
    destruct A as (m & [[-> E]|[-> E]]).
    - cbn [app on_file]. rewrite E. destruct (visit H n v); [apply IH|destruct ips; [reflexivity|apply IH]|reflexivity].
    - cbn [app on_file]. rewrite E. apply IH.
  Qed.
End Visit.

Section Compile.
  Context {K : Type} {NK : Num K} (md : bool) (clock : nat -> Z).
  Notation H := (compiler_hooks (K := K) md clock).
  Definition ex_macros (m : dict (list (prim K))) : dict (list (prim K)) := map (fun kv => (fst kv, map expl_prim (snd kv))) m.
  Definition ex_state (s : state K) : state K := set_store (s_apertures s) (s_blocks s) (ex_macros (s_macros s)) (s_per_ap_attrs s) s.
  Definition ex_v (v : visitor K (cstate K)) : visitor K (cstate K) :=
    MkV (ex_state (v_state v)) (v_d01 v) (v_d03 v) (v_dispatch_region v) (v_ext v).
  Definition ex_out (o : outcome (visitor K (cstate K))) : outcome (visitor K (cstate K)) :=
    match o with Done v => Done (ex_v v) | Stop v => Stop (ex_v v) | Fail e => Fail e end.

  Lemma ex_get k m : d_get k (ex_macros m) = option_map (map expl_prim) (d_get k m).
  Proof. induction m as [|[a b] m IH]; [reflexivity|]. cbn [ex_macros map fst snd d_get]. destruct (str_eqb k a); auto. Qed.
  Lemma ex_set k ps m : d_set k (map expl_prim ps) (ex_macros m) = ex_macros (d_set k ps m).
  Proof. induction m as [|[a b] m IH]; [reflexivity|]. cbn [ex_macros map fst snd d_set]. destruct (str_eqb k a); [reflexivity|]. cbn [ex_macros map fst snd]. f_equal. exact IH. Qed.

  Lemma eval_expl scope (e : expr K) : eval scope (expl e) = eval scope e.
  Proof. apply meaning_eval, meaning_expl. Qed.
  Lemma on_prim_expl m p ms : on_prim clock m (expl_prim p) ms = on_prim clock m p ms.
  Proof.
    destruct p; cbn [expl_prim on_prim]; rewrite ?eval_expl; try reflexivity.
    - destruct rotation; cbn [option_map]; rewrite ?eval_expl; reflexivity.
    - set (go := fix go (l : list (expr K * expr K)) : result exc (list (vec K)) :=
                      match l with
                      | [] => Ok []
                      | (a, b) :: r => let* a := eval (ms_scope ms) a in let* b := eval (ms_scope ms) b in let* r := go r in Ok (MkVec a b :: r)
                      end).
      assert (E : go (map (fun q => (expl (fst q), expl (snd q))) points) = go points).
      { induction points as [|[a b] l IH]; [reflexivity|]. cbn. fold go. rewrite !eval_expl, IH. reflexivity. }
      rewrite E. reflexivity.
  Qed.
  Lemma on_prims_expl m ps : forall ms, on_prims clock m (map expl_prim ps) ms = on_prims clock m ps ms.
  Proof. induction ps as [|p ps IH]; intros ms; [reflexivity|]. cbn [map on_prims]. rewrite on_prim_expl. destruct (on_prim clock m p ms); cbn [bind]; auto. Qed.

  Lemma ex_ad a s x : on_aperture md clock a (ex_state s) x = on_aperture md clock a s x.
  Proof.
    unfold on_aperture. destruct (ad_template a); try reflexivity. cbn [s_macros s_ap_attrs ex_state set_store]. rewrite ex_get.
    destruct (d_get name (s_macros s)) as [ps|]; [|reflexivity]. cbn [option_map]. rewrite on_prims_expl. reflexivity.
  Qed.
  Lemma ex_lift v r : lift (ex_v v) r = ex_out (lift v r).
  Proof. destruct r; reflexivity. Qed.
  Lemma ex_coords x y i j v k k' : (forall v, k (ex_v v) = ex_out (k' v)) ->
    on_coords x y i j (ex_v v) k = ex_out (on_coords x y i j v k').
  Proof.
    intros E. unfold on_coords.
    assert (R : forall a t old, read_opt (v_state (ex_v v)) a t old = read_opt (v_state v) a t old) by reflexivity.
    unfold read_coords. rewrite !R.
    change (s_x (v_state (ex_v v))) with (s_x (v_state v)). change (s_y (v_state (ex_v v))) with (s_y (v_state v)).
    change (s_i (v_state (ex_v v))) with (s_i (v_state v)). change (s_j (v_state (ex_v v))) with (s_j (v_state v)).
    destruct (read_opt (v_state v) true x (s_x (v_state v))); [|reflexivity].
    destruct (read_opt (v_state v) false y (s_y (v_state v))); [|reflexivity].
    destruct (read_opt (v_state v) true i (s_i (v_state v))); [|reflexivity].
    destruct (read_opt (v_state v) false j (s_j (v_state v))); [|reflexivity].
    cbn [bind]. rewrite <- E. reflexivity.
  Qed.
  Lemma ex_draw h s x : on_draw md h (ex_state s) x = on_draw md h s x.
  Proof. destruct h; reflexivity. Qed.
  Lemma ex_flash h a s x : on_flash md h a (ex_state s) x = on_flash md h a s x.
  Proof. destruct h, a; reflexivity. Qed.
  Lemma ex_current s : current_aperture (ex_state s) = current_aperture s.
  Proof. reflexivity. Qed.
  Lemma ex_leaf n v : visit_leaf H (expl_node n) (ex_v v) = ex_out (visit_leaf H n v).
  Proof.
    destruct n; try reflexivity; cbn [expl_node visit_leaf].
    - unfold on_ad. cbn [hk_ad compiler_hooks]. rewrite <- ex_lift.
      set (v' := with_state _ v). change (v_ext (with_state _ (ex_v v))) with (v_ext v').
      match goal with |- lift ?a _ = _ => change a with (ex_v v') end.
      change (v_state (ex_v v')) with (ex_state (v_state v')). rewrite ex_ad. reflexivity.
    - unfold ex_out, ex_v, with_state, ex_state. cbn. rewrite ex_set. reflexivity.
    - destruct name; reflexivity.
    - unfold on_d01. apply ex_coords. intros v'. cbn [hk_draw compiler_hooks].
      change (v_state (ex_v v')) with (ex_state (v_state v')). rewrite ex_draw.
      change (v_d01 (ex_v v')) with (v_d01 v'). change (v_ext (ex_v v')) with (v_ext v').
      destruct (on_draw md (v_d01 v') (v_state v') (v_ext v')); reflexivity.
    - unfold on_d02. apply ex_coords. intros v'.
      change (s_region (v_state (with_state update_coordinates (ex_v v')))) with (s_region (v_state (with_state update_coordinates v'))).
      destruct (s_region (v_state (with_state update_coordinates v'))); [|reflexivity]. rewrite <- ex_lift. reflexivity.
    - unfold on_d03. apply ex_coords. intros v'.
      change (current_aperture (v_state (ex_v v'))) with (current_aperture (v_state v')). destruct (current_aperture (v_state v')) as [t|]; [|reflexivity].
      change (v_d03 (ex_v v')) with (v_d03 v'). destruct (v_d03 v') as [h|]; [|reflexivity]. cbn [hk_flash compiler_hooks].
      change (v_state (ex_v v')) with (ex_state (v_state v')). rewrite ex_flash. change (v_ext (ex_v v')) with (v_ext v').
      destruct (on_flash md h t (v_state v') (v_ext v')); reflexivity.
    - unfold on_dnn. change (current_aperture (v_state (with_state (set_apid (Some id)) (ex_v v)))) with
        (current_aperture (v_state (with_state (set_apid (Some id)) v))).
      destruct (current_aperture (v_state (with_state (set_apid (Some id)) v))); reflexivity.
    - destruct g; try reflexivity. cbn [on_g hk_flush_region hk_end_region compiler_hooks].
      change (flush_region (v_state (ex_v v)) (v_ext (ex_v v))) with (flush_region (v_state v) (v_ext v)).
      destruct (flush_region (v_state v) (v_ext v)); reflexivity.
  Qed.
  Lemma ex_visits_of ns : Forall (fun n => forall v, visit H (expl_node n) (ex_v v) = ex_out (visit H n v)) ns ->
    forall v, visits H (map expl_node ns) (ex_v v) = ex_out (visits H ns v).
  Proof.
    induction 1 as [|n ns Hn _ IH]; intros v; [reflexivity|]. cbn [map visits]. rewrite Hn. destruct (visit H n v); cbn [ex_out obind]; auto.
  Qed.
  Lemma ex_visit n : forall v, visit H (expl_node n) (ex_v v) = ex_out (visit H n v).
  Proof.
    induction n as [id b Hb|i h b Hb|n Hn] using node_ind'; intros v.
    - cbn [expl_node]. rewrite !visit_ab. change (ab_enter H id (ex_v v)) with (ex_v (ab_enter H id v)).
      rewrite (ex_visits_of _ Hb). destruct (visits H b (ab_enter H id v)); reflexivity.
    - cbn [expl_node]. rewrite !visit_sr.
      change (sr_enter H i (ex_v v)) with (fst (sr_enter H i v), ex_v (snd (sr_enter H i v))). destruct (sr_enter H i v) as [tmp v']. cbn [fst snd].
      rewrite (ex_visits_of _ Hb). destruct (visits H b v') as [w|w|e]; [|reflexivity|reflexivity]. cbn [ex_out obind].
      unfold sr_leave. rewrite <- ex_lift. reflexivity.
    - rewrite <- (ltac:(destruct n; try contradiction; reflexivity) : visit_leaf H n v = visit H n v), <- ex_leaf. destruct n; try contradiction; reflexivity.
  Qed.
  Lemma ex_on_file ips ns : forall v, on_file H ips (map expl_node ns) (ex_v v) =
    match on_file H ips ns v with Ok v => Ok (ex_v v) | Err e => Err e end.
  Proof.
    induction ns as [|n ns IH]; intros v; [reflexivity|]. cbn [map on_file]. rewrite ex_visit.
    destruct (visit H n v); cbn [ex_out]; [apply IH|destruct ips; [reflexivity|apply IH]|reflexivity].
  Qed.
  Lemma ex_compile iter ips ns : compile md clock iter ips (map expl_node ns) = compile md clock iter ips ns.
  Proof.
    unfold compile. change (visitor_init (compiler_init (K := K))) with (ex_v (visitor_init (compiler_init (K := K)))) at 1.
    rewrite ex_on_file. destruct (on_file H ips ns (visitor_init compiler_init)); reflexivity.
  Qed.
End Compile.

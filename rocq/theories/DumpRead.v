(** Proofs for C76: what a visitor sees of a file that was written and read. *)
From Verif Require Import Base Num Dict CoordModel Ast ExprModel StateModel GbModel GbSpec.
From Verif Require GramAst.
From Verif Require Import GramFileSpec LinkModel DumpModel DumpSpec DumpProofs.
Local Existing Instance NumQ.
Local Open Scope nat_scope.

(** ** What does not matter: identities, the contents of attributes, how a constant is written *)
Definition e_expr (e : expr Q) : expr Q := match e with ENeg (EConst q) => EConst (n_opp q) | e => e end.
Definition e_prim (p : prim Q) : prim Q := no_uid (on_exprs e_expr p).
Definition e_attr (a : attr) : attr := MkAttr (at_name a) [].
Definition e_node (n : node Q) : node Q :=
  match n with
  | NAM name ps => NAM name (map e_prim ps)
  | NTA a => NTA (e_attr a) | NTF a => NTF (e_attr a) | NTO a => NTO (e_attr a)
  | n => n
  end.
Definition on_dict {A B} (f : A -> B) (d : dict A) : dict B := map (fun kv => (fst kv, f (snd kv))) d.
Arguments on_dict {A B} f d : simpl never.
Definition e_attrs := on_dict e_attr.
Arguments e_attrs d : simpl never.
Definition e_state (s : state Q) : state Q :=
  set_attrs (e_attrs (s_ap_attrs s)) (e_attrs (s_file_attrs s)) (e_attrs (s_obj_attrs s))
    (set_store (s_apertures s) (s_blocks s) (on_dict (map e_prim) (s_macros s)) (on_dict e_attrs (s_per_ap_attrs s)) s).
Definition e_call (c : @call Q) : @call Q :=
  match c with CDraw h s => CDraw h (e_state s) | CFlash h a s => CFlash h a (e_state s) | CFlushRegion s => CFlushRegion (e_state s) | c => c end.
Notation vis := (@visitor Q (list (@call Q))).
Definition e_v (v : vis) : vis := MkV (e_state (v_state v)) (v_d01 v) (v_d03 v) (v_dispatch_region v) (map e_call (v_ext v)).
Definition e_out (o : outcome vis) : outcome vis :=
  match o with Done v => Done (e_v v) | Stop v => Stop (e_v v) | Fail e => Fail e end.

Lemma dict_get {A B} (f : A -> B) k d : d_get k (on_dict f d) = option_map f (d_get k d).
Proof. induction d as [|[a b] d IH]; [reflexivity|]. unfold on_dict in *. cbn [map fst snd d_get]. destruct (str_eqb k a); auto. Qed.
Lemma dict_set {A B} (f : A -> B) k v d : d_set k (f v) (on_dict f d) = on_dict f (d_set k v d).
Proof. induction d as [|[a b] d IH]; [reflexivity|]. unfold on_dict in *. cbn [map fst snd d_set]. destruct (str_eqb k a); [reflexivity|]. cbn [map fst snd]. f_equal. exact IH. Qed.
Lemma dict_del {A B} (f : A -> B) k d : d_del k (on_dict f d) = on_dict f (d_del k d).
Proof.
  induction d as [|[a b] d IH]; [reflexivity|]. unfold on_dict in *. cbn. destruct (str_eqb k a); cbn; [exact IH|]. f_equal. exact IH.
Qed.
Lemma e_coords x y i j v k k' : (forall v, k (e_v v) = e_out (k' v)) -> on_coords x y i j (e_v v) k = e_out (on_coords x y i j v k').
Proof.
  intros E. unfold on_coords.
  assert (R : forall a t old, read_opt (v_state (e_v v)) a t old = read_opt (v_state v) a t old) by reflexivity.
  unfold read_coords. rewrite !R.
  change (s_x (v_state (e_v v))) with (s_x (v_state v)). change (s_y (v_state (e_v v))) with (s_y (v_state v)).
  change (s_i (v_state (e_v v))) with (s_i (v_state v)). change (s_j (v_state (e_v v))) with (s_j (v_state v)).
  destruct (read_opt (v_state v) true x (s_x (v_state v))); [|reflexivity].
  destruct (read_opt (v_state v) false y (s_y (v_state v))); [|reflexivity].
  destruct (read_opt (v_state v) true i (s_i (v_state v))); [|reflexivity].
  destruct (read_opt (v_state v) false j (s_j (v_state v))); [|reflexivity].
  cbn [bind]. rewrite <- E. reflexivity.
Qed.
Lemma e_leaf n v : visit_leaf recorder (e_node n) (e_v v) = e_out (visit_leaf recorder n v).
Proof.
  destruct n; try reflexivity; cbn [e_node visit_leaf].
  - unfold on_ad. cbn [hk_ad recorder lift]. unfold e_out, e_v, with_ext, with_state, e_state. cbn. rewrite dict_set. reflexivity.
  - unfold e_out, e_v, with_state, e_state. cbn. rewrite (dict_set (map e_prim)). reflexivity.
  - unfold e_out, e_v, with_state, e_state. cbn. unfold e_attrs. rewrite <- (dict_set e_attr). reflexivity.
  - unfold e_out, e_v, with_state, e_state. cbn. unfold e_attrs. rewrite <- (dict_set e_attr). reflexivity.
  - unfold e_out, e_v, with_state, e_state. cbn. unfold e_attrs. rewrite <- (dict_set e_attr). reflexivity.
  - destruct name; [|reflexivity]. unfold e_out, e_v, with_state, e_state. cbn. unfold e_attrs. rewrite !dict_del. reflexivity.
  - unfold on_d01. apply e_coords. intros v'. cbn [hk_draw recorder lift obind e_out]. unfold e_v, with_ext, with_state. cbn [v_ext v_state v_d01 v_d03 v_dispatch_region].
    rewrite map_app. reflexivity.
  - unfold on_d02. apply e_coords. intros v'.
    change (s_region (v_state (with_state update_coordinates (e_v v')))) with (s_region (v_state (with_state update_coordinates v'))).
    destruct (s_region (v_state (with_state update_coordinates v'))); [|reflexivity]. cbn [lift hk_flush_region recorder e_out]. unfold e_v, with_ext, with_state. cbn [v_ext v_state v_d01 v_d03 v_dispatch_region].
    rewrite map_app. reflexivity.
  - unfold on_d03. apply e_coords. intros v'.
    change (current_aperture (v_state (e_v v'))) with (current_aperture (v_state v')). destruct (current_aperture (v_state v')) as [t|]; [|reflexivity].
    change (v_d03 (e_v v')) with (v_d03 v'). destruct (v_d03 v') as [h|]; [|reflexivity]. cbn [hk_flash recorder lift obind e_out]. unfold e_v, with_ext, with_state. cbn [v_ext v_state v_d01 v_d03 v_dispatch_region].
    rewrite map_app. reflexivity.
  - unfold on_dnn. change (current_aperture (v_state (with_state (set_apid (Some id)) (e_v v)))) with
      (current_aperture (v_state (with_state (set_apid (Some id)) v))).
    destruct (current_aperture (v_state (with_state (set_apid (Some id)) v))); reflexivity.
  - destruct g; try reflexivity.
    + cbn [on_g e_out hk_start_region recorder]. unfold e_v, with_ext, dispatch, bind_dispatch, with_state. cbn [v_ext v_state v_d01 v_d03 v_dispatch_region]. rewrite map_app. reflexivity.
    + cbn [on_g e_out hk_flush_region hk_end_region recorder lift obind]. unfold e_v, with_ext, dispatch, bind_dispatch, with_state. cbn [v_ext v_state v_d01 v_d03 v_dispatch_region].
      rewrite !map_app. reflexivity.
Qed.
Definition leaf (n : node Q) : Prop := match n with NAB _ _ | NSR _ _ _ => False | _ => True end.
Lemma e_on_file b ns : Forall leaf ns -> forall v, on_file recorder b (map e_node ns) (e_v v) =
  match on_file recorder b ns v with Ok v => Ok (e_v v) | Err e => Err e end.
Proof.
  induction 1 as [|n ns Hn _ IH]; intros v; [reflexivity|]. cbn [map on_file].
  assert (E : visit recorder (e_node n) (e_v v) = e_out (visit recorder n v)).
  { pose proof (e_leaf n v) as L. destruct n; try contradiction; exact L. }
  rewrite E. destruct (visit recorder n v); cbn [e_out]; [apply IH|destruct b; [reflexivity|apply IH]|reflexivity].
Qed.

(** ** A drawing does not depend on it *)
Definition alike (c c' : @call Q) : Prop := e_call c = e_call c'.
Lemma e_eval scope e : eval scope (e_expr e) = eval scope e.
Proof. destruct e as [| |e|e|e| | | |]; try reflexivity. destruct e; reflexivity. Qed.
Lemma e_const e q : is_const (e_expr e) q <-> is_const e q.
Proof. unfold is_const. split; intros H scope; specialize (H scope); [rewrite e_eval in H|rewrite e_eval]; exact H. Qed.
Lemma e_points pts : forall ps, Forall2 (fun p xy => is_point (fst xy) (snd xy) p) ps (map (fun q => (e_expr (fst q), e_expr (snd q))) pts) <->
  Forall2 (fun p xy => is_point (fst xy) (snd xy) p) ps pts.
Proof.
  induction pts as [|[x y] pts IH]; intros ps; cbn [map]; [reflexivity|]. split; intros H; inversion H as [|p ? ps' ? [H1 H2] H3]; subst; constructor;
    try (apply IH; exact H3); cbn [fst snd] in *; split; apply e_const; assumption.
Qed.
Lemma e_last (ps : list loc) x y :
  (exists front l, ps = front ++ [l] /\ is_const (e_expr x) (fst l) /\ is_const (e_expr y) (snd l)) <->
  (exists front l, ps = front ++ [l] /\ is_const x (fst l) /\ is_const y (snd l)).
Proof. split; intros (fr & l & E & H1 & H2); exists fr, l; (split; [exact E|]); split; apply e_const; assumption. Qed.
Lemma e_figure f p : draws_figure f (e_prim p) <-> draws_figure f p.
Proof.
  unfold e_prim. destruct f, p; cbn [on_exprs no_uid draws_figure]; try reflexivity; unfold is_bool; rewrite ?e_points; unfold is_point; rewrite ?e_const; try reflexivity.
  - destruct rotation0; cbn [option_map]; [rewrite ?e_const|]; reflexivity.
  - rewrite map_length, e_last. reflexivity.
Qed.
Lemma e_looks m a lk : looks (on_dict (map e_prim) m) a lk <-> looks m a lk.
Proof.
  destruct lk as [t|fs]; [reflexivity|]. cbn [looks].
  assert (F : forall prims fs, Forall2 draws_figure fs (map e_prim prims) <-> Forall2 draws_figure fs prims).
  { induction prims as [|p prims IH]; intros fs'; cbn [map]; [reflexivity|]. split; intros H; inversion H; subst; constructor; try (apply IH; assumption); apply e_figure; assumption. }
  split.
  - intros (name & prims & E1 & E2 & E3). rewrite dict_get in E2. destruct (d_get name m) as [ps|] eqn:E; [|discriminate]. cbn in E2. injection E2 as <-.
    exists name, ps. split; [exact E1|]. split; [exact E|]. apply F, E3.
  - intros (name & prims & E1 & E2 & E3). exists name, (map e_prim prims). split; [exact E1|]. split; [rewrite dict_get, E2; reflexivity|]. apply F, E3.
Qed.
Lemma alike_draw h s c : alike (CDraw h s) c -> exists s', c = CDraw h s' /\ e_state s = e_state s'.
Proof.
  unfold alike. destruct c as [h' s'|h' a' s'| | |]; cbn [e_call]; intros E; try discriminate.
  assert (X : forall a b : state Q, CDraw h a = CDraw h' b -> h = h' /\ a = b) by (intros; split; congruence).
  apply X in E as [-> E]. eauto.
Qed.
Lemma alike_flash h a s c : alike (CFlash h a s) c -> exists s', c = CFlash h a s' /\ e_state s = e_state s'.
Proof.
  unfold alike. destruct c as [h' s'|h' a' s'| | |]; cbn [e_call]; intros E; try discriminate.
  assert (X : forall x y : state Q, CFlash h a x = CFlash h' a' y -> h = h' /\ a = a' /\ x = y) by (intros; repeat split; congruence).
  apply X in E as (-> & -> & E). eauto.
Qed.
Lemma alike_flush s c : alike (CFlushRegion s) c -> exists s', c = CFlushRegion s' /\ e_state s = e_state s'.
Proof.
  unfold alike. destruct c as [h' s'|h' a' s'| | |]; cbn [e_call]; intros E; try discriminate.
  assert (X : forall x y : state Q, CFlushRegion x = CFlushRegion y -> x = y) by (intros; congruence).
  apply X in E. eauto.
Qed.
Lemma alike_start c : alike CStartRegion c -> c = CStartRegion.
Proof. unfold alike. destruct c; cbn [e_call]; intros E; try discriminate; reflexivity. Qed.
Lemma alike_end c : alike CEndRegion c -> c = CEndRegion.
Proof. unfold alike. destruct c; cbn [e_call]; intros E; try discriminate; reflexivity. Qed.
Lemma e_placed s s' pol rot mx my sc : e_state s = e_state s' -> placed s pol rot mx my sc -> placed s' pol rot mx my sc.
Proof. intros E H. change (placed (e_state s') pol rot mx my sc). rewrite <- E. exact H. Qed.
Lemma e_stroke s s' b e c : e_state s = e_state s' -> stroke s b e c -> stroke s' b e c.
Proof. intros E H. change (stroke (e_state s') b e c). rewrite <- E. exact H. Qed.
Lemma alike_outlined b segs cs : outlined b segs cs -> forall cs', Forall2 alike cs cs' -> outlined b segs cs'.
Proof.
  induction 1 as [b|b s r st cs Hs _ IH]; intros cs' H; inversion H as [|? c ? r' Hc Hr]; subst; [constructor|].
  apply alike_draw in Hc as (s' & -> & E). constructor; [apply (e_stroke st); assumption|apply IH, Hr].
Qed.
Lemma alike_shown h w p : shown h w p -> forall p', Forall2 alike p p' -> shown h w p'.
Proof.
  intros H p' R. destruct H as [n l pol rot mx my sc lk a s Hn Hl Hp Hx|m w b e c a w' s Ha Ht Hw Hs|b segs cs s0 s1 H0 H1 Ho].
  - inversion R as [|? c ? r' Hc Hr]; subst. inversion Hr; subst. apply alike_flash in Hc as (s' & -> & E).
    constructor; [exact Hn| |apply (e_placed s); assumption|].
    + apply e_looks. apply e_looks in Hl. change (on_dict (map e_prim) (s_macros s')) with (s_macros (e_state s')). rewrite <- E. exact Hl.
    + change (near2 l (coordinate_x (e_state s')) (coordinate_y (e_state s'))). rewrite <- E. exact Hx.
  - inversion R as [|? c' ? r' Hc Hr]; subst. inversion Hr; subst. apply alike_draw in Hc as (s' & -> & E).
    apply (sh_trace h m w b e c a w' s'); [|exact Ht|exact Hw|apply (e_stroke s); assumption].
    change (current_aperture (e_state s') = Ok (ApAD a)). rewrite <- E. exact Ha.
  - cbn [app] in R. inversion R as [|? c1 ? r1 E1 R1]; subst. inversion R1 as [|? c2 ? r2 E2 R2]; subst.
    apply Forall2_app_inv_l in R2 as (cs' & r3 & R3 & R4 & ->). inversion R4 as [|? c4 ? r4 E4 R5]; subst. inversion R5 as [|? c5 ? r5 E5 R6]; subst.
    inversion R6; subst. apply alike_start in E1 as ->. apply alike_flush in E2 as (t0 & -> & E2). apply alike_flush in E4 as (t1 & -> & E4). apply alike_end in E5 as ->.
    apply (sh_region h b segs cs' t0 t1); [apply (e_placed s0); assumption|apply (e_placed s1); assumption|apply (alike_outlined b segs cs); assumption].
Qed.
Lemma alike_drawn h ws cs cs' : drawn h ws cs -> map e_call cs = map e_call cs' -> drawn h ws cs'.
Proof.
  intros (parts & -> & H) E.
  assert (R : Forall2 alike (concat parts) cs').
  { revert cs' E. generalize (concat parts). induction l as [|c l IH]; intros [|c' cs'] E; try discriminate; constructor.
    - cbn [map] in E. unfold alike. apply (f_equal (hd (e_call c))) in E. exact E.
    - apply IH. apply (f_equal (@tl _)) in E. exact E. }
  clear E. revert cs' R. induction H as [|w p ws parts Hw _ IH]; intros cs' R.
  - inversion R; subst. exists []. split; [reflexivity|constructor].
  - cbn [concat] in R. apply Forall2_app_inv_l in R as (p' & r' & R1 & R2 & ->). destruct (IH _ R2) as (ps & -> & H').
    exists (p' :: ps). split; [reflexivity|]. constructor; [apply (alike_shown h w p); assumption|exact H'].
Qed.

(** ** The nodes of a written file, up to it *)
Section Link.
  Context (u : nat -> Z) (fa : GramAst.ta Q -> list str) (ff : GramAst.tf str -> list str) (fo : GramAst.to Q -> list str).
  Lemma e_sign e : match e with EConst q => Qred q = q | ENeg (EConst _) => False | _ => True end -> e_expr (sign_expr e) = e_expr e.
  Proof.
    destruct e as [q| |e|e|e| | | |]; cbn [sign_expr e_expr]; try reflexivity. intros H. destruct (Qle_bool 0 q); [reflexivity|]. cbn [e_expr].
    f_equal. cbn [n_opp NumQ]. transitivity (Qred q); [|exact H]. apply Qred_complete. apply Qopp_involutive.
  Qed.

  Definition same_node (c : GramAst.cmd Q str) (nd : node Q) : Prop := forall n, e_node (fst (link u fa ff fo c n)) = e_node nd.
  Lemma same_nodes f ns : Forall2 same_node f ns -> forall n, map e_node (fst (links u fa ff fo f n)) = map e_node ns.
  Proof.
    induction 1 as [|c nd f ns H _ IH]; intros n; [reflexivity|]. cbn [links map]. specialize (H n). destruct (link u fa ff fo c n) as [y m].
    specialize (IH m). destruct (links u fa ff fo f m) as [r k]. cbn [fst map] in *. congruence.
  Qed.
  Lemma e_link_prims ps : forall n, map e_prim (fst (link_prims u ps n)) = map e_prim ps.
  Proof.
    induction ps as [|p ps IH]; intros n; [reflexivity|]. destruct p; cbn [link_prims];
      try (specialize (IH n); destruct (link_prims u ps n); cbn [fst map] in *; f_equal; exact IH).
    specialize (IH (S n)). destruct (link_prims u ps (S n)). cbn [fst map] in *. f_equal. exact IH.
  Qed.
  Lemma e_prim_sign p : fine_prim p -> e_prim (on_exprs sign_expr (no_uid p)) = e_prim p.
  Proof.
    intros [_ H].
    assert (S : Forall (fun e => e_expr (sign_expr e) = e_expr e) (prim_exprs p)).
    { eapply Forall_impl; [|exact H]. intros e (q & -> & Hq & _). apply e_sign. exact Hq. }
    clear H. unfold e_prim. destruct p; cbn [no_uid on_exprs prim_exprs] in *; try reflexivity;
      try (apply Forall_app in S as [S S']);
      repeat match goal with H : Forall _ (_ :: _) |- _ => let A := fresh "A" in let B := fresh "B" in inversion H as [|? ? A B]; clear H; subst; rewrite ?A end;
      try reflexivity.
    - destruct rotation; [|reflexivity]. apply Forall_inv in S'. cbn [option_map]. rewrite S'. reflexivity.
    - apply Forall_app in S' as [S1 S2]. apply Forall_inv in S2. rewrite S2. f_equal. clear -S1.
      induction points as [|[a b] l IH]; [reflexivity|]. cbn [map flat_map fst snd app] in *. inversion S1 as [|? ? A B]; subst. inversion B as [|? ? C D]; subst.
      rewrite A, C, IH; [reflexivity|exact D].
  Qed.
  Lemma same_draw n : fine_node n -> same_node (sign_cmd (draw_cmd n)) n.
  Proof. destruct n; cbn [fine_node]; intros H k; try contradiction; reflexivity. Qed.
  Lemma same_map {A} (f : A -> GramAst.cmd Q str) g (l : list A) : (forall a, In a l -> same_node (sign_cmd (f a)) (g a)) ->
    Forall2 same_node (map sign_cmd (map f l)) (map g l).
  Proof. induction l as [|a l IH]; intros H; constructor; [apply H; left; reflexivity|apply IH; intros b Hb; apply H; right; exact Hb]. Qed.
  Lemma same_pad p : Forall2 same_node (map sign_cmd (pad_cmds p)) (pad_nodes p).
  Proof.
    unfold pad_cmds, pad_nodes, p_function, p_drill. rewrite !map_app.
    repeat apply Forall2_app.
    - destruct (p_aper_function p); repeat constructor.
    - destruct (p_tolerance p) as [[a b]|]; repeat constructor.
    - apply (same_map _ NTA). intros a _ n. reflexivity.
    - repeat constructor.
    - destruct (p_aper_function p), (p_tolerance p) as [[a b]|], (p_user p); cbn; repeat constructor.
  Qed.
  Lemma same_code g : fine_gb g -> map e_node (nodes u fa ff fo (map sign_cmd (get_file g))) = map e_node (get_code g).
  Proof.
    intros H. apply same_nodes. unfold get_file, get_code. rewrite !map_app. repeat apply Forall2_app.
    - repeat constructor.
    - apply same_map. intros [name ps] Hm n. cbn [sign_cmd link fst snd]. rewrite map_map.
      pose proof (e_link_prims (map (fun p => on_exprs sign_expr (no_uid p)) ps) n) as L. destruct (link_prims u _ n) as [qs k]. cbn [fst e_node] in *. rewrite L.
      f_equal. rewrite map_map. apply map_ext_in. intros p Hp. apply e_prim_sign.
      pose proof (fi_macros g H) as F. rewrite Forall_forall in F. specialize (F _ Hm). destruct F as [_ F]. rewrite Forall_forall in F. exact (F p Hp).
    - induction (g_pads g) as [|p l IH]; [constructor|]. cbn [flat_map]. rewrite map_app. apply Forall2_app; [apply same_pad|exact IH].
    - repeat constructor.
    - pose proof (fi_draws g H) as F. apply Forall_concat in F. rewrite Forall_forall in F. rewrite <- (map_id (concat (g_draws g))) at 2.
      apply same_map. intros nd Hn. apply same_draw, F, Hn.
    - repeat constructor.
  Qed.
End Link.
Lemma leaf_e n : leaf (e_node n) <-> leaf n.
Proof. destruct n; reflexivity. Qed.
Lemma leaf_map ns : Forall leaf (map e_node ns) <-> Forall leaf ns.
Proof. rewrite Forall_map. split; intros H; (eapply Forall_impl; [|exact H]); intros n; apply leaf_e. Qed.
Lemma code_leaf g : fine_gb g -> Forall leaf (get_code g).
Proof.
  intros H. unfold get_code. repeat (apply Forall_app; split); try (repeat constructor).
  - apply Forall_map. apply Forall_forall. intros m _. exact I.
  - induction (g_pads g) as [|p l IH]; [constructor|]. cbn [flat_map]. apply Forall_app. split; [|exact IH].
    unfold pad_nodes. repeat (apply Forall_app; split).
    + destruct (p_function p); repeat constructor.
    + destruct (p_drill p); repeat constructor.
    + apply Forall_map. apply Forall_forall. intros m _. exact I.
    + repeat constructor.
    + destruct (p_function p), (p_drill p), (p_user p); repeat constructor.
  - pose proof (fi_draws g H) as F. apply Forall_concat in F. eapply Forall_impl; [|exact F]. intros n. destruct n; cbn; intros X; exact I || contradiction.
Qed.
Lemma read_drawn g b v h ws u fa ff fo : fine_gb g ->
  on_file recorder b (get_code g) (visitor_init []) = Ok v -> drawn h ws (v_ext v) ->
  exists f v', GramModel.parse rd (dumps g) = Ok f /\ on_file recorder b (nodes u fa ff fo f) (visitor_init []) = Ok v' /\ drawn h ws (v_ext v').
Proof.
  intros H E D. pose proof (same_code u fa ff fo g H) as S.
  pose proof (code_leaf g H) as L. assert (L' : Forall leaf (nodes u fa ff fo (map sign_cmd (get_file g)))) by (apply leaf_map; rewrite S; apply leaf_map, L).
  pose proof (e_on_file b _ L (visitor_init [])) as E1. pose proof (e_on_file b _ L' (visitor_init [])) as E2.
  rewrite S, E1, E in E2.
  destruct (on_file recorder b (nodes u fa ff fo (map sign_cmd (get_file g))) (visitor_init [])) as [v'|] eqn:E'; [|discriminate].
  exists (map sign_cmd (get_file g)), v'. split; [apply dumps_read, H|]. split; [exact E'|].
  assert (X : forall a b : vis, @Ok exc _ a = Ok b -> v_ext a = v_ext b) by (intros; congruence).
  apply X in E2. apply (alike_drawn h ws (v_ext v)); [exact D|exact E2].
Qed.

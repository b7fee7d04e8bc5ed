(** Property theorems C88: what metadata drawings carry (specification in [MetaSpec]). *)
From Verif Require Import Base Num Dict CoordModel CoordSpec CoordProofs Ast StateModel StateSpec StateProofs GeomModel
  ExprModel CompilerModel LayerSpec LayerProofs LayerInv LayerOut LayerProps DrawSpec DrawProofs DrawProps FlashSpec FlashProofs MetaSpec MetaProofs.

Section Theorems.
  Context {K : Type} {NK : Num K}.
  Notation H clock := (compiler_hooks (K := K) true clock).
  Notation point clock := (at_point (H clock) compiler_init).

  (** Asking for metadata changes nothing else: the program is the same but for the
      metadata, and failures are the same. *)
  Theorem C88_same_program :
    forall (clock : nat -> Z) (iter : str -> list str -> list str) (ips : bool) (ns : list (node K)),
      match compile true clock iter ips ns, compile false clock iter ips ns with
      | Ok with_meta, Ok without => without = map bare with_meta /\ Forall is_bare without
      | Err e, Err e' => e = e'
      | _, _ => False
      end.
  Proof.
    intros clock iter ips ns. rewrite (compile_bare clock iter true ips ns).
    destruct (compile true clock iter ips ns) as [l|e]; cbn [rmap]; [|reflexivity]. split; [reflexivity|].
    apply Forall_map, Forall_forall. intros c _. destruct c as [id o p|[s|p]|]; reflexivity || exact I.
  Qed.

  (** The property for objects: whatever a command adds to the image carries exactly the
      object attributes in force. *)
  Definition C88_objects (which : list (node K) -> node K -> Prop) : Prop :=
    forall clock pre v n v', point clock pre v -> drawn v <> None -> which pre n ->
      match n with NAB _ _ | NSR _ _ _ => False | _ => True end ->
      visit_leaf (H clock) n v = Done v' ->
      exists new, adds v v' new /\ Forall (fun d => labelled (as_obj (attributes pre)) (draw_meta d)) new.
  (** Partial: outside of regions, and without flashes of block apertures. *)
  Theorem C88_objects_partial :
    C88_objects (fun pre n => match n with ND01 _ _ _ _ => in_region pre = false | ND03 _ _ => selected_AD pre | _ => False end).
  Proof.
    intros clock pre v n v' Hp Hd Hw _ E. destruct n; try contradiction Hw.
    - eapply d01_labelled; eauto.
    - eapply d03_labelled; eauto.
  Qed.
  (** Regions never carry metadata. *)
  Theorem C88_region :
    forall clock pre v n v', point clock pre v -> drawn v <> None -> closes pre n = true ->
      visit_leaf (H clock) n v = Done v' ->
      exists new, adds v v' new /\ Forall (fun d => draw_meta d = None) new.
  Proof. intros clock pre v n v' Hp Hd Hc E. eapply closes_unlabelled; eauto. Qed.

  (** The property for apertures: whatever the layer of a new aperture holds carries exactly
      the aperture attributes in force. *)
  Definition C88_apertures (which : list (node K) -> ad K -> Prop) : Prop :=
    forall clock pre v a v', point clock pre v -> which pre a -> visit_leaf (H clock) (NAD a) v = Done v' ->
      exists b, d_get (ad_id a) (c_buffers (v_ext v')) = Some b /\
        Forall (fun d => labelled (as_ap (attributes pre)) (draw_meta d)) (bf_cmds b).
  (** Partial: without moirés and thermals in macros. *)
  Theorem C88_apertures_partial :
    C88_apertures (fun pre a => forall name l ps, ad_template a = TMacro name l -> macros_of pre name = Some ps ->
      Forall (fun p => ringed p = false) ps).
  Proof.
    intros clock pre v a v' Hp Hw E. destruct (attributes_point _ _ _ _ Hp) as (Ha & _).
    destruct (leaf_adef _ _ _ _ E) as (s & Es & ->). cbn [compiler_hooks hk_ad] in Es.
    assert (Hs : s_ap_attrs (v_state v') = s_ap_attrs (v_state v) /\ s_macros (v_state v') = s_macros (v_state v)).
    { cbn [visit_leaf] in E. unfold on_ad in E. apply lift_done in E as (-> & _). split; reflexivity. }
    destruct Hs as [H1 H2].
    set (P := fun m => labelled (as_ap (attributes pre)) m).
    apply (aperture_meta clock true P (fun _ => True)) in Es as (Es & _); auto.
    - exists (s_ap_attrs (v_state v')). rewrite H1. auto.
    - unfold aperture_ringed. rewrite H2. destruct (ad_template a) as [| | | |name l] eqn:Et; try discriminate.
      rewrite (macros_point true clock _ _ Hp). destruct (macros_of pre name) as [ps|] eqn:Em; [|discriminate].
      intros He. apply existsb_exists in He as (p & Hin & Hr). specialize (Hw name l ps eq_refl Em).
      rewrite Forall_forall in Hw. rewrite (Hw p Hin) in Hr. discriminate.
    - intros k b _. apply Forall_forall. intros; exact I.
  Qed.

  (** Wherever a drawing ends up (flashed, copied for a transformation, repeated), its
      metadata, if any, are the object or aperture attributes that were in force at some time. *)
  Theorem C88_sources :
    forall (clock : nat -> Z) (iter : str -> list str -> list str) (ips : bool) (ns : list (node K)) (cmds : list (cmd K)) (d : draw K),
      compile true clock iter ips ns = Ok cmds -> In (KDraw d) cmds -> draw_meta d <> None ->
      exists pre post, executed_file ips ns = pre ++ post /\
        (labelled (as_obj (attributes pre)) (draw_meta d) \/ labelled (as_ap (attributes pre)) (draw_meta d)).
  Proof.
    intros clock iter ips ns cmds d E Hin Hm. unfold compile in E.
    destruct (on_file (H clock) ips ns _) as [v|] eqn:Ev; [|discriminate]. cbn [bind] in E.
    assert (Hp := points_cover_files true clock ips ns v Ev). apply sourced_point in Hp.
    unfold convert, submit_order in E. destruct (get_buffer main_id _) as [main|]; [|discriminate]. cbn [bind] in E.
    destruct (resolve _ _ _ _ _) as [ids|]; [|discriminate]. cbn [bind] in E.
    destruct (get_buffers _ ids) as [l|] eqn:El; [|discriminate]. cbn [bind] in E. injection E as <-.
    apply in_flat_map in Hin as (b & Hb & Hin).
    assert (Hk : exists k, d_get k (c_buffers (v_ext v)) = Some b).
    { clear -El Hb. revert l El Hb. induction ids as [|i r IH]; intros l; cbn [get_buffers]; [intros E; injection E as <-; contradiction|].
      destruct (get_buffer i _) as [c|] eqn:Ec; [|discriminate]. cbn [bind]. destruct (get_buffers _ r) as [l'|]; [|discriminate]. cbn [bind].
      intros E; injection E as <-. intros [->|Hb]; [exists i; apply get_buffer_ok; exact Ec|eauto]. }
    destruct Hk as (k & Hk). unfold block_of in Hin. destruct Hin as [Hin|Hin]; [discriminate|].
    apply in_app_iff in Hin as [Hin|[Hin|[]]]; [|discriminate]. apply in_map_iff in Hin as (d' & Ed & Hin). injection Ed as ->.
    generalize (Hp k b Hk). intros Hall. unfold allb in Hall. rewrite Forall_forall in Hall. destruct (Hall _ Hin) as [Hn|Hs]; [contradiction|exact Hs].
  Qed.

  (** The program itself carries the file attributes at the end of the file. *)
  Theorem C88_file :
    forall (clock : nat -> Z) (ips : bool) (ns : list (node K)) (v : visitor K (cstate K)),
      on_file (H clock) ips ns (visitor_init compiler_init) = Ok v ->
      labelled (as_file (attributes (executed_file ips ns))) (compile_meta true v).
  Proof.
    intros clock ips ns v E. apply points_cover_files in E. destruct (attributes_point _ _ _ _ E) as (_ & Hf & _).
    exists (s_file_attrs (v_state v)). auto.
  Qed.
End Theorems.

(** *** Cases *)
Local Existing Instance NumQ.
Local Open Scope Q_scope.
Definition runm (ns : list (node Q)) := on_file (compiler_hooks true running) false ns (visitor_init compiler_init).
Definition net (s : string) : attr := MkAttr (lit ".N") [lit s].
Definition func (s : string) : attr := MkAttr (lit ".AperFunction") [lit s].
Definition metas (ns : list (node Q)) (id : str) : option (list meta) :=
  match runm ns with Ok v => option_map (fun b => map draw_meta (bf_cmds b)) (d_get id (c_buffers (v_ext v))) | Err _ => None end.
(** A net for a line and a flash, another for the next flash, none after the deletion; the
    function of the aperture stays with its layer. *)
Definition labels : list (node Q) :=
  [fs26; NTA (func "ViaPad"); adc "D10" 1; NTA (func "Other"); NDnn (lit "D10"); NTO (net "A"); to U "0"; ND03 None None;
   NTO (net "B"); ND03 None None; NTD None; ND03 None None; NTF (MkAttr (lit ".Part") [lit "Single"])].
Example C88_case :
  metas labels main_id = Some (map (fun l => Some (map (fun s => (lit ".N", net s)) l)) [["A"]; ["A"]; ["A"]; ["A"]; ["B"]; []]%string) /\
  metas labels (lit "D10") = Some [Some [(lit ".AperFunction", func "ViaPad")]] /\
  match runm labels with Ok v => compile_meta true v = Some [(lit ".Part", MkAttr (lit ".Part") [lit "Single"])] | Err _ => False end /\
  match compile true running (fun _ l => l) false labels, compile false running (fun _ l => l) false labels with
  | Ok a, Ok b => b = map bare a /\ existsb (fun c => match c with KDraw d => match draw_meta d with Some _ => true | None => false end | _ => false end) a = true
  | _, _ => False
  end.
Proof. split; [vm_compute; reflexivity|]. split; [vm_compute; reflexivity|]. split; [vm_compute; reflexivity|]. vm_compute. split; reflexivity. Qed.

(** Whether a file can be run, and then one more command, with a given outcome. *)
Definition probem (ns : list (node Q)) (n : node Q) (f : visitor Q (cstate Q) -> visitor Q (cstate Q) -> bool) : bool :=
  match runm ns with
  | Ok v => match visit_leaf (compiler_hooks true running) n v with Done v' => f v v' | _ => false end
  | Err _ => false
  end.
Lemma probem_point ns n f : executed_file false ns = ns -> probem ns n f = true ->
  exists v v', at_point (compiler_hooks true running) compiler_init ns v /\
    visit_leaf (compiler_hooks true running) n v = Done v' /\ f v v' = true.
Proof.
  unfold probem. intros Ee HP. destruct (runm ns) as [v|] eqn:Ev; [|discriminate].
  destruct (visit_leaf _ n v) as [v'|v'|e] eqn:E; try discriminate. exists v, v'. split; [|auto].
  rewrite <- Ee. exact (points_cover_files true running false ns v Ev).
Qed.
Definition no_meta (d : draw Q) : bool := match draw_meta d with None => true | Some _ => false end.

(** Every region loses the attributes of its object: [_get_region_metadata] forgets to return them. *)
Definition net_region : list (node Q) := [fs26; NTO (net "GND"); NG G36; go "0" "0"; to U "0"; to U U; to "0" "0"].
Theorem C88_region_refuted : ~ C88_objects (fun pre (n : node Q) => closes pre n = true).
Proof.
  intros S. destruct (probem_point net_region (NG G37) (fun v v' =>
    match drawn v, drawn v' with Some [], Some [d] => no_meta d | _, _ => false end)) as (v & v' & Hp & E & Hd); [reflexivity|vm_compute; reflexivity|].
  destruct (drawn v) as [[|]|] eqn:D1; try discriminate. destruct (drawn v') as [[|d [|]]|] eqn:D2; try discriminate.
  destruct (S running net_region v (NG G37) v' Hp) as (new & (old & A1 & A2) & Hl); [congruence|reflexivity|exact Logic.I|exact E|].
  rewrite D1 in A1. injection A1 as <-. rewrite D2 in A2. injection A2 as <-. inversion Hl as [|? ? (t & Ht & _) _]. unfold no_meta in Hd. rewrite Ht in Hd. discriminate.
Qed.
Example C88_region_attributes : as_obj (attributes net_region) (lit ".N") = Some (net "GND").
Proof. reflexivity. Qed.

(** Rings of moirés and thermals lose the attributes of their aperture. *)
Definition moire : prim Q := PCode6 (EConst 0) (EConst 0) (EConst 10) (EConst 1) (EConst 1) (EConst 2) (EConst 1) (EConst 6) (EConst 0).
Definition thermal : prim Q := PCode7 1 (EConst 0) (EConst 0) (EConst 3) (EConst 2) (EConst (1 # 4)) (EConst 0).
Definition with_macro (p : prim Q) : list (node Q) := [fs26; NTA (func "ViaPad"); NAM (lit "M") [PCode0 (lit "x"); p]].
Definition of_macro : ad Q := MkAD (lit "D10") (TMacro (lit "M") None).
Example C88_macro_case :
  metas (with_macro moire ++ [NAD of_macro]) (lit "D10") =
    Some (let f := Some [(lit ".AperFunction", func "ViaPad")] in [f; f; None; None; None; None]) /\
  metas (with_macro thermal ++ [NAD of_macro]) (lit "D10") = Some [None] /\
  metas (with_macro (PCode1 (EConst 1) (EConst 1) (EConst 0) (EConst 0) None) ++ [NAD of_macro]) (lit "D10") = Some [Some [(lit ".AperFunction", func "ViaPad")]].
Proof. split; [vm_compute; reflexivity|]. split; vm_compute; reflexivity. Qed.
Theorem C88_rings_refuted : forall p, In p [moire; thermal] ->
  ~ C88_apertures (fun pre (a : ad Q) => ad_template a = TMacro (lit "M") None /\ macros_of pre (lit "M") = Some [PCode0 (lit "x"); p]).
Proof.
  intros p Hin S. destruct (probem_point (with_macro p) (NAD of_macro) (fun _ v' =>
    match d_get (lit "D10") (c_buffers (v_ext v')) with Some b => existsb no_meta (bf_cmds b) | None => false end)) as (v & v' & Hp & E & Hx).
  - reflexivity.
  - destruct Hin as [<-|[<-|[]]]; vm_compute; reflexivity.
  - destruct (S running _ v of_macro v' Hp) as (b & Hb & Hl); [split; reflexivity|exact E|].
    change (ad_id of_macro) with (lit "D10") in Hb. rewrite Hb in Hx. apply existsb_exists in Hx as (d & Hd & Hm).
    rewrite Forall_forall in Hl. destruct (Hl d Hd) as (t & Ht & _). unfold no_meta in Hm. rewrite Ht in Hm. discriminate.
Qed.

Print Assumptions C88_same_program.
Print Assumptions C88_objects_partial.
Print Assumptions C88_region.
Print Assumptions C88_apertures_partial.
Print Assumptions C88_sources.
Print Assumptions C88_file.
Print Assumptions C88_region_refuted.
Print Assumptions C88_rings_refuted.

(** C92 for files the parser yields: their D codes and definitions are as the theorems of
    [CompProps] ask. *)
From Verif Require Import Base Num Dict CoordModel CoordSpec Ast StateModel StateSpec StateProofs StateProps.
From Verif Require Import GramAst PegModel GramModel FmtModel GramText GramExpr GramExprRt GramExprSpec NumTextModel GramNum GramTok GramWf GramFileSpec GramExact GramProps.
From Verif Require LenSpec LenProofs LenProps ResModel ResSpec ResProps.
From Verif Require Import LinkModel LinkProofs CompModel CompSpec CompProofs CompProps.
Local Open Scope nat_scope.

Section Parsed.
  Context {K T : Type} {NK : Num K} (rd : reader K T) (w : writer K T).
  Context (u : nat -> Z) (fa : ta K -> list str) (ff : tf T -> list str) (fo : to K -> list str).
  Notation links := (@links K T u fa ff fo).
  Notation link := (@link K T u fa ff fo).
  Definition good (n : node K) : Prop :=
    match n with NAD a => wf_leaf rd (CAD a) | NAB id _ => id_text id | _ => True end.
  Definition runs_good (c : cmd K T) : Prop := forall n, Forall good (fst (executed (fst (link c n)))).
  Lemma exec_good body : Forall runs_good body -> forall n, Forall good (fst (exec_list executed (fst (links body n)))).
  Proof.
    induction 1 as [|c l Hc _ IH]; intros n; [constructor|]. cbn [LinkModel.links]. specialize (Hc n). destruct (link c n) as [x m]. specialize (IH m).
    destruct (links l m) as [r k]. cbn [fst] in *. cbn [exec_list]. destruct (executed x) as [a stop]. cbn [fst] in Hc. destruct stop; [exact Hc|].
    fold (exec_list executed r). destruct (exec_list executed r) as [b st]. cbn [fst] in *. apply Forall_app. auto.
  Qed.
  Lemma file_good b body : Forall runs_good body -> forall n, Forall good (executed_file b (fst (links body n))).
  Proof.
    induction 1 as [|c l Hc _ IH]; intros n; [constructor|]. cbn [LinkModel.links]. specialize (Hc n). destruct (link c n) as [x m]. specialize (IH m).
    destruct (links l m) as [r k]. cbn [fst] in *. cbn [executed_file]. destruct (executed x) as [a stop]. cbn [fst] in Hc. destruct (stop && b)%bool; [exact Hc|apply Forall_app; auto].
  Qed.
  Lemma leaf_good c : wf_leaf rd c -> runs_good c.
  Proof.
    intros Hw n. destruct c; try contradiction; cbn [LinkModel.link LinkModel.link_leaf fst executed]; try (repeat constructor; fail).
    - constructor; [exact Hw|constructor].
    - destruct (link_prims u prims n) as [ps k]. repeat constructor.
  Qed.
  Lemma d_good sa c : wf_d sa c -> runs_good c.
  Proof. intros Hw n. destruct c; try contradiction; repeat constructor. Qed.
  Lemma item_good m : forall l, GramWf.item rd m l -> Forall runs_good l.
  Proof.
    assert (S : forall P : list (cmd K T) -> Prop, (forall l, P l -> Forall runs_good l) -> forall l,
      (exists c, l = [c] /\ wf_leaf rd c) \/ (exists g d, l = [CG false g; d] /\ wf_d false d) \/ P l -> Forall runs_good l).
    { intros P HP l [(c & -> & Hw)|[(g & d & -> & Hd)|H]]; [constructor; [apply leaf_good, Hw|constructor]| |exact (HP l H)].
      constructor; [intros n; repeat constructor|]. constructor; [exact (d_good _ _ Hd)|constructor]. }
    induction m as [|m IH]; intros l H; [apply (S (fun _ => False)); [contradiction|exact H]|].
    apply (S (fun l => exists id b, l = [CAB id (concat b)] /\ id_text id /\ Forall (GramWf.item rd m) b)); [|exact H].
    clear l H. intros l (id & b & -> & Hid & Hb). constructor; [|constructor]. intros n. rewrite link_ab.
    assert (B : Forall runs_good (concat b)) by (apply Forall_concat; eapply Forall_impl; [|exact Hb]; exact IH).
    pose proof (exec_good _ B n) as G. destruct (links (concat b) n) as [body k]. cbn [fst] in *. cbn [executed].
    destruct (exec_list executed body) as [l stop]. cbn [fst] in G. destruct stop; [exact G|]. apply Forall_app. split; [exact G|]. constructor; [exact Hid|constructor].
  Qed.
  Lemma parsed_runs text f : parse rd text = Ok f -> Forall runs_good f.
  Proof.
    intros Hp. pose proof (parse_wf rd text) as W. rewrite Hp in W. destruct W as (m & l & -> & _ & Hr).
    apply Forall_concat. eapply Forall_impl; [|exact Hr]. intros x [Hx|(h & c & -> & _ & Hb)]; [exact (item_good m x Hx)|].
    constructor; [|constructor]. intros n. rewrite link_sr.
    assert (B : Forall runs_good (concat c)) by (apply Forall_concat; eapply Forall_impl; [|exact Hb]; apply item_good).
    pose proof (exec_good _ B (S n)) as G. destruct (links (concat c) (S n)) as [body k]. exact G.
  Qed.
  Lemma parsed_good text f b : parse rd text = Ok f -> Forall good (executed_file b (nodes u fa ff fo f)).
  Proof. intros Hp. apply file_good, (parsed_runs text f Hp). Qed.
  (** The document of the server comes from the resilient parser; visitors pass over [Invalid]
      nodes ([on_invalid], [ast_visitor.py] 796-798, does nothing). *)
  Definition commands (l : list (ResModel.rnode K T)) : list (cmd K T) :=
    flat_map (fun r => match r with ResModel.Parsed c => [c] | ResModel.Invalid _ => [] end) l.
  Lemma resilient_good text l b : ResModel.parse_resilient rd text = Ok l -> Forall good (executed_file b (nodes u fa ff fo (commands l))).
  Proof.
    intros Hp. apply file_good. destruct (LenProps.C66_pieces_alone _ _ rd text l Hp) as (ps & <- & C). clear Hp.
    induction C as [w' Hw|w' t ns s ps Hw Hne Hh Hok Hcut IH]; [constructor|]. cbn [map snd concat]. unfold commands. rewrite flat_map_app. apply Forall_app. split; [|exact IH].
    destruct Hok as [(cs & -> & E)|(-> & _)]; [|constructor].
    replace (flat_map _ (map ResModel.Parsed cs)) with cs; [exact (parsed_runs _ _ E)|]. clear. induction cs as [|c cs IHc]; [reflexivity|]. cbn. f_equal. exact IHc.
  Qed.

  (** The commands of a document are its parsed nodes, in order; for a text the strict parser
      reads they are the file it yields. *)
  Theorem C92_commands :
    (forall l, map ResModel.Parsed (commands l) = filter (fun r => match r with ResModel.Parsed _ => true | ResModel.Invalid _ => false end) l) /\
    (forall text f, parse rd text = Ok f -> exists l, ResModel.parse_resilient rd text = Ok l /\ commands l = f).
  Proof.
    split.
    - induction l as [|[c|t] l IH]; [reflexivity| |]; cbn; [f_equal|]; exact IH.
    - intros text f Hp. exists (map ResModel.Parsed f). split; [apply ResProps.C66_same_as_strict, Hp|].
      clear. induction f as [|c f IH]; [reflexivity|]. cbn. f_equal. exact IH.
  Qed.

  (** The D code offered in a file that was read is new. *)
  Theorem C92_new_code_read_partial : forall text f v, parse rd text = Ok f ->
    let ns := nodes u fa ff fo f in
    on_file (no_hooks (K := K)) true ns (visitor_init tt) = Ok v ->
    (exists n id d, In n (executed_file true ns) /\ defines n = Some (id, d)) ->
    exists c, extended_snippets (Some (v_state v)) = Ok (ad_snippets c ++ other_snippets) /\ (11 <= c)%Z /\
      forall n id d, In n (executed_file true ns) -> defines n = Some (id, d) -> exists m, dcode id m /\ (m < c)%Z.
  Proof.
    intros text f v Hp ns E Hd. apply (C92_new_code_partial ns v E); [|exact Hd]. intros n id d I D.
    pose proof (parsed_good text f true Hp) as G. rewrite Forall_forall in G. specialize (G n I). destruct n; try discriminate D; injection D as <- _; [exact G|exact (proj1 G)].
  Qed.
  Lemma last_in id cmds a : last_ad id cmds = Some a -> In (NAD (K := K) a) cmds.
  Proof.
    induction cmds as [|n l IH] using rev_ind; [discriminate|]. rewrite last_ad_snoc. rewrite in_app_iff. intros E. destruct n; auto.
    destruct (str_eqb id (ad_id a0)); [injection E as ->; right; left; reflexivity|auto].
  Qed.
  (** The text shown with an aperture is read as its last definition. *)
  Theorem C92_shown_read_partial : forall text f v, parse rd text = Ok f ->
    let ns := nodes u fa ff fo f in
    on_file (no_hooks (K := K)) true ns (visitor_init tt) = Ok v ->
    forall id t, In (MkItem id KFunction t) (aperture_items w (v_state v)) ->
      exists a, last_ad id (executed_file true ns) = Some a /\ (clean rd w (CAD a) -> parse rd t = Ok [CAD a]).
  Proof.
    intros text f v Hp ns E id t I. apply (proj1 (C92_apertures w ns v E)) in I as (a & L & ->). exists a. split; [exact L|]. intros Hc.
    apply (C92_shown_partial rd w a); [|exact Hc]. pose proof (parsed_good text f true Hp) as G. rewrite Forall_forall in G. exact (G _ (last_in _ _ _ L)).
  Qed.

  (** The same for the documents of the server, whatever their texts. *)
  Theorem C92_document_partial : forall text l v, ResModel.parse_resilient rd text = Ok l ->
    let ns := nodes u fa ff fo (commands l) in
    on_file (no_hooks (K := K)) true ns (visitor_init tt) = Ok v ->
    ((exists n id d, In n (executed_file true ns) /\ defines n = Some (id, d)) ->
     exists c, extended_snippets (Some (v_state v)) = Ok (ad_snippets c ++ other_snippets) /\ (11 <= c)%Z /\
       forall n id d, In n (executed_file true ns) -> defines n = Some (id, d) -> exists m, dcode id m /\ (m < c)%Z) /\
    forall id t, In (MkItem id KFunction t) (aperture_items w (v_state v)) ->
      exists a, last_ad id (executed_file true ns) = Some a /\ (clean rd w (CAD a) -> parse rd t = Ok [CAD a]).
  Proof.
    intros text l v Hp ns E. pose proof (resilient_good text l true Hp) as G. fold ns in G. rewrite Forall_forall in G. split.
    - intros Hd. apply (C92_new_code_partial ns v E); [|exact Hd]. intros n id d I D. specialize (G n I). destruct n; try discriminate D; injection D as <- _; [exact G|exact (proj1 G)].
    - intros id t I. apply (proj1 (C92_apertures w ns v E)) in I as (a & L & ->). exists a. split; [exact L|]. intros Hc.
      apply (C92_shown_partial rd w a); [|exact Hc]. exact (G _ (last_in _ _ _ L)).
  Qed.
  Lemma not_blank t l : parse rd t = Ok l -> ~ LenSpec.blank t.
  Proof.
    intros Ht Hb. apply LenProofs.blank_ws in Hb. rewrite LenProofs.parse_run, LenProofs.run_nil in Ht by (apply LenProofs.expand_blank; exact Hb). discriminate.
  Qed.
  (** Wherever commands stand before and behind it, a filled in text adds its command there. *)
  Theorem C92_inserted : forall a t b la c lb, parse rd a = Ok la -> parse rd t = Ok [c] -> parse rd b = Ok lb ->
    ~ In "009"%char (t ++ b) -> parse rd (a ++ t ++ b) = Ok (la ++ c :: lb).
  Proof.
    intros a t b la c lb Ha Ht Hb Hn. pose proof (not_blank _ _ Hb) as Hbb.
    assert (Htb : parse rd (t ++ b) = Ok (c :: lb)).
    { rewrite (proj2 (LenProps.C89_concat _ _ rd t b [c] (or_introl (fun I => Hn (in_or_app _ _ _ (or_intror I)))) Ht) Hbb), Hb. reflexivity. }
    rewrite (proj2 (LenProps.C89_concat _ _ rd a (t ++ b) la (or_introl Hn) Ha) (not_blank _ _ Htb)), Htb. reflexivity.
  Qed.
End Parsed.

Local Existing Instance NumQ.
(** A file with a block inside a block, read from its text. *)
Example C92_read_case :
  let text := lit "%FSLAX46Y46*%%ADD10C,0.5*%%ABD12*%%ABD0015*%D10*%AB*%%AB*%%ADD10R,1X2*%M02*" in
  exists f v, parse q_reader text = Ok f /\ on_file no_hooks true (nodes (fun _ => 0%Z) (fun _ => []) (fun _ => []) (fun _ => []) f) (visitor_init tt) = Ok v /\
    extended_snippets (Some (v_state v)) = Ok (ad_snippets 16 ++ other_snippets) /\
    aperture_items (q_writer (-1) TrimYes) (v_state v) =
      [MkItem (lit "D10") KFunction (line "%ADD10R,1.0X2.0*%"); MkItem (lit "D0015") KMethod (line "%ABD0015*%"); MkItem (lit "D12") KMethod (line "%ABD12*%")].
Proof. eexists. eexists. split; [vm_compute; reflexivity|]. split; [vm_compute; reflexivity|]. vm_compute. auto. Qed.

(** A text with a line that is no command. *)
Example C92_document_case :
  exists l v, ResModel.parse_resilient q_reader (lit "%ADD10C,0.5*%" ++ lit (String "010" "") ++ line "D1" ++ lit "%ADD12C,2*%") = Ok l /\
    commands l = [CAD (MkAD (lit "D10") (TCircle (1 # 2)%Q None)); CAD (MkAD (lit "D12") (TCircle 2%Q None))] /\ length l = 3 /\
    on_file no_hooks true (nodes (fun _ => 0%Z) (fun _ => []) (fun _ => []) (fun _ => []) (commands l)) (visitor_init tt) = Ok v /\
    extended_snippets (Some (v_state v)) = Ok (ad_snippets 13 ++ other_snippets).
Proof. eexists. eexists. split; [vm_compute; reflexivity|]. split; [vm_compute; reflexivity|]. split; [reflexivity|]. split; vm_compute; reflexivity. Qed.
(** A definition that was filled in, between two commands. *)
Example C92_inserted_case :
  parse q_reader (lit "%MOMM*%" ++ (lit "%" ++ filled (by_name [("diameter"%string, lit "0.25")]) (hd [] (ad_snippets 10)) ++ lit "%") ++ lit "M02*") =
    Ok [CMO Metric; CAD (MkAD (lit "D10") (TCircle (1 # 4)%Q None)); CM02].
Proof. vm_compute. reflexivity. Qed.

Print Assumptions C92_new_code_read_partial.
Print Assumptions C92_shown_read_partial.
Print Assumptions C92_inserted.
Print Assumptions C92_commands.
Print Assumptions C92_document_partial.

(** C92 in the language server: the answers to a completion request after a document was opened.
    Finding the node at a position, hover texts and the hash are parameters. *)
From Verif Require Import Base Num Dict CoordModel Ast StateModel StateSpec StateProofs StateProps.
From Verif Require Import GramAst PegModel GramModel FmtModel NumTextModel GramNum GramExact.
From Verif Require Import ResModel LinkModel LockModel LsModel LsSpec CompModel CompSpec CompProps CompFileProps.
From Verif Require LayerOut.
Local Open Scope nat_scope.

Section Serve.
  Context {K T Node Pos Range : Type} {NK : Num K} (rd : reader K T) (w : writer K T).
  Context (u : nat -> Z) (fa : ta K -> list str) (ff : tf T -> list str) (fo : to K -> list str).
  Notation ast := (list (rnode K T)).
  Context (sha : str -> str) (find_node : ast -> Pos -> option (option Node)) (markdown : ast -> Node -> option str)
          (source : Node -> option Range) (invalid : Node -> option str).
  (** [load_ast_from_code] 47-58 and [get_gerber_state] 173-183 with the parser and the tracker. *)
  Definition track (l : ast) : option (state K) :=
    match on_file no_hooks true (nodes u fa ff fo (commands l)) (visitor_init tt) with Ok v => Some (v_state v) | Err _ => None end.
  Definition server_lib : gerber_lib ast (state K) Node Pos Range (list item) Z :=
    {| g_sha := sha; g_parse := fun t => match parse_resilient rd t with Ok l => Some l | Err _ => None end;
       g_find := find_node; g_markdown := markdown; g_source := source; g_invalid := invalid; g_track := track;
       g_items := fun s => Some (aperture_items w s);
       g_next_code := fun s => match next_free_code s with Ok c => Some c | Err _ => None end |}.
  Definition session (uri text : str) (p : Pos) : list (option (answer Range (list item) Z)) :=
    respond_all server_lib (fun _ => true)
      [{| rq_kind := KOpen; rq_uri := uri; rq_par := {| p_text := text; p_pos := p |} |};
       {| rq_kind := KCompletion; rq_uri := uri; rq_par := {| p_text := []; p_pos := p |} |}] (fun _ => None).

  Lemma session_is uri text p l : parse_resilient rd text = Ok l -> session uri text p = [Some ANothing; completion_of server_lib l p].
  Proof.
    intros Hp. unfold session. cbn [respond_all respond rq_kind rq_uri rq_par p_text p_pos fst snd g_parse server_lib]. unfold set_text, tree. cbn [g_parse server_lib]. rewrite str_eqb_refl, Hp. reflexivity.
  Qed.
  Lemma snippets_inj a b : ad_snippets a ++ other_snippets = ad_snippets b ++ other_snippets -> a = b.
  Proof.
    intros E. apply (f_equal (hd [])) in E. cbn [ad_snippets app hd] in E. injection E as E. apply LayerOut.z_repr_inj.
    exact (app_inv_tail _ _ _ E).
  Qed.

  (** On an unfinished D code: the apertures of the text; on an unfinished extended command: a D
      code that is free. *)
  Theorem C92_session_partial : forall uri text p l n x v, parse_resilient rd text = Ok l ->
    find_node l p = Some (Some n) -> invalid n = Some x ->
    let ns := nodes u fa ff fo (commands l) in
    on_file (no_hooks (K := K)) true ns (visitor_init tt) = Ok v ->
    (forall r, x = "D"%char :: r -> session uri text p = [Some ANothing; Some (AApertures (aperture_items w (v_state v)))]) /\
    (forall r, x = "%"%char :: r -> (exists n id d, In n (executed_file true ns) /\ defines n = Some (id, d)) ->
       exists c, session uri text p = [Some ANothing; Some (AExtended (Some c))] /\ (11 <= c)%Z /\
         forall n id d, In n (executed_file true ns) -> defines n = Some (id, d) -> exists m, dcode id m /\ (m < c)%Z).
  Proof.
    intros uri text p l n x v Hp Hf Hi ns E. subst ns. split.
    - intros r ->. rewrite (session_is uri text p l Hp). unfold completion_of. cbn [g_find g_invalid g_track g_items server_lib]. rewrite Hf, Hi. unfold track. rewrite E. reflexivity.
    - intros r -> Hd. destruct (proj1 (C92_document_partial rd w u fa ff fo text l v Hp E) Hd) as (c & Hs & Hc). exists c. split; [|exact Hc].
      cbn [extended_snippets] in Hs. destruct (next_free_code (v_state v)) as [c'|] eqn:En; [|discriminate]. cbn [bind] in Hs.
      assert (c' = c) as -> by (apply snippets_inj; congruence).
      rewrite (session_is uri text p l Hp). unfold completion_of. cbn [g_find g_invalid g_track g_next_code server_lib]. rewrite Hf, Hi. unfold track. rewrite E, En. reflexivity.
  Qed.
  (** In a text that defines no aperture the request for an extended command fails. *)
  Theorem C92_session_refuted : forall uri text p l n r v, parse_resilient rd text = Ok l ->
    find_node l p = Some (Some n) -> invalid n = Some ("%"%char :: r) ->
    let ns := nodes u fa ff fo (commands l) in
    on_file (no_hooks (K := K)) true ns (visitor_init tt) = Ok v ->
    (forall n, In n (executed_file true ns) -> defines n = None) -> session uri text p = [Some ANothing; None].
  Proof.
    intros uri text p l n r v Hp Hf Hi ns E Hn. pose proof (C92_no_aperture_refuted ns v E Hn) as Hs. cbn [extended_snippets] in Hs.
    destruct (next_free_code (v_state v)) as [c|] eqn:En; [discriminate|].
    rewrite (session_is uri text p l Hp). unfold completion_of. cbn [g_find g_invalid g_track g_next_code server_lib]. rewrite Hf, Hi. unfold track. subst ns. rewrite E, En. reflexivity.
  Qed.
End Serve.

Local Existing Instance NumQ.
(** Nodes are found by their number; behind a D or a percent sign. *)
Definition asked (text : str) (p : nat) : list (option (answer nat (list item) Z)) :=
  session q_reader (q_writer (-1) TrimYes) (fun _ => 0%Z) (fun _ => []) (fun _ => []) (fun _ => []) (fun t => t)
    (fun l p => Some (nth_error l p)) (fun _ _ => None) (fun _ => None)
    (fun n => match n with Invalid t => Some t | Parsed _ => None end) (lit "a.gbr") text p.
Example C92_session_case :
  asked (line "%ADD10C,0.5*%" ++ line "D1") 1 = [Some ANothing; Some (AApertures [MkItem (lit "D10") KFunction (line "%ADD10C,0.5*%")])] /\
  asked (line "%ADD10C,0.5*%" ++ line "%") 1 = [Some ANothing; Some (AExtended (Some 11%Z))] /\
  asked (line "%MOMM*%" ++ line "%") 1 = [Some ANothing; None].
Proof. repeat split; vm_compute; reflexivity. Qed.

Print Assumptions C92_session_partial.
Print Assumptions C92_session_refuted.

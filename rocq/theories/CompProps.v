(** C92: completions of the language server: the apertures offered are those the file defines, and
    what is inserted is the command it is offered as. *)
From Verif Require Import Base Num Dict CoordModel CoordSpec CoordProofs Ast StateModel StateSpec StateProofs StateProps MdEffectProps.
From Verif Require Import GramAst PegModel GramModel FmtModel GramText GramExpr GramExprRt GramExprSpec NumTextModel NumTextProofs
  GramNum GramTok GramWf GramFileSpec GramExact GramProps DumpProofs.
From Verif Require Import CompModel CompSpec CompProofs.
Local Open Scope nat_scope.

Section Offered.
  Context {K T : Type} {NK : Num K} (rd : reader K T) (w : writer K T).
  (** The state is the one [get_gerber_state] 173-183 computes: the walk ends at the first M00 or
      M02.  An item for every D code with its last definition, an item for every block, none
      twice. *)
  Theorem C92_apertures : forall ns v, on_file (no_hooks (K := K)) true ns (visitor_init tt) = Ok v ->
    let cmds := executed_file true ns in
    let offered := aperture_items w (v_state v) in
    (forall id t, In (MkItem id KFunction t) offered <-> exists a, last_ad id cmds = Some a /\ t = formats w default_options [CAD a]) /\
    (forall id t, In (MkItem id KMethod t) offered <-> block_defined id cmds /\ t = lit "%AB" ++ id ++ lit "*%" ++ lit (String "010" "")) /\
    NoDup (map (fun i => (i_kind i, i_label i)) offered).
  Proof.
    intros ns v E cmds offered. destruct (stored_file _ _ _ _ _ E) as (Ha & Hb & Na & Nb). fold cmds in Ha, Hb. subst offered. unfold aperture_items.
    split; [|split].
    - intros id t. rewrite in_app_iff, !in_map_iff. split.
      + intros [([k a] & Ei & I)|([k a] & Ei & I)]; [|discriminate Ei]. injection Ei as -> <-. exists a. rewrite <- Ha. split; [apply d_get_in; assumption|reflexivity].
      + intros (a & Hl & ->). left. exists (id, a). split; [reflexivity|]. apply d_get_in; [exact Na|]. rewrite Ha. exact Hl.
    - intros id t. rewrite in_app_iff, !in_map_iff. split.
      + intros [([k a] & Ei & I)|([k a] & Ei & I)]; [discriminate Ei|]. injection Ei as -> <-. apply d_get_in in I; [|exact Nb]. apply Hb in I as [-> I]. split; [exact I|reflexivity].
      + intros (Hd & ->). right. exists (id, id). split; [reflexivity|]. apply d_get_in; [exact Nb|]. apply Hb. auto.
    - rewrite map_app, !map_map. cbn [ad_item ab_item i_kind i_label].
      assert (P : forall {V} (k : item_kind) (d : dict V), NoDup (d_keys d) -> NoDup (map (fun x => (k, fst x)) d)).
      { intros V k d. unfold d_keys. induction d as [|[a x] d IH]; intros Hn; [constructor|]. inversion Hn as [|? ? H1 H2]; subst. cbn. constructor; [|auto].
        rewrite in_map_iff in *. intros ([b y] & Eq & I). injection Eq as ->. apply H1. exists (a, y). auto. }
      assert (Q : forall l1 l2 : list (item_kind * str), NoDup l1 -> NoDup l2 -> (forall x, In x l1 -> ~ In x l2) -> NoDup (l1 ++ l2)).
      { induction l1 as [|x l1 IH]; intros l2 H1 H2 H3; [exact H2|]. inversion H1 as [|? ? N1 N2]; subst. cbn. constructor.
        - rewrite in_app_iff. intros [I|I]; [exact (N1 I)|exact (H3 x (or_introl eq_refl) I)].
        - apply IH; [exact N2|exact H2|]. intros y I. apply H3. right. exact I. }
      apply Q; [apply P, Na|apply P, Nb|]. intros x. rewrite !in_map_iff. intros (y & <- & _) (z & Ez & _). discriminate Ez.
  Qed.

  (** The text shown for an aperture is its definition.  Left out: values that do not survive
      formatting, see C43. *)
  Theorem C92_shown_partial : forall a, wf_leaf rd (CAD a) -> clean rd w (CAD a) -> parse rd (i_detail (ad_item w (ad_id a, a))) = Ok [CAD a].
  Proof. intros a Hw Hc. cbn [i_detail ad_item snd]. apply one_read; try reflexivity; try assumption. repeat (split; [reflexivity|]). repeat constructor. Qed.

  (** ** Definitions to be filled in *)
  Definition by_name (l : list (string * str)) : ascii -> str -> str :=
    fun _ n => match find (fun x => str_eqb n (lit (fst x))) l with Some x => snd x | None => [] end.
  (** With any numbers filled in, and closed, each is the definition of the new D code. *)
  Theorem C92_definitions : forall c diameter width height hole outer rotation vertices, (10 <= c)%Z ->
    Forall (kept rd w) [diameter; width; height; hole; outer; rotation] ->
    let f := by_name [("diameter", w_num w diameter); ("width", w_num w width); ("height", w_num w height); ("hole_diameter", w_num w hole);
                      ("outer_diameter", w_num w outer); ("rotation", w_num w rotation); ("vertices", z_repr vertices)]%string in
    Forall2 (fun s t => parse rd (lit "%" ++ filled f s ++ lit "%") = Ok [CAD (MkAD (lit "D" ++ z_repr c) t)]) (ad_snippets c)
      [TCircle diameter None; TCircle diameter (Some hole); TRect width height None; TRect width height (Some hole);
       TObround width height None; TObround width height (Some hole);
       TPolygon outer vertices (Some rotation) None; TPolygon outer vertices (Some rotation) (Some hole)].
  Proof.
    intros c di wi he ho ou ro ve Hc Hk f. pose proof (id_new c Hc) as Hid.
    assert (N : forall k, kept rd w k -> num_ok rd k) by (intros k [H1 H2]; exists (w_num w k); auto).
    repeat match goal with H : Forall _ (_ :: _) |- _ => apply Forall_cons_iff in H as [? H] end.
    assert (KO : forall k, kept rd w k -> kept_opt (kept rd w) (Some k)) by (intros k H' a Ea; congruence).
    assert (KN : kept_opt (kept rd w) None) by (intros a Ea; discriminate).
    unfold ad_snippets. repeat constructor;
      (apply (tight_read _ _ _ w);
        [split; [exact Hid|cbn; repeat split; auto; try discriminate]
        |cbn [clean clean_leaf ad_template clean_template]; auto 10
        |rewrite filled_ad by lia; unfold formats; cbn [fmt_cmds fmt_cmd fmt_leaf fmt_template fst ad_template ad_id];
         unfold ext, opt_num; cbn [option_map FmtModel.opt_text]; cbv [tight_options init indent_text op_strip_whitespace f_lf];
         match goal with |- context [filled f (lit ?s)] => let t := eval cbv [f filled by_name find str_eqb fst snd lit list_ascii_of_string pieces put map concat app Ascii.eqb Bool.eqb andb] in (filled f (lit s)) in change (filled f (lit s)) with t end;
         cbn [lit list_ascii_of_string app]; repeat (rewrite <- ?app_assoc; cbn [app]); reflexivity]).
  Qed.
  (** The places are numbered in their order. *)
  Theorem C92_places : forall c, (10 <= c)%Z -> Forall2 (fun s n => numbers s = firstn n (lit "1234")) (ad_snippets c) [1; 2; 2; 3; 2; 3; 3; 4].
  Proof. intros c Hc. unfold ad_snippets. repeat constructor; rewrite numbers_ad by lia; vm_compute; reflexivity. Qed.

  (** The D code offered is one the grammar takes and no aperture of the file has. *)
  Theorem C92_new_code_partial : forall ns v, on_file (no_hooks (K := K)) true ns (visitor_init tt) = Ok v ->
    (forall n id d, In n (executed_file true ns) -> defines n = Some (id, d) -> id_text id) ->
    (exists n id d, In n (executed_file true ns) /\ defines n = Some (id, d)) ->
    exists c, extended_snippets (Some (v_state v)) = Ok (ad_snippets c ++ other_snippets) /\ (11 <= c)%Z /\
      forall n id d, In n (executed_file true ns) -> defines n = Some (id, d) -> exists m, dcode id m /\ (m < c)%Z.
  Proof.
    intros ns v E Hid (n0 & id0 & d0 & I0 & D0).
    destruct (C10_next_code_is_larger_partial _ no_hooks tt true ns v E) as (c & Ec & Hc).
    - intros n id d I D. destruct (id_number id (Hid n id d I D)) as (m & Hm & _). eauto.
    - eauto.
    - exists c. split; [cbn [extended_snippets]; rewrite Ec; reflexivity|]. split.
      + destruct (id_number id0 (Hid _ _ _ I0 D0)) as (m & Hm & L). specialize (Hc _ _ _ m I0 D0 Hm). lia.
      + intros n id d I D. destruct (id_number id (Hid n id d I D)) as (m & Hm & _). eauto.
  Qed.
  (** In a file that defines no aperture the request fails, with nothing offered. *)
  Theorem C92_no_aperture_refuted : forall ns v, on_file (no_hooks (K := K)) true ns (visitor_init tt) = Ok v ->
    (forall n, In n (executed_file true ns) -> defines n = None) -> extended_snippets (Some (v_state v)) = Err EValueError.
  Proof.
    intros ns v E Hn. destruct (stored_file _ _ _ _ _ E) as (Ha & Hb & _). cbn [extended_snippets]. unfold next_free_code.
    assert (A : s_apertures (v_state v) = []).
    { destruct (s_apertures (v_state v)) as [|[k a] r] eqn:Es; [reflexivity|]. exfalso. specialize (Ha k). cbn [d_get] in Ha. rewrite str_eqb_refl in Ha.
      symmetry in Ha. unfold last_ad in Ha. revert Ha.
      assert (L : forall l : list (node K), (forall n, In n l -> defines n = None) -> fold_left (fun d n => match n with NAD b => if str_eqb k (ad_id b) then Some b else d | _ => d end) l None = None).
      { induction l as [|n l IH]; intros H'; [reflexivity|]. cbn [fold_left]. pose proof (H' n (or_introl eq_refl)) as Dn. destruct n; try discriminate Dn; apply IH; intros q I; apply H'; right; exact I. }
      rewrite (L _ Hn). discriminate. }
    assert (B : s_blocks (v_state v) = []).
    { destruct (s_blocks (v_state v)) as [|[k a] r] eqn:Es; [reflexivity|]. exfalso. specialize (Hb k a). cbn [d_get] in Hb. rewrite str_eqb_refl in Hb.
      destruct (proj1 Hb eq_refl) as [_ (b & I)]. apply Hn in I. discriminate I. }
    rewrite A, B. reflexivity.
  Qed.

  (** ** The other extended commands, closed: any digits, unit and polarity *)
  Theorem C92_extended : forall a b u p, a < 10 -> b < 10 ->
    Forall2 (fun s x => parse rd (lit "%" ++ filled (fst x) s ++ lit "%") = Ok [snd x]) other_snippets
      [ (fun d _ => if Ascii.eqb d "1" then z_repr (Z.of_nat a) else z_repr (Z.of_nat b), CFS (MkFS SkipLeading Absolute a b a b));
        (fun _ _ => lit (mo_text u), CMO u); (fun _ _ => lit (lp_text p), CLP p); (fun _ _ => lit (lp_text p), CLP p) ].
  Proof.
    intros a b u p Ha Hb. repeat constructor; (apply (tight_read _ _ _ w); [cbn; auto|exact I|]).
    - unfold formats. cbn. unfold nat_text. repeat (rewrite <- ?app_assoc; cbn [app]). reflexivity.
    - destruct u; reflexivity.
    - destruct p; reflexivity.
    - destruct p; reflexivity.
  Qed.
  (** ** G codes: the first six are commands, with any comment; the others need an asterisk *)
  Theorem C92_g_codes : forall comment, raw_text comment ->
    Forall2 (fun s c => parse rd (filled (fun _ _ => comment) s) = Ok [c]) (firstn 6 g_labels)
      [CG true G01; CG true G02; CG true G03; CG04 (Some comment); CG true G36; CG true G37] /\
    Forall2 (fun s g => parse rd (s ++ lit "*") = Ok [CG true g]) (skipn 6 g_labels) [G54; G55; G74; G75; G90; G91].
  Proof.
    intros cm Hc. split; cbn [firstn skipn g_labels map].
    - repeat constructor; (apply (tight_read _ _ _ w); [cbn; auto|exact I|]); try reflexivity.
      unfold formats. cbn. rewrite <- ?app_assoc. reflexivity.
    - repeat constructor; (apply (tight_read _ _ _ w); [reflexivity|exact I|reflexivity]).
  Qed.
  (** As they are inserted, these six are no commands; only G54 and G55 may go before something. *)
  Theorem C92_unfinished_refuted : Forall (fun s => parse rd s = Err ESyntax) (skipn 6 g_labels).
  Proof. repeat constructor; vm_compute; reflexivity. Qed.
  (** Nothing inserts the closing percent sign. *)
  Theorem C92_not_closed_refuted : Forall (fun s => parse rd (lit "%" ++ filled as_offered s) = Err ESyntax) other_snippets.
  Proof. repeat constructor; vm_compute; reflexivity. Qed.
End Offered.

(** ** Concrete cases *)
Local Existing Instance NumQ.
Definition offered_for (ns : list (node Q)) : option (list item) :=
  match on_file no_hooks true ns (visitor_init tt) with Ok v => Some (aperture_items (q_writer (-1) TrimYes) (v_state v)) | Err _ => None end.
Definition line (s : string) : str := lit s ++ lit (String "010" "").
(** D10 is redefined, and D11 is an aperture and a block: it is offered twice. *)
Example C92_case :
  let c q := TCircle q None in
  let ns := [NAD (MkAD (lit "D10") (c 1%Q)); NAB (lit "D11") [NLP Clear]; NAD (MkAD (lit "D11") (c 2%Q)); NAD (MkAD (lit "D10") (c (1 # 2)%Q))] in
  offered_for ns = Some [MkItem (lit "D10") KFunction (line "%ADD10C,0.5*%"); MkItem (lit "D11") KFunction (line "%ADD11C,2.0*%");
                         MkItem (lit "D11") KMethod (line "%ABD11*%")] /\
  exists v, on_file no_hooks true ns (visitor_init tt) = Ok v /\ extended_snippets (Some (v_state v)) = Ok (ad_snippets 12 ++ other_snippets) /\
    hd [] (ad_snippets 12) = lit "ADD12C,${1:diameter}*" /\
    parse q_reader (lit "%" ++ filled (by_name [("diameter"%string, lit "0.25")]) (hd [] (ad_snippets 12)) ++ lit "%") =
      Ok [CAD (MkAD (lit "D12") (c (1 # 4)%Q))].
Proof. split; [vm_compute; reflexivity|]. eexists. split; [vm_compute; reflexivity|]. vm_compute. auto. Qed.
Example C92_no_aperture_case : exists v : visitor Q unit,
  on_file no_hooks true [NFS (MkFS SkipLeading Absolute 4 6 4 6); NMO Metric] (visitor_init tt) = Ok v /\ extended_snippets (Some (v_state v)) = Err EValueError /\
  extended_snippets (None : option (state Q)) = Ok other_snippets.
Proof. eexists. split; [vm_compute; reflexivity|]. vm_compute. auto. Qed.
(** Asked to ignore stops, the tracker ends at the first (see C09): what is defined after it is
    not offered, and its D code is offered as free. *)
Theorem C92_after_stop_refuted : exists ns : list (node Q),
  last_ad (lit "D11") (executed_file false ns) <> None /\
  offered_for ns = Some [MkItem (lit "D10") KFunction (line "%ADD10C,1.0*%")] /\
  exists v, on_file no_hooks true ns (visitor_init tt) = Ok v /\ extended_snippets (Some (v_state v)) = Ok (ad_snippets 11 ++ other_snippets).
Proof.
  exists [NAD (MkAD (lit "D10") (TCircle 1%Q None)); NM00; NAD (MkAD (lit "D11") (TCircle 2%Q None))].
  split; [vm_compute; discriminate|]. split; [vm_compute; reflexivity|]. eexists. split; vm_compute; reflexivity.
Qed.

Print Assumptions C92_apertures.
Print Assumptions C92_shown_partial.
Print Assumptions C92_definitions.
Print Assumptions C92_places.
Print Assumptions C92_new_code_partial.
Print Assumptions C92_no_aperture_refuted.
Print Assumptions C92_extended.
Print Assumptions C92_g_codes.
Print Assumptions C92_unfinished_refuted.
Print Assumptions C92_not_closed_refuted.
Print Assumptions C92_after_stop_refuted.

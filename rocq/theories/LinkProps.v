(** C70: formatting a file leaves what it compiles to.  C71: attributes and the names they are
    deleted by.  Also the part of C43 about explicit parentheses. *)
From Verif Require Import Base Num Dict CoordModel Ast StateModel GeomModel ExprSpec ExprModel CompilerModel.
From Verif Require Import GramAst PegModel GramModel FmtModel GramText GramExpr GramExprRt
  GramExprSpec NumTextModel NumTextProofs GramNum GramTok GramWf GramFileSpec GramPieces GramRead GramReadAttr
  GramMacroRt GramTidy GramRt GramExact GramExplicit GramExplFile GramProps LinkModel LinkProofs.
Local Open Scope nat_scope.

(** Options whose texts are whitespace; any choice for the rest. *)
Definition blank_texts (op : options) : Prop :=
  is_ws (op_indent_character op) = true /\ ws (op_line_end op) /\
  Forall (fun i => blank_indent (i op))
    [op_macro_body_indent; op_macro_param_indent; op_block_indent; op_sr_indent;
     op_d01_indent; op_d02_indent; op_d03_indent].
Definition removes (op : options) (g : gcode) : bool :=
  match g with G54 => op_remove_g54 op | G55 => op_remove_g55 op | _ => false end.

Definition implicit (op : options) : options :=
  MkOptions (op_indent_character op) (op_macro_body_indent op) (op_macro_param_indent op) (op_macro_split_mode op)
    (op_macro_end_in_new_line op) (op_block_indent op) (op_sr_indent op) (op_d01_indent op) (op_d02_indent op)
    (op_d03_indent op) (op_line_end op) (op_empty_line_before_polarity_switch op) (op_keep_non_standalone op)
    (op_remove_g54 op) (op_remove_g55 op) false (op_strip_whitespace op).
Lemma written_items K T (rd : reader K T) (w : writer K T) op m l :
  Forall (root rd m) l -> blank_texts op -> Forall (clean rd w) (concat l) ->
  (op_explicit_parenthesis op = true -> Forall signs_apart (flat_map exprs_in (concat l))) ->
  let f1 := if op_explicit_parenthesis op then map expl_cmd (concat l) else concat l in
  parse rd (formats w op (concat l)) =
  match tidy (op_keep_non_standalone op) (removes op) false f1 with [] => Err ESyntax | f' => Ok f' end.
Proof.
  intros Hr Hb Hc Ha f1. destruct (op_explicit_parenthesis op) eqn:E.
  - unfold formats. rewrite (expl_cmds_fmt w (init op) E).
    assert (Hb' : blank_options (implicit op)) by (destruct Hb as (H1 & H2 & H3); split; [exact H1|split; [exact H2|split; [reflexivity|]]]; rewrite Forall_forall in *; intros i Hi; specialize (H3 i Hi);
      repeat (destruct Hi as [<-|Hi]; [exact H3|]); destruct Hi).
    change (plainly (init op)) with (init (implicit op)). subst f1. rewrite expl_concat.
    assert (Al : Forall (Forall (fun c => Forall signs_apart (exprs_in c))) l) by (apply apart_concat, apart_flat, Ha; reflexivity).
    assert (Hr' : Forall (root rd m) (map (map expl_cmd) l)).
    { eapply map_items; [apply expl_root|exact Hr|exact Al]. }
    rewrite (file_through rd w (init (implicit op)) (blank_init _ Hb') m _ Hr').
    + cbn [init f_keep implicit]. rewrite (tidy_exts (op_keep_non_standalone op) (removed (init (implicit op))) (removes op)); [reflexivity|].
      intros []; reflexivity.
    + rewrite <- expl_concat. apply Forall_map. eapply Forall_impl; [|exact Hc]. intros c. apply clean_expl.
  - assert (Hb' : blank_options op) by (destruct Hb as (H1 & H2 & H3); exact (conj H1 (conj H2 (conj E H3)))).
    unfold formats. rewrite (file_through rd w (init op) (blank_init op Hb') m l Hr Hc). cbn [init f_keep]. subst f1.
    rewrite (tidy_exts (op_keep_non_standalone op) (removed (init op)) (removes op)); [reflexivity|]. intros []; reflexivity.
Qed.
Lemma written K T (rd : reader K T) (w : writer K T) op text f :
  parse rd text = Ok f -> blank_texts op -> Forall (clean rd w) f ->
  (op_explicit_parenthesis op = true -> Forall signs_apart (flat_map exprs_in f)) ->
  let f1 := if op_explicit_parenthesis op then map expl_cmd f else f in
  parse rd (formats w op f) =
  match tidy (op_keep_non_standalone op) (removes op) false f1 with [] => Err ESyntax | f' => Ok f' end.
Proof.
  intros Hp. pose proof (parse_wf rd text) as W. rewrite Hp in W. destruct W as (m & l & -> & _ & Hr).
  exact (written_items K T rd w op m l Hr).
Qed.

(** C43 with explicit parentheses: what comes back is the file with other expressions in its
    macros, which have the same meaning. *)
Theorem C43_explicit_partial : forall K T (rd : reader K T) (w : writer K T) op text f,
  parse rd text = Ok f -> blank_texts op -> op_explicit_parenthesis op = true ->
  op_keep_non_standalone op = true -> op_remove_g54 op = false -> op_remove_g55 op = false ->
  Forall (clean rd w) f -> Forall signs_apart (flat_map exprs_in f) ->
  exists f', parse rd (formats w op f) = Ok f' /\ length f' = length f /\
    map meaning (flat_map exprs_in f') = map meaning (flat_map exprs_in f) /\
    formats w (implicit op) f' = formats w op f.
Proof.
  intros K T rd w op text f Hp Hb He Hk H4 H5 Hc Ha. pose proof (written K T rd w op text f Hp Hb Hc (fun _ => Ha)) as W.
  rewrite He in W. cbn zeta in W. rewrite Hk in W.
  pose proof (parse_wf rd text) as Wf. rewrite Hp in Wf. destruct Wf as (m & l & -> & Hne & Hr).
  rewrite (tidy_exts true (removes op) (fun _ => false)) in W by (intros []; cbn; auto).
  assert (Al : Forall (Forall (fun c => Forall signs_apart (exprs_in c))) l) by (apply apart_concat, apart_flat, Ha).
  assert (Hr' : Forall (root rd m) (map (map expl_cmd) l)) by (eapply map_items; [apply expl_root|exact Hr|exact Al]).
  rewrite expl_concat, (file_same rd m _ Hr') in W. rewrite <- expl_concat in W.
  exists (map expl_cmd (concat l)). split; [|split; [apply map_length|split]].
  - rewrite W. destruct l as [|x l]; [contradiction|]. apply Forall_inv in Hr.
    assert (x <> []) as Hx by (destruct Hr as [Hr|(h & b & -> & _)]; [|discriminate]; destruct m;
      destruct Hr as [(c & -> & _)|[(g & d & -> & _)|Hr]]; try discriminate; [contradiction|]; destruct Hr as (id & b & -> & _); discriminate).
    destruct x; [contradiction|reflexivity].
  - assert (M : forall c : cmd K T, map meaning (exprs_in (expl_cmd c)) = map meaning (exprs_in c)).
    { assert (L : forall b, Forall (fun c : cmd K T => map meaning (exprs_in (expl_cmd c)) = map meaning (exprs_in c)) b ->
        map meaning (flat_map exprs_in (map expl_cmd b)) = map meaning (flat_map exprs_in b)).
      { induction 1 as [|x b Hx _ IH]; [reflexivity|]. cbn [map flat_map]. rewrite !map_app, Hx, IH. reflexivity. }
      induction c as [id b Hb'|h b Hb'|c Hc'] using cmd_ind'; [exact (L _ Hb')|exact (L _ Hb')|].
      destruct c; try contradiction; try reflexivity. cbn [expl_cmd exprs_in]. induction prims as [|p ps IH]; [reflexivity|].
      cbn [map flat_map]. rewrite !map_app, IH, expl_exprs, map_map. f_equal. apply map_ext. apply meaning_expl. }
    generalize (concat l). intros f. induction f as [|c f IH]; [reflexivity|]. cbn [map flat_map]. rewrite !map_app, M, IH. reflexivity.
  - unfold formats. rewrite (expl_cmds_fmt w (init op) He). reflexivity.
Qed.

(** ** C70 *)
(** Full statement of C70: formatting a file, with any options, leaves the program it compiles to.
    It holds for the files whose values survive being written ([clean]); when explicit parentheses
    are asked for, no minus sign may stand in front of a plus sign.  The second part says when
    there is nothing left to compile. *)
Theorem C70_same_program_partial : forall K T {NK : Num K} (rd : reader K T) (w : writer K T) op text f,
  parse rd text = Ok f -> blank_texts op -> Forall (clean rd w) f ->
  (op_explicit_parenthesis op = true -> Forall signs_apart (flat_map exprs_in f)) ->
  (exists f', parse rd (formats w op f) = Ok f' /\
     forall u fa ff fo md clock iter ips,
       compile md clock iter ips (nodes u fa ff fo f') = compile md clock iter ips (nodes u fa ff fo f)) \/
  (parse rd (formats w op f) = Err ESyntax /\
   Forall (fun c => exists sa g, c = CG sa g /\ (g = G54 \/ g = G55) /\ removes op g = true) f).
Proof.
  intros K T NK rd w op text f Hp Hb Hc Ha. rewrite (written K T rd w op text f Hp Hb Hc Ha).
  set (f1 := if op_explicit_parenthesis op then map expl_cmd f else f).
  assert (Hd : forall g, removes op g = true -> g = G54 \/ g = G55) by (intros []; cbn; auto; discriminate).
  assert (C : forall u fa ff fo md clock iter ips,
    compile md clock iter ips (nodes u fa ff fo (tidy (op_keep_non_standalone op) (removes op) false f1)) =
    compile md clock iter ips (nodes u fa ff fo f)).
  { intros. unfold nodes. rewrite links_tidy. unfold tidied. cbn [fst]. unfold compile at 1. rewrite (on_file_dropped _ _ Hd).
    subst f1. destruct (op_explicit_parenthesis op); [|reflexivity]. rewrite links_expl. unfold explained. cbn [fst].
    exact (ex_compile md clock iter ips _). }
  destruct (tidy (op_keep_non_standalone op) (removes op) false f1) as [|c f'] eqn:E.
  - right. split; [reflexivity|]. clear C.
    assert (N : forall l : list (cmd K T), forall k g, tidy k (removes op) g l = [] ->
      Forall (fun c => exists sa g, c = CG sa g /\ (g = G54 \/ g = G55) /\ removes op g = true) l).
    { induction l as [|c l IH]; [constructor|]. intros k g H. cbn [tidy] in H.
      destruct (tidy_cmd k (removes op) g c) as [y g'] eqn:Ec. apply app_eq_nil in H. destruct H as [-> H].
      constructor; [|eapply IH; exact H]. destruct c; cbn [tidy_cmd] in Ec; try discriminate.
      destruct (removes op g0) eqn:Er; [|destruct (k && negb standalone)%bool; discriminate]. exists standalone, g0. split; [reflexivity|]. split; [apply Hd, Er|exact Er]. }
    subst f1. destruct (op_explicit_parenthesis op); [|eapply N; exact E].
    apply N in E. clear -E. induction f as [|c f IH]; [constructor|]. cbn [map] in E. inversion E as [|? ? H1 H2]; subst. constructor; [|auto].
    destruct c; destruct H1 as (sa' & g' & H1 & H3); try discriminate. injection H1 as <- <-. eauto.
  - left. eexists. split; [reflexivity|]. exact C.
Qed.

(** A macro with the name C, written with a space behind its name in an aperture definition, is a
    circle after formatting. *)
Local Existing Instance NumQ.
Definition program (f : list (cmd Q str)) :=
  compile false (fun _ => 0%Z) (fun _ l => l) true (nodes (fun _ => 0%Z) (fun _ => []) (fun _ => []) (fun _ => []) f).
Theorem C70_same_program_refuted :
  ~ forall text f f', parse q_reader text = Ok f ->
      parse q_reader (formats (q_writer (-1) TrimYes) default_options f) = Ok f' -> program f' = program f.
Proof.
  intros H.
  pose (text := lit "%FSLAX26Y26*%%MOMM*%%AMC*21,1,$1,2,0,0,0*%%ADD10C ,0.5*%D10*X0Y0D03*M02*").
  assert (W : match parse q_reader text with
    | Ok f => match parse q_reader (formats (q_writer (-1) TrimYes) default_options f) with
              | Ok f' => match program f, program f' with Ok (_ :: KDraw (DShape s) :: _), Ok (_ :: KDraw (DShape s') :: _) =>
                           negb (Nat.eqb (length (sh_segs s)) (length (sh_segs s'))) | _, _ => false end
              | Err _ => false end
    | Err _ => false end = true) by (vm_compute; reflexivity).
  destruct (parse q_reader text) as [f|] eqn:E1; [|discriminate].
  destruct (parse q_reader (formats (q_writer (-1) TrimYes) default_options f)) as [f'|] eqn:E2; [|discriminate].
  rewrite (H text f f' E1 E2) in W. destruct (program f) as [[|c0 [|[|[sh|]|] r]]|]; try discriminate. rewrite Nat.eqb_refl in W. discriminate.
Qed.

Definition busy_options : options :=
  MkOptions " " (ICount 2) (IText (lit "  ")) SplitOnParameters true (ICount 4) (ICount 3) (ICount 1) (ICount 2) (ICount 3)
    (lit (String "010" "")) true false true false true false.
Example C70_ex : exists f f',
  parse q_reader (lit "%FSLAX26Y26*%%MOMM*%%AMBOX*21,1,$1+$2,2X$1-$2,0,0,-45*7,0,0,3,2,0.5,0*%%ADD12BOX,0.5X0.25*%G54D12*%SRX2Y3I1J0.5*%G01X1000000Y1000000D03*%SR*%M02*") = Ok f /\
  blank_texts busy_options /\
  parse q_reader (formats (q_writer (-1) TrimYes) busy_options f) = Ok f' /\
  length f = 8 /\ length f' = 7 /\ f' <> f /\ program f' = program f /\
  match program f with Ok p => 13 <= length p | Err _ => False end.
Proof.
  do 2 eexists. split; [vm_compute; reflexivity|]. split; [repeat (split; [reflexivity|]); repeat constructor|].
  split; [vm_compute; reflexivity|]. split; [reflexivity|]. split; [reflexivity|]. split; [discriminate|].
  split; [vm_compute; reflexivity|]. vm_compute. lia.
Qed.

(** ** C71 *)
(** The names of the standard attributes, as they are written in files (Gerber layer format
    specification, chapter 5). *)
Definition std_ta {K} (a : ta K) : str :=
  match a with
  | TAUser n _ => n
  | TAAperFunction _ _ => lit ".AperFunction"
  | TADrillTolerance _ _ => lit ".DrillTolerance"
  | TAFlashText _ _ _ _ _ _ => lit ".FlashText"
  end.
Definition std_tag (t : totag) : str :=
  match t with
  | CMfr => lit ".CMfr" | CMPN => lit ".CMPN" | CVal => lit ".CVal" | CFtp => lit ".CFtp"
  | CPgN => lit ".CPgN" | CPgD => lit ".CPgD" | CLbN => lit ".CLbN" | CLbD => lit ".CLbD"
  end.
Definition std_to {K} (a : to K) : str :=
  match a with
  | TOUser n _ => n
  | TON _ => lit ".N" | TOP _ _ _ => lit ".P" | TOC _ => lit ".C" | TOCRot _ => lit ".CRot"
  | TOText t _ => std_tag t
  | TOCMnt _ => lit ".CMnt" | TOCHgt _ => lit ".CHgt" | TOCSup _ _ _ => lit ".CSup"
  end.

(** Full statement of C71: an attribute command followed by the command deleting the attribute of
    that name leaves the dictionaries as the deletion alone would.  It holds for all attributes but
    one. *)
Lemma d_del_set {V} k (x : V) d : d_del k (d_set k x d) = d_del k d.
Proof.
  induction d as [|[a b] d IH]; cbn [d_set d_del]; [rewrite str_eqb_refl; reflexivity|].
  destruct (str_eqb k a) eqn:E; cbn [d_del]; rewrite E; [reflexivity|]. rewrite IH. reflexivity.
Qed.
Theorem C71_deleted_partial : forall K T {NK : Num K} X (H : hooks K X) u fa (ff : tf T -> list str) fo v,
  (forall a, visits H (nodes u fa ff fo [CTA a; CTD (Some (std_ta a))]) v = visits H [NTD (Some (std_ta a))] v) /\
  (forall a, (forall s, a <> TOText CMPN s) ->
     visits H (nodes u fa ff fo [CTO a; CTD (Some (std_to a))]) v = visits H [NTD (Some (std_to a))] v) /\
  (forall a, visits H (nodes u fa ff fo [CTA a; CTD None]) v = visits H [NTD None] v) /\
  (forall a, visits H (nodes u fa ff fo [CTO a; CTD None]) v = visits H [NTD None] v).
Proof.
  intros K T NK X H u fa ff fo v.
  assert (A : forall k l, visits H [NTA (MkAttr k l); NTD (Some k)] v = visits H [NTD (Some k)] v).
  { intros k l. cbn -[d_del d_set]. unfold with_state, on_td, set_attrs. cbn -[d_del d_set]. rewrite d_del_set. reflexivity. }
  assert (O : forall k l, visits H [NTO (MkAttr k l); NTD (Some k)] v = visits H [NTD (Some k)] v).
  { intros k l. cbn -[d_del d_set]. unfold with_state, on_td, set_attrs. cbn -[d_del d_set]. rewrite d_del_set. reflexivity. }
  split; [|split; [|split]].
  - intros a. destruct a; apply A.
  - intros a Ha. destruct a; try apply O. destruct t; try apply O. exfalso. eapply Ha. reflexivity.
  - intros a. reflexivity.
  - intros a. reflexivity.
Qed.

(** The manufacturer part number is kept under another name, [.CMNP], and stays. *)
Definition object_attributes (text : string) : option (list str) :=
  match parse q_reader (lit text) with
  | Ok f => match on_file no_hooks true (nodes (fun _ => 0%Z) (fun _ => []) (fun _ => []) (fun _ => []) f) (visitor_init tt) with
            | Ok v => Some (d_keys (s_obj_attrs (v_state v)))
            | Err _ => None
            end
  | Err _ => None
  end.
Theorem C71_part_number_refuted :
  object_attributes "%TO.CMPN,4711*%%TD.CMPN*%" = Some [lit ".CMNP"] /\
  object_attributes "%TO.CMPN,4711*%%TD.CMNP*%" = Some [].
Proof. split; vm_compute; reflexivity. Qed.
(** The library description is written under the name [.CLbn], by which it cannot be deleted. *)
Theorem C71_library_name_refuted :
  formats (q_writer (-1) TrimYes) default_options [CTO (TOText CLbN (lit "x"))] = lit "%TO.CLbn,x*%" ++ [ascii_of_nat 10] /\
  object_attributes "%TO.CLbn,x*%%TD.CLbn*%" = Some [lit ".CLbN"].
Proof. split; vm_compute; reflexivity. Qed.
Example C71_ex :
  object_attributes "%TO.CMfr,a*%%TO.CVal,b*%%TO.P,R1,2*%%TD.CVal*%" = Some [lit ".CMfr"; lit ".P"] /\
  object_attributes "%TO.CMfr,a*%%TO.CMPN,b*%%TD*%" = Some [].
Proof. split; vm_compute; reflexivity. Qed.

(** The nodes of a file with one command of most kinds, numbered in order. *)
Definition seen_nodes (t : string) :=
  match parse q_reader (lit t) with
  | Ok f => nodes (fun n => Z.of_nat n) (fun _ => []) (fun _ => []) (fun _ => []) f
  | Err _ => []
  end.
Example C70_nodes_case :
  let c (k : Z) := EConst (inject_Z k) in
  seen_nodes "%MOMM*%%AMX*7,1,2,9,8,3,4*7,1,2,9,8,3,5*%%ADD10X*%D10*%SRX2Y3I1J2*%%ABD11*%X1Y2I3J4D01*X5Y6D02*X7Y8D03*%AB*%%SR*%%TA.FlashText,t,C,R,F,1,x*%%TO.N,n*%%TD.N*%%LMXY*%%LPC*%%LR45*%%LS2*%G02*X1D01*Y2D02*J3D01*M02*" =
  [NMO Metric; NAM (lit "X") [PCode7 0%Z (c 1%Z) (c 2%Z) (c 9%Z) (c 8%Z) (c 3%Z) (c 4%Z); PCode7 1%Z (c 1%Z) (c 2%Z) (c 9%Z) (c 8%Z) (c 3%Z) (c 5%Z)];
   NAD (MkAD (lit "D10") (TMacro (lit "X") None)); NDnn (lit "D10");
   NSR 2%Z (MkSR (Some (lit "2")) (Some (lit "3")) (Some (lit "1")) (Some (lit "2")))
     [NAB (lit "D11") [ND01 (Some (lit "1")) (Some (lit "2")) (Some (lit "3")) (Some (lit "4")); ND02 (Some (lit "5")) (Some (lit "6")); ND03 (Some (lit "7")) (Some (lit "8"))]];
   NTA (MkAttr (lit ".FlashText") []); NTO (MkAttr (lit ".N") []); NTD (Some (lit ".N")); NLM MirXY; NLP Clear; NLR (inject_Z 45); NLS (inject_Z 2); NG G02;
   ND01 (Some (lit "1")) None None None; ND02 None (Some (lit "2")); ND01 None None None (Some (lit "3")); NM02].
Proof. vm_compute. reflexivity. Qed.

Print Assumptions C43_explicit_partial.
Print Assumptions C70_same_program_partial.
Print Assumptions C70_same_program_refuted.
Print Assumptions C71_deleted_partial.
Print Assumptions C71_part_number_refuted.
Print Assumptions C71_library_name_refuted.

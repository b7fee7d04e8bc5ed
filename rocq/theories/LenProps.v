(** Property theorems C89: parsing without [strict], and texts put one behind the other. *)
From Verif Require Import Base Num CoordModel Ast GramAst PegModel GramModel GramText GramNum GramWf ResModel ResSpec ResProofs LenModel LenSpec LenSafe LenGram LenFuel LenProofs.
Local Open Scope nat_scope.

(** Files the strict parser reads are read the same way without [strict]. *)
Theorem C89_same_as_strict : forall K T (rd : reader K T) text l,
  parse rd text = Ok l -> parse_lenient rd text = Ok l.
Proof. intros K T rd. apply strict_lenient. Qed.

(** Without [strict] the longest beginning of the text is read that the strict parser reads: no
    longer beginning is a file, but for blanks.  Nothing at all is read only if no beginning is a
    file, and any other failure is an attribute or number rejected, which the strict parser
    rejects, too. *)
Theorem C89_longest : forall K T (rd : reader K T) text,
  match parse_lenient rd text with
  | Ok l => exists read rest, expandtabs text = read ++ rest /\ parse rd read = Ok l /\
      forall p q, rest = p ++ q -> (exists l', parse rd (read ++ p) = Ok l') -> blank p
  | Err ESyntax => forall p q, expandtabs text = p ++ q -> forall l, parse rd p <> Ok l
  | Err (EOther e) => e = EValidation /\ parse rd text = Err (EOther e)
  end.
Proof.
  intros K T rd text. destruct (parse_lenient rd text) as [l|[|e]] eqn:E.
  - exact (lenient_longest rd text l E).
  - exact (lenient_none rd text E).
  - exact (lenient_err rd text e E).
Qed.

(** A text behind a file is read as if it stood alone, and fails as if it stood alone. *)
Theorem C89_concat : forall K T (rd : reader K T) a b la, fits a b -> parse rd a = Ok la ->
  (blank b -> parse rd (a ++ b) = Ok la) /\
  (~ blank b -> parse rd (a ++ b) = match parse rd b with Ok lb => Ok (la ++ lb) | Err e => Err e end).
Proof. intros K T rd. apply parse_cat. Qed.
Theorem C89_concat_lenient : forall K T (rd : reader K T) a b la, fits a b -> parse rd a = Ok la ->
  parse_lenient rd (a ++ b) = match parse_lenient rd b with Ok lb => Ok (la ++ lb) | Err ESyntax => Ok la | Err e => Err e end.
Proof. intros K T rd. apply lenient_cat. Qed.

(** Without [fits] it is not so: a tab in a comment has another width. *)
Definition with_tab : str := lit "G04" ++ "009"%char :: lit "x*".
Theorem C89_concat_refuted : exists la lb,
  parse q_reader (lit "M02*") = Ok la /\ parse q_reader with_tab = Ok lb /\ parse q_reader (lit "M02*" ++ with_tab) <> Ok (la ++ lb).
Proof. exists [CM02], [CG04 (Some (lit "     x"))]. split; [vm_compute; reflexivity|]. split; [vm_compute; reflexivity|]. vm_compute. discriminate. Qed.

(** "Will try to parse as much as possible and will stop after it encounters first unrecognized
    token": it raises when the first token is not recognised, and when a value is rejected behind
    commands that were read. *)
Theorem C89_stops_refuted :
  parse_lenient q_reader (lit "?") = Err ESyntax /\
  parse q_reader (lit "G04 a*M02*") = Ok [CG04 (Some (lit " a")); CM02] /\
  parse_lenient q_reader (lit "G04 a*M02*%TF.MD5,12*%") = Err (EOther EValidation).
Proof. repeat split; vm_compute; reflexivity. Qed.

(** The pieces the resilient parser cuts a text into are what they are on their own: commands are
    files, and where a text is unreadable no file begins. *)
Theorem C66_pieces_alone : forall K T (rd : reader K T) text l, parse_resilient rd text = Ok l ->
  exists ps, concat (map snd ps) = l /\
    cut (fun t ns after =>
      (exists cs, ns = map Parsed cs /\ parse rd t = Ok cs) \/
      (ns = [Invalid t] /\ rest_of_line t after /\ forall p q, t ++ after = p ++ q -> forall f, parse rd p <> Ok f)) (expandtabs text) ps.
Proof.
  intros K T rd text l H. destruct (resilient_pieces rd text l H) as (ps & P1 & P2). exists ps. split; [exact P2|]. clear P2 H l.
  pose proof (expand_notab text 0) as Ht. change (expand 0 text) with (expandtabs text) in Ht. revert P1. set (s := expandtabs text) in *. set (n := S (length s)).
  assert (Hn : length s < n) by (subst n; lia). clearbody n. clearbody s. intros P1.
  induction P1 as [w Hw|w t ns s ps Hw Hne Hh Hok Hcut IH]; [constructor; exact Hw|].
  rewrite !app_length in Hn. apply all_app in Ht as [_ Ht]. assert (Hts := Ht). apply all_app in Ht as [Ht Hs].
  constructor; auto; [|apply IH; [exact Hs|lia]]. destruct Hok as [(cs & -> & E)|(-> & E & Hr)].
  - left. exists cs. split; [reflexivity|]. destruct n as [|n]; [lia|]. destruct (local_root rd n _ _ _ E) as (u & Eu & Hu). apply app_inv_tail in Eu as <-.
    specialize (Hu []). rewrite app_nil_r in Hu. rewrite parse_run. unfold expandtabs. rewrite (expand_id t Ht), <- (run_fuel rd t (S n) (S n) Ht) by lia.
    unfold many1, pbind. rewrite Hu. cbn [many]. rewrite (root_nil rd n []) by reflexivity. cbn. rewrite app_nil_r. reflexivity.
  - right. split; [reflexivity|]. split; [exact Hr|]. intros p q Epq f Ef. rewrite Epq in E, Hts. assert (Hp : notab p) by (apply all_app in Hts; apply Hts).
    rewrite parse_run in Ef. unfold expandtabs in Ef. rewrite (expand_id p Hp) in Ef. destruct (run rd p) as [l0 r| |e] eqn:Er; try discriminate.
    apply (run_prefix rd p q l0 r Hts Er). rewrite <- (run_fuel rd (p ++ q) n n Hts).
    + unfold many1, pbind. rewrite E. reflexivity.
    + rewrite <- Epq, app_length. lia.
    + rewrite <- Epq, app_length. lia.
Qed.

(** A block, then a command cut short. *)
Example C89_case : parse_lenient q_reader (lit "%ABD10*%X1D03*%AB*%G01*%LPQ*%M02*") =
  Ok [CAB (lit "D10") [CD03 true (Some (lit "1")) None]; CG true G01] /\
  parse q_reader (lit "%ABD10*%X1D03*%AB*%G01*%LPQ*%M02*") = Err ESyntax.
Proof. split; vm_compute; reflexivity. Qed.
(** A mistake inside a block costs the block. *)
Example C89_case_block : parse_lenient q_reader (lit "G01*%ABD10*%X1D03*?%AB*%M02*") = Ok [CG true G01].
Proof. vm_compute. reflexivity. Qed.
(** Two files put together; a comment may hold what looks like a command. *)
Example C89_case_concat :
  let a := lit "%MOMM*%" ++ ["010"%char] in let b := lit "G04" ++ "009"%char :: lit "x*M02*" in
  fits a b /\ parse q_reader (a ++ b) = Ok [CMO Metric; CG04 (Some (lit "     x")); CM02].
Proof. split; [right; right; exists (lit "%MOMM*%"), "010"%char; auto|vm_compute; reflexivity]. Qed.
(** Half a file is not read as far as the whole: "D1" is no command, "D10*" is one. *)
Example C89_case_cut : parse_lenient q_reader (lit "G01*D1") = Ok [CG true G01] /\ parse_lenient q_reader (lit "G01*D10*") = Ok [CG true G01; CDnn true (lit "D10")].
Proof. split; vm_compute; reflexivity. Qed.
Print Assumptions C89_same_as_strict. Print Assumptions C89_longest. Print Assumptions C89_concat. Print Assumptions C89_concat_lenient.
Print Assumptions C89_concat_refuted. Print Assumptions C89_stops_refuted. Print Assumptions C66_pieces_alone.

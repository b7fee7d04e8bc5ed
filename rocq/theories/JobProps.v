(** C51: projects made from job files. *)
From Verif Require Import Base Dict ApiModel ApiSpec ApiProofs JobModel JobSpec JobProofs.
From Coq Require Import Permutation Sorted.
Local Open Scope nat_scope.

(** Full statement: each listed file is in its view once, in stacking order, inner views by layer
    number, outlines everywhere.  Proved: each view shows exactly the last listed file of every
    type that can be stacked, in stacking order; the inner views are those that are named, in the
    order of the texts of their numbers. *)
Theorem C51_views_partial join suffix readable root es prj :
  to_project join suffix readable (Some root) es = Ok prj ->
  let file := file_of join suffix root in
  shows_last file es VTop (pr_top prj) /\
  shows_last file es VBottom (pr_bottom prj) /\
  exists keys,
    NoDup keys /\ Sorted str_le keys /\
    (forall n, In n keys <-> exists e, In e es /\ type_named e <> TProfile /\ belongs e (VInner n)) /\
    Forall2 (fun n fs => shows_last file es (VInner n) fs) keys (pr_inner prj).
Proof.
  intros H file. unfold to_project in H.
  destruct (add_entries join suffix readable root es _) as [y|] eqn:E; [|discriminate H]. cbn [bind] in H.
  assert (S : seen join suffix root es y).
  { apply (add_entries_seen join suffix readable root es [] _ _ (seen_nil join suffix root) E). }
  injection H as <-. cbn [pr_top pr_bottom pr_inner].
  split; [apply (extract_ok join suffix readable root es y VTop S I)|].
  split; [apply (extract_ok join suffix readable root es y VBottom S I)|].
  rewrite keys_everywhere. exists (sort_keys (d_keys (y_inner y))).
  pose proof (sort_perm (d_keys (y_inner y))) as P.
  split; [apply (Permutation_NoDup P); apply S|]. split; [apply sort_sorted|]. split.
  - intros n. transitivity (In n (d_keys (y_inner y))).
    { split; apply Permutation_in; [apply Permutation_sym|]; exact P. }
    rewrite (sn_keys _ _ _ _ _ S). split; intros (e & He & Hv); exists e; (split; [exact He|]).
    + split.
      * intros T. unfold in_view, is_profile in Hv. rewrite T in Hv. discriminate Hv.
      * apply belongs_iff. rewrite Hv. apply orb_true_r.
    + destruct Hv as [T Hb]. apply belongs_iff in Hb. apply orb_true_iff in Hb. destruct Hb as [Hb|Hb]; [|exact Hb].
      apply ftype_eqb_eq in Hb. congruence.
  - assert (K : forall n, In n (sort_keys (d_keys (y_inner y))) -> In n (d_keys (y_inner y))).
    { intros n. apply Permutation_in, Permutation_sym, P. }
    clear P. induction (sort_keys (d_keys (y_inner y))) as [|n l IH]; cbn [map]; constructor.
    + apply (extract_ok join suffix readable root es y (VInner n) S). apply K. left. reflexivity.
    + apply IH. intros m Hm. apply K. right. exact Hm.
Qed.

(** A project is made unless a file cannot be read. *)
Theorem C51_made_iff_readable join suffix readable root es :
  (exists prj, to_project join suffix readable (Some root) es = Ok prj) <->
  (forall e, In e es -> readable (join root (en_path e)) = true).
Proof.
  assert (X : forall es y, (exists y', add_entries join suffix readable root es y = Ok y') <->
    (forall e, In e es -> readable (join root (en_path e)) = true)).
  { clear es. induction es as [|e es IH]; intros y; cbn.
    - split; [intros _ e []|eauto].
    - destruct (readable (join root (en_path e))) eqn:R.
      + assert (O : exists y1, add_entry join suffix readable root e y = Ok y1).
        { unfold add_entry. rewrite R. cbn [negb].
          repeat match goal with |- context [if ?b then _ else _] => destruct b end;
          try (eexists; reflexivity). destruct (first_layer _); eexists; reflexivity. }
        destruct O as [y1 ->]. cbn [bind]. rewrite IH. split.
        * intros H e' [<-|He]; auto.
        * intros H e' He. apply H. right. exact He.
      + unfold add_entry. rewrite R. cbn. split.
        * intros [y' Hy]. discriminate Hy.
        * intros H. specialize (H e (or_introl eq_refl)). congruence. }
  rewrite <- (X es (MkLayers [] [] [] [])). unfold to_project.
  destruct (add_entries join suffix readable root es _) as [y|x]; cbn; split; intros [z Hz]; eauto; discriminate Hz.
Qed.

(** When the files of a view have different types that can all be stacked, the view shows
    each of them, once. *)
Theorem C51_nothing_lost_partial file es v fs :
  shows_last file es v fs ->
  (forall e, In e es -> belongs e v -> In (type_named e) bottom_up) ->
  (forall l e r e', es = l ++ e :: r -> In e' r -> belongs e v -> belongs e' v ->
     type_named e' <> type_named e) ->
  NoDup fs /\ forall f, In f fs <-> exists e, In e es /\ belongs e v /\ f = file e.
Proof.
  intros [O H] Hs Hd. split.
  - destruct O as [keep O]. apply (NoDup_map_inv jf_type). rewrite O. apply NoDup_filter.
    unfold bottom_up. repeat constructor; cbn; intuition discriminate.
  - intros f. rewrite H. split.
    + intros (l & e & r & -> & -> & Hb & _). exists e. split; [apply in_elt|auto].
    + intros (e & He & Hb & ->). pose proof (Hs e He Hb) as Ht. apply in_split in He. destruct He as (l & r & ->).
      exists l, e, r. repeat split; auto. intros e' He' Hb'. apply (Hd l e r e' eq_refl He' Hb Hb').
Qed.

(** Layer numbers of equal length are in order. *)
Theorem C51_layer_order_partial keys :
  NoDup keys -> Sorted str_le keys -> (forall n, In n keys -> is_number n) ->
  (forall n m, In n keys -> In m keys -> length n = length m) ->
  Sorted (fun n m => (number_of n < number_of m)%Z) keys.
Proof.
  intros N S. induction S as [|n l S IH H]; intros D L; [constructor|].
  inversion N as [|? ? Nin N']; subst.
  constructor.
  - apply IH; [exact N'|intros m Hm; apply D; right; exact Hm|].
    intros a b Ha Hb. apply L; right; assumption.
  - destruct l as [|m l]; constructor. inversion H; subst.
    destruct (same_length_order n m) as [A B].
    + apply L; cbn; auto.
    + apply D. left. reflexivity.
    + apply D. right. left. reflexivity.
    + assumption.
    + assert (number_of n <> number_of m); [|lia]. intros E. apply Nin. left. symmetry. apply B. exact E.
Qed.

Definition slash (r p : str) : str := r ++ lit "/" ++ p.
Definition no_suffix (p : str) : str := [].
Definition all_read (p : str) : bool := true.
Definition job (l : list (string * string)) : list entry :=
  map (fun p => MkEntry (lit (fst p)) (lit (snd p))) l.
Definition project_of (l : list (string * string)) : result jerr project :=
  to_project slash no_suffix all_read (Some (lit "r")) (job l).

(** The tenth layer comes before the second. *)
Theorem C51_layer_order_refuted :
  ~ (forall l prj, project_of l = Ok prj ->
       forall i j fi fj ei ej n m,
       nth_error (pr_inner prj) i = Some fi -> nth_error (pr_inner prj) j = Some fj ->
       In ei (job l) -> In ej (job l) ->
       In (file_of slash no_suffix (lit "r") ei) fi -> In (file_of slash no_suffix (lit "r") ej) fj ->
       on_layer ei n -> on_layer ej m -> (number_of n < number_of m)%Z -> i < j).
Proof.
  intros H.
  specialize (H [("a", "Copper,L2,Inr"); ("b", "Copper,L10,Inr")]%string _ eq_refl 1 0 _ _
    (MkEntry (lit "a") (lit "Copper,L2,Inr")) (MkEntry (lit "b") (lit "Copper,L10,Inr")) (lit "2") (lit "10")
    eq_refl eq_refl).
  assert (X : 1 < 0); [|lia]. apply H.
  - cbn. auto.
  - cbn. auto.
  - left. reflexivity.
  - left. reflexivity.
  - apply first_layer_iff. reflexivity.
  - apply first_layer_iff. reflexivity.
  - vm_compute. reflexivity.
Qed.

(** Of two files of the same type the first is lost, and files of other types always are. *)
Theorem C51_same_type_refuted :
  ~ (forall l prj e, project_of l = Ok prj -> In e (job l) -> belongs e VTop ->
       In (type_named e) bottom_up -> In (file_of slash no_suffix (lit "r") e) (pr_top prj)).
Proof.
  intros H.
  specialize (H [("a", "Legend,Top"); ("b", "Legend,Top")]%string _ (MkEntry (lit "a") (lit "Legend,Top")) eq_refl).
  cbn in H. destruct H as [H|[]]; auto; [right; vm_compute; auto|right; right; right; right; right; left; reflexivity|].
  discriminate H.
Qed.
Theorem C51_other_types_refuted :
  ~ (forall l prj e, project_of l = Ok prj -> In e (job l) -> belongs e VTop ->
       In (file_of slash no_suffix (lit "r") e) (pr_top prj)).
Proof.
  intros H.
  specialize (H [("a", "Glue,Top")]%string _ (MkEntry (lit "a") (lit "Glue,Top")) eq_refl).
  cbn in H. destruct H; auto. right. vm_compute. auto.
Qed.

Print Assumptions C51_views_partial.
Print Assumptions C51_made_iff_readable.
Print Assumptions C51_nothing_lost_partial.
Print Assumptions C51_layer_order_partial.
Print Assumptions C51_layer_order_refuted.
Print Assumptions C51_same_type_refuted.
Print Assumptions C51_other_types_refuted.

(** A four layer board with drills. *)
Example job_example :
  project_of [("p", "Profile,NP"); ("l", "Legend,Top"); ("3", "Copper,L3,Inr"); ("1", "Copper,L1,Top");
              ("4", "Copper,L4,Bot"); ("2", "Copper,L2,Inr"); ("s", "SolderMask,Top");
              ("t", "SolderPaste,Top"); ("d", "Plated,1,4,PTH")]%string
  = Ok (MkProject
      [MkJFile (lit "r/1") TCopper; MkJFile (lit "r/s") TSoldermask; MkJFile (lit "r/t") TPaste;
       MkJFile (lit "r/l") TLegend; MkJFile (lit "r/p") TProfile]
      [[MkJFile (lit "r/2") TCopper; MkJFile (lit "r/p") TProfile];
       [MkJFile (lit "r/3") TCopper; MkJFile (lit "r/p") TProfile]]
      [MkJFile (lit "r/4") TCopper; MkJFile (lit "r/p") TProfile]).
Proof. vm_compute. reflexivity. Qed.

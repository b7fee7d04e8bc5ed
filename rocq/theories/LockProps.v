(** * C53, C54: the request handlers of the language server

    C53: under every schedule every handler that has ended holds no lock, some handler can
    always act, and every execution ends.  This holds both for handlers in threads of their own
    and for the single event loop of pygls, where moreover the thread is never blocked; the
    latter depends on the documents never suspending, and fails otherwise
    ([C53_suspension_refuted]).

    C54: requests take effect one at a time in the order in which they start, and every answer is
    the one computed from the text most recently opened or changed for its document. *)
From Verif Require Import Base Dict LockModel LockSpec LockProofs LoopProofs LsModel LsSpec LsProofs.
From Coq Require Import Lia.
Local Open Scope nat_scope.

Section Props.
Context {Doc Par Ans : Type}.

(** ** Handlers in threads *)
Definition threads_start (lib : library Doc Par Ans) (rs : list (request Par))
  : world Doc * list (task Par Ans) := (start_world lib, map (new_task handler) rs).

Theorem C53_released (lib : library Doc Par Ans) rs n c i t :
  tsteps lib n (threads_start lib rs) c ->
  nth_error (snd c) i = Some t -> finished t -> ~ holds (fst c) i.
Proof.
  intros St H F Hh. pose proof (inv_tsteps _ _ _ _ St (inv_start lib rs)) as I.
  destruct (holds_unfinished _ _ _ I Hh) as [t2 [H2 N]]. congruence.
Qed.

Theorem C53_progress (lib : library Doc Par Ans) rs n c t :
  tsteps lib n (threads_start lib rs) c ->
  In t (snd c) -> ~ finished t -> exists c', tstep lib c c'.
Proof.
  intros St H F. pose proof (inv_tsteps _ _ _ _ St (inv_start lib rs)) as I.
  apply In_nth_error in H as [i H].
  destruct (progress lib _ _ _ _ I H F) as [j [tj [Hj [w' [t' A]]]]].
  destruct c as [w ts]. exists (w', set_nth j t' ts). econstructor; eauto.
Qed.

(** Executions have bounded length, and each can be continued to one in which all handlers have
    ended; then all locks are free. *)
Theorem C53_ends (lib : library Doc Par Ans) rs : exists bound,
  forall n c, tsteps lib n (threads_start lib rs) c ->
    n <= bound /\
    exists m c', tsteps lib m c c' /\ (forall t, In t (snd c') -> finished t) /\ all_free (fst c').
Proof.
  exists (total (map (@new_task Par Ans handler) rs)). intros n c St.
  pose proof (inv_tsteps _ _ _ _ St (inv_start lib rs)) as I. split.
  - pose proof (tsteps_total _ _ _ _ St) as H. unfold threads_start in H. cbn [snd] in H. lia.
  - destruct (complete lib c I) as [m [c' [S2 F]]]. exists m, c'. split; [exact S2|]. split; [exact F|].
    intros i Hh. pose proof (inv_tsteps _ _ _ _ S2 I) as I2.
    destruct (holds_unfinished _ _ _ I2 Hh) as [t2 [H2 N]]. apply N, F.
    eapply nth_error_In; eauto.
Qed.

(** ** Handlers in one event loop *)
Theorem C53_loop (lib : library Doc Par Ans) rs c :
  lsteps lib handler (loop_start lib handler rs) c ->
  (forall i t, nth_error (l_tasks c) i = Some t -> finished t -> ~ holds (l_world c) i) /\
  (l_run c = None -> all_free (l_world c) /\
     forall i t, nth_error (l_tasks c) i = Some t -> ~ finished t ->
       exists c', lstep lib handler c c' /\ l_run c' = Some i) /\
  (forall i, l_run c = Some i -> exists c', lstep lib handler c c').
Proof.
  intros St. pose proof (linv_steps _ _ _ _ St (linv_start lib rs)) as [I R O Sq].
  split; [|split].
  - intros i t H F Hh. destruct (holds_unfinished _ _ _ I Hh) as [t2 [H2 N]]. congruence.
  - intros E. split.
    + intros i. apply (others_free _ _ _ i I O). rewrite E. discriminate.
    + intros i t H N. destruct c as [w ts run log]. cbn in *. subst run.
      destruct (O _ _ H ltac:(discriminate)) as [Et|F]; [|contradiction].
      exists {| l_world := w; l_tasks := ts; l_run := Some i; l_log := log ++ [i] |}.
      split; [|reflexivity]. apply (L_pick lib handler w ts log i t H N).
      intros Ns. apply Ns. exact Et.
  - intros i E. destruct c as [w ts run log]. cbn in *. subst run.
    destruct Sq as [don [reqs [w0 [_ [_ [_ [t [H _]]]]]]]].
    destruct (runner_acts lib _ _ _ _ I O H) as [[w' [t' A]]|F].
    + eexists. eapply L_act; eauto.
    + eexists. eapply L_end; eauto.
Qed.

(** The requests take effect in the order in which their handlers start. *)
Theorem C54_sequential (lib : library Doc Par Ans) rs c :
  lsteps lib handler (loop_start lib handler rs) c -> l_run c = None ->
  exists reqs,
    Forall2 (fun i r => nth_error rs i = Some r) (l_log c) reqs /\
    (forall u, view (l_world c) u = fst (serve_all lib reqs (fun _ => None)) u) /\
    Forall2 (fun i a => exists t, nth_error (l_tasks c) i = Some t /\ reply t = Some a)
            (l_log c) (snd (serve_all lib reqs (fun _ => None))).
Proof.
  intros St E. pose proof (linv_steps _ _ _ _ St (linv_start lib rs)) as [I R O [don [reqs [w0 [D M]]]]].
  rewrite E in M. destruct M as [-> ->]. exists reqs. destruct D as [D1 [D2 [D3 D4]]]. auto.
Qed.

End Props.

Theorem C54_latest_text {Ast State Node Pos Range Items Code}
    (G : gerber_lib Ast State Node Pos Range Items Code) (sup : str -> bool) rs c :
  lsteps (gerber_server G sup) handler (loop_start (gerber_server G sup) handler rs) c ->
  l_run c = None ->
  exists reqs,
    Forall2 (fun i r => nth_error rs i = Some r) (l_log c) reqs /\
    Forall2 (fun i a => exists t, nth_error (l_tasks c) i = Some t /\ reply t = Some a)
            (l_log c) (respond_all G sup reqs (fun _ => None)).
Proof.
  intros St E. destruct (C54_sequential _ _ _ St E) as [reqs [H1 [_ H3]]].
  exists reqs. split; [exact H1|].
  rewrite <- (serve_all_respond G sup reqs (fun _ => None) (fun _ => None)); [exact H3|].
  intros u. reflexivity.
Qed.

(** ** Documents that suspend *)
Definition toy : library nat nat nat :=
  {| supported := fun _ => true; new_doc := 0;
     on_request := fun r d => (d + rq_par r, Some d) |}.
Definition rq k u p : request nat := {| rq_kind := k; rq_uri := lit u; rq_par := p |}.

Lemma lsteps_trans {Doc Par Ans} (lib : library Doc Par Ans) prog c c' c'' :
  lsteps lib prog c c' -> lsteps lib prog c' c'' -> lsteps lib prog c c''.
Proof.
  intros H1 H2. revert H1. induction H2 as [|a b d _ IH St]; intros H1; [exact H1|].
  exact (Ls_step _ _ _ _ _ (IH H1) St).
Qed.

Lemma lsteps_iter {Doc Par Ans} (lib : library Doc Par Ans) prog n i w t w' t' ts log :
  nth_error ts i = Some t -> iter lib n i w t = Some (w', t') ->
  exists ts', (ts' = ts \/ exists x, ts' = set_nth i x ts) /\ nth_error ts' i = Some t' /\
    (forall j, j <> i -> nth_error ts' j = nth_error ts j) /\
    lsteps lib prog {| l_world := w; l_tasks := ts; l_run := Some i; l_log := log |}
                    {| l_world := w'; l_tasks := ts'; l_run := Some i; l_log := log |}.
Proof.
  revert w t ts. induction n as [|n IH]; intros w t ts H E; cbn in E.
  - injection E as <- <-. exists ts. split; [auto|]. split; [exact H|]. split; [auto|]. constructor.
  - destruct (step lib i w t) as [w1 t1| | | |] eqn:Es; try discriminate.
    destruct (IH w1 t1 (set_nth i t1 ts) (nth_set_eq _ _ _ _ H) E) as [ts' [A [B [C D]]]].
    exists ts'. split; [|split; [exact B|split]].
    + right. destruct A as [->|[x ->]]; [eauto|]. exists x. clear.
      revert i. induction ts as [|y ts IHt]; intros [|i]; cbn; try reflexivity.
      rewrite IHt. reflexivity.
    + intros j Hj. rewrite C by assumption. apply nth_set_neq. congruence.
    + eapply lsteps_trans; [|exact D]. econstructor; [constructor|]. eapply L_act; eauto.
Qed.

(** If the documents' methods awaited anything before answering, two hover requests for the same
    document could stop the server for ever: the first waits for the event loop with the document
    locked, the second blocks the thread the loop runs in. *)
Theorem C53_suspension_refuted :
  exists rs c,
    lsteps toy (handler_with (SSeq SSuspend SBody))
      (loop_start toy (handler_with (SSeq SSuspend SBody)) rs) c /\
    (exists t, In t (l_tasks c) /\ ~ finished t) /\
    forall c', ~ lstep toy (handler_with (SSeq SSuspend SBody)) c c'.
Proof.
  set (prog := handler_with (SSeq SSuspend SBody)).
  set (r0 := rq KHover "a.gbr" 1). set (r1 := rq KHover "a.gbr" 2).
  exists [r0; r1].
  set (t0 := new_task prog r0 : task nat nat). set (t1 := new_task prog r1 : task nat nat).
  (* the first handler up to its suspension *)
  assert (X0 : exists n w t w' t', iter toy n 0 (start_world toy) t0 = Some (w, t)
            /\ step toy 0 w t = OSusp w' t'
            /\ exists m w2 t2, iter toy m 1 w' t1 = Some (w2, t2) /\ step toy 1 w2 t2 = OBlock).
  { assert (X : match iter toy 56 0 (start_world toy) t0 with
                | Some (w, t) =>
                    match step toy 0 w t with
                    | OSusp w' t' =>
                        match iter toy 19 1 w' t1 with
                        | Some (w2, t2) => step toy 1 w2 t2 = OBlock
                        | None => False
                        end
                    | _ => False
                    end
                | None => False
                end) by (vm_compute; reflexivity).
    destruct (iter toy 56 0 (start_world toy) t0) as [[w t]|] eqn:E0; [|contradiction].
    destruct (step toy 0 w t) as [| w' t' | | |] eqn:E1; try contradiction.
    destruct (iter toy 19 1 w' t1) as [[w2 t2]|] eqn:E2; [|contradiction].
    exists 56, w, t, w', t'. split; [exact E0|]. split; [exact E1|]. exists 19, w2, t2. auto. }
  destruct X0 as [n [w [t [w' [t' [E0 [S0 [m [w2 [t2 [E1 S1]]]]]]]]]]].
  destruct (lsteps_iter toy prog n 0 _ t0 w t [t0; t1] [0] eq_refl E0) as [ts1 [_ [A1 [A2 A3]]]].
  assert (B1 : nth_error (set_nth 0 t' ts1) 1 = Some t1).
  { rewrite nth_set_neq by discriminate. rewrite A2 by discriminate. reflexivity. }
  destruct (lsteps_iter toy prog m 1 _ t1 w2 t2 (set_nth 0 t' ts1) [0; 1] B1 E1)
    as [ts2 [_ [C1 [C2 C3]]]].
  assert (Nf : forall r, ~ finished (new_task prog r : task nat nat)).
  { intros r [_ [H|[c H]]]; discriminate. }
  exists {| l_world := w2; l_tasks := ts2; l_run := Some 1; l_log := [0; 1] |}. split; [|split].
  - eapply lsteps_trans; [|eapply lsteps_trans; [exact A3|]].
    + econstructor; [constructor|]. eapply (L_pick toy prog _ _ [] 0 t0); [reflexivity|apply Nf|].
      intros H. apply H. reflexivity.
    + eapply lsteps_trans; [|exact C3].
      econstructor; [econstructor; [constructor|]|].
      * eapply L_suspend; [exact A1|exact S0].
      * eapply (L_pick toy prog _ _ [0] 1 t1); [exact B1|apply Nf|]. intros H. apply H. reflexivity.
  - exists t2. split; [eapply nth_error_In; exact C1|]. intros F.
    rewrite (finished_step toy 1 w2 t2 F) in S1. discriminate.
  - intros c' St. inversion St; subst; try congruence.
    assert (t3 = t2) by congruence. subst t3. rewrite finished_step in S1 by assumption. discriminate.
Qed.

(** ** Examples: three requests for one document and one for another *)
Definition three : list (request nat) :=
  [rq KOpen "a.gbr" 1; rq KChange "a.gbr" 2; rq KHover "a.gbr" 0; rq KClose "b.gbr" 5].
Example three_in_order :
  snd (serve_all toy three (fun _ => None)) = [Some 0; Some 1; Some 3; Some 0]
  /\ fst (serve_all toy three (fun _ => None)) (lit "a.gbr") = Some 3
  /\ fst (serve_all toy three (fun _ => None)) (lit "b.gbr") = None.
Proof. repeat split; reflexivity. Qed.

(** Two handlers in threads that meet: the second waits for the document, then both end. *)
Example meeting_handlers :
  match iter toy 57 0 (start_world toy) (new_task handler (rq KOpen "a.gbr" 1)) with
  | Some (w, t) =>
      o_t (w_heap w 0) = Some 0 /\
      match iter toy 19 1 w (new_task handler (rq KClose "a.gbr" 1)) with
      | Some (w', t') => w_t w' = Some 1 /\ step toy 1 w' t' = OBlock
      | None => False
      end
  | None => False
  end.
Proof. vm_compute. repeat split. Qed.

(** A document whose text is changed: the hover answer comes from the new text. *)
Definition toy_lib : gerber_lib str nat nat nat nat nat nat :=
  {| g_sha := fun _ => []; g_parse := fun t => match t with [] => None | _ => Some t end;
     g_find := fun a p => Some (if Nat.ltb p (length a) then Some p else None);
     g_markdown := fun a n => Some (skipn n a); g_source := fun n => Some n;
     g_invalid := fun n => Some (lit "D"); g_track := fun a => Some (length a);
     g_items := fun s => Some s; g_next_code := fun s => Some s |}.
Definition pr k t p : request (params nat) :=
  {| rq_kind := k; rq_uri := lit "a.gbr"; rq_par := {| p_text := lit t; p_pos := p |} |}.
Example latest_text :
  respond_all toy_lib (fun _ => true)
    [pr KHover "" 1; pr KOpen "abc" 0; pr KCompletion "" 1; pr KChange "xyzuv" 0; pr KHover "" 3;
     pr KCompletion "" 1; pr KChange "" 0; pr KHover "" 0; pr KClose "" 0]
    (fun _ => None)
  = [Some ANothing; Some ANothing; Some (AApertures 3); Some ANothing; Some (AHover (lit "uv") 3);
     Some (AApertures 5); None; Some ANothing; Some ANothing].
Proof. reflexivity. Qed.

(** The semantics of [suppress(Exception)] and of locks on their own: a cancellation is not
    suppressed, an exception is, and so is that of releasing a lock nobody has. *)
Definition in_suppress (m : mode) : option (list mode) :=
  let t := to_mode (new_task (fun _ => SBody) (rq KHover "a.gbr" 1) : task nat nat) m [FSuppress; FSeq SBody] in
  match step toy 0 (start_world toy) t with
  | ONext w t1 => match step toy 0 w t1 with ONext _ t2 => Some [k_mode t1; k_mode t2] | _ => None end
  | _ => None
  end.
Example C53_suppressing :
  in_suppress (MExc true) = Some [MExc true; MExc true] /\
  in_suppress (MExc false) = Some [MRet; MRun SBody] /\
  in_suppress (MRun (SRelT LCache)) = Some [MExc false; MRet].
Proof. repeat split. Qed.

Print Assumptions C53_released.
Print Assumptions C53_progress.
Print Assumptions C53_ends.
Print Assumptions C53_loop.
Print Assumptions C54_sequential.
Print Assumptions C54_latest_text.
Print Assumptions C53_suspension_refuted.

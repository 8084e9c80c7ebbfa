(* What can be had of C49 and C59: the cost of a client that is gone, and of a block that fails. *)
From Coq Require Import Lia Permutation.
From Verif Require Import SchedProps SchedExec DGFacts2 PipeRun P_SchedCE P_Sched SerialFacts
  Server ServerFacts ServerSteps ServerIdle P_Server P_ServerCE.
Open Scope Z_scope.

Lemma event_loop_app up down maxr fuel init ins ins' : forall x y, event_loop up down maxr fuel init ins x = Ok y ->
  event_loop up down maxr fuel init (ins ++ ins') x = event_loop up down maxr fuel init ins' y.
Proof.
  assert (S : forall l x, sv_stop x = true -> event_loop up down maxr fuel init l x = Ok x) by (intros [|i l] x E; cbn; rewrite E; auto).
  induction ins as [|i ins IH]; intros x y; cbn [event_loop app].
  - destruct (sv_stop x); intros H; injection H as <-; auto.
  - destruct (sv_stop x) eqn:E; [intros H; injection H as <-; rewrite S; auto|].
    destruct (iteration _ _ _ _ _ _ _) as [z|]; [|discriminate]. cbn [bind]. apply IH.
Qed.
Lemma run_more tasks ord ordt d s0 fuel init stopped ins x ins' :
  server_run_to tasks ord ordt d s0 fuel init stopped ins x -> Forall (fair tasks) ins' ->
  exists y, event_loop (dg_up ord ordt d) (dg_down ord ordt d) (dg_max_retries d) fuel init ins' x = Ok y /\
    server_run_to tasks ord ordt d s0 fuel init stopped (ins ++ ins') y.
Proof.
  intros R F. pose proof R as [R1 R2 R3 R4 R5 R6 R7 R8 R9].
  assert (F' : Forall (fair tasks) (ins ++ ins')) by (apply Forall_app; auto).
  destruct (C30_one_owner_partial tasks ord ordt d s0 fuel init stopped (ins ++ ins') R1 R2 R3 R4 R5 R6 R7 F') as [y [E _]].
  exists y. split; [|constructor; auto]. unfold server_pipe in E, R9. destruct (server_init _ _ _ _) as [x0|]; [|discriminate]. cbn [bind] in *.
  rewrite (event_loop_app _ _ _ _ _ _ _ _ _ R9) in E. exact E.
Qed.

Section Req.
  Variables (up down : block -> list block) (maxr : nat -> Z) (fuel : nat) (init : nat -> res unit).
  Lemma lost_quietly i x y : check_lost up down maxr fuel init i x = Ok y -> quietly x y.
  Proof.
    unfold check_lost. destruct (get_lost_blocks _ _ _ _) as [[bs b]|]; [|discriminate]. cbn [bind].
    set (x1 := add_tr (set_book x b) _). assert (Q : quietly x x1).
    { constructor; [reflexivity|]. eexists. split; [reflexivity|]. eapply Forall_impl; [|apply lost_notes]. intros c; destruct c; cbn; tauto. }
    intros H. eapply quietly_trans; [exact Q|]. clear Q. revert H. generalize x1. clear x1. induction bs as [|pb bs IH]; intros x1; cbn [foldM].
    - intros H. injection H as <-. apply quietly_refl.
    - destruct (sv_release _ _ _ _ _ _ _ _) as [z|] eqn:E; [|discriminate]. cbn [bind]. intros H.
      eapply quietly_trans; [eapply rel_quietly; eauto|eauto].
  Qed.
  Lemma quietly_req st x y : quietly x y -> times (is_req st) (sv_tr y) = times (is_req st) (sv_tr x).
  Proof. intros [_ [l [B C]]]. rewrite B, times_app. destruct (noreq_times l st C) as [-> _]. auto. Qed.
  Lemma msgs_req i x y st : handle_messages up down maxr fuel init i x = Ok y -> (forall t, i_get i <> GotMessage st (MAcquire t)) ->
    times (is_req st) (sv_tr y) = times (is_req st) (sv_tr x).
  Proof.
    intros E N. unfold handle_messages in E. destruct (i_get i) as [s m| | |e]; try discriminate.
    - destruct (msg_acct _ _ _ _ _ _ _ _ _ _ E st) as [-> _]. cbn [add_tr sv_tr]. rewrite times_app, times_cons, times_nil.
      destruct m as [t| | | |]; cbn [is_req]; auto. assert (s <> st) by (intros ->; apply (N t); auto).
      destruct (Nat.eqb_spec s st); [contradiction|auto].
    - destruct (pfirst (sv_pend x)) as [[[t s] p]|]; [|injection E as <-; auto].
      destruct (msg_acct _ _ _ _ _ _ _ _ _ _ E st) as [-> _]. reflexivity.
    - injection E as <-. auto.
  Qed.
  Lemma iteration_req i x y st : iteration up down maxr fuel init i x = Ok y -> (forall t, i_get i <> GotMessage st (MAcquire t)) ->
    times (is_req st) (sv_tr y) = times (is_req st) (sv_tr x).
  Proof.
    unfold iteration. destruct (handle_messages _ _ _ _ _ _ _) as [z|] eqn:E; [|discriminate]. cbn [bind].
    destruct (check_lost _ _ _ _ _ _ _) as [w|] eqn:L; [|discriminate]. cbn [bind].
    destruct (i_health i); [|discriminate]. cbn [bind]. intros H N. injection H as <-.
    apply lost_quietly in L. apply (quietly_req st) in L. rewrite <- (msgs_req _ _ _ st E N), <- L.
    destruct (i_tick i); auto. apply quietly_req, besides_quietly, check_all_spec.
  Qed.
  Lemma loop_req ins st : forall x y, event_loop up down maxr fuel init ins x = Ok y ->
    (forall i, In i ins -> forall t, i_get i <> GotMessage st (MAcquire t)) -> times (is_req st) (sv_tr y) = times (is_req st) (sv_tr x).
  Proof.
    induction ins as [|i ins IH]; intros x y; cbn [event_loop]; destruct (sv_stop x); try (intros H; injection H as <-; auto).
    destruct (iteration _ _ _ _ _ _ _) as [z|] eqn:E; [|discriminate]. cbn [bind]. intros H N.
    rewrite (IH _ _ H) by (intros j Hj; apply N; right; auto). eapply iteration_req; eauto. apply N. left. auto.
  Qed.
End Req.

(* One more iteration of the loop. *)
Lemma run_one tasks ord ordt d s0 fuel init stopped ins x i y :
  server_run_to tasks ord ordt d s0 fuel init stopped ins x -> fair tasks i -> sv_stop x = false ->
  iteration (dg_up ord ordt d) (dg_down ord ordt d) (dg_max_retries d) fuel init i x = Ok y ->
  server_run_to tasks ord ordt d s0 fuel init stopped (ins ++ [i]) y.
Proof.
  intros R F S E. destruct (run_more _ _ _ _ _ _ _ _ _ _ [i] R) as [y' [E2 R2]]; [constructor; auto|].
  cbn [event_loop] in E2. rewrite S, E in E2. cbn [bind] in E2. destruct (sv_stop y); injection E2 as <-; auto.
Qed.
(* After an iteration that found the stream closed its client holds nothing. *)
Lemma iter_gone tasks ord ordt d s0 fuel init stopped ins x i y st :
  server_run_to tasks ord ordt d s0 fuel init stopped ins x -> fair tasks i -> sv_stop x = false ->
  iteration (dg_up ord ordt d) (dg_down ord ordt d) (dg_max_retries d) fuel init i x = Ok y -> i_closed i st = true ->
  forall b, held (hist (sv_tr y)) b -> last_sent (sv_tr y) b <> Some st.
Proof.
  intros R F S E C b Hb Hs. pose proof (run_one _ _ _ _ _ _ _ _ _ _ _ _ R F S E) as R2.
  destruct (C32_lost_once _ _ _ _ _ _ _ _ _ _ i R F) as [u [v [lost [Eu [Ev [_ [Hl [Hh [Hk [Hbk _]]]]]]]]]].
  unfold iteration in E. rewrite Eu in E. cbn [bind] in E. rewrite Ev in E. cbn [bind] in E.
  destruct (i_health i); [|discriminate]. cbn [bind] in E. injection E as E.
  assert (B : sv_book y = sv_book v) by (subst y; destruct (i_tick i); auto; apply be_book, check_all_spec).
  pose proof (a_sinv _ _ _ _ _ _ _ _ _ _ R2) as I.
  apply (si_held _ _ _ _ _ _ _ _ I) in Hb. rewrite app_nil_r in Hb. apply in_blocks in Hb. destruct Hb as [e [He Eb]].
  pose proof (si_sent _ _ _ _ _ _ _ _ I _ He) as G. rewrite Eb, Hs in G. injection G as G.
  rewrite B in He. apply Hbk in He. destruct He as [_ He]. rewrite <- G, C in He. discriminate.
Qed.

(* C49: a client that is gone is sent no more than it had asked for, and what it is sent is taken back in the same iteration. *)
Theorem C49_bounded_partial : forall tasks ord ordt d s0 fuel init stopped ins x ins' y st,
  let up := dg_up ord ordt d in let down := dg_down ord ordt d in let maxr := dg_max_retries d in
  server_run_to tasks ord ordt d s0 fuel init stopped ins x -> Forall (fair tasks) ins' ->
  (forall i, In i ins' -> i_closed i st = true /\ forall m, i_get i <> GotMessage st m) ->
  event_loop up down maxr fuel init ins' x = Ok y ->
  (times (is_ans st) (sv_tr y) <= times (is_req st) (sv_tr x))%nat /\
  (ins' <> [] -> sv_stop x = false -> forall b, held (hist (sv_tr y)) b -> last_sent (sv_tr y) b <> Some st).
Proof.
  intros tasks ord ordt d s0 fuel init stopped ins x ins' y st up down maxr R F C E. split.
  - destruct (run_more _ _ _ _ _ _ _ _ _ _ _ R F) as [y' [E' R']]. fold up down maxr in E'. rewrite E in E'. injection E' as <-.
    pose proof (a_acct _ _ _ _ _ _ _ _ _ _ R' st) as A. rewrite (loop_req _ _ _ _ _ _ st _ _ E) in A; [lia|]. intros i Hi t. apply C. auto.
  - assert (C1 : forall i, In i ins' -> i_closed i st = true) by (intros j Hj; apply C; auto). clear C.
    revert ins x R F C1 E. induction ins' as [|j l IH]; intros ins x R F C1 E NE S; [congruence|].
    inversion F as [|? ? Fj Fl]; subst. cbn [event_loop] in E. rewrite S in E.
    destruct (iteration up down maxr fuel init j x) as [x2|] eqn:Ej; [|discriminate]. cbn [bind] in E.
    pose proof (run_one _ _ _ _ _ _ _ _ _ _ _ _ R Fj S Ej) as R2.
    assert (G : x2 = y \/ l <> [] /\ sv_stop x2 = false).
    { destruct l; cbn [event_loop] in E; destruct (sv_stop x2) eqn:S2; try (left; congruence). right. split; [discriminate|auto]. }
    destruct G as [-> | [Hl S2]].
    + apply (iter_gone _ _ _ _ _ _ _ _ _ _ _ _ st R Fj S Ej). apply C1. left. auto.
    + apply (IH (ins ++ [j]) x2); auto. intros i Hi. apply C1. right. auto.
Qed.
Print Assumptions C49_bounded_partial.

(* and the bound is met: of the client in C49_dead_client_refuted *)
Theorem C49_example : exists d s0 fuel ins x y,
  server_run_to [ce_x] idl idl d s0 fuel no_init false ins x /\ fair [ce_x] dead_9 /\ sv_stop x = false /\
  event_loop (dg_up idl idl d) (dg_down idl idl d) (dg_max_retries d) fuel no_init [dead_9] x = Ok y /\
  times (is_ans 9) (sv_tr x) = 0%nat /\ times (is_ans 9) (sv_tr y) = 1%nat /\ times (is_req 9) (sv_tr x) = 1%nat.
Proof.
  destruct (serve_run [ce_x] 400 no_check [Ask 1 8; Ask 1 9; Ret (1%nat, 2) SUCCESS]
    (fun d x => match event_loop (dg_up idl idl d) (dg_down idl idl d) (dg_max_retries d) 400 no_init [dead_9] x with
                | Ok y => negb (sv_stop x) && (Nat.eqb (times (is_ans 9) (sv_tr x)) 0 && (Nat.eqb (times (is_ans 9) (sv_tr y)) 1 && Nat.eqb (times (is_req 9) (sv_tr x)) 1))
                | Err _ => false
                end) ce_x_ok ce_x_edges) as [d [s0 [ins [x [R H]]]]].
  { vm_compute. reflexivity. }
  destruct (event_loop _ _ _ _ _ _ _) as [y|] eqn:E in H; [|discriminate].
  apply andb_prop in H. destruct H as [H1 H]. apply andb_prop in H. destruct H as [H2 H]. apply andb_prop in H. destruct H as [H3 H4].
  apply Nat.eqb_eq in H2, H3, H4. apply negb_true_iff in H1.
  exists d, s0, 400%nat, ins, x, y. split; [exact R|]. split; [split; cbn; auto|]. auto 10.
Qed.
Print Assumptions C49_example.

(* C59: the report of a failed block that arrives.  The failure is counted and announced, with the
   worker it came from; every other block stays with the client it was sent to; the loop goes on. *)
Theorem C59_arrived_partial : forall tasks ord ordt d s0 fuel init stopped ins x i st pb w,
  let up := dg_up ord ordt d in let down := dg_down ord ordt d in let maxr := dg_max_retries d in
  server_run_to tasks ord ordt d s0 fuel init stopped ins x -> sv_stop x = false ->
  fair tasks i -> i_get i = GotMessage st (MBlockFailed pb w) -> (forall s, i_closed i s = false) ->
  held (hist (sv_tr x)) (pb_block pb) -> last_sent (sv_tr x) (pb_block pb) = Some st ->
  exists y l, iteration up down maxr fuel init i x = Ok y /\
    server_run_to tasks ord ordt d s0 fuel init stopped (ins ++ [i]) y /\
    hist (sv_tr y) = EvRel (PB (pb_block pb) FAILED) :: hist (sv_tr x) /\
    sv_tr y = l ++ sv_tr x /\ In (ANote (NFailure (PB (pb_block pb) FAILED) w)) l /\
    (forall b, b <> pb_block pb -> held (hist (sv_tr x)) b -> held (hist (sv_tr y)) b /\ last_sent (sv_tr y) b = last_sent (sv_tr x) b).
Proof.
  intros tasks ord ordt d s0 fuel init stopped ins x i st pb w up down maxr R Sx F G C Hb Hs.
  destruct (run_more _ _ _ _ _ _ _ _ _ _ [i] R) as [y [E R2]]; [constructor; auto|]. fold up down maxr in E.
  cbn [event_loop] in E. rewrite Sx in E. destruct (iteration up down maxr fuel init i x) as [y'|] eqn:Ei; [|discriminate]. cbn [bind] in E.
  assert (y' = y) by (destruct (sv_stop y'); congruence). subst y'. clear E.
  destruct (a_fail_msg _ _ _ _ _ _ _ _ _ _ R i st pb w G F Hb Hs) as [z [Ez [Hz _]]]. fold up down maxr in Ez.
  destruct (C32_lost_once _ _ _ _ _ _ _ _ _ _ i R F) as [u [v [lost [Eu [Ev [_ [Hl [Hh _]]]]]]]]. fold up down maxr in Eu, Ev.
  rewrite Ez in Eu. injection Eu as <-.
  assert (L0 : lost = []).
  { destruct lost as [|b lost]; auto. destruct (proj1 (Hl b)) as [_ [s [_ H]]]; [left; auto|]. rewrite C in H. discriminate. }
  subst lost. cbn [map app] in Hh.
  assert (Qz : exists l, sv_tr z = l ++ sv_tr x /\ Forall noreq l /\ In (ANote (NFailure (PB (pb_block pb) FAILED) w)) l).
  { unfold handle_messages, handle_message in Ez. rewrite G in Ez.
    destruct (safe_release _ _ _ _ _ _ _ _ _) as [a|] eqn:Ea; [|discriminate]. cbn [bind] in Ez. injection Ez as <-.
    apply safe_quietly in Ea. destruct Ea as [_ [l1 [T1 F1]]].
    destruct (besides_quietly _ _ (proj1 (check_all_spec (add_tr a [ANote (NFailure (PB (pb_block pb) FAILED) w)])))) as [_ [l2 [T2 F2]]].
    exists (l2 ++ [ANote (NFailure (PB (pb_block pb) FAILED) w)] ++ l1 ++ [ARecv st (MBlockFailed pb w)]). split; [|split].
    - rewrite T2. cbn [add_tr sv_tr]. rewrite T1. cbn [add_tr sv_tr]. rewrite <- !app_assoc. reflexivity.
    - rewrite !Forall_app. repeat split; auto; repeat constructor.
    - apply in_or_app. right. left. auto. }
  assert (Qy : quietly z y /\ hist (sv_tr y) = hist (sv_tr v)).
  { unfold iteration in Ei. rewrite Ez in Ei. cbn [bind] in Ei. rewrite Ev in Ei. cbn [bind] in Ei.
    destruct (i_health i); [|discriminate]. cbn [bind] in Ei. injection Ei as <-. apply lost_quietly in Ev.
    destruct (i_tick i); auto. split; [eapply quietly_trans; [exact Ev|apply besides_quietly, check_all_spec]|].
    apply besides_hist, check_all_spec. }
  destruct Qz as [l1 [T1 [F1 N1]]]. destruct Qy as [[_ [l2 [T2 F2]]] Hy].
  exists y, (l2 ++ l1). split; [reflexivity|]. split; [exact R2|]. split; [congruence|].
  assert (Ty : sv_tr y = (l2 ++ l1) ++ sv_tr x) by (rewrite T2, T1, app_assoc; reflexivity). split; [exact Ty|].
  split; [apply in_or_app; auto|]. intros b Nb Hbb. rewrite Hy, Hh, Hz. split.
  - unfold held in *. change (n_handed (EvRel (PB (pb_block pb) FAILED) :: hist (sv_tr x)) b) with (0 + n_handed (hist (sv_tr x)) b).
    change (n_released (EvRel (PB (pb_block pb) FAILED) :: hist (sv_tr x)) b) with ((if is_block (pb_block pb) b then 1 else 0) + n_released (hist (sv_tr x)) b).
    unfold is_block. destruct (block_dec (pb_block pb) b); [subst; contradiction|lia].
  - rewrite Ty. apply last_sent_app. apply Forall_app. split; [eapply Forall_impl; [|exact F2]|eapply Forall_impl; [|exact F1]]; intros c; destruct c; cbn; tauto.
Qed.
Print Assumptions C59_arrived_partial.

(* a run that meets the conditions: two clients have a block each, one of them reports a failure *)
Definition fail_1 (b : block) : input := an_input (GotMessage 1 (MBlockFailed (PB b PROCESSING) 0)) [] false no_check.
Theorem C59_example : exists d s0 fuel ins x a b,
  server_run_to ex_row idl idl d s0 fuel no_init false ins x /\ sv_stop x = false /\ fair ex_row (fail_1 a) /\ a <> b /\
  held (hist (sv_tr x)) a /\ last_sent (sv_tr x) a = Some 1%nat /\ held (hist (sv_tr x)) b /\ last_sent (sv_tr x) b = Some 2%nat.
Proof.
  destruct (serve_run ex_row 100 no_check [Ask 1 1; Ask 1 2]
    (fun d x => negb (sv_stop x) && some_block (fun a => some_block (fun b =>
       (n_released (hist (sv_tr x)) a <? n_handed (hist (sv_tr x)) a) && (n_released (hist (sv_tr x)) b <? n_handed (hist (sv_tr x)) b) &&
       match last_sent (sv_tr x) a, last_sent (sv_tr x) b with Some s, Some t => Nat.eqb s 1 && Nat.eqb t 2 | _, _ => false end) d) d)
    ex_row_ok ex_row_edges) as [d [s0 [ins [x [R H]]]]].
  { vm_compute. reflexivity. }
  apply andb_prop in H. destruct H as [S H]. apply negb_true_iff in S.
  apply existsb_exists in H. destruct H as [a [Ha H]]. apply existsb_exists in H. destruct H as [b [_ H]].
  apply andb_prop in H. destruct H as [H L]. apply andb_prop in H. destruct H as [H1 H2]. apply Z.ltb_lt in H1, H2.
  destruct (last_sent (sv_tr x) a) as [s|] eqn:La; [|discriminate]. destruct (last_sent (sv_tr x) b) as [t|] eqn:Lb; [|discriminate].
  apply andb_prop in L. destruct L as [L1 L2]. apply Nat.eqb_eq in L1, L2. subst s t.
  exists d, s0, 100%nat, ins, x, a, b. split; [exact R|]. split; auto. split.
  { split; [|reflexivity]. cbn. destruct (pipe_fresh ex_row d s0 ex_row_ok (sr_init _ _ _ _ _ _ _ _ _ _ R)) as [_ [DK _]].
    apply (in_pblocks ex_row ex_row_ok d DK). exact Ha. }
  split; [intros ->; congruence|]. auto.
Qed.
Print Assumptions C59_example.

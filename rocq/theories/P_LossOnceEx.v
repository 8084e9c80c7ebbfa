(* A call of run_blockwise in which a connection is lost and every body is begun once (for C98), computed. *)
From Coq Require Import Arith Lia.
From Verif Require Import SchedProps SchedExec DGFacts2 PipeRun P_SchedCE P_Sched P_Apart SerialFacts P_Conv P_Serial ServerFacts ServerSteps
  ServerIdle P_Server P_Server2 P_ServerCE P_Outcome P_Notify PoolAll P_PoolFail P_SysEx P_SysCE.
From Verif Require Client Pool P_Pool P_Whole P_WholeEx P_WholeCE P_Cause Tcp Net NetFacts P_Net P_NetErr WireNet.
From Verif Require Import Sys SysFacts SysMeasure SysTrace WholeFair WholeSrv WholeSim WholeAny WholeAll WholeRun P_WholeAny WholeOwn P_WholeOwn P_WholeOwnEx
  TopInit Top P_Top Wire WireSim P_Wire P_WireEx P_WireOwn WireTop P_WireTop WireLoss P_WireLoss P_WireLossEx LossTop P_LossTop P_LossTopEx P_LossRuns P_LossRunsEx P_LossOnce.
Open Scope Z_scope.

(* the inputs of the server in these runs: no check_function calls a block done *)
Lemma lplay_unchecked up down maxr fuel nw mbf dumps loads cs : forall x ms x', lplay up down maxr fuel nw mbf dumps loads cs x = Some (ms, x') ->
  forall i k b, In (LDo (XServe i)) ms -> i_chk i k b <> CheckTrue.
Proof.
  induction cs as [|c r IH]; intros x ms x' H i k b I; cbn [lplay] in H; [apply some_inj, pair_equal_spec in H; destruct H as [<- _]; destruct I|].
  destruct (lperform _ _ _ _ _ _ _ _ c x) as [[m x1]|] eqn:E; [|discriminate H]. destruct (lplay _ _ _ _ _ _ _ _ r x1) as [[ms1 x2]|] eqn:El; [|discriminate H].
  apply some_inj, pair_equal_spec in H. destruct H as [<- <-]. destruct I as [->|I]; [|eapply IH; eauto]. clear IH El.
  destruct c as [c|st]; cbn [lperform] in E.
  - destruct (xperform _ _ _ _ _ _ _ _ c x) as [[m1 y1]|] eqn:Ex; [|discriminate E]. apply some_inj, pair_equal_spec in E. destruct E as [E _]. injection E as ->.
    destruct c; cbn [xperform] in Ex; repeat match type of Ex with context [match ?a with _ => _ end] => destruct a end; try discriminate Ex;
      apply some_inj, pair_equal_spec in Ex; destruct Ex as [Ex _]; try discriminate Ex. injection Ex as <-. discriminate.
  - destruct (xproc x st); [|discriminate E]. destruct (Net.nstep _ _ _ _); discriminate E.
Qed.
(* One task of two blocks, two workers.  The connection of process 0 is lost before it has asked for a block.  Process 1 does both. *)
Definition wo_1 : list ldeed := map GDo (connect 0) ++ [GBreak 0] ++ map GDo (connect 1 ++ P_WireLossEx.takes 1 ++ P_WireLossEx.does 1 ++ P_WireLossEx.takes 1 ++ P_WireLossEx.does 1).
Definition wo_run (ts : list task) : option (dgraph * sched * whole * (list lmove * wire)) :=
  match sched_init ts with
  | Ok (d, s0) =>
      match whole_init no_init ow_nw 3 (map t_id ts) s0 with
      | Ok h => match lplay (dg_up idl idl d) (dg_down idl idl d) (dg_max_retries d) 100 ow_nw 3 (dumpl (pblocks d)) (loadl (pblocks d)) wo_1 (wire_init h) with
                | Some a => Some (d, s0, h, a) | None => None end
      | Err _ => None end
  | Err _ => None end.
Definition failing (h : history) : bool := existsb (fun e => match e with EvRel pb => status_eqb (pb_status pb) FAILED | _ => false end) h.
Lemma failing_none h : failing h = false -> forall b, n_failed h b = 0.
Proof.
  unfold failing, n_failed. induction h as [|e h IH]; intros H b; [reflexivity|]. cbn [existsb] in H. apply Bool.orb_false_iff in H. destruct H as [H1 H2]. cbn [count].
  rewrite (IH H2). destruct e; try reflexivity. rewrite H1, Bool.andb_false_r. reflexivity.
Qed.
Definition wo_check (d : dgraph) (ms : list lmove) (x : wire) : bool :=
  enough_b d 100 && negb (failing (hist (sv_tr (x_sv x)))) && match pblocks d with [_; _] => true | _ => false end &&
  match x_todo x with [] => true | _ => false end && sv_stop (x_sv x) && result (sv_s (x_sv x)) &&
  existsb (fun m => match m with LBreak 0 => true | _ => false end) ms.
Lemma wo_checked : match wo_run [P_WholeCE.wc 2 5] with Some (d, s0, h, (ms, x)) => wo_check d ms x | None => false end = true.
Proof. vm_compute. reflexivity. Qed.
Definition wo_claim (ts : list task) (d : dgraph) (s0 : sched) (ms : list lmove) (x : wire) (a b : block) : Prop :=
  let dumps := dumpl (pblocks d) in let loads := loadl (pblocks d) in let y := XTop x false in
  call ts idl idl ts d 100 ow_nw /\ P_Net.lossless dumps loads /\
  (exists ps, run_lossy false ts idl idl 100 no_init ow_nw ts d s0 dumps loads (map LTMove ms) (Some y) (XEnded (Returned true)) ps) /\
  (forall c, n_failed (hist (sv_tr (x_sv x))) c = 0) /\ (forall c, unchecked c (map LTMove ms)) /\ In (LBreak 0) ms /\ pblocks d = [a; b] /\
  runs_of idl idl 100 no_init ow_nw ts d s0 dumps loads a (map LTMove ms) y 1 /\ runs_of idl idl 100 no_init ow_nw ts d s0 dumps loads b (map LTMove ms) y 1.
Lemma wo_from ts k d s0 h ms x : pipe_ok ts -> edges_ok ts -> collect_tasks k ts = Ok ts -> wo_run ts = Some (d, s0, h, (ms, x)) -> wo_check d ms x = true ->
  exists a b, wo_claim ts d s0 ms x a b.
Proof.
  intros PO EO Ec E Q. unfold wo_run in E. destruct (sched_init ts) as [[d' s']|] eqn:Es; [|discriminate E]. destruct (whole_init _ _ _ _ _) as [h'|] eqn:Ei; [|discriminate E].
  destruct (lplay _ _ _ _ _ _ _ _ wo_1 _) as [[n1 y1]|] eqn:E1; [|discriminate E].
  apply some_inj in E. repeat (apply pair_equal_spec in E; let F := fresh in destruct E as [E F]; try (apply pair_equal_spec in F; destruct F)). subst.
  unfold wo_check in Q. apply andb_prop in Q. destruct Q as [Q Q7]. apply andb_prop in Q. destruct Q as [Q Q6]. apply andb_prop in Q. destruct Q as [Q Q5]. apply andb_prop in Q. destruct Q as [Q Q4].
  apply andb_prop in Q. destruct Q as [Q Q3]. apply andb_prop in Q. destruct Q as [Q1 Q2]. apply Bool.negb_true_iff in Q2.
  assert (SE : setup ts idl idl d s0 100 no_init ow_nw 3 h) by (eapply own_setup; eauto; intros t; unfold ow_nw; lia).
  assert (PR : pipe_run ts idl idl d s0 100 [] s0) by (constructor; auto using idl_order; constructor).
  assert (CA : call ts idl idl ts d 100 ow_nw) by (destruct SE; constructor; auto).
  assert (T : x_todo x = []) by (destruct (x_todo x); [reflexivity|discriminate Q4]).
  assert (NF : forall c, n_failed (hist (sv_tr (x_sv x))) c = 0) by (apply failing_none; exact Q2).
  assert (UC : forall c, unchecked c (map LTMove ms)).
  { intros c i j H. apply in_map_iff in H. destruct H as [m [H I]]. injection H as ->. eapply lplay_unchecked; eauto. }
  apply lplay_runs in E1. set (bs := pblocks d) in E1.
  assert (RN : exists ps, run_lossy false ts idl idl 100 no_init ow_nw ts d s0 (dumpl bs) (loadl bs) (map LTMove ms) (Some (XTop x false)) (XEnded (Returned true)) ps).
  { exists (Pool.pools_stop (x_ps x)). assert (V : Returned true = Returned (result (sv_s (x_sv x)))) by (rewrite Q6; reflexivity). rewrite V. eapply rl_run; eauto; [apply ltruns_lift; exact E1|].
    apply (xe_stop _ _ _ _ _ _ _ _ _ (XTop x false)); auto. }
  assert (IN : forall c, In c bs -> pipe_block ts c) by (intros c Hc; apply (run_in _ _ _ _ _ _ _ _ PR); exact Hc).
  assert (ON : forall c, In c bs -> runs_of idl idl 100 no_init ow_nw ts d s0 (dumpl bs) (loadl bs) c (map LTMove ms) (XTop x false) 1).
  { intros c Hc. destruct RN as [ps RN]. destruct (C98_exactly_once _ _ _ _ _ _ _ _ _ _ _ CA (loadl_lossless _) _ _ _ _ RN NF UC c (IN c Hc)) as [_ H]. apply H. reflexivity. }
  assert (Eb : exists a b, bs = [a; b]) by (unfold bs; destruct (pblocks d) as [|a [|b [|]]]; try discriminate Q3; eauto). destruct Eb as [a [b Eb]].
  exists a, b. unfold wo_claim. cbv zeta. fold bs. split; [exact CA|]. split; [apply loadl_lossless|]. split; [exact RN|]. split; [exact NF|]. split; [exact UC|].
  split. { apply existsb_exists in Q7. destruct Q7 as [m [Hm Q7]]. destruct m as [|[|]]; try discriminate Q7. exact Hm. }
  split; [exact Eb|]. split; apply ON; rewrite Eb; [left|right; left]; reflexivity.
Qed.
Example C98_example : exists d s0 ms x a b, wo_claim [P_WholeCE.wc 2 5] d s0 ms x a b.
Proof.
  pose proof wo_checked as Q. destruct (wo_run _) as [[[[d s0] h] [ms x]]|] eqn:E; [|discriminate Q].
  exists d, s0, ms, x. apply (wo_from _ _ _ _ _ _ _ wl_ok P_WholeCE.wc2_edges wu_collect E Q).
Qed.
Print Assumptions C98_example.
(* True does not say that every body was begun once, though no body failed and every block succeeded: the run wl_1, wl_2 of P_WireLossEx.v,
   in which the connection of process 0 is lost while it is in the body of the first block. *)
Definition wo_twice (ts : list task) : option (dgraph * sched * whole * block * (list lmove * wire * Z)) :=
  match sched_init ts with
  | Ok (d, s0) =>
      match whole_init no_init ow_nw 3 (map t_id ts) s0, pblocks d with
      | Ok h, b :: _ => match bplay (dg_up idl idl d) (dg_down idl idl d) (dg_max_retries d) 100 ow_nw 3 (dumpl (pblocks d)) (loadl (pblocks d)) b (wl_1 ++ wl_2) (wire_init h) 0 with
                        | Some r => Some (d, s0, h, b, r) | None => None end
      | _, _ => None end
  | Err _ => None end.
Definition wo_twice_b (d : dgraph) (ms : list lmove) (x : wire) (n : Z) : bool :=
  enough_b d 100 && (n =? 2) && forallb (succ_b (hist (sv_tr (x_sv x)))) (pblocks d) && match x_todo x with [] => true | _ => false end && sv_stop (x_sv x) && result (sv_s (x_sv x)) &&
  forallb (fun m => match m with LDo (XBody _ (Client.Finished SUCCESS)) => true | LDo (XBody _ _) => false | _ => true end) ms.
Lemma wo_twice_checked : match wo_twice [P_WholeCE.wc 2 5] with Some (d, s0, h, b, (ms, x, n)) => wo_twice_b d ms x n | None => false end = true.
Proof. vm_compute. reflexivity. Qed.
Definition wo_again (ts : list task) : Prop := exists d s0 dumps loads ms y ps b,
  call ts idl idl ts d 100 ow_nw /\ P_Net.lossless dumps loads /\ run_lossy false ts idl idl 100 no_init ow_nw ts d s0 dumps loads ms (Some y) (XEnded (Returned true)) ps /\
  (forall c, pipe_block ts c -> succeeded (hist (sv_tr (x_sv (xt_x y)))) c) /\ (forall st o, In (LTMove (LDo (XBody st o))) ms -> o = Client.Finished SUCCESS) /\
  pipe_block ts b /\ runs_of idl idl 100 no_init ow_nw ts d s0 dumps loads b ms y 2.
Lemma wo_twice_from ts k d s0 h b ms x n : pipe_ok ts -> edges_ok ts -> collect_tasks k ts = Ok ts -> wo_twice ts = Some (d, s0, h, b, (ms, x, n)) -> wo_twice_b d ms x n = true -> wo_again ts.
Proof.
  intros PO EO Ec E Q. unfold wo_twice in E. destruct (sched_init ts) as [[d' s']|] eqn:Es; [|discriminate E]. destruct (whole_init _ _ _ _ _) as [h'|] eqn:Ei; [|discriminate E].
  destruct (pblocks d') as [|b' bs] eqn:Eb; [discriminate E|]. rewrite <- Eb in E. destruct (bplay _ _ _ _ _ _ _ _ _ (wl_1 ++ wl_2) _ _) as [[[n1 y1] k1]|] eqn:E1; [|discriminate E].
  apply some_inj in E. repeat (apply pair_equal_spec in E; let F := fresh in destruct E as [E F]; try (apply pair_equal_spec in F; destruct F as [F ?]; apply pair_equal_spec in F; destruct F)). subst.
  eapply bplay_begun with (ms0 := []) in E1; [|constructor]. cbn [app] in E1. unfold wo_twice_b in Q.
  apply andb_prop in Q. destruct Q as [Q Q7]. apply andb_prop in Q. destruct Q as [Q Q6]. apply andb_prop in Q. destruct Q as [Q Q5]. apply andb_prop in Q. destruct Q as [Q Q4].
  apply andb_prop in Q. destruct Q as [Q Q3]. apply andb_prop in Q. destruct Q as [Q1 Q2]. apply Z.eqb_eq in Q2. subst n.
  assert (SE : setup ts idl idl d s0 100 no_init ow_nw 3 h) by (eapply own_setup; eauto; intros t; unfold ow_nw; lia).
  assert (PR : pipe_run ts idl idl d s0 100 [] s0) by (constructor; auto using idl_order; constructor).
  assert (CA : call ts idl idl ts d 100 ow_nw) by (destruct SE; constructor; auto).
  assert (T : x_todo x = []) by (destruct (x_todo x); [reflexivity|discriminate Q4]).
  exists d, s0, (dumpl (pblocks d)), (loadl (pblocks d)), (map LTMove ms), (XTop x false), (Pool.pools_stop (x_ps x)), b.
  split; [exact CA|]. split; [apply loadl_lossless|]. split.
  { assert (V : Returned true = Returned (result (sv_s (x_sv x)))) by (rewrite Q6; reflexivity). rewrite V. eapply rl_run; eauto; [apply ltruns_lift; eapply begun_lruns; exact E1|].
    apply (xe_stop _ _ _ _ _ _ _ _ _ (XTop x false)); auto. }
  split. { intros c Hc. apply (run_in _ _ _ _ _ _ _ _ PR) in Hc. rewrite forallb_forall in Q3. apply succ_b_true. apply Q3. exact Hc. }
  split. { intros st o H. apply in_map_iff in H. destruct H as [m [H I]]. injection H as ->. rewrite forallb_forall in Q7. specialize (Q7 _ I). destruct o as [[]| |]; try discriminate Q7. reflexivity. }
  split; [apply (run_in _ _ _ _ _ _ _ _ PR); rewrite Eb; left; reflexivity|]. exists h. split; [exact Ei|]. rewrite lmoves_lift. exact E1.
Qed.
Theorem C98_always_once_refuted : exists ts, wo_again ts.
Proof.
  exists [P_WholeCE.wc 2 5]. pose proof wo_twice_checked as Q. destruct (wo_twice _) as [[[[[d s0] h] b] [[ms x] n]]|] eqn:E; [|discriminate Q].
  exact (wo_twice_from _ _ _ _ _ _ _ _ _ wl_ok P_WholeCE.wc2_edges wu_collect E Q).
Qed.
Print Assumptions C98_always_once_refuted.

(* C73: which blocks are skipped, by the check functions the tasks were given. *)
From Coq Require Import Arith Lia Permutation.
From Verif Require TaskFn.
From Verif Require Import P_Resume.
From Verif Require Import SchedProps SchedExec DGFacts2 PipeRun P_SchedCE P_Sched SerialFacts P_Conv P_Serial ServerFacts P_Server.
From Verif Require Import Sys SysFacts WholeSrv WholeSim WholeAny WholeAll WholeRun P_WholeAny TopInit Top.
Import TaskFn(check_fn, NoCheck, Check, CheckPair, ask).
Open Scope Z_scope.

(* the check functions of the tasks decide: [chk] is what __precheck gets (scheduler.py:190-200); which call it is does not matter *)
Definition by_tasks (cf : nat -> check_fn) (chk : nat -> block -> check_result) : Prop :=
  forall k b, exists n, chk k b = ask (cf (b_task b)) n b.
(* a function that always says True of the block; one that says so at some time *)
Definition always (cf : nat -> check_fn) (b : block) : Prop := exists f, cf (b_task b) = Check f /\ forall n, f n b = CheckTrue.
Definition sometimes (cf : nat -> check_fn) (b : block) : Prop := exists f n, cf (b_task b) = Check f /\ f n b = CheckTrue.
Lemma by_says cf chk : by_tasks cf chk -> says (always cf) (sometimes cf) chk.
Proof.
  intros B k b. destruct (B k b) as [n E]. split.
  - intros [f [Ef T]]. rewrite E, Ef. apply T.
  - rewrite E. unfold ask. destruct (cf (b_task b)) as [|f|f g] eqn:Ef; intros H; try discriminate H. exists f, n. auto.
Qed.
(* C73 for the serial server, the server, and any run of server, pools and workers: a block is skipped only if its task has a
   check function, given as a single function, that said True of it; and if it always does, the block is never handed out *)
Definition skips_right (cf : nat -> check_fn) (h : history) : Prop :=
  (forall b, skipped h b -> sometimes cf b) /\ (forall t pb, In (EvHand t pb) h -> ~ always cf (pb_block pb)) /\
  forall b f g, cf (b_task b) = CheckPair f g -> ~ skipped h b.
Lemma respects_right cf h : respects (always cf) (sometimes cf) h -> skips_right cf h.
Proof.
  intros [A B]. split; [exact B|]. split; [exact A|]. intros b f g E S. destruct (B b S) as [f' [n [E' _]]]. congruence.
Qed.
Theorem C73_serial : forall tasks ord ordt d fuel chk proc pick n s0 y (cf : nat -> check_fn),
  (forall h, by_tasks cf (chk h)) -> serial_pipe tasks ord ordt d fuel chk proc pick n s0 = Ok y -> skips_right cf (ss_h y).
Proof. intros. apply respects_right. eapply C70_serial; eauto. intros h. apply by_says; auto. Qed.
Theorem C73_server : forall tasks ord ordt d s0 fuel init ins y (cf : nat -> check_fn),
  Forall (fun i => by_tasks cf (i_chk i)) ins -> server_run_to tasks ord ordt d s0 fuel init false ins y -> skips_right cf (hist (sv_tr y)).
Proof.
  intros. apply respects_right. eapply C70_server; [|eassumption]. eapply Forall_impl; [|eassumption]. intros i. apply by_says.
Qed.
Theorem C73_whole : forall tasks ord ordt d s0 fuel init nw mbf h0 ms h (cf : nat -> check_fn),
  setup tasks ord ordt d s0 fuel init nw mbf h0 ->
  aruns (dg_up ord ordt d) (dg_down ord ordt d) (dg_max_retries d) fuel init nw mbf h0 ms h ->
  (forall i r, In (AMove (HServe i r)) ms -> by_tasks cf (i_chk i)) -> skips_right cf (hist (sv_tr (h_sv h))).
Proof.
  intros tasks ord ordt d s0 fuel init nw mbf h0 ms h cf SE R B. apply respects_right.
  apply (aruns_ok _ _ _ _ _ (always cf) (sometimes cf) _ _ _ _ _ R).
  - intros m Hm. destruct m as [m| |]; cbn; auto. destruct m; cbn; auto. apply by_says. eapply B; eauto.
  - pose proof (se_start _ _ _ _ _ _ _ _ _ _ SE) as W. unfold whole_init in W.
    destruct (server_init _ _ _ _) as [sv|] eqn:Es2; [|discriminate]. cbn [bind] in W.
    destruct (on_all _ _ _ _ _ _) as [[p f]|]; [|discriminate]. cbn in W. injection W as <-. cbn [h_sv]. eapply init_ok; eauto.
Qed.
Print Assumptions C73_serial.
Print Assumptions C73_server.
Print Assumptions C73_whole.

(* The documentation (task.py:50-52) offers a tuple of two functions, the first to be asked before a block is run, the second
   after it.  Here the first says True of every block and the second False: nothing is skipped, and all blocks count as done. *)
Definition both : check_fn := CheckPair (fun _ _ => CheckTrue) (fun _ _ => CheckFalse).
Theorem C73_pair_refuted : exists tasks d s0 y,
  serial_pipe tasks idl idl d 100 (fun _ => ask both) untouched (fun _ => first) 100 s0 = Ok y /\
  pipe_run tasks idl idl d s0 100 (ss_h y) (ss_s y) /\ (exists b, pipe_block tasks b) /\
  forall b, pipe_block tasks b -> n_handed (ss_h y) b = 1 /\ In (EvRel (PB b SUCCESS)) (ss_h y) /\ ~ skipped (ss_h y) b.
Proof.
  destruct (serial_ce [ex_d; ex_u] 100 (fun _ => ask both) untouched 100
    (fun d y => negb (match pblocks d with [] => true | _ => false end) &&
      forallb (fun b => (n_handed (ss_h y) b =? 1) && succ_b (ss_h y) b) (pblocks d)) ex_du_ok) as [d [s0 [y [E [Ey [R P]]]]]].
  { vm_compute. reflexivity. }
  apply andb_prop in P. destruct P as [P1 P2]. rewrite forallb_forall in P2. pose proof (run_in _ _ _ _ _ _ _ _ R) as RI.
  assert (SK : skips_right (fun _ => both) (ss_h y)) by (eapply (C73_serial _ _ _ _ _ _ _ _ _ _ _ (fun _ => both)); [|exact Ey]; intros h k b; exists k; reflexivity).
  exists [ex_d; ex_u], d, s0, y. split; auto. split; auto. split.
  - destruct (pblocks d) as [|b l] eqn:Ed; [discriminate|]. exists b. apply RI. left; auto.
  - intros b Hb. apply RI in Hb. apply P2 in Hb. apply andb_prop in Hb. destruct Hb as [H1 H2]. apply Z.eqb_eq in H1.
    assert (NS : ~ skipped (ss_h y) b) by (eapply (proj2 (proj2 SK)); reflexivity).
    split; auto. split; auto. apply succ_b_true in H2. destruct H2; auto. contradiction.
Qed.
Print Assumptions C73_pair_refuted.
(* a task with a function of its own: its blocks are skipped, those of the other task are not *)
Definition known_1 (t : nat) : check_fn := if Nat.eqb t 2 then NoCheck else Check (fun _ b => if b_num b <? 2 then CheckTrue else CheckRaises).
Example C73_example : exists d s0 y, serial_pipe [ex_d; ex_u] idl idl d 100 (fun _ k b => ask (known_1 (b_task b)) k b) untouched (fun _ => first) 100 s0 = Ok y /\
  pipe_run [ex_d; ex_u] idl idl d s0 100 (ss_h y) (ss_s y) /\
  skips_right known_1 (ss_h y) /\ (exists b, skipped (ss_h y) b) /\ (exists t pb, In (EvHand t pb) (ss_h y)) .
Proof.
  destruct (serial_ce [ex_d; ex_u] 100 (fun _ k b => ask (known_1 (b_task b)) k b) untouched 100
    (fun d y => existsb (fun e => match e with EvSkip _ => true | _ => false end) (ss_h y) &&
      existsb (fun e => match e with EvHand _ _ => true | _ => false end) (ss_h y)) ex_du_ok) as [d [s0 [y [E [Ey [R P]]]]]].
  { vm_compute. reflexivity. }
  apply andb_prop in P. destruct P as [P1 P2]. apply existsb_exists in P1. destruct P1 as [e1 [H1 K1]]. apply existsb_exists in P2.
  destruct P2 as [e2 [H2 K2]]. destruct e1 as [| |b|]; try discriminate. destruct e2 as [t pb| | |]; try discriminate.
  exists d, s0, y. split; auto. split; auto. split; [|split; eauto; exists b; auto].
  eapply C73_serial; [|exact Ey]. intros h k c. exists k. reflexivity.
Qed.

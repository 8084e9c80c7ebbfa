(* C93: as C68, over the network: whose body runs when. *)
From Coq Require Import Arith Lia.
From Verif Require Import SchedProps SchedExec DGFacts2 PipeRun P_SchedCE P_Sched SerialFacts P_Conv P_Serial ServerFacts ServerSteps
  ServerIdle P_Server P_Server2 P_ServerCE P_Outcome P_Notify PoolAll P_PoolFail P_SysEx P_SysCE.
From Verif Require Client Pool P_Pool P_Whole P_WholeEx P_WholeCE P_Cause Tcp Net NetFacts P_Net P_NetErr WireNet.
From Verif Require Import Sys SysFacts SysMeasure SysTrace WholeFair WholeSrv WholeSim WholeAny WholeAll WholeRun P_WholeAny WholeOwn P_WholeOwn Wire WireSim P_Wire.
Open Scope Z_scope.
Local Notation all_kept := (fun _ : nat => @None nat).

(* the process st runs, and is in the body of the block b *)
Definition xworking (x : wire) (st : nat) (b : block) : Prop :=
  (exists t, xproc x st = Some (t, Pool.Running)) /\ exists pb, x_pc x st = PWork pb /\ pb_block pb = b.

Section C93.
  Variables (tasks : list task) (ord : list block -> list block) (ordt : list nat -> list nat) (d : dgraph) (s0 : sched) (fuel : nat).
  Variables (init : nat -> res unit) (nw : nat -> Z) (mbf : Z) (h0 : whole).
  Variable dumps : Net.nmsg payload -> option Tcp.bytes.
  Variable loads : Tcp.bytes -> option (Net.nmsg payload).
  Local Notation up := (dg_up ord ordt d).
  Local Notation down := (dg_down ord ordt d).
  Local Notation maxr := (dg_max_retries d).
  Local Notation aruns := (aruns up down maxr fuel init nw mbf).
  Local Notation xruns := (xruns up down maxr fuel init nw mbf dumps loads).
  Lemma own_as : setup tasks ord ordt d s0 fuel init nw mbf h0 -> P_Net.lossless dumps loads ->
    forall ms x, xruns (wire_init h0) ms x -> small dumps x ->
    exists ams h, aruns h0 ams h /\ h_sv h = x_sv x /\ h_ps h = x_ps x /\ forall st b, xworking x st b -> working h st b.
  Proof.
    intros SE L ms x R Sm. destruct (wire_runs _ _ _ _ _ _ _ _ _ _ SE _ _ all_kept L _ _ (fun _ => eq_refl) R Sm) as [ams [h [A [Re _]]]].
    exists ams, h. split; auto. split; [apply (r_sv _ _ _ _ _ Re)|]. split; [apply (r_ps _ _ _ _ _ Re)|].
    intros st b [[t Ht] [pb [Ep Eb]]]. pose proof (l_at _ _ _ _ (r_live _ _ _ _ _ Re _ _ Ht)) as Q. rewrite Ep in Q.
    split; [exists t; unfold proc; rewrite (r_ps _ _ _ _ _ Re); exact Ht|]. exists pb. split; auto.
  Qed.
  (* No two processes run the body of the same block. *)
  Theorem C93_one_process : setup tasks ord ordt d s0 fuel init nw mbf h0 -> P_Net.lossless dumps loads ->
    forall ms x, xruns (wire_init h0) ms x -> small dumps x ->
    forall st st' b, xworking x st b -> xworking x st' b -> st = st'.
  Proof.
    intros SE L ms x R Sm st st' b W W'. destruct (own_as SE L _ _ R Sm) as [ams [h [A [_ [_ H]]]]]. eapply C68_one_process; eauto.
  Qed.
  (* The server knows of the process that runs a body that it has the block, the block is of the task of the process, and not done. *)
  Theorem C93_known : setup tasks ord ordt d s0 fuel init nw mbf h0 -> P_Net.lossless dumps loads ->
    forall ms x, xruns (wire_init h0) ms x -> small dumps x ->
    forall st b, xworking x st b -> pipe_block tasks b /\ xproc x st = Some (b_task b, Pool.Running) /\ held (hist (sv_tr (x_sv x))) b /\
    last_sent (sv_tr (x_sv x)) b = Some st /\ ~ succeeded (hist (sv_tr (x_sv x))) b.
  Proof.
    intros SE L ms x R Sm st b W. destruct (own_as SE L _ _ R Sm) as [ams [h [A [B1 [B2 H]]]]]. rewrite <- B1. unfold xproc. rewrite <- B2. eapply C68_known; eauto.
  Qed.
  (* Bodies of blocks in conflict never run at the same time. *)
  Theorem C93_no_conflict : setup tasks ord ordt d s0 fuel init nw mbf h0 -> P_Net.lossless dumps loads ->
    forall ms x, xruns (wire_init h0) ms x -> small dumps x ->
    forall st st' a b t g, in_pipe tasks t -> task_graph t = Ok g -> t_rwc t = true -> generated g a -> generated g b ->
    xworking x st a -> xworking x st' b -> st <> st' -> ~ conflict a b.
  Proof.
    intros SE L ms x R Sm st st' a b t g Ht Eg Rw Ga Gb W W' N. destruct (own_as SE L _ _ R Sm) as [ams [h [A [_ [_ H]]]]]. eapply C68_no_conflict; eauto.
  Qed.
  (* A body runs when every block of an upstream task that writes what it reads has succeeded, and no body of such a block runs. *)
  Theorem C93_inputs_written : setup tasks ord ordt d s0 fuel init nw mbf h0 -> P_Net.lossless dumps loads ->
    forall ms x, xruns (wire_init h0) ms x -> small dumps x ->
    forall st b t g u gu a p, xworking x st b -> in_pipe tasks t -> task_graph t = Ok g -> generated g b -> In u (t_ups t) -> task_graph u = Ok gu -> generated gu a ->
    pt_in p (b_write a) -> pt_in p (b_read b) -> in_total_write u p ->
    succeeded (hist (sv_tr (x_sv x))) a /\ forall st', ~ xworking x st' a.
  Proof.
    intros SE L ms x R Sm st b t g u gu a p W Ht Eg Gb Hu Eu Ga P1 P2 P3. destruct (own_as SE L _ _ R Sm) as [ams [h [A [B1 [_ H]]]]].
    destruct (C68_inputs_written _ _ _ _ _ _ _ _ _ _ _ _ _ _ _ _ _ _ _ _ SE A (H _ _ W) Ht Eg Gb Hu Eu Ga P1 P2 P3) as [S N]. rewrite <- B1. split; auto.
    intros st' W'. apply (N st'). auto.
  Qed.
  (* The server does not stop while a body runs. *)
  Theorem C93_waits_partial : setup tasks ord ordt d s0 fuel init nw mbf h0 -> P_Net.lossless dumps loads ->
    forall ms x, xruns (wire_init h0) ms x -> small dumps x -> apart_failures tasks ord ordt d (hist (sv_tr (x_sv x))) ->
    forall st b, xworking x st b -> sv_stop (x_sv x) = false.
  Proof.
    intros SE L ms x R Sm F st b W. destruct (own_as SE L _ _ R Sm) as [ams [h [A [B1 [_ H]]]]]. rewrite <- B1 in *. eapply C69_waits_partial; eauto.
  Qed.
End C93.
Print Assumptions C93_one_process.
Print Assumptions C93_known.
Print Assumptions C93_no_conflict.
Print Assumptions C93_inputs_written.
Print Assumptions C93_waits_partial.

(* C94: as C93, in runs in which the connection of any worker may be lost at any moment (WireLoss.v), and with messages of any size: the
   workers whose connections were not lost keep out of each other's way. *)
From Coq Require Import Arith Lia.
From Verif Require Import SchedProps SchedExec DGFacts2 PipeRun P_SchedCE P_Sched SerialFacts P_Conv P_Serial ServerFacts ServerSteps
  ServerIdle P_Server P_Server2 P_ServerCE P_Outcome P_Notify PoolAll P_PoolFail P_SysEx P_SysCE.
From Verif Require Client Pool P_Pool P_Whole P_WholeEx P_WholeCE P_Cause TopFair Tcp Net NetFacts P_Net P_NetErr WireNet.
From Verif Require Import Sys SysFacts SysMeasure SysTrace WholeFair WholeSrv WholeSim WholeAny WholeAll WholeRun P_WholeAny WholeOwn P_WholeOwn Wire WireSim P_Wire P_WireOwn
  WireAttr WireLoss P_WireLoss WireIntact.
Open Scope Z_scope.

(* the process st runs and is in the body of the block b, and its connection was not lost *)
Definition iworking (x : wire) (st : nat) (b : block) : Prop := xworking x st b /\ Net.broken (Net.n_link (x_net x) st) = false.

Section C94.
  Variables (tasks : list task) (ord : list block -> list block) (ordt : list nat -> list nat) (d : dgraph) (s0 : sched) (fuel : nat).
  Variables (init : nat -> res unit) (nw : nat -> Z) (mbf : Z) (h0 : whole).
  Variable dumps : Net.nmsg payload -> option Tcp.bytes.
  Variable loads : Tcp.bytes -> option (Net.nmsg payload).
  Local Notation V := (pblocks d).
  Local Notation up := (dg_up ord ordt d).
  Local Notation down := (dg_down ord ordt d).
  Local Notation maxr := (dg_max_retries d).
  Local Notation lruns := (lruns up down maxr fuel init nw mbf dumps loads).
  Lemma intact_entry : setup tasks ord ordt d s0 fuel init nw mbf h0 -> P_Net.lossless dumps loads ->
    forall ms x, lruns (wire_init h0) ms x -> forall st b, iworking x st b -> exists e, In e (sv_book (x_sv x)) /\ lg_stream (snd e) = st /\ pb_block (lg_block (snd e)) = b.
  Proof.
    intros SE L ms x R st b [[[t Ht] [pb [Ep <-]]] Bk]. unfold xproc in Ht.
    destruct (at_work _ _ _ _ _ _ _ _ _ _ _ _ SE L _ _ st pb R Ep) as [e [He [E1 E2]]].
    - apply (ki_book _ (ki_runs _ _ _ _ _ _ _ _ _ _ _ _ SE L _ _ R)); auto. intros u c Q. congruence.
    - exists e. rewrite E2. auto.
  Qed.
  (* The server knows of such a process that it has the block; the block is of the task of the process, and not done. *)
  Theorem C94_known : setup tasks ord ordt d s0 fuel init nw mbf h0 -> P_Net.lossless dumps loads ->
    forall ms x, lruns (wire_init h0) ms x -> forall st b, iworking x st b ->
    pipe_block tasks b /\ xproc x st = Some (b_task b, Pool.Running) /\ held (hist (sv_tr (x_sv x))) b /\
    last_sent (sv_tr (x_sv x)) b = Some st /\ ~ succeeded (hist (sv_tr (x_sv x))) b.
  Proof.
    intros SE L ms x R st b W. destruct (C92_server _ _ _ _ _ _ _ _ _ _ _ _ SE L _ _ R) as [SR _]. pose proof (a_pipe _ _ _ _ _ _ _ _ _ _ SR) as PR.
    pose proof (a_sinv _ _ _ _ _ _ _ _ _ _ SR) as I. destruct (intact_entry SE L _ _ R _ _ W) as [e [He [E1 E2]]].
    assert (Hb : held (hist (sv_tr (x_sv x))) b). { apply (si_held _ _ _ _ _ _ _ _ I). rewrite app_nil_r. apply in_blocks. eauto. }
    destruct W as [[[t Ht] [pb [Ep Eb]]] _]. destruct (C92_sent _ _ _ _ _ _ _ _ _ _ _ _ SE L _ _ R _ _ _ Ht Ep) as [Hs Et].
    split. { apply (a_in _ _ _ _ _ _ _ _ _ _ SR). rewrite <- Eb. eapply sent_V; eauto. }
    split; [rewrite Ht; congruence|]. split; [exact Hb|]. split.
    - pose proof (si_sent _ _ _ _ _ _ _ _ I e He) as S. rewrite E1, E2 in S. exact S.
    - eapply held_task; eauto; [apply (se_inverse _ _ _ _ _ _ _ _ _ _ SE)|apply (se_fuel _ _ _ _ _ _ _ _ _ _ SE)].
  Qed.
  (* No two such processes run the body of the same block. *)
  Theorem C94_one_process : setup tasks ord ordt d s0 fuel init nw mbf h0 -> P_Net.lossless dumps loads ->
    forall ms x, lruns (wire_init h0) ms x -> forall st st' b, iworking x st b -> iworking x st' b -> st = st'.
  Proof.
    intros SE L ms x R st st' b W W'. destruct (C94_known SE L _ _ R _ _ W) as [_ [_ [_ [E _]]]]. destruct (C94_known SE L _ _ R _ _ W') as [_ [_ [_ [E' _]]]]. congruence.
  Qed.
  (* Two such processes never run bodies of blocks in conflict. *)
  Theorem C94_no_conflict : setup tasks ord ordt d s0 fuel init nw mbf h0 -> P_Net.lossless dumps loads ->
    forall ms x, lruns (wire_init h0) ms x ->
    forall st st' a b t g, in_pipe tasks t -> task_graph t = Ok g -> t_rwc t = true -> generated g a -> generated g b ->
    iworking x st a -> iworking x st' b -> st <> st' -> ~ conflict a b.
  Proof.
    intros SE L ms x R st st' a b t g Ht Eg Rw Ga Gb Wa Wb N. destruct (C92_server _ _ _ _ _ _ _ _ _ _ _ _ SE L _ _ R) as [SR _].
    pose proof (a_pipe _ _ _ _ _ _ _ _ _ _ SR) as PR. pose proof (se_inverse _ _ _ _ _ _ _ _ _ _ SE) as IV. pose proof (se_fuel _ _ _ _ _ _ _ _ _ _ SE) as FO.
    assert (Nab : a <> b) by (intros ->; apply N; eapply C94_one_process; eauto).
    destruct (C94_known SE L _ _ R _ _ Wa) as [_ [_ [Ha _]]]. destruct (C94_known SE L _ _ R _ _ Wb) as [_ [_ [Hb _]]].
    intros [X|X]; revert X; eapply C15_no_conflict_in_flight_pipeline; eauto.
  Qed.
  (* Whenever a body runs, also one of a process whose connection was lost, every block of an upstream task that writes what it reads has
     succeeded; and no process whose connection was not lost runs the body of such a block. *)
  Theorem C94_inputs_written : setup tasks ord ordt d s0 fuel init nw mbf h0 -> P_Net.lossless dumps loads ->
    forall ms x, lruns (wire_init h0) ms x ->
    forall st b t g u gu a p, xworking x st b -> in_pipe tasks t -> task_graph t = Ok g -> generated g b -> In u (t_ups t) -> task_graph u = Ok gu -> generated gu a ->
    pt_in p (b_write a) -> pt_in p (b_read b) -> in_total_write u p ->
    succeeded (hist (sv_tr (x_sv x))) a /\ forall st', ~ iworking x st' a.
  Proof.
    intros SE L ms x R st b t g u gu a p [[v Hv] [pb [Ep Eb]]] Ht Eg Gb Hu Eu Ga P1 P2 P3. destruct (C92_server _ _ _ _ _ _ _ _ _ _ _ _ SE L _ _ R) as [SR _].
    pose proof (a_pipe _ _ _ _ _ _ _ _ _ _ SR) as PR. destruct (C92_sent _ _ _ _ _ _ _ _ _ _ _ _ SE L _ _ R _ _ _ Hv Ep) as [Hs _].
    destruct (steps_hand _ _ _ _ _ _ _ _ _ (a_steps _ _ _ _ _ _ _ _ _ _ SR) eq_refl _ _ Hs) as [w Hw]. apply in_split in Hw. destruct Hw as [h2 [h1 E]].
    assert (S : succeeded (hist (sv_tr (x_sv x))) a).
    { pose proof (C13_reads_wait_for_writes _ _ _ _ _ _ _ _ PR t g u gu h2 (EvHand w pb) h1 a b Ht Eg Hu Eu E Eb Gb Ga (ex_intro _ p (conj P1 (conj P2 P3)))) as S.
      rewrite E. destruct S as [S|S]; [left|right]; apply in_or_app; right; right; exact S. }
    split; [exact S|]. intros st' W'. destruct (C94_known SE L _ _ R _ _ W') as [_ [_ [_ [_ N]]]]. auto.
  Qed.
  (* The server does not stop while such a process runs a body. *)
  Theorem C94_waits_partial : setup tasks ord ordt d s0 fuel init nw mbf h0 -> P_Net.lossless dumps loads ->
    forall ms x, lruns (wire_init h0) ms x -> apart_failures tasks ord ordt d (hist (sv_tr (x_sv x))) ->
    forall st b, iworking x st b -> sv_stop (x_sv x) = false.
  Proof.
    intros SE L ms x R F st b W. destruct (sv_stop (x_sv x)) eqn:Sp; auto. exfalso. destruct (C94_known SE L _ _ R _ _ W) as [Pb [_ [H [_ N]]]].
    pose proof (C92_settled_partial _ _ _ _ _ _ _ _ _ _ _ _ SE L _ _ R F Sp _ Pb) as St.
    destruct (C92_server _ _ _ _ _ _ _ _ _ _ _ _ SE L _ _ R) as [SR _]. pose proof (a_pipe _ _ _ _ _ _ _ _ _ _ SR) as PR.
    pose proof (se_inverse _ _ _ _ _ _ _ _ _ _ SE) as IV. pose proof (se_fuel _ _ _ _ _ _ _ _ _ _ SE) as FO.
    pose proof (run_good _ _ _ _ _ _ _ _ PR IV) as GG. pose proof (run_enough _ _ _ _ _ _ _ _ PR FO) as EN.
    pose proof (a_fresh _ _ _ _ _ _ _ _ _ _ SR) as FR. pose proof (pr_reach _ _ _ _ _ _ _ _ PR) as RR.
    destruct St as [S|[P|O]]; auto.
    - destruct (perm_handed _ _ _ _ _ _ GG EN _ FR _ _ RR _ P) as [_ [Q _]]. auto.
    - destruct O as [a [P An]]. assert (S : succeeded (hist (sv_tr (x_sv x))) a) by (eapply anc_succ; eauto).
      destruct (perm_handed _ _ _ _ _ _ GG EN _ FR _ _ RR _ P) as [_ [_ Q]]. auto.
  Qed.
  (* And of two processes at work on the same block, the connection of at least one was lost: whoever is not the last the server sent the
     block to, or works on a block that is done, has lost its connection. *)
  Theorem C94_only_lost : setup tasks ord ordt d s0 fuel init nw mbf h0 -> P_Net.lossless dumps loads ->
    forall ms x, lruns (wire_init h0) ms x -> forall st b, xworking x st b ->
    last_sent (sv_tr (x_sv x)) b <> Some st \/ succeeded (hist (sv_tr (x_sv x))) b \/ ~ held (hist (sv_tr (x_sv x))) b -> Net.broken (Net.n_link (x_net x) st) = true.
  Proof.
    intros SE L ms x R st b W Q. destruct (Net.broken (Net.n_link (x_net x) st)) eqn:B; auto. exfalso.
    destruct (C94_known SE L _ _ R st b (conj W B)) as [_ [_ [H [E N]]]]. destruct Q as [Q|[Q|Q]]; auto.
  Qed.
End C94.
Print Assumptions C94_known.
Print Assumptions C94_one_process.
Print Assumptions C94_no_conflict.
Print Assumptions C94_inputs_written.
Print Assumptions C94_waits_partial.
Print Assumptions C94_only_lost.

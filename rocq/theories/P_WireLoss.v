(* C92: as C88, in runs in which the connection of any worker may be lost at any moment (WireLoss.v), and with messages of any size. *)
From Coq Require Import Arith Lia.
From Verif Require Import SchedProps SchedExec DGFacts2 PipeRun P_SchedCE P_Sched SerialFacts P_Conv P_Serial ServerFacts ServerSteps
  ServerIdle P_Server P_Server2 P_ServerCE P_Outcome P_Notify PoolAll P_PoolFail P_SysEx P_SysCE.
From Verif Require Client Pool P_Pool P_Whole P_WholeEx P_WholeCE P_Cause Tcp Net NetFacts P_Net P_NetErr WireNet.
From Verif Require Import Sys SysFacts SysMeasure SysTrace WholeFair WholeSrv WholeSim WholeAny WholeAll WholeRun P_WholeAny Wire WireSim P_Wire WireLoss.
Open Scope Z_scope.

Section C92.
  Variables (tasks : list task) (ord : list block -> list block) (ordt : list nat -> list nat) (d : dgraph) (s0 : sched) (fuel : nat).
  Variables (init : nat -> res unit) (nw : nat -> Z) (mbf : Z) (h0 : whole).
  Variable dumps : Net.nmsg payload -> option Tcp.bytes.
  Variable loads : Tcp.bytes -> option (Net.nmsg payload).
  Local Notation up := (dg_up ord ordt d).
  Local Notation down := (dg_down ord ordt d).
  Local Notation maxr := (dg_max_retries d).
  Local Notation keys := (dedup Nat.eqb (map t_id tasks)).
  Local Notation xstep := (xstep up down maxr fuel init nw mbf dumps loads).
  Local Notation lruns := (lruns up down maxr fuel init nw mbf dumps loads).
  Local Notation serve_ready := (serve_ready dumps loads).
  Local Notation xraises := (xraises ord ordt d fuel init nw mbf).
  Local Notation LI := (LI tasks ord ordt d s0 fuel init nw mbf h0 dumps loads).

  (* The server meets fair clients only, so that its safety theorems (C29-C36, C44-C50) apply. *)
  Theorem C92_server : setup tasks ord ordt d s0 fuel init nw mbf h0 -> P_Net.lossless dumps loads ->
    forall ms x, lruns (wire_init h0) ms x ->
    server_run_to tasks ord ordt d s0 fuel init false (lserved ms) (x_sv x) /\ honest (sv_tr (x_sv x)).
  Proof.
    intros SE L ms x R. destruct (li_ai _ _ _ _ _ _ _ _ _ _ _ _ _ _ (li_runs _ _ _ _ _ _ _ _ _ _ _ _ SE L _ _ R)) as [am [h [A [B1 [B2 [B3 _]]]]]].
    rewrite <- B1, <- B3. split; apply A.
  Qed.
  (* A worker whose process runs belongs to the task it was started for and has reported at most max_block_failures failures. *)
  Theorem C92_failures : setup tasks ord ordt d s0 fuel init nw mbf h0 -> P_Net.lossless dumps loads ->
    forall ms x, lruns (wire_init h0) ms x -> forall st t, xproc x st = Some (t, Pool.Running) -> fail_notes t st (sv_tr (x_sv x)) <= mbf.
  Proof.
    intros SE L ms x R st t Ht. destruct (li_ai _ _ _ _ _ _ _ _ _ _ _ _ _ _ (li_runs _ _ _ _ _ _ _ _ _ _ _ _ SE L _ _ R)) as [am [h [A [B1 [B2 _]]]]].
    destruct (ai_told _ _ _ _ _ _ _ _ _ _ _ A) as [es [T E]]. rewrite <- B1, <- E. unfold xproc in Ht. rewrite <- B2 in Ht.
    eapply C63_limit; eauto; [apply SE|apply keys_nodup|apply no_process_ok|apply SE].
  Qed.
  (* A worker runs the body of a block that the server sent to it. *)
  Theorem C92_sent : setup tasks ord ordt d s0 fuel init nw mbf h0 -> P_Net.lossless dumps loads ->
    forall ms x, lruns (wire_init h0) ms x -> forall st t pb, xproc x st = Some (t, Pool.Running) -> x_pc x st = PWork pb ->
    In (ASend st pb) (sv_tr (x_sv x)) /\ b_task (pb_block pb) = t.
  Proof.
    intros SE L ms x R st t pb Ht Ep. pose proof (li_runs _ _ _ _ _ _ _ _ _ _ _ _ SE L _ _ R) as I.
    pose proof (ow_work _ _ _ _ _ _ _ (li_own _ _ _ _ _ _ _ _ _ _ _ _ _ _ I _ _ _ Ht) _ Ep) as S. split; auto.
    destruct (li_ai _ _ _ _ _ _ _ _ _ _ _ _ _ _ I) as [am [h [A [B1 [B2 _]]]]]. rewrite <- B1 in S.
    destruct (ai_sent _ _ _ _ _ _ _ _ _ _ _ _ _ A S) as [_ [E _]]. rewrite <- E. unfold xproc in Ht. rewrite <- B2 in Ht. eapply task_of; eauto.
  Qed.
  (* A block counts as done only if a worker said that it had done the body of this block, which it had been sent, or a check function
     said that it was done. *)
  Theorem C92_done_by : setup tasks ord ordt d s0 fuel init nw mbf h0 -> P_Net.lossless dumps loads ->
    forall ms x, lruns (wire_init h0) ms x -> forall b, succeeded (hist (sv_tr (x_sv x))) b ->
    exists ms1 x1 m x2 ms2, ms = ms1 ++ LDo m :: ms2 /\ lruns (wire_init h0) ms1 x1 /\ xstep x1 m x2 /\ xclaims b x1 m.
  Proof. intros SE L ms x R. exact (li_done _ _ _ _ _ _ _ _ _ _ _ _ _ _ (li_runs _ _ _ _ _ _ _ _ _ _ _ _ SE L _ _ R)). Qed.
  (* If the server has stopped, every block is settled. *)
  Theorem C92_settled_partial : setup tasks ord ordt d s0 fuel init nw mbf h0 -> P_Net.lossless dumps loads ->
    forall ms x, lruns (wire_init h0) ms x -> apart_failures tasks ord ordt d (hist (sv_tr (x_sv x))) ->
    sv_stop (x_sv x) = true -> forall b, pipe_block tasks b -> settled up maxr (hist (sv_tr (x_sv x))) b.
  Proof. intros SE L ms x R F Sp b Pb. eapply C35_stops_when_settled_partial; eauto. eapply C92_server; eauto. Qed.
  (* What the server's get_message gives: nothing, a message of a worker, StreamClosedError, or an AttributeError (C82), the last two
     because of a connection that is gone.  Nothing else reaches the loop of the server. *)
  Theorem C92_gets : setup tasks ord ordt d s0 fuel init nw mbf h0 -> P_Net.lossless dumps loads ->
    forall ms x, lruns (wire_init h0) ms x ->
    forall n r, Net.nstep dumps loads Net.NGet (x_net x) = Some n -> Net.n_rets n = Net.n_rets (x_net x) ++ [r] ->
    got_of r <> None \/ exists c, r = Net.SRaised c Net.AttrErr /\ Net.broken (Net.n_link (x_net x) c) = true.
  Proof.
    intros SE L ms x R n r Hn Er. pose proof (li_runs _ _ _ _ _ _ _ _ _ _ _ _ SE L _ _ R) as I. pose proof (li_run _ _ _ _ _ _ _ _ _ _ _ _ _ _ I) as Rn.
    destruct (WireNet.no_get _ _ _ _ _ Hn Er) as [Nl Nr]. destruct r as [c m| |c e|c a].
    - left. destruct Rn as [xs Hx]. destruct (P_Net.C55_to_server dumps loads (P_Net.lossless_pickles _ _ L) _ _ Hx c) as [rest E].
      assert (M : In m (P_Net.fits dumps (NetFacts.sents (rets x c)))).
      { unfold rets. rewrite E. apply in_or_app. right. apply in_or_app. left. apply of_conn_in. rewrite Nr. left. reflexivity. }
      pose proof M as M'. unfold P_Net.fits in M'. apply filter_In in M'. destruct M' as [M' _]. apply in_map_iff in M'. destruct M' as [a [<- Ha]].
      destruct (Pool.tbl (Pool.ps_sys (x_ps x)) c) as [[t s]|] eqn:Ht.
      + destruct (ow_said _ _ _ _ _ _ _ (li_own _ _ _ _ _ _ _ _ _ _ _ _ _ _ I _ _ _ Ht) a (or_introl Ha)) as [m [-> _]]. discriminate.
      + destruct (li_none _ _ _ _ _ _ _ _ _ _ _ _ _ _ I _ Ht) as [Q _]. rewrite Q in Ha. destruct Ha.
    - left. discriminate.
    - destruct (reached_step _ _ _ _ _ Rn Hn) as [xs Hx]. destruct (P_NetErr.C82_lossless dumps loads L _ _ Hx c e) as [B [-> | ->]].
      + rewrite Er. apply in_or_app. right. left. reflexivity.
      + left. discriminate.
      + right. exists c. rewrite <- Nl. auto.
    - destruct Nr.
  Qed.
  Lemma ready_pools : setup tasks ord ordt d s0 fuel init nw mbf h0 -> P_Net.lossless dumps loads ->
    forall ms x, lruns (wire_init h0) ms x -> forall i, serve_ready x i -> exists sv l,
      iteration up down maxr fuel init i (x_sv x) = Ok sv /\ sv_tr sv = l ++ sv_tr (x_sv x) /\
      match first_error (Pool.ps_err (x_ps x)) keys with
      | None => exists ps, pools_do nw mbf (pool_acts l ++ [Pool.PHealth]) (x_ps x) = Ok ps
      | Some e => pools_do nw mbf (pool_acts l ++ [Pool.PHealth]) (x_ps x) = Err e /\ exists st, In (LDo (XRaise st e)) ms
      end /\
      (first_error (Pool.ps_err (x_ps x)) keys = None -> forall st e, ~ In (LDo (XRaise st e)) ms).
  Proof.
    intros SE L ms x R i [Et [Sp [Eh [_ [n [r [Hn [Er Eg]]]]]]]]. pose proof (li_runs _ _ _ _ _ _ _ _ _ _ _ _ SE L _ _ R) as I.
    destruct (li_heard _ _ _ _ _ _ _ _ _ _ _ _ L _ _ _ _ _ I Hn Er Eg Eh) as [am [h [A [B1 [B2 [B3 [B4 Hd]]]]]]].
    destruct (ah_iteration _ _ _ _ _ _ _ _ _ _ SE _ _ _ A Hd) as [sv [l [E El]]]. pose proof (ah_pools _ _ _ _ _ _ _ _ _ _ _ _ (fun _ => O) _ _ A Hd E El) as P.
    rewrite B1 in *. rewrite B2 in *. exists sv, l. split; auto. split; auto. split.
    - destruct (first_error _ _) as [e|] eqn:F.
      + split; [eapply all_do_err; eauto|]. apply first_error_some in F. destruct F as [t [_ F]]. rewrite <- B2 in F.
        destruct (ai_err _ _ _ _ _ _ _ _ _ _ _ A _ _ F) as [st [k [H _]]]. exists st. apply B4. eauto.
      + destruct P as [[ps f] P]. exists ps. apply on_all_do in P. exact P.
    - intros F st e H. apply B4 in H. destruct H as [k H]. destruct (ai_raise _ _ _ _ _ _ _ _ _ _ _ A _ _ _ H) as [t [Ht Q]]. apply Q. rewrite B2.
      apply (proj1 (first_error_none _ _) F). exact Ht.
  Qed.
  (* Only an exception raised by a worker leaves the loop ... *)
  Theorem C92_only_workers : setup tasks ord ordt d s0 fuel init nw mbf h0 -> P_Net.lossless dumps loads ->
    forall ms x, lruns (wire_init h0) ms x -> forall i e, serve_ready x i -> xraises x i e -> exists st, In (LDo (XRaise st e)) ms.
  Proof.
    intros SE L ms x R i e Rd X. destruct (ready_pools SE L _ _ R _ Rd) as [sv [l [E [El [P _]]]]].
    destruct X as [X|[sv' [l' [E' [El' X]]]]]; [congruence|]. rewrite E in E'. injection E' as <-. rewrite El in El'. apply app_inv_tail in El'. subst l'.
    destruct (first_error _ _) as [v|]; [|destruct P as [ps P]; congruence]. destruct P as [P [st H]]. rewrite P in X. injection X as ->. eauto.
  Qed.
  (* ... and one raised by a worker does leave it, at its next iteration, ... *)
  Theorem C92_ends : setup tasks ord ordt d s0 fuel init nw mbf h0 -> P_Net.lossless dumps loads ->
    forall ms x, lruns (wire_init h0) ms x ->
    forall st e i, In (LDo (XRaise st e)) ms -> serve_ready x i -> (exists e', xraises x i e') /\ forall x', ~ xstep x (XServe i) x'.
  Proof.
    intros SE L ms x R st e i Hi Rd. destruct (ready_pools SE L _ _ R _ Rd) as [sv [l [E [El [P N]]]]].
    destruct (first_error _ _) as [v|]; [|destruct (N eq_refl _ _ Hi)]. destruct P as [P _]. split.
    - exists v. right. eauto.
    - intros x' St. inversion St as [| | | | | | |? n' r' sv' l' ps T1 S1 N1 M1 G1 H1 C1 E1 L1 P1|]; subst. rewrite E in E1. injection E1 as <-.
      rewrite El in L1. apply app_inv_tail in L1. subst l'. congruence.
  Qed.
  (* ... and as long as no worker raises one, it goes on. *)
  Theorem C92_goes_on : setup tasks ord ordt d s0 fuel init nw mbf h0 -> P_Net.lossless dumps loads ->
    forall ms x, lruns (wire_init h0) ms x -> (forall st e, ~ In (LDo (XRaise st e)) ms) ->
    forall i, serve_ready x i -> exists x', xstep x (XServe i) x'.
  Proof.
    intros SE L ms x R No i Rd. destruct (ready_pools SE L _ _ R _ Rd) as [sv [l [E [El [P _]]]]].
    destruct (first_error _ _) as [v|]; [destruct P as [_ [st H]]; destruct (No _ _ H)|]. destruct P as [ps P].
    destruct Rd as [Et [Sp [Eh [Ec [n [r [Hn [Er Eg]]]]]]]]. eexists. eapply xs_serve; eauto.
  Qed.
  (* No process outlives the loop: worker_pool.py:72-84 in the finally of server.py:69-71. *)
  Theorem C92_none_outlives : setup tasks ord ordt d s0 fuel init nw mbf h0 -> P_Net.lossless dumps loads ->
    forall ms x, lruns (wire_init h0) ms x -> forall es,
    let ps := Pool.pools_stop (P_Pool.steps nw mbf es (x_ps x)) in
    (forall st t, Pool.tbl (Pool.ps_sys ps) st <> Some (t, Pool.Running)) /\ forall t p, In (t, p) (Pool.ps_pools ps) -> p = [].
  Proof.
    intros SE L ms x R es ps. destruct (li_ai _ _ _ _ _ _ _ _ _ _ _ _ _ _ (li_runs _ _ _ _ _ _ _ _ _ _ _ _ SE L _ _ R)) as [am [h [A [B1 [B2 _]]]]].
    destruct (ai_told _ _ _ _ _ _ _ _ _ _ _ A) as [evs [T _]]. rewrite B2 in T.
    assert (Re : exists k, P_Pool.reached nw mbf keys no_process k (x_ps x)).
    { clear -T. induction T as [|es x0 e T [k IH] _]; [exists 0; constructor|]. destruct (P_Pool.steps_reached _ _ _ _ [e] k x0 IH) as [k' H]. exists k'. exact H. }
    destruct Re as [k Re]. destruct (P_Pool.steps_reached _ _ _ _ es _ _ Re) as [k' Re'].
    destruct (P_Pool.C62_stop _ _ _ _ _ _ (se_workers _ _ _ _ _ _ _ _ _ _ SE) (keys_nodup (map t_id tasks)) P_Pool.sys0_clean Re') as [X B].
    split; [exact X|]. intros t p Hp. unfold ps in Hp. rewrite B in Hp. apply in_map_iff in Hp. destruct Hp as [u [Eu _]]. congruence.
  Qed.
End C92.
Print Assumptions C92_server.
Print Assumptions C92_failures.
Print Assumptions C92_sent.
Print Assumptions C92_done_by.
Print Assumptions C92_settled_partial.
Print Assumptions C92_gets.
Print Assumptions C92_only_workers.
Print Assumptions C92_ends.
Print Assumptions C92_goes_on.
Print Assumptions C92_none_outlives.

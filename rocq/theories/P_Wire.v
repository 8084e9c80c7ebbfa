(* C88: server, pools, connections and workers together (Wire.v).  What WholeAny.v says of runs in which messages are elements of
   lists holds of runs in which they are pickled, sent through queues, threads and sockets, and lost with the processes. *)
From Coq Require Import Arith Lia.
From Verif Require Import SchedProps SchedExec DGFacts2 PipeRun P_SchedCE P_Sched SerialFacts P_Conv P_Serial ServerFacts ServerSteps
  ServerIdle P_Server P_Server2 P_ServerCE P_Outcome P_Notify PoolAll P_PoolFail P_SysEx P_SysCE.
From Verif Require Client Pool P_Pool P_Whole P_WholeEx P_WholeCE P_Cause Tcp Net NetFacts P_Net P_NetErr WireNet.
From Verif Require Import Sys SysFacts SysMeasure SysTrace WholeFair WholeSrv WholeSim WholeAny WholeAll WholeRun P_WholeAny Wire WireSim.
Open Scope Z_scope.

(* the move m (made in the state x) says that the body of b ended well, or that there was no need to run it *)
Definition xclaims (b : block) (x : wire) (m : xmove) : Prop :=
  match m with
  | XBody st o => (well o \/ o = Client.Interrupted SUCCESS) /\ exists pb, x_pc x st = PWork pb /\ pb_block pb = b
  | XServe i => exists k, i_chk i k b = CheckTrue
  | _ => False
  end.

Section Det.
  Variables (up down : block -> list block) (maxr : nat -> Z) (fuel : nat) (init : nat -> res unit) (nw : nat -> Z) (mbf : Z).
  Local Notation astep := (astep up down maxr fuel init nw mbf).
  Local Notation aruns := (aruns up down maxr fuel init nw mbf).
  Lemma astep_det h m h1 h2 : astep h m h1 -> astep h m h2 -> h1 = h2.
  Proof.
    intros A B. destruct A as [m h1 A|st e n Al|st s n c pb Al At].
    - inversion B as [m' h' B' | |]; subst. destruct A as [| | | | | | |i cut sv l ps f S1 I1 E1 T1 O1].
      8:{ inversion B' as [| | | | | | |i' cut' sv' l' ps' f' S2 I2 E2 T2 O2]. rewrite E1 in E2. injection E2 as E2. rewrite <- E2, T1 in T2. apply app_inv_tail in T2.
          rewrite <- T2, O1 in O2. injection O2 as -> ->. rewrite E2. reflexivity. }
      all: inversion B'; subst; auto; try congruence;
        match goal with A : h_w _ ?s = Worker _ _ _ _, B : h_w _ ?s = Worker _ _ _ _ |- _ => rewrite A in B; injection B; intros; subst; auto; try discriminate end.
    - inversion B; subst. reflexivity.
    - inversion B; subst. congruence.
  Qed.
  Lemma aruns_det h ms h1 : aruns h ms h1 -> forall h2, aruns h ms h2 -> h1 = h2.
  Proof.
    intros A. induction A as [|ms h1 m h1' A IH S]; intros h2 B; inversion B as [E|ms' y m' y' B' S' E]; subst; auto.
    - destruct ms'; discriminate.
    - destruct ms; discriminate.
    - apply app_inj_tail in E. destruct E as [-> ->]. rewrite (IH _ B') in *. eapply astep_det; eauto.
  Qed.
End Det.

Section C88.
  Variables (tasks : list task) (ord : list block -> list block) (ordt : list nat -> list nat) (d : dgraph) (s0 : sched) (fuel : nat).
  Variables (init : nat -> res unit) (nw : nat -> Z) (mbf : Z) (h0 : whole).
  Variable dumps : Net.nmsg payload -> option Tcp.bytes.
  Variable loads : Tcp.bytes -> option (Net.nmsg payload).
  Local Notation up := (dg_up ord ordt d).
  Local Notation down := (dg_down ord ordt d).
  Local Notation maxr := (dg_max_retries d).
  Local Notation xstep := (xstep up down maxr fuel init nw mbf dumps loads).
  Local Notation xruns := (xruns up down maxr fuel init nw mbf dumps loads).

  Local Notation all_kept := (fun _ : nat => @None nat).
  Lemma all_in n : within_net all_kept n.
  Proof. intros st k E. discriminate. Qed.
  (* The server sees what some run of WholeAny.v shows it: the inputs are fair, its safety theorems (C29-C36, C44-C50) apply. *)
  Theorem C88_server : setup tasks ord ordt d s0 fuel init nw mbf h0 -> P_Net.lossless dumps loads ->
    forall ms x, xruns (wire_init h0) ms x -> small dumps x ->
    server_run_to tasks ord ordt d s0 fuel init false (xserved ms) (x_sv x) /\ honest (sv_tr (x_sv x)).
  Proof.
    intros SE L ms x R Sm. destruct (wire_runs _ _ _ _ _ _ _ _ _ _ SE _ _ all_kept L _ _ (fun _ => eq_refl) R Sm) as [ams [h [A [Re [Es _]]]]].
    rewrite <- Es, <- (r_sv _ _ _ _ _ Re). eapply C65_server; eauto.
  Qed.
  (* A worker whose process runs belongs to the task it was started for and has reported at most max_block_failures failures. *)
  Theorem C88_failures : setup tasks ord ordt d s0 fuel init nw mbf h0 -> P_Net.lossless dumps loads ->
    forall ms x, xruns (wire_init h0) ms x -> small dumps x ->
    forall st t, xproc x st = Some (t, Pool.Running) -> fail_notes t st (sv_tr (x_sv x)) <= mbf.
  Proof.
    intros SE L ms x R Sm st t Ht. destruct (wire_runs _ _ _ _ _ _ _ _ _ _ SE _ _ all_kept L _ _ (fun _ => eq_refl) R Sm) as [ams [h [A [Re _]]]].
    rewrite <- (r_sv _ _ _ _ _ Re). eapply C63_whole; eauto. unfold proc. rewrite (r_ps _ _ _ _ _ Re). exact Ht.
  Qed.
  (* No call of TCPClient raises in a worker whose process runs, except that the constructor may fail to connect. *)
  Theorem C88_calls : setup tasks ord ordt d s0 fuel init nw mbf h0 -> P_Net.lossless dumps loads ->
    forall ms x, xruns (wire_init h0) ms x -> small dumps x ->
    forall st t e, xproc x st = Some (t, Pool.Running) -> In (Net.RRaised e) (rets x st) -> rets x st = [Net.RRaised Net.ConnErr].
  Proof.
    intros SE L ms x R Sm st t e Ht He. destruct (wire_runs _ _ _ _ _ _ _ _ _ _ SE _ _ all_kept L _ _ (fun _ => eq_refl) R Sm) as [ams [h [A [Re _]]]].
    destruct (l_ok _ _ _ _ (r_live _ _ _ _ _ Re _ _ Ht) e He) as [_ Ov]. destruct (linv _ _ _ L _ _ st Re) as [puts [excs [ss V]]].
    destruct V as [[V _]|V]; [|destruct (NetFacts.v_over _ _ _ _ _ _ V Ov)].
    destruct V as [_ [_ [_ [_ [_ [_ [_ [_ [_ [_ [[E _]|[_ [E _]]]]]]]]]]]]]; [congruence|exact E].
  Qed.
  (* What a living worker that is not about to leave got from the server, and what is on its way to it, is what the server sent to it and
     has still to send, in that order: no answer gets lost, none comes twice. *)
  Theorem C88_answers : setup tasks ord ordt d s0 fuel init nw mbf h0 -> P_Net.lossless dumps loads ->
    forall ms x, xruns (wire_init h0) ms x -> small dumps x ->
    forall st t, xproc x st = Some (t, Pool.Running) -> x_pc x st <> PBye -> x_pc x st <> PEnd ->
    exists got coming, NetFacts.gottens (rets x st) = map (fun r => Net.App (ToWorker r)) got /\ got ++ coming = replies st (sv_tr (x_sv x)).
  Proof.
    intros SE L ms x R Sm st t Ht P1 P2. destruct (wire_runs _ _ _ _ _ _ _ _ _ _ SE _ _ all_kept L _ _ (fun _ => eq_refl) R Sm) as [ams [h [A [Re _]]]].
    pose proof (r_live _ _ _ _ _ Re _ _ Ht) as Li. destruct (l_down _ _ _ _ Li P1 P2) as [gs [G1 G2]]. pose proof (l_all _ _ _ _ Li P1 P2) as G3.
    exists gs, (w_in (h_w h st)). split; [exact G1|]. rewrite G2 in G3. clear -G3. revert G3. generalize (gs ++ w_in (h_w h st)), (replies st (sv_tr (x_sv x))).
    induction l as [|a l IH]; intros [|b q] H; cbn in H; try discriminate; auto. injection H as -> H. f_equal. auto.
  Qed.
  (* A block counts as done only if a worker said that it had done the body of this block, which it had been sent, or a check function
     said that it was done. *)
  Theorem C88_done_by : setup tasks ord ordt d s0 fuel init nw mbf h0 -> P_Net.lossless dumps loads ->
    forall ms x, xruns (wire_init h0) ms x -> small dumps x -> forall b, succeeded (hist (sv_tr (x_sv x))) b ->
    exists ms1 x1 m x2 ms2, ms = ms1 ++ m :: ms2 /\ xruns (wire_init h0) ms1 x1 /\ xstep x1 m x2 /\ xclaims b x1 m.
  Proof.
    intros SE L ms x R Sm b Su. destruct (wire_runs _ _ _ _ _ _ _ _ _ _ SE _ _ all_kept L _ _ (fun _ => eq_refl) R Sm) as [ams [h [A [Re [_ [_ T]]]]]].
    rewrite <- (r_sv _ _ _ _ _ Re) in Su. destruct (C65_done_by _ _ _ _ _ _ _ _ _ _ _ _ _ SE A Su) as [a1 [h1 [am [h2 [a2 [Ea [A1 [S1 [_ Cl]]]]]]]]].
    destruct (T _ _ _ Ea) as [h1' [h2' [ms1 [x1 [m [x2 [ms2 [A1' [_ [Em [R1 [X1 [Re1 Tg]]]]]]]]]]]]]. rewrite (aruns_det _ _ _ _ _ _ _ _ _ _ A1' _ A1) in Re1.
    exists ms1, x1, m, x2, ms2. split; auto. split; auto. split; auto.
    destruct m as [st k|st|st|st k|st o|st c|st e|i|]; cbn in Tg.
    all: repeat match type of Tg with _ \/ _ => destruct Tg as [Tg|Tg] | _ /\ _ => destruct Tg as [? Tg] | exists _, _ => destruct Tg as [? Tg] end; try contradiction; subst am; cbn in Cl; try contradiction.
    - destruct Cl as [W [pb [Wa Pb]]].
      assert (X : exists t q, xproc x1 st = Some (t, Pool.Running) /\ x_pc x1 st = PWork q) by (inversion X1; subst; eauto). destruct X as [t [q [Ht Ep]]].
      pose proof (l_at _ _ _ _ (r_live _ _ _ _ _ Re1 _ _ Ht)) as La. rewrite Ep in La. cbn in La. rewrite Wa in La. injection La as <-.
      cbn. split; [|eauto]. destruct o as [[]|[]|[]]; cbn in W |- *; try contradiction; auto.
    - exact Cl.
  Qed.
  (* If the server has stopped, every block is settled. *)
  Theorem C88_settled_partial : setup tasks ord ordt d s0 fuel init nw mbf h0 -> P_Net.lossless dumps loads ->
    forall ms x, xruns (wire_init h0) ms x -> small dumps x -> apart_failures tasks ord ordt d (hist (sv_tr (x_sv x))) ->
    sv_stop (x_sv x) = true -> forall b, pipe_block tasks b -> settled up maxr (hist (sv_tr (x_sv x))) b.
  Proof.
    intros SE L ms x R Sm F Sp b Pb. destruct (wire_runs _ _ _ _ _ _ _ _ _ _ SE _ _ all_kept L _ _ (fun _ => eq_refl) R Sm) as [ams [h [A [Re _]]]].
    rewrite <- (r_sv _ _ _ _ _ Re) in *. eapply C65_settled_partial; eauto.
  Qed.
  (* What the server's get_message gives: nothing, a message of a worker, StreamClosedError, or an AttributeError (C82), the last two
     because of a connection that is gone.  Nothing else reaches the loop of the server. *)
  Theorem C88_gets : setup tasks ord ordt d s0 fuel init nw mbf h0 -> P_Net.lossless dumps loads ->
    forall ms x, xruns (wire_init h0) ms x -> small dumps x ->
    forall n r, Net.nstep dumps loads Net.NGet (x_net x) = Some n -> Net.n_rets n = Net.n_rets (x_net x) ++ [r] ->
    got_of r <> None \/ exists c, r = Net.SRaised c Net.AttrErr /\ Net.broken (Net.n_link (x_net x) c) = true.
  Proof.
    intros SE L ms x R Sm n r Hn Er. destruct (wire_runs _ _ _ _ _ _ _ _ _ _ SE _ _ all_kept L _ _ (fun _ => eq_refl) R Sm) as [ams [h [A [Re _]]]].
    destruct (WireNet.no_get _ _ _ _ _ Hn Er) as [Nl Nr]. destruct r as [c m| |c e|c a].
    - left. assert (Q : exists said got, NetFacts.sents (rets x c) = map ToServer said /\ NetFacts.got_from c (Net.n_rets (x_net x)) = map cpay got).
      { destruct (xproc x c) as [[t s]|] eqn:Et.
        - destruct (r_up _ _ _ _ _ Re _ _ _ Et) as [said [got [H1 [H2 _]]]]. eauto.
        - destruct (r_none _ _ _ _ _ Re _ Et) as [H1 [_ [H2 _]]]. exists [], []. unfold rets. rewrite H1, H2. auto. }
      destruct Q as [said [got [H1 H2]]]. destruct (said_prefix dumps loads all_kept L _ _ _ _ _ Re Sm H1 H2) as [q [rest [_ E]]].
      rewrite Nr in E. unfold NetFacts.of_conn in E. cbn in E. rewrite Nat.eqb_refl in E. destruct q as [|m' q]; [discriminate|]. cbn in E. injection E as <- _. discriminate.
    - left. discriminate.
    - destruct (reached_step _ _ _ _ _ (r_run _ _ _ _ _ Re) Hn) as [xs Hx].
      destruct (P_NetErr.C82_lossless dumps loads L _ _ Hx c e) as [B [-> | ->]].
      + rewrite Er. apply in_or_app. right. left. reflexivity.
      + left. discriminate.
      + right. exists c. rewrite <- Nl. auto.
    - destruct Nr.
  Qed.
  (* The next iteration of the loop raises e (server.py:74-81, after get_message). *)
  Definition serve_ready (x : wire) (i : input) : Prop :=
    x_todo x = [] /\ sv_stop (x_sv x) = false /\ i_health i = Ok tt /\
    (forall st, i_closed i st = true -> closable x st) /\
    exists n r, Net.nstep dumps loads Net.NGet (x_net x) = Some n /\ Net.n_rets n = Net.n_rets (x_net x) ++ [r] /\ got_of r = Some (i_get i).
  Definition xraises (x : wire) (i : input) (e : exn) : Prop :=
    iteration up down maxr fuel init i (x_sv x) = Err e \/
    exists sv l, iteration up down maxr fuel init i (x_sv x) = Ok sv /\ sv_tr sv = l ++ sv_tr (x_sv x) /\
      pools_do nw mbf (pool_acts l ++ [Pool.PHealth]) (x_ps x) = Err e.
  Lemma pools_do_err cut : forall evs ps f e, pools_do nw mbf evs ps = Err e -> on_all nw mbf cut evs ps f = Err e.
  Proof.
    induction evs as [|v evs IH]; intros ps f e; cbn [pools_do on_all]; [discriminate|].
    destruct (Pool.pstep nw mbf v ps) as [ps1 [y|]]; auto. intros H. injection H as ->. reflexivity.
  Qed.
  Lemma all_do_err cut : forall evs ps f e, on_all nw mbf cut evs ps f = Err e -> pools_do nw mbf evs ps = Err e.
  Proof.
    induction evs as [|v evs IH]; intros ps f e; cbn [pools_do on_all]; [discriminate|].
    destruct (Pool.pstep nw mbf v ps) as [ps1 [y|]]; [intros H; injection H as ->; reflexivity|apply IH].
  Qed.
  (* Only an exception raised by a worker leaves the loop ... *)
  Theorem C88_only_workers : setup tasks ord ordt d s0 fuel init nw mbf h0 -> P_Net.lossless dumps loads ->
    forall ms x, xruns (wire_init h0) ms x -> small dumps x ->
    forall i e, serve_ready x i -> xraises x i e -> exists st, In (XRaise st e) ms.
  Proof.
    intros SE L ms x R Sm i e [Et [Sp [Eh [Ec [n [r [Hn [Er Eg]]]]]]]] X. destruct (wire_runs _ _ _ _ _ _ _ _ _ _ SE _ _ all_kept L _ _ (fun _ => eq_refl) R Sm) as [ams [h [A [Re [_ [Ra _]]]]]].
    pose proof (serve_input dumps loads all_kept L _ _ _ _ _ Re Sm (all_in _) Hn Er Eg Eh Ec) as Io. unfold xraises in X. rewrite <- (r_sv _ _ _ _ _ Re), <- (r_ps _ _ _ _ _ Re) in *.
    assert (Q : raises up down maxr fuel init nw mbf h i e).
    { destruct X as [X|[sv [l [E [El X]]]]]; [apply ra_server; auto|]. eapply (ra_pools _ _ _ _ _ _ _ _ _ _ (fun _ => 0%nat)); eauto. apply pools_do_err. exact X. }
    destruct (C64_only_workers _ _ _ _ _ _ _ _ _ _ _ _ _ _ SE A Q) as [st [k Hi]]. exists st. apply Ra. eauto.
  Qed.
  (* ... and one raised by a worker does leave it, at its next iteration, ... *)
  Theorem C88_ends : setup tasks ord ordt d s0 fuel init nw mbf h0 -> P_Net.lossless dumps loads ->
    forall ms x, xruns (wire_init h0) ms x -> small dumps x ->
    forall st e i, In (XRaise st e) ms -> serve_ready x i -> (exists e', xraises x i e') /\ forall x', ~ xstep x (XServe i) x'.
  Proof.
    intros SE L ms x R Sm st e i Hi [Et [Sp [Eh [Ec [n [r [Hn [Er Eg]]]]]]]]. destruct (wire_runs _ _ _ _ _ _ _ _ _ _ SE _ _ all_kept L _ _ (fun _ => eq_refl) R Sm) as [ams [h [A [Re [_ [Ra _]]]]]].
    pose proof (serve_input dumps loads all_kept L _ _ _ _ _ Re Sm (all_in _) Hn Er Eg Eh Ec) as Io. apply Ra in Hi. destruct Hi as [k Hi].
    assert (Sh : sv_stop (h_sv h) = false) by (rewrite (r_sv _ _ _ _ _ Re); exact Sp).
    destruct (C64_ends _ _ _ _ _ _ _ _ _ _ _ _ _ _ _ _ SE A Hi Sh Io) as [[e' Q] _].
    assert (X : xraises x i e').
    { unfold xraises. rewrite <- (r_sv _ _ _ _ _ Re), <- (r_ps _ _ _ _ _ Re). destruct Q as [_ _ Q|cut sv l _ _ E El Q]; [auto|].
      right. exists sv, l. split; auto. split; auto. eapply all_do_err; eauto. }
    split; [eauto|]. intros x' St. inversion St as [| | | | | | |? n' r' sv l ps T1 S1 N1 M1 G1 H1 C1 E1 L1 P1|]; subst.
    destruct X as [X|[sv' [l' [E2 [L2 P2]]]]]; [congruence|]. rewrite E1 in E2. injection E2 as <-. rewrite L1 in L2. apply app_inv_tail in L2. subst l'. congruence.
  Qed.
  (* ... and as long as no worker raises one, it goes on. *)
  Theorem C88_goes_on : setup tasks ord ordt d s0 fuel init nw mbf h0 -> P_Net.lossless dumps loads ->
    forall ms x, xruns (wire_init h0) ms x -> small dumps x -> (forall st e, ~ In (XRaise st e) ms) ->
    forall i, serve_ready x i -> exists x', xstep x (XServe i) x'.
  Proof.
    intros SE L ms x R Sm No i [Et [Sp [Eh [Ec [n [r [Hn [Er Eg]]]]]]]]. destruct (wire_runs _ _ _ _ _ _ _ _ _ _ SE _ _ all_kept L _ _ (fun _ => eq_refl) R Sm) as [ams [h [A [Re [_ [Ra _]]]]]].
    pose proof (serve_input dumps loads all_kept L _ _ _ _ _ Re Sm (all_in _) Hn Er Eg Eh Ec) as Io.
    assert (Sh : sv_stop (h_sv h) = false) by (rewrite (r_sv _ _ _ _ _ Re); exact Sp).
    destruct (C64_goes_on _ _ _ _ _ _ _ _ _ _ _ _ _ (fun _ => 0%nat) SE A (fun st e k Hi => No st e (proj2 (Ra st e) (ex_intro _ k Hi))) Sh Io) as [h' St].
    inversion St as [| | | | | | |i' cut sv l ps f S1 I1 E1 T1 O1]; subst. apply on_all_do in O1. cbn [fst] in O1.
    rewrite (r_sv _ _ _ _ _ Re) in *. rewrite (r_ps _ _ _ _ _ Re) in *. eexists. eapply xs_serve; eauto.
  Qed.
  (* No process outlives the loop: worker_pool.py:72-84 in the finally of server.py:69-71. *)
  Theorem C88_none_outlives : setup tasks ord ordt d s0 fuel init nw mbf h0 -> P_Net.lossless dumps loads ->
    forall ms x, xruns (wire_init h0) ms x -> small dumps x -> forall es,
    let ps := Pool.pools_stop (P_Pool.steps nw mbf es (x_ps x)) in
    (forall st t, Pool.tbl (Pool.ps_sys ps) st <> Some (t, Pool.Running)) /\ forall t p, In (t, p) (Pool.ps_pools ps) -> p = [].
  Proof.
    intros SE L ms x R Sm es ps. destruct (wire_runs _ _ _ _ _ _ _ _ _ _ SE _ _ all_kept L _ _ (fun _ => eq_refl) R Sm) as [ams [h [A [Re _]]]].
    subst ps. rewrite <- (r_ps _ _ _ _ _ Re). eapply C64_none_outlives; eauto.
  Qed.
End C88.
Print Assumptions C88_server.
Print Assumptions C88_failures.
Print Assumptions C88_calls.
Print Assumptions C88_answers.
Print Assumptions C88_done_by.
Print Assumptions C88_settled_partial.
Print Assumptions C88_gets.
Print Assumptions C88_only_workers.
Print Assumptions C88_ends.
Print Assumptions C88_goes_on.
Print Assumptions C88_none_outlives.

(* C91: over the network (Wire.v) no AttributeError comes out of the server's get_message. *)
From Coq Require Import Arith Lia.
From Verif Require Import SchedProps SchedExec DGFacts2 PipeRun P_SchedCE P_Sched SerialFacts P_Conv P_Serial ServerFacts ServerSteps
  ServerIdle P_Server P_Server2 P_ServerCE P_Outcome P_Notify PoolAll P_PoolFail P_SysEx P_SysCE.
From Verif Require Client Pool P_Pool P_Whole P_WholeEx P_WholeCE P_Cause Tcp Net NetFacts P_Net P_NetErr WireNet.
From Verif Require Import Sys SysFacts SysMeasure SysTrace WholeFair WholeSrv WholeSim WholeAny WholeAll WholeRun P_WholeAny Wire WireSim P_Wire P_WireEx WireAttr.
Open Scope Z_scope.

Section C91.
  Variables (tasks : list task) (ord : list block -> list block) (ordt : list nat -> list nat) (d : dgraph) (s0 : sched) (fuel : nat).
  Variables (init : nat -> res unit) (nw : nat -> Z) (mbf : Z) (h0 : whole).
  Variable dumps : Net.nmsg payload -> option Tcp.bytes.
  Variable loads : Tcp.bytes -> option (Net.nmsg payload).
  Local Notation xstep := (xstep (dg_up ord ordt d) (dg_down ord ordt d) (dg_max_retries d) fuel init nw mbf dumps loads).
  Local Notation xruns := (xruns (dg_up ord ordt d) (dg_down ord ordt d) (dg_max_retries d) fuel init nw mbf dumps loads).
  Hypothesis SE : setup tasks ord ordt d s0 fuel init nw mbf h0.
  Hypothesis L : P_Net.lossless dumps loads.

  (* None has come, ... *)
  Theorem C91_never : forall ms x, xruns (wire_init h0) ms x -> small dumps x -> forall c, ~ In (Net.SRaised c Net.AttrErr) (Net.n_rets (x_net x)).
  Proof. intros ms x R Sm. apply (a_rets _ (a_runs _ _ _ _ _ _ _ _ _ _ SE _ _ L _ _ R Sm)). Qed.
  (* ... none waits in the queue ... *)
  Theorem C91_none_waits : forall ms x, xruns (wire_init h0) ms x -> small dumps x -> forall c, ~ In (c, Net.AttrErr) (Net.n_eq (x_net x)).
  Proof. intros ms x R Sm c H. destruct (a_eq _ (a_runs _ _ _ _ _ _ _ _ _ _ SE _ _ L _ _ R Sm) _ _ H eq_refl). Qed.
  (* ... and the next call of get_message gives nothing, a message of a worker, or a StreamClosedError. *)
  Theorem C91_gets : forall ms x, xruns (wire_init h0) ms x -> small dumps x ->
    exists n r g, Net.nstep dumps loads Net.NGet (x_net x) = Some n /\ Net.n_rets n = Net.n_rets (x_net x) ++ [r] /\ got_of r = Some g.
  Proof.
    intros ms x R Sm.
    assert (Q : exists n r, Net.nstep dumps loads Net.NGet (x_net x) = Some n /\ Net.n_rets n = Net.n_rets (x_net x) ++ [r] /\ (forall c e, r = Net.SRaised c e -> In (c, e) (Net.n_eq (x_net x)))).
    { cbn [Net.nstep]. destruct (Net.n_eq (x_net x)) as [|[c e] q]; [destruct (Net.n_mq (x_net x)) as [|[c m] q]|]; do 2 eexists; (split; [reflexivity|]); cbn [Net.n_rets]; (split; [reflexivity|]);
        intros c0 e0 E; try discriminate E. injection E as <- <-. left. reflexivity. }
    destruct Q as [n [r [Hn [Er In0]]]]. exists n, r.
    destruct (C88_gets _ _ _ _ _ _ _ _ _ _ _ _ SE L _ _ R Sm _ _ Hn Er) as [N|[c [-> _]]].
    - destruct (got_of r) as [g|]; [eauto|contradiction].
    - destruct (C91_none_waits _ _ R Sm c). apply In0. reflexivity.
  Qed.
  (* So nothing that happens to connections or processes keeps the server's loop from going on: as long as it has not stopped and no
     worker has raised an exception, it makes its next iteration, whichever of the streams that may be seen closed it sees closed. *)
  Theorem C91_goes_on : forall ms x, xruns (wire_init h0) ms x -> small dumps x -> (forall st e, ~ In (XRaise st e) ms) ->
    x_todo x = [] -> sv_stop (x_sv x) = false -> forall closed, (forall st, closed st = true -> closable x st) ->
    exists i x', i_closed i = closed /\ xstep x (XServe i) x'.
  Proof.
    intros ms x R Sm No Td Sp closed Cl. destruct (C91_gets _ _ R Sm) as [n [r [g [Hn [Er Eg]]]]].
    set (i := Input g closed 0 false (Ok tt) (fun _ _ => CheckFalse) (fun _ _ _ => O)).
    destruct (C88_goes_on _ _ _ _ _ _ _ _ _ _ _ _ SE L _ _ R Sm No i) as [x' S]; [|exists i, x'; auto].
    split; auto. split; auto. split; auto. split; [exact Cl|]. exists n, r. auto.
  Qed.
End C91.
Print Assumptions C91_never.
Print Assumptions C91_none_waits.
Print Assumptions C91_gets.
Print Assumptions C91_goes_on.

(* Worker 0 has asked, and its process has ended before the answer could be written; the stream is set to None while handle_stream reads
   from it.  Worker 1 has written half of its request when its process ends.  Both times get_message raises StreamClosedError. *)
Definition wa_1 : list xdeed := connect 0 ++ asks 0 ++ [DEnd 0 1; DLost 0; DNet 0 (Net.KFlushS false); DNet 0 Net.KFailS].
Definition wa_2 : list xdeed := [DServe [0%nat]] ++ connect 1 ++ calls 1 ++ net 1 [Net.KFlushC true; Net.KArriveS 5; Net.KReadS; Net.KReadS] ++
  [DEnd 1 1; DLost 1; DNet 1 Net.KFailS].
Definition wa_run (ts : list task) : option (dgraph * sched * whole * block * (list xmove * wire) * (list xmove * wire)) :=
  match sched_init ts with
  | Ok (d, s0) =>
      match whole_init no_init P_WholeCE.one_each 3 (map t_id ts) s0, pblocks d with
      | Ok h, b :: _ =>
          match wx_play d b wa_1 (wire_init h) with
          | Some (ms1, x1) => match wx_play d b wa_2 x1 with
                              | Some (ms2, x2) => Some (d, s0, h, b, (ms1, x1), (ms2, x2))
                              | _ => None end
          | None => None end
      | _, _ => None end
  | Err _ => None end.
Definition wa_waits (x : wire) (st : nat) : bool :=
  match Net.n_eq (x_net x) with [(c, Net.StreamClosedErr)] => Nat.eqb c st | _ => false end && match x_todo x with [] => true | _ => false end && negb (sv_stop (x_sv x)) &&
  negb (Net.s_open (Net.n_link (x_net x) st)).
Definition wa_check (d : dgraph) (b : block) (m1 : list xmove) (x1 : wire) (m2 : list xmove) (x2 : wire) : bool :=
  enough_b d 100 && small_b (dumpx b) (m1 ++ m2) x2 && no_raise (m1 ++ m2) && wa_waits x1 0 && wa_waits x2 1 &&
  match Net.ch_st (Net.up (Net.n_link (x_net x2) 1)), Net.ch_buf (Net.up (Net.n_link (x_net x2) 1)) with Net.RBody _, [_] => true | _, _ => false end.
Lemma wa_checked : match wa_run [P_WholeCE.wc 1 5] with Some (d, s0, h, b, (m1, x1), (m2, x2)) => wa_check d b m1 x1 m2 x2 | None => false end = true.
Proof. vm_compute. reflexivity. Qed.
Lemma wa_run_is ts d s0 h b m1 x1 m2 x2 : wa_run ts = Some (d, s0, h, b, (m1, x1), (m2, x2)) ->
  sched_init ts = Ok (d, s0) /\ whole_init no_init P_WholeCE.one_each 3 (map t_id ts) s0 = Ok h /\
  wx_play d b wa_1 (wire_init h) = Some (m1, x1) /\ wx_play d b wa_2 x1 = Some (m2, x2).
Proof.
  unfold wa_run. destruct (sched_init ts) as [[d' s']|] eqn:Es; [|discriminate]. destruct (whole_init _ _ _ _ _) as [h'|] eqn:Ei; [|discriminate].
  destruct (pblocks d') as [|b' q] eqn:Eb; [discriminate|]. destruct (wx_play d' b' wa_1 _) as [[n1 y1]|] eqn:E1; [|discriminate].
  destruct (wx_play d' b' wa_2 y1) as [[n2 y2]|] eqn:E2; [|discriminate].
  intros E. apply some_inj in E. repeat (apply pair_equal_spec in E; let F := fresh in destruct E as [E F]; try (apply pair_equal_spec in F; destruct F)). subst. auto.
Qed.
(* the hypotheses of C91_goes_on hold of both, and a StreamClosedError of the worker's connection waits, whose stream is None *)
Definition wa_claim (d : dgraph) (s0 : sched) (h : whole) (b : block) (ms : list xmove) (x : wire) (st : nat) : Prop :=
  setup [P_WholeCE.wc 1 5] idl idl d s0 100 no_init P_WholeCE.one_each 3 h /\ P_Net.lossless (dumpx b) (loadx b) /\
  xruns (dg_up idl idl d) (dg_down idl idl d) (dg_max_retries d) 100 no_init P_WholeCE.one_each 3 (dumpx b) (loadx b) (wire_init h) ms x /\
  small (dumpx b) x /\ (forall st e, ~ In (XRaise st e) ms) /\ x_todo x = [] /\ sv_stop (x_sv x) = false /\
  Net.n_eq (x_net x) = [(st, Net.StreamClosedErr)] /\ Net.s_open (Net.n_link (x_net x) st) = false.
Lemma wa_waits_ok x st : wa_waits x st = true ->
  x_todo x = [] /\ sv_stop (x_sv x) = false /\ Net.n_eq (x_net x) = [(st, Net.StreamClosedErr)] /\ Net.s_open (Net.n_link (x_net x) st) = false.
Proof.
  unfold wa_waits. intros H. apply andb_prop in H. destruct H as [H H4]. apply andb_prop in H. destruct H as [H H3]. apply andb_prop in H. destruct H as [H1 H2].
  destruct (x_todo x); [|discriminate H2]. apply Bool.negb_true_iff in H3, H4. split; auto. split; auto. split; auto.
  destruct (Net.n_eq (x_net x)) as [|[c []] [|]]; try discriminate H1. apply Nat.eqb_eq in H1. subst c. reflexivity.
Qed.
Lemma wa_from d s0 h b m1 x1 m2 x2 : sched_init [P_WholeCE.wc 1 5] = Ok (d, s0) -> whole_init no_init P_WholeCE.one_each 3 (map t_id [P_WholeCE.wc 1 5]) s0 = Ok h ->
  wx_play d b wa_1 (wire_init h) = Some (m1, x1) -> wx_play d b wa_2 x1 = Some (m2, x2) -> wa_check d b m1 x1 m2 x2 = true ->
  wa_claim d s0 h b m1 x1 0 /\ wa_claim d s0 h b (m1 ++ m2) x2 1 /\
  exists n c, Net.ch_st (Net.up (Net.n_link (x_net x2) 1)) = Net.RBody n /\ Net.ch_buf (Net.up (Net.n_link (x_net x2) 1)) = [c].
Proof.
  intros Es Ei E1 E2 Q. unfold wa_check in Q. apply andb_prop in Q. destruct Q as [Q Q6]. apply andb_prop in Q. destruct Q as [Q Q5]. apply andb_prop in Q. destruct Q as [Q Q4].
  apply andb_prop in Q. destruct Q as [Q Q3]. apply andb_prop in Q. destruct Q as [Q1 Q2].
  assert (Po : pipe_ok [P_WholeCE.wc 1 5]) by (apply P_Cause.c_ok; lia).
  pose proof (wx_setup _ _ _ _ Po (P_Cause.c_edges 1 5) Es Ei Q1) as SE.
  unfold wx_play in E1, E2. apply xplay_runs in E1, E2. pose proof (xruns_app _ _ _ _ _ _ _ _ _ _ _ _ _ E1 E2) as R2.
  pose proof (small_b_ok _ _ _ _ _ _ _ _ _ _ _ R2 Q2) as S2.
  assert (S1 : small (dumpx b) x1). { clear -E2 S2. induction E2 as [|ms y1 m y2 E2 IH S]; auto. apply IH. eapply small_step; eauto. }
  assert (N2 : forall st e, ~ In (XRaise st e) (m1 ++ m2)). { intros st e Hi. unfold no_raise in Q3. rewrite forallb_forall in Q3. apply Q3 in Hi. discriminate Hi. }
  destruct (wa_waits_ok _ _ Q4) as [A1 [A2 [A3 A4]]]. destruct (wa_waits_ok _ _ Q5) as [B1 [B2 [B3 B4]]].
  split; [|split].
  - repeat (split; [first [exact SE|apply loadx_lossless|exact E1|exact S1|exact A1|exact A2|exact A3|idtac]|]); [|exact A4].
    intros st e H. apply (N2 st e). apply in_or_app. auto.
  - repeat (split; [first [exact SE|apply loadx_lossless|exact R2|exact S2|exact N2|exact B1|exact B2|exact B3]|]). exact B4.
  - destruct (Net.ch_st _); try discriminate Q6. destruct (Net.ch_buf _) as [|c [|]]; try discriminate Q6. eauto.
Qed.
Example C91_example : exists d s0 h b m1 x1 m2 x2, wa_claim d s0 h b m1 x1 0 /\ wa_claim d s0 h b (m1 ++ m2) x2 1 /\
  exists n c, Net.ch_st (Net.up (Net.n_link (x_net x2) 1)) = Net.RBody n /\ Net.ch_buf (Net.up (Net.n_link (x_net x2) 1)) = [c].
Proof.
  pose proof wa_checked as Q. destruct (wa_run _) as [[[[[[d s0] h] b] [m1 x1]] [m2 x2]]|] eqn:E; [|discriminate Q].
  destruct (wa_run_is _ _ _ _ _ _ _ _ _ E) as [Es [Ei [E1 E2]]]. exists d, s0, h, b, m1, x1, m2, x2. exact (wa_from _ _ _ _ _ _ _ _ Es Ei E1 E2 Q).
Qed.
Print Assumptions C91_example.

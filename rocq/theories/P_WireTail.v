(* C95: no AttributeError comes out of the server's get_message, though connections are lost at any moment (WireLoss.v), if a write that
   fails has left a byte behind that never arrives (WireTail.v). *)
From Coq Require Import Arith Lia.
From Verif Require Import SchedProps SchedExec DGFacts2 PipeRun P_SchedCE P_Sched SerialFacts P_Conv P_Serial ServerFacts ServerSteps
  ServerIdle P_Server P_Server2 P_ServerCE P_Outcome P_Notify PoolAll P_PoolFail P_SysEx P_SysCE.
From Verif Require Client Pool P_Pool P_Whole P_WholeEx P_WholeCE P_Cause Tcp Net NetFacts P_Net P_NetErr WireNet.
From Verif Require Import Sys SysFacts SysMeasure SysTrace WholeFair WholeSrv WholeSim WholeAny WholeAll WholeRun P_WholeAny WholeOwn P_WholeOwn P_WholeOwnEx
  Wire WireSim P_Wire P_WireEx P_WireOwn WireAttr WireLoss P_WireLoss P_WireLossEx WireIntact WireTail.
Open Scope Z_scope.

Section C95.
  Variables (tasks : list task) (ord : list block -> list block) (ordt : list nat -> list nat) (d : dgraph) (s0 : sched) (fuel : nat).
  Variables (init : nat -> res unit) (nw : nat -> Z) (mbf : Z) (h0 : whole).
  Variable dumps : Net.nmsg payload -> option Tcp.bytes.
  Variable loads : Tcp.bytes -> option (Net.nmsg payload).
  Hypothesis SE : setup tasks ord ordt d s0 fuel init nw mbf h0.
  Hypothesis L : P_Net.lossless dumps loads.
  Local Notation up := (dg_up ord ordt d).
  Local Notation down := (dg_down ord ordt d).
  Local Notation maxr := (dg_max_retries d).
  Local Notation xstep := (xstep up down maxr fuel init nw mbf dumps loads).
  Local Notation truns := (truns up down maxr fuel init nw mbf dumps loads).
  Theorem C95_never : forall ms x, truns (wire_init h0) ms x -> forall c, ~ In (Net.SRaised c Net.AttrErr) (Net.n_rets (x_net x)).
  Proof. intros ms x T. apply (ti_rets _ _ _ (ti_runs _ _ _ _ _ _ _ _ _ _ _ _ SE L _ _ T)). Qed.
  Theorem C95_none_waits : forall ms x, truns (wire_init h0) ms x -> forall c, ~ In (c, Net.AttrErr) (Net.n_eq (x_net x)).
  Proof. intros ms x T c H. destruct (ti_eq _ _ _ (ti_runs _ _ _ _ _ _ _ _ _ _ _ _ SE L _ _ T) _ _ H eq_refl). Qed.
  Theorem C95_gets : forall ms x, truns (wire_init h0) ms x ->
    exists n r g, Net.nstep dumps loads Net.NGet (x_net x) = Some n /\ Net.n_rets n = Net.n_rets (x_net x) ++ [r] /\ got_of r = Some g.
  Proof.
    intros ms x T.
    assert (Q : exists n r, Net.nstep dumps loads Net.NGet (x_net x) = Some n /\ Net.n_rets n = Net.n_rets (x_net x) ++ [r] /\ (forall c e, r = Net.SRaised c e -> In (c, e) (Net.n_eq (x_net x)))).
    { cbn [Net.nstep]. destruct (Net.n_eq (x_net x)) as [|[c e] q]; [destruct (Net.n_mq (x_net x)) as [|[c m] q]|]; do 2 eexists; (split; [reflexivity|]); cbn [Net.n_rets]; (split; [reflexivity|]);
        intros c0 e0 E; try discriminate E. injection E as <- <-. left. reflexivity. }
    destruct Q as [n [r [Hn [Er In0]]]]. exists n, r.
    destruct (C92_gets _ _ _ _ _ _ _ _ _ _ _ _ SE L _ _ (truns_lruns _ _ _ _ _ _ _ _ _ _ _ _ T) _ _ Hn Er) as [N|[c [-> _]]].
    - destruct (got_of r) as [g|]; [eauto|contradiction].
    - destruct (C95_none_waits _ _ T c). apply In0. reflexivity.
  Qed.
  (* The loop of the server makes its next iteration unless it has stopped or a worker raised an exception. *)
  Theorem C95_goes_on : forall ms x, truns (wire_init h0) ms x -> (forall st e, ~ In (LDo (XRaise st e)) ms) ->
    x_todo x = [] -> sv_stop (x_sv x) = false -> forall closed, (forall st, closed st = true -> closable x st) ->
    exists i x', i_closed i = closed /\ xstep x (XServe i) x'.
  Proof.
    intros ms x T No Td Sp closed Cl. destruct (C95_gets _ _ T) as [n [r [g [Hn [Er Eg]]]]].
    set (i := Input g closed 0 false (Ok tt) (fun _ _ => CheckFalse) (fun _ _ _ => O)).
    destruct (C92_goes_on _ _ _ _ _ _ _ _ _ _ _ _ SE L _ _ (truns_lruns _ _ _ _ _ _ _ _ _ _ _ _ T) No i) as [x' S]; [|exists i, x'; auto].
    split; auto. split; auto. split; auto. split; [exact Cl|]. exists n, r. auto.
  Qed.
End C95.
Print Assumptions C95_never.
Print Assumptions C95_none_waits.
Print Assumptions C95_gets.
Print Assumptions C95_goes_on.

(* ---- a run ---- *)
Section Play.
  Variables (up down : block -> list block) (maxr : nat -> Z) (fuel : nat) (nw : nat -> Z) (mbf : Z).
  Variable dumps : Net.nmsg payload -> option Tcp.bytes.
  Variable loads : Tcp.bytes -> option (Net.nmsg payload).
  Definition lates (m : lmove) (ls : list nat) : list nat := match m with LDo (XNet st Net.KLateS) => st :: ls | _ => ls end.
  Definition tails (ls : list nat) (x : wire) : bool := forallb (fun st => match Net.ch_wire (Net.dn (Net.n_link (x_net x) st)) with [] => false | _ => true end) ls.
  Fixpoint tplay (ls : list nat) (cs : list ldeed) (x : wire) : option (list lmove * wire) :=
    match cs with
    | [] => Some ([], x)
    | c :: r => match lperform up down maxr fuel nw mbf dumps loads c x with
                | Some (m, x1) => if tails (lates m ls) x1 then match tplay (lates m ls) r x1 with Some (ms, x2) => Some (m :: ms, x2) | None => None end else None
                | None => None
                end
    end.
  Local Notation truns := (truns up down maxr fuel no_init nw mbf dumps loads).
  Lemma tplay_runs cs : forall ls x ms x' y ms0, tplay ls cs x = Some (ms, x') -> truns y ms0 x -> (forall st, late st ms0 -> In st ls) -> truns y (ms0 ++ ms) x'.
  Proof.
    induction cs as [|c r IH]; intros ls x ms x' y ms0 H T Ls; cbn [tplay] in H; [apply some_inj, pair_equal_spec in H; destruct H as [<- <-]; rewrite app_nil_r; exact T|].
    destruct (lperform _ _ _ _ _ _ _ _ c x) as [[m x1]|] eqn:E; [|discriminate H]. destruct (tails _ x1) eqn:Tl; [|discriminate H].
    destruct (tplay _ r x1) as [[ms1 x2]|] eqn:El; [|discriminate H]. apply some_inj, pair_equal_spec in H. destruct H as [<- <-].
    assert (La : forall st, late st (ms0 ++ [m]) -> In st (lates m ls)).
    { intros st H. apply in_app_or in H. destruct H as [H|[H|[]]].
      - apply Ls in H. unfold lates. destruct m as [[? []| | | | | | | |]|]; auto. right. exact H.
      - subst m. left. reflexivity. }
    change (m :: ms1) with ([m] ++ ms1). rewrite app_assoc. eapply IH; eauto. econstructor; eauto using lperform_step.
    intros st H Q. unfold tails in Tl. rewrite forallb_forall in Tl. apply La, Tl in H. rewrite Q in H. discriminate H.
  Qed.
End Play.
(* One task of two blocks, two workers, whose processes both run all the time.  Process 0 asks for a block; half of the answer has arrived
   when the connection is lost and the write fails.  Process 1 asks; the connection is lost, and the write of the answer fails at once.
   Both streams are set to None while handle_stream reads from them. *)
Definition wt_1 : list ldeed := map GDo (connect 0 ++ asks 0 ++ net 0 [Net.KFlushS true; Net.KArriveC 5]) ++ [GBreak 0] ++ map GDo [DNet 0 Net.KLateS] ++
  map GDo (connect 1 ++ asks 1) ++ [GBreak 1] ++ map GDo (net 1 [Net.KFlushS false] ++ net 0 [Net.KFailS] ++ net 1 [Net.KFailS]).
(* If all bytes of the answer to process 0 arrive though the write was said to fail, and what it says then arrives too, an AttributeError
   comes out of get_message. *)
Definition wt_2 : list ldeed := map GDo (connect 0 ++ asks 0 ++ net 0 [Net.KFlushS true]) ++ [GBreak 0] ++
  map GDo (net 0 [Net.KLateS; Net.KArriveC 7; Net.KReadC; Net.KReadC; Net.KReadC] ++ calls 0 ++
  [DBody 0 (Client.Finished SUCCESS)] ++ calls 0 ++ net 0 [Net.KFlushC true; Net.KArriveS 7; Net.KReadS; Net.KFailS]).
Definition wt_run (ts : list task) : option (dgraph * sched * whole * (list lmove * wire) * (list lmove * wire)) :=
  match sched_init ts with
  | Ok (d, s0) =>
      match whole_init no_init ow_nw 3 (map t_id ts) s0 with
      | Ok h => let dumps := dumpl (pblocks d) in let loads := loadl (pblocks d) in
          match tplay (dg_up idl idl d) (dg_down idl idl d) (dg_max_retries d) 100 ow_nw 3 dumps loads [] wt_1 (wire_init h),
                lplay (dg_up idl idl d) (dg_down idl idl d) (dg_max_retries d) 100 ow_nw 3 dumps loads wt_2 (wire_init h) with
          | Some (ms1, x1), Some (ms2, x2) => Some (d, s0, h, (ms1, x1), (ms2, x2))
          | _, _ => None end
      | Err _ => None end
  | Err _ => None end.
Definition runs_b (x : wire) (st : nat) : bool := match xproc x st with Some (_, Pool.Running) => true | _ => false end.
Definition wt_check (d : dgraph) (ms1 : list lmove) (x1 : wire) (ms2 : list lmove) (x2 : wire) : bool :=
  enough_b d 100 && forallb (fun m => match m with LDo (XRaise _ _) => false | _ => true end) ms1 && existsb (fun m => match m with LDo (XNet 0 Net.KLateS) => true | _ => false end) ms1 &&
  runs_b x1 0 && runs_b x1 1 && match x_todo x1 with [] => true | _ => false end && negb (sv_stop (x_sv x1)) && negb (Net.s_open (Net.n_link (x_net x1) 0)) && negb (Net.s_open (Net.n_link (x_net x1) 1)) &&
  match Net.n_eq (x_net x1) with [(0%nat, Net.StreamClosedErr); (1%nat, Net.StreamClosedErr)] => true | _ => false end &&
  match Net.n_eq (x_net x2) with [(0%nat, Net.AttrErr)] => true | _ => false end.
Lemma wt_checked : match wt_run [P_WholeCE.wc 2 5] with Some (d, s0, h, (ms1, x1), (ms2, x2)) => wt_check d ms1 x1 ms2 x2 | None => false end = true.
Proof. vm_compute. reflexivity. Qed.
Definition wt_claim (ts : list task) (d : dgraph) (s0 : sched) (h : whole) (ms1 : list lmove) (x1 : wire) : Prop :=
  let dumps := dumpl (pblocks d) in let loads := loadl (pblocks d) in
  setup ts idl idl d s0 100 no_init ow_nw 3 h /\ P_Net.lossless dumps loads /\
  truns (dg_up idl idl d) (dg_down idl idl d) (dg_max_retries d) 100 no_init ow_nw 3 dumps loads (wire_init h) ms1 x1 /\
  late 0 ms1 /\ (forall st e, ~ In (LDo (XRaise st e)) ms1) /\ (exists t u, xproc x1 0 = Some (t, Pool.Running) /\ xproc x1 1 = Some (u, Pool.Running)) /\
  x_todo x1 = [] /\ sv_stop (x_sv x1) = false /\ Net.s_open (Net.n_link (x_net x1) 0) = false /\ Net.s_open (Net.n_link (x_net x1) 1) = false /\
  Net.n_eq (x_net x1) = [(0%nat, Net.StreamClosedErr); (1%nat, Net.StreamClosedErr)].
Definition wt_other (ts : list task) (d : dgraph) (s0 : sched) (h : whole) (ms2 : list lmove) (x2 : wire) : Prop :=
  let dumps := dumpl (pblocks d) in let loads := loadl (pblocks d) in
  setup ts idl idl d s0 100 no_init ow_nw 3 h /\ P_Net.lossless dumps loads /\
  lruns (dg_up idl idl d) (dg_down idl idl d) (dg_max_retries d) 100 no_init ow_nw 3 dumps loads (wire_init h) ms2 x2 /\ In (0%nat, Net.AttrErr) (Net.n_eq (x_net x2)).
Lemma wt_from ts d s0 h ms1 x1 ms2 x2 : pipe_ok ts -> edges_ok ts -> wt_run ts = Some (d, s0, h, (ms1, x1), (ms2, x2)) -> wt_check d ms1 x1 ms2 x2 = true ->
  wt_claim ts d s0 h ms1 x1 /\ wt_other ts d s0 h ms2 x2.
Proof.
  intros PO EO E Q. unfold wt_run in E. destruct (sched_init ts) as [[d' s']|] eqn:Es; [|discriminate E]. destruct (whole_init _ _ _ _ _) as [h'|] eqn:Ei; [|discriminate E].
  cbv zeta in E. destruct (tplay _ _ _ _ _ _ _ _ _ wt_1 _) as [[n1 y1]|] eqn:E1; [|discriminate E]. destruct (lplay _ _ _ _ _ _ _ _ wt_2 _) as [[n2 y2]|] eqn:E2; [|discriminate E].
  apply some_inj in E. repeat (apply pair_equal_spec in E; let F := fresh in destruct E as [E F]; try (apply pair_equal_spec in F; destruct F)). subst.
  apply lplay_runs in E2. eapply tplay_runs with (ms0 := []) in E1; [|constructor|intros ? []]. cbn [app] in E1. unfold wt_check in Q.
  apply andb_prop in Q. destruct Q as [Q Q11]. apply andb_prop in Q. destruct Q as [Q Q10]. apply andb_prop in Q. destruct Q as [Q Q9]. apply andb_prop in Q. destruct Q as [Q Q8]. apply andb_prop in Q. destruct Q as [Q Q7].
  apply andb_prop in Q. destruct Q as [Q Q6]. apply andb_prop in Q. destruct Q as [Q Q5]. apply andb_prop in Q. destruct Q as [Q Q4]. apply andb_prop in Q. destruct Q as [Q Q3]. apply andb_prop in Q. destruct Q as [Q1 Q2].
  assert (SE : setup ts idl idl d s0 100 no_init ow_nw 3 h) by (eapply own_setup; eauto; intros t; unfold ow_nw; lia). split.
  - unfold wt_claim. cbv zeta. split; [exact SE|]. split; [apply loadl_lossless|]. split; [exact E1|].
    split. { apply existsb_exists in Q3. destruct Q3 as [m [Hm Q3]]. destruct m as [[[|st] []| | | | | | | |]|]; try discriminate Q3. exact Hm. }
    split. { intros st e Hi. rewrite forallb_forall in Q2. apply Q2 in Hi. discriminate Hi. }
    split. { unfold runs_b in Q4, Q5. destruct (xproc x1 0) as [[t []]|]; try discriminate Q4. destruct (xproc x1 1) as [[u []]|]; try discriminate Q5. eauto. }
    split. { destruct (x_todo x1); [reflexivity|discriminate Q6]. }
    apply Bool.negb_true_iff in Q7, Q8, Q9. do 3 (split; [assumption|]).
    destruct (Net.n_eq (x_net x1)) as [|[[|c] []] [|[[|[|e]] []] [|]]]; try discriminate Q10. reflexivity.
  - unfold wt_other. cbv zeta. split; [exact SE|]. split; [apply loadl_lossless|]. split; [exact E2|].
    destruct (Net.n_eq (x_net x2)) as [|[[|c] []] [|]]; try discriminate Q11. left. reflexivity.
Qed.
Example C95_example : exists d s0 h ms x, wt_claim [P_WholeCE.wc 2 5] d s0 h ms x.
Proof.
  pose proof wt_checked as Q. destruct (wt_run _) as [[[[[d s0] h] [ms1 x1]] [ms2 x2]]|] eqn:E; [|discriminate Q].
  exists d, s0, h, ms1, x1. apply (wt_from _ _ _ _ _ _ _ _ wl_ok P_WholeCE.wc2_edges E Q).
Qed.
Print Assumptions C95_example.
(* Of all runs in which connections are lost (C92) this is not true: the condition on failing writes is needed. *)
Theorem C95_all_arrive_refuted : exists ts d s0 h0 dumps loads ms x,
  setup ts idl idl d s0 100 no_init ow_nw 3 h0 /\ P_Net.lossless dumps loads /\
  lruns (dg_up idl idl d) (dg_down idl idl d) (dg_max_retries d) 100 no_init ow_nw 3 dumps loads (wire_init h0) ms x /\
  exists n, Net.nstep dumps loads Net.NGet (x_net x) = Some n /\ exists c, Net.n_rets n = Net.n_rets (x_net x) ++ [Net.SRaised c Net.AttrErr].
Proof.
  pose proof wt_checked as Q. destruct (wt_run _) as [[[[[d s0] h] [ms1 x1]] [ms2 x2]]|] eqn:E; [|discriminate Q].
  pose proof (wt_from _ _ _ _ _ _ _ _ wl_ok P_WholeCE.wc2_edges E Q) as [_ H]. unfold wt_check in Q. apply andb_prop in Q. destruct Q as [_ Q].
  exists [P_WholeCE.wc 2 5], d, s0, h, (dumpl (pblocks d)), (loadl (pblocks d)), ms2, x2. destruct H as [H1 [H2 [H3 H4]]]. split; [exact H1|]. split; [exact H2|]. split; [exact H3|].
  cbn [Net.nstep]. destruct (Net.n_eq (x_net x2)) as [|[[|c] []] [|]]; try discriminate Q. eexists. split; [reflexivity|]. exists O. reflexivity.
Qed.
Print Assumptions C95_all_arrive_refuted.

(* C34: the failure of a block is reported twice and counted once. *)
From Coq Require Import Lia.
From Verif Require Import SchedProps SchedExec DGFacts2 PipeRun P_SchedCE P_Sched SerialFacts P_Conv P_Serial ServerFacts ServerSteps
  ServerIdle P_Server P_Server2 P_ServerCE P_Outcome P_Notify P_Gone PoolAll P_PoolFail P_SysEx P_SysCE.
From Verif Require Client Pool P_Pool P_Whole P_WholeEx P_WholeCE TopFair.
From Verif Require Import Sys SysFacts SysMeasure SysTrace WholeFair WholeSrv WholeSim WholeAny WholeAll WholeRun P_WholeAny WholeOwn P_WholeOwn P_Cause.
Open Scope Z_scope.

(* A client that has block pb and no request open reports its failure, and releases it later; in
   between the server hears from other clients, or of disconnects, or nothing, in any order.  The report counts as
   one failed attempt of this block and changes nothing else that the scheduler is told; the release changes nothing. *)
Theorem C34_counts_one : forall tasks ord ordt d s0 fuel init stopped ins x i st pb w ins' y j stat,
  let up := dg_up ord ordt d in let down := dg_down ord ordt d in let maxr := dg_max_retries d in
  server_run_to tasks ord ordt d s0 fuel init stopped ins x -> sv_stop x = false ->
  held (hist (sv_tr x)) (pb_block pb) -> last_sent (sv_tr x) (pb_block pb) = Some st ->
  times (is_req st) (sv_tr x) = times (is_ans st) (sv_tr x) ->
  fair tasks i -> i_get i = GotMessage st (MBlockFailed pb w) ->
  Forall (fair tasks) ins' -> (forall k, In k ins' -> forall m, i_get k <> GotMessage st m) ->
  event_loop up down maxr fuel init (i :: ins') x = Ok y ->
  i_get j = GotMessage st (MRelease (PB (pb_block pb) stat)) ->
  exists z y', handle_messages up down maxr fuel init i x = Ok z /\
    hist (sv_tr z) = EvRel (PB (pb_block pb) FAILED) :: hist (sv_tr x) /\
    handle_messages up down maxr fuel init j y = Ok y' /\ ignored y y'.
Proof.
  intros tasks ord ordt d s0 fuel init stopped ins x i st pb w ins' y j stat up down maxr R Sx Hb Hs Rq F G Fi N Ey Gj.
  destruct (a_fail_msg _ _ _ _ _ _ _ _ _ _ R i st pb w G F Hb Hs) as [z [Ez [Hz [Bz [Pz Az]]]]]. fold up down maxr in Ez.
  assert (Er : times (is_req st) (sv_tr y) = times (is_req st) (sv_tr x)).
  { eapply loop_req; [exact Ey|]. intros k [<-|Hk] t; [rewrite G; discriminate|apply N; auto]. }
  assert (Ez' : times (is_req st) (sv_tr z) = times (is_req st) (sv_tr x)).
  { eapply msgs_req; [exact Ez|]. intros t. rewrite G. discriminate. }
  assert (S : ServerSteps.steps up down maxr fuel init any_r any_a z y).
  { cbn [event_loop] in Ey. rewrite Sx in Ey. unfold iteration in Ey. rewrite Ez in Ey. cbn [bind] in Ey.
    destruct (check_lost _ _ _ _ _ _ _) as [z1|] eqn:E1; [|discriminate]. cbn [bind] in Ey.
    destruct (i_health i); [|discriminate]. cbn [bind] in Ey.
    eapply st_trans; [eapply lost_steps; exact E1|]. eapply st_trans; [|eapply loop_steps; exact Ey].
    destruct (i_tick i); [apply st_one, u_check|constructor]. }
  destruct (steps_book _ _ _ _ _ _ _ _ _ S) as [l [Tl Hbk]].
  assert (Nl : forall t, ~ In (ARecv st (MAcquire t)) l).
  { intros t Ht. apply in_split in Ht. destruct Ht as [l1 [l2 ->]]. rewrite Tl in Er. rewrite !times_app, times_cons in Er. cbn [is_req] in Er.
    rewrite Nat.eqb_refl in Er. cbn [bit] in Er. lia. }
  assert (Nw : ~ ServerSteps.waits st (sv_pend z)).
  { rewrite Pz, nwait_waits. pose proof (a_acct _ _ _ _ _ _ _ _ _ _ R st) as A. lia. }
  destruct (steps_sends _ _ _ _ _ _ _ _ _ S st Az Nw) as [l' [Tl' Hs']].
  assert (l' = l) by (apply (app_inv_tail (sv_tr z)); rewrite <- Tl, <- Tl'; reflexivity). subst l'. destruct (Hs' Nl) as [_ [_ Ns]].
  destruct (C31_ignored up down maxr fuel init j st (MRelease (PB (pb_block pb) stat)) (PB (pb_block pb) stat)
    (add_tr y [ARecv st (MRelease (PB (pb_block pb) stat))])) as [y' [Ey' I]]; [left; auto| |].
  { cbn [add_tr sv_book pb_block]. intros lg Hlg El. destruct (Hbk _ Hlg) as [Hz'|[Hz' _]]; cbn [fst snd] in *.
    - rewrite Bz in Hz'. apply in_bdel in Hz'. destruct Hz' as [_ N']. apply N'. reflexivity.
    - rewrite El in Hz'. apply (Ns _ Hz'). }
  exists z, y'. split; [exact Ez|]. split; [exact Hz|]. split; [unfold handle_messages; rewrite Gj; exact Ey'|].
  destruct I as [I1 [I2 [I3 [I4 I5]]]]. unfold ignored. rewrite I1, I2, I3, I4, I5. cbn [add_tr sv_s sv_book sv_pend sv_started sv_tr]. repeat split.
Qed.
Print Assumptions C34_counts_one.

Lemma nwait_is st p : nwait st p = SysFacts.waits p st.
Proof.
  unfold nwait, SysFacts.waits. rewrite flat_map_concat_map. induction (concat (map snd p)) as [|a l IH]; auto. cbn [filter count_occ].
  destruct (Nat.eqb_spec st a), (Nat.eq_dec a st); subst; cbn [length]; congruence.
Qed.
(* A client of daisy that has something to say has no request open, in every run of server and workers. *)
Theorem C34_one_request : forall tasks ord ordt d s0 fuel init nw mbf h0 ms h st,
  setup tasks ord ordt d s0 fuel init nw mbf h0 ->
  aruns (dg_up ord ordt d) (dg_down ord ordt d) (dg_max_retries d) fuel init nw mbf h0 ms h ->
  w_out (h_w h st) <> [] -> times (is_req st) (sv_tr (h_sv h)) = times (is_ans st) (sv_tr (h_sv h)).
Proof.
  intros tasks ord ordt d s0 fuel init nw mbf h0 ms h st SE R O.
  destruct (al_runs _ _ _ _ _ _ _ _ _ _ SE _ _ R st) as [W _].
  destruct (C65_server _ _ _ _ _ _ _ _ _ _ _ _ SE R) as [S _]. rewrite (a_acct _ _ _ _ _ _ _ _ _ _ S st).
  assert (E : SysFacts.waits (sv_pend (h_sv h)) st = 0%nat) by (destruct (SysFacts.waits (sv_pend (h_sv h)) st) as [|n]; auto; exfalso; apply O, W; discriminate).
  rewrite nwait_is, E. lia.
Qed.
Print Assumptions C34_one_request.

(* Two clients have a block each; the first reports a failure; a third one asks and is given the block again; the release
   of the first comes then. *)
Definition rel_1 (b : block) : input := an_input (GotMessage 1 (MRelease (PB b FAILED))) [] false no_check.
Definition ask_3 : input := an_input (GotMessage 3 (MAcquire 1)) [] false no_check.
Theorem C34_example : exists d s0 fuel ins x b y y',
  let up := dg_up idl idl d in let down := dg_down idl idl d in let maxr := dg_max_retries d in
  server_run_to ex_row idl idl d s0 fuel no_init false ins x /\ sv_stop x = false /\
  held (hist (sv_tr x)) b /\ last_sent (sv_tr x) b = Some 1%nat /\
  times (is_req 1) (sv_tr x) = times (is_ans 1) (sv_tr x) /\ fair ex_row (fail_1 b) /\ fair ex_row ask_3 /\
  event_loop up down maxr fuel no_init [fail_1 b; ask_3] x = Ok y /\ handle_messages up down maxr fuel no_init (rel_1 b) y = Ok y' /\
  held (hist (sv_tr y')) b /\ last_sent (sv_tr y') b = Some 3%nat /\ n_failed (hist (sv_tr y')) b = 1.
Proof.
  destruct (serve_run ex_row 100 no_check [P_ServerCE.Ask 1 1; P_ServerCE.Ask 1 2]
    (fun d x => negb (sv_stop x) && Nat.eqb (times (is_req 1) (sv_tr x)) (times (is_ans 1) (sv_tr x)) && some_block (fun b =>
       (n_released (hist (sv_tr x)) b <? n_handed (hist (sv_tr x)) b) &&
       match last_sent (sv_tr x) b with Some s => Nat.eqb s 1 | _ => false end &&
       match event_loop (dg_up idl idl d) (dg_down idl idl d) (dg_max_retries d) 100 no_init [fail_1 b; ask_3] x with
       | Ok y => match handle_messages (dg_up idl idl d) (dg_down idl idl d) (dg_max_retries d) 100 no_init (rel_1 b) y with
                 | Ok y' => (n_released (hist (sv_tr y')) b <? n_handed (hist (sv_tr y')) b) &&
                            match last_sent (sv_tr y') b with Some s => Nat.eqb s 3 | _ => false end && (n_failed (hist (sv_tr y')) b =? 1)
                 | Err _ => false end
       | Err _ => false end) d)
    ex_row_ok ex_row_edges) as [d [s0 [ins [x [R H]]]]].
  { vm_compute. reflexivity. }
  apply andb_prop in H. destruct H as [S H]. apply andb_prop in S. destruct S as [S T]. apply negb_true_iff in S. apply Nat.eqb_eq in T.
  apply existsb_exists in H. destruct H as [b [Hb H]].
  apply andb_prop in H. destruct H as [H E]. apply andb_prop in H. destruct H as [H1 L]. apply Z.ltb_lt in H1.
  destruct (last_sent (sv_tr x) b) as [s|] eqn:La; [|discriminate]. apply Nat.eqb_eq in L. subst s.
  destruct (event_loop _ _ _ _ _ _ _) as [y|] eqn:Ey in E; [|discriminate].
  destruct (handle_messages _ _ _ _ _ _ _) as [y'|] eqn:Ey' in E; [|discriminate].
  apply andb_prop in E. destruct E as [E E3]. apply andb_prop in E. destruct E as [E1 E2]. apply Z.ltb_lt in E1. apply Z.eqb_eq in E3.
  destruct (last_sent (sv_tr y') b) as [s|] eqn:Lb; [|discriminate]. apply Nat.eqb_eq in E2. subst s.
  exists d, s0, 100%nat, ins, x, b, y, y'. cbv zeta. split; [exact R|]. split; auto. split; auto. split; auto. split; auto. split.
  { split; [|reflexivity]. cbn. destruct (pipe_fresh ex_row d s0 ex_row_ok (sr_init _ _ _ _ _ _ _ _ _ _ R)) as [_ [DK _]].
    apply (in_pblocks ex_row ex_row_ok d DK). exact Hb. }
  split; [split; [exists (ex_r 1 []); split; [left|]; reflexivity|reflexivity]|].
  split; [exact Ey|]. split; [exact Ey'|]. auto.
Qed.
Print Assumptions C34_example.

(* Calls of run_blockwise in which connections are lost (for C96), computed. *)
From Coq Require Import Arith Lia.
From Verif Require Import SchedProps SchedExec DGFacts2 PipeRun P_SchedCE P_Sched P_Apart SerialFacts P_Conv P_Serial ServerFacts ServerSteps
  ServerIdle P_Server P_Server2 P_ServerCE P_Outcome P_Notify PoolAll P_PoolFail P_SysEx P_SysCE.
From Verif Require Client Pool P_Pool P_Whole P_WholeEx P_WholeCE P_Cause Tcp Net NetFacts P_Net P_NetErr WireNet.
From Verif Require Import Sys SysFacts SysMeasure SysTrace WholeFair WholeSrv WholeSim WholeAny WholeAll WholeRun P_WholeAny WholeOwn P_WholeOwn P_WholeOwnEx
  TopInit Top P_Top Wire WireSim P_Wire P_WireEx P_WireOwn WireTop P_WireTop WireLoss P_WireLoss P_WireLossEx WireIntact WireTail P_WireTail LossTop P_LossTop.
Open Scope Z_scope.

(* One task of two blocks, two workers.  Process 0 asks for a block; half of the answer has arrived when the connection is lost and the
   write fails.  The server notices it.  Process 1 gets a block, does it, gets the other one ... *)
Definition wu_1 : list ldeed := map GDo (connect 0 ++ asks 0 ++ net 0 [Net.KFlushS true; Net.KArriveC 5]) ++ [GBreak 0] ++
  map GDo ([DNet 0 Net.KLateS; DNet 0 Net.KFailS; DServe [0%nat]] ++ connect 1 ++ P_WireLossEx.takes 1 ++ P_WireLossEx.does 1 ++ P_WireLossEx.takes 1).
(* ... and does it; or it raises an exception. *)
Definition wu_2 : list ldeed := map GDo (P_WireLossEx.does 1).
Definition wu_3 : list ldeed := map GDo [DRaise 1 ValueError].
(* Without the condition on failing writes: the run of C95_all_arrive_refuted. *)
Definition wu_run (ts : list task) : option (dgraph * sched * whole * (list lmove * wire) * (list lmove * wire) * (list lmove * wire) * (list lmove * wire)) :=
  match sched_init ts with
  | Ok (d, s0) =>
      match whole_init no_init ow_nw 3 (map t_id ts) s0 with
      | Ok h => let dumps := dumpl (pblocks d) in let loads := loadl (pblocks d) in
          let play cs := tplay (dg_up idl idl d) (dg_down idl idl d) (dg_max_retries d) 100 ow_nw 3 dumps loads [] cs (wire_init h) in
          match play wu_1, play (wu_1 ++ wu_2), play (wu_1 ++ wu_3), lplay (dg_up idl idl d) (dg_down idl idl d) (dg_max_retries d) 100 ow_nw 3 dumps loads wt_2 (wire_init h) with
          | Some a, Some b, Some c, Some e => Some (d, s0, h, a, b, c, e)
          | _, _, _, _ => None end
      | Err _ => None end
  | Err _ => None end.
Definition wu_check (d : dgraph) (ms1 : list lmove) (x1 : wire) (ms2 : list lmove) (x2 : wire) (ms3 : list lmove) (x3 : wire) (x4 : wire) : bool :=
  enough_b d 100 && few_b d && existsb (fun m => match m with LDo (XNet 0 Net.KLateS) => true | _ => false end) ms2 &&
  match pblocks d with
  | [a; b] => (n_failed (hist (sv_tr (x_sv x2))) a =? 1) && succ_b (hist (sv_tr (x_sv x2))) a && succ_b (hist (sv_tr (x_sv x2))) b
  | _ => false end &&
  runs_b x2 0 && match x_todo x2 with [] => true | _ => false end && sv_stop (x_sv x2) && result (sv_s (x_sv x2)) &&
  existsb (fun m => match m with LDo (XRaise 1 ValueError) => true | _ => false end) ms3 && wx_ready d x3 [] && wl_leaves d x3 (waits []) &&
  match x_todo x1 with [] => true | _ => false end && negb (result (sv_s (x_sv x1))) &&
  match x_todo x4, Net.n_eq (x_net x4) with [], [(0%nat, Net.AttrErr)] => negb (sv_stop (x_sv x4)) | _, _ => false end.
Lemma wu_checked : match wu_run [P_WholeCE.wc 2 5] with Some (d, s0, h, (ms1, x1), (ms2, x2), (ms3, x3), (ms4, x4)) => wu_check d ms1 x1 ms2 x2 ms3 x3 x4 | None => false end = true.
Proof. vm_compute. reflexivity. Qed.
Definition wu_claim (ts : list task) (d : dgraph) (s0 : sched) (ms1 : list lmove) (x1 : wire) (ms2 : list lmove) (x2 : wire) (ms3 : list lmove) (x3 : wire) (a b : block) : Prop :=
  let dumps := dumpl (pblocks d) in let loads := loadl (pblocks d) in
  let lossy := run_lossy true ts idl idl 100 no_init ow_nw ts d s0 dumps loads in
  call ts idl idl ts d 100 ow_nw /\ P_Net.lossless dumps loads /\
  (* it returns True though a connection was lost, and the process at its other end still runs *)
  (exists ps, lossy (map LTMove ms2) (Some (XTop x2 false)) (XEnded (Returned true)) ps) /\ late 0 ms2 /\ apart_failures ts idl idl d (hist (sv_tr (x_sv x2))) /\
  pblocks d = [a; b] /\ n_failed (hist (sv_tr (x_sv x2))) a = 1 /\ succeeded (hist (sv_tr (x_sv x2))) a /\ succeeded (hist (sv_tr (x_sv x2))) b /\
  (exists t, xproc x2 0 = Some (t, Pool.Running)) /\
  (* it raises what a worker raised *)
  (exists ps, lossy (map LTMove ms3) (Some (XTop x3 false)) (XEnded (Raised ValueError)) ps) /\ In (LDo (XRaise 1 ValueError)) ms3 /\
  (* it returns False if it is interrupted before *)
  exists ps, lossy (map LTMove ms1 ++ [LTStop]) (Some (XTop x1 true)) (XEnded (Returned false)) ps.
Definition wu_other (ts : list task) (d : dgraph) (s0 : sched) (ms4 : list lmove) (x4 : wire) : Prop :=
  let dumps := dumpl (pblocks d) in let loads := loadl (pblocks d) in
  call ts idl idl ts d 100 ow_nw /\ P_Net.lossless dumps loads /\
  exists ps, run_lossy false ts idl idl 100 no_init ow_nw ts d s0 dumps loads (map LTMove ms4) (Some (XTop x4 false)) (XBroke Net.AttrErr) ps.
Lemma wu_from ts k d s0 h ms1 x1 ms2 x2 ms3 x3 ms4 x4 : pipe_ok ts -> edges_ok ts -> collect_tasks k ts = Ok ts ->
  wu_run ts = Some (d, s0, h, (ms1, x1), (ms2, x2), (ms3, x3), (ms4, x4)) -> wu_check d ms1 x1 ms2 x2 ms3 x3 x4 = true ->
  (exists a b, wu_claim ts d s0 ms1 x1 ms2 x2 ms3 x3 a b) /\ wu_other ts d s0 ms4 x4.
Proof.
  intros PO EO Ec E Q. unfold wu_run in E. destruct (sched_init ts) as [[d' s']|] eqn:Es; [|discriminate E]. destruct (whole_init _ _ _ _ _) as [h'|] eqn:Ei; [|discriminate E].
  cbv zeta in E. destruct (tplay _ _ _ _ _ _ _ _ _ wu_1 _) as [[n1 y1]|] eqn:E1; [|discriminate E]. destruct (tplay _ _ _ _ _ _ _ _ _ (wu_1 ++ wu_2) _) as [[n2 y2]|] eqn:E2; [|discriminate E].
  destruct (tplay _ _ _ _ _ _ _ _ _ (wu_1 ++ wu_3) _) as [[n3 y3]|] eqn:E3; [|discriminate E]. destruct (lplay _ _ _ _ _ _ _ _ wt_2 _) as [[n4 y4]|] eqn:E4; [|discriminate E].
  apply some_inj in E. repeat (apply pair_equal_spec in E; let F := fresh in destruct E as [E F]; try (apply pair_equal_spec in F; destruct F)). subst.
  apply lplay_runs in E4. eapply tplay_runs with (ms0 := []) in E1; [|constructor|intros ? []]. eapply tplay_runs with (ms0 := []) in E2; [|constructor|intros ? []].
  eapply tplay_runs with (ms0 := []) in E3; [|constructor|intros ? []]. cbn [app] in E1, E2, E3. unfold wu_check in Q.
  apply andb_prop in Q. destruct Q as [Q Q14]. apply andb_prop in Q. destruct Q as [Q Q13]. apply andb_prop in Q. destruct Q as [Q Q12]. apply andb_prop in Q. destruct Q as [Q Q11].
  apply andb_prop in Q. destruct Q as [Q Q10]. apply andb_prop in Q. destruct Q as [Q Q9]. apply andb_prop in Q. destruct Q as [Q Q8]. apply andb_prop in Q. destruct Q as [Q Q7].
  apply andb_prop in Q. destruct Q as [Q Q6]. apply andb_prop in Q. destruct Q as [Q Q5]. apply andb_prop in Q. destruct Q as [Q Q4]. apply andb_prop in Q. destruct Q as [Q Q3]. apply andb_prop in Q. destruct Q as [Q1 Q2].
  assert (SE : setup ts idl idl d s0 100 no_init ow_nw 3 h) by (eapply own_setup; eauto; intros t; unfold ow_nw; lia).
  assert (PR : pipe_run ts idl idl d s0 100 [] s0) by (constructor; auto using idl_order; constructor).
  assert (CA : call ts idl idl ts d 100 ow_nw) by (destruct SE; constructor; auto).
  assert (T2 : x_todo x2 = []) by (destruct (x_todo x2); [reflexivity|discriminate Q6]).
  assert (T1 : x_todo x1 = []) by (destruct (x_todo x1); [reflexivity|discriminate Q12]).
  split.
  - destruct (pblocks d) as [|a [|b [|]]] eqn:Eb; try discriminate Q4. exists a, b. unfold wu_claim. cbv zeta.
    apply andb_prop in Q4. destruct Q4 as [Q4 Q4b]. apply andb_prop in Q4. destruct Q4 as [Q4 Q4a]. rewrite Eb in *.
    split; [exact CA|]. split; [apply loadl_lossless|].
    split. { exists (Pool.pools_stop (x_ps x2)). assert (V : Returned true = Returned (result (sv_s (x_sv x2)))) by (rewrite Q8; reflexivity). rewrite V. eapply rl_run; eauto; [apply ltruns_lift_tail; exact E2|]. apply (xe_stop _ _ _ _ _ _ _ _ _ (XTop x2 false)); auto. }
    split. { apply existsb_exists in Q3. destruct Q3 as [m [Hm Q3]]. destruct m as [[[|st] []| | | | | | | |]|]; try discriminate Q3. exact Hm. }
    split. { destruct (C92_server _ _ _ _ _ _ _ _ _ _ _ _ SE (loadl_lossless _) _ _ (truns_lruns _ _ _ _ _ _ _ _ _ _ _ _ E2)) as [SR _].
      apply (few_apart _ _ _ _ _ _ _ _ (a_pipe _ _ _ _ _ _ _ _ _ _ SR) (se_inverse _ _ _ _ _ _ _ _ _ _ SE) (se_fuel _ _ _ _ _ _ _ _ _ _ SE)). eapply own_few; eauto. }
    split; [reflexivity|]. split; [apply Z.eqb_eq; exact Q4|]. split; [apply succ_b_true; exact Q4a|]. split; [apply succ_b_true; exact Q4b|].
    split. { unfold runs_b in Q5. destruct (xproc x2 0) as [[t []]|]; try discriminate Q5. eauto. }
    split. { apply wl_ready_ok with (dumps := dumpl [a; b]) (loads := loadl [a; b]) in Q10. destruct Q10 as [H1 [H2 [H3 [H4 [n [r [H5 [H6 H7]]]]]]]]. apply wl_leaves_ok in Q11.
      eexists. eapply rl_run; eauto; [apply ltruns_lift_tail; exact E3|]. apply (xe_raise _ _ _ _ _ _ _ _ _ (XTop x3 false) (waits []) n r ValueError []); auto. }
    split. { apply existsb_exists in Q9. destruct Q9 as [m [Hm Q9]]. destruct m as [[| | | | | |[|[|st]] []| |]|]; try discriminate Q9. exact Hm. }
    exists (Pool.pools_stop (x_ps x1)). apply Bool.negb_true_iff in Q13. assert (V : Returned false = Returned (result (sv_s (x_sv x1)))) by (rewrite Q13; reflexivity). rewrite V. eapply rl_run; eauto.
    + eapply ltruns_step; [apply ltruns_lift_tail; exact E1|apply (lts_stop _ _ _ _ _ _ _ _ _ (XTop x1 false))|].
      intros _ st. unfold lmoves. rewrite flat_map_app. cbn [flat_map]. rewrite app_nil_r. change (flat_map _ (map LTMove ms1)) with (lmoves (map LTMove ms1)).
      rewrite lmoves_lift. cbn [xt_x]. eapply truns_late; exact E1.
    + apply (xe_stop _ _ _ _ _ _ _ _ _ (XTop x1 true)); auto.
  - unfold wu_other. cbv zeta. split; [exact CA|]. split; [apply loadl_lossless|].
    destruct (x_todo x4) eqn:T4; [|discriminate Q14]. destruct (Net.n_eq (x_net x4)) as [|[[|c] []] [|]] eqn:E5; try discriminate Q14. apply Bool.negb_true_iff in Q14.
    assert (G : exists n, Net.nstep (dumpl (pblocks d)) (loadl (pblocks d)) Net.NGet (x_net x4) = Some n /\ Net.n_rets n = Net.n_rets (x_net x4) ++ [Net.SRaised 0 Net.AttrErr]).
    { cbn [Net.nstep]. rewrite E5. eexists. split; reflexivity. }
    destruct G as [n [G1 G2]].
    eexists. eapply rl_run; eauto; [apply ltruns_lift; exact E4|]. apply (xe_net _ _ _ _ _ _ _ _ _ (XTop x4 false) n 0 Net.AttrErr); auto.
Qed.
Lemma wu_collect : collect_tasks 9 [P_WholeCE.wc 2 5] = Ok [P_WholeCE.wc 2 5].
Proof. reflexivity. Qed.
Example C96_example : exists d s0 ms1 x1 ms2 x2 ms3 x3 a b, wu_claim [P_WholeCE.wc 2 5] d s0 ms1 x1 ms2 x2 ms3 x3 a b.
Proof.
  pose proof wu_checked as Q. destruct (wu_run _) as [[[[[[[d s0] h] [ms1 x1]] [ms2 x2]] [ms3 x3]] [ms4 x4]]|] eqn:E; [|discriminate Q].
  exists d, s0, ms1, x1, ms2, x2, ms3, x3. apply (wu_from _ _ _ _ _ _ _ _ _ _ _ _ _ wl_ok P_WholeCE.wc2_edges wu_collect E Q).
Qed.
Print Assumptions C96_example.
(* C96_never_broke needs the condition on failing writes. *)
Theorem C96_all_arrive_refuted : exists ts d s0 dumps loads ms y ps, call ts idl idl ts d 100 ow_nw /\ P_Net.lossless dumps loads /\
  run_lossy false ts idl idl 100 no_init ow_nw ts d s0 dumps loads ms (Some y) (XBroke Net.AttrErr) ps.
Proof.
  pose proof wu_checked as Q. destruct (wu_run _) as [[[[[[[d s0] h] [ms1 x1]] [ms2 x2]] [ms3 x3]] [ms4 x4]]|] eqn:E; [|discriminate Q].
  destruct (wu_from _ _ _ _ _ _ _ _ _ _ _ _ _ wl_ok P_WholeCE.wc2_edges wu_collect E Q) as [_ [CA [L [ps R]]]].
  exists [P_WholeCE.wc 2 5], d, s0, (dumpl (pblocks d)), (loadl (pblocks d)). do 2 eexists. exists ps. split; [exact CA|split; [exact L|exact R]].
Qed.
Print Assumptions C96_all_arrive_refuted.

(* C94: a run in which a connection is lost, and other processes work on with theirs. *)
From Coq Require Import Arith Lia.
From Verif Require Import SchedProps SchedExec DGFacts2 PipeRun P_SchedCE P_Sched SerialFacts P_Conv P_Serial ServerFacts ServerSteps
  ServerIdle P_Server P_Server2 P_ServerCE P_Outcome P_Notify PoolAll P_PoolFail P_SysEx P_SysCE.
From Verif Require Client Pool P_Pool P_Whole P_WholeEx P_WholeCE P_Cause Tcp Net NetFacts P_Net P_NetErr WireNet.
From Verif Require Import Sys SysFacts SysMeasure SysTrace WholeFair WholeSrv WholeSim WholeAny WholeAll WholeRun P_WholeAny WholeOwn P_WholeOwn P_WholeOwnEx
  Wire WireSim P_Wire P_WireEx P_WireOwn WireLoss P_WireLoss P_WireLossEx WireIntact P_WireIntact.
Open Scope Z_scope.

(* Two tasks of four blocks, two workers each, as in P_WholeOwnEx.  Process 0 gets a block of the first task and process 1 another one; the
   network loses the connection of process 0, the server notices, and process 1 does its block and two more. *)
Definition wi_1 : list ldeed := map GDo (connect 0 ++ takes 0 ++ connect 1 ++ takes 1) ++ [GBreak 0] ++
  map GDo ([DNet 0 Net.KFailS; DServe [0%nat]] ++ does 1 ++ takes 1 ++ does 1 ++ takes 1 ++ does 1 ++ takes 1).
(* It does the block process 0 is still at work on; processes 2 and 3 work on blocks of the second task. *)
Definition wi_2 : list ldeed := map GDo (does 1 ++ connect 2 ++ takes 2 ++ connect 3 ++ takes 3).
Definition wi_run (ts : list task) : option (dgraph * sched * whole * (list lmove * wire) * (list lmove * wire)) :=
  match sched_init ts with
  | Ok (d, s0) =>
      match whole_init no_init ow_nw 3 (map t_id ts) s0 with
      | Ok h => let play := lplay (dg_up idl idl d) (dg_down idl idl d) (dg_max_retries d) 100 ow_nw 3 (dumpl (pblocks d)) (loadl (pblocks d)) in
          match play wi_1 (wire_init h) with
          | Some (ms1, x1) => match play wi_2 x1 with Some (ms2, x2) => Some (d, s0, h, (ms1, x1), (ms2, x2)) | None => None end
          | None => None end
      | Err _ => None end
  | Err _ => None end.
Definition lost (x : wire) (st : nat) : bool := Net.broken (Net.n_link (x_net x) st).
(* no block failed more often than it may *)
Definition mild_b (maxr : nat -> Z) (h : history) : bool :=
  forallb (fun e => match e with EvRel pb => n_failed h (pb_block pb) <=? maxr (b_task (pb_block pb)) | _ => true end) h.
Lemma mild_ok maxr h : mild_b maxr h = true -> forall b, ~ perm_failed maxr h b.
Proof.
  unfold mild_b. intros H b [P1 P2]. rewrite forallb_forall in H. pose proof P1 as P3. unfold n_failed in P3. apply count_pos in P3. destruct P3 as [e [He Q]].
  destruct e as [| | |pb]; try discriminate Q. apply andb_prop in Q. destruct Q as [Q _]. unfold is_block in Q. destruct (block_dec (pb_block pb) b) as [E|]; [|discriminate Q].
  apply H in He. rewrite E in He. apply Z.leb_le in He. lia.
Qed.
Definition wi_check (d : dgraph) (x1 : wire) (x2 : wire) : bool :=
  match xat x1 0, xat x1 1, xat x2 0, xat x2 2, xat x2 3 with
  | Some a, Some a1, Some a2, Some b, Some c => same_b a a1 && same_b a a2 && negb (same_b b c) && enough_b d 100 && mild_b (dg_max_retries d) (hist (sv_tr (x_sv x2))) && Nat.eqb (b_task a) 1 && Nat.eqb (b_task b) 2 && Nat.eqb (b_task c) 2 &&
      lost x1 0 && negb (lost x1 1) && lost x2 0 && negb (lost x2 2) && negb (lost x2 3) && succ_b (hist (sv_tr (x_sv x2))) a
  | _, _, _, _, _ => false end.
Lemma wi_checked : match wi_run [ow_d; ow_u] with Some (d, s0, h, (ms1, x1), (ms2, x2)) => wi_check d x1 x2 | None => false end = true.
Proof. vm_compute. reflexivity. Qed.
Definition wi_claim (ts : list task) (d : dgraph) (s0 : sched) (h : whole) (ms1 : list lmove) (x1 : wire) (ms2 : list lmove) (x2 : wire) (a b c : block) : Prop :=
  let dumps := dumpl (pblocks d) in let loads := loadl (pblocks d) in
  let runs := lruns (dg_up idl idl d) (dg_down idl idl d) (dg_max_retries d) 100 no_init ow_nw 3 dumps loads in
  setup ts idl idl d s0 100 no_init ow_nw 3 h /\ P_Net.lossless dumps loads /\ runs (wire_init h) ms1 x1 /\ runs (wire_init h) (ms1 ++ ms2) x2 /\
  b_task a = 1%nat /\ b_task b = 2%nat /\ b_task c = 2%nat /\ b <> c /\
  xworking x1 0 a /\ Net.broken (Net.n_link (x_net x1) 0) = true /\ iworking x1 1 a /\
  xworking x2 0 a /\ succeeded (hist (sv_tr (x_sv x2))) a /\ iworking x2 2 b /\ iworking x2 3 c /\
  apart_failures ts idl idl d (hist (sv_tr (x_sv x2))).
Lemma wi_from ts d s0 h ms1 x1 ms2 x2 : pipe_ok ts -> edges_ok ts -> wi_run ts = Some (d, s0, h, (ms1, x1), (ms2, x2)) -> wi_check d x1 x2 = true ->
  exists a b c, wi_claim ts d s0 h ms1 x1 ms2 x2 a b c.
Proof.
  intros PO EO E Q. unfold wi_run in E. destruct (sched_init ts) as [[d' s']|] eqn:Es; [|discriminate E]. destruct (whole_init _ _ _ _ _) as [h'|] eqn:Ei; [|discriminate E].
  cbv zeta in E. destruct (lplay _ _ _ _ _ _ _ _ wi_1 _) as [[n1 y1]|] eqn:E1; [|discriminate E]. destruct (lplay _ _ _ _ _ _ _ _ wi_2 _) as [[n2 y2]|] eqn:E2; [|discriminate E].
  apply some_inj in E. repeat (apply pair_equal_spec in E; let F := fresh in destruct E as [E F]; try (apply pair_equal_spec in F; destruct F)). subst.
  apply lplay_runs in E1, E2. pose proof (lruns_app _ _ _ _ _ _ _ _ _ _ _ _ _ E1 E2) as R2. unfold wi_check in Q.
  destruct (xat x1 0) as [a|] eqn:Wa; [|discriminate Q]. destruct (xat x1 1) as [a1|] eqn:Wa1; [|discriminate Q]. destruct (xat x2 0) as [a2|] eqn:Wa2; [|discriminate Q].
  destruct (xat x2 2) as [b|] eqn:Wb; [|discriminate Q]. destruct (xat x2 3) as [c|] eqn:Wc; [|discriminate Q].
  apply andb_prop in Q. destruct Q as [Q Q14]. apply andb_prop in Q. destruct Q as [Q Q13]. apply andb_prop in Q. destruct Q as [Q Q12]. apply andb_prop in Q. destruct Q as [Q Q11].
  apply andb_prop in Q. destruct Q as [Q Q10]. apply andb_prop in Q. destruct Q as [Q Q9]. apply andb_prop in Q. destruct Q as [Q Q8]. apply andb_prop in Q. destruct Q as [Q Q7].
  apply andb_prop in Q. destruct Q as [Q Q6]. apply andb_prop in Q. destruct Q as [Q Q5]. apply andb_prop in Q. destruct Q as [Q Q4]. apply andb_prop in Q. destruct Q as [Q Q3]. apply andb_prop in Q. destruct Q as [Q1 Q2].
  unfold same_b in Q1, Q2, Q3. destruct (block_dec a a1) as [<-|]; [|discriminate Q1]. destruct (block_dec a a2) as [<-|]; [|discriminate Q2].
  destruct (block_dec b c) as [|Nbc]; [discriminate Q3|]. apply Nat.eqb_eq in Q6, Q7, Q8. unfold lost in *. apply Bool.negb_true_iff in Q10, Q12, Q13. apply xat_ok in Wa, Wa1, Wa2, Wb, Wc.
  exists a, b, c. unfold wi_claim, iworking. cbv zeta. split; [eapply own_setup; eauto; intros t; unfold ow_nw; lia|]. split; [apply loadl_lossless|]. split; [exact E1|]. split; [exact R2|].
  do 4 (split; [assumption|]). split; [exact Wa|]. split; [exact Q9|]. split; [auto|]. split; [exact Wa2|]. split; [apply succ_b_true; exact Q14|]. split; [auto|]. split; [auto|].
  intros x u a' b' w _ _ _ P _ _ _ _ _. exfalso. revert P. apply mild_ok. exact Q5.
Qed.
Example C94_example : exists d s0 h ms1 x1 ms2 x2 a b c, wi_claim [ow_d; ow_u] d s0 h ms1 x1 ms2 x2 a b c.
Proof.
  pose proof wi_checked as Q. destruct (wi_run _) as [[[[[d s0] h] [ms1 x1]] [ms2 x2]]|] eqn:E; [|discriminate Q].
  exists d, s0, h, ms1, x1, ms2, x2. exact (wi_from _ _ _ _ _ _ _ _ ow_ok ow_edges E Q).
Qed.
Print Assumptions C94_example.

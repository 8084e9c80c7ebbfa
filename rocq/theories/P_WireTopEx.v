(* Calls of run_blockwise over the network (for C90), computed. *)
From Coq Require Import Arith Lia.
From Verif Require Import SchedProps SchedExec DGFacts2 PipeRun P_SchedCE P_Sched P_Apart SerialFacts P_Conv P_Serial ServerFacts ServerSteps
  ServerIdle P_Server P_Server2 P_ServerCE P_Outcome P_Notify PoolAll P_PoolFail P_SysEx P_SysCE.
From Verif Require Client Pool P_Pool P_Sys P_WholeEx P_WholeCE P_Cause Tcp Net NetFacts P_Net P_NetErr WireNet.
From Verif Require Import Sys SysFacts SysMeasure SysTrace WholeFair WholeInv WholeSrv P_Whole WholeSim WholeAny WholeAll WholeRun P_WholeAny TopInit Top P_Top P_TopFair
  P_Good Wire WireSim P_Wire WireFair P_WireFair P_WireEx P_WireFairEx WireTop P_WireTop.
Open Scope Z_scope.

Definition wn : list task := [P_WholeCE.wc 1 5].
Lemma wn_collect : collect_tasks 9 wn = Ok wn.
Proof. reflexivity. Qed.
Lemma wn_plain : plain wn.
Proof.
  constructor.
  - apply P_Cause.c_ok. lia.
  - apply P_Cause.c_edges.
  - intros t Ht Nu. exfalso. unfold wn, P_WholeCE.wc in Ht. pipe_tac. apply Nu. reflexivity.
  - right. intros t u [<-|[]] [].
Qed.
(* C90_all_well: the run of C89_example, in which a process ends with the block, which another one does. *)
Definition wn_check (d : dgraph) (h : whole) (b : block) (l : list (xmove * wire)) : bool :=
  wf_check d h b l && forallb (fun x => within_b (dg_max_retries d) (hist (sv_tr (x_sv x)))) (wire_init h :: map snd l).
Lemma wn_checked : match wf_trail wn with Some (d, s0, h, b, l) => wn_check d h b l | None => false end = true.
Proof. vm_compute. reflexivity. Qed.
Definition wn_claim (d : dgraph) (s0 : sched) (h : whole) (b : block) (r : nat -> wire) (mv : nat -> option xmove) (n : nat) : Prop :=
  plain wn /\ started wn idl idl 100 no_init P_WholeCE.one_each wn d s0 (Top h false) /\ P_Net.lossless (dumpx b) (loadx b) /\ r O = wire_init h /\
  (exists last, xfair (dg_up idl idl d) (dg_down idl idl d) (dg_max_retries d) 100 no_init P_WholeCE.one_each 3 (dumpx b) (loadx b) last r mv) /\
  (forall n b, n_failed (hist (sv_tr (x_sv (r n)))) b <= Z.max (dg_max_retries d (b_task b)) 0) /\
  pipe_block wn b /\ n_failed (hist (sv_tr (x_sv (r n)))) b = 1 /\ exists t c, xproc (r n) 0 = Some (t, Pool.Exited c).
Lemma wn_from d s0 h b l : sched_init wn = Ok (d, s0) -> whole_init no_init P_WholeCE.one_each 3 (map t_id wn) s0 = Ok h ->
  In b (pblocks d) -> xtrail idl idl d 100 P_WholeCE.one_each 3 (dumpx b) (loadx b) wf_deeds (wire_init h) = Some l -> wn_check d h b l = true ->
  wn_claim d s0 h b (fun n => nth n (wire_init h :: map snd l) (xlast (wire_init h) l)) (fun n => nth_error (map fst l) n) (length l).
Proof.
  intros Es Ei Hb E Q. unfold wn_check in Q. apply andb_prop in Q. destruct Q as [Q W].
  destruct (wf_from _ _ _ _ _ Es Ei Hb E Q) as [CO [_ [_ [Lo [R0 [FA [_ [_ [_ [_ [_ [Pb [_ [Nf [Ex _]]]]]]]]]]]]]]].
  split; [exact wn_plain|]. split. { destruct CO. constructor; auto; [exists 9%nat; exact wn_collect|]. exists h. auto. }
  split; [exact Lo|]. split; [exact R0|]. split; [exact FA|]. split; [|split; [exact Pb|split; [exact Nf|exact Ex]]].
  intros n c. apply within_b_ok. rewrite forallb_forall in W. apply (W (nth n (wire_init h :: map snd l) (xlast (wire_init h) l))).
  destruct (Nat.lt_ge_cases n (length (wire_init h :: map snd l))) as [L|L]; [apply nth_In; exact L|].
  rewrite nth_overflow by exact L. rewrite <- (xchain_end (wire_init h) l). apply nth_In. cbn. rewrite map_length. lia.
Qed.
Example C90_all_well_example : exists d s0 h b r mv n, wn_claim d s0 h b r mv n.
Proof.
  pose proof wn_checked as Q. destruct (wf_trail _) as [[[[[d s0] h] b] l]|] eqn:E; [|discriminate Q].
  destruct (wf_trail_is _ _ _ _ _ _ E) as [Es [Ei [Hb El]]]. eexists d, s0, h, b, _, _, _. exact (wn_from _ _ _ _ _ Es Ei Hb El Q).
Qed.
Print Assumptions C90_all_well_example.

(* The runs of C88_example: one that returns True, one that a worker's exception ends, and one that the main thread does. *)
Definition wm_check (d : dgraph) (x1 x2 : wire) : bool :=
  forallb (fun b => match dg_up idl idl d b with [] => true | _ => false end) (pblocks d) && negb (result (sv_s (x_sv x1))) && match x_todo x2 with [] => true | _ => false end && result (sv_s (x_sv x2)).
Lemma wm_checked : match wx_run wn with Some (d, s0, h, b, (m1, x1), (m2, x2), (m3, x3)) => wx_check d b m1 x1 m2 x2 m3 x3 && wm_check d x1 x2 | None => false end = true.
Proof. vm_compute. reflexivity. Qed.
Definition wm_claim (d : dgraph) (s0 : sched) (b : block) (m1 : list xmove) (x1 : wire) (m2 : list xmove) (x2 : wire) (m3 : list xmove) (x3 : wire) : Prop :=
  let net := run_net wn idl idl 100 no_init P_WholeCE.one_each wn d s0 (dumpx b) (loadx b) in
  call wn idl idl wn d 100 P_WholeCE.one_each /\ P_Net.lossless (dumpx b) (loadx b) /\ small (dumpx b) x1 /\ small (dumpx b) x2 /\ small (dumpx b) x3 /\
  (forall h, apart_failures wn idl idl d h) /\
  (exists ps, net (map XTMove (m1 ++ m2)) (Some (XTop x2 false)) (XEnded (Returned true)) ps) /\ succeeded (hist (sv_tr (x_sv x2))) b /\ pipe_block wn b /\
  (exists ps, net (map XTMove (m1 ++ m3)) (Some (XTop x3 false)) (XEnded (Raised ValueError)) ps) /\ m3 = [XRaise 1 ValueError] /\
  exists ps, net (map XTMove m1 ++ [XTStop]) (Some (XTop x1 true)) (XEnded (Returned false)) ps.
Lemma wm_from d s0 h b m1 x1 m2 x2 m3 x3 : sched_init wn = Ok (d, s0) -> whole_init no_init P_WholeCE.one_each 3 (map t_id wn) s0 = Ok h ->
  wx_claim d s0 h b m1 x1 m2 x2 m3 x3 -> wm_check d x1 x2 = true -> wm_claim d s0 b m1 x1 m2 x2 m3 x3.
Proof.
  intros Es Ei C Q. unfold wm_check in Q. apply andb_prop in Q. destruct Q as [Q Q3]. apply andb_prop in Q. destruct Q as [Q Q2]. apply andb_prop in Q. destruct Q as [Q0 Q1].
  destruct C as [SE [Lo [R1 [R2 [R3 [S1 [S2 [S3 [_ [_ [_ [_ [_ [Rd1 [Pb [Su [Sp [E3 [Rd3 Xr]]]]]]]]]]]]]]]]]]].
  pose proof wn_collect as Ec.
  split. { destruct SE. constructor; auto. }
  split; [exact Lo|]. split; [exact S1|]. split; [exact S2|]. split; [exact S3|].
  assert (PR : pipe_run wn idl idl d s0 100 [] s0) by (destruct SE; constructor; auto; constructor).
  split. { intros hh x u a a0 w Hx Hu. exfalso. rewrite forallb_forall in Q0. apply (run_in _ _ _ _ _ _ _ _ PR), Q0 in Hx. destruct (dg_up idl idl d x); [destruct Hu|discriminate Hx]. }
  split. { exists (Pool.pools_stop (x_ps x2)). assert (V : result (sv_s (x_sv x2)) = true) by exact Q3. rewrite <- V.
    eapply rn_run; eauto; [apply xtruns_lift; exact R2|]. apply (xe_stop _ _ _ _ _ _ _ _ _ (XTop x2 false)); auto. cbn. destruct (x_todo x2); [reflexivity|discriminate Q2]. }
  split; [exact Su|]. split; [exact Pb|].
  split. { destruct Rd3 as [T1 [T2 [T3 [T4 [n [r [T5 [T6 T7]]]]]]]]. eexists. eapply rn_run; eauto; [apply xtruns_lift; exact R3|].
    apply (xe_raise _ _ _ _ _ _ _ _ _ (XTop x3 false) (waits []) n r ValueError []); auto. }
  split; [exact E3|].
  exists (Pool.pools_stop (x_ps x1)). assert (V : result (sv_s (x_sv x1)) = false) by (apply Bool.negb_true_iff; exact Q1). rewrite <- V.
  eapply rn_run; eauto; [eapply xtruns_step; [apply xtruns_lift; exact R1|apply (xts_stop _ _ _ _ _ _ _ _ _ (XTop x1 false))]|].
  apply (xe_stop _ _ _ _ _ _ _ _ _ (XTop x1 true)); auto. apply Rd1.
Qed.
Example C90_example : exists d s0 b m1 x1 m2 x2 m3 x3, wm_claim d s0 b m1 x1 m2 x2 m3 x3.
Proof.
  pose proof wm_checked as Q. destruct (wx_run _) as [[[[[[[d s0] h] b] [m1 x1]] [m2 x2]] [m3 x3]]|] eqn:E; [|discriminate Q].
  apply andb_prop in Q. destruct Q as [Q M]. destruct (wx_run_is _ _ _ _ _ _ _ _ _ _ _ E) as [Es [Ei [Hb [E1 [E2 E3]]]]].
  exists d, s0, b, m1, x1, m2, x2, m3, x3. exact (wm_from _ _ _ _ _ _ _ _ _ _ Es Ei (wx_from _ _ _ _ _ _ _ _ _ _ Es Ei Hb E1 E2 E3 Q) M).
Qed.
Print Assumptions C90_example.

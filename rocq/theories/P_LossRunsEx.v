(* A run in which the body of a block is begun as often as C97 allows, by two processes at once, computed. *)
From Coq Require Import Arith Lia.
From Verif Require Import SchedProps SchedExec DGFacts2 PipeRun P_SchedCE P_Sched SerialFacts P_Conv P_Serial ServerFacts ServerSteps
  ServerIdle P_Server P_Server2 P_ServerCE P_Outcome P_Notify PoolAll P_PoolFail P_SysEx P_SysCE.
From Verif Require Client Pool P_Pool P_Whole P_WholeEx P_WholeCE P_Cause Tcp Net NetFacts P_Net P_NetErr WireNet.
From Verif Require Import Sys SysFacts SysMeasure SysTrace WholeFair WholeSrv WholeSim WholeAny WholeAll WholeRun P_WholeAny WholeOwn P_WholeOwn P_WholeOwnEx
  Wire WireSim P_Wire P_WireEx P_WireOwn WireLoss P_WireLoss P_WireLossEx P_LossRuns.
Open Scope Z_scope.

Section Play.
  Variables (up down : block -> list block) (maxr : nat -> Z) (fuel : nat) (nw : nat -> Z) (mbf : Z).
  Variable dumps : Net.nmsg payload -> option Tcp.bytes.
  Variable loads : Tcp.bytes -> option (Net.nmsg payload).
  Variable b : block.
  Fixpoint bplay (cs : list ldeed) (x : wire) (n : Z) : option (list lmove * wire * Z) :=
    match cs with
    | [] => Some ([], x, n)
    | c :: r => match lperform up down maxr fuel nw mbf dumps loads c x with
                | Some (m, x1) => match bplay r x1 (n + if begins b x m x1 then 1 else 0) with Some (ms, x2, k) => Some (m :: ms, x2, k) | None => None end
                | None => None
                end
    end.
  Lemma bplay_begun cs : forall x n ms x' k y ms0, bplay cs x n = Some (ms, x', k) -> begun up down maxr fuel no_init nw mbf dumps loads b y ms0 x n ->
    begun up down maxr fuel no_init nw mbf dumps loads b y (ms0 ++ ms) x' k.
  Proof.
    induction cs as [|c r IH]; intros x n ms x' k y ms0 H B; cbn [bplay] in H.
    - apply some_inj, pair_equal_spec in H. destruct H as [H <-]. apply pair_equal_spec in H. destruct H as [<- <-]. rewrite app_nil_r. exact B.
    - destruct (lperform _ _ _ _ _ _ _ _ c x) as [[m x1]|] eqn:E; [|discriminate H]. destruct (bplay r x1 _) as [[[ms1 x2] k1]|] eqn:El; [|discriminate H].
      apply some_inj, pair_equal_spec in H. destruct H as [H <-]. apply pair_equal_spec in H. destruct H as [<- <-].
      change (m :: ms1) with ([m] ++ ms1). rewrite app_assoc. eapply IH; [exact El|]. constructor; [exact B|]. eapply lperform_step; eauto.
  Qed.
End Play.
(* Two blocks, two workers, max_retries 1: the run wl_1 of P_WireLossEx.v.  The connection of process 0 is lost while it is in the body of
   the first block, which process 1 then begins. *)
Definition wb_run (ts : list task) : option (dgraph * sched * whole * block * (list lmove * wire * Z)) :=
  match sched_init ts with
  | Ok (d, s0) =>
      match whole_init no_init ow_nw 3 (map t_id ts) s0, pblocks d with
      | Ok h, b :: _ => match bplay (dg_up idl idl d) (dg_down idl idl d) (dg_max_retries d) 100 ow_nw 3 (dumpl (pblocks d)) (loadl (pblocks d)) b wl_1 (wire_init h) 0 with
                        | Some r => Some (d, s0, h, b, r) | None => None end
      | _, _ => None end
  | Err _ => None end.
Definition wb_check (d : dgraph) (b : block) (ms : list lmove) (x : wire) (n : Z) : bool :=
  enough_b d 100 && (n =? 2) && (dg_max_retries d (b_task b) =? 1) && in_body_b b x 0 && in_body_b b x 1 && (n_failed (hist (sv_tr (x_sv x))) b =? 1) &&
  existsb (fun m => match m with LBreak 0 => true | _ => false end) ms.
Lemma wb_checked : match wb_run [P_WholeCE.wc 2 1] with Some (d, s0, h, b, (ms, x, n)) => wb_check d b ms x n | None => false end = true.
Proof. vm_compute. reflexivity. Qed.
Definition wb_claim (ts : list task) (d : dgraph) (s0 : sched) (h : whole) (b : block) (ms : list lmove) (x : wire) : Prop :=
  let dumps := dumpl (pblocks d) in let loads := loadl (pblocks d) in
  setup ts idl idl d s0 100 no_init ow_nw 3 h /\ P_Net.lossless dumps loads /\
  begun (dg_up idl idl d) (dg_down idl idl d) (dg_max_retries d) 100 no_init ow_nw 3 dumps loads b (wire_init h) ms x 2 /\
  pipe_block ts b /\ dg_max_retries d (b_task b) = 1 /\ In (LBreak 0) ms /\ in_body b x 0 /\ in_body b x 1 /\ n_failed (hist (sv_tr (x_sv x))) b = 1.
Lemma wb_from ts d s0 h b ms x n : pipe_ok ts -> edges_ok ts -> wb_run ts = Some (d, s0, h, b, (ms, x, n)) -> wb_check d b ms x n = true -> wb_claim ts d s0 h b ms x.
Proof.
  intros PO EO E Q. unfold wb_run in E. destruct (sched_init ts) as [[d' s']|] eqn:Es; [|discriminate E]. destruct (whole_init _ _ _ _ _) as [h'|] eqn:Ei; [|discriminate E].
  destruct (pblocks d') as [|b' bs] eqn:Eb; [discriminate E|]. destruct (bplay _ _ _ _ _ _ _ _ _ wl_1 _ _) as [[[n1 y1] k1]|] eqn:E1; [|discriminate E].
  apply some_inj in E. repeat (apply pair_equal_spec in E; let F := fresh in destruct E as [E F]; try (apply pair_equal_spec in F; destruct F as [F ?]; apply pair_equal_spec in F; destruct F)). subst.
  eapply bplay_begun with (ms0 := []) in E1; [|constructor]. cbn [app] in E1. unfold wb_check in Q.
  apply andb_prop in Q. destruct Q as [Q Q7]. apply andb_prop in Q. destruct Q as [Q Q6]. apply andb_prop in Q. destruct Q as [Q Q5]. apply andb_prop in Q. destruct Q as [Q Q4]. apply andb_prop in Q. destruct Q as [Q Q3]. apply andb_prop in Q. destruct Q as [Q1 Q2].
  apply Z.eqb_eq in Q2. subst n. unfold wb_claim. cbv zeta. rewrite Eb.
  assert (PR : pipe_run ts idl idl d s0 100 [] s0) by (constructor; auto using idl_order; constructor).
  split; [eapply own_setup; eauto; intros t; unfold ow_nw; lia|]. split; [apply loadl_lossless|]. split; [exact E1|].
  split; [apply (run_in _ _ _ _ _ _ _ _ PR); rewrite Eb; left; reflexivity|]. split; [apply Z.eqb_eq; exact Q3|].
  split. { apply existsb_exists in Q7. destruct Q7 as [m [Hm Q7]]. destruct m as [|[|]]; try discriminate Q7. exact Hm. }
  split; [apply in_body_ok; exact Q4|]. split; [apply in_body_ok; exact Q5|]. apply Z.eqb_eq. exact Q6.
Qed.
Lemma wb_ok : pipe_ok [P_WholeCE.wc 2 1].
Proof. unfold P_WholeCE.wc. pipe_ok_tac. Qed.
Lemma wb_edges : edges_ok [P_WholeCE.wc 2 1].
Proof. apply single_edges. intros t [<-|[]]. reflexivity. Qed.
Example C97_example : exists d s0 h b ms x, wb_claim [P_WholeCE.wc 2 1] d s0 h b ms x.
Proof.
  pose proof wb_checked as Q. destruct (wb_run _) as [[[[[d s0] h] b] [[ms x] n]]|] eqn:E; [|discriminate Q].
  exists d, s0, h, b, ms, x. exact (wb_from _ _ _ _ _ _ _ _ wb_ok wb_edges E Q).
Qed.
Print Assumptions C97_example.

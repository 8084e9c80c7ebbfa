(* C92, C93: runs over the network that meet the hypotheses, and what may happen if a connection is lost. *)
From Coq Require Import Arith Lia.
From Verif Require Import SchedProps SchedExec DGFacts2 PipeRun P_SchedCE P_Sched SerialFacts P_Conv P_Serial ServerFacts ServerSteps
  ServerIdle P_Server P_Server2 P_ServerCE P_Outcome P_Notify PoolAll P_PoolFail P_SysEx P_SysCE.
From Verif Require Client Pool P_Pool P_Whole P_WholeEx P_WholeCE P_Cause Tcp Net NetFacts P_Net P_NetErr WireNet.
From Verif Require Import Sys SysFacts SysMeasure SysTrace WholeFair WholeSrv WholeSim WholeAny WholeAll WholeRun P_WholeAny WholeOwn P_WholeOwn P_WholeOwnEx
  Wire WireSim P_Wire P_WireEx P_WireOwn WireLoss P_WireLoss.
Open Scope Z_scope.

(* pickles of the messages about the blocks bs: a block is pickled as its place in this list *)
Fixpoint place (c : block) (bs : list block) : option nat :=
  match bs with
  | [] => None
  | b :: r => if is_block c b then Some O else match place c r with Some k => Some (Datatypes.S k) | None => None end
  end.
Lemma place_nth c bs : forall k, place c bs = Some k -> nth_error bs k = Some c.
Proof.
  induction bs as [|b r IH]; intros k H; cbn [place] in H; [discriminate H|]. unfold is_block in H. destruct (block_dec c b) as [->|].
  - injection H as <-. reflexivity.
  - destruct (place c r) as [j|]; [|discriminate H]. injection H as <-. cbn [nth_error]. auto.
Qed.
Definition dumpl (bs : list block) (m : Net.nmsg payload) : option Tcp.bytes :=
  match m with
  | Net.Notify => Some [0]
  | Net.Ack => Some [1]
  | Net.App (ToServer (MAcquire t)) => Some [2; Z.of_nat t]
  | Net.App (ToServer (MRelease (PB c s))) => match place c bs with Some k => Some [3; Z.of_nat k; scode s] | None => None end
  | Net.App (ToWorker (Client.RSend (PB c s))) => match place c bs with Some k => Some [4; Z.of_nat k; scode s] | None => None end
  | Net.App (ToWorker Client.RShutdown) => Some [5]
  | _ => None
  end.
Definition loadl (bs : list block) (p : Tcp.bytes) : option (Net.nmsg payload) :=
  match p with
  | [0] => Some Net.Notify
  | [1] => Some Net.Ack
  | [2; t] => Some (Net.App (ToServer (MAcquire (Z.to_nat t))))
  | [3; k; c] => match nth_error bs (Z.to_nat k), scoded c with Some b, Some s => Some (Net.App (ToServer (MRelease (PB b s)))) | _, _ => None end
  | [4; k; c] => match nth_error bs (Z.to_nat k), scoded c with Some b, Some s => Some (Net.App (ToWorker (Client.RSend (PB b s)))) | _, _ => None end
  | [5] => Some (Net.App (ToWorker Client.RShutdown))
  | _ => None
  end.
Lemma loadl_lossless bs : P_Net.lossless (dumpl bs) (loadl bs).
Proof.
  assert (Sc : forall s, scoded (scode s) = Some s) by (intros []; reflexivity).
  intros [[[t|[c s]|x w| | ]|[[c s]| | |]]| |] p H; cbn [dumpl] in H; try discriminate H;
    try (destruct (place c bs) as [k|] eqn:Ek; [apply place_nth in Ek|discriminate H]); injection H as <-; cbn [loadl]; rewrite ?Nat2Z.id, ?Ek, ?Sc; reflexivity.
Qed.

Inductive ldeed := GDo (c : xdeed) | GBreak (st : nat).
Section Play.
  Variables (up down : block -> list block) (maxr : nat -> Z) (fuel : nat) (nw : nat -> Z) (mbf : Z).
  Variable dumps : Net.nmsg payload -> option Tcp.bytes.
  Variable loads : Tcp.bytes -> option (Net.nmsg payload).
  Local Notation lstep := (lstep up down maxr fuel no_init nw mbf dumps loads).
  Local Notation lruns := (lruns up down maxr fuel no_init nw mbf dumps loads).
  Definition lperform (c : ldeed) (x : wire) : option (lmove * wire) :=
    match c with
    | GDo c => match xperform up down maxr fuel nw mbf dumps loads c x with Some (m, x') => Some (LDo m, x') | None => None end
    | GBreak st => match xproc x st, Net.nstep dumps loads (Net.NLink st Net.KBreak) (x_net x) with
                   | Some _, Some n => Some (LBreak st, set_net x n) | _, _ => None end
    end.
  Lemma lperform_step c x m x' : lperform c x = Some (m, x') -> lstep x m x'.
  Proof.
    destruct c as [c|st]; cbn [lperform]; intros H.
    - destruct (xperform _ _ _ _ _ _ _ _ c x) as [[m1 x1]|] eqn:E; [|discriminate H]. apply some_inj, pair_equal_spec in H. destruct H as [<- <-].
      constructor. eapply xperform_step; eauto.
    - destruct (xproc x st) as [p|] eqn:Ep; [|discriminate H]. destruct (Net.nstep _ _ _ _) as [n|] eqn:En; [|discriminate H].
      apply some_inj, pair_equal_spec in H. destruct H as [<- <-]. apply ls_break; [congruence|exact En].
  Qed.
  Fixpoint lplay (cs : list ldeed) (x : wire) : option (list lmove * wire) :=
    match cs with
    | [] => Some ([], x)
    | c :: r => match lperform c x with
                | Some (m, x1) => match lplay r x1 with Some (ms, x2) => Some (m :: ms, x2) | None => None end
                | None => None
                end
    end.
  Lemma lruns_cons x m x1 ms x2 : lstep x m x1 -> lruns x1 ms x2 -> lruns x (m :: ms) x2.
  Proof.
    intros S Q. induction Q as [|ms z1 m1 z2 Q IH Sz]; [apply (lruns_step _ _ _ _ _ _ _ _ _ x [] x m x1); [constructor|exact S]|].
    change (m :: ms ++ [m1]) with ((m :: ms) ++ [m1]). eapply lruns_step; eauto.
  Qed.
  Lemma lplay_runs cs : forall x ms x', lplay cs x = Some (ms, x') -> lruns x ms x'.
  Proof.
    induction cs as [|c r IH]; intros x ms x' H; cbn [lplay] in H; [apply some_inj, pair_equal_spec in H; destruct H as [<- <-]; constructor|].
    destruct (lperform c x) as [[m x1]|] eqn:E; [|discriminate H]. destruct (lplay r x1) as [[ms1 x2]|] eqn:El; [|discriminate H].
    apply some_inj, pair_equal_spec in H. destruct H as [<- <-]. eapply lruns_cons; eauto. eapply lperform_step; eauto.
  Qed.
  Lemma lruns_app a l1 b0 l2 c : lruns a l1 b0 -> lruns b0 l2 c -> lruns a (l1 ++ l2) c.
  Proof. intros R1 R2. induction R2 as [|ms z1 m z2 R2 IH S2]; [rewrite app_nil_r; exact R1|]. rewrite app_assoc. eapply lruns_step; eauto. Qed.
End Play.
Definition xat (x : wire) (st : nat) : option block :=
  match xproc x st, x_pc x st with Some (_, Pool.Running), PWork pb => Some (pb_block pb) | _, _ => None end.
Lemma xat_ok x st b : xat x st = Some b -> xworking x st b.
Proof. unfold xat, xworking. destruct (xproc x st) as [[t [|c]]|]; try discriminate. destruct (x_pc x st); try discriminate. intros H. injection H as <-. eauto. Qed.

(* deeds of a worker: to get a block, to do it *)
Definition takes (st : nat) : list xdeed := asks st ++ comes_down st 7.
Definition does (st : nat) : list xdeed := [DBody st (Client.Finished SUCCESS)] ++ calls st ++ goes_up st 7 ++ [DServe []].

(* ---- C93 ---- *)
(* Two tasks of four blocks, two workers each, as in P_WholeOwnEx.  Process 0 works on the first block of the first task, process 1 does
   the three others, and process 2 works on the last block of the second task.  Then process 0 ends its block, and process 3 works on
   another block of the second task. *)
Definition wo_1 : list xdeed := connect 0 ++ takes 0 ++ connect 1 ++ takes 1 ++ does 1 ++ takes 1 ++ does 1 ++ takes 1 ++ does 1 ++ connect 2 ++ takes 2.
Definition wo_2 : list xdeed := does 0 ++ connect 3 ++ takes 3.
Definition wo_run (ts : list task) : option (dgraph * sched * whole * (list xmove * wire) * (list xmove * wire)) :=
  match sched_init ts with
  | Ok (d, s0) =>
      match whole_init no_init ow_nw 3 (map t_id ts) s0 with
      | Ok h => let play := xplay (dg_up idl idl d) (dg_down idl idl d) (dg_max_retries d) 100 ow_nw 3 (dumpl (pblocks d)) (loadl (pblocks d)) in
          match play wo_1 (wire_init h) with
          | Some (ms1, x1) => match play wo_2 x1 with Some (ms2, x2) => Some (d, s0, h, (ms1, x1), (ms2, x2)) | None => None end
          | None => None end
      | Err _ => None end
  | Err _ => None end.
Definition wo_check (d : dgraph) (ms1 : list xmove) (x1 : wire) (ms2 : list xmove) (x2 : wire) : bool :=
  match xat x1 0, xat x1 2, xat x2 2, xat x2 3 with
  | Some a, Some b, Some b', Some c => same_b b b' && negb (same_b c b) && Nat.eqb (b_task a) 1 && Nat.eqb (b_task b) 2 && Nat.eqb (b_task c) 2 &&
      enough_b d 100 && small_b (dumpl (pblocks d)) (ms1 ++ ms2) x2
  | _, _, _, _ => false end.
Lemma wo_checked : match wo_run [ow_d; ow_u] with Some (d, s0, h, (ms1, x1), (ms2, x2)) => wo_check d ms1 x1 ms2 x2 | None => false end = true.
Proof. vm_compute. reflexivity. Qed.
Definition wo_claim (ts : list task) (d : dgraph) (s0 : sched) (h : whole) (ms1 : list xmove) (x1 : wire) (ms2 : list xmove) (x2 : wire) : Prop :=
  let dumps := dumpl (pblocks d) in let loads := loadl (pblocks d) in
  let runs := xruns (dg_up idl idl d) (dg_down idl idl d) (dg_max_retries d) 100 no_init ow_nw 3 dumps loads in
  setup ts idl idl d s0 100 no_init ow_nw 3 h /\ P_Net.lossless dumps loads /\ runs (wire_init h) ms1 x1 /\ runs (wire_init h) (ms1 ++ ms2) x2 /\
  small dumps x1 /\ small dumps x2 /\
  exists a b c, b_task a = 1%nat /\ b_task b = 2%nat /\ b_task c = 2%nat /\ c <> b /\ xworking x1 0 a /\ xworking x1 2 b /\ xworking x2 2 b /\ xworking x2 3 c.
Lemma wo_from ts d s0 h ms1 x1 ms2 x2 : pipe_ok ts -> edges_ok ts -> wo_run ts = Some (d, s0, h, (ms1, x1), (ms2, x2)) -> wo_check d ms1 x1 ms2 x2 = true ->
  wo_claim ts d s0 h ms1 x1 ms2 x2.
Proof.
  intros PO EO E Q. unfold wo_run in E. destruct (sched_init ts) as [[d' s']|] eqn:Es; [|discriminate E]. destruct (whole_init _ _ _ _ _) as [h'|] eqn:Ei; [|discriminate E].
  cbv zeta in E. destruct (xplay _ _ _ _ _ _ _ _ wo_1 _) as [[n1 y1]|] eqn:E1; [|discriminate E]. destruct (xplay _ _ _ _ _ _ _ _ wo_2 _) as [[n2 y2]|] eqn:E2; [|discriminate E].
  apply some_inj in E. repeat (apply pair_equal_spec in E; let F := fresh in destruct E as [E F]; try (apply pair_equal_spec in F; destruct F)). subst.
  apply xplay_runs in E1, E2. pose proof (xruns_app _ _ _ _ _ _ _ _ _ _ _ _ _ E1 E2) as R2. unfold wo_check in Q.
  destruct (xat x1 0) as [a|] eqn:Wa; [|discriminate Q]. destruct (xat x1 2) as [b|] eqn:Wb; [|discriminate Q].
  destruct (xat x2 2) as [b'|] eqn:Wb'; [|discriminate Q]. destruct (xat x2 3) as [c|] eqn:Wc; [|discriminate Q].
  apply andb_prop in Q. destruct Q as [Q Q7]. apply andb_prop in Q. destruct Q as [Q Q6]. apply andb_prop in Q. destruct Q as [Q Q5]. apply andb_prop in Q. destruct Q as [Q Q4].
  apply andb_prop in Q. destruct Q as [Q Q3]. apply andb_prop in Q. destruct Q as [Q1 Q2]. apply Nat.eqb_eq in Q3, Q4, Q5. unfold same_b in Q1, Q2.
  destruct (block_dec b b') as [<-|]; [|discriminate]. destruct (block_dec c b) as [|Ncb]; [discriminate|].
  pose proof (small_b_ok _ _ _ _ _ _ _ _ _ _ _ R2 Q7) as S2. apply xat_ok in Wa, Wb, Wb', Wc.
  unfold wo_claim. cbv zeta. split; [eapply own_setup; eauto; intros t; unfold ow_nw; lia|]. split; [apply loadl_lossless|]. split; [exact E1|]. split; [exact R2|].
  split. { clear -E2 S2. induction E2 as [|ms y1 m y2 E2 IH S]; auto. apply IH. eapply small_step; eauto. }
  split; [exact S2|]. exists a, b, c. auto 10.
Qed.
Example C93_example : exists d s0 h ms1 x1 ms2 x2, wo_claim [ow_d; ow_u] d s0 h ms1 x1 ms2 x2.
Proof.
  pose proof wo_checked as Q. destruct (wo_run _) as [[[[[d s0] h] [ms1 x1]] [ms2 x2]]|] eqn:E; [|discriminate Q].
  exists d, s0, h, ms1, x1, ms2, x2. exact (wo_from _ _ _ _ _ _ _ _ ow_ok ow_edges E Q).
Qed.
Print Assumptions C93_example.

(* ---- C92, and C93 if a connection is lost ---- *)
(* One task of two blocks, two workers.  The network loses the connection of process 0 while it works on the first block; the server
   notices it and counts a failure of the block.  Process 1 does the second block and gets the first ... *)
Definition wl_1 : list ldeed := map GDo (connect 0 ++ takes 0 ++ connect 1 ++ takes 1) ++ [GBreak 0] ++
  map GDo ([DNet 0 Net.KFailS; DServe [0%nat]] ++ does 1 ++ takes 1).
(* ... does it too, and the server stops, while process 0 is still at work. *)
Definition wl_2 : list ldeed := map GDo (does 1).
(* Or it raises an exception. *)
Definition wl_3 : list ldeed := map GDo [DRaise 1 ValueError].
Definition wl_run (ts : list task) : option (dgraph * sched * whole * (list lmove * wire) * (list lmove * wire) * (list lmove * wire)) :=
  match sched_init ts with
  | Ok (d, s0) =>
      match whole_init no_init ow_nw 3 (map t_id ts) s0 with
      | Ok h => let play := lplay (dg_up idl idl d) (dg_down idl idl d) (dg_max_retries d) 100 ow_nw 3 (dumpl (pblocks d)) (loadl (pblocks d)) in
          match play wl_1 (wire_init h) with
          | Some (ms1, x1) => match play wl_2 x1, play wl_3 x1 with
                              | Some (ms2, x2), Some (ms3, x3) => Some (d, s0, h, (ms1, x1), (ms2, x2), (ms3, x3)) | _, _ => None end
          | None => None end
      | Err _ => None end
  | Err _ => None end.
Definition wl_leaves (d : dgraph) (x : wire) (i : input) : bool :=
  match iteration (dg_up idl idl d) (dg_down idl idl d) (dg_max_retries d) 100 no_init i (x_sv x) with
  | Ok sv => match pools_do ow_nw 3 (pool_acts (firstn (length (sv_tr sv) - length (sv_tr (x_sv x))) (sv_tr sv)) ++ [Pool.PHealth]) (x_ps x) with
             | Err ValueError => true | _ => false end
  | Err _ => false end.
Definition wl_check (d : dgraph) (ms1 : list lmove) (x1 : wire) (ms2 : list lmove) (x2 : wire) (ms3 : list lmove) (x3 : wire) : bool :=
  match xat x1 0, xat x1 1, xat x2 0 with
  | Some a, Some b, Some a' => same_b a a' && same_b a b && enough_b d 100 && few_b d && (n_failed (hist (sv_tr (x_sv x1))) a =? 1) &&
      existsb (same_b a) (pblocks d) && succ_b (hist (sv_tr (x_sv x2))) a && sv_stop (x_sv x2) && existsb (fun m => match m with LBreak 0 => true | _ => false end) ms1 &&
      forallb (fun m => match m with LDo (XRaise _ _) => false | _ => true end) (ms1 ++ ms2) && wx_ready d x1 [0%nat] &&
      match ms3 with [LDo (XRaise 1 ValueError)] => true | _ => false end && wx_ready d x3 [] && wl_leaves d x3 (waits [])
  | _, _, _ => false end.
Lemma wl_checked : match wl_run [P_WholeCE.wc 2 5] with Some (d, s0, h, (ms1, x1), (ms2, x2), (ms3, x3)) => wl_check d ms1 x1 ms2 x2 ms3 x3 | None => false end = true.
Proof. vm_compute. reflexivity. Qed.
Lemma wl_ready_ok d dumps loads x cl : wx_ready d x cl = true -> serve_ready dumps loads x (waits cl).
Proof.
  unfold wx_ready. intros H. apply andb_prop in H. destruct H as [H Cl]. apply andb_prop in H. destruct H as [H Q].
  destruct (x_todo x) eqn:Et; [|discriminate H]. split; [exact Et|]. split; [apply Bool.negb_true_iff; exact H|]. split; [reflexivity|]. split.
  - unfold waits, an_input. cbn [i_closed]. intros st Hs. apply mem_nat in Hs. rewrite forallb_forall in Cl. apply Cl in Hs. apply andb_prop in Hs. destruct Hs as [H1 H2].
    left; split; auto. intros Z. rewrite Z in H1. discriminate H1.
  - destruct (Net.n_eq (x_net x)) eqn:E1; [|discriminate Q]. destruct (Net.n_mq (x_net x)) eqn:E2; [|discriminate Q].
    eexists. exists Net.SNone. split; [reflexivity|]. rewrite E1, E2. split; reflexivity.
Qed.
Lemma wl_leaves_ok d x i : wl_leaves d x i = true -> xraises idl idl d 100 no_init ow_nw 3 x i ValueError.
Proof.
  unfold wl_leaves. intros H. right. destruct (iteration _ _ _ _ _ _ _) as [sv|] eqn:E; [|discriminate H].
  destruct (iter_adds _ _ _ _ _ _ _ _ E) as [l [Le _]]. cbn [add_tr sv_tr] in Le. rewrite app_assoc in Le.
  replace (firstn (length (sv_tr sv) - length (sv_tr (x_sv x))) (sv_tr sv)) with (l ++ recv i) in H.
  2: { rewrite Le. rewrite app_length, Nat.add_sub, firstn_app, Nat.sub_diag, firstn_all. cbn [firstn]. rewrite app_nil_r. reflexivity. }
  exists sv, (l ++ recv i). split; [reflexivity|]. split; [exact Le|]. destruct (pools_do _ _ _ _) as [ps|[]]; try discriminate H. reflexivity.
Qed.
(* The hypotheses of the theorems about lost connections hold of the runs; two processes are at work on the same block, one of them also
   after the server has stopped. *)
Definition wl_claim (ts : list task) (d : dgraph) (s0 : sched) (h : whole) (ms1 : list lmove) (x1 : wire) (ms2 : list lmove) (x2 : wire) (ms3 : list lmove) (x3 : wire) (b : block) : Prop :=
  let dumps := dumpl (pblocks d) in let loads := loadl (pblocks d) in
  let runs := lruns (dg_up idl idl d) (dg_down idl idl d) (dg_max_retries d) 100 no_init ow_nw 3 dumps loads in
  setup ts idl idl d s0 100 no_init ow_nw 3 h /\ P_Net.lossless dumps loads /\
  runs (wire_init h) ms1 x1 /\ runs (wire_init h) (ms1 ++ ms2) x2 /\ runs (wire_init h) (ms1 ++ ms3) x3 /\
  In (LBreak 0) ms1 /\ pipe_block ts b /\ xworking x1 0 b /\ xworking x1 1 b /\ n_failed (hist (sv_tr (x_sv x1))) b = 1 /\ serve_ready dumps loads x1 (waits [0%nat]) /\
  apart_failures ts idl idl d (hist (sv_tr (x_sv x2))) /\ succeeded (hist (sv_tr (x_sv x2))) b /\ sv_stop (x_sv x2) = true /\ xworking x2 0 b /\
  (forall st e, ~ In (LDo (XRaise st e)) (ms1 ++ ms2)) /\
  ms3 = [LDo (XRaise 1 ValueError)] /\ serve_ready dumps loads x3 (waits []) /\ xraises idl idl d 100 no_init ow_nw 3 x3 (waits []) ValueError.
Lemma wl_from ts d s0 h ms1 x1 ms2 x2 ms3 x3 : pipe_ok ts -> edges_ok ts -> wl_run ts = Some (d, s0, h, (ms1, x1), (ms2, x2), (ms3, x3)) ->
  wl_check d ms1 x1 ms2 x2 ms3 x3 = true -> exists b, wl_claim ts d s0 h ms1 x1 ms2 x2 ms3 x3 b.
Proof.
  intros PO EO E Q. unfold wl_run in E. destruct (sched_init ts) as [[d' s']|] eqn:Es; [|discriminate E]. destruct (whole_init _ _ _ _ _) as [h'|] eqn:Ei; [|discriminate E].
  cbv zeta in E. destruct (lplay _ _ _ _ _ _ _ _ wl_1 _) as [[n1 y1]|] eqn:E1; [|discriminate E]. destruct (lplay _ _ _ _ _ _ _ _ wl_2 _) as [[n2 y2]|] eqn:E2; [|discriminate E].
  destruct (lplay _ _ _ _ _ _ _ _ wl_3 _) as [[n3 y3]|] eqn:E3; [|discriminate E].
  apply some_inj in E. repeat (apply pair_equal_spec in E; let F := fresh in destruct E as [E F]; try (apply pair_equal_spec in F; destruct F)). subst.
  apply lplay_runs in E1, E2, E3. pose proof (lruns_app _ _ _ _ _ _ _ _ _ _ _ _ _ E1 E2) as R2. pose proof (lruns_app _ _ _ _ _ _ _ _ _ _ _ _ _ E1 E3) as R3.
  unfold wl_check in Q. destruct (xat x1 0) as [a|] eqn:Wa; [|discriminate Q]. destruct (xat x1 1) as [b|] eqn:Wb; [|discriminate Q]. destruct (xat x2 0) as [c|] eqn:Wc; [|discriminate Q].
  apply andb_prop in Q. destruct Q as [Q Q14]. apply andb_prop in Q. destruct Q as [Q Q13]. apply andb_prop in Q. destruct Q as [Q Q12]. apply andb_prop in Q. destruct Q as [Q Q11].
  apply andb_prop in Q. destruct Q as [Q Q10]. apply andb_prop in Q. destruct Q as [Q Q9]. apply andb_prop in Q. destruct Q as [Q Q8]. apply andb_prop in Q. destruct Q as [Q Q7].
  apply andb_prop in Q. destruct Q as [Q Q6]. apply andb_prop in Q. destruct Q as [Q Q5]. apply andb_prop in Q. destruct Q as [Q Q4]. apply andb_prop in Q. destruct Q as [Q Q3]. apply andb_prop in Q. destruct Q as [Q1 Q2].
  unfold same_b in Q1, Q2. destruct (block_dec a c) as [<-|]; [|discriminate Q1]. destruct (block_dec a b) as [<-|]; [|discriminate Q2]. apply xat_ok in Wa, Wb, Wc.
  assert (PR : pipe_run ts idl idl d s0 100 [] s0) by (constructor; auto using idl_order; constructor).
  assert (SE : setup ts idl idl d s0 100 no_init ow_nw 3 h) by (eapply own_setup; eauto; intros t; unfold ow_nw; lia).
  exists a. unfold wl_claim. cbv zeta. split; [exact SE|]. split; [apply loadl_lossless|].
  split; [exact E1|]. split; [exact R2|]. split; [exact R3|].
  split. { apply existsb_exists in Q9. destruct Q9 as [m [Hm Q9]]. destruct m as [|[|]]; try discriminate Q9. exact Hm. }
  split. { apply existsb_exists in Q6. destruct Q6 as [b [Hb Q6]]. unfold same_b in Q6. destruct (block_dec a b) as [<-|]; [|discriminate Q6]. apply (run_in _ _ _ _ _ _ _ _ PR). exact Hb. }
  split; [exact Wa|]. split; [exact Wb|]. split; [apply Z.eqb_eq; exact Q5|]. split; [eapply wl_ready_ok; exact Q11|].
  split. { destruct (C92_server _ _ _ _ _ _ _ _ _ _ _ _ SE (loadl_lossless _) _ _ R2) as [SR _].
    apply (few_apart _ _ _ _ _ _ _ _ (a_pipe _ _ _ _ _ _ _ _ _ _ SR) (se_inverse _ _ _ _ _ _ _ _ _ _ SE) (se_fuel _ _ _ _ _ _ _ _ _ _ SE)). eapply own_few; eauto. }
  split; [apply succ_b_true; exact Q7|]. split; [exact Q8|]. split; [exact Wc|].
  split. { intros st e Hi. rewrite forallb_forall in Q10. apply Q10 in Hi. discriminate Hi. }
  split. { destruct ms3 as [|[[| | | | | |[|[|st]] []| |]|] [|]]; try discriminate Q12. reflexivity. }
  split; [eapply wl_ready_ok; exact Q13|]. apply wl_leaves_ok. exact Q14.
Qed.
Lemma wl_ok : pipe_ok [P_WholeCE.wc 2 5].
Proof. unfold P_WholeCE.wc. pipe_ok_tac. Qed.
Example C92_example : exists d s0 h ms1 x1 ms2 x2 ms3 x3 b, wl_claim [P_WholeCE.wc 2 5] d s0 h ms1 x1 ms2 x2 ms3 x3 b.
Proof.
  pose proof wl_checked as Q. destruct (wl_run _) as [[[[[[d s0] h] [ms1 x1]] [ms2 x2]] [ms3 x3]]|] eqn:E; [|discriminate Q].
  exists d, s0, h, ms1, x1, ms2, x2, ms3, x3. exact (wl_from _ _ _ _ _ _ _ _ _ _ wl_ok P_WholeCE.wc2_edges E Q).
Qed.
Print Assumptions C92_example.
(* C93_one_process and C93_waits_partial fail if the connection of a worker may be lost while its process lives. *)
Theorem C93_connection_lost_refuted : exists ts d s0 h0 dumps loads ms1 x1 ms2 x2 b,
  let runs := lruns (dg_up idl idl d) (dg_down idl idl d) (dg_max_retries d) 100 no_init ow_nw 3 dumps loads in
  setup ts idl idl d s0 100 no_init ow_nw 3 h0 /\ P_Net.lossless dumps loads /\ runs (wire_init h0) ms1 x1 /\ runs (wire_init h0) (ms1 ++ ms2) x2 /\
  apart_failures ts idl idl d (hist (sv_tr (x_sv x2))) /\
  (xworking x1 0 b /\ xworking x1 1 b) /\ xworking x2 0 b /\ succeeded (hist (sv_tr (x_sv x2))) b /\ sv_stop (x_sv x2) = true.
Proof.
  destruct C92_example as [d [s0 [h [ms1 [x1 [ms2 [x2 [ms3 [x3 [b H]]]]]]]]]]. exists [P_WholeCE.wc 2 5], d, s0, h, (dumpl (pblocks d)), (loadl (pblocks d)), ms1, x1, ms2, x2, b.
  unfold wl_claim in H. cbv zeta in H |- *. decompose [and] H. auto 12.
Qed.
Print Assumptions C93_connection_lost_refuted.

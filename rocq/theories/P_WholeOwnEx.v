(* C68, C69: a run, and what happens if a connection is lost, or a body does not end. *)
From Coq Require Import Arith Lia.
From Verif Require Import SchedProps SchedExec DGFacts2 PipeRun P_SchedCE P_Sched SerialFacts P_Conv P_Serial ServerFacts ServerSteps
  ServerIdle P_Server P_Server2 P_ServerCE P_Outcome P_Notify PoolAll P_PoolFail P_SysEx P_SysCE.
From Verif Require Client Pool P_Pool P_Whole P_WholeEx P_WholeCE TopFair.
From Verif Require Import Sys SysFacts SysMeasure SysTrace WholeFair WholeSrv WholeSim WholeAny WholeAll WholeRun P_WholeAny WholeOwn P_WholeOwn.
Open Scope Z_scope.

(* what the process st works on *)
Definition at_work (h : whole) (st : nat) : option block :=
  match proc h st, w_at (h_w h st) with Some (_, Pool.Running), Working pb => Some (pb_block pb) | _, _ => None end.
Lemma at_work_ok h st b : at_work h st = Some b -> working h st b.
Proof.
  unfold at_work, working, alive. destruct (proc h st) as [[t [|c]]|]; try discriminate. destruct (w_at (h_w h st)); try discriminate.
  intros H. injection H as <-. eauto.
Qed.
Lemma own_setup tasks nw d s0 h : pipe_ok tasks -> edges_ok tasks -> (forall t, 0 <= nw t) -> sched_init tasks = Ok (d, s0) -> whole_init no_init nw 3 (map t_id tasks) s0 = Ok h ->
  enough_b d 100 = true -> setup tasks idl idl d s0 100 no_init nw 3 h.
Proof.
  intros PO EO Nw Es Ei En. assert (PR : pipe_run tasks idl idl d s0 100 [] s0) by (constructor; auto using idl_order; constructor).
  constructor; auto using idl_order; try lia.
  - apply (run_dual tasks idl idl d s0 100 [] s0); auto.
  - eapply enough_b_ok; eauto.
Qed.
Lemma own_few tasks d s0 : pipe_ok tasks -> sched_init tasks = Ok (d, s0) -> few_b d = true -> few_upstream tasks idl idl d.
Proof.
  intros PO Es. assert (PR : pipe_run tasks idl idl d s0 100 [] s0) by (constructor; auto using idl_order; constructor).
  eapply few_b_ok; eauto.
Qed.

(* Two tasks of four blocks, two workers each; the second reads with context what the first writes, with read_write_conflict.
   Process 0 dies with the first block of the first task; process 1 does the three others.  Then process 2 works on the first
   block while process 3 works on the last block of the second task, which does not need it.  Process 2 ends its block, and
   process 4 works on the second block of the second task, while process 3 still works. *)
Definition ow_u : task := Task 1 (Roi [0] [8]) (Roi [0] [2]) (Roi [0] [2]) false Valid 2 3 [].
Definition ow_d : task := Task 2 (Roi [-1] [10]) (Roi [-1] [4]) (Roi [0] [2]) true Valid 2 3 [ow_u].
Definition fetch (st : nat) : list adeed := map EDo ([P_WholeEx.EConnect st] ++ P_WholeCE.ask st [0%nat]).
Definition ow_1 : list adeed := map EDo ([P_WholeEx.EConnect 0] ++ P_WholeCE.ask 0 [] ++ [P_WholeEx.EEnd 0 0 1; P_WholeEx.EIdle [0%nat]]) ++
  fetch 1 ++ map EDo (P_WholeCE.done 1 [0%nat] ++ P_WholeCE.ask 1 [0%nat] ++ P_WholeCE.done 1 [0%nat] ++ P_WholeCE.ask 1 [0%nat] ++ P_WholeCE.done 1 [0%nat]) ++
  fetch 2 ++ fetch 3.
Definition ow_2 : list adeed := map EDo (P_WholeCE.done 2 [0%nat]) ++ fetch 4.
Definition ow_nw (t : nat) : Z := 2.
Lemma ow_ok : pipe_ok [ow_d; ow_u].
Proof. pipe_ok_tac. Qed.
Lemma ow_edges : edges_ok [ow_d; ow_u].
Proof.
  intros t u Ht Hu. pipe_tac;
  (constructor; try discriminate;
   [intros i Hi; cbn in Hi; destruct i as [|i]; [reflexivity|lia]
   |intros [[|k [|]] [[L _] X]]; try discriminate L; specialize (X O); cbn in *; lia..]).
Qed.
Definition two_run (ts : list task) (ids : list nat) (nw : nat -> Z) (c1 c2 : list adeed) : option (dgraph * sched * whole * (list amove * whole) * (list amove * whole)) :=
  match sched_init ts with
  | Ok (d, s0) =>
      match whole_init no_init nw 3 ids s0 with
      | Ok h => let play := aplay (dg_up idl idl d) (dg_down idl idl d) (dg_max_retries d) 100 nw 3 in
          match play c1 h with
          | Some (ms1, h1) => match play c2 h1 with Some (ms2, h2) => Some (d, s0, h, (ms1, h1), (ms2, h2)) | None => None end
          | None => None end
      | Err _ => None end
  | Err _ => None end.
Lemma two_run_is ts ids nw c1 c2 d s0 h m1 x1 m2 x2 : two_run ts ids nw c1 c2 = Some (d, s0, h, (m1, x1), (m2, x2)) ->
  sched_init ts = Ok (d, s0) /\ whole_init no_init nw 3 ids s0 = Ok h /\
  aruns (dg_up idl idl d) (dg_down idl idl d) (dg_max_retries d) 100 no_init nw 3 h m1 x1 /\
  aruns (dg_up idl idl d) (dg_down idl idl d) (dg_max_retries d) 100 no_init nw 3 x1 m2 x2.
Proof.
  unfold two_run. destruct (sched_init ts) as [[d' s']|] eqn:Es; [|discriminate]. destruct (whole_init _ _ _ _ _) as [h'|] eqn:Ei; [|discriminate].
  cbv zeta. destruct (aplay _ _ _ _ _ _ c1 h') as [[n1 y1]|] eqn:E1; [|discriminate]. destruct (aplay _ _ _ _ _ _ c2 y1) as [[n2 y2]|] eqn:E2; [|discriminate].
  intros E. injection E as <- <- <- <- <- <- <-. apply aplay_runs in E1, E2. auto.
Qed.
Definition hacts_b (m : hmove) (st : nat) : bool :=
  match m with HConnect s | HAsk s | HGet s | HFinish s _ | HExit s | HEnd s _ _ => Nat.eqb s st | HServe _ _ => false end.
Definition aacts_b (m : amove) (st : nat) : bool :=
  match m with AMove m => hacts_b m st | ARaise s _ _ | ABreak s _ _ _ => Nat.eqb s st end.
Lemma aacts_b_false m st : aacts_b m st = false -> ~ TopFair.aacts m st.
Proof. destruct m as [[]| |]; cbn; intros H E; subst; rewrite ?Nat.eqb_refl in H; try discriminate; auto. Qed.
Definition same_b (a b : block) : bool := if block_dec a b then true else false.
Definition sent_b (tr : list act) (st : nat) (b : block) : bool := existsb (fun a => match a with ASend s pb => Nat.eqb s st && same_b (pb_block pb) b | _ => false end) tr.
Lemma sent_b_ok tr st b : sent_b tr st b = true -> exists pb, In (ASend st pb) tr /\ pb_block pb = b.
Proof.
  intros H. apply existsb_exists in H. destruct H as [a [Ha H]]. destruct a; try discriminate. apply andb_prop in H. destruct H as [H1 H2].
  apply Nat.eqb_eq in H1. subst. unfold same_b in H2. destruct (block_dec _ _); [|discriminate]. eauto.
Qed.
Definition ow_claim (d : dgraph) (h1 : whole) (ms2 : list amove) (h2 : whole) : bool :=
  match at_work h1 2, at_work h1 3, at_work h2 3, at_work h2 4 with
  | Some a, Some b, Some b', Some c =>
      same_b b b' && negb (same_b c b) && Nat.eqb (b_task a) 1 && Nat.eqb (b_task b) 2 && Nat.eqb (b_task c) 2 && sent_b (sv_tr (h_sv h1)) 0 a &&
      forallb (fun m => negb (aacts_b m 3)) ms2 && enough_b d 100 && negb (sv_stop (h_sv h2))
  | _, _, _, _ => false end.
Definition ow_check : bool :=
  match two_run [ow_d; ow_u] (map t_id [ow_d; ow_u]) ow_nw ow_1 ow_2 with Some (d, s0, h, (ms1, h1), (ms2, h2)) => ow_claim d h1 ms2 h2 | None => false end.
Lemma ow_checked : ow_check = true.
Proof. vm_compute. reflexivity. Qed.
Lemma ow_from ts d s0 h0 ms1 h1 ms2 h2 : pipe_ok ts -> edges_ok ts -> two_run ts (map t_id ts) ow_nw ow_1 ow_2 = Some (d, s0, h0, (ms1, h1), (ms2, h2)) -> ow_claim d h1 ms2 h2 = true ->
  exists a b c pb,
  let up := dg_up idl idl d in let down := dg_down idl idl d in let maxr := dg_max_retries d in
  setup ts idl idl d s0 100 no_init ow_nw 3 h0 /\ aruns up down maxr 100 no_init ow_nw 3 h0 ms1 h1 /\ aruns up down maxr 100 no_init ow_nw 3 h1 ms2 h2 /\
  b_task a = 1%nat /\ b_task b = 2%nat /\ b_task c = 2%nat /\ c <> b /\ In (ASend 0 pb) (sv_tr (h_sv h1)) /\ pb_block pb = a /\
  working h1 2 a /\ working h1 3 b /\ (forall m, In m ms2 -> ~ TopFair.aacts m 3) /\ alive h2 3 /\ working h2 3 b /\ working h2 4 c.
Proof.
  intros PO EO E Q. destruct (two_run_is _ _ _ _ _ _ _ _ _ _ _ _ E) as [Es [Ei [R1 R2]]]. unfold ow_claim in Q.
  destruct (at_work h1 2) as [a|] eqn:Wa; [|discriminate]. destruct (at_work h1 3) as [b|] eqn:Wb; [|discriminate].
  destruct (at_work h2 3) as [b'|] eqn:Wb'; [|discriminate]. destruct (at_work h2 4) as [c|] eqn:Wc; [|discriminate].
  apply andb_prop in Q. destruct Q as [Q Q9]. apply andb_prop in Q. destruct Q as [Q Q8]. apply andb_prop in Q. destruct Q as [Q Q7]. apply andb_prop in Q. destruct Q as [Q Q6].
  apply andb_prop in Q. destruct Q as [Q Q5]. apply andb_prop in Q. destruct Q as [Q Q4]. apply andb_prop in Q. destruct Q as [Q Q3]. apply andb_prop in Q. destruct Q as [Q1 Q2].
  apply Nat.eqb_eq in Q3, Q4, Q5. apply sent_b_ok in Q6. destruct Q6 as [pb [Q6 Q6']]. unfold same_b in Q1, Q2.
  destruct (block_dec b b') as [<-|]; [|discriminate]. destruct (block_dec c b) as [|Ncb]; [discriminate|].
  exists a, b, c, pb. cbv zeta. split; [eapply own_setup; eauto; intros t; unfold ow_nw; lia|].
  split; [exact R1|]. split; [exact R2|]. split; [exact Q3|]. split; [exact Q4|]. split; [exact Q5|]. split; [exact Ncb|]. split; [exact Q6|]. split; [exact Q6'|].
  apply at_work_ok in Wa, Wb, Wb', Wc. split; [exact Wa|]. split; [exact Wb|]. split; [|split; [apply Wb'|auto]].
  intros m Hm. apply aacts_b_false. rewrite forallb_forall in Q7. apply Bool.negb_true_iff. auto.
Qed.
Example own_example : exists d s0 h0 ms1 h1 ms2 h2 a b c pb,
  let up := dg_up idl idl d in let down := dg_down idl idl d in let maxr := dg_max_retries d in
  setup [ow_d; ow_u] idl idl d s0 100 no_init ow_nw 3 h0 /\ aruns up down maxr 100 no_init ow_nw 3 h0 ms1 h1 /\ aruns up down maxr 100 no_init ow_nw 3 h1 ms2 h2 /\
  b_task a = 1%nat /\ b_task b = 2%nat /\ b_task c = 2%nat /\ c <> b /\ In (ASend 0 pb) (sv_tr (h_sv h1)) /\ pb_block pb = a /\
  working h1 2 a /\ working h1 3 b /\ (forall m, In m ms2 -> ~ TopFair.aacts m 3) /\ alive h2 3 /\ working h2 3 b /\ working h2 4 c.
Proof.
  pose proof ow_checked as Q. unfold ow_check in Q. destruct (two_run _ _ _ _ _) as [[[[[d s0] h] [ms1 h1]] [ms2 h2]]|] eqn:E; [|discriminate Q].
  exists d, s0, h, ms1, h1, ms2, h2. exact (ow_from _ _ _ _ _ _ _ _ ow_ok ow_edges E Q).
Qed.
Print Assumptions own_example.

(* C68_one_process fails if the server finds a connection closed though the process at its other end lives (a broken network
   connection: block_bookkeeper.py:71-75 only looks at the connection, and the client notices at its next message).  As Whole.hs_serve,
   but without the condition of hinput_ok on the closed connections. *)
Inductive serves_any up down maxr fuel init nw mbf (h : whole) (i : input) : whole -> Prop :=
| sa_serve cut sv l ps f : sv_stop (h_sv h) = false -> i_health i = Ok tt -> i_get i = GotNothing ->
    iteration up down maxr fuel init i (h_sv h) = Ok sv -> sv_tr sv = l ++ sv_tr (h_sv h) ->
    on_all nw mbf cut (pool_acts l ++ [Pool.PHealth]) (h_ps h) (fun s => deliver s l (h_w h s)) = Ok (ps, f) ->
    serves_any up down maxr fuel init nw mbf h i (Whole sv ps f).
Section Any.
  Variables (up down : block -> list block) (maxr : nat -> Z) (nw : nat -> Z).
  Definition serve_any (i : input) (h : whole) : option whole :=
    if sv_stop (h_sv h) then None
    else match iteration up down maxr 100 no_init i (h_sv h) with
         | Ok sv => let l := firstn (length (sv_tr sv) - length (sv_tr (h_sv h))) (sv_tr sv) in
             match on_all nw 3 (fun _ => O) (pool_acts l ++ [Pool.PHealth]) (h_ps h) (fun s => deliver s l (h_w h s)) with
             | Ok (ps, f) => Some (Whole sv ps f)
             | Err _ => None end
         | Err _ => None end.
  Lemma serve_any_is i h h' : i_health i = Ok tt -> i_get i = GotNothing -> serve_any i h = Some h' -> serves_any up down maxr 100 no_init nw 3 h i h'.
  Proof.
    unfold serve_any. intros Hh Hg H. destruct (sv_stop (h_sv h)) eqn:Sp; [discriminate H|].
    destruct (iteration _ _ _ _ _ _ _) as [sv|] eqn:E; [|discriminate H].
    destruct (iter_adds _ _ _ _ _ _ _ _ E) as [l [L _]]. cbn [add_tr sv_tr] in L. rewrite app_assoc in L.
    assert (El : sv_tr sv = (l ++ recv i) ++ sv_tr (h_sv h)) by exact L.
    replace (firstn (length (sv_tr sv) - length (sv_tr (h_sv h))) (sv_tr sv)) with (l ++ recv i) in H.
    2: { rewrite El. rewrite app_length, Nat.add_sub, firstn_app, Nat.sub_diag, firstn_all. cbn [firstn]. rewrite app_nil_r. reflexivity. }
    destruct (on_all _ _ _ _ _ _) as [[ps f]|] eqn:Eo; [|discriminate H]. injection H as <-. eapply sa_serve; eauto.
  Qed.
End Any.
(* One task of one block, two workers: the connection of process 0 breaks while it works on the block; the block is given to process 1. *)
Definition cut_off : input := an_input GotNothing [0%nat] true no_check.
Definition cl_1 : list adeed := map EDo ([P_WholeEx.EConnect 0] ++ P_WholeCE.ask 0 []).
Definition cl_2 : list adeed := map EDo ([P_WholeEx.EConnect 1] ++ P_WholeCE.ask 1 []).
Definition cl_run (ts : list task) : option (dgraph * sched * whole * list amove * whole * whole * list amove * whole) :=
  match two_run ts (map t_id ts) ow_nw cl_1 [] with
  | Some (d, s0, h, (ms1, h1), _) =>
      match serve_any (dg_up idl idl d) (dg_down idl idl d) (dg_max_retries d) ow_nw cut_off h1 with
      | Some h2 => match aplay (dg_up idl idl d) (dg_down idl idl d) (dg_max_retries d) 100 ow_nw 3 cl_2 h2 with
                   | Some (ms2, h3) => Some (d, s0, h, ms1, h1, h2, ms2, h3)
                   | None => None end
      | None => None end
  | None => None end.
Definition cl_claim (d : dgraph) (h1 h3 : whole) : bool :=
  match at_work h1 0, at_work h3 0, at_work h3 1 with Some b, Some b', Some c => same_b b b' && same_b b c && enough_b d 100 | _, _, _ => false end.
Definition cl_check : bool := match cl_run [P_WholeCE.wc 1 5] with Some (d, _, _, _, h1, _, _, h3) => cl_claim d h1 h3 | None => false end.
Lemma cl_checked : cl_check = true.
Proof. vm_compute. reflexivity. Qed.
Lemma cl_ok : pipe_ok [P_WholeCE.wc 1 5].
Proof. unfold P_WholeCE.wc. pipe_ok_tac. Qed.
Lemma cl_edges : edges_ok [P_WholeCE.wc 1 5].
Proof. apply single_edges. intros t [<-|[]]. reflexivity. Qed.
Lemma cl_from ts d s0 h0 ms1 h1 h2 ms2 h3 : pipe_ok ts -> edges_ok ts -> cl_run ts = Some (d, s0, h0, ms1, h1, h2, ms2, h3) -> cl_claim d h1 h3 = true ->
  exists b, let up := dg_up idl idl d in let down := dg_down idl idl d in let maxr := dg_max_retries d in
  setup ts idl idl d s0 100 no_init ow_nw 3 h0 /\ aruns up down maxr 100 no_init ow_nw 3 h0 ms1 h1 /\ working h1 0 b /\
  serves_any up down maxr 100 no_init ow_nw 3 h1 cut_off h2 /\ aruns up down maxr 100 no_init ow_nw 3 h2 ms2 h3 /\
  working h3 0 b /\ working h3 1 b.
Proof.
  intros PO EO E Q. unfold cl_run in E. destruct (two_run _ _ _ _ _) as [[[[[d' s'] h'] [m1 x1]] [m2 x2]]|] eqn:E1; [|discriminate E].
  destruct (serve_any _ _ _ _ _ _) as [x3|] eqn:E3; [|discriminate E]. destruct (aplay _ _ _ _ _ _ _ _) as [[m4 x4]|] eqn:E4; [|discriminate E].
  injection E as -> -> -> -> -> -> -> ->. destruct (two_run_is _ _ _ _ _ _ _ _ _ _ _ _ E1) as [Es [Ei [R1 _]]]. unfold cl_claim in Q.
  destruct (at_work h1 0) as [b|] eqn:W; [|discriminate]. destruct (at_work h3 0) as [b'|] eqn:W1; [|discriminate]. destruct (at_work h3 1) as [c|] eqn:W2; [|discriminate].
  apply andb_prop in Q. destruct Q as [Q Q3]. apply andb_prop in Q. destruct Q as [Q1 Q2]. unfold same_b in Q1, Q2.
  destruct (block_dec b b') as [<-|]; [|discriminate]. destruct (block_dec b c) as [<-|]; [|discriminate].
  apply at_work_ok in W, W1, W2. apply serve_any_is in E3; [|reflexivity..]. apply aplay_runs in E4.
  exists b. cbv zeta. split; [eapply own_setup; eauto; intros t; unfold ow_nw; lia|]. auto 8.
Qed.
Theorem C68_connection_lost_refuted : exists ts d s0 h0 ms1 h1 h2 ms2 h3 b,
  let up := dg_up idl idl d in let down := dg_down idl idl d in let maxr := dg_max_retries d in
  setup ts idl idl d s0 100 no_init ow_nw 3 h0 /\ aruns up down maxr 100 no_init ow_nw 3 h0 ms1 h1 /\ working h1 0 b /\
  serves_any up down maxr 100 no_init ow_nw 3 h1 cut_off h2 /\ aruns up down maxr 100 no_init ow_nw 3 h2 ms2 h3 /\
  working h3 0 b /\ working h3 1 b.
Proof.
  pose proof cl_checked as Q. unfold cl_check in Q. destruct (cl_run _) as [[[[[[[[d s0] h0] ms1] h1] h2] ms2] h3]|] eqn:E; [|discriminate Q].
  exists [P_WholeCE.wc 1 5], d, s0, h0, ms1, h1, h2, ms2, h3. exact (cl_from _ _ _ _ _ _ _ _ _ cl_ok cl_edges E Q).
Qed.
Print Assumptions C68_connection_lost_refuted.

(* C69: no time limit.  The timeout of a task (task.py:121-126: "The worker is killed (and the block retried) if this time is
   exceeded") is stored (task.py:159) and read nowhere; the time limit of the bookkeeper (block_bookkeeper.py:15-16, 77-80) is not set by
   the server (server.py:48). *)
Lemma health_quiet s err : forall l, (forall t, err t = []) -> (forall t p w, In (t, p) l -> In w p -> Pool.exitcode s w = None) ->
  Pool.health s err l = (s, err, l, None).
Proof.
  induction l as [|[t p] l IH]; intros He Hq; [reflexivity|]. cbn [Pool.health]. rewrite He. unfold Pool.reap_dead_workers.
  assert (F : filter (fun w => match Pool.exitcode s w with Some c => negb (c =? 0) | None => false end) p = []).
  { assert (G : forall q, (forall w, In w q -> Pool.exitcode s w = None) -> filter (fun w => match Pool.exitcode s w with Some c => negb (c =? 0) | None => false end) q = []).
    { induction q as [|w q IHq]; intros G; [reflexivity|]. cbn [filter]. rewrite (G w) by (left; reflexivity). apply IHq. intros; apply G; right; auto. }
    apply G. intros w Hw. apply (Hq t p w); [left; reflexivity|exact Hw]. }
  assert (M : map (fun w => match Pool.exitcode s w with Some _ => Pool.Worker (Pool.w_id w) false | None => w end) p = p).
  { rewrite <- (map_id p) at 2. apply map_ext_in. intros w Hw. rewrite (Hq t p w); [reflexivity|left; reflexivity|exact Hw]. }
  rewrite F, M. cbn [fold_left length Z.of_nat Z.ltb Z.compare]. rewrite IH; auto. intros t' p' w Hp Hw. apply (Hq t' p' w); [right; exact Hp|exact Hw].
Qed.
Section Rest.
  Variables (up down : block -> list block) (maxr : nat -> Z) (fuel : nat) (nw : nat -> Z) (mbf : Z).
  (* an iteration without messages that changes nothing *)
  Definition still (h : whole) : Prop :=
    sv_stop (h_sv h) = false /\ iteration up down maxr fuel no_init idle (h_sv h) = Ok (h_sv h) /\ (forall t, Pool.ps_err (h_ps h) t = []) /\
    forall t p w, In (t, p) (Pool.ps_pools (h_ps h)) -> In w p -> Pool.exitcode (Pool.ps_sys (h_ps h)) w = None.
  Lemma still_step h cut : still h -> exists h', astep up down maxr fuel no_init nw mbf h (AMove (HServe idle cut)) h' /\ still h' /\
    h_sv h' = h_sv h /\ h_ps h' = h_ps h /\ forall s, w_at (h_w h' s) = w_at (h_w h s).
  Proof.
    intros [Sp [It [Er Q]]]. destruct h as [sv [sy pl er fc] f]. cbn [h_sv h_ps h_w Pool.ps_sys Pool.ps_pools Pool.ps_err] in *.
    exists (Whole sv (Pool.Pools sy pl er fc) (sync cut (Pool.Pools sy pl er fc) (Pool.Pools sy pl er fc) (fun s => deliver s [] (taken (i_get idle) s (f s))))).
    split; [|split; [repeat split; auto|split; [reflexivity|split; [reflexivity|]]]].
    - apply as_move. eapply (hs_serve _ _ _ _ _ _ _ _ idle cut sv []); cbn [h_sv h_ps h_w]; auto.
      + split; [reflexivity|split; [exact I|intros st H; discriminate H]].
      + cbn [pool_acts rev flat_map app on_all Pool.pstep]. unfold Pool.check_worker_health. cbn [Pool.ps_sys Pool.ps_pools Pool.ps_err Pool.ps_fc].
        rewrite health_quiet; auto.
    - intros s. cbn [h_w]. unfold sync. cbn [Pool.ps_sys]. destruct (Pool.tbl sy s) as [[t [|c]]|]; reflexivity.
  Qed.
  Lemma still_run h st b : still h -> working h st b -> forall n, exists ms h', aruns up down maxr fuel no_init nw mbf h ms h' /\ length ms = n /\
    (forall m, In m ms -> m = AMove (HServe idle (fun _ => O))) /\ still h' /\ working h' st b /\ h_sv h' = h_sv h.
  Proof.
    intros St W n. induction n as [|n [ms [h' [R [L [M [St' [W' E]]]]]]]].
    - exists [], h. split; [constructor|]. split; [reflexivity|]. split; [intros m []|auto].
    - destruct (still_step h' (fun _ => O) St') as [h2 [S [St2 [E2 [P2 A2]]]]]. exists (ms ++ [AMove (HServe idle (fun _ => O))]), h2.
      split; [eapply aruns_step; eauto|]. split; [rewrite app_length, L; cbn; lia|]. split.
      { intros m Hm. apply in_app_or in Hm. destruct Hm as [Hm|[<-|[]]]; auto. }
      split; [exact St2|]. split; [|congruence]. destruct W' as [Al [pb [Wp Eb]]]. split; [unfold alive, proc in *; rewrite P2; exact Al|].
      exists pb. rewrite A2. auto.
  Qed.
End Rest.

Lemma all_waits st : forall l fin tr b, l <> [] \/ b = false -> (forall t, In t l -> ts_is_done (st t) = false) ->
  fold_left (fun '(fin, tr, all_done) t => if ts_is_done (st t) then if mem Nat.eqb t fin then (fin, tr, all_done)
    else (sadd Nat.eqb t fin, ANote (NDone t (st t)) :: tr, all_done) else (fin, tr, false)) l (fin, tr, b) = (fin, tr, false).
Proof.
  induction l as [|t l IH]; intros fin tr b B H; cbn [fold_left]; [destruct B as [B|B]; [congruence|subst; reflexivity]|].
  rewrite (H t) by (left; reflexivity). apply IH; auto. intros t' Ht. apply H. right. exact Ht.
Qed.
Lemma still_server up down maxr fuel x : pfirst (sv_pend x) = None -> s_order (sv_s x) <> [] -> (forall t, In t (s_order (sv_s x)) -> ts_is_done (s_st (sv_s x) t) = false) ->
  sv_stop x = false -> iteration up down maxr fuel no_init idle x = Ok x.
Proof.
  intros P N D Sp. unfold iteration, handle_messages. cbn [idle an_input i_get i_health i_tick]. rewrite P. cbn [bind]. unfold check_lost, get_lost_blocks.
  assert (L : lost_ids (i_closed idle) None (fun _ => i_now idle) (sv_book x) = []).
  { rewrite lost_ids_none. induction (sv_book x) as [|e l IH]; [reflexivity|]. cbn [filter]. exact IH. }
  change (an_input GotNothing [] true no_check) with idle. rewrite L. cbn [take_lost bind foldM].
  assert (F : flat_map (fun e : nat * Z * blog => if i_closed idle (lg_stream (snd e)) then [ALost (lg_block (snd e)) (lg_stream (snd e))] else []) (sv_book x) = []).
  { clear L. induction (sv_book x) as [|e l IH]; [reflexivity|]. cbn [flat_map]. exact IH. }
  rewrite F. unfold check_all. cbn [rev app add_tr set_book sv_s sv_book sv_pend sv_started sv_finished sv_stop sv_tr].
  rewrite all_waits; auto. rewrite Sp. destruct x; cbn in *. subst. reflexivity.
Qed.
Definition still_claim (d : dgraph) (h : whole) : bool :=
  match at_work h 0 with
  | Some b => enough_b d 100 && few_b d && negb (sv_stop (h_sv h)) && match pfirst (sv_pend (h_sv h)) with None => true | _ => false end &&
      negb (match s_order (sv_s (h_sv h)) with [] => true | _ => false end) && forallb (fun t => negb (ts_is_done (s_st (sv_s (h_sv h)) t))) (s_order (sv_s (h_sv h))) &&
      forallb (fun tp => forallb (fun w => match Pool.exitcode (Pool.ps_sys (h_ps h)) w with None => true | _ => false end) (snd tp)) (Pool.ps_pools (h_ps h))
  | None => false end.
Definition still_check : bool := match two_run [P_WholeCE.wc 1 5] (map t_id [P_WholeCE.wc 1 5]) ow_nw cl_1 [] with Some (d, _, _, (_, h1), _) => still_claim d h1 | None => false end.
Lemma still_checked : still_check = true.
Proof. vm_compute. reflexivity. Qed.
Lemma still_no_error : match two_run [P_WholeCE.wc 1 5] (map t_id [P_WholeCE.wc 1 5]) ow_nw cl_1 [] with Some (_, _, _, (_, h1), _) => forall t, Pool.ps_err (h_ps h1) t = [] | None => True end.
Proof. vm_compute. reflexivity. Qed.
Lemma still_from ts d s0 h0 ms h x : pipe_ok ts -> edges_ok ts -> two_run ts (map t_id ts) ow_nw cl_1 [] = Some (d, s0, h0, (ms, h), x) -> still_claim d h = true ->
  (forall t, Pool.ps_err (h_ps h) t = []) ->
  exists b, let up := dg_up idl idl d in let down := dg_down idl idl d in let maxr := dg_max_retries d in
  setup ts idl idl d s0 100 no_init ow_nw 3 h0 /\ few_upstream ts idl idl d /\ aruns up down maxr 100 no_init ow_nw 3 h0 ms h /\ working h 0 b /\
  forall n, exists ms' h', aruns up down maxr 100 no_init ow_nw 3 h ms' h' /\ length ms' = n /\ (forall m, In m ms' -> m = AMove (HServe idle (fun _ => O))) /\
    working h' 0 b /\ h_sv h' = h_sv h.
Proof.
  intros PO EO E Q Er. destruct x as [m2 x2]. destruct (two_run_is _ _ _ _ _ _ _ _ _ _ _ _ E) as [Es [Ei [R1 _]]]. unfold still_claim in Q.
  destruct (at_work h 0) as [b|] eqn:W; [|discriminate].
  apply andb_prop in Q. destruct Q as [Q Q7]. apply andb_prop in Q. destruct Q as [Q Q6].
  apply andb_prop in Q. destruct Q as [Q Q5]. apply andb_prop in Q. destruct Q as [Q Q4]. apply andb_prop in Q. destruct Q as [Q Q3]. apply andb_prop in Q. destruct Q as [Q1 Q2].
  apply Bool.negb_true_iff in Q3. apply at_work_ok in W. exists b. cbv zeta. split; [eapply own_setup; eauto; intros t; unfold ow_nw; lia|].
  split; [eapply own_few; eauto|]. split; [exact R1|]. split; [exact W|].
  assert (St : still (dg_up idl idl d) (dg_down idl idl d) (dg_max_retries d) 100 h).
  { split; [exact Q3|]. split; [|split; [exact Er|]].
    - apply still_server; auto.
      + destruct (pfirst _); [discriminate|reflexivity].
      + intros X. rewrite X in Q5. discriminate.
      + intros t Ht. rewrite forallb_forall in Q6. apply Bool.negb_true_iff. auto.
    - intros t p w Hp Hw. rewrite forallb_forall in Q7. specialize (Q7 _ Hp). cbn [snd] in Q7. rewrite forallb_forall in Q7. specialize (Q7 _ Hw).
      destruct (Pool.exitcode _ w); [discriminate|reflexivity]. }
  intros n. destruct (still_run _ _ _ _ ow_nw 3 h 0 b St W n) as [ms' [h' [R' [L [M [_ [W' Eh]]]]]]]. exists ms', h'. auto 6.
Qed.
Theorem C69_timeout_refuted : exists ts d s0 h0 ms h b,
  let up := dg_up idl idl d in let down := dg_down idl idl d in let maxr := dg_max_retries d in
  setup ts idl idl d s0 100 no_init ow_nw 3 h0 /\ few_upstream ts idl idl d /\ aruns up down maxr 100 no_init ow_nw 3 h0 ms h /\ working h 0 b /\
  forall n, exists ms' h', aruns up down maxr 100 no_init ow_nw 3 h ms' h' /\ length ms' = n /\ (forall m, In m ms' -> m = AMove (HServe idle (fun _ => O))) /\
    working h' 0 b /\ h_sv h' = h_sv h.
Proof.
  pose proof still_checked as Q. pose proof still_no_error as Er. unfold still_check in Q. destruct (two_run _ _ _ _ _) as [[[[[d s0] h] [ms1 h1]] x]|] eqn:E; [|discriminate Q].
  exists [P_WholeCE.wc 1 5], d, s0, h, ms1, h1. exact (still_from _ _ _ _ _ _ _ cl_ok cl_edges E Q Er).
Qed.
Print Assumptions C69_timeout_refuted.

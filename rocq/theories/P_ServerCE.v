(* Runs of the server in which properties fail (C30, C35-C37, C49), and runs that meet the
   conditions of the theorems in P_Server. *)
From Coq Require Import Lia Permutation.
From Verif Require Import SchedProps SchedExec DGFacts2 PipeRun P_SchedCE P_Sched SerialFacts
  Server ServerFacts ServerSteps ServerIdle P_Server.
Open Scope Z_scope.

(* What happens in an iteration: a request; a block in the book is returned by the client that has
   it, or its failure reported; nothing, with these streams closed, with or without the check that
   is made once a second. *)
Inductive cmd :=
| Ask (t st : nat)
| Ret (i : nat * Z) (s : status)
| Fail (i : nat * Z)
| Wait (closed : list nat) (tick : bool).
Definition an_input (g : got) (closed : list nat) (tick : bool) (chk : nat -> block -> check_result) : input :=
  Input g (fun st => mem Nat.eqb st closed) 0 tick (Ok tt) chk (fun _ => first).
Definition input_of chk (x : server) (c : cmd) : res input :=
  match c with
  | Ask t st => Ok (an_input (GotMessage st (MAcquire t)) [] false chk)
  | Ret i s => match bget i (sv_book x) with
               | Some l => Ok (an_input (GotMessage (lg_stream l) (MRelease (PB (pb_block (lg_block l)) s))) [] false chk)
               | None => Err ValueError
               end
  | Fail i => match bget i (sv_book x) with
              | Some l => Ok (an_input (GotMessage (lg_stream l) (MBlockFailed (lg_block l) 0)) [] false chk)
              | None => Err ValueError
              end
  | Wait c t => Ok (an_input GotNothing c t chk)
  end.
Definition no_init : nat -> res unit := fun _ => Ok tt.
Section Script.
  Variables (up down : block -> list block) (maxr : nat -> Z) (fuel : nat) (chk : nat -> block -> check_result).
  (* the inputs and what the event loop does with them; OutOfFuel if the commands make no sense *)
  Fixpoint script (cs : list cmd) (x : server) : list input * res server :=
    match cs with
    | [] => ([], Ok x)
    | c :: r =>
        match (if sv_stop x then Err ValueError else input_of chk x c) with
        | Err _ => ([], Err OutOfFuel)
        | Ok i => match iteration up down maxr fuel no_init i x with
                  | Err e => ([i], Err e)
                  | Ok y => let (ins, z) := script r y in (i :: ins, z)
                  end
        end
    end.
  Lemma script_loop cs : forall x ins z, script cs x = (ins, z) -> z <> Err OutOfFuel ->
    event_loop up down maxr fuel no_init ins x = z.
  Proof.
    induction cs as [|c cs IH]; intros x ins z; cbn [script].
    - intros H _. injection H as <- <-. cbn. destruct (sv_stop x); reflexivity.
    - destruct (sv_stop x) eqn:S; [intros H; injection H as <- <-; congruence|].
      destruct (input_of chk x c) as [i|]; [|intros H; injection H as <- <-; congruence].
      destruct (iteration _ _ _ _ _ _ _) as [y|] eqn:E.
      + destruct (script cs y) as [ins' z'] eqn:E'. intros H N. injection H as <- <-.
        cbn [event_loop]. rewrite S, E. cbn [bind]. apply IH; auto.
      + intros H N. injection H as <- <-. cbn [event_loop]. rewrite S, E. reflexivity.
  Qed.
End Script.
Definition serve (tasks : list task) (fuel : nat) chk (cs : list cmd) : res (dgraph * sched * list input * res server) :=
  '(d, s0) <- sched_init tasks ;;
  x <- server_init no_init (map t_id tasks) false s0 ;;
  let (ins, z) := script (dg_up idl idl d) (dg_down idl idl d) (dg_max_retries d) fuel chk cs x in
  Ok (d, s0, ins, z).

Definition fair_b (tasks : list task) (d : dgraph) (i : input) : bool :=
  match i_get i with
  | GotMessage _ m =>
      match m with
      | MAcquire t => existsb (fun x => Nat.eqb (t_id x) t) tasks
      | MRelease pb => mem_b (pb_block pb) (pblocks d) && (status_eqb (pb_status pb) SUCCESS || status_eqb (pb_status pb) FAILED)
      | MBlockFailed pb _ => mem_b (pb_block pb) (pblocks d)
      | _ => false
      end
  | GotError _ => false
  | _ => true
  end && match i_health i with Ok _ => true | Err _ => false end.
Lemma fair_b_ok tasks d s0 i : pipe_ok tasks -> sched_init tasks = Ok (d, s0) -> fair_b tasks d i = true -> fair tasks i.
Proof.
  intros PO E H. unfold fair_b in H. apply andb_prop in H. destruct H as [H1 H2].
  destruct (pipe_fresh tasks d s0 PO E) as [_ [DK _]].
  assert (M : forall b, mem_b b (pblocks d) = true -> pipe_block tasks b).
  { intros b Hb. apply mem_b_true in Hb. apply (in_pblocks tasks PO d DK). exact Hb. }
  split.
  - destruct (i_get i) as [st m| | |e]; auto; [|discriminate]. destruct m; try discriminate; cbn.
    + apply existsb_exists in H1. destruct H1 as [x [Hx Ex]]. apply Nat.eqb_eq in Ex. eauto.
    + apply andb_prop in H1. destruct H1 as [H1 H3]. split; auto. destruct (pb_status pb); cbn in H3; auto; discriminate.
    + auto.
  - destruct (i_health i) as [[]|]; [reflexivity|discriminate].
Qed.
Definition enough_b (d : dgraph) (fuel : nat) : bool :=
  Nat.leb (length (pblocks d) * (length (pblocks d) + 1) + length (pblocks d) + 1) fuel.
Lemma enough_b_ok tasks d s0 fuel : pipe_ok tasks -> sched_init tasks = Ok (d, s0) -> enough_b d fuel = true -> fuel_ok tasks fuel.
Proof.
  intros PO E H. apply Nat.leb_le in H. destruct (pipe_fresh tasks d s0 PO E) as [_ [DK _]]. intros l N Hl.
  assert (length l <= length (pblocks d))%nat.
  { apply NoDup_incl_length; auto. intros b Hb. apply (in_pblocks tasks PO d DK). auto. }
  unfold enough. nia.
Qed.
Lemma serve_any tasks fuel chk cs (P : dgraph -> res server -> bool) : pipe_ok tasks ->
  match serve tasks fuel chk cs with
  | Ok (d, s0, ins, z) => match z with Err OutOfFuel => false | _ => true end && enough_b d fuel && forallb (fair_b tasks d) ins && P d z
  | Err _ => false
  end = true ->
  exists d s0 ins z, sched_init tasks = Ok (d, s0) /\ fuel_ok tasks fuel /\ Forall (fair tasks) ins /\
    server_pipe tasks idl idl d fuel no_init false ins s0 = z /\ P d z = true.
Proof.
  intros PO. unfold serve. destruct (sched_init tasks) as [[d s0]|] eqn:E; [|discriminate]. cbn [bind].
  destruct (server_init _ _ _ _) as [x|] eqn:Ei; [|discriminate]. cbn [bind].
  destruct (script _ _ _ _ _ _ _) as [ins z] eqn:Es. intros H.
  apply andb_prop in H. destruct H as [H HP]. apply andb_prop in H. destruct H as [H H2]. apply andb_prop in H. destruct H as [H0 H1].
  exists d, s0, ins, z. split; auto. split; [eapply enough_b_ok; eauto|]. split; [|split; [|exact HP]].
  - apply Forall_forall. intros i Hi. rewrite forallb_forall in H2. eapply fair_b_ok; eauto.
  - unfold server_pipe. rewrite Ei. cbn [bind]. eapply script_loop; eauto. intros ->. discriminate.
Qed.
Lemma serve_run tasks fuel chk cs (P : dgraph -> server -> bool) : pipe_ok tasks -> edges_ok tasks ->
  match serve tasks fuel chk cs with
  | Ok (d, s0, ins, Ok y) => enough_b d fuel && forallb (fair_b tasks d) ins && P d y
  | _ => false
  end = true ->
  exists d s0 ins y, server_run_to tasks idl idl d s0 fuel no_init false ins y /\ P d y = true.
Proof.
  intros PO EO H.
  destruct (serve_any tasks fuel chk cs (fun d z => match z with Ok y => P d y | Err _ => false end) PO) as [d [s0 [ins [z [E [F [G [S Q]]]]]]]].
  { destruct (serve tasks fuel chk cs) as [[[[d s0] ins] [y|]]|]; try discriminate. exact H. }
  destruct z as [y|]; [|discriminate]. exists d, s0, ins, y. split; auto. constructor; auto using idl_order.
  apply (run_dual tasks idl idl d s0 fuel [] s0); auto. constructor; auto using idl_order. constructor.
Qed.
Definition asks t st n := map (fun k => Ask t (st + k)) (seq 0 n).
Definition rets t s l := map (fun i => Ret (t, i) s) l.

(* C30 without the condition that upstream() and downstream() are inverse: ten workers return the
   blocks of ce_u, then a block of ce_d is handed out a second time, and the assertion in
   notify_block_sent fails. *)
Theorem C30_assertion_fails_refuted : exists d s0 fuel ins,
  pipe_ok [ce_d; ce_u] /\ sched_init [ce_d; ce_u] = Ok (d, s0) /\ fuel_ok [ce_d; ce_u] fuel /\ Forall (fair [ce_d; ce_u]) ins /\
  server_pipe [ce_d; ce_u] idl idl d fuel no_init false ins s0 = Err AssertionError.
Proof.
  assert (PO : pipe_ok [ce_d; ce_u]) by pipe_ok_tac.
  destruct (serve_any [ce_d; ce_u] 400 no_check (asks 1 0 10 ++ rets 1 SUCCESS [9; 8; 7; 6; 5; 4; 3; 2; 1; 0] ++ asks 2 20 12)
    (fun d z => match z with Err AssertionError => true | _ => false end) PO) as [d [s0 [ins [z [E [F [G [S Q]]]]]]]].
  { vm_compute. reflexivity. }
  exists d, s0, 400%nat, ins. split; [exact PO|]. split; [exact E|]. split; [exact F|]. split; [exact G|].
  destruct z as [|[]]; try discriminate. exact S.
Qed.
Print Assumptions C30_assertion_fails_refuted.

(* [x] stays as it is, answering nobody, for as long as nothing comes *)
Definition stuck (d : dgraph) (fuel : nat) (x : server) : Prop := forall idles, Forall idle idles ->
  exists y l, event_loop (dg_up idl idl d) (dg_down idl idl d) (dg_max_retries d) fuel no_init idles x = Ok y /\
    sv_s y = sv_s x /\ sv_stop y = false /\ sv_tr y = l ++ sv_tr x /\ forall a, In a l -> no_answer a.
Definition stuck_b (x : server) : bool :=
  match find (fun e => match snd e with [] => false | _ => true end) (sv_pend x) with
  | Some (t, _) => match readyl (sv_s x) t with [] => true | _ => false end && negb (ts_pending (s_st (sv_s x) t) =? 0)
                   && negb (sv_stop x) && negb (all_done (sv_s x))
  | None => false
  end.
Lemma find_split {A} (P : A -> bool) l a : find P l = Some a -> exists l1 l2, l = l1 ++ a :: l2 /\ P a = true /\ forall b, In b l1 -> P b = false.
Proof.
  induction l as [|b l IH]; cbn; [discriminate|]. destruct (P b) eqn:E.
  - intros H. injection H as <-. exists [], l. repeat split; auto. intros ? [].
  - intros H. destruct (IH H) as [l1 [l2 [-> [H1 H2]]]]. exists (b :: l1), l2. repeat split; auto. intros c [<-|Hc]; auto.
Qed.
Lemma stuck_ok tasks d s0 fuel ins x : server_run_to tasks idl idl d s0 fuel no_init false ins x -> stuck_b x = true -> stuck d fuel x.
Proof.
  intros R H idles FI. unfold stuck_b in H. destruct (find _ _) as [[t q]|] eqn:Ef; [|discriminate].
  apply find_split in Ef. destruct Ef as [p1 [p2 [P [Q1 Q2]]]]. cbn [snd] in Q1.
  apply andb_prop in H. destruct H as [H H4]. apply andb_prop in H. destruct H as [H H3]. apply andb_prop in H. destruct H as [H1 H2].
  destruct (idle_forever (pblocks d) (dg_up idl idl d) (dg_down idl idl d) (root_seeds d) (dg_max_retries d) fuel (a_good _ _ _ _ _ _ _ _ _ _ R)
    (a_enough _ _ _ _ _ _ _ _ _ _ R) s0 (a_fresh _ _ _ _ _ _ _ _ _ _ R) (map t_id tasks) (a_known _ _ _ _ _ _ _ _ _ _ R) no_init
    (sr_callback _ _ _ _ _ _ _ _ _ _ R) idles x p1 t q p2 (a_sinv _ _ _ _ _ _ _ _ _ _ R) FI P) as [y [l [Ey [Sy [_ [Ky [_ [Ty Fy]]]]]]]].
  - intros u r Hr. apply Q2 in Hr. cbn in Hr. destruct r; [reflexivity|discriminate].
  - destruct q; discriminate.
  - destruct (readyl _ _); [reflexivity|discriminate].
  - intros Z. rewrite Z in H2. discriminate.
  - apply Bool.negb_true_iff. exact H3.
  - apply Bool.negb_true_iff. exact H4.
  - exists y, l. repeat (split; auto). rewrite Forall_forall in Fy. auto.
Qed.
Definition can_b (d : dgraph) (h : history) (t : nat) (b : block) : bool :=
  Nat.eqb (b_task b) t && forallb (succ_b h) (dg_up idl idl d b) && negb (n_released h b <? n_handed h b) &&
  negb (succ_b h b) && negb (perm_b d h b).
Lemma can_b_ok tasks d s0 fuel h s t b : pipe_run tasks idl idl d s0 fuel h s -> In b (pblocks d) -> can_b d h t b = true ->
  can_run tasks (dg_up idl idl d) (dg_max_retries d) h t b.
Proof.
  intros R Hb H. unfold can_b in H.
  apply andb_prop in H. destruct H as [H H5]. apply andb_prop in H. destruct H as [H H4].
  apply andb_prop in H. destruct H as [H H3]. apply andb_prop in H. destruct H as [H1 H2].
  split; [apply (run_in _ _ _ _ _ _ _ _ R); auto|]. split; [apply Nat.eqb_eq; auto|]. split; [|split; [|split]].
  - intros a Ha. rewrite forallb_forall in H2. apply succ_b_true. auto.
  - unfold held. apply Bool.negb_true_iff, Z.ltb_ge in H3. lia.
  - rewrite <- succ_b_true. intros X. rewrite X in H4. discriminate.
  - rewrite <- perm_b_true. intros X. rewrite X in H5. discriminate.
Qed.
Definition unheld_b (d : dgraph) (h : history) : bool := forallb (fun b => negb (n_released h b <? n_handed h b)) (pblocks d).
Lemma unheld_b_ok tasks d s0 fuel h s : pipe_run tasks idl idl d s0 fuel h s -> unheld_b d h = true ->
  forall b, pipe_block tasks b -> ~ held h b.
Proof.
  intros R H b Hb. apply (run_in _ _ _ _ _ _ _ _ R) in Hb. unfold unheld_b in H. rewrite forallb_forall in H.
  apply H, Bool.negb_true_iff, Z.ltb_ge in Hb. unfold held. lia.
Qed.
(* a block that is not settled: it did not succeed, it did not fail for good, and it is not in a set
   that contains what depends on a failed block *)
Definition open_b (d : dgraph) (h : history) (b : block) : bool :=
  let C := after (length (pblocks d)) d (failed_in h) [] in
  closed_b d (failed_in h) C && negb (succ_b h b || perm_b d h b || mem_b b C).
Lemma open_b_ok tasks d s0 fuel h s b : pipe_run tasks idl idl d s0 fuel h s -> pipe_block tasks b -> open_b d h b = true ->
  ~ settled (dg_up idl idl d) (dg_max_retries d) h b.
Proof.
  intros R Hb H D. unfold open_b in H. apply andb_prop in H. destruct H as [E1 E4].
  assert (X : succ_b h b || perm_b d h b || mem_b b (after (length (pblocks d)) d (failed_in h) []) = true).
  { rewrite !Bool.orb_true_iff, succ_b_true, perm_b_true, mem_b_true. destruct D as [D|[D|D]]; auto.
    right. eapply closed_b_ok; eauto. }
  rewrite X in E4. discriminate.
Qed.
(* every block is settled *)
Definition settled_b (d : dgraph) (h : history) : bool :=
  forallb (fun b => succ_b h b || perm_b d h b ||
    existsb (fun a => perm_b d h a || existsb (fun c => mem_b c (dg_up idl idl d a) && perm_b d h c) (pblocks d)) (dg_up idl idl d b)) (pblocks d).
Lemma settled_b_ok tasks d s0 fuel h s : pipe_run tasks idl idl d s0 fuel h s -> settled_b d h = true ->
  forall b, pipe_block tasks b -> settled (dg_up idl idl d) (dg_max_retries d) h b.
Proof.
  intros R E2 b Hb. unfold settled_b in E2. rewrite forallb_forall in E2. apply (run_in _ _ _ _ _ _ _ _ R), E2 in Hb.
  rewrite !Bool.orb_true_iff, succ_b_true, perm_b_true in Hb. destruct Hb as [[Hb|Hb]|Hb]; unfold settled; auto.
  apply existsb_exists in Hb. destruct Hb as [a [Ha Hb]]. right. right.
  rewrite Bool.orb_true_iff, perm_b_true in Hb. destruct Hb as [Hb|Hb].
  - exists a. split; auto. apply anc_one; auto.
  - apply existsb_exists in Hb. destruct Hb as [c [_ Hc]]. rewrite Bool.andb_true_iff, mem_b_true, perm_b_true in Hc.
    exists c. split; [tauto|]. apply anc_more with a; auto. apply anc_one. tauto.
Qed.
Local Notation "'hist_of' y" := (hist (sv_tr y)) (at level 10, y at level 9).

(* C37: three tasks in a row, each block of which needs one block.  The client of task 3 asks while
   nothing of task 3 can run and stays first in line; the client of task 2 waits though the second
   block of task 2 can run.  Nothing is in flight: the server hangs. *)
Definition ce_c1 : task := Task 1 (Roi [0] [2]) (Roi [0] [1]) (Roi [0] [1]) false Valid 1 0 [].
Definition ce_c2 : task := Task 2 (Roi [0] [2]) (Roi [0] [1]) (Roi [0] [1]) false Valid 1 0 [ce_c1].
Definition ce_c3 : task := Task 3 (Roi [0] [2]) (Roi [0] [1]) (Roi [0] [1]) false Valid 1 0 [ce_c2].
Definition ce_row := [ce_c3; ce_c2; ce_c1].
Lemma ce_row_ok : pipe_ok ce_row.
Proof. unfold ce_row. pipe_ok_tac. Qed.
Lemma ce_row_edges : edges_ok ce_row.
Proof.
  intros t u Ht Hu. unfold ce_row in *. pipe_tac;
  (constructor; try discriminate;
   [intros i Hi; cbn in Hi; destruct i as [|i]; [reflexivity|lia]
   |intros [k [[L _] X]]; specialize (X O); cbn in *; lia..]).
Qed.
Definition row_script : list cmd :=
  [Ask 1 1; Ret (1%nat, 0) SUCCESS; Ask 2 2; Ret (2%nat, 0) SUCCESS; Ask 1 1; Ask 3 3; Ret (3%nat, 0) SUCCESS;
   Ask 3 3; Ask 2 2; Ret (1%nat, 1) SUCCESS; Ask 1 1; Wait [] true].
Theorem C37_starved_refuted : exists d s0 fuel ins x b,
  server_run_to ce_row idl idl d s0 fuel no_init false ins x /\
  (forall a, pipe_block ce_row a -> ~ held (hist (sv_tr x)) a) /\
  can_run ce_row (dg_up idl idl d) (dg_max_retries d) (hist (sv_tr x)) 2 b /\
  (exists q, In (2%nat, 2%nat :: q) (sv_pend x)) /\
  stuck d fuel x.
Proof.
  destruct (serve_run ce_row 100 no_check row_script
    (fun d y => unheld_b d (hist_of y) && some_block (can_b d (hist_of y) 2) d &&
       existsb (fun e => Nat.eqb (fst e) 2 && match snd e with 2%nat :: _ => true | _ => false end) (sv_pend y) && stuck_b y)
    ce_row_ok ce_row_edges) as [d [s0 [ins [y [R H]]]]].
  { vm_compute. reflexivity. }
  pose proof (a_pipe _ _ _ _ _ _ _ _ _ _ R) as PR.
  apply andb_prop in H. destruct H as [H H4]. apply andb_prop in H. destruct H as [H H3]. apply andb_prop in H. destruct H as [H1 H2].
  apply existsb_exists in H2. destruct H2 as [b [Hb H2]].
  exists d, s0, 100%nat, ins, y, b. split; [exact R|]. split; [eapply unheld_b_ok; eauto|]. split; [eapply can_b_ok; eauto|]. split.
  - apply existsb_exists in H3. destruct H3 as [[t q] [Hq E]]. cbn [fst snd] in E. apply andb_prop in E. destruct E as [E1 E2].
    apply Nat.eqb_eq in E1. subst t. destruct q as [|[|[|[|?]]] q]; try discriminate. exists q. exact Hq.
  - eapply stuck_ok; eauto.
Qed.
Print Assumptions C37_starved_refuted.

(* C35: a single task, no context, two blocks failed for good, so that some blocks are counted as
   orphaned twice.  Depending on the order of the other messages the server stops while a block is in
   flight, or never stops. *)
Lemma ce_sq_edges : edges_ok [ce_sq].
Proof. apply single_edges. intros t [<-|[]]. reflexivity. Qed.
Definition sq_script : list cmd :=
  asks 1 0 4 ++ rets 1 SUCCESS [sq 2 2; sq 2 4; sq 4 2; sq 4 4] ++
  asks 1 4 4 ++ rets 1 FAILED [sq 4 3] ++ rets 1 SUCCESS [sq 2 3; sq 2 1] ++
  asks 1 8 2 ++ rets 1 SUCCESS [sq 1 2; sq 1 4].
Theorem C35_stops_early_refuted : exists d s0 fuel ins y b,
  server_run_to [ce_sq] idl idl d s0 fuel no_init false ins y /\ sv_stop y = true /\
  pipe_block [ce_sq] b /\ held (hist (sv_tr y)) b /\ ~ settled (dg_up idl idl d) (dg_max_retries d) (hist (sv_tr y)) b.
Proof.
  destruct (serve_run [ce_sq] 400 no_check (sq_script ++ rets 1 FAILED [sq 4 1] ++ asks 1 12 2 ++ rets 1 SUCCESS [sq 1 1])
    (fun d y => sv_stop y && some_block (fun b => (n_released (hist_of y) b <? n_handed (hist_of y) b) && open_b d (hist_of y) b) d)
    ce_sq_ok ce_sq_edges) as [d [s0 [ins [y [R H]]]]].
  { vm_compute. reflexivity. }
  pose proof (a_pipe _ _ _ _ _ _ _ _ _ _ R) as PR.
  apply andb_prop in H. destruct H as [H1 H2]. apply existsb_exists in H2. destruct H2 as [b [Hb H2]].
  apply andb_prop in H2. destruct H2 as [H2 H3]. apply Z.ltb_lt in H2. apply (run_in _ _ _ _ _ _ _ _ PR) in Hb.
  exists d, s0, 400%nat, ins, y, b. split; [exact R|]. split; auto. split; auto. split; auto. eapply open_b_ok; eauto.
Qed.
Theorem C35_hangs_refuted : exists d s0 fuel ins y,
  server_run_to [ce_sq] idl idl d s0 fuel no_init false ins y /\
  (forall b, pipe_block [ce_sq] b -> settled (dg_up idl idl d) (dg_max_retries d) (hist (sv_tr y)) b) /\
  (forall b, pipe_block [ce_sq] b -> ~ held (hist (sv_tr y)) b) /\ stuck d fuel y.
Proof.
  destruct (serve_run [ce_sq] 400 no_check (sq_script ++ asks 1 12 2 ++ rets 1 SUCCESS [sq 1 1; sq 1 3] ++ rets 1 FAILED [sq 4 1] ++ asks 1 20 1)
    (fun d y => settled_b d (hist_of y) && unheld_b d (hist_of y) && stuck_b y)
    ce_sq_ok ce_sq_edges) as [d [s0 [ins [y [R H]]]]].
  { vm_compute. reflexivity. }
  pose proof (a_pipe _ _ _ _ _ _ _ _ _ _ R) as PR.
  apply andb_prop in H. destruct H as [H H3]. apply andb_prop in H. destruct H as [H1 H2].
  exists d, s0, 400%nat, ins, y. split; [exact R|].
  split; [eapply settled_b_ok; eauto|]. split; [eapply unheld_b_ok; eauto|eapply stuck_ok; eauto].
Qed.
Print Assumptions C35_stops_early_refuted.
Print Assumptions C35_hangs_refuted.

(* C36: likewise clients are told to shut down while a block of their task has not been handed out,
   and is neither done nor failed nor orphaned *)
Definition ce_w : task := Task 1 (Roi [0; 0] [8; 6]) (Roi [0; 0] [3; 3]) (Roi [1; 1] [1; 1]) true Valid 1 0 [].
Lemma ce_w_ok : pipe_ok [ce_w].
Proof. pipe_ok_tac. Qed.
Lemma ce_w_edges : edges_ok [ce_w].
Proof. apply single_edges. intros t [<-|[]]. reflexivity. Qed.
Definition wq (x y : Z) : Z :=
  match task_graph ce_w with
  | Ok g => match find (fun b => coord_eqb (offset (b_write b)) [x; y]) (all_blocks g) with Some b => b_num b | None => -1 end
  | Err _ => -1
  end.
Definition w_script : list cmd :=
  asks 1 0 6 ++ rets 1 SUCCESS [wq 2 2; wq 2 4; wq 4 2; wq 4 4; wq 6 2; wq 6 4] ++
  asks 1 10 6 ++ rets 1 FAILED [wq 6 3] ++ rets 1 SUCCESS [wq 4 3; wq 4 1; wq 2 1; wq 2 3] ++
  asks 1 20 4 ++ rets 1 SUCCESS [wq 3 2; wq 3 4] ++ rets 1 FAILED [wq 6 1] ++ rets 1 SUCCESS [wq 1 2] ++ asks 1 30 6.
Fixpoint last_shut (tr : list act) : option (nat * nat * list act) :=
  match tr with
  | [] => None
  | AShutdown t st :: l => Some (t, st, l)
  | _ :: l => last_shut l
  end.
Lemma last_shut_ok tr t st l : last_shut tr = Some (t, st, l) -> exists l2, tr = l2 ++ AShutdown t st :: l.
Proof.
  induction tr as [|a tr IH]; [discriminate|]. intros H.
  assert (D : (exists u su, a = AShutdown u su) \/ last_shut (a :: tr) = last_shut tr) by (destruct a; eauto).
  destruct D as [[u [su ->]]|D].
  - cbn in H. injection H as -> -> ->. exists []. reflexivity.
  - rewrite D in H. destruct (IH H) as [l2 ->]. exists (a :: l2). reflexivity.
Qed.
Theorem C36_shutdown_early_refuted : exists d s0 fuel ins y l2 t st l1 b,
  server_run_to [ce_w] idl idl d s0 fuel no_init false ins y /\
  sv_tr y = l2 ++ AShutdown t st :: l1 /\ pipe_block [ce_w] b /\ b_task b = t /\
  ~ held (hist l1) b /\ ~ settled (dg_up idl idl d) (dg_max_retries d) (hist l1) b.
Proof.
  destruct (serve_run [ce_w] 1000 no_check w_script
    (fun d y => match last_shut (sv_tr y) with
                | Some (t, _, l) => some_block (fun b => Nat.eqb (b_task b) t && negb (n_released (hist l) b <? n_handed (hist l) b) &&
                                          open_b d (hist_of y) b) d
                | None => false
                end)
    ce_w_ok ce_w_edges) as [d [s0 [ins [y [R H]]]]].
  { vm_compute. reflexivity. }
  pose proof (a_pipe _ _ _ _ _ _ _ _ _ _ R) as PR.
  destruct (last_shut (sv_tr y)) as [[[t st] l]|] eqn:El; [|discriminate]. apply last_shut_ok in El. destruct El as [l2 El].
  apply existsb_exists in H. destruct H as [b [Hb H]]. apply andb_prop in H. destruct H as [H H3].
  apply andb_prop in H. destruct H as [H1 H2]. apply Nat.eqb_eq in H1. apply Bool.negb_true_iff, Z.ltb_ge in H2.
  apply (run_in _ _ _ _ _ _ _ _ PR) in Hb.
  exists d, s0, 1000%nat, ins, y, l2, t, st, l, b. split; [exact R|]. split; auto. split; auto. split; auto.
  split; [unfold held; lia|]. intros S. eapply open_b_ok; [exact PR|exact Hb|exact H3|].
  rewrite El, hist_app. change (AShutdown t st :: l) with ([AShutdown t st] ++ l). rewrite hist_app.
  apply settled_mono. apply settled_mono. exact S.
Qed.
Print Assumptions C36_shutdown_early_refuted.

(* C49: the request of a client waits; the client disconnects; then its request is answered.  The
   block is sent to the closed stream, is found lost at once, and counts as a failed attempt - here
   the only one it gets: the server finishes with a failed block no worker has ever seen. *)
Definition ce_x : task := Task 1 (Roi [0] [4]) (Roi [0] [3]) (Roi [1] [1]) true Valid 1 0 [].
Lemma ce_x_ok : pipe_ok [ce_x].
Proof. pipe_ok_tac. Qed.
Lemma ce_x_edges : edges_ok [ce_x].
Proof. apply single_edges. intros t [<-|[]]. reflexivity. Qed.
Definition dead_9 : input := an_input GotNothing [9%nat] true no_check.
Theorem C49_dead_client_refuted : exists d s0 fuel ins x y b,
  server_run_to [ce_x] idl idl d s0 fuel no_init false ins x /\
  i_closed dead_9 9 = true /\
  iteration (dg_up idl idl d) (dg_down idl idl d) (dg_max_retries d) fuel no_init dead_9 x = Ok y /\
  (forall st, last_sent (sv_tr x) b <> Some st) /\ last_sent (sv_tr y) b = Some 9%nat /\
  perm_failed (dg_max_retries d) (hist (sv_tr y)) b /\ sv_stop y = true.
Proof.
  destruct (serve_run [ce_x] 400 no_check [Ask 1 8; Ask 1 9; Ret (1%nat, 2) SUCCESS]
    (fun d x => match iteration (dg_up idl idl d) (dg_down idl idl d) (dg_max_retries d) 400 no_init dead_9 x with
                | Ok y => sv_stop y && some_block (fun b => match last_sent (sv_tr x) b, last_sent (sv_tr y) b with
                                                            | None, Some 9%nat => perm_b d (hist_of y) b | _, _ => false end) d
                | Err _ => false
                end) ce_x_ok ce_x_edges) as [d [s0 [ins [x [R H]]]]].
  { vm_compute. reflexivity. }
  destruct (iteration _ _ _ _ _ _ _) as [y|] eqn:E in H; [|discriminate]. apply andb_prop in H. destruct H as [H1 H2].
  apply existsb_exists in H2. destruct H2 as [b [_ H2]].
  destruct (last_sent (sv_tr x) b) as [?|] eqn:L; [discriminate|].
  destruct (last_sent (sv_tr y) b) as [n|] eqn:L'; [|discriminate].
  assert (n = 9%nat) by (do 10 (destruct n as [|n]; try discriminate); reflexivity). subst n.
  exists d, s0, 400%nat, ins, x, y, b. split; [exact R|]. split; [reflexivity|]. split; [exact E|].
  split; [intros st; rewrite L; discriminate|]. split; [exact L'|]. split; auto.
  do 9 (cbv iota beta in H2). apply perm_b_true. exact H2.
Qed.
Print Assumptions C49_dead_client_refuted.

(* C35: without the condition of C35_started_first_partial.  check_function skips the first block of
   task 1 while the second is handed out; then a block of task 2 can run, but the task has not been
   started; a client of an earlier run asks for it and gets a block. *)
Definition skip_first : nat -> block -> check_result := fun _ b => if bid_eqb (bid b) (1%nat, 0) then CheckTrue else CheckFalse.
Theorem C35_sent_before_start_refuted : exists d s0 fuel ins y l2 st pb l1,
  server_run_to ce_row idl idl d s0 fuel no_init false ins y /\
  sv_tr y = l2 ++ ASend st pb :: l1 /\ forall ts, ~ In (ANote (NStart (b_task (pb_block pb)) ts)) l1.
Proof.
  pose (is_2 := fun a => match a with ASend _ pb => Nat.eqb (b_task (pb_block pb)) 2 | _ => false end).
  pose (is_start := fun a => match a with ANote (NStart 2%nat _) => true | _ => false end).
  destruct (serve_run ce_row 100 skip_first [Ask 1 1; Ask 2 2]
    (fun d y => existsb is_2 (sv_tr y) && negb (existsb is_start (sv_tr y))) ce_row_ok ce_row_edges) as [d [s0 [ins [y [R H]]]]].
  { vm_compute. reflexivity. }
  apply andb_prop in H. destruct H as [H1 H2]. apply existsb_exists in H1. destruct H1 as [a [Ha H1]].
  apply in_split in Ha. destruct Ha as [l2 [l1 El]]. destruct a as [| | | |st pb| | | | |]; try discriminate.
  cbn in H1. apply Nat.eqb_eq in H1.
  exists d, s0, 100%nat, ins, y, l2, st, pb, l1. split; [exact R|]. split; [exact El|]. rewrite H1. intros ts Hn.
  apply Bool.negb_true_iff, Bool.not_true_iff_false in H2. apply H2, existsb_exists. exists (ANote (NStart 2%nat ts)). split; [|reflexivity].
  rewrite El. apply in_or_app. right. right. exact Hn.
Qed.
Print Assumptions C35_sent_before_start_refuted.

(* A run that meets the conditions of the theorems in P_Server: three tasks in a row, each block may
   be tried twice.  A client disconnects with a block, which is then done by another; a block of the
   second task fails for good.  The server told clients to shut down, and it stopped, all tasks
   having been reported. *)
Definition ex_r (n : nat) (ups : list task) : task := Task n (Roi [0] [2]) (Roi [0] [1]) (Roi [0] [1]) false Valid 1 1 ups.
Definition ex_row : list task := let a := ex_r 1 [] in let b := ex_r 2 [a] in let c := ex_r 3 [b] in [a; b; c].
Lemma ex_row_ok : pipe_ok ex_row.
Proof. unfold ex_row, ex_r. pipe_ok_tac. Qed.
Lemma ex_row_edges : edges_ok ex_row.
Proof.
  intros t u Ht Hu. unfold ex_row, ex_r in *. pipe_tac;
  (constructor; try discriminate;
   [intros i Hi; cbn in Hi; destruct i as [|i]; [reflexivity|lia]
   |intros [k [[L _] X]]; specialize (X O); cbn in *; lia..]).
Qed.
Definition ex_row_script : list cmd :=
  [Ask 1 1; Ask 1 2; Wait [2%nat] true; Ask 1 3; Ret (1%nat, 0) SUCCESS; Ret (1%nat, 1) SUCCESS; Ask 1 3; Ask 2 4; Ask 2 5;
   Ret (2%nat, 0) SUCCESS; Fail (2%nat, 1); Ask 3 6; Ask 3 7; Ask 2 4; Fail (2%nat, 1); Wait [] false; Ret (3%nat, 0) SUCCESS].
Example server_example : exists d s0 fuel ins y b,
  server_run_to ex_row idl idl d s0 fuel no_init false ins y /\ few_upstream ex_row idl idl d /\ sv_stop y = true /\
  sv_book y = [] /\ perm_failed (dg_max_retries d) (hist (sv_tr y)) b /\ n_handed (hist (sv_tr y)) b = 2 /\
  (exists pb, In (ALost pb 2) (sv_tr y)) /\ In (AShutdown 1 3) (sv_tr y) /\ In (AShutdown 3 7) (sv_tr y) /\
  (forall t, In t [1; 2; 3]%nat -> exists ts ts', In (ANote (NStart t ts)) (sv_tr y) /\ In (ANote (NDone t ts')) (sv_tr y)).
Proof.
  destruct (serve_run ex_row 100 no_check ex_row_script
    (fun d y => forallb (fun b => Nat.leb (length (dg_up idl idl d b)) 2) (pblocks d) && sv_stop y &&
       match sv_book y with [] => true | _ => false end &&
       some_block (fun b => perm_b d (hist_of y) b && (n_handed (hist_of y) b =? 2)) d &&
       existsb (fun a => match a with ALost _ 2%nat => true | _ => false end) (sv_tr y) &&
       existsb (fun a => match a with AShutdown 1%nat 3%nat => true | _ => false end) (sv_tr y) &&
       existsb (fun a => match a with AShutdown 3%nat 7%nat => true | _ => false end) (sv_tr y) &&
       forallb (fun t => existsb (fun a => match a with ANote (NStart u _) => Nat.eqb t u | _ => false end) (sv_tr y) &&
                         existsb (fun a => match a with ANote (NDone u _) => Nat.eqb t u | _ => false end) (sv_tr y)) [1; 2; 3]%nat)
    ex_row_ok ex_row_edges) as [d [s0 [ins [y [R H]]]]].
  { vm_compute. reflexivity. }
  pose proof (a_pipe _ _ _ _ _ _ _ _ _ _ R) as PR.
  do 7 (apply andb_prop in H; let Q := fresh "Q" in destruct H as [H Q]).
  apply existsb_exists in Q3. destruct Q3 as [b [_ Q3]]. apply andb_prop in Q3. destruct Q3 as [Q3 Q6]. apply Z.eqb_eq in Q6.
  rewrite perm_b_true in Q3. rewrite forallb_forall in H.
  exists d, s0, 100%nat, ins, y, b. split; [exact R|]. split.
  { intros c Hc. apply (run_in _ _ _ _ _ _ _ _ PR), H in Hc. apply Nat.leb_le in Hc. exact Hc. }
  split; auto. split; [destruct (sv_book y); [reflexivity|discriminate]|]. split; auto. split; auto. split.
  { apply existsb_exists in Q2. destruct Q2 as [a [Ha Q2]]. destruct a as [| | | | | | | | |pb [|[|[|?]]]]; try discriminate. eauto. }
  split; [|split].
  - apply existsb_exists in Q1. destruct Q1 as [a [Ha Q1]].
    destruct a as [| | | | |[|[|?]] [|[|[|[|?]]]]| | | |]; try discriminate. exact Ha.
  - apply existsb_exists in Q0. destruct Q0 as [a [Ha Q0]].
    destruct a as [| | | | |[|[|[|[|?]]]] [|[|[|[|[|[|[|[|?]]]]]]]]| | | |]; try discriminate. exact Ha.
  - intros t Ht. rewrite forallb_forall in Q. apply Q, andb_prop in Ht. destruct Ht as [H1 H2].
    apply existsb_exists in H1. destruct H1 as [a [Ha H1]]. destruct a as [| | |[u ts| | | | |]| | | | | |]; try discriminate.
    apply existsb_exists in H2. destruct H2 as [c [Hc H2]]. destruct c as [| | |[| | | |u' ts'|]| | | | | |]; try discriminate.
    apply Nat.eqb_eq in H1, H2. subst. eauto.
Qed.
Print Assumptions server_example.

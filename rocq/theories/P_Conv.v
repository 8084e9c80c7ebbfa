(* run_blockwise (C39, C40) *)
From Coq Require Import Lia Permutation.
From Verif Require Import VecFacts SchedExec PipeFacts PipeRun P_SchedCE P_Sched P_Serial Conv.
Open Scope Z_scope.

Fixpoint tsum (l : list task) : nat := match l with [] => O | t :: r => (tsize t + tsum r)%nat end.
Lemma tsum_app l r : tsum (l ++ r) = (tsum l + tsum r)%nat.
Proof. induction l as [|t l IH]; cbn [app tsum]; lia. Qed.
Lemma tsize_sum t : tsize t = S (tsum (t_ups t)).
Proof.
  destruct t as [a b c d e f w r us]. cbn [t_ups tsize]. f_equal.
  all: induction us as [|u us IH]; cbn [tsum]; [reflexivity|]; rewrite IH; reflexivity.
Qed.

Lemma collect_spec n : forall tasks ids acc, (tsum tasks < n)%nat -> (forall i, In i ids <-> In i (map t_id acc)) ->
  NoDup (map t_id acc) -> exists l, collect n tasks ids acc = Ok l /\ NoDup (map t_id l) /\ incl acc l /\
    (forall x, In x l -> In x acc \/ in_pipe tasks x) /\ (forall x, in_pipe tasks x -> In (t_id x) (map t_id l)).
Proof.
  induction n as [|n IH]; intros tasks ids acc L HI ND; [lia|]. cbn [collect]. destruct tasks as [|t rest].
  - exists acc. repeat split; auto using incl_refl. intros x [t [[] _]].
  - cbn [tsum] in L. rewrite tsize_sum in L.
    assert (SUB : forall x, in_pipe (rest ++ t_ups t) x -> in_pipe (t :: rest) x).
    { intros x [y [Hy Hx]]. apply in_app_or in Hy. destruct Hy as [Hy|Hy]; [exists y; split; [right|]; auto|].
      exists t. split; [left; auto|]. eapply req_up; eauto. }
    assert (SUP : forall x, in_pipe (t :: rest) x -> x = t \/ in_pipe (rest ++ t_ups t) x).
    { intros x [y [[<-|Hy] Hx]].
      - apply requires_inv in Hx. destruct Hx as [->|[u [Hu Hx]]]; auto. right. exists u. split; auto. apply in_or_app; auto.
      - right. exists y. split; auto. apply in_or_app; auto. }
    destruct (mem Nat.eqb (t_id t) ids) eqn:M; cbn [negb].
    + apply mem_nat, HI in M.
      destruct (IH (rest ++ t_ups t) ids acc) as [l [E [N [I [P Q]]]]]; auto; [rewrite tsum_app; lia|].
      exists l. repeat split; auto.
      * intros x Hx. apply P in Hx. destruct Hx; auto.
      * intros x Hx. apply SUP in Hx. destruct Hx as [->|Hx]; auto. apply in_map_iff in M. destruct M as [y [<- Hy]].
        apply in_map, I, Hy.
    + assert (NM : ~ In (t_id t) (map t_id acc)).
      { intros H. apply HI, mem_nat in H. congruence. }
      destruct (IH (rest ++ t_ups t) (sadd Nat.eqb (t_id t) ids) (acc ++ [t])) as [l [E [N [I [P Q]]]]].
      * rewrite tsum_app; lia.
      * intros i. rewrite sadd_nat, HI, map_app, in_app_iff. cbn. intuition.
      * rewrite map_app. apply NoDup_app'; auto; [repeat constructor; intros []|].
        intros x Hx [<-|[]]. auto.
      * exists l. split; auto. split; auto. split; [intros x Hx; apply I, in_or_app; auto|]. split.
        -- intros x Hx. apply P in Hx. destruct Hx as [Hx|Hx]; auto. apply in_app_or in Hx.
           destruct Hx as [Hx|[<-|[]]]; auto. right. exists t. split; [left; auto|constructor].
        -- intros x Hx. apply SUP in Hx. destruct Hx as [->|Hx]; auto. apply in_map, I, in_or_app. right; left; auto.
Qed.

(* C39: the loop ends, and the tasks are those given and required, each once. *)
Theorem C39_closure : forall tasks,
  (forall t t', in_pipe tasks t -> in_pipe tasks t' -> t_id t = t_id t' -> t = t') ->
  exists N, forall n, (N <= n)%nat -> exists l, collect_tasks n tasks = Ok l /\ NoDup l /\
    forall x, In x l <-> in_pipe tasks x.
Proof.
  intros tasks U. exists (S (tsum tasks)). intros n L.
  destruct (collect_spec n tasks [] []) as [l [E [N [_ [P Q]]]]]; auto; [reflexivity|constructor|].
  exists l. split; auto. split; [eapply NoDup_map_inv; eauto|].
  assert (P' : forall x, In x l -> in_pipe tasks x) by (intros x Hx; apply P in Hx; destruct Hx as [[]|]; auto).
  intros x. split; auto. intros Hx. pose proof (Q x Hx) as Hi. apply in_map_iff in Hi. destruct Hi as [y [Ey Hy]].
  rewrite <- (U y x); auto.
Qed.
(* If different tasks have the same id, one task with that id is kept; the ids are still all there. *)
Theorem C39_same_ids : forall tasks, exists N, forall n, (N <= n)%nat -> exists l, collect_tasks n tasks = Ok l /\
  NoDup (map t_id l) /\ (forall x, In x l -> in_pipe tasks x) /\
  (forall x, in_pipe tasks x -> exists y, In y l /\ t_id y = t_id x).
Proof.
  intros tasks. exists (S (tsum tasks)). intros n L.
  destruct (collect_spec n tasks [] []) as [l [E [N [_ [P Q]]]]]; auto; [reflexivity|constructor|].
  exists l. repeat split; auto.
  - intros x Hx. apply P in Hx. destruct Hx as [[]|]; auto.
  - intros x Hx. apply Q, in_map_iff in Hx. destruct Hx as [y [Ey Hy]]. eauto.
Qed.
(* So the servers get a closed list (C28), and the scheduler deals with exactly these tasks. *)
Theorem C39_scheduled : forall tasks n l d s0, pipe_ok tasks -> collect_tasks n tasks = Ok l ->
  sched_init l = Ok (d, s0) ->
  pipe_ok l /\ closed_tasks l /\ (forall b, pipe_block l b <-> pipe_block tasks b) /\
  NoDup (s_order s0) /\ forall i, In i (s_order s0) <-> exists t, in_pipe tasks t /\ t_id t = i.
Proof.
  intros tasks n l d s0 PO E I.
  destruct (C39_closure tasks (po_ids _ PO)) as [N H].
  assert (M : forall a b ts ids acc x, collect a ts ids acc = Ok x -> (a <= b)%nat -> collect b ts ids acc = Ok x).
  { induction a as [|a IH]; intros b ts ids acc x; cbn [collect]; [discriminate|]. intros E' L. destruct b as [|b]; [lia|].
    cbn [collect]. destruct ts as [|t ts]; auto. destruct (if negb _ then _ else _) as [i' a']. eapply IH; eauto. lia. }
  destruct (H (Nat.max N n)) as [l' [E' [ND HL]]]; [lia|].
  unfold collect_tasks in *. rewrite (M _ (Nat.max N n) _ _ _ _ E) in E' by lia. injection E' as <-.
  assert (IP : forall x, in_pipe l x <-> in_pipe tasks x).
  { intros x. split.
    - intros [t [Ht Hx]]. apply HL in Ht. destruct Ht as [t0 [H0 H1]]. exists t0. split; auto. eapply requires_trans; eauto.
    - intros Hx. apply HL in Hx. exists x. split; auto. constructor. }
  assert (PL : pipe_ok l).
  { destruct PO as [P1 P2 P3]. constructor; intros; rewrite IP in *; auto. }
  split; auto. split; [intros x Hx; apply HL, IP, Hx|].
  split; [intros b; unfold pipe_block; split; intros [t [g [Ht Hg]]]; exists t, g; rewrite IP in *; auto|].
  destruct (pipe_fresh l d s0 PL I) as [_ [_ [_ [O ND']]]]. split; auto.
  intros i. rewrite O. split; intros [t [Ht Hi]]; exists t; split; auto; apply IP, Ht.
Qed.
(* a diamond: 1 requires 2 and 3, which both require 4 *)
Example closure_example :
  let mk i us := Task i (Roi [0] [10]) (Roi [0] [1]) (Roi [0] [1]) false Valid 1 0 us in
  let t4 := mk 4%nat [] in let t2 := mk 2%nat [t4] in let t3 := mk 3%nat [t4] in let t1 := mk 1%nat [t2; t3] in
  collect_tasks 10 [t1; t2] = Ok [t1; t2; t3; t4].
Proof. vm_compute. reflexivity. Qed.
Print Assumptions C39_closure.
Print Assumptions C39_same_ids.
Print Assumptions C39_scheduled.

(* the keys of task_states never change *)
Section Order.
  Variables (up down : block -> list block) (maxr : nat -> Z) (fuel : nat).
  Lemma update_order bs : forall s, s_order (update_ready_queue s bs) = s_order s.
  Proof. induction bs as [|b bs IH]; intros s; cbn; auto. unfold update_ready_queue in IH. rewrite IH. reflexivity. Qed.
  Lemma orphans_order os : forall s, s_order (fold_left (fun s o => upd_st s (b_task o) (ts_add_orphaned 1)) os s) = s_order s.
  Proof. induction os as [|b os IH]; intros s; cbn; auto. rewrite IH. reflexivity. Qed.
  Lemma release_order pick s pb s' : release_block up down maxr fuel pick s pb = Ok s' -> s_order s' = s_order s.
  Proof.
    unfold release_block, remove_from_processing. destruct (sremove _ _ _) as [p|]; [|discriminate]. cbn [bind].
    destruct (pb_status pb); try discriminate.
    - destruct (mark_success _ _ _ _ _) as [[sf news]|]; [|discriminate]. cbn [bind]. intros E. injection E as <-.
      rewrite update_order. reflexivity.
    - destruct (_ <=? _).
      + destruct (mark_failure _ _ _ _ _ _ _) as [[sf os]|]; [|discriminate]. cbn [bind]. intros E. injection E as <-.
        rewrite orphans_order. reflexivity.
      + intros E. injection E as <-. reflexivity.
  Qed.
  Lemma acquire_order chk n : forall s t s' r sk, acquire_loop up down maxr fuel chk n s t = Ok (s', r, sk) -> s_order s' = s_order s.
  Proof.
    induction n as [|n IH]; intros s t s' r sk; cbn [acquire_loop]; [discriminate|].
    destruct (get_next _) as [[q nb]|]; [|discriminate]. cbn [bind]. destruct nb as [pb|]; [|intros E; injection E as <- <- <-; auto].
    destruct (precheck _).
    - destruct (release_block _ _ _ _ _ _ _) as [s4|] eqn:Er; [|discriminate]. cbn [bind].
      destruct (acquire_loop _ _ _ _ _ _ _ _) as [[[s5 r5] sk5]|] eqn:Ea; [|discriminate]. cbn [bind].
      intros E. injection E as <- <- <-. rewrite (IH _ _ _ _ _ Ea). apply release_order in Er. rewrite Er. reflexivity.
    - intros E. injection E as <- <- <-. reflexivity.
  Qed.
  Lemma reach_order s0 h s : reach up down maxr fuel s0 h s -> s_order s = s_order s0.
  Proof.
    induction 1 as [|h s t chk s' r sk R IH Ea|h s pick pb s' R IH Hh St Er]; auto.
    - unfold acquire_block in Ea. apply acquire_order in Ea. congruence.
    - apply release_order in Er. congruence.
  Qed.
End Order.

(* C40: where is_done is right (C23), the result tells whether every block is settled - succeeded,
   failed for good or given up - and not whether all succeeded. *)
Theorem C40_true_iff_settled_partial : forall tasks ord ordt d s0 fuel h s,
  pipe_run tasks ord ordt d s0 fuel h s -> inverse tasks ord ordt d -> fuel_ok tasks fuel ->
  apart_failures tasks ord ordt d h ->
  (result s = true <-> forall b, pipe_block tasks b -> settled (dg_up ord ordt d) (dg_max_retries d) h b).
Proof.
  intros tasks ord ordt d s0 fuel h s R IV FO F.
  pose proof (C23_done_partial _ _ _ _ _ _ _ _ R IV FO F) as D. pose proof (pr_ok _ _ _ _ _ _ _ _ R) as PO.
  destruct (pipe_fresh tasks d s0 PO (pr_init _ _ _ _ _ _ _ _ R)) as [_ [_ [_ [O _]]]].
  unfold result. rewrite (reach_order _ _ _ _ _ _ _ (pr_reach _ _ _ _ _ _ _ _ R)), forallb_forall. split.
  - intros H b Hb. apply (proj1 (proj1 (D (b_task b)))); auto. apply H, O. destruct Hb as [t [g [Pt [Eg Gb]]]].
    rewrite (gen_id tasks PO t g b Pt Eg Gb). eauto.
  - intros H i Hi. apply (proj2 (proj1 (D i))). intros b Hb _. apply H, Hb.
Qed.
(* in particular True if all succeeded *)
Theorem C40_success_partial : forall tasks ord ordt d s0 fuel h s,
  pipe_run tasks ord ordt d s0 fuel h s -> inverse tasks ord ordt d -> fuel_ok tasks fuel ->
  (forall b, pipe_block tasks b -> succeeded h b) -> result s = true.
Proof.
  intros tasks ord ordt d s0 fuel h s R IV FO S. apply (C40_true_iff_settled_partial _ _ _ _ _ _ _ _ R IV FO).
  - pose proof (hi_inv _ _ _ _ _ _ _ _ (reach_HInv _ _ _ _ _ _ (run_good _ _ _ _ _ _ _ _ R IV) (run_enough _ _ _ _ _ _ _ _ R FO)
      _ (run_fresh _ _ _ _ _ _ _ _ R) h s (pr_reach _ _ _ _ _ _ _ _ R))) as I.
    intros x u a b w _ _ _ Fa. exfalso. destruct (i_F _ _ _ _ _ _ _ _ _ I a Fa) as [Va _].
    apply (run_in _ _ _ _ _ _ _ _ R) in Va. destruct (i_S _ _ _ _ _ _ _ _ _ I a (S a Va)) as [_ [_ N]]. exact (N Fa).
  - intros b Hb. left. auto.
Qed.
(* The result is True although a block failed, for a single task with a single block. *)
Theorem C40_true_after_failure_refuted : exists tasks d s0 fuel h s b,
  pipe_run tasks idl idl d s0 fuel h s /\ pipe_block tasks b /\ perm_failed (dg_max_retries d) h b /\
  ~ succeeded h b /\ result s = true.
Proof.
  set (t := Task 1 (Roi [0] [10]) (Roi [0] [10]) (Roi [0] [10]) true Valid 1 0 []).
  assert (PO : pipe_ok [t]) by (unfold t; pipe_ok_tac).
  destruct (run_ce [t] 100 (acq 1 1 ++ rel 1 FAILED [0])
    (fun d h s => some_block (fun b => perm_b d h b && negb (succ_b h b)) d && result s) PO) as [d [s0 [h [s [R E]]]]].
  { vm_compute. reflexivity. }
  apply andb_prop in E. destruct E as [E E3]. apply existsb_exists in E. destruct E as [b [Hb E]].
  apply andb_prop in E. destruct E as [E1 E2].
  exists [t], d, s0, 100%nat, h, s, b. split; auto. split; [apply (run_in _ _ _ _ _ _ _ _ R); auto|].
  split; [apply perm_b_true; auto|]. split; auto. rewrite <- succ_b_true. destruct (succ_b h b); auto; discriminate.
Qed.
(* Without multiprocessing the result is true in every run of every pipeline. *)
Theorem C40_serial_always_true_refuted : forall tasks ord ordt d s0 fuel h s,
  pipe_run tasks ord ordt d s0 fuel h s -> tasks <> [] -> truth s = true.
Proof.
  intros tasks ord ordt d s0 fuel h s R N. unfold truth. rewrite (reach_order _ _ _ _ _ _ _ (pr_reach _ _ _ _ _ _ _ _ R)).
  destruct (pipe_fresh tasks d s0 (pr_ok _ _ _ _ _ _ _ _ R) (pr_init _ _ _ _ _ _ _ _ R)) as [_ [_ [_ [O _]]]].
  destruct tasks as [|t tasks]; [congruence|]. destruct (s_order s0) as [|i l]; auto. exfalso.
  apply (O (t_id t)). exists t. split; auto. exists t. split; [left; auto|constructor].
Qed.
Print Assumptions C40_true_iff_settled_partial.
Print Assumptions C40_success_partial.
Print Assumptions C40_true_after_failure_refuted.
Print Assumptions C40_serial_always_true_refuted.

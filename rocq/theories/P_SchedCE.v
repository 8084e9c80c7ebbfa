(* Runs of the model in which properties of the scheduler fail (C12, C16-C24, C27), each a
   theorem about a concrete pipeline and a concrete sequence of calls. *)
From Coq Require Import Lia.
From Verif Require Import SchedExec DGFacts2 PipeRun.
Open Scope Z_scope.

Definition idl {A} (l : list A) : list A := l.
Lemma idl_order {A} : is_order (@idl A).
Proof. intros l. apply Permutation.Permutation_refl. Qed.

Definition run_of (tasks : list task) (fuel : nat) (cs : list call) : res (dgraph * sched * history * sched) :=
  '(d, s0) <- sched_init tasks ;;
  '(h, s) <- exec (dg_up idl idl d) (dg_down idl idl d) (dg_max_retries d) fuel cs s0 ;;
  Ok (d, s0, h, s).

Lemma run_ce tasks fuel cs (P : dgraph -> history -> sched -> bool) : pipe_ok tasks ->
  match run_of tasks fuel cs with Ok (d, s0, h, s) => P d h s | Err _ => false end = true ->
  exists d s0 h s, pipe_run tasks idl idl d s0 fuel h s /\ P d h s = true.
Proof.
  intros PO. unfold run_of. destruct (sched_init tasks) as [[d s0]|] eqn:E; [|discriminate]. cbn [bind].
  destruct (exec _ _ _ _ _ _) as [[h s]|] eqn:Ex; [|discriminate]. cbn [bind]. intros H.
  exists d, s0, h, s. split; auto. constructor; auto using idl_order. eapply exec_reach; eauto.
Qed.

(* the tasks of a pipeline given as a list *)
Ltac pipe_tac :=
  repeat match goal with
  | H : in_pipe _ _ |- _ => destruct H as [? [? H]]
  | H : In _ (_ :: _) |- _ => destruct H as [H|H]
  | H : In _ [] |- _ => destruct H
  | H : _ = ?x |- _ => is_var x; subst x
  | H : In _ (t_ups ?x) |- _ => tryif is_var x then fail else (cbn in H)
  | H : requires ?x _ |- _ => tryif is_var x then fail else (apply requires_inv in H; destruct H as [H|[? [? H]]])
  | H : _ \/ _ |- _ => destruct H as [H|H]
  | H : False |- _ => destruct H
  end.
Ltac geom_tac := constructor; try (split; reflexivity); intros i Hi; cbn in Hi;
  repeat (first [exfalso; lia | destruct i as [|i]; [cbn; lia|]]).
Ltac pipe_ok_tac := constructor; intros; pipe_tac; try geom_tac; try reflexivity; try discriminate.

Definition acq (t n : nat) : list call := map (fun _ => Acq t no_check) (seq 0 n).
Definition rel (t : nat) (st : status) (l : list Z) : list call := map (fun i => Rel (t, i) st first) l.

(* Two one-dimensional tasks, the second reads two more voxels to the right of what it writes. *)
Definition ce_u : task := Task 1 (Roi [0] [10]) (Roi [0] [1]) (Roi [0] [1]) false Valid 1 0 [].
Definition ce_d : task := Task 2 (Roi [0] [10]) (Roi [0] [3]) (Roi [0] [1]) false Valid 1 0 [ce_u].
Lemma ce_d_ok : pipe_ok [ce_d].
Proof. pipe_ok_tac. Qed.

(* a block as the model builds it *)
Definition the_block (tasks : list task) (i : nat * Z) : option block :=
  match sched_init tasks with
  | Ok (d, _) => find (fun b => bid_eqb i (bid b)) (pblocks d)
  | Err _ => None
  end.

Definition pyblock_dec (a b : pyblock) : {a = b} + {a <> b}.
Proof. decide equality; [decide equality|apply block_dec]. Defined.
Definition event_dec (a b : event) : {a = b} + {a <> b}.
Proof. decide equality; try apply block_dec; try apply pyblock_dec; apply Nat.eq_dec. Defined.
Definition mem_b (b : block) (l : list block) : bool := if in_dec block_dec b l then true else false.
Lemma mem_b_true b l : mem_b b l = true <-> In b l.
Proof. unfold mem_b. destruct (in_dec block_dec b l); split; auto; discriminate. Qed.

(* C12: a pair of blocks related in one direction only *)
Definition one_way (d : dgraph) : option (block * block * bool * bool) :=
  find (fun x => let '(_, _, x1, x2) := x in negb (Bool.eqb x1 x2))
       (flat_map (fun a => map (fun b => (a, b, mem_b b (dg_down idl idl d a), mem_b a (dg_up idl idl d b))) (pblocks d))
                 (pblocks d)).
Definition not_inverse (tasks : list task) : bool :=
  match sched_init tasks with Ok (d, _) => if one_way d then true else false | Err _ => false end.
Lemma not_inverse_ok tasks : pipe_ok tasks -> not_inverse tasks = true ->
  exists d s0, sched_init tasks = Ok (d, s0) /\ ~ inverse tasks idl idl d.
Proof.
  intros PO. unfold not_inverse. destruct (sched_init tasks) as [[d s0]|] eqn:E; [|discriminate].
  destruct (one_way d) as [[[[a b] x] y]|] eqn:O; [|discriminate]. intros _. exists d, s0. split; auto.
  apply find_some in O. destruct O as [Hin Hne]. apply in_flat_map in Hin. destruct Hin as [a' [Ha Hin]].
  apply in_map_iff in Hin. destruct Hin as [b' [Eq Hb]]. injection Eq as -> -> <- <-.
  destruct (pipe_fresh tasks d s0 PO E) as [_ [DK _]].
  rewrite (in_pblocks tasks PO d DK) in Ha, Hb. intros I. specialize (I a b Ha Hb).
  rewrite <- !mem_b_true in I. destruct (mem_b b _), (mem_b a _); try discriminate; destruct I as [I1 I2];
    [specialize (I1 eq_refl)|specialize (I2 eq_refl)]; discriminate.
Qed.

(* asymmetric context *)
Theorem C12_asymmetric_context_refuted :
  pipe_ok [ce_d] /\ exists d s0, sched_init [ce_d] = Ok (d, s0) /\ ~ inverse [ce_d] idl idl d.
Proof. split; [apply ce_d_ok|]. apply not_inverse_ok; [apply ce_d_ok|]. vm_compute. reflexivity. Qed.

(* downstream task with fit "overhang": its last block [4,6) reads what the sixth block of the
   upstream task writes, but that block does not list it *)
Definition ce_over (fu ft : fit) (tu tt wu wt : Z) : list task :=
  [Task 2 (Roi [0] [tt]) (Roi [0] [wt]) (Roi [0] [wt]) false ft 1 0
        [Task 1 (Roi [0] [tu]) (Roi [0] [wu]) (Roi [0] [wu]) false fu 1 0 []]].
Theorem C12_overhang_downstream_refuted :
  let tasks := ce_over Valid Overhang 10 5 1 2 in
  pipe_ok tasks /\ exists d s0, sched_init tasks = Ok (d, s0) /\ ~ inverse tasks idl idl d.
Proof.
  assert (PO : pipe_ok (ce_over Valid Overhang 10 5 1 2)) by (unfold ce_over; pipe_ok_tac).
  split; [exact PO|]. apply not_inverse_ok; [exact PO|]. vm_compute. reflexivity.
Qed.
Theorem C12_overhang_upstream_refuted :
  let tasks := ce_over Overhang Valid 5 10 2 1 in
  pipe_ok tasks /\ exists d s0, sched_init tasks = Ok (d, s0) /\ ~ inverse tasks idl idl d.
Proof.
  assert (PO : pipe_ok (ce_over Overhang Valid 5 10 2 1)) by (unfold ce_over; pipe_ok_tac).
  split; [exact PO|]. apply not_inverse_ok; [exact PO|]. vm_compute. reflexivity.
Qed.
(* a block of the upstream task has the origin strictly inside *)
Definition ce_orig : list task :=
  [Task 2 (Roi [-5] [30]) (Roi [0] [2]) (Roi [0] [2]) false Valid 1 0
        [Task 1 (Roi [-5] [10]) (Roi [0] [10]) (Roi [0] [10]) false Valid 1 0 []]].
Theorem C12_origin_refuted :
  pipe_ok ce_orig /\ exists d s0, sched_init ce_orig = Ok (d, s0) /\ ~ inverse ce_orig idl idl d.
Proof.
  assert (PO : pipe_ok ce_orig) by (unfold ce_orig; pipe_ok_tac).
  split; [exact PO|]. apply not_inverse_ok; [exact PO|]. vm_compute. reflexivity.
Qed.
Print Assumptions C12_asymmetric_context_refuted.
Print Assumptions C12_overhang_downstream_refuted.
Print Assumptions C12_overhang_upstream_refuted.
Print Assumptions C12_origin_refuted.

(* What happens then.  All blocks of ce_u are handed out and succeed, the last ones first. *)
Definition ce_back : list call := acq 1 10 ++ rel 1 SUCCESS [9; 8; 7; 6; 5; 4; 3; 2; 1; 0].
Definition ce_forth : list call := acq 1 10 ++ rel 1 SUCCESS [0; 1; 2; 3; 4; 5; 6; 7; 8; 9].

Definition some_block (P : block -> bool) (d : dgraph) : bool := existsb P (pblocks d).

(* C16, C17: the same block three times at once, though no release of it failed and max_retries = 0 *)
Theorem C16_handed_out_twice_refuted : exists d s0 fuel h s b,
  pipe_run [ce_d] idl idl d s0 fuel h s /\ n_handed h b = 3 /\ n_released h b = 0.
Proof.
  destruct (run_ce [ce_d] 100 (ce_back ++ acq 2 12)
    (fun d h s => some_block (fun b => (n_handed h b =? 3) && (n_released h b =? 0)) d) ce_d_ok) as [d [s0 [h [s [R E]]]]].
  { vm_compute. reflexivity. }
  apply existsb_exists in E. destruct E as [b [_ E]]. apply andb_prop in E. destruct E as [E1 E2].
  apply Z.eqb_eq in E1, E2. exists d, s0, 100%nat, h, s, b. auto.
Qed.
Theorem C17_more_than_max_retries_refuted : exists d s0 fuel h s b,
  pipe_run [ce_d] idl idl d s0 fuel h s /\ dg_max_retries d (b_task b) = 0 /\ n_handed h b = 3.
Proof.
  destruct (run_ce [ce_d] 100 (ce_back ++ acq 2 12)
    (fun d h s => some_block (fun b => (n_handed h b =? 3) && (dg_max_retries d (b_task b) =? 0)) d) ce_d_ok) as [d [s0 [h [s [R E]]]]].
  { vm_compute. reflexivity. }
  apply existsb_exists in E. destruct E as [b [_ E]]. apply andb_prop in E. destruct E as [E1 E2].
  apply Z.eqb_eq in E1, E2. exists d, s0, 100%nat, h, s, b. auto.
Qed.
Print Assumptions C16_handed_out_twice_refuted.
Print Assumptions C17_more_than_max_retries_refuted.

(* C15, in a pipeline: a second hand-out of block 5 is still in flight when block 4, which reads what
   block 5 writes, is handed out *)
Definition ce_d15 : task := Task 2 (Roi [0] [10]) (Roi [0] [3]) (Roi [0] [1]) true Valid 1 0 [ce_u].
Lemma ce_d15_ok : pipe_ok [ce_d15].
Proof. pipe_ok_tac. Qed.
Theorem C15_pipeline_refuted : exists d s0 fuel h s a b,
  pipe_run [ce_d15] idl idl d s0 fuel h s /\ b_task a = 2%nat /\ b_task b = 2%nat /\ a <> b /\
  held h a /\ held h b /\ overlap (b_write a) (b_read b).
Proof.
  destruct (run_ce [ce_d15] 200 (ce_back ++ acq 2 6 ++ rel 2 SUCCESS [5; 2] ++ acq 2 2)
    (fun d h s => some_block (fun a => some_block (fun b => Nat.eqb (b_task a) 2 && Nat.eqb (b_task b) 2 &&
       negb (mem_b a [b]) && (n_released h a <? n_handed h a) && (n_released h b <? n_handed h b) &&
       Nat.eqb (length (offset (b_write a))) 1 && Nat.eqb (length (offset (b_read b))) 1 &&
       ((offset (b_write a))@0 <? (offset (b_write a))@0 + (shape (b_write a))@0) &&
       ((offset (b_read b))@0 <=? (offset (b_write a))@0) &&
       ((offset (b_write a))@0 <? (offset (b_read b))@0 + (shape (b_read b))@0)) d) d) ce_d15_ok) as [d [s0 [h [s [R E]]]]].
  { vm_compute. reflexivity. }
  apply existsb_exists in E. destruct E as [a [_ E]]. apply existsb_exists in E. destruct E as [b [_ E]].
  repeat match goal with H : _ && _ = true |- _ => apply andb_prop in H; destruct H end.
  repeat match goal with H : Nat.eqb _ _ = true |- _ => apply Nat.eqb_eq in H end.
  repeat match goal with H : (_ <? _) = true |- _ => apply Z.ltb_lt in H end.
  match goal with H : (_ <=? _) = true |- _ => apply Z.leb_le in H end.
  exists d, s0, 200%nat, h, s, a, b. split; auto. split; auto. split; auto. split.
  { intros ->. match goal with H : negb _ = true |- _ => rename H into X end.
    assert (Y : mem_b b [b] = true) by (apply mem_b_true; left; auto). rewrite Y in X. discriminate. }
  split; auto. split; auto.
  exists (offset (b_write a)). split; (split; [congruence|]); intros i Hi; (destruct i as [|i]; [lia|lia]).
Qed.
Print Assumptions C15_pipeline_refuted.

(* C18: nothing in flight, acquire_block returns None for every task, nothing failed, yet no
   block of ce_d was ever run *)
Theorem C18_stuck_refuted : exists d s0 fuel h h0 s,
  pipe_run [ce_d] idl idl d s0 fuel h s /\ h = map EvNone [2; 1]%nat ++ h0 /\
  (forall b, pipe_block [ce_d] b -> n_handed h b = n_released h b) /\
  (forall b, pipe_block [ce_d] b -> n_failed h b = 0) /\
  (exists b, pipe_block [ce_d] b) /\
  (forall b, pipe_block [ce_d] b -> b_task b = 2%nat -> ~ succeeded h b).
Proof.
  destruct (run_ce [ce_d] 100 (ce_forth ++ acq 1 1 ++ acq 2 1)
    (fun d h s => forallb (fun b => (n_handed h b =? n_released h b) && (n_failed h b =? 0) &&
        implb (Nat.eqb (b_task b) 2) (negb (if in_dec event_dec (EvSkip b) h then true else
                                      if in_dec event_dec (EvRel (PB b SUCCESS)) h then true else false))) (pblocks d)
      && match h with EvNone 2 :: EvNone 1 :: _ => true | _ => false end
      && match pblocks d with [] => false | _ => true end) ce_d_ok) as [d [s0 [h [s [R E]]]]].
  { vm_compute. reflexivity. }
  apply andb_prop in E. destruct E as [E E3]. apply andb_prop in E. destruct E as [E1 E2].
  rewrite forallb_forall in E1.
  destruct h as [|[|?|t1|] h]; try discriminate. destruct t1 as [|[|[|t1]]]; try discriminate.
  destruct h as [|[|?|t1|] h]; try discriminate. destruct t1 as [|[|t1]]; try discriminate.
  exists d, s0, 100%nat, (EvNone 2 :: EvNone 1 :: h), h, s. split; [exact R|]. split; [reflexivity|].
  assert (G : forall b, pipe_block [ce_d] b -> In b (pblocks d)) by (intros b Hb; apply (run_in _ _ _ _ _ _ _ _ R); auto).
  split; [|split; [|split]].
  - intros b Hb. apply G, E1 in Hb. apply andb_prop in Hb. destruct Hb as [Hb _]. apply andb_prop in Hb.
    destruct Hb as [Hb _]. apply Z.eqb_eq in Hb. exact Hb.
  - intros b Hb. apply G, E1 in Hb. apply andb_prop in Hb. destruct Hb as [Hb _]. apply andb_prop in Hb.
    destruct Hb as [_ Hb]. apply Z.eqb_eq in Hb. exact Hb.
  - destruct (pblocks d) as [|b l] eqn:Ep; [discriminate|]. exists b. apply (run_in _ _ _ _ _ _ _ _ R). rewrite Ep. left; auto.
  - intros b Hb Tb. apply G, E1 in Hb. apply andb_prop in Hb. destruct Hb as [_ Hb]. rewrite Tb in Hb.
    cbn [Nat.eqb implb] in Hb.
    destruct (in_dec event_dec (EvSkip b) _) as [_|N1]; [discriminate|].
    destruct (in_dec event_dec (EvRel (PB b SUCCESS)) _) as [_|N2]; [discriminate|].
    intros [S|S]; auto.
Qed.
Print Assumptions C18_stuck_refuted.

(* C20, C21: the tenth block of ce_u fails for good; a block of ce_d depends on it, none is
   counted as orphaned *)
Theorem C20_dependents_missed_refuted : exists d s0 fuel h s a b,
  pipe_run [ce_d] idl idl d s0 fuel h s /\ perm_failed (dg_max_retries d) h a /\
  pipe_block [ce_d] b /\ In a (dg_up idl idl d b) /\ b_task b = 2%nat /\ ts_orphaned (s_st s 2) = 0.
Proof.
  destruct (run_ce [ce_d] 100 (acq 1 10 ++ rel 1 FAILED [9])
    (fun d h s => some_block (fun a => some_block (fun b =>
       (n_failed h a =? 1) && (dg_max_retries d (b_task a) =? 0) && mem_b a (dg_up idl idl d b) && Nat.eqb (b_task b) 2) d) d
       && (ts_orphaned (s_st s 2) =? 0)) ce_d_ok) as [d [s0 [h [s [R E]]]]].
  { vm_compute. reflexivity. }
  apply andb_prop in E. destruct E as [E E5]. apply existsb_exists in E. destruct E as [a [_ E]].
  apply existsb_exists in E. destruct E as [b [Hb E]].
  apply andb_prop in E. destruct E as [E E4]. apply andb_prop in E. destruct E as [E E3].
  apply andb_prop in E. destruct E as [E1 E2]. apply Z.eqb_eq in E1, E2, E5. apply mem_b_true in E3.
  apply Nat.eqb_eq in E4.
  exists d, s0, 100%nat, h, s, a, b. split; auto. split; [unfold perm_failed; lia|].
  split; [apply (run_in _ _ _ _ _ _ _ _ R); auto|]. auto.
Qed.
Print Assumptions C20_dependents_missed_refuted.

(* C22: more blocks ready than the task has *)
Theorem C22_ready_count_refuted : exists d s0 fuel h s,
  pipe_run [ce_d] idl idl d s0 fuel h s /\ ts_total (s_st s 2) = 8 /\ ts_ready (s_st s 2) = 15.
Proof.
  destruct (run_ce [ce_d] 100 ce_back
    (fun d h s => (ts_total (s_st s 2) =? 8) && (ts_ready (s_st s 2) =? 15)) ce_d_ok) as [d [s0 [h [s [R E]]]]].
  { vm_compute. reflexivity. }
  apply andb_prop in E. destruct E as [E1 E2]. apply Z.eqb_eq in E1, E2. exists d, s0, 100%nat, h, s. auto.
Qed.
Print Assumptions C22_ready_count_refuted.

(* C24: the second of the hand-outs of the same block cannot be released *)
Theorem C24_release_raises_refuted : exists d s0 fuel h s b,
  pipe_run [ce_d] idl idl d s0 fuel h s /\ held h b /\
  release_block (dg_up idl idl d) (dg_down idl idl d) (dg_max_retries d) fuel first s (PB b SUCCESS) = Err KeyError.
Proof.
  destruct (run_ce [ce_d] 100 (ce_back ++ acq 2 12 ++ rel 2 SUCCESS [5])
    (fun d h s => some_block (fun b => (n_released h b <? n_handed h b) &&
       match release_block (dg_up idl idl d) (dg_down idl idl d) (dg_max_retries d) 100 first s (PB b SUCCESS) with
       | Err KeyError => true | _ => false end) d) ce_d_ok) as [d [s0 [h [s [R E]]]]].
  { vm_compute. reflexivity. }
  apply existsb_exists in E. destruct E as [b [_ E]]. apply andb_prop in E. destruct E as [E1 E2].
  apply Z.ltb_lt in E1. exists d, s0, 100%nat, h, s, b. split; auto. split; auto.
  destruct (release_block _ _ _ _ _ _ _) as [|[]]; try discriminate. reflexivity.
Qed.
Print Assumptions C24_release_raises_refuted.

Definition succ_b (h : history) (b : block) : bool :=
  (if in_dec event_dec (EvSkip b) h then true else false) ||
  (if in_dec event_dec (EvRel (PB b SUCCESS)) h then true else false).
Lemma succ_b_true h b : succ_b h b = true <-> succeeded h b.
Proof.
  unfold succ_b, succeeded. rewrite Bool.orb_true_iff.
  destruct (in_dec event_dec (EvSkip b) h), (in_dec event_dec (EvRel (PB b SUCCESS)) h);
    split; intros [?|?]; auto; discriminate.
Qed.

(* C19: a Valid upstream task that leaves a remainder.  The block [4,5) of the downstream task has
   no dependency, and it is never run: its task is not a root task, and no block lists it as
   downstream. *)
Definition ce_rem : list task := ce_over Valid Valid 5 5 2 1.
Lemma ce_rem_ok : pipe_ok ce_rem.
Proof. unfold ce_rem, ce_over. pipe_ok_tac. Qed.
Theorem C19_lonely_block_refuted : exists d s0 fuel h h0 s b,
  pipe_run ce_rem idl idl d s0 fuel h s /\ h = map EvNone [2; 1]%nat ++ h0 /\
  (forall b, pipe_block ce_rem b -> n_handed h b = n_released h b /\ n_failed h b = 0) /\
  pipe_block ce_rem b /\ dg_up idl idl d b = [] /\ n_handed h b = 0 /\ ~ succeeded h b /\
  ts_is_done (s_st s 2) = false.
Proof.
  destruct (run_ce ce_rem 100 (acq 1 2 ++ rel 1 SUCCESS [0; 1] ++ acq 2 4 ++ rel 2 SUCCESS [0; 1; 2; 3] ++ acq 1 1 ++ acq 2 1)
    (fun d h s => forallb (fun b => (n_handed h b =? n_released h b) && (n_failed h b =? 0)) (pblocks d)
      && match h with EvNone 2 :: EvNone 1 :: _ => true | _ => false end
      && some_block (fun b => match dg_up idl idl d b with [] => true | _ => false end && (n_handed h b =? 0) &&
                     negb (succ_b h b)) d
      && negb (ts_is_done (s_st s 2))) ce_rem_ok) as [d [s0 [h [s [R E]]]]].
  { vm_compute. reflexivity. }
  apply andb_prop in E. destruct E as [E E4]. apply andb_prop in E. destruct E as [E E3].
  apply andb_prop in E. destruct E as [E1 E2]. rewrite forallb_forall in E1.
  destruct h as [|[|?|t1|] h]; try discriminate. destruct t1 as [|[|[|t1]]]; try discriminate.
  destruct h as [|[|?|t1|] h]; try discriminate. destruct t1 as [|[|t1]]; try discriminate.
  apply existsb_exists in E3. destruct E3 as [b [Hb E3]]. apply andb_prop in E3. destruct E3 as [E3 E7].
  apply andb_prop in E3. destruct E3 as [E5 E6]. apply Z.eqb_eq in E6.
  exists d, s0, 100%nat, (EvNone 2 :: EvNone 1 :: h), h, s, b. split; [exact R|]. split; [reflexivity|].
  split; [|split; [|split; [|split; [|split]]]].
  - intros x Hx. apply (run_in _ _ _ _ _ _ _ _ R) in Hx. apply E1, andb_prop in Hx. destruct Hx as [Hx Hy].
    apply Z.eqb_eq in Hx, Hy. auto.
  - apply (run_in _ _ _ _ _ _ _ _ R). exact Hb.
  - destruct (dg_up idl idl d b); [reflexivity|discriminate].
  - exact E6.
  - rewrite <- succ_b_true. intros X. rewrite X in E7. discriminate.
  - destruct (ts_is_done _); [discriminate|reflexivity].
Qed.
Print Assumptions C19_lonely_block_refuted.

(* C21, C23, C27 fail for a single task, whatever the tie-breaking.  6 x 6 voxels, a border of one
   voxel, 16 blocks of which four can run at a time. *)
Definition ce_sq : task := Task 1 (Roi [0; 0] [6; 6]) (Roi [0; 0] [3; 3]) (Roi [1; 1] [1; 1]) true Valid 1 0 [].
Lemma ce_sq_ok : pipe_ok [ce_sq].
Proof. pipe_ok_tac. Qed.
(* the number of the block that writes (x, y) *)
Definition sq (x y : Z) : Z :=
  match task_graph ce_sq with
  | Ok g => match find (fun b => coord_eqb (offset (b_write b)) [x; y]) (all_blocks g) with Some b => b_num b | None => -1 end
  | Err _ => -1
  end.

(* everything that depends on a failed block, given as a list *)
Lemma orphans_within up maxr V h F C :
  (forall b, In b V -> forall a, In a (up b) -> In a V) ->
  (forall b, In b V -> forall a, In a (up b) -> In a F \/ In a C -> In b C) ->
  (forall a, perm_failed maxr h a -> In a F) ->
  forall b, In b V -> orphan up maxr h b -> In b C.
Proof.
  intros HV HC HF b Hb [a [Pa An]]. apply HF in Pa. revert Hb. induction An as [b H|b c An IH H]; intros Hb.
  - eapply HC; eauto.
  - eapply HC; eauto.
Qed.
Definition failed_in (h : history) : list block :=
  flat_map (fun e => match e with EvRel (PB b FAILED) => [b] | _ => [] end) h.
Lemma failed_in_ok maxr h a : perm_failed maxr h a -> In a (failed_in h).
Proof.
  intros [P _]. unfold n_failed in P. induction h as [|e h IH]; cbn [count] in P; [lia|].
  cbn [failed_in flat_map]. apply in_or_app. destruct e as [|?|?|[b st]]; try (right; apply IH; cbn in P; lia).
  destruct (is_block _ _ && _) eqn:E; [|right; apply IH; cbn [pb_block pb_status] in *; lia].
  apply andb_prop in E. destruct E as [E1 E2]. left. cbn [pb_status pb_block] in *.
  destruct st; try discriminate. unfold is_block in E1. destruct (block_dec b a); [subst; left; auto|discriminate].
Qed.
(* the blocks of d that follow a block in F, in as many rounds as there are blocks *)
Fixpoint after (n : nat) (d : dgraph) (F C : list block) : list block :=
  match n with
  | O => C
  | S n => after n d F (filter (fun b => existsb (fun a => mem_b a F || mem_b a C) (dg_up idl idl d b)) (pblocks d))
  end.
Definition closed_b (d : dgraph) (F C : list block) : bool :=
  forallb (fun b => implb (existsb (fun a => mem_b a F || mem_b a C) (dg_up idl idl d b)) (mem_b b C)) (pblocks d).
Lemma closed_b_ok tasks d s0 fuel h s C : pipe_run tasks idl idl d s0 fuel h s ->
  closed_b d (failed_in h) C = true ->
  forall b, pipe_block tasks b -> orphan (dg_up idl idl d) (dg_max_retries d) h b -> In b C.
Proof.
  intros R E b Hb. apply (orphans_within _ _ (pblocks d) h (failed_in h)).
  - intros x Hx a Ha. apply (run_in _ _ _ _ _ _ _ _ R) in Hx. apply (run_in _ _ _ _ _ _ _ _ R).
    eapply up_pipe; eauto; [apply (pr_ok _ _ _ _ _ _ _ _ R)|apply (run_dk _ _ _ _ _ _ _ _ R)|apply idl_order|apply idl_order].
  - intros x Hx a Ha Hc. unfold closed_b in E. rewrite forallb_forall in E. apply E in Hx.
    destruct (existsb _ _) eqn:Ee; [cbn in Hx; apply mem_b_true; auto|].
    exfalso. apply Bool.not_true_iff_false in Ee. apply Ee, existsb_exists. exists a. split; auto.
    apply Bool.orb_true_iff. rewrite !mem_b_true. auto.
  - apply failed_in_ok.
  - apply (run_in _ _ _ _ _ _ _ _ R). auto.
Qed.

(* The four even-even blocks run, then the four with odd second coordinate, of which (4,3) fails;
   then (4,1) fails too.  The blocks (3,2) and (3,3) .. depend on both. *)
Definition ce_twice : list call :=
  acq 1 4 ++ rel 1 SUCCESS [sq 2 2; sq 2 4; sq 4 2; sq 4 4] ++
  acq 1 4 ++ rel 1 FAILED [sq 4 3] ++ rel 1 SUCCESS [sq 2 3; sq 2 1] ++
  acq 1 4 ++ rel 1 SUCCESS [sq 1 2; sq 1 4] ++ rel 1 FAILED [sq 4 1].

Lemma card_within P k C : card P k -> (forall b, P b -> In b C) -> k <= Z.of_nat (length C).
Proof.
  intros [l [ND [H <-]]] HC. apply Nat2Z.inj_le, NoDup_incl_length; auto. intros b Hb. apply HC, H, Hb.
Qed.

Theorem C21_counted_twice_refuted : exists d s0 fuel h s,
  pipe_run [ce_sq] idl idl d s0 fuel h s /\ inverse [ce_sq] idl idl d /\
  ts_orphaned (s_st s 1) = 5 /\
  forall k, card (fun b => pipe_block [ce_sq] b /\ orphan (dg_up idl idl d) (dg_max_retries d) h b) k -> k <= 4.
Proof.
  destruct (run_ce [ce_sq] 400 ce_twice
    (fun d h s => let C := after 4 d (failed_in h) [] in
      closed_b d (failed_in h) C && Nat.eqb (length C) 4 && (ts_orphaned (s_st s 1) =? 5)) ce_sq_ok) as [d [s0 [h [s [R E]]]]].
  { vm_compute. reflexivity. }
  cbv zeta in E. set (C := after 4 d (failed_in h) []) in *.
  apply andb_prop in E. destruct E as [E E3]. apply andb_prop in E. destruct E as [E1 E2].
  apply Z.eqb_eq in E3. apply Nat.eqb_eq in E2.
  exists d, s0, 400%nat, h, s. split; auto. split; [|split; auto].
  - apply (run_dual _ _ _ _ _ _ _ _ R), single_edges. intros t [<-|[]]. reflexivity.
  - intros k K. change 4 with (Z.of_nat 4). rewrite <- E2. apply (card_within _ _ C K).
    intros b [Hb O]. eapply closed_b_ok; eauto.
Qed.
Print Assumptions C21_counted_twice_refuted.

(* then pending_count is negative *)
Theorem C23_negative_pending_refuted : exists d s0 fuel h s,
  pipe_run [ce_sq] idl idl d s0 fuel h s /\ ts_pending (s_st s 1) = -1.
Proof.
  destruct (run_ce [ce_sq] 400 ce_twice (fun d h s => ts_pending (s_st s 1) =? -1) ce_sq_ok) as [d [s0 [h [s [R E]]]]].
  { vm_compute. reflexivity. }
  apply Z.eqb_eq in E. exists d, s0, 400%nat, h, s. auto.
Qed.

Definition perm_b (d : dgraph) (h : history) (b : block) : bool :=
  (0 <? n_failed h b) && (dg_max_retries d (b_task b) <? n_failed h b).
Lemma perm_b_true d h b : perm_b d h b = true <-> perm_failed (dg_max_retries d) h b.
Proof. unfold perm_b, perm_failed. rewrite Bool.andb_true_iff, !Z.ltb_lt. tauto. Qed.

(* is_done() is true while a block is still in flight *)
Theorem C23_done_too_early_refuted : exists d s0 fuel h s b,
  pipe_run [ce_sq] idl idl d s0 fuel h s /\ ts_is_done (s_st s 1) = true /\
  pipe_block [ce_sq] b /\ held h b /\ ~ settled (dg_up idl idl d) (dg_max_retries d) h b.
Proof.
  destruct (run_ce [ce_sq] 400 (ce_twice ++ acq 1 2 ++ rel 1 SUCCESS [sq 1 1])
    (fun d h s => let C := after 4 d (failed_in h) [] in
      closed_b d (failed_in h) C && ts_is_done (s_st s 1) &&
      some_block (fun b => (n_released h b <? n_handed h b) && negb (succ_b h b || perm_b d h b || mem_b b C)) d) ce_sq_ok)
    as [d [s0 [h [s [R E]]]]].
  { vm_compute. reflexivity. }
  cbv zeta in E. set (C := after 4 d (failed_in h) []) in *.
  apply andb_prop in E. destruct E as [E E3]. apply andb_prop in E. destruct E as [E1 E2].
  apply existsb_exists in E3. destruct E3 as [b [Hb E3]]. apply andb_prop in E3. destruct E3 as [E3 E4].
  apply Z.ltb_lt in E3. apply (run_in _ _ _ _ _ _ _ _ R) in Hb.
  exists d, s0, 400%nat, h, s, b. split; auto. split; auto. split; auto. split; auto.
  intros D. assert (X : succ_b h b || perm_b d h b || mem_b b C = true).
  { rewrite !Bool.orb_true_iff, succ_b_true, perm_b_true, mem_b_true. destruct D as [D|[D|D]]; auto.
    right. eapply closed_b_ok; eauto. }
  rewrite X in E4. discriminate.
Qed.

(* is_done() is false though every block is settled, and no call changes that *)
Theorem C23_never_done_refuted : exists d s0 fuel h s,
  pipe_run [ce_sq] idl idl d s0 fuel h s /\ ts_is_done (s_st s 1) = false /\
  (forall b, pipe_block [ce_sq] b -> settled (dg_up idl idl d) (dg_max_retries d) h b) /\
  (forall b, pipe_block [ce_sq] b -> ~ held h b) /\
  exists s', acquire_block (dg_up idl idl d) (dg_down idl idl d) (dg_max_retries d) fuel no_check s 1 = Ok (s', None, []) /\
             ts_is_done (s_st s' 1) = false.
Proof.
  destruct (run_ce [ce_sq] 400 (ce_twice ++ acq 1 2 ++ rel 1 SUCCESS [sq 1 1; sq 1 3])
    (fun d h s => negb (ts_is_done (s_st s 1)) &&
      forallb (fun b => (succ_b h b || perm_b d h b ||
                  existsb (fun a => perm_b d h a || existsb (fun c => mem_b c (dg_up idl idl d a) && perm_b d h c) (pblocks d))
                          (dg_up idl idl d b)) &&
                  (n_handed h b <=? n_released h b)) (pblocks d) &&
      match acquire_block (dg_up idl idl d) (dg_down idl idl d) (dg_max_retries d) 400 no_check s 1 with
      | Ok (s', None, []) => negb (ts_is_done (s_st s' 1)) | _ => false end) ce_sq_ok) as [d [s0 [h [s [R E]]]]].
  { vm_compute. reflexivity. }
  apply andb_prop in E. destruct E as [E E3]. apply andb_prop in E. destruct E as [E1 E2].
  rewrite forallb_forall in E2.
  exists d, s0, 400%nat, h, s. split; auto. split; [apply Bool.negb_true_iff; exact E1|].
  split; [|split].
  - intros b Hb. apply (run_in _ _ _ _ _ _ _ _ R) in Hb. apply E2, andb_prop in Hb. destruct Hb as [Hb _].
    rewrite !Bool.orb_true_iff, succ_b_true, perm_b_true in Hb. destruct Hb as [[Hb|Hb]|Hb]; unfold settled; auto.
    apply existsb_exists in Hb. destruct Hb as [a [Ha Hb]]. right. right.
    rewrite Bool.orb_true_iff, perm_b_true in Hb. destruct Hb as [Hb|Hb].
    + exists a. split; auto. apply anc_one; auto.
    + apply existsb_exists in Hb. destruct Hb as [c [_ Hc]]. rewrite Bool.andb_true_iff, mem_b_true, perm_b_true in Hc.
      exists c. split; [tauto|]. apply anc_more with a; auto. apply anc_one. tauto.
  - intros b Hb. apply (run_in _ _ _ _ _ _ _ _ R) in Hb. apply E2, andb_prop in Hb. destruct Hb as [_ Hb].
    apply Z.leb_le in Hb. unfold held. lia.
  - destruct (acquire_block _ _ _ _ _ _ _) as [[[s' [?|]] [|? ?]]|]; try discriminate.
    exists s'. split; auto. apply Bool.negb_true_iff. exact E3.
Qed.
Print Assumptions C23_negative_pending_refuted.
Print Assumptions C23_done_too_early_refuted.
Print Assumptions C23_never_done_refuted.

(* C27: all blocks have succeeded, the surface is not empty *)
Definition ce_ln : task := Task 1 (Roi [0] [6]) (Roi [0] [3]) (Roi [1] [1]) true Valid 1 0 [].
Lemma ce_ln_ok : pipe_ok [ce_ln].
Proof. pipe_ok_tac. Qed.
Theorem C27_surface_keeps_block_refuted : exists d s0 fuel h s b,
  pipe_run [ce_ln] idl idl d s0 fuel h s /\ (forall x, pipe_block [ce_ln] x -> succeeded h x) /\
  pipe_block [ce_ln] b /\ dg_down idl idl d b <> [] /\ In b (surface (s_surf s)).
Proof.
  destruct (run_ce [ce_ln] 100 (acq 1 4 ++ rel 1 SUCCESS [2; 4] ++ acq 1 4 ++ rel 1 SUCCESS [1; 3])
    (fun d h s => forallb (succ_b h) (pblocks d) &&
       some_block (fun b => match dg_down idl idl d b with [] => false | _ => true end && mem_b b (surface (s_surf s))) d)
    ce_ln_ok) as [d [s0 [h [s [R E]]]]].
  { vm_compute. reflexivity. }
  apply andb_prop in E. destruct E as [E1 E2]. rewrite forallb_forall in E1.
  apply existsb_exists in E2. destruct E2 as [b [Hb E2]]. apply andb_prop in E2. destruct E2 as [E2 E3].
  apply mem_b_true in E3. apply (run_in _ _ _ _ _ _ _ _ R) in Hb.
  exists d, s0, 100%nat, h, s, b. split; auto. split; [|split; auto].
  - intros x Hx. apply succ_b_true, E1. apply (run_in _ _ _ _ _ _ _ _ R). auto.
  - split; auto. destruct (dg_down _ _ _ _); [discriminate|]. intros X. discriminate.
Qed.
Print Assumptions C27_surface_keeps_block_refuted.

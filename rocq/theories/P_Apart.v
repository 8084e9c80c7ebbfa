(* When orphans are counted right (C21): what [apart_failures] follows from, and a case in which two
   blocks fail and blocks have three direct upstream blocks. *)
From Coq Require Import Lia.
From Verif Require Import SchedExec PipeRun P_SchedCE P_Sched.
Open Scope Z_scope.

(* Each of these conditions suffices: at most two direct upstream blocks; at most one failure; no
   block both orphaned and with a direct upstream block that succeeded; no block that depends on
   two failed ones. *)
Theorem C21_conditions : forall tasks ord ordt d s0 fuel h s,
  let up := dg_up ord ordt d in let maxr := dg_max_retries d in
  pipe_run tasks ord ordt d s0 fuel h s -> inverse tasks ord ordt d -> fuel_ok tasks fuel ->
  few_upstream tasks ord ordt d \/ one_failure maxr h \/
  (forall x u, pipe_block tasks x -> orphan up maxr h x -> In u (up x) -> ~ succeeded h u) \/
  (forall x a b, pipe_block tasks x -> perm_failed maxr h a -> perm_failed maxr h b -> ancestor up a x -> ancestor up b x -> a = b) ->
  apart_failures tasks ord ordt d h.
Proof.
  intros tasks ord ordt d s0 fuel h s up maxr R IV FO [F|[F|[F|F]]].
  - eapply few_apart; eauto.
  - apply one_apart. exact F.
  - intros x u a b w Hx Hu Su Fa Fb Aa. exfalso. apply (F x u Hx); auto. exists a. auto.
  - intros x u a b w Hx Hu Su Fa Fb Aa Ab Hw A. rewrite <- (F x a b Hx Fa Fb Aa Ab). exact A.
Qed.
Print Assumptions C21_conditions.

(* two levels of blocks, and no block depends on two blocks that failed at least once *)
Definition apart_b (d : dgraph) (h : history) : bool :=
  forallb (fun x => forallb (fun u => match dg_up idl idl d u with [] => true | _ => false end) (dg_up idl idl d x) &&
    match filter (fun a => mem_b a (failed_in h)) (dg_up idl idl d x) with [] | [_] => true | _ => false end) (pblocks d).
Lemma apart_b_ok tasks d s0 fuel h s : pipe_run tasks idl idl d s0 fuel h s -> apart_b d h = true ->
  apart_failures tasks idl idl d h.
Proof.
  intros R E x u a b w Hx Hu Su Fa Fb Aa Ab Hw A. unfold apart_b in E. rewrite forallb_forall in E.
  apply (run_in _ _ _ _ _ _ _ _ R) in Hx. apply E in Hx. apply andb_prop in Hx. destruct Hx as [E1 E2].
  rewrite forallb_forall in E1.
  assert (X : forall c, ancestor (dg_up idl idl d) c x -> In c (dg_up idl idl d x)).
  { intros c Ac. inversion Ac as [|v ? Av Hv]; subst; auto. exfalso. apply E1 in Hv.
    inversion Av as [? Hc|? ? _ Hc]; subst; destruct (dg_up idl idl d v); try discriminate; destruct Hc. }
  assert (Ia : In a (filter (fun c => mem_b c (failed_in h)) (dg_up idl idl d x))).
  { apply filter_In. split; auto. apply mem_b_true. eapply failed_in_ok; eauto. }
  assert (Ib : In b (filter (fun c => mem_b c (failed_in h)) (dg_up idl idl d x))).
  { apply filter_In. split; auto. apply mem_b_true. eapply failed_in_ok; eauto. }
  destruct (filter _ _) as [|c [|]]; try discriminate; [destruct Ia|].
  destruct Ia as [<-|[]]. destruct Ib as [<-|[]]. exact A.
Qed.

(* 12 blocks in a row; 10 blocks downstream that read one voxel more on either side *)
Definition far_u : task := Task 1 (Roi [0] [12]) (Roi [0] [1]) (Roi [0] [1]) false Valid 1 0 [].
Definition far_d : task := Task 2 (Roi [0] [12]) (Roi [0] [3]) (Roi [1] [1]) false Valid 1 0 [far_u].
Lemma far_ok : pipe_ok [far_d].
Proof. pipe_ok_tac. Qed.
Lemma far_edges : edges_ok [far_d].
Proof.
  intros t u Ht Hu. unfold far_d, far_u in *. pipe_tac;
  (constructor; try discriminate;
   [intros i Hi; cbn in Hi; destruct i as [|i]; [reflexivity|lia]
   |intros [k [[L _] X]]; specialize (X O); cbn in *; lia..]).
Qed.
Definition far_calls : list call :=
  acq 1 12 ++ rel 1 FAILED [2] ++ rel 1 SUCCESS [0; 1; 3; 4; 5; 6; 7; 8; 10; 11] ++ rel 1 FAILED [9] ++
  acq 2 4 ++ rel 2 SUCCESS [4; 5; 6; 7].
Example apart_example : exists d s0 h s a b x,
  pipe_run [far_d] idl idl d s0 1000 h s /\ fuel_ok [far_d] 1000 /\ inverse [far_d] idl idl d /\
  apart_failures [far_d] idl idl d h /\
  perm_failed (dg_max_retries d) h a /\ perm_failed (dg_max_retries d) h b /\ bid a <> bid b /\
  pipe_block [far_d] x /\ length (dg_up idl idl d x) = 3%nat /\
  orphan (dg_up idl idl d) (dg_max_retries d) h x /\ (exists u, In u (dg_up idl idl d x) /\ succeeded h u) /\
  ts_orphaned (s_st s 2) = 6 /\ ts_is_done (s_st s 2) = true.
Proof.
  destruct (run_ce [far_d] 1000 far_calls
    (fun d h s => Nat.leb (length (pblocks d) * (length (pblocks d) + 1) + length (pblocks d) + 1) 1000 && apart_b d h &&
      with_id d (1%nat, 2) (fun a => perm_b d h a && with_id d (2%nat, 2) (fun x => mem_b a (dg_up idl idl d x) &&
        Nat.eqb (length (dg_up idl idl d x)) 3 && existsb (succ_b h) (dg_up idl idl d x))) &&
      with_id d (1%nat, 9) (perm_b d h) &&
      (ts_orphaned (s_st s 2) =? 6) && ts_is_done (s_st s 2)) far_ok) as [d [s0 [h [s [R X]]]]].
  { vm_compute. reflexivity. }
  repeat match goal with H : _ && _ = true |- _ => apply andb_prop in H; destruct H end.
  match goal with H : with_id d (1%nat, 2) _ = true |- _ => apply with_id_ok in H; destruct H as [a [Va [Ea Pa]]] end.
  match goal with H : with_id d (1%nat, 9) _ = true |- _ => apply with_id_ok in H; destruct H as [b [Vb [Eb Pb]]] end.
  apply andb_prop in Pa. destruct Pa as [Pa X]. apply with_id_ok in X. destruct X as [x [Vx [Ex X]]].
  apply andb_prop in X. destruct X as [X X3]. apply andb_prop in X. destruct X as [X1 X2].
  apply mem_b_true in X1. apply Nat.eqb_eq in X2. apply existsb_exists in X3. destruct X3 as [u [Hu Su]].
  pose proof (run_in _ _ _ _ _ _ _ _ R) as RI.
  exists d, s0, h, s, a, b, x. split; auto. split.
  { intros l N Hl. match goal with H : Nat.leb _ 1000 = true |- _ => apply Nat.leb_le in H end.
    assert (length l <= length (pblocks d))%nat by (apply NoDup_incl_length; auto; intros y Hy; apply RI; auto).
    unfold enough. nia. }
  split; [apply (run_dual _ _ _ _ _ _ _ _ R far_edges)|]. split; [eapply apart_b_ok; eauto|].
  split; [apply perm_b_true; auto|]. split; [apply perm_b_true; auto|]. split; [congruence|]. split; [apply RI; auto|].
  split; auto. split; [exists a; split; [apply perm_b_true; auto|apply anc_one; auto]|].
  split; [exists u; split; auto; apply succ_b_true; auto|]. split; auto. apply Z.eqb_eq. auto.
Qed.
Print Assumptions apart_example.

(* The serial server (C28, C29). *)
From Coq Require Import Lia Permutation.
From Verif Require Import SchedExec PipeRun P_SchedCE P_Sched SerialFacts.
Open Scope Z_scope.

(* the list of tasks contains the tasks they require (run_blockwise sees to that, C39) *)
Definition closed_tasks (tasks : list task) : Prop := forall x, in_pipe tasks x -> In x tasks.

(* the serial server on a pipeline *)
Definition serial_pipe (tasks : list task) ord ordt (d : dgraph) (fuel : nat) chk proc pick (n : nat) (s0 : sched) : res serial :=
  serial_run (dg_up ord ordt d) (dg_down ord ordt d) (dg_max_retries d) fuel (map t_id tasks) chk proc pick n s0.

(* C28, for process functions that do not raise (an exception ends run_blockwise), pipelines with
   [inverse] and [no_lonely], and where is_done is right (C23).  Missing: the loop gives up when
   every ready task's blocks were skipped in one round - see C28_all_skipped_refuted. *)
Theorem C28_serial_partial : forall tasks ord ordt d s0 fuel chk proc pick,
  pipe_ok tasks -> is_order ord -> is_order ordt -> sched_init tasks = Ok (d, s0) -> closed_tasks tasks ->
  inverse tasks ord ordt d -> no_lonely tasks ord ordt d -> fuel_ok tasks fuel ->
  (forall h pb, exists st, proc h pb = Ok st) ->
  few_upstream tasks ord ordt d \/ (exists bad : block -> Prop, (forall h pb, proc h pb = Ok FAILED -> bad (pb_block pb)) /\ spread tasks ord ordt d bad) ->
  exists N, forall n, (N <= n)%nat -> exists y,
    serial_pipe tasks ord ordt d fuel chk proc pick n s0 = Ok y /\
    pipe_run tasks ord ordt d s0 fuel (ss_h y) (ss_s y) /\ (forall b, ~ held (ss_h y) b) /\
    ((forall b, pipe_block tasks b -> settled (dg_up ord ordt d) (dg_max_retries d) (ss_h y) b) \/
     ended_by_skips (ss_h y)) /\
    (no_cross (pblocks d) (dg_up ord ordt d) ->
     forall b, pipe_block tasks b -> settled (dg_up ord ordt d) (dg_max_retries d) (ss_h y) b).
Proof.
  intros tasks ord ordt d s0 fuel chk proc pick PO HO HOt E CL IV NL FO PR FC.
  assert (R0 : pipe_run tasks ord ordt d s0 fuel [] s0) by (constructor; auto; constructor).
  pose proof (run_good _ _ _ _ _ _ _ _ R0 IV) as GG. pose proof (run_enough _ _ _ _ _ _ _ _ R0 FO) as EN.
  pose proof (run_fresh _ _ _ _ _ _ _ _ R0) as FR. pose proof (run_in _ _ _ _ _ _ _ _ R0) as RI.
  pose proof (run_roots _ _ _ _ _ _ _ _ R0 NL) as AR.
  assert (ORD : forall b, In b (pblocks d) -> In (b_task b) (s_order s0)).
  { intros b Hb. apply RI in Hb. destruct Hb as [t [g [Pt [Eg Gb]]]]. rewrite (gen_id tasks PO t g b Pt Eg Gb).
    destruct (pipe_fresh tasks d s0 PO E) as [_ [_ [_ [O _]]]]. apply O. eauto. }
  assert (AL : forall b, In b (pblocks d) -> In (b_task b) (map t_id tasks)).
  { intros b Hb. apply RI in Hb. destruct Hb as [t [g [Pt [Eg Gb]]]]. rewrite (gen_id tasks PO t g b Pt Eg Gb).
    apply in_map. apply CL, Pt. }
  assert (FC' : exists bad : block -> Prop, two_up (pblocks d) (dg_up ord ordt d) \/
     (forall h pb, proc h pb = Ok FAILED -> bad (pb_block pb)) /\ spread_in (fun b => In b (pblocks d)) (dg_up ord ordt d) bad).
  { destruct FC as [F|[bad [F S]]].
    - exists (fun _ => False). left. apply (few_two _ _ _ _ _ _ _ _ R0 F).
    - exists bad. right. split; auto. intros x a b w Hx. apply S, RI, Hx. }
  destruct FC' as [bad FC'].
  destruct (serial_run_ok (pblocks d) (dg_up ord ordt d) (dg_down ord ordt d) (root_seeds d) (dg_max_retries d)
    fuel GG EN s0 FR ORD (map t_id tasks) AL chk proc pick bad FC' PR AR) as [N H].
  exists N. intros n Ln. destruct (H n Ln) as [y [Ey [Ry [Hy [Sy [Ny _]]]]]]. exists y. split; [exact Ey|].
  split; [constructor; auto|]. split; auto. split; [|intros NX b Hb; apply (Ny NX), RI, Hb].
  destruct Sy as [Sy|Sy]; auto. left. intros b Hb. apply Sy, RI, Hb.
Qed.

(* without a check_function that returns True every block is settled *)
Section NoSkip.
  Variables (up down : block -> list block) (maxr : nat -> Z) (fuel : nat) (all_tasks : list nat).
  Variable chk : history -> nat -> block -> check_result.
  Variable proc : history -> pyblock -> res status.
  Variable pick : history -> nat -> list block -> nat.
  Hypothesis NT : forall h k b, chk h k b <> CheckTrue.
  Definition no_skip (h : history) : Prop := forall b, ~ In (EvSkip b) h.

  Lemma acquire_no_skip h s t s' r sk : acquire_block up down maxr fuel (chk h) s t = Ok (s', r, sk) -> sk = [].
  Proof.
    intros E. destruct sk as [|b sk]; auto. exfalso.
    destruct (C25_skip_iff_check_true _ _ _ _ _ _ _ _ _ _ E) as [H _].
    apply (NT h (fuel - 1 - 0)%nat b). apply (H O). reflexivity.
  Qed.
  Lemma first_no_skip ts : forall h s s' r h1, no_skip h -> first_block up down maxr fuel chk ts h s = Ok (s', r, h1) -> no_skip h1.
  Proof.
    induction ts as [|t ts IH]; intros h s s' r h1 N; cbn [first_block].
    - intros E. injection E as <- <- <-. auto.
    - destruct (acquire_block up down maxr fuel (chk h) s t) as [[[s1 b] sk]|] eqn:Ea; [|discriminate]. cbn [bind].
      apply acquire_no_skip in Ea. subst sk. cbn [map rev app]. destruct b as [pb|].
      + intros E. injection E as <- <- <-. intros b [?|H]; [discriminate|]. eapply N; eauto.
      + apply IH. intros b [?|H]; [discriminate|]. eapply N; eauto.
  Qed.
  Lemma block_no_skip x s1 h1 pb y : no_skip h1 -> serial_block up down maxr fuel proc pick x s1 h1 pb = Ok y -> no_skip (ss_h y).
  Proof.
    intros N. unfold serial_block. destruct (mem _ _ _); [|discriminate]. destruct (proc h1 pb) as [st|]; [|discriminate].
    cbn [bind]. destruct (release_block _ _ _ _ _ _ _) as [s2|]; [|discriminate]. cbn [bind].
    destruct (ts_is_done _); [destruct (sremove _ _ _); [|discriminate]; cbn [bind]|];
      intros E; injection E as <-; cbn [ss_h]; (intros b [?|H]; [discriminate|]; eapply N; eauto).
  Qed.
  Lemma loop_no_skip n : forall x y, no_skip (ss_h x) ->
    serial_loop up down maxr fuel all_tasks chk proc pick n x = Ok y -> no_skip (ss_h y).
  Proof.
    induction n as [|n IH]; intros x y N; cbn [serial_loop]; [discriminate|].
    destruct (set_eqb _ _); [intros E; injection E as <-; auto|].
    destruct (first_block _ _ _ _ _ _ _ _) as [[[s1 r] h1]|] eqn:Ef; [|discriminate]. cbn [bind].
    apply first_no_skip in Ef; auto. destruct r as [pb|].
    - destruct (serial_block _ _ _ _ _ _ _ _ _ _) as [z|] eqn:Ez; [|discriminate]. cbn [bind].
      apply block_no_skip in Ez; auto. destruct (ss_funcs z); [intros E; injection E as <-; auto|apply IH; auto].
    - intros E. injection E as <-. exact Ef.
  Qed.
  Lemma run_no_skip n s0 y : serial_run up down maxr fuel all_tasks chk proc pick n s0 = Ok y -> no_skip (ss_h y).
  Proof.
    unfold serial_run. destruct (serial_loop _ _ _ _ _ _ _ _ _ _) as [x|] eqn:E; [|discriminate]. cbn [bind].
    intros E'. injection E' as <-. cbn [ss_h]. eapply loop_no_skip; [|exact E]. intros b [].
  Qed.
End NoSkip.

Theorem C28_no_skips_partial : forall tasks ord ordt d s0 fuel chk proc pick,
  pipe_ok tasks -> is_order ord -> is_order ordt -> sched_init tasks = Ok (d, s0) -> closed_tasks tasks ->
  inverse tasks ord ordt d -> no_lonely tasks ord ordt d -> fuel_ok tasks fuel ->
  (forall h pb, exists st, proc h pb = Ok st) ->
  few_upstream tasks ord ordt d \/ (exists bad : block -> Prop, (forall h pb, proc h pb = Ok FAILED -> bad (pb_block pb)) /\ spread tasks ord ordt d bad) ->
  (forall h k b, chk h k b <> CheckTrue) ->
  exists N, forall n, (N <= n)%nat -> exists y,
    serial_pipe tasks ord ordt d fuel chk proc pick n s0 = Ok y /\
    pipe_run tasks ord ordt d s0 fuel (ss_h y) (ss_s y) /\
    forall b, pipe_block tasks b -> settled (dg_up ord ordt d) (dg_max_retries d) (ss_h y) b.
Proof.
  intros tasks ord ordt d s0 fuel chk proc pick PO HO HOt E CL IV NL FO PR FC NT.
  destruct (C28_serial_partial tasks ord ordt d s0 fuel chk proc pick PO HO HOt E CL IV NL FO PR FC) as [N H].
  exists N. intros n L. destruct (H n L) as [y [Ey [Ry [_ [[Sy|[l [h0 [b [Eh [Hb _]]]]]] _]]]]].
  - exists y. auto.
  - exfalso. apply (run_no_skip _ _ _ _ _ chk proc pick NT _ _ _ Ey b). rewrite Eh. apply in_or_app. auto.
Qed.
(* all tasks independent: the conditions on the dependency graph are met, and skipping is harmless *)
Theorem C28_independent_tasks_partial : forall tasks ord ordt d s0 fuel chk proc pick,
  pipe_ok tasks -> is_order ord -> is_order ordt -> sched_init tasks = Ok (d, s0) ->
  (forall t, In t tasks -> t_ups t = []) -> fuel_ok tasks fuel ->
  (forall h pb, exists st, proc h pb = Ok st) ->
  few_upstream tasks ord ordt d \/ (exists bad : block -> Prop, (forall h pb, proc h pb = Ok FAILED -> bad (pb_block pb)) /\ spread tasks ord ordt d bad) ->
  exists N, forall n, (N <= n)%nat -> exists y,
    serial_pipe tasks ord ordt d fuel chk proc pick n s0 = Ok y /\
    pipe_run tasks ord ordt d s0 fuel (ss_h y) (ss_s y) /\
    forall b, pipe_block tasks b -> settled (dg_up ord ordt d) (dg_max_retries d) (ss_h y) b.
Proof.
  intros tasks ord ordt d s0 fuel chk proc pick PO HO HOt E NU FO PR FC.
  assert (R0 : pipe_run tasks ord ordt d s0 fuel [] s0) by (constructor; auto; constructor).
  destruct (independent_tasks_ok _ _ _ _ _ _ _ _ R0 NU) as [IV NL].
  destruct (C28_serial_partial tasks ord ordt d s0 fuel chk proc pick PO HO HOt E) as [N H]; auto.
  { intros x [t [Ht Hr]]. apply requires_inv in Hr. destruct Hr as [<-|[u [Hu _]]]; auto.
    rewrite (NU t Ht) in Hu. destruct Hu. }
  exists N. intros n L. destruct (H n L) as [y [Ey [Ry [_ [_ Ny]]]]]. exists y. split; auto. split; auto. apply Ny.
  intros a b Hb Ha. apply (run_in _ _ _ _ _ _ _ _ R0) in Hb. destruct Hb as [t [g [Pt [Eg Gb]]]].
  assert (Nt : t_ups t = []).
  { destruct Pt as [x [Hx Hr]]. apply requires_inv in Hr. destruct Hr as [<-|[u [Hu _]]]; auto.
    rewrite (NU x Hx) in Hu. destruct Hu. }
  pose proof (run_dk _ _ _ _ _ _ _ _ R0) as DK.
  destruct (up_spec tasks PO d DK ord ordt HO HOt t g b Pt Eg Gb) as [us [Eu [_ [_ Hu]]]].
  apply Hu in Ha. destruct Ha as [Ha|[u [_ [Hn _]]]]; [|rewrite Nt in Hn; destruct Hn].
  destruct (up_gen _ _ _ (pipe_built tasks PO t g Pt Eg) ord HO b Gb) as [us' [Eu' [_ G]]].
  rewrite Eu' in Eu. injection Eu as ->.
  rewrite (gen_id tasks PO t g b), (gen_id tasks PO t g a); auto.
Qed.
Print Assumptions C28_serial_partial.
Print Assumptions C28_no_skips_partial.
Print Assumptions C28_independent_tasks_partial.

(* concrete runs *)
Definition serial_of (tasks : list task) (fuel : nat) chk proc (n : nat) : res (dgraph * sched * serial) :=
  '(d, s0) <- sched_init tasks ;;
  y <- serial_pipe tasks idl idl d fuel chk proc (fun _ => first) n s0 ;;
  Ok (d, s0, y).
Definition untouched : history -> pyblock -> res status := fun _ pb => Ok (pb_status pb).

Lemma settled_within tasks d s0 fuel h s C : pipe_run tasks idl idl d s0 fuel h s ->
  closed_b d (failed_in h) C = true ->
  forall b, pipe_block tasks b -> settled (dg_up idl idl d) (dg_max_retries d) h b ->
  succ_b h b || perm_b d h b || mem_b b C = true.
Proof.
  intros R E b Hb D. rewrite !Bool.orb_true_iff, succ_b_true, perm_b_true, mem_b_true.
  destruct D as [D|[D|D]]; auto. right. eapply closed_b_ok; eauto.
Qed.

(* a run of the serial server is a run of the scheduler, whatever the pipeline *)
Section IsRun.
  Variables (up down : block -> list block) (maxr : nat -> Z) (fuel : nat) (all_tasks : list nat).
  Variable chk : history -> nat -> block -> check_result.
  Variable proc : history -> pyblock -> res status.
  Variable pick : history -> nat -> list block -> nat.
  Variable s0 : sched.
  Local Notation reach := (reach up down maxr fuel s0).

  Lemma first_reach ts : forall h s s' r h1, reach h s -> (forall b, n_released h b <= n_handed h b) ->
    first_block up down maxr fuel chk ts h s = Ok (s', r, h1) ->
    reach h1 s' /\ (forall b, n_released h1 b <= n_handed h1 b) /\
    match r with Some pb => held h1 (pb_block pb) | None => True end.
  Proof.
    induction ts as [|t ts IH]; intros h s s' r h1 R K; cbn [first_block].
    - intros E. injection E as <- <- <-. auto.
    - destruct (acquire_block up down maxr fuel (chk h) s t) as [[[s1 b] sk]|] eqn:Ea; [|discriminate]. cbn [bind].
      pose proof (reach_acquire _ _ _ _ _ _ _ _ _ _ _ _ R Ea) as R1.
      assert (X : forall p, (forall c, p (EvSkip c) = false) -> count p (rev (map EvSkip sk) ++ h) = count p h).
      { intros p Hp. rewrite count_app, count_rev_skip by auto. lia. }
      destruct b as [pb|].
      + intros E. injection E as <- <- <-. split; auto. unfold held, n_released, n_handed in *. cbn [count].
        split; [intros b|]; rewrite !X by reflexivity.
        * specialize (K b). destruct (is_block _ _); lia.
        * rewrite is_block_same. specialize (K (pb_block pb)). lia.
      + apply IH; auto. intros b. unfold n_released, n_handed in *. cbn [count]. rewrite !X by reflexivity. apply K.
  Qed.
  Lemma block_reach x s1 h1 pb y : reach h1 s1 -> (forall b, n_released h1 b <= n_handed h1 b) -> held h1 (pb_block pb) ->
    serial_block up down maxr fuel proc pick x s1 h1 pb = Ok y ->
    reach (ss_h y) (ss_s y) /\ forall b, n_released (ss_h y) b <= n_handed (ss_h y) b.
  Proof.
    intros R K H. unfold serial_block. destruct (mem _ _ _); [|discriminate]. destruct (proc h1 pb) as [st0|]; [|discriminate].
    cbn [bind]. set (st := if status_eqb st0 FAILED then FAILED else SUCCESS).
    assert (St : st = SUCCESS \/ st = FAILED) by (unfold st; destruct (status_eqb st0 FAILED); auto).
    destruct (release_block _ _ _ _ _ _ _) as [s2|] eqn:Er; [|discriminate]. cbn [bind].
    pose proof (reach_release _ _ _ _ _ _ _ _ (PB (pb_block pb) st) _ R H St Er) as R2.
    assert (K2 : forall b, n_released (EvRel (PB (pb_block pb) st) :: h1) b <= n_handed (EvRel (PB (pb_block pb) st) :: h1) b).
    { intros b. specialize (K b). unfold n_released, n_handed in *. cbn [count pb_block].
      destruct (block_dec b (pb_block pb)) as [->|N].
      - rewrite is_block_same. unfold held, n_released, n_handed in H. lia.
      - rewrite is_block_other by auto. lia. }
    destruct (ts_is_done _); [destruct (sremove _ _ _); [|discriminate]; cbn [bind]|];
      intros E; injection E as <-; cbn [ss_h ss_s]; auto.
  Qed.
  Lemma loop_reach n : forall x y, reach (ss_h x) (ss_s x) -> (forall b, n_released (ss_h x) b <= n_handed (ss_h x) b) ->
    serial_loop up down maxr fuel all_tasks chk proc pick n x = Ok y -> reach (ss_h y) (ss_s y).
  Proof.
    induction n as [|n IH]; intros x y R K; cbn [serial_loop]; [discriminate|].
    destruct (set_eqb _ _); [intros E; injection E as <-; auto|].
    destruct (first_block _ _ _ _ _ _ _ _) as [[[s1 r] h1]|] eqn:Ef; [|discriminate]. cbn [bind].
    destruct (first_reach _ _ _ _ _ _ R K Ef) as [R1 [K1 X]]. destruct r as [pb|].
    - destruct (serial_block _ _ _ _ _ _ _ _ _ _) as [z|] eqn:Ez; [|discriminate]. cbn [bind].
      destruct (block_reach _ _ _ _ _ R1 K1 X Ez) as [R2 K2].
      destruct (ss_funcs z); [intros E; injection E as <-; auto|apply IH; auto].
    - intros E. injection E as <-. exact R1.
  Qed.
End IsRun.
(* so C13 and C14 (dependency order) hold for every serial run that returns *)
Theorem serial_is_run : forall tasks ord ordt d s0 fuel chk proc pick n y,
  pipe_ok tasks -> is_order ord -> is_order ordt -> sched_init tasks = Ok (d, s0) ->
  serial_pipe tasks ord ordt d fuel chk proc pick n s0 = Ok y ->
  pipe_run tasks ord ordt d s0 fuel (ss_h y) (ss_s y).
Proof.
  intros tasks ord ordt d s0 fuel chk proc pick n y PO HO HOt E. unfold serial_pipe, serial_run.
  destruct (serial_loop _ _ _ _ _ _ _ _ _ _) as [x|] eqn:El; [|discriminate]. cbn [bind].
  intros Ey. injection Ey as <-. cbn [ss_h ss_s]. constructor; auto.
  eapply loop_reach; [| |exact El]; cbn; [constructor|]. intros b. cbn. lia.
Qed.
Theorem C28_dependency_order : forall tasks ord ordt d s0 fuel chk proc pick n y,
  pipe_ok tasks -> is_order ord -> is_order ordt -> sched_init tasks = Ok (d, s0) ->
  serial_pipe tasks ord ordt d fuel chk proc pick n s0 = Ok y ->
  forall h2 e h1 b, ss_h y = h2 ++ e :: h1 -> takes e b ->
  exists us, dg_upstream ord ordt d b = Ok us /\ forall a, In a us -> succeeded h1 a.
Proof.
  intros tasks ord ordt d s0 fuel chk proc pick n y PO HO HOt E Ey.
  apply (C14_dependencies_first tasks ord ordt d s0 fuel (ss_h y) (ss_s y)).
  eapply serial_is_run; eauto.
Qed.
Print Assumptions C28_dependency_order.

Lemma serial_ce tasks fuel chk proc n (P : dgraph -> serial -> bool) : pipe_ok tasks ->
  match serial_of tasks fuel chk proc n with Ok (d, s0, y) => P d y | Err _ => false end = true ->
  exists d s0 y, sched_init tasks = Ok (d, s0) /\
    serial_pipe tasks idl idl d fuel chk proc (fun _ => first) n s0 = Ok y /\
    pipe_run tasks idl idl d s0 fuel (ss_h y) (ss_s y) /\ P d y = true.
Proof.
  intros PO. unfold serial_of. destruct (sched_init tasks) as [[d s0]|] eqn:E; [|discriminate]. cbn [bind].
  destruct (serial_pipe _ _ _ _ _ _ _ _ _ _) as [y|] eqn:Ey; [|discriminate]. cbn [bind]. intros H.
  exists d, s0, y. split; auto. split; auto. split; auto. eapply serial_is_run; eauto using @idl_order.
Qed.

(* C28 fails: two tasks, everything of the first was done before (its check_function says so); the
   server skips the blocks of the first task, notices that it got no block, and returns: no block
   of the second task is run, although all its blocks are ready and nothing failed. *)
Definition done_1 : history -> nat -> block -> check_result := fun _ _ b => if Nat.eqb (b_task b) 1 then CheckTrue else CheckFalse.
Lemma ex_du_ok : pipe_ok [ex_d; ex_u].
Proof. pipe_ok_tac. Qed.
Lemma ex_du_closed : closed_tasks [ex_d; ex_u].
Proof. intros x H. pipe_tac; cbn; auto. Qed.
Lemma ex_du_edges : edges_ok [ex_d; ex_u].
Proof.
  intros t u Ht Hu. pipe_tac;
  (constructor; try discriminate;
   [intros i Hi; cbn in Hi; destruct i as [|i]; [reflexivity|lia]
   |intros [k [[L CF] X]]; specialize (X O); destruct CF as [_ CF]; specialize (CF O); cbn in *; lia..]).
Qed.
Lemma ex_du_inside : inside_upstream [ex_d; ex_u].
Proof.
  intros t Ht Nu. pipe_tac; try (cbn in Nu; tauto). exists ex_u. split; [left; auto|]. split; [discriminate|]. auto.
Qed.
Lemma inside_lonely tasks ord ordt d s0 fuel h s : pipe_run tasks ord ordt d s0 fuel h s -> inside_upstream tasks ->
  no_lonely tasks ord ordt d.
Proof.
  intros R IN. apply (covered_lonely tasks (pr_ok _ _ _ _ _ _ _ _ R) d (run_dk _ _ _ _ _ _ _ _ R) ord ordt
    (pr_ord _ _ _ _ _ _ _ _ R) (pr_ordt _ _ _ _ _ _ _ _ R)).
  apply inside_covered; auto. apply (pr_ok _ _ _ _ _ _ _ _ R).
Qed.
Definition few_b (d : dgraph) : bool := forallb (fun b => Nat.leb (length (dg_up idl idl d b)) 2) (pblocks d).
Lemma few_b_ok tasks d s0 fuel h s : pipe_run tasks idl idl d s0 fuel h s -> few_b d = true -> few_upstream tasks idl idl d.
Proof.
  intros R E b Hb. apply (run_in _ _ _ _ _ _ _ _ R) in Hb. unfold few_b in E. rewrite forallb_forall in E.
  apply E in Hb. apply Nat.leb_le in Hb. exact Hb.
Qed.
Theorem C28_all_skipped_refuted : exists tasks d s0 y b,
  serial_pipe tasks idl idl d 100 done_1 untouched (fun _ => first) 100 s0 = Ok y /\
  pipe_run tasks idl idl d s0 100 (ss_h y) (ss_s y) /\ inverse tasks idl idl d /\ no_lonely tasks idl idl d /\
  closed_tasks tasks /\ pipe_block tasks b /\ ~ settled (dg_up idl idl d) (dg_max_retries d) (ss_h y) b /\
  (forall a, In a (dg_up idl idl d b) -> succeeded (ss_h y) a) /\ hands (ss_h y) = 0.
Proof.
  destruct (serial_ce [ex_d; ex_u] 100 done_1 untouched 100
    (fun d y => let h := ss_h y in closed_b d (failed_in h) [] && (hands h =? 0) &&
       some_block (fun b => negb (succ_b h b || perm_b d h b || mem_b b []) && forallb (succ_b h) (dg_up idl idl d b)) d)
    ex_du_ok) as [d [s0 [y [E [Ey [R P]]]]]].
  { vm_compute. reflexivity. }
  apply andb_prop in P. destruct P as [P P3]. apply andb_prop in P. destruct P as [P1 P2].
  apply existsb_exists in P3. destruct P3 as [b [Hb P3]]. apply andb_prop in P3. destruct P3 as [P3 P4].
  apply (run_in _ _ _ _ _ _ _ _ R) in Hb. apply Z.eqb_eq in P2. rewrite forallb_forall in P4.
  exists [ex_d; ex_u], d, s0, y, b. split; auto. split; auto.
  split; [apply (run_dual _ _ _ _ _ _ _ _ R ex_du_edges)|].
  split; [apply (inside_lonely _ _ _ _ _ _ _ _ R ex_du_inside)|].
  split; [apply ex_du_closed|]. split; auto. split; [|split; auto].
  - intros S. rewrite (settled_within _ _ _ _ _ _ _ R P1 b Hb S) in P3. discriminate.
  - intros a Ha. apply succ_b_true. auto.
Qed.
Print Assumptions C28_all_skipped_refuted.

(* C28 fails for a single task too: with one retry, two of the 16 blocks failing both times, the
   orphans are counted twice (C21), the task is taken to be done too early (C23), and the server
   returns with blocks never run that do not depend on a failed one. *)
Definition ce_sq1 : task := Task 1 (Roi [0; 0] [6; 6]) (Roi [0; 0] [3; 3]) (Roi [1; 1] [1; 1]) true Valid 1 1 [].
Lemma ce_sq1_ok : pipe_ok [ce_sq1].
Proof. pipe_ok_tac. Qed.
Definition failing (l : list (nat * Z)) : history -> pyblock -> res status :=
  fun _ pb => if existsb (bid_eqb (bid (pb_block pb))) l then Ok FAILED else Ok SUCCESS.
Theorem C28_stops_early_refuted : exists d s0 y b,
  serial_pipe [ce_sq1] idl idl d 400 (fun _ => no_check) (failing [(1%nat, 40); (1%nat, 19)]) (fun _ => first) 100 s0 = Ok y /\
  pipe_run [ce_sq1] idl idl d s0 400 (ss_h y) (ss_s y) /\ inverse [ce_sq1] idl idl d /\ no_lonely [ce_sq1] idl idl d /\
  pipe_block [ce_sq1] b /\ n_handed (ss_h y) b = 0 /\ ~ settled (dg_up idl idl d) (dg_max_retries d) (ss_h y) b.
Proof.
  destruct (serial_ce [ce_sq1] 400 (fun _ => no_check) (failing [(1%nat, 40); (1%nat, 19)]) 100
    (fun d y => let h := ss_h y in let C := after 4 d (failed_in h) [] in closed_b d (failed_in h) C &&
       some_block (fun b => negb (succ_b h b || perm_b d h b || mem_b b C) && (n_handed h b =? 0)) d)
    ce_sq1_ok) as [d [s0 [y [E [Ey [R P]]]]]].
  { vm_compute. reflexivity. }
  cbv zeta in P. apply andb_prop in P. destruct P as [P1 P3]. apply existsb_exists in P3. destruct P3 as [b [Hb P3]].
  apply andb_prop in P3. destruct P3 as [P3 P4]. apply (run_in _ _ _ _ _ _ _ _ R) in Hb. apply Z.eqb_eq in P4.
  destruct (independent_tasks_ok _ _ _ _ _ _ _ _ R) as [IV NL]; [intros t [<-|[]]; reflexivity|].
  exists d, s0, y, b. repeat (split; auto).
  intros S. rewrite (settled_within _ _ _ _ _ _ _ R P1 b Hb S) in P3. discriminate.
Qed.
(* with a second task the server looks for the process function it has already deleted *)
Definition ce_one : task := Task 2 (Roi [0] [1]) (Roi [0] [1]) (Roi [0] [1]) false Valid 1 0 [].
Theorem C28_key_error_refuted : exists d s0,
  sched_init [ce_sq1; ce_one] = Ok (d, s0) /\ pipe_ok [ce_sq1; ce_one] /\
  serial_pipe [ce_sq1; ce_one] idl idl d 500 (fun _ => no_check) (failing [(1%nat, 40); (1%nat, 19)]) (fun _ => first) 100 s0
    = Err KeyError.
Proof.
  assert (PO : pipe_ok [ce_sq1; ce_one]) by pipe_ok_tac.
  assert (X : match sched_init [ce_sq1; ce_one] with
    | Ok (d, s0) => match serial_pipe [ce_sq1; ce_one] idl idl d 500 (fun _ => no_check) (failing [(1%nat, 40); (1%nat, 19)]) (fun _ => first) 100 s0 with
                    | Err KeyError => true | _ => false end
    | Err _ => false end = true) by (vm_compute; reflexivity).
  destruct (sched_init _) as [[d s0]|] eqn:E; [|discriminate]. exists d, s0. split; auto. split; auto.
  destruct (serial_pipe _ _ _ _ _ _ _ _ _ _) as [|[]]; try discriminate. reflexivity.
Qed.
Print Assumptions C28_stops_early_refuted.
Print Assumptions C28_key_error_refuted.

(* C28: the hypotheses of the positive theorems are met by a pipeline of two tasks, one block of
   which fails at first *)
Definition flaky : history -> pyblock -> res status :=
  fun h pb => if (b_num (pb_block pb) =? 1) && (n_failed h (pb_block pb) =? 0) then Ok FAILED else Ok SUCCESS.
Definition ex_e : task := Task 2 (Roi [1] [7]) (Roi [1] [2]) (Roi [1] [2]) false Shrink 1 0 [ex_u].
Lemma ex_eu_ok : pipe_ok [ex_e; ex_u].
Proof. pipe_ok_tac. Qed.
Lemma ex_eu_closed : closed_tasks [ex_e; ex_u].
Proof. intros x H. pipe_tac; cbn; auto. Qed.
Lemma ex_eu_edges : edges_ok [ex_e; ex_u].
Proof.
  intros t u Ht Hu. pipe_tac;
  (constructor; try discriminate;
   [intros i Hi; cbn in Hi; destruct i as [|i]; [reflexivity|lia]
   |intros [k [[L CF] X]]; specialize (X O); destruct CF as [_ CF]; specialize (CF O); cbn in *; lia..]).
Qed.
Lemma ex_eu_inside : inside_upstream [ex_e; ex_u].
Proof.
  intros t Ht Nu. pipe_tac; try (cbn in Nu; tauto). exists ex_u. split; [left; auto|]. split; [discriminate|].
  intros p [L H]. cbn in L. split; [exact L|]. intros i Hi. specialize (H i Hi). rewrite L in Hi.
  destruct i as [|i]; [cbn in *; lia|lia].
Qed.
Example serial_example : exists d s0 y,
  sched_init [ex_e; ex_u] = Ok (d, s0) /\ inverse [ex_e; ex_u] idl idl d /\ no_lonely [ex_e; ex_u] idl idl d /\
  few_upstream [ex_e; ex_u] idl idl d /\ fuel_ok [ex_e; ex_u] 100 /\
  serial_pipe [ex_e; ex_u] idl idl d 100 (fun _ => no_check) flaky (fun _ => first) 100 s0 = Ok y /\
  hands (ss_h y) = 9 /\ ts_completed (s_st (ss_s y) 1) = 4 /\ ts_failed (s_st (ss_s y) 2) = 1 /\
  ts_completed (s_st (ss_s y) 2) = 3.
Proof.
  destruct (serial_ce [ex_e; ex_u] 100 (fun _ => no_check) flaky 100
    (fun d y => few_b d && (length (pblocks d) <=? 8)%nat && (hands (ss_h y) =? 9) && (ts_completed (s_st (ss_s y) 1) =? 4) &&
       (ts_failed (s_st (ss_s y) 2) =? 1) && (ts_completed (s_st (ss_s y) 2) =? 3)) ex_eu_ok) as [d [s0 [y [E [Ey [R P]]]]]].
  { vm_compute. reflexivity. }
  apply andb_prop in P. destruct P as [P P6]. apply andb_prop in P. destruct P as [P P5].
  apply andb_prop in P. destruct P as [P P4]. apply andb_prop in P. destruct P as [P P3].
  apply andb_prop in P. destruct P as [P1 P2]. apply Z.eqb_eq in P3, P4, P5, P6. apply Nat.leb_le in P2.
  exists d, s0, y. split; auto. split; [apply (run_dual _ _ _ _ _ _ _ _ R ex_eu_edges)|].
  split; [apply (inside_lonely _ _ _ _ _ _ _ _ R ex_eu_inside)|].
  split; [eapply few_b_ok; eauto|]. split; [|repeat (split; auto)].
  assert (Ed : dgraph_init [ex_e; ex_u] = Ok d).
  { unfold sched_init in E. destruct (dgraph_init _) as [d'|]; [|discriminate].
    cbn [bind] in E. destruct (init_roots _ _); [|discriminate]. cbn [bind] in E.
    destruct (foldM _ _ _) as [[? ?]|]; [|discriminate]. cbn [bind] in E. congruence. }
  apply (fuel_of _ d); auto; [apply ex_eu_ok|]. unfold enough. nia.
Qed.

(* C29 fails.  The block comes back with the status FAILED of its first attempt (the scheduler
   queues the same object); a process function that returns normally and does not touch the status
   leaves it, and the server takes that for a second failure. *)
Definition ce_retry : task := Task 1 (Roi [0] [1]) (Roi [0] [1]) (Roi [0] [1]) false Valid 1 1 [].
Definition fail_once : history -> pyblock -> res status :=
  fun h pb => if n_failed h (pb_block pb) =? 0 then Ok FAILED else Ok (pb_status pb).
Theorem C29_retry_fails_refuted : exists d s0 y b,
  pipe_ok [ce_retry] /\ serial_pipe [ce_retry] idl idl d 100 (fun _ => no_check) fail_once (fun _ => first) 100 s0 = Ok y /\
  pipe_run [ce_retry] idl idl d s0 100 (ss_h y) (ss_s y) /\ dg_max_retries d 1 = 1 /\
  pipe_block [ce_retry] b /\
  ss_h y = [EvRel (PB b FAILED); EvHand 1 (PB b FAILED); EvRel (PB b FAILED); EvHand 1 (PB b CREATED)] /\
  perm_failed (dg_max_retries d) (ss_h y) b /\ ts_failed (s_st (ss_s y) 1) = 1 /\ ts_completed (s_st (ss_s y) 1) = 0.
Proof.
  assert (PO : pipe_ok [ce_retry]) by pipe_ok_tac.
  destruct (serial_ce [ce_retry] 100 (fun _ => no_check) fail_once 100
    (fun d y => (dg_max_retries d 1 =? 1) && (ts_failed (s_st (ss_s y) 1) =? 1) && (ts_completed (s_st (ss_s y) 1) =? 0) &&
       some_block (fun b => (if list_eq_dec P_SchedCE.event_dec (ss_h y)
          [EvRel (PB b FAILED); EvHand 1 (PB b FAILED); EvRel (PB b FAILED); EvHand 1 (PB b CREATED)] then true else false)
          && perm_b d (ss_h y) b) d) PO) as [d [s0 [y [E [Ey [R P]]]]]].
  { vm_compute. reflexivity. }
  apply andb_prop in P. destruct P as [P P4]. apply andb_prop in P. destruct P as [P P3].
  apply andb_prop in P. destruct P as [P1 P2]. apply existsb_exists in P4. destruct P4 as [b [Hb P4]].
  apply andb_prop in P4. destruct P4 as [P4 P5]. destruct (list_eq_dec _ _ _) as [Eh|]; [|discriminate].
  apply (run_in _ _ _ _ _ _ _ _ R) in Hb. apply perm_b_true in P5. apply Z.eqb_eq in P1, P2, P3.
  exists d, s0, y, b. repeat (split; auto).
Qed.
(* What does hold: a (re)tried block whose process function leaves it in any other status than
   FAILED is counted as completed. *)
Theorem C29_explicit_success_partial : forall up down maxr fuel proc pick x s1 h1 pb y st,
  serial_block up down maxr fuel proc pick x s1 h1 pb = Ok y -> proc h1 pb = Ok st -> st <> FAILED ->
  ss_h y = EvRel (PB (pb_block pb) SUCCESS) :: h1 /\
  release_block up down maxr fuel (pick h1) s1 (PB (pb_block pb) SUCCESS) = Ok (ss_s y) /\
  ts_completed (s_st (ss_s y) (b_task (pb_block pb))) = ts_completed (s_st s1 (b_task (pb_block pb))) + 1.
Proof.
  intros up down maxr fuel proc pick x s1 h1 pb y st. unfold serial_block. intros E Ep Ns.
  destruct (mem _ _ _); [|discriminate]. rewrite Ep in E. cbn [bind] in E.
  replace (status_eqb st FAILED) with false in E by (destruct st; auto; congruence).
  destruct (release_block _ _ _ _ _ _ _) as [s2|] eqn:Er; [|discriminate]. cbn [bind] in E.
  assert (Ey : ss_h y = EvRel (PB (pb_block pb) SUCCESS) :: h1 /\ ss_s y = s2).
  { destruct (ts_is_done _); [destruct (sremove _ _ _); [|discriminate]; cbn [bind] in E|]; injection E as <-; auto. }
  destruct Ey as [-> ->]. split; auto. split; auto. clear E Ep.
  unfold release_block in Er. cbn [pb_block pb_status] in Er. unfold remove_from_processing in Er.
  destruct (sremove _ _ _); [|discriminate]. cbn [bind] in Er.
  destruct (mark_success _ _ _ _ _) as [[sf news]|]; [|discriminate]. cbn [bind] in Er. injection Er as <-.
  set (t := b_task (pb_block pb)).
  match goal with |- ts_completed (s_st (update_ready_queue ?z news) t) = _ =>
    destruct (urq news z) as [_ [_ H]]; destruct (H t) as [_ [_ [_ [_ [_ [_ [_ [-> _]]]]]]]] end.
  cbn. fold t. rewrite upd_get, Nat.eqb_refl. cbn. rewrite upd_get, Nat.eqb_refl. reflexivity.
Qed.
Print Assumptions C29_retry_fails_refuted.
Print Assumptions C29_explicit_success_partial.

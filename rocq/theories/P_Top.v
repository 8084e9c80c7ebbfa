(* Calls of run_blockwise (C66, C67). *)
From Coq Require Import Arith Lia Permutation.
From Verif Require Import SchedProps SchedExec DGFacts2 PipeRun P_SchedCE P_Sched SerialFacts P_Conv P_Serial ServerFacts ServerSteps
  ServerIdle P_Server P_Server2 P_ServerCE P_Outcome P_Notify PoolAll P_PoolFail.
From Verif Require Client Pool P_Pool.
From Verif Require Import Sys SysFacts SysMeasure SysTrace WholeSrv WholeSim WholeAny WholeAll WholeRun P_WholeAny TopInit Top.
Open Scope Z_scope.

Record call (tasks : list task) ord ordt (all : list task) (d : dgraph) fuel (nw : nat -> Z) : Prop := {
  ca_ok : pipe_ok tasks;
  ca_ord : is_order ord;
  ca_ordt : is_order ordt;
  ca_inverse : inverse all ord ordt d;
  ca_fuel : fuel_ok all fuel;
  ca_workers : forall t, 0 <= nw t
}.
(* the moves of a run without those of the main thread *)
Definition amoves (ms : list tmove) : list amove := flat_map (fun m => match m with TMove a => [a] | TStop => [] end) ms.
Lemma amoves_app a b : amoves (a ++ b) = amoves a ++ amoves b.
Proof. apply flat_map_app. Qed.

Section Quiet.
  Variables (up down : block -> list block) (maxr : nat -> Z) (fuel : nat) (init : nat -> res unit) (nw : nat -> Z) (mbf : Z).
  Lemma hstep_quiet h m h' : hstep up down maxr fuel init nw mbf h m h' -> hstep up down maxr fuel quiet nw mbf h m h'.
  Proof.
    intros S. destruct S; [eapply hs_connect|eapply hs_ask|eapply hs_block|eapply hs_leave|eapply hs_finish|eapply hs_exit|eapply hs_end|eapply hs_serve];
      eauto using iteration_quiet.
  Qed.
  Lemma astep_quiet h m h' : astep up down maxr fuel init nw mbf h m h' -> astep up down maxr fuel quiet nw mbf h m h'.
  Proof. intros S. destruct S; [apply as_move; auto using hstep_quiet|apply as_raise; auto|apply as_break; auto]. Qed.
  Lemma truns_quiet y ms y' : truns up down maxr fuel init nw mbf y ms y' -> aruns up down maxr fuel quiet nw mbf (tp_h y) (amoves ms) (tp_h y').
  Proof.
    induction 1 as [|ms y1 m y2 R IH S]; [constructor|]. rewrite amoves_app. destruct S as [m h A _|]; cbn [amoves flat_map app tp_h].
    - eapply aruns_step; eauto using astep_quiet.
    - rewrite app_nil_r. exact IH.
  Qed.
  Lemma whole_init_quiet ts s0 h : whole_init init nw mbf ts s0 = Ok h -> whole_init quiet nw mbf ts s0 = Ok h.
  Proof.
    unfold whole_init. destruct (server_init init ts false s0) as [sv|] eqn:E; [|discriminate].
    destruct (init_alike init ts false s0) as [<-|[e [t [H _]]]]; [|congruence]. rewrite E. auto.
  Qed.
  (* whether the main thread has set the event *)
  Lemma truns_stop y ms y' : truns up down maxr fuel init nw mbf y ms y' -> (tp_stop y' = true <-> tp_stop y = true \/ In TStop ms).
  Proof.
    induction 1 as [|ms y1 m y2 R IH S]; [cbn; tauto|]. rewrite in_app_iff. destruct S as [m h A _|]; cbn [tp_stop].
    - rewrite IH. cbn. split; [tauto|]. intros [?|[?|[H|[]]]]; auto. discriminate.
    - split; auto. intros _. right. right. left. reflexivity.
  Qed.
  Lemma truns_stopped y ms y' : truns up down maxr fuel init nw mbf y ms y' -> tp_stop y = true -> tp_stop y' = true /\ h_sv (tp_h y') = h_sv (tp_h y).
  Proof.
    induction 1 as [|ms y1 m y2 R IH S]; auto. intros E. destruct (IH E) as [E1 E2]. destruct S as [m h A N|]; cbn [tp_stop tp_h]; auto.
    split; auto. rewrite <- E2. destruct A as [m h S| |]; try reflexivity. destruct S; try reflexivity. rewrite N in E1; [discriminate|reflexivity].
  Qed.
End Quiet.

(* the tasks whose callbacks are called are those given *)
Lemma steps_inits up down maxr fuel init gr ids x y : steps up down maxr fuel init gr (known_a ids) x y ->
  (forall t, In t (s_order (sv_s x)) -> In t ids) -> (forall t, In (AInit t) (sv_tr x) -> In t ids) ->
  (forall t, In t (s_order (sv_s y)) -> In t ids) /\ forall t, In (AInit t) (sv_tr y) -> In t ids.
Proof.
  intros S O I. induction S as [|y z S [IO II] U]; [auto|].
  assert (NC : forall u t r sk, ~ In (AInit u) (calls t r sk)).
  { intros ? ? ? ? X. unfold calls in X. apply in_map_iff in X. destruct X as [? [X _]]. discriminate. }
  assert (AQ : forall chk t s1 r sk, known_a ids y t -> acquire_block up down maxr fuel chk (touch (sv_s y) t) t = Ok (s1, r, sk) -> forall u, In u (s_order s1) -> In u ids).
  { intros chk t s1 r sk G E u Hu. unfold acquire_block in E. apply acquire_order in E. rewrite E in Hu. cbn [touch s_order] in Hu.
    apply in_sadd_nat in Hu. destruct Hu as [->|Hu]; auto. }
  destruct U as [st1 m|t st1 p P|chk now t st1 s1 pb1 sk b A G Ea N|chk t st1 s1 sk A G Ea Er Ep|chk t st1 s1 sk p A G Ea Er Ep P|pick pb1 s1 G Ea|pb1 w| |z Ea|b Sb|m L];
    cbn [add_tr set_book set_s set_pend sv_s sv_tr].
  - split; auto. intros t [H|H]; [discriminate|auto].
  - split; auto. intros u [H|H]; [discriminate|auto].
  - split; [eauto|]. intros u H. apply in_app_or in H. destruct H as [H|H]; [|auto]. apply in_app_or in H. destruct H as [[H|[H|[]]]|H]; try discriminate. destruct (NC _ _ _ _ H).
  - split; [eauto|]. intros u [H|H]; [discriminate|]. apply in_app_or in H. destruct H as [H|H]; [destruct (NC _ _ _ _ H)|auto].
  - split; [eauto|]. intros u [H|H]; [discriminate|]. apply in_app_or in H. destruct H as [H|H]; [destruct (NC _ _ _ _ H)|auto].
  - split; [apply release_order in Ea; rewrite Ea; auto|]. intros u [H|[H|H]]; try discriminate. auto.
  - split; auto. intros u [H|H]; [discriminate|auto].
  - destruct (check_all_spec y) as [B [_ [_ [_ [l [E F]]]]]]. rewrite (be_s _ _ B), E. split; auto. intros t H. apply in_app_or in H. destruct H as [H|H]; auto.
    rewrite Forall_forall in F. destruct (F _ H) as [? [Q _]]. discriminate.
  - destruct (recruit_spec init _ _ Ea) as [B [_ [_ [_ [l [E F]]]]]]. rewrite (be_s _ _ B), E. split; auto.
    intros t [H|H]; [discriminate|]. apply in_app_or in H. destruct H as [H|H]; auto. rewrite Forall_forall in F. destruct (F _ H) as [u [[Q|Q] [R _]]]; [discriminate|].
    injection Q as ->. apply IO. unfold get_ready_tasks in R. apply filter_In in R. apply R.
  - auto.
  - split; auto. intros t H. apply in_app_or in H. destruct H as [H|H]; auto. rewrite Forall_forall in L. destruct (L _ H).
Qed.

Section Call.
  Variables (tasks : list task) (ord : list block -> list block) (ordt : list nat -> list nat) (all : list task) (d : dgraph) (s0 : sched) (fuel : nat).
  Variables (init : nat -> res unit) (nw : nat -> Z) (k : nat) (h : whole).
  Hypothesis CA : call tasks ord ordt all d fuel nw.
  Hypothesis Ec : collect_tasks k tasks = Ok all.
  Hypothesis Es : sched_init all = Ok (d, s0).
  Lemma ca_all : pipe_ok all /\ (forall b, pipe_block all b <-> pipe_block tasks b) /\ forall i, In i (map t_id all) -> exists t, in_pipe tasks t /\ t_id t = i.
  Proof.
    destruct (C39_scheduled _ _ _ _ _ (ca_ok _ _ _ _ _ _ _ CA) Ec Es) as [A [B [C [_ D]]]]. split; auto. split; auto.
    intros i Hi. apply D. apply (pipe_fresh _ _ _ A Es). apply in_map_iff in Hi. destruct Hi as [t [<- Ht]]. exists t. split; auto. exists t. split; auto. constructor.
  Qed.
  Lemma order_all : forall t, In t (s_order s0) -> In t (map t_id all).
  Proof.
    destruct (C39_scheduled _ _ _ _ _ (ca_ok _ _ _ _ _ _ _ CA) Ec Es) as [A [B [C [_ D]]]]. intros t Ht.
    apply (pipe_fresh _ _ _ A Es) in Ht. destruct Ht as [x [Px <-]]. apply in_map. apply B. exact Px.
  Qed.
  Section Started.
    Hypothesis Ei : whole_init init nw 3 (map t_id all) s0 = Ok h.
    Lemma ca_setup : setup all ord ordt d s0 fuel quiet nw 3 h.
    Proof. pose proof CA as C. destruct C. constructor; auto; try lia; [apply ca_all|eapply whole_init_quiet; eauto]. Qed.
  End Started.
  Lemma inits_all t ins sv : server_run_to all ord ordt d s0 fuel quiet false ins sv -> In (AInit t) (sv_tr sv) -> In t (map t_id all).
  Proof.
    intros S H. pose proof (a_steps _ _ _ _ _ _ _ _ _ _ S) as T. apply steps_inits in T; [|exact order_all|intros u []].
    apply T. exact H.
  Qed.
End Call.

(* ---- C66 ---- *)
(* The value: True if and only if every block of the tasks and of those they require has succeeded, failed for good, or cannot run
   because a block it depends on failed. *)
Theorem C66_value_partial : forall tasks ord ordt fuel init nw all d s0 ms y v ps,
  call tasks ord ordt all d fuel nw -> run_blockwise tasks ord ordt fuel init nw all d s0 ms (Some y) (Returned v) ps ->
  let h := hist (sv_tr (h_sv (tp_h y))) in
  apart_failures all ord ordt d h ->
  (v = true <-> forall b, pipe_block tasks b -> settled (dg_up ord ordt d) (dg_max_retries d) h b).
Proof.
  intros tasks ord ordt fuel init nw all d s0 ms y v ps CA RB h F. inversion RB as [|k h0 ? ? ? ? Ec Es Ei R E]; subst.
  pose proof (ca_setup _ _ _ _ _ _ _ _ _ _ _ CA Ec Es Ei) as SE. pose proof (truns_quiet _ _ _ _ _ _ _ _ _ _ R) as Q. cbn [tp_h] in Q.
  destruct (C65_server _ _ _ _ _ _ _ _ _ _ _ _ SE Q) as [S _]. pose proof (a_pipe _ _ _ _ _ _ _ _ _ _ S) as P.
  inversion E as [W|]; subst. rewrite (C40_true_iff_settled_partial _ _ _ _ _ _ _ _ P (ca_inverse _ _ _ _ _ _ _ CA) (ca_fuel _ _ _ _ _ _ _ CA) F).
  destruct (ca_all _ _ _ _ _ _ _ _ _ CA Ec Es) as [_ [X _]]. split; intros H b Hb; apply H, X, Hb.
Qed.
Print Assumptions C66_value_partial.
(* It is False only if the main thread was interrupted. *)
Theorem C66_false_partial : forall tasks ord ordt fuel init nw all d s0 ms y ps,
  call tasks ord ordt all d fuel nw -> run_blockwise tasks ord ordt fuel init nw all d s0 ms (Some y) (Returned false) ps ->
  apart_failures all ord ordt d (hist (sv_tr (h_sv (tp_h y)))) -> In TStop ms.
Proof.
  intros tasks ord ordt fuel init nw all d s0 ms y ps CA RB F. pose proof (C66_value_partial _ _ _ _ _ _ _ _ _ _ _ _ _ CA RB F) as V.
  inversion RB as [|k h0 ? ? ? ? Ec Es Ei R E]; subst.
  pose proof (ca_setup _ _ _ _ _ _ _ _ _ _ _ CA Ec Es Ei) as SE. pose proof (truns_quiet _ _ _ _ _ _ _ _ _ _ R) as Q. cbn [tp_h] in Q.
  inversion E as [[Sp|Tp]|]; subst.
  - exfalso. assert (X : false = true); [|discriminate X]. apply V. intros b Hb. destruct (ca_all _ _ _ _ _ _ _ _ _ CA Ec Es) as [_ [X _]].
    apply (C65_settled_partial _ _ _ _ _ _ _ _ _ _ _ _ b SE Q F Sp). apply X. exact Hb.
  - apply (truns_stop _ _ _ _ _ _ _ _ _ _ R) in Tp. destruct Tp as [Tp|Tp]; [discriminate|exact Tp].
Qed.
Print Assumptions C66_false_partial.
(* After the interrupt the server does nothing more to the blocks, and run_blockwise returns; it does not raise an exception. *)
Theorem C66_interrupted : forall tasks ord ordt fuel init nw all d s0 k h ms1 y1 ms2 y,
  let up := dg_up ord ordt d in let down := dg_down ord ordt d in let maxr := dg_max_retries d in
  collect_tasks k tasks = Ok all -> sched_init all = Ok (d, s0) -> whole_init init nw 3 (map t_id all) s0 = Ok h ->
  truns up down maxr fuel init nw 3 (Top h false) ms1 y1 -> truns up down maxr fuel init nw 3 y1 (TStop :: ms2) y ->
  h_sv (tp_h y) = h_sv (tp_h y1) /\
  (exists ps, run_blockwise tasks ord ordt fuel init nw all d s0 (ms1 ++ TStop :: ms2) (Some y) (Returned (result (sv_s (h_sv (tp_h y1))))) ps) /\
  forall x ps, ~ run_blockwise tasks ord ordt fuel init nw all d s0 (ms1 ++ TStop :: ms2) (Some y) (Raised x) ps.
Proof.
  intros tasks ord ordt fuel init nw all d s0 k h ms1 y1 ms2 y up down maxr Ec Es Ei R1 R2.
  assert (SP : forall a l b m, truns up down maxr fuel init nw 3 a (m :: l) b -> exists c, tstep up down maxr fuel init nw 3 a m c /\ truns up down maxr fuel init nw 3 c l b).
  { intros a l. induction l as [|m l IH] using rev_ind; intros b m0 H.
    - inversion H as [|l' z m' b' R' S' E]; subst. destruct l' as [|? l']; cbn in E; [|injection E as _ E; destruct l'; discriminate E].
      injection E as ->. inversion R' as [|l' z' m' b' R'' S'' E]; subst; [|destruct l'; discriminate E]. exists b. split; auto. constructor.
    - inversion H as [|l' z m' b' R' S' E]; subst. change (m0 :: l ++ [m]) with ((m0 :: l) ++ [m]) in E. apply app_inj_tail in E. destruct E as [-> ->].
      destruct (IH _ _ R') as [c [C1 C2]]. exists c. split; auto. eapply truns_step; eauto. }
  assert (APP : forall a l1 b l2 c, truns up down maxr fuel init nw 3 a l1 b -> truns up down maxr fuel init nw 3 b l2 c -> truns up down maxr fuel init nw 3 a (l1 ++ l2) c).
  { intros a l1 b l2 c H1 H2. induction H2 as [|ms z1 m z2 H2 IH S2]; [rewrite app_nil_r; exact H1|]. rewrite app_assoc. eapply truns_step; eauto. }
  destruct (SP _ _ _ _ R2) as [c [C1 C2]]. inversion C1; subst. destruct (truns_stopped _ _ _ _ _ _ _ _ _ _ C2 eq_refl) as [St Sv]. cbn [tp_h] in Sv.
  split; [exact Sv|]. split.
  - exists (Pool.pools_stop (h_ps (tp_h y))). rewrite <- Sv. eapply rb_run; eauto. apply en_stop. right. exact St.
  - intros x ps RB. inversion RB as [|? ? ? ? ? ? ? ? ? R E]; subst. inversion E as [|i x' es Tp _]; subst. congruence.
Qed.
Print Assumptions C66_interrupted.
(* It ends the server's iterations and nothing else: what a worker, its process or the network can do, it can still do. *)
Theorem C66_only_server_stops : forall up down maxr fuel init nw mbf y m h, astep up down maxr fuel init nw mbf (tp_h y) m h ->
  ((exists y', tstep up down maxr fuel init nw mbf y (TMove m) y') <-> tp_stop y = false \/ forall i cut, m <> AMove (HServe i cut)).
Proof.
  intros up down maxr fuel init nw mbf y m h S. split.
  - intros [y' T]. inversion T as [m' h' S' N|]; subst. destruct (tp_stop y); auto. right. intros i cut ->. discriminate (N eq_refl).
  - intros H. exists (Top h (tp_stop y)). apply ts_move; auto. intros E. destruct H as [H|H]; auto.
    destruct m as [[]| |]; try discriminate E. destruct (H _ _ eq_refl).
Qed.
Print Assumptions C66_only_server_stops.
(* An exception is one that a worker or an init callback raised. *)
Theorem C66_raised : forall tasks ord ordt fuel init nw all d s0 ms o x ps,
  call tasks ord ordt all d fuel nw -> run_blockwise tasks ord ordt fuel init nw all d s0 ms o (Raised x) ps ->
  (exists st n, In (TMove (ARaise st x n)) ms) \/ exists t, in_pipe tasks t /\ init (t_id t) = Err x.
Proof.
  intros tasks ord ordt fuel init nw all d s0 ms o x ps CA RB. inversion RB as [k ? Ec Es Ei|k h0 ? y ? ? Ec Es Ei R E]; subst.
  - right. destruct (ca_all _ _ _ _ _ _ _ _ _ CA Ec Es) as [_ [_ X]]. pose proof (order_all _ _ _ _ _ _ _ _ _ CA Ec Es) as OA. unfold whole_init in Ei.
    destruct (init_alike init (map t_id all) false s0) as [Eq|[e [t [E [I H]]]]].
    + exfalso. destruct (server_init init (map t_id all) false s0) as [sv|] eqn:Ev; cbn [bind] in Ei.
      * destruct (init_recruited init _ _ _ Ev) as [_ Fl].
        assert (PA : forall e, In e (pool_acts (sv_tr sv)) -> exists ts, e = Pool.PRecruit ts).
        { intros e He. unfold pool_acts in He. apply in_flat_map in He. destruct He as [a [Ha He]]. destruct a as [| | |n| | | | | |]; try (destruct He; fail).
          - destruct n as [| | | |pb w|]; try (destruct He; fail). assert (Q : In (pb, w) (fails (sv_tr sv))) by (unfold fails; apply in_flat_map; eexists; split; [exact Ha|left; reflexivity]).
            rewrite Fl in Q. destruct Q.
          - destruct He as [<-|[]]. eauto. }
        assert (G : forall es p f, (forall e, In e es -> exists ts, e = Pool.PRecruit ts) -> exists r, on_all nw 3 (fun _ => O) es p f = Ok r).
        { induction es as [|e es IH]; intros p f H; cbn [on_all]; [eauto|]. destruct (H e (or_introl eq_refl)) as [ts ->]. cbn [Pool.pstep]. apply IH. intros e' He'. apply H. right. exact He'. }
        destruct (G _ (Pool.pools_init (dedup Nat.eqb (map t_id all)) (Pool.Sys (fun _ => None) 0)) (fun _ => Worker 0 Unborn [] []) PA) as [[p f] G']. rewrite G' in Ei. discriminate Ei.
      * symmetry in Eq. destruct (recruit_total quiet (Server s0 [] (map (fun t => (t, [])) (dedup Nat.eqb (map t_id all))) [] [] false [])) as [y Ey]; [reflexivity|].
        unfold server_init in Eq. congruence.
    + rewrite E in Ei. cbn [bind] in Ei. injection Ei as <-.
      destruct (recruit_total quiet (Server s0 [] (map (fun t => (t, [])) (dedup Nat.eqb (map t_id all))) [] [] false [])) as [y Ey]; [reflexivity|].
      specialize (H y Ey). destruct (recruit_spec quiet _ _ Ey) as [_ [_ [_ [_ [l [El F]]]]]]. rewrite El in H. destruct H as [H|H]; [discriminate|].
      rewrite app_nil_r in H. rewrite Forall_forall in F. destruct (F _ H) as [u [[Q|Q] [R _]]]; [discriminate|]. injection Q as ->.
      cbn [sv_s] in R. unfold get_ready_tasks in R. apply filter_In in R. destruct R as [R _]. apply OA in R. apply X in R. destruct R as [tk [Pt <-]]. exists tk. auto.
  - pose proof (ca_setup _ _ _ _ _ _ _ _ _ _ _ CA Ec Es Ei) as SE. pose proof (truns_quiet _ _ _ _ _ _ _ _ _ _ R) as Q. cbn [tp_h] in Q.
    pose proof (ai_runs _ _ _ _ _ _ _ _ _ _ SE _ _ Q) as A.
    assert (AM : forall st n, In (ARaise st x n) (amoves ms) -> exists st n, In (TMove (ARaise st x n)) ms).
    { intros st n H. unfold amoves in H. apply in_flat_map in H. destruct H as [[m|] [Hm H]]; [|destruct H]. destruct H as [->|[]]. eauto. }
    inversion E as [|i x' es Tp Ra]; subst. destruct Ra as [Sp Io Er|cut sv l Sp Io Er El Eo].
    + destruct (ai_iteration _ _ _ _ _ _ _ _ _ _ SE _ _ _ A Io) as [sv [l [Ev El]]].
      destruct (iteration_alike (dg_up ord ordt d) (dg_down ord ordt d) (dg_max_retries d) fuel init i (h_sv (tp_h y))) as [Eq|[e [t [E1 [I H]]]]]; [congruence|].
      right. rewrite Er in E1. injection E1 as <-. specialize (H sv Ev).
      assert (S : server_run_to all ord ordt d s0 fuel quiet false (aserved (amoves ms) ++ [i]) sv).
      { pose proof (ai_server _ _ _ _ _ _ _ _ _ _ _ A) as S. destruct S. constructor; auto.
        + apply Forall_app. split; [exact sr_fair|]. constructor; [|constructor]. eapply ai_fair; eauto.
        + unfold server_pipe in *. destruct (server_init _ _ _ _) as [z|]; [|discriminate]. cbn [bind] in *. eapply loop_snoc; eauto. }
      assert (Ht : In t (map t_id all)) by (eapply inits_all; eauto).
      destruct (ca_all _ _ _ _ _ _ _ _ _ CA Ec Es) as [_ [_ X]]. destruct (X _ Ht) as [tk [Pt <-]]. exists tk. auto.
    + left. destruct (C64_only_workers all ord ordt d s0 fuel quiet nw 3 h0 (amoves ms) (tp_h y) i x SE Q) as [st [n H]]; [|eapply AM; eauto].
      eapply ra_pools; eauto using iteration_quiet.
Qed.
Print Assumptions C66_raised.
(* However it ends, no worker process is left. *)
Theorem C66_none_outlives : forall tasks ord ordt fuel init nw all d s0 ms o e ps,
  call tasks ord ordt all d fuel nw -> run_blockwise tasks ord ordt fuel init nw all d s0 ms o e ps ->
  (forall st t, Pool.tbl (Pool.ps_sys ps) st <> Some (t, Pool.Running)) /\ forall t p, In (t, p) (Pool.ps_pools ps) -> p = [].
Proof.
  intros tasks ord ordt fuel init nw all d s0 ms o e ps CA RB. inversion RB as [k x Ec Es Ei|k h0 ? y ? ? Ec Es Ei R E]; subst.
  - split; [intros st t; cbn; discriminate|]. intros t p H. cbn in H. apply in_map_iff in H. destruct H as [u [H _]]. congruence.
  - pose proof (ca_setup _ _ _ _ _ _ _ _ _ _ _ CA Ec Es Ei) as SE. pose proof (truns_quiet _ _ _ _ _ _ _ _ _ _ R) as Q. cbn [tp_h] in Q.
    inversion E as [|i x es]; subst.
    + apply (C64_none_outlives _ _ _ _ _ _ _ _ _ _ _ _ [] SE Q).
    + apply (C64_none_outlives _ _ _ _ _ _ _ _ _ _ _ _ es SE Q).
Qed.
Print Assumptions C66_none_outlives.
(* A Server object does not run a second list of tasks: its stop event is set at the end of the first run (server.py:208) and
   never cleared.  Workers are recruited, the callbacks of the ready tasks called, and the call returns the initial states. *)
Theorem C66_again_refuted : forall up down maxr fuel init tasks ins s0 y,
  server_run up down maxr fuel init tasks true ins s0 = Ok y ->
  sv_s y = s0 /\ hist (sv_tr y) = [] /\ (forall st pb, ~ In (ASend st pb) (sv_tr y)) /\ In (ANote NExit) (sv_tr y).
Proof.
  intros up down maxr fuel init tasks ins s0 y H. unfold server_run in H. destruct (server_init init tasks true s0) as [x|] eqn:E; [|discriminate].
  cbn [bind] in H. assert (St : sv_stop x = true).
  { unfold server_init in E. destruct (recruit_spec init _ _ E) as [_ [_ [S _]]]. rewrite S. reflexivity. }
  assert (L : event_loop up down maxr fuel init ins x = Ok x) by (destruct ins; cbn [event_loop]; rewrite St; reflexivity).
  rewrite L in H. cbn [bind] in H. injection H as <-. unfold server_init in E. destruct (recruit_spec init _ _ E) as [B [_ [_ [_ [l [El F]]]]]].
  cbn [add_tr sv_s sv_tr app]. rewrite El. cbn [sv_tr]. rewrite app_nil_r. rewrite Forall_forall in F. split; [exact (be_s _ _ B)|]. split; [|split; [|left; reflexivity]].
  - unfold hist. cbn [flat_map app]. clear -F. induction l as [|a l IH]; [reflexivity|]. cbn [flat_map]. rewrite IH by (intros z Hz; apply F; right; exact Hz).
    destruct (F a (or_introl eq_refl)) as [u [[-> | ->] _]]; reflexivity.
  - intros st pb [H|[H|H]]; try discriminate. destruct (F _ H) as [u [[Q|Q] _]]; discriminate Q.
Qed.
Print Assumptions C66_again_refuted.

(* C68, C69: what the worker processes of a run do at the same time, whatever they do (WholeAny.v).  As in C63-C65, nothing
   is assumed about the order of events, exit codes, exceptions, interrupts, or when the server notices closed connections. *)
From Coq Require Import Arith Lia.
From Verif Require Import SchedProps SchedExec DGFacts2 PipeRun P_SchedCE P_Sched SerialFacts P_Conv P_Serial ServerFacts ServerSteps
  ServerIdle P_Server P_Server2 P_ServerCE P_Outcome P_Notify PoolAll P_PoolFail P_SysEx P_SysCE.
From Verif Require Client Pool P_Pool P_Whole P_WholeEx P_WholeCE TopFair.
From Verif Require Import Sys SysFacts SysMeasure SysTrace WholeFair WholeSrv WholeSim WholeAny WholeAll WholeRun P_WholeAny WholeOwn.
Open Scope Z_scope.

(* the process st is running the body of block b *)
Definition working (h : whole) (st : nat) (b : block) : Prop :=
  alive h st /\ exists pb, w_at (h_w h st) = Working pb /\ pb_block pb = b.
(* two blocks that must not be processed at the same time: one writes where the other reads *)
Definition conflict (a b : block) : Prop := overlap (b_write a) (b_read b) \/ overlap (b_write b) (b_read a).

Section Own.
  Variables (tasks : list task) (ord : list block -> list block) (ordt : list nat -> list nat) (d : dgraph) (s0 : sched) (fuel : nat).
  Variables (init : nat -> res unit) (nw : nat -> Z) (mbf : Z) (h0 : whole).
  Hypothesis SE : setup tasks ord ordt d s0 fuel init nw mbf h0.
  Local Notation V := (pblocks d).
  Local Notation up := (dg_up ord ordt d).
  Local Notation down := (dg_down ord ordt d).
  Local Notation maxr := (dg_max_retries d).
  Local Notation aruns := (aruns up down maxr fuel init nw mbf).
  Variables (ms : list amove) (h : whole).
  Hypothesis R : aruns h0 ms h.
  Let A := ai_runs _ _ _ _ _ _ _ _ _ _ SE _ _ R.
  Let O := own_runs _ _ _ _ _ _ _ _ _ _ SE _ _ R.
  Let Y := own_yinv tasks ord ordt d s0 fuel init nw mbf ms h A O.
  Let SR := ai_server _ _ _ _ _ _ _ _ _ _ _ A.
  Let PR := a_pipe _ _ _ _ _ _ _ _ _ _ SR.

  Lemma working_owns st b : working h st b -> exists e, In e (sv_book (h_sv h)) /\ owner e = st /\ blk e = b.
  Proof.
    intros [[t Al] [pb [W <-]]]. destruct (ow_talk _ O st) as [T _]; [unfold proc in Al; congruence|].
    unfold talk in T. rewrite W in T. destruct T as [_ [_ [_ T]]]. apply only_in in T. exact T.
  Qed.
  Lemma working_held st b : working h st b -> In b V /\ held (hist (sv_tr (h_sv h))) b.
  Proof.
    intros W. destruct (working_owns st b W) as [e [He [_ <-]]].
    eapply (book_V V up down (root_seeds d) maxr fuel); [apply (a_good _ _ _ _ _ _ _ _ _ _ SR)|apply (a_enough _ _ _ _ _ _ _ _ _ _ SR)|
      apply (a_fresh _ _ _ _ _ _ _ _ _ _ SR)|apply (yi_sv _ _ _ _ _ _ _ _ _ _ _ Y)|exact He].
  Qed.
  Lemma working_once st st' b : working h st b -> working h st' b -> st = st'.
  Proof.
    intros W W'. destruct (working_owns _ _ W) as [e [He [<- B]]], (working_owns _ _ W') as [e' [He' [<- B']]].
    pose proof (yi_sv _ _ _ _ _ _ _ _ _ _ _ Y) as I. 
    pose proof (si_key _ _ _ _ _ _ _ _ I _ He) as K. pose proof (si_key _ _ _ _ _ _ _ _ I _ He') as K'.
    destruct e as [k l], e' as [k' l']. unfold owner, blk in *. cbn [fst snd] in *. subst k k'. rewrite B in He. rewrite B' in He'.
    rewrite (keys_inj _ _ _ _ (sinv_keys V up down (root_seeds d) maxr fuel (a_good _ _ _ _ _ _ _ _ _ _ SR) (a_enough _ _ _ _ _ _ _ _ _ _ SR) s0
      (a_fresh _ _ _ _ _ _ _ _ _ _ SR) (map t_id tasks) [] _ I) He He'). reflexivity.
  Qed.
End Own.

(* ---- C68 ---- *)
(* No two processes run the body of the same block. *)
Theorem C68_one_process : forall tasks ord ordt d s0 fuel init nw mbf h0 ms h st st' b,
  setup tasks ord ordt d s0 fuel init nw mbf h0 ->
  aruns (dg_up ord ordt d) (dg_down ord ordt d) (dg_max_retries d) fuel init nw mbf h0 ms h ->
  working h st b -> working h st' b -> st = st'.
Proof. intros tasks ord ordt d s0 fuel init nw mbf h0 ms h st st' b SE R. eapply working_once; eauto. Qed.
Print Assumptions C68_one_process.
(* A process runs the body of a block only of its own task, the server knows that it has the block, the last to be sent this
   block was this process, and the block has not been done before. *)
Theorem C68_known : forall tasks ord ordt d s0 fuel init nw mbf h0 ms h st b,
  setup tasks ord ordt d s0 fuel init nw mbf h0 ->
  aruns (dg_up ord ordt d) (dg_down ord ordt d) (dg_max_retries d) fuel init nw mbf h0 ms h ->
  working h st b ->
  pipe_block tasks b /\ proc h st = Some (b_task b, Pool.Running) /\ held (hist (sv_tr (h_sv h))) b /\
  last_sent (sv_tr (h_sv h)) b = Some st /\ ~ succeeded (hist (sv_tr (h_sv h))) b.
Proof.
  intros tasks ord ordt d s0 fuel init nw mbf h0 ms h st b SE R W.
  pose proof (ai_runs _ _ _ _ _ _ _ _ _ _ SE _ _ R) as A. pose proof (own_runs _ _ _ _ _ _ _ _ _ _ SE _ _ R) as O.
  pose proof (ai_server _ _ _ _ _ _ _ _ _ _ _ A) as SR. pose proof (a_pipe _ _ _ _ _ _ _ _ _ _ SR) as PR.
  destruct (working_held _ _ _ _ _ _ _ _ _ _ SE _ _ R st b W) as [Vb Hb].
  destruct (working_owns _ _ _ _ _ _ _ _ _ _ SE _ _ R st b W) as [e [He [Oe Be]]].
  destruct (ow_book _ O e He) as [K [Et _]]. rewrite Oe, Be in *.
  split; [apply (a_in _ _ _ _ _ _ _ _ _ _ SR); exact Vb|]. split; [|split; [exact Hb|split]].
  - destruct W as [[t Al] _]. unfold proc in *. destruct (ai_procs _ _ _ _ _ _ _ _ _ _ _ A _ _ _ Al) as [_ [_ Q]]. congruence.
  - pose proof (si_sent _ _ _ _ _ _ _ _ (a_sinv _ _ _ _ _ _ _ _ _ _ SR) e He) as S. fold (blk e) (owner e) in S. unfold blk, owner in *. rewrite Be, Oe in S. exact S.
  - eapply held_task; eauto; [apply (se_inverse _ _ _ _ _ _ _ _ _ _ SE)|apply (se_fuel _ _ _ _ _ _ _ _ _ _ SE)].
Qed.
Print Assumptions C68_known.
(* Two processes never run bodies of blocks that are in conflict (for tasks with read_write_conflict), *)
Theorem C68_no_conflict : forall tasks ord ordt d s0 fuel init nw mbf h0 ms h st st' a b t g,
  setup tasks ord ordt d s0 fuel init nw mbf h0 ->
  aruns (dg_up ord ordt d) (dg_down ord ordt d) (dg_max_retries d) fuel init nw mbf h0 ms h ->
  in_pipe tasks t -> task_graph t = Ok g -> t_rwc t = true -> generated g a -> generated g b ->
  working h st a -> working h st' b -> st <> st' -> ~ conflict a b.
Proof.
  intros tasks ord ordt d s0 fuel init nw mbf h0 ms h st st' a b t g SE R Ht Eg Rw Ga Gb Wa Wb N.
  pose proof (ai_runs _ _ _ _ _ _ _ _ _ _ SE _ _ R) as A.
  pose proof (ai_server _ _ _ _ _ _ _ _ _ _ _ A) as SR. pose proof (a_pipe _ _ _ _ _ _ _ _ _ _ SR) as PR.
  pose proof (se_inverse _ _ _ _ _ _ _ _ _ _ SE) as IV. pose proof (se_fuel _ _ _ _ _ _ _ _ _ _ SE) as FO.
  assert (Nab : a <> b) by (intros ->; apply N; eapply C68_one_process; eauto).
  destruct (working_held _ _ _ _ _ _ _ _ _ _ SE _ _ R _ _ Wa) as [_ Ha]. destruct (working_held _ _ _ _ _ _ _ _ _ _ SE _ _ R _ _ Wb) as [_ Hb].
  intros [X|X]; revert X; eapply C15_no_conflict_in_flight_pipeline; eauto.
Qed.
Print Assumptions C68_no_conflict.
(* and when a body runs, every block of an upstream task that writes what this one reads has succeeded, and no process runs its body. *)
Theorem C68_inputs_written : forall tasks ord ordt d s0 fuel init nw mbf h0 ms h st b t g u gu a p,
  setup tasks ord ordt d s0 fuel init nw mbf h0 ->
  aruns (dg_up ord ordt d) (dg_down ord ordt d) (dg_max_retries d) fuel init nw mbf h0 ms h ->
  working h st b -> in_pipe tasks t -> task_graph t = Ok g -> generated g b -> In u (t_ups t) -> task_graph u = Ok gu -> generated gu a ->
  pt_in p (b_write a) -> pt_in p (b_read b) -> in_total_write u p ->
  succeeded (hist (sv_tr (h_sv h))) a /\ forall st', ~ working h st' a.
Proof.
  intros tasks ord ordt d s0 fuel init nw mbf h0 ms h st b t g u gu a p SE R W Ht Eg Gb Hu Eu Ga P1 P2 P3.
  pose proof (ai_runs _ _ _ _ _ _ _ _ _ _ SE _ _ R) as A.
  pose proof (ai_server _ _ _ _ _ _ _ _ _ _ _ A) as SR. pose proof (a_pipe _ _ _ _ _ _ _ _ _ _ SR) as PR.
  destruct (working_held _ _ _ _ _ _ _ _ _ _ SE _ _ R _ _ W) as [_ Hb].
  assert (S : succeeded (hist (sv_tr (h_sv h))) a).
  { assert (X : exists h2 e h1, hist (sv_tr (h_sv h)) = h2 ++ e :: h1 /\ takes e b).
    { clear -Hb. unfold held in Hb. induction (hist (sv_tr (h_sv h))) as [|e l IH]; [cbn in Hb; lia|].
      assert (D : takes e b \/ n_released l b < n_handed l b).
      { unfold n_released, n_handed in *. destruct e as [|t pb|t|pb]; cbn in *; auto.
        - destruct (block_dec (pb_block pb) b) as [E|E]; auto. right. rewrite is_block_other in Hb by auto. lia.
        - right. destruct (is_block (pb_block pb) b); lia. }
      destruct D as [D|D]; [exists [], e, l; auto|]. destruct (IH D) as [h2 [e' [h1 [-> T]]]]. exists (e :: h2), e', h1. auto. }
    destruct X as [h2 [e [h1 [E T]]]].
    pose proof (C13_reads_wait_for_writes _ _ _ _ _ _ _ _ PR t g u gu h2 e h1 a b Ht Eg Hu Eu E T Gb Ga (ex_intro _ p (conj P1 (conj P2 P3)))) as S.
    rewrite E. destruct S as [S|S]; [left|right]; apply in_or_app; right; right; exact S. }
  split; [exact S|]. intros st' W'. destruct (C68_known _ _ _ _ _ _ _ _ _ _ _ _ _ _ SE R W') as [_ [_ [_ [_ N]]]]. auto.
Qed.
Print Assumptions C68_inputs_written.

(* If moves are prudent (Whole.v: C60), no more than num_workers blocks of a task are processed at the same time. *)
Lemma pruns_aruns up down maxr fuel init nw mbf h ms h' : P_Whole.pruns up down maxr fuel init nw mbf h ms h' -> aruns up down maxr fuel init nw mbf h (map AMove ms) h'.
Proof. intros R. induction R as [|ms h1 m h2 R IH S P]; [constructor|]. rewrite map_app. eapply aruns_step; [exact IH|apply as_move; exact S]. Qed.
Theorem C45_at_once_partial : forall tasks ord ordt d s0 fuel init nw mbf h0 ms h t l,
  P_Whole.company tasks ord ordt d s0 fuel init nw mbf h0 -> 0 <= mbf ->
  P_Whole.pruns (dg_up ord ordt d) (dg_down ord ordt d) (dg_max_retries d) fuel init nw mbf h0 ms h ->
  NoDup l -> (forall b, In b l -> b_task b = t /\ exists st, working h st b) -> Z.of_nat (length l) <= nw t.
Proof.
  intros tasks ord ordt d s0 fuel init nw mbf h0 ms h t l CO Mb R N H.
  assert (SE : setup tasks ord ordt d s0 fuel init nw mbf h0).
  { destruct CO as [X1 X2 X3 X4 X5 X6 X7 X8 X9]. constructor; auto. intros u. specialize (X8 u). lia. }
  pose proof (pruns_aruns _ _ _ _ _ _ _ _ _ _ R) as Ra.
  destruct (P_Whole.C60_pools_partial _ _ _ _ _ _ _ _ _ _ _ _ CO R) as [_ [_ [_ [B _]]]].
  assert (X : exists q, NoDup q /\ length q = length l /\ (forall st, In st q -> proc h st = Some (t, Pool.Running) /\ exists b, In b l /\ working h st b)).
  { clear B. induction l as [|b l IH]; [exists []; split; [constructor|split; [reflexivity|intros st []]]|].
    inversion N as [|? ? Nb N']; subst. destruct IH as [q [Nq [Lq Hq]]]; auto. { intros c Hc. apply H. right. exact Hc. }
    destruct (H b (or_introl eq_refl)) as [Tb [st W]]. exists (st :: q). split; [|split; [cbn; congruence|]].
    - constructor; auto. intros Hs. destruct (Hq _ Hs) as [_ [c [Hc [_ [pb [E1 E2]]]]]]. destruct W as [_ [pb' [E3 E4]]]. rewrite E1 in E3. injection E3 as ->. congruence.
    - intros s [<-|Hs].
      + destruct (C68_known _ _ _ _ _ _ _ _ _ _ _ _ _ _ SE Ra W) as [_ [P _]]. rewrite Tb in P. split; auto. exists b. split; auto. left. reflexivity.
      + destruct (Hq _ Hs) as [P [c [Hc Wc]]]. split; auto. exists c. split; auto. right. exact Hc. }
  destruct X as [q [Nq [Lq Hq]]]. rewrite <- Lq. apply (B t q Nq). intros st Hs. apply Hq. exact Hs.
Qed.
Print Assumptions C45_at_once_partial.

(* ---- C69 ---- *)
(* what the pools do leaves a process as it is, or ends it *)
Lemma on_all_running nw mbf keys S cut : forall evs es ps f ps' f', P_PoolFail.told nw mbf keys no_process es ps -> Forall (ev_ok keys S ps) evs ->
  procs keys S ps f -> on_all nw mbf cut evs ps f = Ok (ps', f') -> forall j t,
  (forall c, Pool.tbl (Pool.ps_sys ps) j = Some (t, Pool.Exited c) -> Pool.tbl (Pool.ps_sys ps') j = Some (t, Pool.Exited c)) /\
  (Pool.tbl (Pool.ps_sys ps) j = Some (t, Pool.Running) -> f' j = f j \/ exists c, Pool.tbl (Pool.ps_sys ps') j = Some (t, Pool.Exited c)).
Proof.
  induction evs as [|e evs IH]; intros es ps f ps' f' T Ok P; cbn [on_all].
  - intros H. injection H as <- <-. auto.
  - destruct (Pool.pstep nw mbf e ps) as [ps1 [x|]] eqn:E; [discriminate|]. intros H j t. inversion Ok as [|? ? O1 O2]; subst.
    destruct (pools_step nw mbf keys S (fun _ _ => True) cut es ps f e ps1) as [T1 [P1 [_ [K1 _]]]]; auto; [constructor; auto|rewrite E; reflexivity|].
    assert (O2' : Forall (ev_ok keys S ps1) evs) by (eapply Forall_impl; [|exact O2]; intros a; apply ev_ok_more; exact K1).
    destruct (IH (es ++ [e]) ps1 (sync cut ps ps1 f) ps' f' T1 O2' P1 H j t) as [A B].
    destruct (told_sound nw mbf keys no_process no_process_ok _ _ T) as [Sd _].
    destruct (pstep_chg nw mbf e ps Sd (no_exit _ _ _ _ O1)) as [C _]. rewrite E in C. cbn [fst] in C. split.
    + intros c Hc. apply A. destruct (c_old _ _ _ C _ _ _ Hc) as [Q|[Q _]]; [exact Q|discriminate].
    + intros Hr. destruct (c_old _ _ _ C _ _ _ Hr) as [Q|[_ Q]]; [|right; eauto].
      destruct (B Q) as [D|D]; [|auto]. left. rewrite D. unfold sync. rewrite Hr, Q. reflexivity.
Qed.
Section Kept.
  Variables (tasks : list task) (ord : list block -> list block) (ordt : list nat -> list nat) (d : dgraph) (s0 : sched) (fuel : nat).
  Variables (init : nat -> res unit) (nw : nat -> Z) (mbf : Z) (h0 : whole).
  Hypothesis SE : setup tasks ord ordt d s0 fuel init nw mbf h0.
  Local Notation up := (dg_up ord ordt d).
  Local Notation down := (dg_down ord ordt d).
  Local Notation maxr := (dg_max_retries d).
  Local Notation astep := (astep up down maxr fuel init nw mbf).
  Local Notation aruns := (aruns up down maxr fuel init nw mbf).
  Local Notation AI := (AI tasks ord ordt d s0 fuel init nw mbf).
  (* a process that does nothing *)
  Lemma step_rests ms h m h' st : AI ms h -> astep h m h' -> ~ TopFair.aacts m st -> alive h' st -> known h st ->
    alive h st /\ w_at (h_w h' st) = w_at (h_w h st).
  Proof.
    intros A S Na Al K. pose proof (ai_sound tasks ord ordt d s0 fuel init nw mbf ms h A) as Sd.
    assert (Ex : forall ps s c, sound ps -> s <> st -> Pool.tbl (Pool.ps_sys (fst (Pool.pstep nw mbf (Pool.PExit s c) ps))) st = Pool.tbl (Pool.ps_sys ps) st).
    { intros ps s c Sd' N. destruct (exit_sound nw mbf s c ps Sd') as [_ [Tb _]]. rewrite Tb. destruct (Pool.tbl (Pool.ps_sys ps) st) as [[t x]|]; auto.
      destruct x; auto. destruct (Nat.eqb_spec s st); [congruence|reflexivity]. }
    destruct S as [m h' S|s e n Al'|s x n c pb Al' At].
    - destruct S as [s t o r Al' Ew|s t o r Al' Ew|s t o pb r Al' Ew|s t o r Al' Ew|s t o pb r out Al' Ew No|s Al' Ew|s n c t p o r Al' Ew D|i cut sv l ps f Sp Io E El Eo];
        cbn [TopFair.aacts hacts] in Na; try (assert (N : st <> s) by congruence; cbn [hput h_w h_ps]).
      1-5: split; [exact Al|]; rewrite (proj2 (Nat.eqb_neq _ _) N); reflexivity.
      + split; [|reflexivity]. unfold alive, proc in *. cbn [h_ps] in Al. rewrite Ex in Al; auto.
      + split; [|rewrite (proj2 (Nat.eqb_neq _ _) N); reflexivity]. unfold alive, proc in *. cbn [h_ps] in Al. rewrite Ex in Al; auto.
      + destruct (ai_events tasks ord ordt d s0 fuel init nw mbf _ _ _ _ _ A Io E El) as [Ev [_ [_ Pr]]]. destruct (ai_told _ _ _ _ _ _ _ _ _ _ _ A) as [es [T _]].
        unfold known, alive, proc in *. cbn [h_ps h_w] in *. destruct Al as [u Al]. destruct (Pool.tbl (Pool.ps_sys (h_ps h)) st) as [[t [|c]]|] eqn:Et; [| |congruence].
        * split; [eauto|]. destruct (on_all_running nw mbf _ _ _ _ _ _ _ _ _ T Ev Pr Eo st t) as [_ B]. destruct (B Et) as [-> |[c Q]]; [apply at_moved|congruence].
        * destruct (on_all_running nw mbf _ _ _ _ _ _ _ _ _ T Ev Pr Eo st t) as [B _]. rewrite (B _ Et) in Al. discriminate.
    - cbn [TopFair.aacts] in Na. assert (N : st <> s) by congruence. cbn [leave h_w]. split; [|rewrite (proj2 (Nat.eqb_neq _ _) N); reflexivity].
      unfold alive, proc in *. cbn [leave h_ps] in Al. rewrite Ex in Al; auto; [|apply queued_sound; exact Sd]. unfold queued in Al. destruct (_ <? _)%nat; exact Al.
    - cbn [TopFair.aacts] in Na. assert (N : st <> s) by congruence. cbn [leave broken hput h_w]. rewrite !(proj2 (Nat.eqb_neq _ _) N). split; [|reflexivity].
      unfold alive, proc in *. cbn [leave broken hput h_ps] in Al. rewrite Ex in Al; auto.
  Qed.
  Lemma aruns_app h1 h2 h3 ms1 ms2 : aruns h1 ms1 h2 -> aruns h2 ms2 h3 -> aruns h1 (ms1 ++ ms2) h3.
  Proof. intros R1 R2. induction R2 as [|ms z1 m z2 R2 IH S2]; [rewrite app_nil_r; exact R1|]. rewrite app_assoc. eapply aruns_step; eauto. Qed.
  Lemma run_rests ms h ms' h' st b : aruns h0 ms h -> aruns h ms' h' -> (forall m, In m ms' -> ~ TopFair.aacts m st) -> working h st b ->
    alive h' st -> working h' st b.
  Proof.
    intros R R'. induction R' as [|ms1 h1 m h2 R' IH S]; auto. intros Na W Al.
    assert (A : AI (ms ++ ms1) h1) by (eapply ai_runs; eauto using aruns_app).
    assert (K : known h1 st).
    { clear IH S Al. assert (Kh : known h st) by (destruct W as [[t Al] _]; unfold known; congruence).
      clear W Na A. induction R' as [|ms2 x1 m' x2 R' IH S]; auto.
      assert (A : AI (ms ++ ms2) x1) by (eapply ai_runs; eauto using aruns_app).
      unfold known, proc in *. destruct (step_kept tasks ord ordt d s0 fuel init nw mbf _ _ _ _ A S) as [Q _]. apply Q. exact IH. }
    destruct (step_rests _ _ _ _ st A S) as [Al1 E]; auto. { apply Na. apply in_or_app. right. left. reflexivity. }
    destruct (IH (fun m' Hm => Na m' (in_or_app _ _ _ (or_introl Hm))) W Al1) as [_ [pb [E1 Eb]]]. split; auto. exists pb. split; auto. congruence.
  Qed.
End Kept.

(* A block stays with the process that works on it for as long as this process neither ends nor is killed, whatever the
   server and the other processes do meanwhile, and however long it takes: nobody else works on it, and the server, as far as
   C65_settled_partial goes, does not stop. *)
Theorem C69_kept : forall tasks ord ordt d s0 fuel init nw mbf h0 ms h ms' h' st b,
  setup tasks ord ordt d s0 fuel init nw mbf h0 ->
  aruns (dg_up ord ordt d) (dg_down ord ordt d) (dg_max_retries d) fuel init nw mbf h0 ms h -> working h st b ->
  aruns (dg_up ord ordt d) (dg_down ord ordt d) (dg_max_retries d) fuel init nw mbf h ms' h' ->
  (forall m, In m ms' -> ~ TopFair.aacts m st) -> alive h' st ->
  working h' st b /\ held (hist (sv_tr (h_sv h'))) b /\ last_sent (sv_tr (h_sv h')) b = Some st /\ forall st', working h' st' b -> st' = st.
Proof.
  intros tasks ord ordt d s0 fuel init nw mbf h0 ms h ms' h' st b SE R W R' Na Al.
  pose proof (run_rests _ _ _ _ _ _ _ _ _ _ SE _ _ _ _ _ _ R R' Na W Al) as W'.
  pose proof (aruns_app _ _ _ _ _ _ _ _ _ _ _ _ R R') as R2.
  destruct (C68_known _ _ _ _ _ _ _ _ _ _ _ _ _ _ SE R2 W') as [_ [_ [H [L _]]]]. split; auto. split; auto. split; auto.
  intros st' W2. eapply C68_one_process; eauto.
Qed.
Print Assumptions C69_kept.
Theorem C69_waits_partial : forall tasks ord ordt d s0 fuel init nw mbf h0 ms h st b,
  setup tasks ord ordt d s0 fuel init nw mbf h0 ->
  aruns (dg_up ord ordt d) (dg_down ord ordt d) (dg_max_retries d) fuel init nw mbf h0 ms h ->
  apart_failures tasks ord ordt d (hist (sv_tr (h_sv h))) ->
  working h st b -> sv_stop (h_sv h) = false.
Proof.
  intros tasks ord ordt d s0 fuel init nw mbf h0 ms h st b SE R F W. destruct (sv_stop (h_sv h)) eqn:Sp; auto. exfalso.
  destruct (C68_known _ _ _ _ _ _ _ _ _ _ _ _ _ _ SE R W) as [Pb [_ [H [_ N]]]].
  pose proof (C65_settled_partial _ _ _ _ _ _ _ _ _ _ _ _ _ SE R F Sp Pb) as St.
  pose proof (ai_runs _ _ _ _ _ _ _ _ _ _ SE _ _ R) as A.
  pose proof (ai_server _ _ _ _ _ _ _ _ _ _ _ A) as SR. pose proof (a_pipe _ _ _ _ _ _ _ _ _ _ SR) as PR.
  pose proof (se_inverse _ _ _ _ _ _ _ _ _ _ SE) as IV. pose proof (se_fuel _ _ _ _ _ _ _ _ _ _ SE) as FO.
  pose proof (run_good _ _ _ _ _ _ _ _ PR IV) as GG. pose proof (run_enough _ _ _ _ _ _ _ _ PR FO) as EN.
  pose proof (a_fresh _ _ _ _ _ _ _ _ _ _ SR) as FR. pose proof (pr_reach _ _ _ _ _ _ _ _ PR) as RR.
  destruct St as [S|[P|O]]; auto.
  - destruct (perm_handed _ _ _ _ _ _ GG EN _ FR _ _ RR _ P) as [_ [Q _]]. auto.
  - destruct O as [a [P An]]. 
    assert (S : succeeded (hist (sv_tr (h_sv h))) a) by (eapply anc_succ; eauto).
    destruct (perm_handed _ _ _ _ _ _ GG EN _ FR _ _ RR _ P) as [_ [_ Q]]. auto.
Qed.
Print Assumptions C69_waits_partial.

(* The server (C30-C37). *)
From Coq Require Import Lia Permutation.
From Verif Require Import SchedProps SchedExec DGFacts2 PipeRun P_SchedCE P_Sched SerialFacts P_Conv
  Server ServerFacts ServerSteps ServerIdle.
Open Scope Z_scope.

(* The server on a pipeline, up to some iteration of its event loop: Server.run_blockwise(tasks)
   without the clean-up at the end. *)
Definition server_pipe (tasks : list task) ord ordt (d : dgraph) (fuel : nat) init stopped (ins : list input) (s0 : sched)
  : res server :=
  x <- server_init init (map t_id tasks) stopped s0 ;;
  event_loop (dg_up ord ordt d) (dg_down ord ordt d) (dg_max_retries d) fuel init ins x.

(* What clients may send: requests for tasks of the server, blocks of its pipeline, returned as
   success or failure - but any such message at any time, from any stream, any number of times. *)
Definition fair_message (tasks : list task) (m : message) : Prop :=
  match m with
  | MAcquire t => exists x, In x tasks /\ t_id x = t
  | MRelease pb => pipe_block tasks (pb_block pb) /\ (pb_status pb = SUCCESS \/ pb_status pb = FAILED)
  | MBlockFailed pb _ => pipe_block tasks (pb_block pb)
  | _ => False
  end.
(* and no worker failed fatally (Pool.v), no message could not be unpickled *)
Definition fair (tasks : list task) (i : input) : Prop :=
  match i_get i with GotMessage _ m => fair_message tasks m | GotError _ => False | _ => True end /\ i_health i = Ok tt.

(* a state of the event loop *)
Record server_run_to (tasks : list task) ord ordt (d : dgraph) (s0 : sched) fuel init stopped (ins : list input) (y : server) : Prop := {
  sr_ok : pipe_ok tasks;
  sr_ord : is_order ord;
  sr_ordt : is_order ordt;
  sr_init : sched_init tasks = Ok (d, s0);
  sr_inverse : inverse tasks ord ordt d;
  sr_fuel : fuel_ok tasks fuel;
  sr_callback : forall t, init t = Ok tt;
  sr_fair : Forall (fair tasks) ins;
  sr_run : server_pipe tasks ord ordt d fuel init stopped ins s0 = Ok y
}.

Section Pipe.
  Variables (tasks : list task) (ord : list block -> list block) (ordt : list nat -> list nat) (d : dgraph) (s0 : sched) (fuel : nat).
  Hypothesis PO : pipe_ok tasks.
  Hypothesis HO : is_order ord.
  Hypothesis HOt : is_order ordt.
  Hypothesis E0 : sched_init tasks = Ok (d, s0).
  Hypothesis IV : inverse tasks ord ordt d.
  Hypothesis FO : fuel_ok tasks fuel.
  Local Notation V := (pblocks d).
  Local Notation up := (dg_up ord ordt d).
  Local Notation down := (dg_down ord ordt d).
  Local Notation maxr := (dg_max_retries d).
  Local Notation seeds := (root_seeds d).

  Lemma p_run0 : pipe_run tasks ord ordt d s0 fuel [] s0.
  Proof. constructor; auto. constructor. Qed.
  Lemma p_good : good_graph V up down seeds.
  Proof. exact (run_good _ _ _ _ _ _ _ _ p_run0 IV). Qed.
  Lemma p_enough : enough V fuel.
  Proof. exact (run_enough _ _ _ _ _ _ _ _ p_run0 FO). Qed.
  Lemma p_fresh : fresh V seeds s0.
  Proof. exact (run_fresh _ _ _ _ _ _ _ _ p_run0). Qed.
  Lemma p_in b : In b V <-> pipe_block tasks b.
  Proof. exact (run_in _ _ _ _ _ _ _ _ p_run0 b). Qed.
  Lemma p_known t : In t (map t_id tasks) -> In t (s_order s0).
  Proof.
    intros H. apply in_map_iff in H. destruct H as [x [<- Hx]].
    destruct (pipe_fresh tasks d s0 PO E0) as [_ [_ [_ [O _]]]]. apply O. exists x. split; auto. exists x. split; auto. constructor.
  Qed.
  Lemma p_knownV b : In b V -> In (b_task b) (s_order s0).
  Proof.
    intros Hb. apply p_in in Hb. destruct Hb as [t [g [Pt [Eg Gb]]]]. rewrite (gen_id tasks PO t g b Pt Eg Gb).
    destruct (pipe_fresh tasks d s0 PO E0) as [_ [_ [_ [O _]]]]. apply O. eauto.
  Qed.
  Lemma p_fair i : fair tasks i -> good_input V (map t_id tasks) i.
  Proof.
    intros [H1 H2]. split; auto. destruct (i_get i) as [st m| | |e]; auto. destruct m; cbn in *; auto.
    - destruct H1 as [x [Hx <-]]. apply in_map; auto.
    - rewrite p_in. exact H1.
    - rewrite p_in. exact H1.
  Qed.
  Lemma p_fairs ins : Forall (fair tasks) ins -> Forall (good_input V (map t_id tasks)) ins.
  Proof. apply Forall_impl. apply p_fair. Qed.
End Pipe.

(* a state of the event loop satisfies the invariant *)
Section At.
  Variables (tasks : list task) (ord : list block -> list block) (ordt : list nat -> list nat) (d : dgraph) (s0 : sched) (fuel : nat).
  Variables (init : nat -> res unit) (stopped : bool) (ins : list input) (y : server).
  Hypothesis R : server_run_to tasks ord ordt d s0 fuel init stopped ins y.
  Local Notation V := (pblocks d).
  Local Notation up := (dg_up ord ordt d).
  Local Notation down := (dg_down ord ordt d).
  Local Notation maxr := (dg_max_retries d).
  Local Notation seeds := (root_seeds d).
  Lemma a_good : good_graph V up down seeds.
  Proof. destruct R. eapply p_good; eauto. Qed.
  Lemma a_enough : enough V fuel.
  Proof. destruct R. eapply (p_enough tasks ord ordt); eauto. Qed.
  Lemma a_fresh : fresh V seeds s0.
  Proof. destruct R. eapply (p_fresh tasks ord ordt d s0 fuel); eauto. Qed.
  Lemma a_in b : In b V <-> pipe_block tasks b.
  Proof. destruct R. eapply (p_in tasks ord ordt d s0 fuel); eauto. Qed.
  Lemma a_known t : In t (map t_id tasks) -> In t (s_order s0).
  Proof. destruct R. eapply p_known; eauto. Qed.
  Lemma a_knownV b : In b V -> In (b_task b) (s_order s0).
  Proof. destruct R. eapply (p_knownV tasks ord ordt d s0 fuel); eauto. Qed.
  Lemma a_split : exists x, server_init init (map t_id tasks) stopped s0 = Ok x /\
    event_loop up down maxr fuel init ins x = Ok y.
  Proof.
    pose proof (sr_run _ _ _ _ _ _ _ _ _ _ R) as H. unfold server_pipe in H.
    destruct (server_init _ _ _ _) as [x|] eqn:E; [|discriminate]. cbn [bind] in H. eauto.
  Qed.
  Lemma a_sinv : SInv up down maxr fuel s0 (map t_id tasks) [] y.
  Proof.
    destruct a_split as [x [Ex Ey]].
    destruct (init_sinv up down maxr fuel s0 (map t_id tasks) init (sr_callback _ _ _ _ _ _ _ _ _ _ R) stopped) as [x' [Ex' I]].
    rewrite Ex in Ex'. injection Ex' as <-.
    destruct (loop_ok V up down seeds maxr fuel a_good a_enough s0 a_fresh (map t_id tasks) a_known init
      (sr_callback _ _ _ _ _ _ _ _ _ _ R) ins x I) as [y' [Ey' Iy]].
    - destruct R. eapply (p_fairs tasks ord ordt d s0 fuel); eauto.
    - rewrite Ey in Ey'. injection Ey' as <-. exact Iy.
  Qed.
  Lemma a_steps : steps up down maxr fuel init held_r (known_a (map t_id tasks)) (idle_server (map t_id tasks) stopped s0) y.
  Proof.
    destruct a_split as [x [Ex Ey]].
    eapply (good_run V up down seeds maxr fuel a_good a_enough s0 a_fresh (map t_id tasks) a_known init
      (sr_callback _ _ _ _ _ _ _ _ _ _ R) stopped ins x y); eauto.
    destruct R. eapply (p_fairs tasks ord ordt d s0 fuel); eauto.
  Qed.
  Lemma a_two : apart_failures tasks ord ordt d (hist (sv_tr y)) -> apart (fun b => In b V) up maxr (hist (sv_tr y)).
  Proof.
    intros F x u a b w Hx. apply F. apply (run_in tasks ord ordt d s0 fuel [] s0); auto. destruct R. apply p_run0; auto.
  Qed.
  Lemma a_pipe : pipe_run tasks ord ordt d s0 fuel (hist (sv_tr y)) (sv_s y).
  Proof. pose proof (si_reach _ _ _ _ _ _ _ _ a_sinv) as H. destruct R. constructor; auto. Qed.
End At.

(* C30.  Whatever clients send and whenever they disconnect, the server raises nothing; the blocks
   in flight are exactly those in the book, which has one entry for each, with the stream the
   block was last sent to.  The list [ins] being arbitrary, this holds at every iteration. *)
Theorem C30_one_owner_partial : forall tasks ord ordt d s0 fuel init stopped ins,
  pipe_ok tasks -> is_order ord -> is_order ordt -> sched_init tasks = Ok (d, s0) ->
  inverse tasks ord ordt d -> fuel_ok tasks fuel -> (forall t, init t = Ok tt) -> Forall (fair tasks) ins ->
  exists y, server_pipe tasks ord ordt d fuel init stopped ins s0 = Ok y /\
    pipe_run tasks ord ordt d s0 fuel (hist (sv_tr y)) (sv_s y) /\
    NoDup (map fst (sv_book y)) /\
    (forall b, held (hist (sv_tr y)) b <-> exists e, In e (sv_book y) /\ pb_block (lg_block (snd e)) = b) /\
    (forall e, In e (sv_book y) -> fst e = bid (pb_block (lg_block (snd e))) /\
       last_sent (sv_tr y) (pb_block (lg_block (snd e))) = Some (lg_stream (snd e))).
Proof.
  intros tasks ord ordt d s0 fuel init stopped ins PO HO HOt E0 IV FO IO FI.
  destruct (init_sinv (dg_up ord ordt d) (dg_down ord ordt d) (dg_max_retries d) fuel s0 (map t_id tasks) init IO stopped) as [x [Ex I]].
  destruct (loop_ok (pblocks d) (dg_up ord ordt d) (dg_down ord ordt d) (root_seeds d) (dg_max_retries d) fuel
    (p_good tasks ord ordt d s0 fuel PO HO HOt E0 IV) (p_enough tasks ord ordt d s0 fuel PO HO HOt E0 FO) s0
    (p_fresh tasks ord ordt d s0 fuel PO HO HOt E0) (map t_id tasks) (p_known tasks d s0 PO E0) init IO ins x I
    (p_fairs tasks ord ordt d s0 fuel PO HO HOt E0 ins FI)) as [y [Ey Iy]].
  assert (Er : server_pipe tasks ord ordt d fuel init stopped ins s0 = Ok y) by (unfold server_pipe; rewrite Ex; exact Ey).
  exists y. split; auto.
  assert (R : server_run_to tasks ord ordt d s0 fuel init stopped ins y) by (constructor; auto).
  split; [eapply a_pipe; eauto|]. split; [|split].
  - eapply (sinv_keys (pblocks d)); eauto; [eapply a_good|eapply a_enough|eapply a_fresh]; eauto.
  - intros b. rewrite (si_held _ _ _ _ _ _ _ _ Iy), app_nil_r, in_blocks. reflexivity.
  - intros e He. split; [apply (si_key _ _ _ _ _ _ _ _ Iy e He)|apply (si_sent _ _ _ _ _ _ _ _ Iy e He)].
Qed.
Print Assumptions C30_one_owner_partial.

(* what a message left alone *)
Definition ignored (x y : server) : Prop :=
  sv_s y = sv_s x /\ sv_book y = sv_book x /\ sv_pend y = sv_pend x /\ sv_started y = sv_started x /\
  hist (sv_tr y) = hist (sv_tr x).
Definition returns (m : message) (pb : pyblock) : Prop := m = MRelease pb \/ exists w, m = MBlockFailed pb w.

(* C31, for any state of the server whatsoever: no entry of the book for that block and stream *)
Theorem C31_ignored : forall up down maxr fuel init i st m pb x,
  returns m pb -> (forall l, In (bid (pb_block pb), l) (sv_book x) -> lg_stream l <> st) ->
  exists y, handle_message up down maxr fuel init i st m x = Ok y /\ ignored x y.
Proof.
  intros up down maxr fuel init i st m pb x Hm Nf.
  assert (NV : forall s, is_valid_return (PB (pb_block pb) s) st (sv_book x) = false).
  { intros s. unfold is_valid_return. cbn [pb_block]. destruct (bget _ _) as [l|] eqn:E; auto.
    apply bget_some in E. apply Nat.eqb_neq. auto. }
  assert (C : forall z, ignored x z -> ignored x (check_all z)).
  { intros z [I1 [I2 [I3 [I4 I5]]]]. destruct (check_all_spec z) as [B [Es _]]. pose proof (besides_hist _ _ B) as EH.
    destruct B as [B1 B2 B3 _]. unfold ignored. rewrite B1, B2, B3, Es, EH. auto. }
  assert (I0 : ignored x x) by (unfold ignored; auto).
  destruct Hm as [->|[w ->]]; unfold handle_message.
  - specialize (NV (pb_status pb)). destruct pb as [b s]. cbn [pb_block pb_status] in NV. unfold safe_release.
    rewrite NV. cbn [bind]. eauto.
  - unfold safe_release. rewrite NV. cbn [bind]. eexists. split; [reflexivity|]. apply C. unfold ignored. cbn. auto.
Qed.
Print Assumptions C31_ignored.
(* in terms of the history: the block is not in flight, or it is on another stream *)
Theorem C31_not_in_flight : forall tasks ord ordt d s0 fuel init stopped ins x i st m pb,
  server_run_to tasks ord ordt d s0 fuel init stopped ins x -> returns m pb -> pipe_block tasks (pb_block pb) ->
  ~ (held (hist (sv_tr x)) (pb_block pb) /\ last_sent (sv_tr x) (pb_block pb) = Some st) ->
  exists y, handle_message (dg_up ord ordt d) (dg_down ord ordt d) (dg_max_retries d) fuel init i st m x = Ok y /\ ignored x y.
Proof.
  intros tasks ord ordt d s0 fuel init stopped ins x i st m pb R Hm Pb N. apply (C31_ignored _ _ _ _ _ _ _ _ pb); auto.
  intros l Hl El. pose proof (a_sinv _ _ _ _ _ _ _ _ _ _ R) as I. apply N.
  pose proof (si_key _ _ _ _ _ _ _ _ I _ Hl) as K. pose proof (si_sent _ _ _ _ _ _ _ _ I _ Hl) as S. cbn [fst snd] in K, S.
  assert (Hh : held (hist (sv_tr x)) (pb_block (lg_block l))).
  { apply (si_held _ _ _ _ _ _ _ _ I). apply in_or_app. left. apply in_blocks. exists (bid (pb_block pb), l). auto. }
  assert (E : pb_block (lg_block l) = pb_block pb).
  { pose proof (a_good _ _ _ _ _ _ _ _ _ _ R) as G. apply (gg_ids _ _ _ _ G); auto.
    - apply (sinv_V (pblocks d) _ _ _ _ _ G (a_enough _ _ _ _ _ _ _ _ _ _ R) _ (a_fresh _ _ _ _ _ _ _ _ _ _ R) _ [] x _ I); auto.
    - apply (a_in _ _ _ _ _ _ _ _ _ _ R). auto. }
  rewrite <- E. rewrite S, El. auto.
Qed.
Print Assumptions C31_not_in_flight.

(* C32 *)
Section Parts2.
  Variables (tasks : list task) (ord : list block -> list block) (ordt : list nat -> list nat) (d : dgraph) (s0 : sched) (fuel : nat).
  Variables (init : nat -> res unit) (stopped : bool) (ins : list input) (x : server).
  Hypothesis R : server_run_to tasks ord ordt d s0 fuel init stopped ins x.
  Local Notation V := (pblocks d).
  Local Notation up := (dg_up ord ordt d).
  Local Notation down := (dg_down ord ordt d).
  Local Notation maxr := (dg_max_retries d).
  Lemma a_msgs i : fair tasks i -> exists y, handle_messages up down maxr fuel init i x = Ok y /\
    SInv up down maxr fuel s0 (map t_id tasks) [] y.
  Proof.
    intros F. eapply (handle_messages_ok V); try (eapply a_sinv; eauto); try (eapply a_good; eauto); try (eapply a_enough; eauto);
      try (eapply a_fresh; eauto); try (eapply a_known; eauto); try (apply (sr_callback _ _ _ _ _ _ _ _ _ _ R)).
    destruct R. eapply (p_fair tasks ord ordt d s0 fuel); eauto.
  Qed.
  Lemma a_acct : acct x.
  Proof.
    destruct (a_split _ _ _ _ _ _ _ _ _ _ R) as [y [E1 E2]]. eapply loop_acct; eauto. eapply init_acct; eauto.
  Qed.
End Parts2.

(* One iteration of the event loop: y is the state after the message was handled, z the one after
   the check for lost blocks. *)
Theorem C32_lost_once : forall tasks ord ordt d s0 fuel init stopped ins x i,
  let up := dg_up ord ordt d in let down := dg_down ord ordt d in let maxr := dg_max_retries d in
  server_run_to tasks ord ordt d s0 fuel init stopped ins x -> fair tasks i ->
  exists y z lost,
    handle_messages up down maxr fuel init i x = Ok y /\ check_lost up down maxr fuel init i y = Ok z /\
    (* the blocks in flight on closed streams, each once, are released as failed *)
    NoDup lost /\
    (forall b, In b lost <-> held (hist (sv_tr y)) b /\ exists st, last_sent (sv_tr y) b = Some st /\ i_closed i st = true) /\
    hist (sv_tr z) = map (fun b => EvRel (PB b FAILED)) lost ++ hist (sv_tr y) /\
    (* and the others stay in flight *)
    (forall b, held (hist (sv_tr z)) b <-> held (hist (sv_tr y)) b /\ ~ In b lost) /\
    (forall e, In e (sv_book z) <-> In e (sv_book y) /\ i_closed i (lg_stream (snd e)) = false) /\
    (* later returns of a lost block are ignored, unless it was sent to that stream again *)
    (forall b st ins' w l m stat i', In b lost -> last_sent (sv_tr y) b = Some st -> Forall (fair tasks) ins' ->
       event_loop up down maxr fuel init (i :: ins') x = Ok w -> sv_stop x = false ->
       sv_tr w = l ++ sv_tr z -> (forall s, ~ In (ASend st (PB b s)) l) -> returns m (PB b stat) ->
       exists w', handle_message up down maxr fuel init i' st m w = Ok w' /\ ignored w w').
Proof.
  intros tasks ord ordt d s0 fuel init stopped ins x i up down maxr R F.
  pose proof (a_good _ _ _ _ _ _ _ _ _ _ R) as GG. pose proof (a_enough _ _ _ _ _ _ _ _ _ _ R) as EN.
  pose proof (a_fresh _ _ _ _ _ _ _ _ _ _ R) as FR. pose proof (sr_callback _ _ _ _ _ _ _ _ _ _ R) as IO.
  destruct (a_msgs _ _ _ _ _ _ _ _ _ _ R i F) as [y [Ey I]].
  destruct (check_lost_ok (pblocks d) up down (root_seeds d) maxr fuel GG EN s0 FR (map t_id tasks) init IO i y I)
    as [z [Ez [Iz [Bk [_ [Hh [l0 [Tz Pz]]]]]]]].
  pose (lost := rev (map (fun e => pb_block (lg_block (snd e))) (lost_in i y))).
  assert (Hl : forall b, In b lost <-> held (hist (sv_tr y)) b /\ exists st, last_sent (sv_tr y) b = Some st /\ i_closed i st = true).
  { intros b. unfold lost. rewrite <- in_rev, in_map_iff. unfold lost_in. split.
    - intros [e [<- He]]. apply filter_In in He. destruct He as [He Hc]. split.
      + apply (si_held _ _ _ _ _ _ _ _ I). apply in_or_app. left. apply in_blocks. eauto.
      + exists (lg_stream (snd e)). split; auto. apply (si_sent _ _ _ _ _ _ _ _ I e He).
    - intros [Hb [st [Hs Hc]]]. apply (si_held _ _ _ _ _ _ _ _ I) in Hb. rewrite app_nil_r in Hb. apply in_blocks in Hb.
      destruct Hb as [e [He Eb]]. exists e. split; auto. apply filter_In. split; auto.
      pose proof (si_sent _ _ _ _ _ _ _ _ I e He) as S. rewrite Eb, Hs in S. injection S as <-. exact Hc. }
  exists y, z, lost. split; [exact Ey|]. split; [exact Ez|]. split; [|split; [exact Hl|]].
  { unfold lost. apply NoDup_rev. unfold lost_in. apply NoDup_filter_map.
    pose proof (si_nodup _ _ _ _ _ _ _ _ I) as N. rewrite app_nil_r in N. exact N. }
  split. { rewrite Hh. unfold lost. rewrite map_rev, map_map. reflexivity. }
  assert (Hz : forall e, In e (sv_book z) <-> In e (sv_book y) /\ i_closed i (lg_stream (snd e)) = false).
  { intros e. rewrite Bk, filter_In, Bool.negb_true_iff. reflexivity. }
  split; [|split; [exact Hz|]].
  { intros b. rewrite (si_held _ _ _ _ _ _ _ _ Iz), app_nil_r, in_blocks. rewrite (si_held _ _ _ _ _ _ _ _ I b), app_nil_r, in_blocks. split.
    - intros [e [He Eb]]. apply Hz in He. destruct He as [He Hc]. split; eauto.
      rewrite Hl. intros [_ [st [Hs Hc']]]. pose proof (si_sent _ _ _ _ _ _ _ _ I e He) as S.
      rewrite Eb, Hs in S. injection S as E; congruence.
    - intros [[e [He Eb]] N]. exists e. split; auto. apply Hz. split; auto.
      destruct (i_closed i (lg_stream (snd e))) eqn:Ec; auto. exfalso. apply N. unfold lost. apply in_rev. rewrite rev_involutive.
      apply in_map_iff. exists e. split; auto. apply filter_In. auto. }
  intros b st ins' w l m stat i' Hb Hs Fi Ew Sx Tw NS Hm.
  apply (C31_ignored _ _ _ _ _ _ _ _ (PB b stat)); auto. cbn [pb_block]. intros lg Hlg El.
  assert (Iw : SInv up down maxr fuel s0 (map t_id tasks) [] w).
  { destruct (loop_ok (pblocks d) up down (root_seeds d) maxr fuel GG EN s0 FR (map t_id tasks) (a_known _ _ _ _ _ _ _ _ _ _ R) init IO
      (i :: ins') x (a_sinv _ _ _ _ _ _ _ _ _ _ R)) as [w' [Ew' Iw']].
    - destruct R. eapply (p_fairs tasks ord ordt d s0 fuel); eauto.
    - rewrite Ew in Ew'. injection Ew' as <-. exact Iw'. }
  (* from z to w *)
  cbn [event_loop] in Ew. rewrite Sx in Ew. unfold iteration in Ew. fold up down maxr in Ey. rewrite Ey in Ew. cbn [bind] in Ew.
  rewrite Ez in Ew. cbn [bind] in Ew. destruct (i_health i); [|discriminate]. cbn [bind] in Ew.
  assert (S : steps up down maxr fuel init any_r any_a z w).
  { eapply st_trans; [|eapply loop_steps; exact Ew]. destruct (i_tick i); [apply st_one, u_check|constructor]. }
  destruct (steps_book _ _ _ _ _ _ _ _ _ S) as [l' [Tl Hbk]].
  assert (l' = l) by (apply (app_inv_tail (sv_tr z)); rewrite <- Tl, <- Tw; reflexivity). subst l'.
  (* the entry is about block b *)
  assert (Ib : In b (pblocks d)).
  { apply Hl in Hb. apply (sinv_V (pblocks d) _ _ _ _ _ GG EN _ FR _ [] y b I). tauto. }
  destruct (Hbk _ Hlg) as [Hz'|[Hs' Ek]]; cbn [fst snd] in *.
  - apply Hz in Hz'. destruct Hz' as [Hy Hc]. cbn [snd] in Hc. rewrite El in Hc. apply Hl in Hb.
    destruct Hb as [_ [st' [Hs' Hc']]]. rewrite Hs in Hs'. injection Hs' as <-. congruence.
  - (* sent again: it is the same block, by its id *)
    destruct (lg_block lg) as [b' s'] eqn:Eb'. cbn [pb_block] in Ek. rewrite El in Hs'.
    assert (E : b' = b).
    { apply (gg_ids _ _ _ _ GG); auto. apply (sinv_V (pblocks d) _ _ _ _ _ GG EN _ FR _ [] w b' Iw).
      apply (si_held _ _ _ _ _ _ _ _ Iw). apply in_or_app. left. apply in_blocks. exists (bid b, lg). split; auto. cbn [snd]. rewrite Eb'. reflexivity. }
    subst b'. apply (NS s'). exact Hs'.
Qed.
Print Assumptions C32_lost_once.

(* C33.  An entry is lost if its stream is closed or, with a timeout T, if it is older than T. *)
Definition too_old (timeout : option Z) (now : nat * Z -> Z) (e : (nat * Z) * blog) : bool :=
  match timeout with Some T => T <? now (fst e) - lg_time (snd e) | None => false end.
Definition gone (closed : nat -> bool) timeout now (e : (nat * Z) * blog) : bool :=
  closed (lg_stream (snd e)) || too_old timeout now e.

Lemma take_map p b : NoDup (map fst b) ->
  take_lost (map fst (filter p b)) b = Ok (map (fun e => lg_block (snd e)) (filter p b), filter (fun e => negb (p e)) b).
Proof.
  intros N. destruct (take_lost_ok (map fst (filter p b)) b) as [bs [E F]]; auto using NoDup_filter_map.
  { intros i H. apply in_map_iff in H. destruct H as [e [<- He]]. apply filter_In in He. apply in_map. tauto. }
  rewrite E. do 2 f_equal.
  - assert (G : forall l, (forall e, In e l -> In e b) ->
      Forall2 (fun i pb => exists l, In (i, l) b /\ lg_block l = pb) (map fst l) bs -> bs = map (fun e => lg_block (snd e)) l).
    { clear F E. revert bs. intros bs l. revert bs. induction l as [|[i k] l IH]; intros bs Hl F; inversion F; subst; auto.
      cbn. f_equal; [|apply IH; auto; intros; apply Hl; right; auto].
      destruct H1 as [k' [Hk <-]]. cbn in Hk. f_equal. eapply keys_inj; eauto. apply Hl. left; auto. }
    apply G; auto. intros e He. apply filter_In in He. tauto.
  - apply filter_ext_in. intros [i l] He. f_equal. cbn [fst]. destruct (p (i, l)) eqn:Ep.
    + apply mem_bid. apply in_map_iff. exists (i, l). split; auto. apply filter_In. auto.
    + destruct (mem _ _ _) eqn:Em; auto. apply mem_bid in Em. apply in_map_iff in Em.
      destruct Em as [[j l'] [Ej He']]. cbn in Ej. subst j. apply filter_In in He'. destruct He' as [He' Ep'].
      rewrite (keys_inj b i l l') in Ep by auto. congruence.
Qed.
Lemma lost_split closed timeout now b :
  lost_ids closed timeout now b =
    flat_map (fun e => (if closed (lg_stream (snd e)) then [fst e] else []) ++ (if too_old timeout now e then [fst e] else [])) b.
Proof.
  unfold lost_ids. apply flat_map_ext. intros e. f_equal. unfold too_old. destruct timeout; reflexivity.
Qed.

(* get_lost_blocks raises if and only if some block is both on a closed stream and too old, and
   then a KeyError; otherwise it returns the lost blocks once each and forgets them. *)
Theorem C33_lost_partial : forall closed timeout now b, NoDup (map fst b) ->
  ((forall e, In e b -> ~ (closed (lg_stream (snd e)) = true /\ too_old timeout now e = true)) ->
   get_lost_blocks closed timeout now b =
     Ok (map (fun e => lg_block (snd e)) (filter (gone closed timeout now) b),
         filter (fun e => negb (gone closed timeout now e)) b)) /\
  ((exists e, In e b /\ closed (lg_stream (snd e)) = true /\ too_old timeout now e = true) ->
   get_lost_blocks closed timeout now b = Err KeyError).
Proof.
  intros closed timeout now b N. unfold get_lost_blocks. rewrite lost_split. split.
  - intros H. rewrite <- take_map by auto. f_equal. clear N. induction b as [|e b IH]; auto.
    cbn [flat_map filter]. rewrite IH by (intros e' He'; apply H; right; auto).
    specialize (H e (or_introl eq_refl)). unfold gone at 2. destruct (closed _), (too_old _ _ _); cbn; auto. exfalso; auto.
  - intros [e [He [H1 H2]]]. apply take_lost_dup. apply in_split in He. destruct He as [b1 [b2 ->]].
    rewrite flat_map_app. cbn [flat_map]. rewrite H1, H2. cbn [app]. intros N'.
    apply (NoDup_remove_2 _ _ _ N'). apply in_or_app. right. left. reflexivity.
Qed.
Print Assumptions C33_lost_partial.
(* as the server uses it: no timeout *)
Theorem C33_no_timeout : forall closed now b, NoDup (map fst b) ->
  get_lost_blocks closed None now b =
    Ok (map (fun e => lg_block (snd e)) (filter (fun e => closed (lg_stream (snd e))) b),
        filter (fun e => negb (closed (lg_stream (snd e)))) b).
Proof. intros. apply lost_none; auto. Qed.
Print Assumptions C33_no_timeout.
(* A book with one block, sent to stream 7 at time 0, which was closed; at time 5 with a timeout
   of 2. *)
Definition ce_book (b : block) : book := [(bid b, BLog (PB b PROCESSING) 7 0)].
Theorem C33_closed_and_old_refuted : forall b,
  NoDup (map fst (ce_book b)) /\
  get_lost_blocks (Nat.eqb 7) (Some 2) (fun _ => 5) (ce_book b) = Err KeyError /\
  get_lost_blocks (Nat.eqb 8) (Some 2) (fun _ => 5) (ce_book b) = Ok ([PB b PROCESSING], []).
Proof.
  intros b. assert (N : NoDup (map fst (ce_book b))) by (constructor; [intros []|constructor]). split; auto. split.
  - apply C33_lost_partial; auto. eexists. split; [left; reflexivity|]. auto.
  - rewrite (proj1 (C33_lost_partial _ _ _ _ N)); auto. intros e [<-|[]]. cbn. intros [? _]. discriminate.
Qed.
Print Assumptions C33_closed_and_old_refuted.

(* C34 *)
Section Fail.
  Variables (tasks : list task) (ord : list block -> list block) (ordt : list nat -> list nat) (d : dgraph) (s0 : sched) (fuel : nat).
  Variables (init : nat -> res unit) (stopped : bool) (ins : list input) (x : server).
  Hypothesis R : server_run_to tasks ord ordt d s0 fuel init stopped ins x.
  Local Notation V := (pblocks d).
  Local Notation up := (dg_up ord ordt d).
  Local Notation down := (dg_down ord ordt d).
  Local Notation maxr := (dg_max_retries d).

  Lemma a_book b st : pipe_block tasks b -> held (hist (sv_tr x)) b -> last_sent (sv_tr x) b = Some st ->
    exists l, bget (bid b) (sv_book x) = Some l /\ lg_stream l = st.
  Proof.
    intros Pb Hb Hs. pose proof (a_sinv _ _ _ _ _ _ _ _ _ _ R) as I.
    apply (si_held _ _ _ _ _ _ _ _ I) in Hb. rewrite app_nil_r in Hb. apply in_blocks in Hb. destruct Hb as [[k l] [He Eb]].
    cbn [snd] in Eb. pose proof (si_key _ _ _ _ _ _ _ _ I _ He) as K. pose proof (si_sent _ _ _ _ _ _ _ _ I _ He) as S.
    cbn [fst snd] in K, S. rewrite Eb in K, S. exists l. split.
    - apply bget_in; [|rewrite <- K; auto].
      eapply (sinv_keys V); eauto; [eapply a_good|eapply a_enough|eapply a_fresh]; eauto.
    - congruence.
  Qed.
  Lemma a_fail_msg i st pb w : i_get i = GotMessage st (MBlockFailed pb w) -> fair tasks i ->
    held (hist (sv_tr x)) (pb_block pb) -> last_sent (sv_tr x) (pb_block pb) = Some st ->
    exists z, handle_messages up down maxr fuel init i x = Ok z /\
      hist (sv_tr z) = EvRel (PB (pb_block pb) FAILED) :: hist (sv_tr x) /\
      sv_book z = bdel (bid (pb_block pb)) (sv_book x) /\ sv_pend z = sv_pend x /\ (forall t, ~ asked (sv_tr z) t st).
  Proof.
    intros G F Hb Hs. unfold handle_messages. rewrite G. unfold handle_message.
    pose proof (a_sinv _ _ _ _ _ _ _ _ _ _ R) as I.
    assert (Pb : pipe_block tasks (pb_block pb)) by (destruct F as [F _]; rewrite G in F; exact F).
    set (x1 := add_tr x [ARecv st (MBlockFailed pb w)]).
    assert (I1 : SInv up down maxr fuel s0 (map t_id tasks) [] x1) by (apply sinv_plain; auto; repeat constructor).
    destruct (safe_release_ok V up down (root_seeds d) maxr fuel (a_good _ _ _ _ _ _ _ _ _ _ R) (a_enough _ _ _ _ _ _ _ _ _ _ R) s0
      (a_fresh _ _ _ _ _ _ _ _ _ _ R) (map t_id tasks) init (sr_callback _ _ _ _ _ _ _ _ _ _ R) i (PB (pb_block pb) FAILED) st x1 I1)
      as [y [Ey [_ [Hv _]]]]; auto.
    { apply (a_in _ _ _ _ _ _ _ _ _ _ R). auto. }
    destruct Hv as [Bk [Pe [l [Tl Pl]]]].
    { destruct (a_book _ _ Pb Hb Hs) as [lg [E1 E2]]. unfold is_valid_return. cbn [pb_block]. unfold x1. cbn [add_tr sv_book].
      rewrite E1. apply Nat.eqb_eq. auto. }
    rewrite Ey. cbn [bind]. eexists. split; [reflexivity|].
    destruct (check_all_spec (add_tr y [ANote (NFailure (PB (pb_block pb) FAILED) w)])) as [B _].
    pose proof (besides_hist _ _ B) as EH. destruct B as [B1 B2 B3 [m [B4 B5]]].
    rewrite EH, B2, B3. cbn [add_tr sv_tr sv_book sv_pend]. rewrite hist_app, Tl, hist_app.
    rewrite (hist_plain maxr fuel l Pl). split; [reflexivity|]. split; [rewrite Bk; reflexivity|]. split; [rewrite Pe; reflexivity|].
    intros t [r E]. rewrite B4 in E. destruct m as [|a m].
    - cbn in E. destruct E; discriminate.
    - inversion B5; subst. cbn in E. destruct E as [E|E]; injection E as -> _; destruct H1.
  Qed.
End Fail.

(* A worker reports the failure of a block it was sent, having no request open; whatever happens
   then, unless the worker asks for another block, nothing it says about that block counts. *)
Theorem C34_one_attempt_partial : forall tasks ord ordt d s0 fuel init stopped ins x i st pb w,
  let up := dg_up ord ordt d in let down := dg_down ord ordt d in let maxr := dg_max_retries d in
  server_run_to tasks ord ordt d s0 fuel init stopped ins x -> sv_stop x = false ->
  fair tasks i -> i_get i = GotMessage st (MBlockFailed pb w) ->
  held (hist (sv_tr x)) (pb_block pb) -> last_sent (sv_tr x) (pb_block pb) = Some st ->
  times (is_req st) (sv_tr x) = times (is_ans st) (sv_tr x) ->
  exists z, handle_messages up down maxr fuel init i x = Ok z /\
    hist (sv_tr z) = EvRel (PB (pb_block pb) FAILED) :: hist (sv_tr x) /\
    forall ins' y l m stat i', Forall (fair tasks) ins' ->
      event_loop up down maxr fuel init (i :: ins') x = Ok y -> sv_tr y = l ++ sv_tr z ->
      (forall t, ~ In (ARecv st (MAcquire t)) l) -> returns m (PB (pb_block pb) stat) ->
      exists y', handle_message up down maxr fuel init i' st m y = Ok y' /\ ignored y y'.
Proof.
  intros tasks ord ordt d s0 fuel init stopped ins x i st pb w up down maxr R Sx F G Hb Hs Rq.
  destruct (a_fail_msg _ _ _ _ _ _ _ _ _ _ R i st pb w G F Hb Hs) as [z [Ez [Hz [Bz [Pz Az]]]]].
  exists z. split; [exact Ez|]. split; [exact Hz|]. intros ins' y l m stat i' Fi Ey Tl Na Hm.
  apply (C31_ignored _ _ _ _ _ _ _ _ (PB (pb_block pb) stat)); auto. cbn [pb_block]. intros lg Hlg El.
  fold up down maxr in Ez. cbn [event_loop] in Ey. rewrite Sx in Ey. unfold iteration in Ey. rewrite Ez in Ey. cbn [bind] in Ey.
  destruct (check_lost _ _ _ _ _ _ _) as [z1|] eqn:E1; [|discriminate]. cbn [bind] in Ey.
  destruct (i_health i); [|discriminate]. cbn [bind] in Ey.
  assert (S : steps up down maxr fuel init any_r any_a z y).
  { eapply st_trans; [eapply lost_steps; exact E1|]. eapply st_trans; [|eapply loop_steps; exact Ey].
    destruct (i_tick i); [apply st_one, u_check|constructor]. }
  destruct (steps_book _ _ _ _ _ _ _ _ _ S) as [l' [Tl' Hbk]].
  assert (l' = l) by (apply (app_inv_tail (sv_tr z)); rewrite <- Tl', <- Tl; reflexivity). subst l'.
  assert (Nw : ~ waits st (sv_pend z)).
  { rewrite Pz, nwait_waits. pose proof (a_acct _ _ _ _ _ _ _ _ _ _ R st) as A. lia. }
  destruct (steps_sends _ _ _ _ _ _ _ _ _ S st Az Nw) as [l' [Tl'' Hs']].
  assert (l' = l) by (apply (app_inv_tail (sv_tr z)); rewrite <- Tl'', <- Tl; reflexivity). subst l'.
  destruct (Hs' Na) as [_ [_ Ns]]. destruct (Hbk _ Hlg) as [Hz'|[Hz' _]]; cbn [fst snd] in *.
  - rewrite Bz in Hz'. apply in_bdel in Hz'. destruct Hz' as [_ N]. apply N. reflexivity.
  - rewrite El in Hz'. apply (Ns _ Hz').
Qed.
Print Assumptions C34_one_attempt_partial.

(* C35.  For every pipeline and every behaviour of the environment: each task is started, and
   reported as done, at most once; init_callback_fn is called when it is started. *)
Theorem C35_once : forall tasks ord ordt d s0 fuel init stopped ins y t,
  server_pipe tasks ord ordt d fuel init stopped ins s0 = Ok y ->
  (times (is_start t) (sv_tr y) <= 1)%nat /\ times (is_init t) (sv_tr y) = times (is_start t) (sv_tr y) /\
  (times (is_done t) (sv_tr y) <= 1)%nat.
Proof.
  intros tasks ord ordt d s0 fuel init stopped ins y t H. unfold server_pipe in H.
  destruct (server_init _ _ _ _) as [x|] eqn:E; [|discriminate]. cbn [bind] in H.
  destruct (steps_once _ _ _ _ _ _ _ _ _ (run_steps _ _ _ _ _ _ _ _ _ _ _ E H) (idle_once _ _ _) t) as [O1 [O2 O3]].
  unfold bit in *. destruct (mem _ t (sv_started y)), (mem _ t (sv_finished y)); lia.
Qed.
Print Assumptions C35_once.
(* and, as well without conditions: when the server has stopped it has reported every task of the
   scheduler as done, each time with a state that is_done *)
Theorem C35_done_reported : forall tasks ord ordt d s0 fuel init ins y,
  server_pipe tasks ord ordt d fuel init false ins s0 = Ok y ->
  (sv_stop y = true -> forall t, In t (s_order s0) -> exists ts, In (ANote (NDone t ts)) (sv_tr y)) /\
  (forall t ts, In (ANote (NDone t ts)) (sv_tr y) -> ts_is_done ts = true).
Proof.
  intros tasks ord ordt d s0 fuel init ins y H. unfold server_pipe in H.
  destruct (server_init _ _ _ _) as [x|] eqn:E; [|discriminate]. cbn [bind] in H.
  pose proof (run_steps _ _ _ _ _ _ _ _ _ _ _ E H) as S.
  destruct (steps_noted _ _ _ _ _ _ _ _ _ _ S (idle_noted _ _)) as [_ [N2 N3]]. split; auto.
  intros St t Ht. specialize (N2 St t Ht).
  destruct (steps_once _ _ _ _ _ _ _ _ _ S (idle_once _ _ _) t) as [_ [_ O3]].
  rewrite (proj2 (mem_nat t (sv_finished y)) N2) in O3. cbn [bit] in O3.
  destruct (proj1 (times_pos (is_done t) (sv_tr y))) as [a [Ha Pa]]; [lia|].
  destruct a as [| | |n| | | | | |]; try discriminate. destruct n; try discriminate. cbn in Pa. apply Nat.eqb_eq in Pa. subst. eauto.
Qed.
Print Assumptions C35_done_reported.
(* the server stops only when every block is settled *)
Theorem C35_stops_when_settled_partial : forall tasks ord ordt d s0 fuel init ins y,
  server_run_to tasks ord ordt d s0 fuel init false ins y ->
  apart_failures tasks ord ordt d (hist (sv_tr y)) ->
  sv_stop y = true -> forall b, pipe_block tasks b -> settled (dg_up ord ordt d) (dg_max_retries d) (hist (sv_tr y)) b.
Proof.
  intros tasks ord ordt d s0 fuel init ins y R F St b Pb.
  pose proof (a_good _ _ _ _ _ _ _ _ _ _ R) as GG. pose proof (a_enough _ _ _ _ _ _ _ _ _ _ R) as EN.
  pose proof (a_fresh _ _ _ _ _ _ _ _ _ _ R) as FR.
  destruct (steps_stop (pblocks d) _ _ (root_seeds d) _ _ GG EN s0 FR (map t_id tasks) (a_known _ _ _ _ _ _ _ _ _ _ R) init
    (a_knownV _ _ _ _ _ _ _ _ _ _ R) _ _ (a_steps _ _ _ _ _ _ _ _ _ _ R) (a_two _ _ _ _ _ _ _ _ _ _ R F)) as [_ K].
  - split; [constructor|]. cbn. discriminate.
  - apply K; auto. apply (a_in _ _ _ _ _ _ _ _ _ _ R). exact Pb.
Qed.
Print Assumptions C35_stops_when_settled_partial.
(* and then it does stop: in the next iteration with a message, or a second later *)
Theorem C35_does_stop_partial : forall tasks ord ordt d s0 fuel init stopped ins x i y,
  let up := dg_up ord ordt d in let down := dg_down ord ordt d in let maxr := dg_max_retries d in
  server_run_to tasks ord ordt d s0 fuel init stopped ins x -> fair tasks i ->
  (forall b, pipe_block tasks b -> settled up maxr (hist (sv_tr x)) b) ->
  iteration up down maxr fuel init i x = Ok y ->
  apart_failures tasks ord ordt d (hist (sv_tr y)) ->
  i_tick i = true \/ (exists st m, i_get i = GotMessage st m) ->
  sv_stop y = true.
Proof.
  intros tasks ord ordt d s0 fuel init stopped ins x i y up down maxr R Fi A Ey F T.
  pose proof (a_good _ _ _ _ _ _ _ _ _ _ R) as GG. pose proof (a_enough _ _ _ _ _ _ _ _ _ _ R) as EN.
  pose proof (a_fresh _ _ _ _ _ _ _ _ _ _ R) as FR. pose proof (sr_callback _ _ _ _ _ _ _ _ _ _ R) as IO.
  pose proof (a_known _ _ _ _ _ _ _ _ _ _ R) as KN.
  assert (GI : good_input (pblocks d) (map t_id tasks) i) by (destruct R; eapply (p_fair tasks ord ordt d s0 fuel); eauto).
  (* whoever checks, finds all done *)
  assert (C : forall z l, SInv up down maxr fuel s0 (map t_id tasks) [] z -> sv_tr z = l ++ sv_tr x ->
    apart (fun b => In b (pblocks d)) up maxr (hist (sv_tr z)) -> sv_stop (check_all z) = true).
  { intros z l I Tz F'. destruct (check_all_spec z) as [_ [_ [E _]]]. rewrite E. apply Bool.orb_true_iff. right.
    unfold all_done. apply forallb_forall. intros t _.
    apply (proj2 (done_iff (pblocks d) up down (root_seeds d) maxr fuel GG EN s0 FR _ _ (si_reach _ _ _ _ _ _ _ _ I) F' t)).
    intros b Hb _. rewrite Tz, hist_app. apply settled_mono. apply A. apply (a_in _ _ _ _ _ _ _ _ _ _ R). auto. }
  assert (F0 : apart (fun b => In b (pblocks d)) up maxr (hist (sv_tr y))).
  { intros x0 u a b w Hx. apply F. apply (a_in _ _ _ _ _ _ _ _ _ _ R). exact Hx. }
  assert (F1 : forall z l, sv_tr y = l ++ sv_tr z -> apart (fun b => In b (pblocks d)) up maxr (hist (sv_tr z))).
  { intros z l E. rewrite E, hist_app in F0. exact (apart_back _ _ _ _ _ F0). }
  destruct (handle_messages_ok (pblocks d) up down (root_seeds d) maxr fuel GG EN s0 FR (map t_id tasks) KN init IO i x
    (a_sinv _ _ _ _ _ _ _ _ _ _ R) GI) as [y1 [E1 I1]].
  destruct (check_lost_ok (pblocks d) up down (root_seeds d) maxr fuel GG EN s0 FR (map t_id tasks) init IO i y1 I1)
    as [y2 [E2 [I2 _]]].
  pose proof (good_msgs (pblocks d) up down (root_seeds d) maxr fuel GG EN s0 FR (map t_id tasks) init i x y1
    (a_sinv _ _ _ _ _ _ _ _ _ _ R) GI E1) as S1.
  pose proof (lost_steps _ _ _ _ _ _ _ _ E2) as S2.
  destruct (steps_trace _ _ _ _ _ _ _ _ _ S1) as [l1 T1]. destruct (steps_trace _ _ _ _ _ _ _ _ _ S2) as [l2 T2].
  unfold iteration in Ey. rewrite E1 in Ey. cbn [bind] in Ey. rewrite E2 in Ey. cbn [bind] in Ey.
  rewrite (proj2 Fi) in Ey. cbn [bind] in Ey.
  assert (M : forall z w, steps up down maxr fuel init any_r any_a z w -> sv_stop z = true -> sv_stop w = true).
  { intros z w S. induction S as [|u v S IH U]; auto. intros K. specialize (IH K). destruct U; auto.
    - destruct (check_all_spec u) as [_ [_ [E _]]]. rewrite E, IH. reflexivity.
    - destruct (recruit_spec init _ _ H) as [_ [_ [E _]]]. congruence. }
  destruct (i_tick i) eqn:Et.
  - injection Ey as <-. destruct (check_all_spec y2) as [[_ _ _ [l [El _]]] _].
    eapply (C y2 (l2 ++ l1)); eauto. rewrite T2, T1, app_assoc. reflexivity.
  - injection Ey as <-. destruct T as [T|[st [m T]]]; [discriminate|]. apply (M _ _ S2).
    unfold handle_messages in E1. rewrite T in E1. unfold handle_message in E1.
    destruct (match m with MAcquire t => _ | _ => _ end) as [y0|] eqn:E0 in E1; [|discriminate]. cbn [bind] in E1.
    injection E1 as <-. destruct (check_all_spec y0) as [_ [_ [E _]]].
    destruct (check_all_spec (check_all y0)) as [_ [_ [E' _]]].
    (* y0 itself satisfies the invariant because check_all changed nothing relevant *)
    destruct (check_all_spec y0) as [B _]. pose proof (besides_hist _ _ B) as EH. pose proof B as [B1 _ _ [l [Bt _]]].
    assert (X : sv_stop (check_all (check_all y0)) = true).
    { eapply (C _ l1 I1 T1). eapply F1. exact T2. }
    rewrite E' in X. rewrite E. rewrite E, B1 in X. destruct (sv_stop y0), (all_done (sv_s y0)); auto.
Qed.
Print Assumptions C35_does_stop_partial.
(* Workers ask only for blocks of tasks that were started (they are started by recruit_workers
   for such tasks); then a block is sent only after its task was started. *)
Theorem C35_started_first_partial : forall tasks ord ordt d s0 fuel init stopped ins y l2 st pb l1,
  server_run_to tasks ord ordt d s0 fuel init stopped ins y ->
  (forall l2 st t l1, sv_tr y = l2 ++ ARecv st (MAcquire t) :: l1 -> exists ts, In (ANote (NStart t ts)) l1) ->
  sv_tr y = l2 ++ ASend st pb :: l1 -> exists ts, In (ANote (NStart (b_task (pb_block pb)) ts)) l1.
Proof.
  intros tasks ord ordt d s0 fuel init stopped ins y l2 st pb l1 R A E.
  assert (EA : each asked_ok (sv_tr y)).
  { clear E. revert A. generalize (sv_tr y). intros tr A.
    assert (G : forall l m, tr = m ++ l -> each asked_ok l).
    { induction l as [|a l IH]; intros m Em; cbn; auto. split; [|apply (IH (m ++ [a])); rewrite <- app_assoc; exact Em].
      unfold asked_ok. destruct a as [s msg| | | | | | | | |]; auto. destruct msg; auto. exact (A _ _ _ _ Em). }
    apply (G tr []). reflexivity. }
  destruct (steps_started (pblocks d) _ _ (root_seeds d) _ _ (a_good _ _ _ _ _ _ _ _ _ _ R) (a_enough _ _ _ _ _ _ _ _ _ _ R) s0
    (a_fresh _ _ _ _ _ _ _ _ _ _ R) (map t_id tasks) (a_known _ _ _ _ _ _ _ _ _ _ R) init _ _ (a_steps _ _ _ _ _ _ _ _ _ _ R)) as [K _]; auto.
  - constructor.
  - split; [cbn; auto|]. cbn. intros t q H Nq. apply in_map_iff in H. destruct H as [u [Eu _]]. congruence.
  - rewrite E in K. apply each_at in K. exact K.
Qed.
Print Assumptions C35_started_first_partial.

(* C36 *)
Theorem C36_shutdown_partial : forall tasks ord ordt d s0 fuel init stopped ins y l2 t st l1 b,
  server_run_to tasks ord ordt d s0 fuel init stopped ins y ->
  apart_failures tasks ord ordt d (hist (sv_tr y)) ->
  sv_tr y = l2 ++ AShutdown t st :: l1 -> pipe_block tasks b -> b_task b = t ->
  held (hist l1) b \/ settled (dg_up ord ordt d) (dg_max_retries d) (hist l1) b.
Proof.
  intros tasks ord ordt d s0 fuel init stopped ins y l2 t st l1 b R F E Pb Et.
  pose proof (steps_shut (pblocks d) _ _ (root_seeds d) _ _ (a_good _ _ _ _ _ _ _ _ _ _ R) (a_enough _ _ _ _ _ _ _ _ _ _ R) s0
    (a_fresh _ _ _ _ _ _ _ _ _ _ R) (map t_id tasks) (a_known _ _ _ _ _ _ _ _ _ _ R) init
    _ _ (a_steps _ _ _ _ _ _ _ _ _ _ R) (a_two _ _ _ _ _ _ _ _ _ _ R F)) as K.
  assert (K' : each (shut_ok (pblocks d) (dg_up ord ordt d) (dg_max_retries d)) (sv_tr y)).
  { apply K; cbn; auto. constructor. }
  rewrite E in K'. apply each_at in K'. apply K'; auto. apply (a_in _ _ _ _ _ _ _ _ _ _ R). auto.
Qed.
Print Assumptions C36_shutdown_partial.

(* C37, for a request in the first queue that is not empty: with more blocks of its task ready
   than requests before it, it is answered within so many idle iterations. *)
Definition can_run (tasks : list task) (up : block -> list block) (maxr : nat -> Z) (h : history) (t : nat) (b : block) : Prop :=
  pipe_block tasks b /\ b_task b = t /\ (forall a, In a (up b) -> succeeded h a) /\
  ~ held h b /\ ~ succeeded h b /\ ~ perm_failed maxr h b.
Theorem C37_first_queue_partial : forall tasks ord ordt d s0 fuel init stopped ins x p1 t q1 st q2 p2 rs idles,
  let up := dg_up ord ordt d in let down := dg_down ord ordt d in let maxr := dg_max_retries d in
  server_run_to tasks ord ordt d s0 fuel init stopped ins x -> no_lonely tasks ord ordt d ->
  sv_pend x = p1 ++ (t, q1 ++ st :: q2) :: p2 -> (forall u q, In (u, q) p1 -> q = []) ->
  NoDup rs -> (length q1 < length rs)%nat -> (forall b, In b rs -> can_run tasks up maxr (hist (sv_tr x)) t b) ->
  Forall idle idles -> length idles = S (length q1) ->
  exists y l, event_loop up down maxr fuel init idles x = Ok y /\ sv_tr y = l ++ sv_tr x /\
    (sv_stop y = true \/ exists pb, In (ASend st pb) l).
Proof.
  intros tasks ord ordt d s0 fuel init stopped ins x p1 t q1 st q2 p2 rs idles up down maxr R NL P Em Nd Lr C F Ln.
  assert (AR : all_roots (pblocks d) up (root_seeds d)).
  { eapply (run_roots tasks ord ordt d s0 fuel [] s0); auto. destruct R. apply p_run0; auto. }
  eapply (idle_many (pblocks d) up down (root_seeds d) maxr fuel (a_good _ _ _ _ _ _ _ _ _ _ R) (a_enough _ _ _ _ _ _ _ _ _ _ R) s0
    (a_fresh _ _ _ _ _ _ _ _ _ _ R) (map t_id tasks) (a_known _ _ _ _ _ _ _ _ _ _ R) init (sr_callback _ _ _ _ _ _ _ _ _ _ R) AR q1
    idles x p1 t st q2 p2 rs); eauto using a_sinv.
  intros b Hb. destruct (C b Hb) as [C1 C2]. split; auto. apply (a_in _ _ _ _ _ _ _ _ _ _ R). auto.
Qed.
Print Assumptions C37_first_queue_partial.

(* But while the first queue that is not empty belongs to a task none of whose blocks can run, no
   request is answered, of this or of any other task, for as long as no message arrives and no
   client disconnects. *)
Theorem C37_starves : forall tasks ord ordt d s0 fuel init stopped ins x p1 t q p2 b idles,
  let up := dg_up ord ordt d in let down := dg_down ord ordt d in let maxr := dg_max_retries d in
  server_run_to tasks ord ordt d s0 fuel init stopped ins x -> sv_stop x = false ->
  apart_failures tasks ord ordt d (hist (sv_tr x)) ->
  sv_pend x = p1 ++ (t, q) :: p2 -> (forall u r, In (u, r) p1 -> r = []) -> q <> [] ->
  (forall a, ~ can_run tasks up maxr (hist (sv_tr x)) t a) ->
  pipe_block tasks b -> b_task b = t -> ~ held (hist (sv_tr x)) b -> ~ settled up maxr (hist (sv_tr x)) b ->
  Forall idle idles ->
  exists y l, event_loop up down maxr fuel init idles x = Ok y /\ sv_s y = sv_s x /\ sv_stop y = false /\
    sv_tr y = l ++ sv_tr x /\ (forall a, In a l -> no_answer a).
Proof.
  intros tasks ord ordt d s0 fuel init stopped ins x p1 t q p2 b idles up down maxr R S F P Em Nq C Pb Tb Nh Ns FI.
  pose proof (a_sinv _ _ _ _ _ _ _ _ _ _ R) as I.
  pose proof (si_reach _ _ _ _ _ _ _ _ I) as RR.
  pose proof (hi_inv _ _ _ _ _ _ _ _ (sinv_hinv (pblocks d) up down (root_seeds d) maxr fuel (a_good _ _ _ _ _ _ _ _ _ _ R)
    (a_enough _ _ _ _ _ _ _ _ _ _ R) s0 (a_fresh _ _ _ _ _ _ _ _ _ _ R) _ _ _ I)) as J.
  apply (a_two _ _ _ _ _ _ _ _ _ _ R) in F. apply (a_in _ _ _ _ _ _ _ _ _ _ R) in Pb.
  assert (NR : readyl (sv_s x) t = []).
  { destruct (readyl (sv_s x) t) as [|a l] eqn:E; auto. exfalso. apply (C a).
    destruct (i_ready _ _ _ _ _ _ _ _ _ J t a) as [V1 [V2 [V3 [V4 [V5 V6]]]]]; [rewrite E; left; auto|].
    split; [apply (a_in _ _ _ _ _ _ _ _ _ _ R); auto|]. repeat split; auto. }
  destruct (idle_forever (pblocks d) up down (root_seeds d) maxr fuel (a_good _ _ _ _ _ _ _ _ _ _ R)
    (a_enough _ _ _ _ _ _ _ _ _ _ R) s0 (a_fresh _ _ _ _ _ _ _ _ _ _ R) (map t_id tasks) (a_known _ _ _ _ _ _ _ _ _ _ R) init
    (sr_callback _ _ _ _ _ _ _ _ _ _ R) idles x p1 t q p2 I FI P) as [y [l [Ey [Sy [_ [Ky [_ [Ty Fy]]]]]]]]; auto.
  - intros Z. destruct (none_left (pblocks d) up down (root_seeds d) maxr fuel (a_good _ _ _ _ _ _ _ _ _ _ R)
      (a_enough _ _ _ _ _ _ _ _ _ _ R) s0 (a_fresh _ _ _ _ _ _ _ _ _ _ R) _ _ t RR F) with (b := b); auto.
    rewrite (i_cready _ _ _ _ _ _ _ _ _ J), NR. reflexivity.
  - destruct (all_done (sv_s x)) eqn:A; auto. exfalso. apply Ns.
    eapply (all_done_settled (pblocks d) up down (root_seeds d) maxr fuel (a_good _ _ _ _ _ _ _ _ _ _ R)
      (a_enough _ _ _ _ _ _ _ _ _ _ R) s0 (a_fresh _ _ _ _ _ _ _ _ _ _ R) (a_knownV _ _ _ _ _ _ _ _ _ _ R)); eauto.
  - exists y, l. repeat (split; auto). rewrite Forall_forall in Fy. auto.
Qed.
Print Assumptions C37_starves.

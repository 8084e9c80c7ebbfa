(* C100: the serial server leaves the same in the arrays as worker processes do. *)
From Coq Require Import Arith Lia Permutation.
From Verif Require Import SchedProps SchedExec DGFacts2 PipeRun P_SchedCE P_Sched SerialFacts P_Conv P_Serial ServerFacts ServerSteps
  ServerIdle P_Server P_Server2 P_ServerCE P_Outcome P_Notify PoolAll P_PoolFail P_SysEx P_SysCE.
From Verif Require Client Pool P_Pool P_Whole P_WholeEx P_WholeCE P_Cause Tcp Net NetFacts P_Net P_NetErr WireNet.
From Verif Require Import Sys SysFacts SysMeasure SysTrace WholeFair WholeSrv WholeSim WholeAny WholeAll WholeRun P_WholeAny Top P_Top WholeOwn P_WholeOwn Wire WireSim P_Wire WireTop P_WireTop.
From Verif Require Import Store StoreFacts P_Store.
Open Scope Z_scope.

(* serial_server.py:46-51: the process function runs between hand-out and release, and nothing else does.  It returns with its block
   marked as failed after any part of its work, or has done all of it.  What check_function calls done is there. *)
Section Alone.
  Variable V : Type.
  Variable code : block -> prog V.
  Variable m0 : store V.
  (* the first n steps of a body *)
  Fixpoint exec_n (n : nat) (p : prog V) (m : store V) : store V :=
    match n, p with
    | S n, Get c k => exec_n n (k (m c)) m
    | S n, Put c v k => exec_n n k (Store.put m c v)
    | _, _ => m
    end.
  Inductive alone : history -> store V -> Prop :=
  | al_init : alone [] m0
  | al_hand h m t pb : alone h m -> alone (EvHand t pb :: h) m
  | al_none h m t : alone h m -> alone (EvNone t :: h) m
  | al_skip h m b : alone h m -> (forall c, Store.exec (code b) m c = m c) -> alone (EvSkip b :: h) m
  | al_success h m b : alone h m -> alone (EvRel (PB b SUCCESS) :: h) (Store.exec (code b) m)
  | al_failed h m b n : alone h m -> alone (EvRel (PB b FAILED) :: h) (exec_n n (code b) m).

  Lemma run_all b h p : forall m r, mrun code m0 h m r -> r b = Some p -> exists r', mrun code m0 h (Store.exec p m) r' /\ r' b = Some Done /\ forall a, a <> b -> r' a = r a.
  Proof.
    induction p as [|c k IH|c v k IH]; intros m r Q E; cbn [Store.exec].
    - exists r. auto.
    - destruct (IH (m c) m _ (mr_get _ _ _ _ _ _ _ _ _ Q E)) as [r' [Q' [B O]]]; [unfold body; destruct (block_dec b b); congruence|].
      exists r'. split; [exact Q'|]. split; [exact B|]. intros a N. rewrite (O a N). unfold body. destruct (block_dec a b); congruence.
    - destruct (IH _ _ (mr_put _ _ _ _ _ _ _ _ _ _ Q E)) as [r' [Q' [B O]]]; [unfold body; destruct (block_dec b b); congruence|].
      exists r'. split; [exact Q'|]. split; [exact B|]. intros a N. rewrite (O a N). unfold body. destruct (block_dec a b); congruence.
  Qed.
  Lemma run_some b h n : forall p m r, mrun code m0 h m r -> r b = Some p -> exists r', mrun code m0 h (exec_n n p m) r' /\ forall a, a <> b -> r' a = r a.
  Proof.
    induction n as [|n IH]; intros p m r Q E; [exists r; auto|]. destruct p as [|c k|c v k]; cbn [exec_n]; [exists r; auto| |].
    - destruct (IH (k (m c)) m _ (mr_get _ _ _ _ _ _ _ _ _ Q E)) as [r' [Q' O]]; [unfold body; destruct (block_dec b b); congruence|].
      exists r'. split; [exact Q'|]. intros a N. rewrite (O a N). unfold body. destruct (block_dec a b); congruence.
    - destruct (IH k _ _ (mr_put _ _ _ _ _ _ _ _ _ _ Q E)) as [r' [Q' O]]; [unfold body; destruct (block_dec b b); congruence|].
      exists r'. split; [exact Q'|]. intros a N. rewrite (O a N). unfold body. destruct (block_dec a b); congruence.
  Qed.
End Alone.

Section C100.
  Variables (tasks : list task) (ord : list block -> list block) (ordt : list nat -> list nat) (d : dgraph) (s0 : sched) (fuel : nat).
  Local Notation pipe_run := (pipe_run tasks ord ordt d s0 fuel).
  Hypothesis IV : inverse tasks ord ordt d.
  Hypothesis FO : fuel_ok tasks fuel.
  Variable V : Type.
  Variable code : block -> prog V.
  Variable m0 : store V.

  Lemma suffix_ok h s : pipe_run h s -> forall h2 e h1, h = h2 ++ e :: h1 ->
    (forall b, n_released h1 b <= n_handed h1 b <= n_released h1 b + 1) /\
    match e with EvRel pb => held h1 (pb_block pb) /\ (pb_status pb = SUCCESS \/ pb_status pb = FAILED) | _ => True end.
  Proof.
    intros PR h2 e h1 E. pose proof (run_good _ _ _ _ _ _ _ _ PR IV) as GG. pose proof (run_enough _ _ _ _ _ _ _ _ PR FO) as EN.
    pose proof (run_fresh _ _ _ _ _ _ _ _ PR) as FR. pose proof (pr_reach _ _ _ _ _ _ _ _ PR) as RR. split.
    - intros b. assert (E' : h = (h2 ++ [e]) ++ h1) by (rewrite <- app_assoc; exact E). apply (counts_app _ _ _ _ _ _ GG EN _ FR _ _ RR _ _ E' b).
    - pose proof (ok_at _ _ _ _ _ _ GG EN _ FR _ _ RR _ _ _ E) as O. destruct e; auto.
  Qed.
  (* Bodies that run alone are an interleaving. *)
  Theorem C100_alone : forall h s m, pipe_run h s -> alone V code m0 h m -> exists r, mrun code m0 h m r.
  Proof.
    intros h s m PR A. assert (G : forall h1 m, alone V code m0 h1 m -> forall h2, h = h2 ++ h1 -> exists r, mrun code m0 h1 m r /\ forall b, held h1 b -> r b = Some (code b)).
    { clear m A. intros h1 m A. induction A as [|h1 m t pb A IH|h1 m t A IH|h1 m b A IH Hs|h1 m b A IH|h1 m b n A IH]; intros h2 E.
      - exists (fun _ => None). split; [constructor|]. intros b Hb. unfold held in Hb. cbn in Hb. lia.
      - destruct (IH (h2 ++ [EvHand t pb])) as [r [Q H]]; [rewrite <- app_assoc; exact E|]. eexists. split; [apply mr_hand; exact Q|].
        intros b Hb. unfold body. destruct (block_dec b (pb_block pb)) as [->|N]; [reflexivity|]. apply H. unfold held in *. apply counts_cons in Hb. unfold is_block in Hb. destruct (block_dec (pb_block pb) b); [congruence|lia].
      - destruct (IH (h2 ++ [EvNone t])) as [r [Q H]]; [rewrite <- app_assoc; exact E|]. exists r. split; [apply mr_none; exact Q|]. exact H.
      - destruct (IH (h2 ++ [EvSkip b])) as [r [Q H]]; [rewrite <- app_assoc; exact E|]. exists r. split; [apply mr_skip; auto|]. exact H.
      - destruct (IH (h2 ++ [EvRel (PB b SUCCESS)])) as [r [Q H]]; [rewrite <- app_assoc; exact E|]. destruct (suffix_ok _ _ PR _ _ _ E) as [K [Hb _]]. cbn [pb_block] in Hb.
        destruct (run_all V code m0 b h1 (code b) m r Q (H b Hb)) as [r' [Q' [B O]]]. exists (body r' b None). split; [apply mr_success; auto|].
        intros a Ha. unfold held in Ha. apply counts_cons in Ha. cbn [pb_block] in Ha. unfold is_block in Ha. unfold body. destruct (block_dec a b) as [->|N].
        + exfalso. destruct (block_dec b b); [|congruence]. specialize (K b). lia.
        + rewrite (O a N). apply H. unfold held. destruct (block_dec b a); [congruence|lia].
      - destruct (IH (h2 ++ [EvRel (PB b FAILED)])) as [r [Q H]]; [rewrite <- app_assoc; exact E|]. destruct (suffix_ok _ _ PR _ _ _ E) as [K [Hb _]]. cbn [pb_block] in Hb.
        destruct (run_some V code m0 b h1 n (code b) m r Q (H b Hb)) as [r' [Q' O]]. exists (body r' b None). split; [apply mr_failed; auto|].
        intros a Ha. unfold held in Ha. apply counts_cons in Ha. cbn [pb_block] in Ha. unfold is_block in Ha. unfold body. destruct (block_dec a b) as [->|N].
        + exfalso. destruct (block_dec b b); [|congruence]. specialize (K b). lia.
        + rewrite (O a N). apply H. unfold held. destruct (block_dec b a); [congruence|lia]. }
    destruct (G h m A [] eq_refl) as [r [Q _]]. eauto.
  Qed.
  (* There are such runs for all calls of the scheduler. *)
  Theorem C100_exists : forall h s, pipe_run h s -> (forall b, ~ In (EvSkip b) h) -> exists m, alone V code m0 h m.
  Proof.
    intros h s PR N. assert (G : forall h1 h2, h = h2 ++ h1 -> exists m, alone V code m0 h1 m).
    { induction h1 as [|e h1 IH]; intros h2 E; [eexists; constructor|]. destruct (IH (h2 ++ [e])) as [m A]; [rewrite <- app_assoc; exact E|].
      destruct (suffix_ok _ _ PR _ _ _ E) as [_ O]. destruct e as [b|t pb|t|[b st]].
      - exfalso. apply (N b). rewrite E. apply in_or_app. right. left. reflexivity.
      - exists m. constructor. exact A.
      - exists m. constructor. exact A.
      - destruct O as [_ [O|O]]; cbn in O; subst st; eexists; [apply al_success|apply (al_failed V code m0 h1 m b 0)]; exact A. }
    apply (G h []). reflexivity.
  Qed.
  Hypothesis KEEP : forall b, pipe_block tasks b -> keeps (may_read tasks b) (may_write b) (code b).
  (* The serial server and any other run. *)
  Theorem C100_serial : forall chk proc pick n y m, pipe_ok tasks -> is_order ord -> is_order ordt -> sched_init tasks = Ok (d, s0) ->
    serial_pipe tasks ord ordt d fuel chk proc pick n s0 = Ok y -> alone V code m0 (ss_h y) m ->
    forall h s m' r, pipe_run h s -> mrun code m0 h m' r -> (forall b, succeeded (ss_h y) b <-> succeeded h b) ->
    forall c, (forall b, pipe_block tasks b -> may_write b c -> handed_out (ss_h y) b \/ handed_out h b -> succeeded h b) -> m c = m' c.
  Proof.
    intros chk proc pick n y m PO HO HOt Es Ey A h s m' r PR Q Same c H. pose proof (serial_is_run _ _ _ _ _ _ _ _ _ _ _ PO HO HOt Es Ey) as PS.
    destruct (C100_alone _ _ _ PS A) as [r0 Q0]. apply (C99_determined tasks ord ordt d s0 fuel IV FO V code KEEP m0 _ _ _ _ _ _ _ _ PS Q0 PR Q Same c). intros b Hb W Ho. apply Same. apply H; auto.
  Qed.
End C100.

(* run_blockwise with multiprocessing, over the network, and without. *)
Theorem C100_call : forall tasks ord ordt fuel init nw all d s0 dumps loads V (code : block -> prog V) m0,
  call tasks ord ordt all d fuel nw -> P_Net.lossless dumps loads ->
  (forall b, pipe_block all b -> keeps (may_read all b) (may_write b) (code b)) ->
  forall ms x ps, run_net tasks ord ordt fuel init nw all d s0 dumps loads ms (Some x) (XEnded (Returned true)) ps -> small dumps (xt_x x) ->
  let h := hist (sv_tr (x_sv (xt_x x))) in
  (forall b, ~ perm_failed (dg_max_retries d) h b) ->
  forall m r, mrun code m0 h m r ->
  forall chk proc pick n y m', serial_pipe all ord ordt d fuel chk proc pick n s0 = Ok y -> (forall b, pipe_block all b -> succeeded (ss_h y) b) ->
  alone V code m0 (ss_h y) m' -> forall c, m c = m' c.
Proof.
  intros tasks ord ordt fuel init nw all d s0 dumps loads V code m0 CA L KEEP ms x ps RN Sm h NP m r Q chk proc pick n y m' Ey Sy A c.
  inversion RN as [|k h0 ? ? ? ? Ec Es Ei R E]; subst. pose proof (ca_setup _ _ _ _ _ _ _ _ _ _ _ CA Ec Es Ei) as SE. pose proof (xtruns_quiet _ _ _ _ _ _ _ _ _ _ _ _ R) as Qx. cbn [xt_x] in Qx.
  destruct (C88_server _ _ _ _ _ _ _ _ _ _ _ _ SE L _ _ Qx Sm) as [S _]. pose proof (a_pipe _ _ _ _ _ _ _ _ _ _ S) as P. fold h in P.
  assert (AF : apart_failures all ord ordt d h) by (intros u v a e w _ _ _ Pa; destruct (NP _ Pa)).
  destruct (ca_all _ _ _ _ _ _ _ _ _ CA Ec Es) as [_ [X _]].
  assert (Sc : forall b, pipe_block all b -> succeeded h b).
  { intros b Hb. apply X in Hb. destruct (proj1 (C90_value_partial _ _ _ _ _ _ _ _ _ _ _ CA L _ _ _ _ RN Sm AF) eq_refl b Hb) as [H|[H|[a [H _]]]]; [exact H| |]; destruct (NP _ H). }
  pose proof (pr_ok _ _ _ _ _ _ _ _ P) as PO. pose proof (serial_is_run _ _ _ _ _ _ _ _ _ _ _ PO (ca_ord _ _ _ _ _ _ _ CA) (ca_ordt _ _ _ _ _ _ _ CA) Es Ey) as PS.
  assert (Pb : forall h s, pipe_run all ord ordt d s0 fuel h s -> forall b, succeeded h b -> pipe_block all b).
  { intros h1 s1 P1 b H. pose proof (reach_HInv _ _ _ _ _ _ (run_good _ _ _ _ _ _ _ _ P1 (ca_inverse _ _ _ _ _ _ _ CA)) (run_enough _ _ _ _ _ _ _ _ P1 (ca_fuel _ _ _ _ _ _ _ CA))
      _ (run_fresh _ _ _ _ _ _ _ _ P1) h1 s1 (pr_reach _ _ _ _ _ _ _ _ P1)) as HI. apply (run_in _ _ _ _ _ _ _ _ P1), (i_S _ _ _ _ _ _ _ _ _ (hi_inv _ _ _ _ _ _ _ _ HI) b H). }
  symmetry. apply (C100_serial all ord ordt d s0 fuel (ca_inverse _ _ _ _ _ _ _ CA) (ca_fuel _ _ _ _ _ _ _ CA) V code m0 KEEP chk proc pick n y m' PO (ca_ord _ _ _ _ _ _ _ CA) (ca_ordt _ _ _ _ _ _ _ CA) Es Ey A _ _ _ _ P Q).
  - intros b. split; intros H; [apply Sc|apply Sy]; eapply Pb; eauto.
  - intros b Hb _ _. apply Sc. exact Hb.
Qed.
Print Assumptions C100_alone.
Print Assumptions C100_exists.
Print Assumptions C100_serial.
Print Assumptions C100_call.

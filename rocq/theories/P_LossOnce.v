(* How often the body of a block runs in a call of run_blockwise over a network that may lose connections: C98. *)
From Coq Require Import Arith Lia.
From Verif Require Import SchedProps SchedExec DGFacts2 PipeRun P_SchedCE P_Sched SerialFacts P_Conv P_Serial ServerFacts ServerSteps
  ServerIdle P_Server P_Server2 P_ServerCE P_Outcome P_Notify PoolAll P_PoolFail P_SysEx P_SysCE.
From Verif Require Client Pool P_Pool P_Whole P_WholeEx P_WholeCE P_Cause Tcp Net NetFacts P_Net P_NetErr WireNet.
From Verif Require Import Sys SysFacts SysMeasure SysTrace WholeFair WholeSrv WholeSim WholeAny WholeAll WholeRun P_WholeAny WholeOwn P_WholeOwn
  Top P_Top TopInit Wire WireSim P_Wire P_WireOwn WireTop WireLoss P_WireLoss WireTail LossTop P_LossTop P_LossRuns.
Open Scope Z_scope.

Section Det.
  Variables (up down : block -> list block) (maxr : nat -> Z) (fuel : nat) (init : nat -> res unit) (nw : nat -> Z) (mbf : Z).
  Variable dumps : Net.nmsg payload -> option Tcp.bytes.
  Variable loads : Tcp.bytes -> option (Net.nmsg payload).
  Local Notation xstep := (xstep up down maxr fuel init nw mbf dumps loads).
  Local Notation lstep := (lstep up down maxr fuel init nw mbf dumps loads).
  Local Notation lruns := (lruns up down maxr fuel init nw mbf dumps loads).
  Local Notation begun := (begun up down maxr fuel init nw mbf dumps loads).
  Lemma xstep_det x m y z : xstep x m y -> xstep x m z -> y = z.
  Proof.
    intros A B. destruct A as [st k n _ _ _ E|st t c n _ E|st t c n P R E|st t k n rs _ _ E F|st t pb o _ W|st t c _|st t e P|i n r sv l ps _ _ E _ _ _ _ I T P|st r todo T]; inversion B; subst; try congruence.
    - assert (n0 = n) by congruence. subst. assert (rs0 = rs) by (eapply app_inv_head; rewrite <- F; symmetry; eassumption). subst. reflexivity.
    - match goal with H : iteration _ _ _ _ _ _ _ = Ok ?s |- _ => assert (s = sv) by congruence; subst s end.
      match goal with H : sv_tr sv = ?k ++ _ |- _ => assert (k = l) by (eapply app_inv_tail; rewrite <- T; symmetry; exact H); subst k end. congruence.
    - match goal with H : x_todo x = _ |- _ => rewrite T in H; injection H; intros; subst; reflexivity end.
  Qed.
  Lemma lstep_det x m y z : lstep x m y -> lstep x m z -> y = z.
  Proof. intros A B. destruct A as [m y A|st n _ E]; inversion B; subst; [eapply xstep_det; eauto|congruence]. Qed.
  Lemma lruns_det x ms y : lruns x ms y -> forall z, lruns x ms z -> y = z.
  Proof.
    induction 1 as [|ms y1 m y2 R IH S]; intros z Q; inversion Q as [E|ms' z1 m' z2 Q' S' E]; subst; auto.
    - destruct ms'; discriminate.
    - destruct ms; discriminate.
    - apply app_inj_tail in E. destruct E as [-> ->]. rewrite <- (IH _ Q') in S'. eapply lstep_det; eauto.
  Qed.
  (* The number of bodies begun is one of the run. *)
  Lemma begun_det b x ms y n : begun b x ms y n -> forall z k, begun b x ms z k -> n = k.
  Proof.
    induction 1 as [|ms y1 m y2 n R IH S]; intros z k Q; inversion Q as [E|ms' z1 m' z2 k' Q' S' E]; subst; auto.
    - destruct ms'; discriminate.
    - destruct ms; discriminate.
    - apply app_inj_tail in E. destruct E as [-> ->]. rewrite <- (IH _ _ Q').
      rewrite <- (lruns_det _ _ _ (begun_lruns _ _ _ _ _ _ _ _ _ _ _ _ _ _ R) _ (begun_lruns _ _ _ _ _ _ _ _ _ _ _ _ _ _ Q')) in *. rewrite (lstep_det _ _ _ _ S S'). reflexivity.
  Qed.
  Lemma begun_pos b x ms y n : begun b x ms y n -> 0 <= n.
  Proof. induction 1; [lia|]. destruct (begins _ _ _ _); lia. Qed.
  Lemma begun_more b x ms ms' : forall y n, begun b x (ms ++ ms') y n -> exists y1 n1, begun b x ms y1 n1 /\ n1 <= n.
  Proof.
    induction ms' as [|m ms' IH] using rev_ind; intros y n B.
    - rewrite app_nil_r in B. exists y, n. split; [exact B|lia].
    - rewrite app_assoc in B. inversion B as [E|ms1 y1 m1 y2 n1 B' S E]; subst.
      + destruct (ms ++ ms'); discriminate.
      + apply app_inj_tail in E. destruct E as [-> ->]. destruct (IH _ _ B') as [y3 [n3 [B3 Le]]]. exists y3, n3. split; auto. destruct (begins _ _ _ _); lia.
  Qed.
End Det.

Section Once.
  Variables (tasks : list task) (ord : list block -> list block) (ordt : list nat -> list nat) (d : dgraph) (s0 : sched) (fuel : nat).
  Variables (init : nat -> res unit) (nw : nat -> Z) (mbf : Z) (h0 : whole).
  Variable dumps : Net.nmsg payload -> option Tcp.bytes.
  Variable loads : Tcp.bytes -> option (Net.nmsg payload).
  Local Notation up := (dg_up ord ordt d).
  Local Notation down := (dg_down ord ordt d).
  Local Notation maxr := (dg_max_retries d).
  Local Notation begun := (begun up down maxr fuel init nw mbf dumps loads).
  Hypothesis SE : setup tasks ord ordt d s0 fuel init nw mbf h0.
  Hypothesis L : P_Net.lossless dumps loads.
  Lemma began b st ms x n : begun b (wire_init h0) ms x n -> in_body b x st -> 1 <= n.
  Proof.
    intros B. induction B as [|ms x1 m x2 n R IH S]; intros H.
    - destruct H as [pb [H _]]. discriminate H.
    - destruct (in_body_b b x1 st) eqn:Q.
      + apply in_body_ok in Q. specialize (IH Q). destruct (begins _ _ _ _); lia.
      + assert (N : ~ in_body b x1 st) by (intros X; apply in_body_ok in X; congruence).
        assert (E : begins b x1 m x2 = true) by (eapply C97_who; eauto). rewrite E. pose proof (begun_pos _ _ _ _ _ _ _ _ _ _ _ _ _ _ R). lia.
  Qed.
  Lemma began_done b ms x n : begun b (wire_init h0) ms x n -> succeeded (hist (sv_tr (x_sv x))) b ->
    (forall i k, In i (lserved ms) -> i_chk i k b <> CheckTrue) -> 1 <= n.
  Proof.
    intros B Sc NC. destruct (C92_done_by _ _ _ _ _ _ _ _ _ _ _ _ SE L _ _ (begun_lruns _ _ _ _ _ _ _ _ _ _ _ _ _ _ B) b Sc) as [ms1 [x1 [m [x2 [ms2 [E [R [S C]]]]]]]]. subst ms.
    destruct m as [| | | |st o| | |i|]; cbn in C; try contradiction.
    - destruct C as [_ C]. destruct (begun_more _ _ _ _ _ _ _ _ _ _ _ _ _ _ _ B) as [y1 [n1 [B1 Le]]].
      pose proof (lruns_det _ _ _ _ _ _ _ _ _ _ _ _ (begun_lruns _ _ _ _ _ _ _ _ _ _ _ _ _ _ B1) _ R). subst y1.
      assert (1 <= n1); [|lia]. eapply began; [exact B1|exact C].
    - destruct C as [k C]. exfalso. apply (NC i k); auto. unfold lserved. rewrite flat_map_app. apply in_or_app. right. left. reflexivity.
  Qed.
End Once.

Section Call.
  Variables (tasks : list task) (ord : list block -> list block) (ordt : list nat -> list nat) (fuel : nat) (init : nat -> res unit) (nw : nat -> Z).
  Variables (all : list task) (d : dgraph) (s0 : sched).
  Variable dumps : Net.nmsg payload -> option Tcp.bytes.
  Variable loads : Tcp.bytes -> option (Net.nmsg payload).
  Hypothesis CA : call tasks ord ordt all d fuel nw.
  Hypothesis L : P_Net.lossless dumps loads.
  Local Notation up := (dg_up ord ordt d).
  Local Notation down := (dg_down ord ordt d).
  Local Notation maxr := (dg_max_retries d).
  Local Notation run_lossy tail := (run_lossy tail tasks ord ordt fuel init nw all d s0 dumps loads).
  (* in the moves of the call the body of b was begun n times *)
  Definition runs_of (b : block) (ms : list ltmove) (y : xtop) (n : Z) : Prop :=
    exists h, whole_init init nw 3 (map t_id all) s0 = Ok h /\ begun up down maxr fuel TopInit.quiet nw 3 dumps loads b (wire_init h) (lmoves ms) (xt_x y) n.
  (* check_function never called b done *)
  Definition unchecked (b : block) (ms : list ltmove) : Prop := forall i k, In (LTMove (LDo (XServe i))) ms -> i_chk i k b <> CheckTrue.
  Lemma unchecked_served b ms : unchecked b ms -> forall i k, In i (lserved (lmoves ms)) -> i_chk i k b <> CheckTrue.
  Proof.
    intros U i k H. unfold lserved in H. apply in_flat_map in H. destruct H as [[[]|] [H I]]; try (destruct I; fail). destruct I as [->|[]]. apply U. apply lmoves_in. exact H.
  Qed.

  (* However a call ends, the number is defined and at most max_retries + 1, and at most one more than attempts counted as failed. *)
  Theorem C98_bounded : forall tail ms y e ps, run_lossy tail ms (Some y) e ps -> forall b,
    exists n, runs_of b ms y n /\ (forall k, runs_of b ms y k -> k = n) /\ 0 <= n <= Z.max (maxr (b_task b)) 0 + 1 /\ n <= n_failed (hist (sv_tr (x_sv (xt_x y)))) b + 1.
  Proof.
    intros tail ms y e ps RN b. inversion RN as [|k h0 ? ? ? ? Ec Es Ei R E]; subst.
    pose proof (ca_setup _ _ _ _ _ _ _ _ _ _ _ CA Ec Es Ei) as SE. pose proof (ltruns_quiet _ _ _ _ _ _ _ _ _ _ _ _ _ R) as Q. cbn [xt_x] in Q.
    destruct (begun_all _ _ _ _ _ _ _ _ _ b _ _ _ Q) as [n B]. exists n. split; [exists h0; auto|]. split.
    - intros k' [h' [Ei' B']]. rewrite Ei in Ei'. injection Ei' as <-. symmetry. eapply begun_det; eauto.
    - split; [split; [eapply begun_pos; eauto|eapply C97_bounded; eauto]|eapply C97_again; eauto].
  Qed.
  (* A block that succeeded, and that check_function never called done, was begun. *)
  Theorem C98_at_least_once : forall tail ms y e ps, run_lossy tail ms (Some y) e ps -> forall b n, runs_of b ms y n ->
    succeeded (hist (sv_tr (x_sv (xt_x y)))) b -> unchecked b ms -> 1 <= n.
  Proof.
    intros tail ms y e ps RN b n [h' [Ei' B]] Sc U. inversion RN as [|k h0 ? ? ? ? Ec Es Ei R E]; subst. rewrite Ei in Ei'. injection Ei' as <-.
    pose proof (ca_setup _ _ _ _ _ _ _ _ _ _ _ CA Ec Es Ei) as SE. eapply began_done; eauto using unchecked_served.
  Qed.
  (* If the call returns True, no attempt was counted as failed, and check_function called no block done, then the body of every block of
     the tasks and of those they require was begun exactly once. *)
  Theorem C98_exactly_once : forall tail ms y ps, run_lossy tail ms (Some y) (XEnded (Returned true)) ps ->
    (forall b, n_failed (hist (sv_tr (x_sv (xt_x y)))) b = 0) -> (forall b, unchecked b ms) -> forall b, pipe_block tasks b ->
    succeeded (hist (sv_tr (x_sv (xt_x y)))) b /\ forall n, runs_of b ms y n <-> n = 1.
  Proof.
    intros tail ms y ps RN F U b Hb. set (h := hist (sv_tr (x_sv (xt_x y)))) in *.
    assert (NP : forall a, ~ perm_failed maxr h a) by (intros a [X _]; rewrite F in X; lia).
    assert (AF : apart_failures all ord ordt d h) by (intros x u a c w _ _ _ Pa; destruct (NP _ Pa)).
    assert (Sc : succeeded h b).
    { destruct (proj1 (C96_value_partial _ _ _ _ _ _ _ _ _ _ _ CA L _ _ _ _ _ RN AF) eq_refl b Hb) as [H|[H|[a [H _]]]]; [exact H| |]; destruct (NP _ H). }
    split; [exact Sc|]. destruct (C98_bounded _ _ _ _ _ RN b) as [n [Rn [Un [_ Le]]]]. fold h in Le. rewrite F in Le.
    pose proof (C98_at_least_once _ _ _ _ _ RN _ _ Rn Sc (U b)). assert (n = 1) by lia. subst n. intros k. split; [apply Un|intros ->; exact Rn].
  Qed.
End Call.
Print Assumptions C98_bounded.
Print Assumptions C98_at_least_once.
Print Assumptions C98_exactly_once.

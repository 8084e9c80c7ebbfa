(* C96: calls of run_blockwise over a network that may lose connections (LossTop.v). *)
From Coq Require Import Arith Lia.
From Verif Require Import SchedProps SchedExec DGFacts2 PipeRun P_SchedCE P_Sched SerialFacts P_Conv P_Serial ServerFacts ServerSteps
  ServerIdle P_Server P_Server2 P_ServerCE P_Outcome P_Notify PoolAll P_PoolFail P_Sys.
From Verif Require Client Pool P_Pool Tcp Net NetFacts P_Net WireNet.
From Verif Require Import Sys SysFacts SysMeasure SysTrace WholeSrv WholeFair P_Whole WholeSim WholeAny WholeAll WholeRun P_WholeAny TopInit Top P_Top
  P_TopFair P_Good Wire WireSim P_Wire WireFair P_WireFair WireAttr P_WireAttr WireTop P_WireTop WireLoss P_WireLoss WireIntact WireTail P_WireTail LossTop.
Open Scope Z_scope.

Lemma lmoves_in ms m : In m (lmoves ms) <-> In (LTMove m) ms.
Proof.
  unfold lmoves. rewrite in_flat_map. split.
  - intros [[a|] [H Q]]; [|destruct Q]. destruct Q as [->|[]]. exact H.
  - intros H. exists (LTMove m). split; [exact H|left; reflexivity].
Qed.
Section Quiet.
  Variables (up down : block -> list block) (maxr : nat -> Z) (fuel : nat) (init : nat -> res unit) (nw : nat -> Z) (mbf : Z).
  Variable dumps : Net.nmsg payload -> option Tcp.bytes.
  Variable loads : Tcp.bytes -> option (Net.nmsg payload).
  Variable tail : bool.
  Local Notation ltruns := (ltruns up down maxr fuel init nw mbf dumps loads).
  Local Notation lruns := (lruns up down maxr fuel TopInit.quiet nw mbf dumps loads).
  Local Notation truns := (truns up down maxr fuel TopInit.quiet nw mbf dumps loads).
  Lemma lstep_quiet x m x' : lstep up down maxr fuel init nw mbf dumps loads x m x' -> lstep up down maxr fuel TopInit.quiet nw mbf dumps loads x m x'.
  Proof. intros [m' x1 S|st n K H]; [apply ls_do; eapply xstep_quiet; eauto|apply ls_break; auto]. Qed.
  Lemma ltruns_quiet y ms y' : ltruns tail y ms y' -> lruns (xt_x y) (lmoves ms) (xt_x y').
  Proof.
    induction 1 as [|ms y1 m y2 R IH S _]; [constructor|]. unfold lmoves. rewrite flat_map_app. destruct S as [m x A _|]; cbn [flat_map app xt_x].
    - eapply lruns_step; eauto using lstep_quiet.
    - rewrite app_nil_r. exact IH.
  Qed.
  Lemma ltruns_tail y ms y' : ltruns true y ms y' -> truns (xt_x y) (lmoves ms) (xt_x y').
  Proof.
    induction 1 as [|ms y1 m y2 R IH S T]; [constructor|]. specialize (T eq_refl). unfold lmoves in *. rewrite flat_map_app in *. destruct S as [m x A _|]; cbn [flat_map app xt_x] in *.
    - eapply truns_step; eauto using lstep_quiet.
    - rewrite app_nil_r in *. exact IH.
  Qed.
  Lemma ltruns_stop y ms y' : ltruns tail y ms y' -> (xt_stop y' = true <-> xt_stop y = true \/ In LTStop ms).
  Proof.
    induction 1 as [|ms y1 m y2 R IH S _]; [cbn; tauto|]. rewrite in_app_iff. destruct S as [m x A _|]; cbn [xt_stop].
    - rewrite IH. cbn. split; [tauto|]. intros [?|[?|[H|[]]]]; auto. discriminate.
    - split; auto. intros _. right. right. left. reflexivity.
  Qed.
  Local Notation lruns' := (WireLoss.lruns up down maxr fuel init nw mbf dumps loads).
  Local Notation truns' := (WireTail.truns up down maxr fuel init nw mbf dumps loads).
  Lemma lmoves_lift ms : lmoves (map LTMove ms) = ms.
  Proof. unfold lmoves. induction ms as [|m ms IH]; cbn; [reflexivity|]. cbn in IH. rewrite IH. reflexivity. Qed.
  Lemma ltruns_lift x ms x' : lruns' x ms x' -> ltruns false (XTop x false) (map LTMove ms) (XTop x' false).
  Proof.
    induction 1 as [|ms x1 m x2 R IH S]; [constructor|]. rewrite map_app. cbn [map]. eapply ltruns_step; [exact IH|apply (lts_move _ _ _ _ _ _ _ _ _ (XTop x1 false)); auto|discriminate].
  Qed.
  Lemma ltruns_lift_tail x ms x' : truns' x ms x' -> ltruns true (XTop x false) (map LTMove ms) (XTop x' false).
  Proof.
    induction 1 as [|ms x1 m x2 R IH S T]; [constructor|]. pose proof (lmoves_lift (ms ++ [m])) as Ml. rewrite map_app in *. cbn [map] in *.
    eapply ltruns_step; [exact IH|apply (lts_move _ _ _ _ _ _ _ _ _ (XTop x1 false)); auto|]. intros _ st. rewrite Ml. exact (T st).
  Qed.
End Quiet.
Section Call.
  Variables (tasks : list task) (ord : list block -> list block) (ordt : list nat -> list nat) (fuel : nat) (init : nat -> res unit) (nw : nat -> Z).
  Variables (all : list task) (d : dgraph) (s0 : sched).
  Variable dumps : Net.nmsg payload -> option Tcp.bytes.
  Variable loads : Tcp.bytes -> option (Net.nmsg payload).
  Hypothesis CA : call tasks ord ordt all d fuel nw.
  Hypothesis L : P_Net.lossless dumps loads.
  Local Notation up := (dg_up ord ordt d).
  Local Notation down := (dg_down ord ordt d).
  Local Notation maxr := (dg_max_retries d).
  Local Notation run_lossy tail := (run_lossy tail tasks ord ordt fuel init nw all d s0 dumps loads).
  Local Notation ltruns tail := (ltruns up down maxr fuel init nw 3 dumps loads tail).
  Local Notation ltstep := (ltstep up down maxr fuel init nw 3 dumps loads).

  (* The value: True if and only if every block of the tasks and of those they require has succeeded, failed for good, or cannot run
     because a block it depends on failed. *)
  Theorem C96_value_partial : forall tail ms y v ps, run_lossy tail ms (Some y) (XEnded (Returned v)) ps ->
    let h := hist (sv_tr (x_sv (xt_x y))) in
    apart_failures all ord ordt d h -> (v = true <-> forall b, pipe_block tasks b -> settled up maxr h b).
  Proof.
    intros tail ms y v ps RN h F. inversion RN as [|k h0 ? ? ? ? Ec Es Ei R E]; subst.
    pose proof (ca_setup _ _ _ _ _ _ _ _ _ _ _ CA Ec Es Ei) as SE. pose proof (ltruns_quiet _ _ _ _ _ _ _ _ _ _ _ _ _ R) as Q. cbn [xt_x] in Q.
    destruct (C92_server _ _ _ _ _ _ _ _ _ _ _ _ SE L _ _ Q) as [S _]. pose proof (a_pipe _ _ _ _ _ _ _ _ _ _ S) as P.
    inversion E; subst. rewrite (C40_true_iff_settled_partial _ _ _ _ _ _ _ _ P (ca_inverse _ _ _ _ _ _ _ CA) (ca_fuel _ _ _ _ _ _ _ CA) F).
    destruct (ca_all _ _ _ _ _ _ _ _ _ CA Ec Es) as [_ [X _]]. split; intros H b Hb; apply H, X, Hb.
  Qed.
  (* It is False only if the main thread was interrupted. *)
  Theorem C96_false_partial : forall tail ms y ps, run_lossy tail ms (Some y) (XEnded (Returned false)) ps ->
    apart_failures all ord ordt d (hist (sv_tr (x_sv (xt_x y)))) -> In LTStop ms.
  Proof.
    intros tail ms y ps RN F. pose proof (C96_value_partial _ _ _ _ _ RN F) as V.
    inversion RN as [|k h0 ? ? ? ? Ec Es Ei R E]; subst.
    pose proof (ca_setup _ _ _ _ _ _ _ _ _ _ _ CA Ec Es Ei) as SE. pose proof (ltruns_quiet _ _ _ _ _ _ _ _ _ _ _ _ _ R) as Q. cbn [xt_x] in Q.
    inversion E as [Td [Sp|Tp]| |]; subst.
    - exfalso. assert (X : false = true); [|discriminate X]. apply V. intros b Hb. destruct (ca_all _ _ _ _ _ _ _ _ _ CA Ec Es) as [_ [X _]].
      apply (C92_settled_partial _ _ _ _ _ _ _ _ _ _ _ _ SE L _ _ Q F Sp). apply X. exact Hb.
    - apply (ltruns_stop _ _ _ _ _ _ _ _ _ _ _ _ _ R) in Tp. destruct Tp as [Tp|Tp]; [discriminate|exact Tp].
  Qed.
  (* A block counts as done at the end only if a worker said that it had done the body of this block, which it had been sent, or a check
     function said that it was done. *)
  Theorem C96_done_by : forall tail ms y e ps, run_lossy tail ms (Some y) e ps -> forall b, succeeded (hist (sv_tr (x_sv (xt_x y)))) b ->
    exists h0 ms1 x1 m x2 ms2, whole_init init nw 3 (map t_id all) s0 = Ok h0 /\ lmoves ms = ms1 ++ LDo m :: ms2 /\ lruns up down maxr fuel TopInit.quiet nw 3 dumps loads (wire_init h0) ms1 x1 /\
      xstep up down maxr fuel TopInit.quiet nw 3 dumps loads x1 m x2 /\ xclaims b x1 m.
  Proof.
    intros tail ms y e ps RN b Hb. inversion RN as [|k h0 ? ? ? ? Ec Es Ei R E]; subst.
    pose proof (ca_setup _ _ _ _ _ _ _ _ _ _ _ CA Ec Es Ei) as SE. pose proof (ltruns_quiet _ _ _ _ _ _ _ _ _ _ _ _ _ R) as Q. cbn [xt_x] in Q.
    destruct (C92_done_by _ _ _ _ _ _ _ _ _ _ _ _ SE L _ _ Q b Hb) as [ms1 [x1 [m [x2 [ms2 H]]]]]. exists h0, ms1, x1, m, x2, ms2. tauto.
  Qed.
  (* An exception is one that a worker or an init callback raised, ... *)
  Theorem C96_raised : forall tail ms o e ps, run_lossy tail ms o (XEnded (Raised e)) ps ->
    (exists st, In (LTMove (LDo (XRaise st e))) ms) \/ exists t, in_pipe tasks t /\ init (t_id t) = Err e.
  Proof.
    intros tail ms o e ps RN. inversion RN as [k ? Ec Es Ei|k h0 ? y ? ? Ec Es Ei R E]; subst.
    - destruct (C66_raised tasks ord ordt fuel init nw all d s0 [] None e _ CA (rb_start _ _ _ _ _ _ _ _ _ _ _ Ec Es Ei)) as [[st [n []]]|H]; auto.
    - pose proof (ca_setup _ _ _ _ _ _ _ _ _ _ _ CA Ec Es Ei) as SE. pose proof (ltruns_quiet _ _ _ _ _ _ _ _ _ _ _ _ _ R) as Q. cbn [xt_x] in Q.
      inversion E as [|i n r e' es Td Sp Tp Hn Er Eg Eh Ecl X|]; subst.
      pose proof (li_runs _ _ _ _ _ _ _ _ _ _ _ _ SE L _ _ Q) as I.
      destruct (li_heard _ _ _ _ _ _ _ _ _ _ _ _ L _ _ _ _ _ I Hn Er Eg Eh) as [am [h [A [B1 [B2 [B3 [B4 Hd]]]]]]].
      destruct X as [X|[sv [l [X1 [X2 X3]]]]].
      + destruct (ah_iteration _ _ _ _ _ _ _ _ _ _ SE _ _ _ A Hd) as [sv [l [Ev El]]]. rewrite B1 in Ev.
        destruct (iteration_alike up down maxr fuel init i (x_sv (xt_x y))) as [Eq|[e' [t [E1 [J H]]]]]; [congruence|].
        right. rewrite X in E1. injection E1 as <-. specialize (H sv Ev).
        assert (S : server_run_to all ord ordt d s0 fuel TopInit.quiet false (aserved am ++ [i]) sv).
        { pose proof (ai_server _ _ _ _ _ _ _ _ _ _ _ A) as S. destruct S. constructor; auto.
          + apply Forall_app. split; [exact sr_fair|]. constructor; [|constructor]. eapply ah_fair; eauto.
          + unfold server_pipe in *. destruct (server_init _ _ _ _) as [z|]; [|discriminate]. cbn [bind] in *. eapply loop_snoc; eauto; rewrite B1; auto. }
        assert (Ht : In t (map t_id all)) by (eapply inits_all; eauto).
        destruct (ca_all _ _ _ _ _ _ _ _ _ CA Ec Es) as [_ [_ Y]]. destruct (Y _ Ht) as [tk [Pt <-]]. exists tk. auto.
      + left. destruct (C92_only_workers _ _ _ _ _ _ _ _ _ _ _ _ SE L _ _ Q i e) as [st Hst].
        { repeat split; auto. eauto. }
        { right. exists sv, l. split; auto. eapply iteration_quiet; eauto. }
        exists st. apply lmoves_in. exact Hst.
  Qed.
  (* ... and none but an AttributeError of a connection that was lost comes from the connections, ... *)
  Theorem C96_broke : forall tail ms y e ps, run_lossy tail ms (Some y) (XBroke e) ps -> e = Net.AttrErr /\ exists c, Net.broken (Net.n_link (x_net (xt_x y)) c) = true.
  Proof.
    intros tail ms y e ps RN. inversion RN as [|k h0 ? ? ? ? Ec Es Ei R E]; subst.
    pose proof (ca_setup _ _ _ _ _ _ _ _ _ _ _ CA Ec Es Ei) as SE. pose proof (ltruns_quiet _ _ _ _ _ _ _ _ _ _ _ _ _ R) as Q. cbn [xt_x] in Q.
    inversion E as [| |n c e' Td Sp Tp Hn Er Eg]; subst.
    destruct (C92_gets _ _ _ _ _ _ _ _ _ _ _ _ SE L _ _ Q _ _ Hn Er) as [N|[c' [N B]]]; [contradiction|]. injection N as -> ->. eauto.
  Qed.
  (* ... and not even that if of a write that failed some byte never arrives. *)
  Theorem C96_never_broke : forall ms o e ps, run_lossy true ms o (XBroke e) ps -> False.
  Proof.
    intros ms o e ps RN. inversion RN as [|k h0 ? y ? ? Ec Es Ei R E]; subst.
    pose proof (ca_setup _ _ _ _ _ _ _ _ _ _ _ CA Ec Es Ei) as SE. pose proof (ltruns_tail _ _ _ _ _ _ _ _ _ _ _ _ R) as Q. cbn [xt_x] in Q.
    inversion E as [| |n c e' Td Sp Tp Hn Er Eg]; subst.
    destruct (C95_gets _ _ _ _ _ _ _ _ _ _ _ _ SE L _ _ Q) as [n' [r [g [Hn' [Er' Eg']]]]]. rewrite Hn in Hn'. apply some_inj in Hn'. subst n'.
    rewrite Er in Er'. apply app_inj_tail in Er'. destruct Er' as [_ <-]. congruence.
  Qed.
  (* However it ends, no worker process is left, cut off or not. *)
  Theorem C96_none_outlives : forall tail ms o e ps, run_lossy tail ms o e ps ->
    (forall st t, Pool.tbl (Pool.ps_sys ps) st <> Some (t, Pool.Running)) /\ forall t p, In (t, p) (Pool.ps_pools ps) -> p = [].
  Proof.
    intros tail ms o e ps RN. inversion RN as [k ? Ec Es Ei|k h0 ? y ? ? Ec Es Ei R E]; subst.
    - apply (C66_none_outlives tasks ord ordt fuel init nw all d s0 [] None _ _ CA (rb_start _ _ _ _ _ _ _ _ _ _ _ Ec Es Ei)).
    - pose proof (ca_setup _ _ _ _ _ _ _ _ _ _ _ CA Ec Es Ei) as SE. pose proof (ltruns_quiet _ _ _ _ _ _ _ _ _ _ _ _ _ R) as Q. cbn [xt_x] in Q.
      inversion E as [|i n r e' es|]; subst.
      + apply (C92_none_outlives _ _ _ _ _ _ _ _ _ _ _ _ SE L _ _ Q []).
      + apply (C92_none_outlives _ _ _ _ _ _ _ _ _ _ _ _ SE L _ _ Q es).
      + apply (C92_none_outlives _ _ _ _ _ _ _ _ _ _ _ _ SE L _ _ Q []).
  Qed.
  (* Once a worker has raised an exception, or the main thread was interrupted, the call has ended as soon as the server has sent
     what it had to send, and there is no further iteration. *)
  Theorem C96_over : forall k h ms y, collect_tasks k tasks = Ok all -> sched_init all = Ok (d, s0) ->
    whole_init init nw 3 (map t_id all) s0 = Ok h -> ltruns true (XTop (wire_init h) false) ms y ->
    In LTStop ms \/ (exists st e, In (LTMove (LDo (XRaise st e))) ms) ->
    (x_todo (xt_x y) = [] -> exists e ps, run_lossy true ms (Some y) (XEnded e) ps) /\ forall i y', ~ ltstep y (LTMove (LDo (XServe i))) y'.
  Proof.
    intros k h ms y Ec Es Ei R H.
    assert (EN : (x_todo (xt_x y) = [] -> exists e ps, xended up down maxr fuel init nw 3 dumps loads y (XEnded e) ps) /\ forall i y', ~ ltstep y (LTMove (LDo (XServe i))) y').
    2:{ destruct EN as [E N]. split; auto. intros Td. destruct (E Td) as [e [ps E']]. exists e, ps. eapply rl_run; eauto. }
    destruct (sv_stop (x_sv (xt_x y))) eqn:Sp.
    { split; [intros Td; do 2 eexists; apply xe_stop; auto|]. intros i y' S. inversion S as [m x A _|]; subst. inversion A as [m' x' A'|]; subst. inversion A'; subst. congruence. }
    destruct (xt_stop y) eqn:Tp.
    { split; [intros Td; do 2 eexists; apply xe_stop; auto|]. intros i y' S. inversion S as [m x A N|]; subst. rewrite N in Tp by reflexivity. discriminate. }
    destruct H as [H|[st [e H]]].
    { assert (X : xt_stop y = true) by (apply (ltruns_stop _ _ _ _ _ _ _ _ _ _ _ _ _ R); auto). congruence. }
    pose proof (ca_setup _ _ _ _ _ _ _ _ _ _ _ CA Ec Es Ei) as SE. pose proof (ltruns_tail _ _ _ _ _ _ _ _ _ _ _ _ R) as QT. cbn [xt_x] in QT.
    pose proof (truns_lruns _ _ _ _ _ _ _ _ _ _ _ _ QT) as Q.
    apply lmoves_in in H. split.
    - intros Td. destruct (C95_gets _ _ _ _ _ _ _ _ _ _ _ _ SE L _ _ QT) as [n [r [g [Hn [Er Eg]]]]].
      set (i := Input g (fun _ => false) 0 false (Ok tt) (fun _ _ => CheckFalse) (fun _ _ _ => O)).
      assert (Rd : serve_ready dumps loads (xt_x y) i) by (repeat split; auto; [intros ? X; discriminate X|exists n, r; auto]).
      destruct (C92_ends _ _ _ _ _ _ _ _ _ _ _ _ SE L _ _ Q _ _ _ H Rd) as [[e' X] _]. unfold xraises in X.
      assert (X' : exists e', iteration up down maxr fuel init i (x_sv (xt_x y)) = Err e' \/
        exists sv l, iteration up down maxr fuel init i (x_sv (xt_x y)) = Ok sv /\ sv_tr sv = l ++ sv_tr (x_sv (xt_x y)) /\
          pools_do nw 3 (pool_acts l ++ [Pool.PHealth]) (x_ps (xt_x y)) = Err e').
      { destruct (iteration_alike up down maxr fuel init i (x_sv (xt_x y))) as [Eq|[e'' [t [E1 _]]]]; [exists e'; rewrite Eq; exact X|eauto]. }
      destruct X' as [e'' X']. do 2 eexists. eapply (xe_raise _ _ _ _ _ _ _ _ _ y i n r e'' []); eauto; try reflexivity. intros ? Z; discriminate Z.
    - intros i y' S. inversion S as [m x A _|]; subst. inversion A as [m' x' A1|]; subst. pose proof (xstep_quiet _ _ _ _ _ _ _ _ _ _ _ _ A1) as A'.
      assert (Rd : serve_ready dumps loads (xt_x y) i) by (inversion A1; subst; repeat split; eauto).
      destruct (C92_ends _ _ _ _ _ _ _ _ _ _ _ _ SE L _ _ Q _ _ _ H Rd) as [_ N]. exact (N _ A').
  Qed.
  (* As long as neither is the case and the server has not stopped, it makes a further iteration or an init callback raises an exception. *)
  Theorem C96_goes_on : forall k h ms y, collect_tasks k tasks = Ok all -> sched_init all = Ok (d, s0) ->
    whole_init init nw 3 (map t_id all) s0 = Ok h -> ltruns true (XTop (wire_init h) false) ms y ->
    ~ In LTStop ms -> (forall st e, ~ In (LTMove (LDo (XRaise st e))) ms) -> x_todo (xt_x y) = [] -> sv_stop (x_sv (xt_x y)) = false ->
    (exists i y', ltstep y (LTMove (LDo (XServe i))) y') \/ exists e ps, run_lossy true ms (Some y) (XEnded (Raised e)) ps.
  Proof.
    intros k h ms y Ec Es Ei R NS NR Td Sp.
    pose proof (ca_setup _ _ _ _ _ _ _ _ _ _ _ CA Ec Es Ei) as SE. pose proof (ltruns_tail _ _ _ _ _ _ _ _ _ _ _ _ R) as QT. cbn [xt_x] in QT.
    assert (Tp : xt_stop y = false).
    { destruct (xt_stop y) eqn:E; auto. apply (ltruns_stop _ _ _ _ _ _ _ _ _ _ _ _ _ R) in E. destruct E; [discriminate|contradiction]. }
    destruct (C95_goes_on _ _ _ _ _ _ _ _ _ _ _ _ SE L _ _ QT) with (closed := fun _ : nat => false) as [i [x' [Ecl S]]]; auto.
    { intros st e H. apply lmoves_in in H. exact (NR _ _ H). }
    { intros st X; discriminate X. }
    inversion S as [| | | | | | |i0 n r sv l ps T0 S0 Hn Er Eg Eh Ec0 E El Ep|]; subst.
    destruct (iteration_alike up down maxr fuel init i (x_sv (xt_x y))) as [Eq|[e' [t [E1 _]]]].
    - left. exists i. eexists. apply lts_move; [|auto]. apply ls_do. eapply xs_serve; eauto. rewrite Eq. exact E.
    - right. exists e'. eexists. eapply rl_run; eauto. eapply (xe_raise _ _ _ _ _ _ _ _ _ y i n r e' []); eauto.
  Qed.
End Call.
Print Assumptions C96_value_partial.
Print Assumptions C96_false_partial.
Print Assumptions C96_done_by.
Print Assumptions C96_raised.
Print Assumptions C96_broke.
Print Assumptions C96_never_broke.
Print Assumptions C96_none_outlives.
Print Assumptions C96_over.
Print Assumptions C96_goes_on.

(* Calls of run_blockwise come to an end (C67). *)
From Coq Require Import Arith Lia Permutation.
From Verif Require Import SchedProps SchedExec DGFacts2 PipeRun P_SchedCE P_Sched SerialFacts P_Conv P_Serial ServerFacts ServerSteps
  ServerIdle P_Server P_Server2 P_ServerCE P_Outcome P_Notify P_Sys WholeFair P_Whole PoolAll P_PoolFail.
From Verif Require Client Pool P_Pool.
From Verif Require Import Sys SysFacts SysMeasure SysTrace WholeSrv WholeSim WholeAny WholeAll WholeRun P_WholeAny TopInit Top P_Top TopFair.
Open Scope Z_scope.

Lemma tfair_prefix up down maxr fuel init nw mbf r mv : tfair up down maxr fuel init nw mbf r mv ->
  forall n, exists ms, truns up down maxr fuel init nw mbf (r O) ms (r n).
Proof.
  intros FA n. induction n as [|n [ms IH]]; [exists []; constructor|].
  pose proof (tf_step _ _ _ _ _ _ _ _ _ FA n) as S. destruct (mv n) as [m|] eqn:E; [|rewrite S; eauto].
  exists (ms ++ [m]). eapply truns_step; eauto.
Qed.

(* A call that meets the conditions and whose callbacks do not raise, with the beginning of its run. *)
Record begun tasks ord ordt fuel (init : nat -> res unit) nw all d s0 (y : top) : Prop := {
  be_call : call tasks ord ordt all d fuel nw;
  be_callback : forall t, init t = Ok tt;
  be_workers : forall t, 1 <= nw t;
  be_collect : exists k, collect_tasks k tasks = Ok all;
  be_sched : sched_init all = Ok (d, s0);
  be_start : exists h, whole_init init nw 3 (map t_id all) s0 = Ok h /\ y = Top h false
}.
Lemma begun_company tasks ord ordt fuel init nw all d s0 y : begun tasks ord ordt fuel init nw all d s0 y ->
  company all ord ordt d s0 fuel init nw 3 (tp_h y).
Proof.
  intros [CA CB CW [k Ec] Es [h [Eh ->]]]. pose proof CA as C. destruct C. constructor; auto.
  apply (ca_all _ _ _ _ _ _ _ _ _ CA Ec Es).
Qed.

(* Every fair run in which nobody interrupts the main thread and no worker process raises an exception ends with the value
   True, after every block of the pipeline has succeeded, failed for good, or lost a block it depends on.
   Workers may be killed, or be interrupted in the middle of a block (TopFair.aprudent). *)
Theorem C67_ends_partial : forall tasks ord ordt fuel init nw all d s0 r mv,
  let up := dg_up ord ordt d in let down := dg_down ord ordt d in let maxr := dg_max_retries d in
  begun tasks ord ordt fuel init nw all d s0 (r O) -> no_lonely all ord ordt d -> in_order all ->
  tfair up down maxr fuel init nw 3 r mv -> (forall n m, mv n = Some m -> m <> TStop /\ ~ raising m) ->
  (forall n, apart_failures all ord ordt d (hist (sv_tr (h_sv (tp_h (r n)))))) ->
  exists n ms ps, run_blockwise tasks ord ordt fuel init nw all d s0 ms (Some (r n)) (Returned true) ps /\
    forall b, pipe_block tasks b -> settled up maxr (hist (sv_tr (h_sv (tp_h (r n))))) b.
Proof.
  intros tasks ord ordt fuel init nw all d s0 r mv up down maxr BE NL IO FA No F.
  pose proof (begun_company _ _ _ _ _ _ _ _ _ _ BE) as CO. destruct BE as [CA CB CW [k Ec] Es [h [Eh E0]]].
  assert (St : tp_stop (r O) = false) by (rewrite E0; reflexivity).
  pose proof (split_fair _ _ _ _ _ _ _ _ _ FA No St) as HF.
  destruct (C61_ends_partial all ord ordt d s0 fuel init nw 3 (r2 r mv) (mv2 mv)) as [q [Sq Hq]]; auto.
  { intros q. destruct (split_at r mv q) as [n ->]. apply F. }
  destruct (split_at r mv q) as [n En]. rewrite En in Sq, Hq. destruct (tfair_prefix _ _ _ _ _ _ _ _ _ FA n) as [ms R]. rewrite E0 in R.
  assert (RB : run_blockwise tasks ord ordt fuel init nw all d s0 ms (Some (r n)) (Returned (result (sv_s (h_sv (tp_h (r n)))))) (Pool.pools_stop (h_ps (tp_h (r n))))).
  { eapply rb_run; eauto. apply en_stop. auto. }
  assert (Se : forall b, pipe_block tasks b -> settled up maxr (hist (sv_tr (h_sv (tp_h (r n))))) b).
  { intros b Hb. apply Hq. apply (ca_all _ _ _ _ _ _ _ _ _ CA Ec Es). exact Hb. }
  assert (V : result (sv_s (h_sv (tp_h (r n)))) = true).
  { apply (C66_value_partial _ _ _ _ _ _ _ _ _ _ _ _ _ CA RB); [apply F|exact Se]. }
  rewrite V in RB. exists n, ms, (Pool.pools_stop (h_ps (tp_h (r n)))). auto.
Qed.
Print Assumptions C67_ends_partial.

(* cf. P_Whole.hsincere: a block that is bad is not left as a success either *)
Definition asincere (bad : block -> Prop) (h : whole) (m : amove) : Prop :=
  match m with
  | AMove m => hsincere bad h m
  | ABreak st s _ _ => s = SUCCESS -> forall pb, w_at (h_w h st) = Working pb -> ~ bad (pb_block pb)
  | ARaise _ _ _ => True
  end.
(* The outcome of every block, as in C61_result_partial. *)
Theorem C67_result_partial : forall tasks ord ordt fuel init nw all d s0 r mv bad,
  let up := dg_up ord ordt d in let down := dg_down ord ordt d in let maxr := dg_max_retries d in
  begun tasks ord ordt fuel init nw all d s0 (r O) -> no_lonely all ord ordt d -> in_order all ->
  tfair up down maxr fuel init nw 3 r mv -> (forall n m, mv n = Some m -> m <> TStop /\ ~ raising m) ->
  (forall n, apart_failures all ord ordt d (hist (sv_tr (h_sv (tp_h (r n)))))) ->
  (forall n m, mv n = Some (TMove m) -> asincere bad (tp_h (r n)) m) ->
  (forall n b, ~ bad b -> n_failed (hist (sv_tr (h_sv (tp_h (r n))))) b <= Z.max (maxr (b_task b)) 0) ->
  (forall b, bad b \/ ~ bad b) ->
  exists n, sv_stop (h_sv (tp_h (r n))) = true /\ forall b, pipe_block tasks b ->
    let h := hist (sv_tr (h_sv (tp_h (r n)))) in
    (succeeded h b <-> ~ bad b /\ ~ doomed all ord ordt d bad b) /\
    (perm_failed maxr h b <-> bad b /\ ~ doomed all ord ordt d bad b) /\
    (orphan up maxr h b <-> doomed all ord ordt d bad b).
Proof.
  intros tasks ord ordt fuel init nw all d s0 r mv bad up down maxr BE NL IO FA No F SI FW Dc.
  pose proof (begun_company _ _ _ _ _ _ _ _ _ _ BE) as CO. destruct BE as [CA CB CW [k Ec] Es [h [Eh E0]]].
  assert (St : tp_stop (r O) = false) by (rewrite E0; reflexivity).
  pose proof (split_fair _ _ _ _ _ _ _ _ _ FA No St) as HF.
  destruct (C61_result_partial all ord ordt d s0 fuel init nw 3 (r2 r mv) (mv2 mv) bad) as [q [Sq Hq]]; auto.
  { intros q. destruct (split_at r mv q) as [n ->]. apply F. }
  { intros q m E. unfold mv2 in E. unfold r2. destruct (half q) as [n b]. destruct (mv n) as [[[m'|st e j|st s j c]|]|] eqn:Em; try discriminate E.
    - destruct b; [discriminate E|]. injection E as ->. apply (SI _ _ Em).
    - destruct b; injection E as <-; [exact I|]. cbn [hsincere]. intros W. apply (SI _ _ Em). destruct s; cbn in W; try contradiction. reflexivity. }
  { intros q b Nb. destruct (split_at r mv q) as [n ->]. apply FW. exact Nb. }
  destruct (split_at r mv q) as [n En]. rewrite En in Sq, Hq. exists n. split; auto. intros b Hb. apply Hq. apply (ca_all _ _ _ _ _ _ _ _ _ CA Ec Es). exact Hb.
Qed.
Print Assumptions C67_result_partial.

(* Otherwise, once the main thread was interrupted or a worker process has raised an exception, the loop is over:
   the call has ended, one way or the other, and there is no further iteration. *)
Definition nothing : input := Input GotNothing (fun _ => false) 0 false (Ok tt) (fun _ _ => CheckFalse) (fun _ _ _ => O).
Theorem C67_over : forall tasks ord ordt fuel init nw all d s0 k h ms y,
  let up := dg_up ord ordt d in let down := dg_down ord ordt d in let maxr := dg_max_retries d in
  call tasks ord ordt all d fuel nw -> collect_tasks k tasks = Ok all -> sched_init all = Ok (d, s0) ->
  whole_init init nw 3 (map t_id all) s0 = Ok h -> truns up down maxr fuel init nw 3 (Top h false) ms y ->
  In TStop ms \/ (exists st e n, In (TMove (ARaise st e n)) ms) ->
  (exists e ps, run_blockwise tasks ord ordt fuel init nw all d s0 ms (Some y) e ps) /\
  forall i cut y', ~ tstep up down maxr fuel init nw 3 y (TMove (AMove (HServe i cut))) y'.
Proof.
  intros tasks ord ordt fuel init nw all d s0 k h ms y up down maxr CA Ec Es Ei R H.
  assert (EN : (exists e ps, ended up down maxr fuel init nw 3 y e ps) /\ forall i cut y', ~ tstep up down maxr fuel init nw 3 y (TMove (AMove (HServe i cut))) y').
  2:{ destruct EN as [[e [ps E]] N]. split; auto. exists e, ps. eapply rb_run; eauto. }
  destruct (sv_stop (h_sv (tp_h y))) eqn:Sp.
  { split; [do 2 eexists; apply en_stop; auto|]. intros i cut y' S. inversion S as [m h' A _|]; subst. inversion A as [m h'' S'| |]; subst. inversion S'; subst. congruence. }
  destruct (tp_stop y) eqn:Tp.
  { split; [do 2 eexists; apply en_stop; auto|]. intros i cut y' S. inversion S as [m h' A N|]; subst. rewrite N in Tp by reflexivity. discriminate. }
  destruct H as [H|[st [e [n H]]]].
  { assert (X : tp_stop y = true) by (apply (truns_stop _ _ _ _ _ _ _ _ _ _ R); auto). congruence. }
  pose proof (ca_setup _ _ _ _ _ _ _ _ _ _ _ CA Ec Es Ei) as SE. pose proof (truns_quiet _ _ _ _ _ _ _ _ _ _ R) as Q. cbn [tp_h] in Q.
  assert (Ha : In (ARaise st e n) (amoves ms)) by (unfold amoves; apply in_flat_map; eexists; split; [exact H|left; reflexivity]).
  assert (Io : hinput_ok (tp_h y) nothing) by (split; [reflexivity|split; [exact I|intros ? X; discriminate X]]).
  split.
  - destruct (C64_ends _ _ _ _ _ _ _ _ _ _ _ _ _ _ _ _ SE Q Ha Sp Io) as [[x Ra] _].
    assert (X : exists x', raises up down maxr fuel init nw 3 (tp_h y) nothing x').
    { destruct (iteration_alike up down maxr fuel init nothing (h_sv (tp_h y))) as [Eq|[e' [t [E1 _]]]]; [|exists e'; apply ra_server; auto].
      exists x. destruct Ra as [_ _ Er|cut sv l _ _ Er El Eo]; [apply ra_server; auto; fold up down maxr in Er; congruence|eapply ra_pools; eauto; fold up down maxr in Er; congruence]. }
    destruct X as [x' Ra']. do 2 eexists. eapply (en_raise _ _ _ _ _ _ _ y nothing x' []); eauto.
  - intros i cut y' S. inversion S as [m h' A _|]; subst. inversion A as [m h'' S'| |]; subst. pose proof (hstep_quiet _ _ _ _ _ _ _ _ _ _ S') as S''.
    assert (Ii : hinput_ok (tp_h y) i) by (inversion S'; auto).
    destruct (C64_ends _ _ _ _ _ _ _ _ _ _ _ _ _ _ _ _ SE Q Ha Sp Ii) as [_ N]. exact (N _ _ S'').
Qed.
Print Assumptions C67_over.

(* The outcome of a run is decided by which blocks fail for good, not by the order in which blocks are
   handed out and returned (C51). *)
From Coq Require Import Lia Permutation.
From Verif Require Import GraphProps SchedExec PipeRun P_SchedCE P_Sched P_Serial Server ServerFacts P_Server.
Open Scope Z_scope.

(* [bad]: the blocks that fail whenever they are tried often enough.  A history agrees with it if only
   such blocks failed for good and none of them succeeded (or was skipped).  Other blocks may fail as
   long as a retry succeeds. *)
Definition agrees (bad : block -> Prop) (maxr : nat -> Z) (h : history) : Prop :=
  (forall b, perm_failed maxr h b -> bad b) /\ (forall b, succeeded h b -> ~ bad b).
(* nothing is left to do *)
Definition all_settled (tasks : list task) ord ordt (d : dgraph) (h : history) : Prop :=
  forall b, pipe_block tasks b -> settled (dg_up ord ordt d) (dg_max_retries d) h b.
(* b depends on a bad block *)
Definition doomed (tasks : list task) ord ordt (d : dgraph) (bad : block -> Prop) (b : block) : Prop :=
  exists a, pipe_block tasks a /\ bad a /\ ancestor (dg_up ord ordt d) a b.

(* the dependencies do not depend on the iteration order of sets *)
Lemma up_any_order tasks d : pipe_ok tasks -> (exists s0, sched_init tasks = Ok (d, s0)) ->
  forall ord ordt ord' ordt', is_order ord -> is_order ordt -> is_order ord' -> is_order ordt' ->
  forall a b, pipe_block tasks b -> In a (dg_up ord ordt d b) -> In a (dg_up ord' ordt' d b).
Proof.
  intros PO [s0 E0] ord ordt ord' ordt' HO HOt HO' HOt' a b [t [g [Ht [E Gb]]]] Ha.
  assert (R : forall o ot, is_order o -> is_order ot -> pipe_run tasks o ot d s0 0 [] s0) by (constructor; auto; constructor).
  pose proof (run_dk _ _ _ _ _ _ _ _ (R ord ordt HO HOt)) as DK.
  destruct (up_spec tasks PO d DK ord ordt HO HOt t g b Ht E Gb) as [us [Eu [_ [_ H]]]].
  destruct (up_spec tasks PO d DK ord' ordt' HO' HOt' t g b Ht E Gb) as [us' [Eu' [_ [_ H']]]].
  apply H'. apply H in Ha. destruct Ha as [Ha|Ha]; auto. left.
  unfold upstream in Eu, Eu'. destruct (level_of g b) as [l|]; [|discriminate]. cbn [bind] in *.
  destruct (py_nth (g_lconf g) l) as [cs|]; [|discriminate]. cbn [bind] in *. injection Eu as <-. injection Eu' as <-.
  unfold conflict_blocks in *. eapply Permutation_in; [apply Permutation_sym, HO'|]. eapply Permutation_in; [apply HO|]. exact Ha.
Qed.

Lemma down_any_order tasks d : pipe_ok tasks -> (exists s0, sched_init tasks = Ok (d, s0)) ->
  forall ord ordt ord' ordt', is_order ord -> is_order ordt -> is_order ord' -> is_order ordt' ->
  forall a b, pipe_block tasks b -> In a (dg_down ord ordt d b) -> In a (dg_down ord' ordt' d b).
Proof.
  intros PO [s0 E0] ord ordt ord' ordt' HO HOt HO' HOt' a b [t [g [Ht [E Gb]]]] Ha.
  assert (R : forall o ot, is_order o -> is_order ot -> pipe_run tasks o ot d s0 0 [] s0) by (constructor; auto; constructor).
  pose proof (run_dk _ _ _ _ _ _ _ _ (R ord ordt HO HOt)) as DK.
  destruct (down_spec tasks PO d DK ord ordt HO HOt t g b Ht E Gb) as [us [Eu [_ [_ H]]]].
  destruct (down_spec tasks PO d DK ord' ordt' HO' HOt' t g b Ht E Gb) as [us' [Eu' [_ [_ H']]]].
  apply H'. apply H in Ha. destruct Ha as [Ha|Ha]; auto. left.
  unfold downstream in Eu, Eu'. destruct (level_of g b) as [l|]; [|discriminate]. cbn [bind] in *.
  destruct (num_levels g <=? S l)%nat; [congruence|].
  destruct (py_nth (g_lconf g) (S l)) as [cs|]; [|discriminate]. cbn [bind] in *. injection Eu as <-. injection Eu' as <-.
  unfold conflict_blocks in *. eapply Permutation_in; [apply Permutation_sym, HO'|]. eapply Permutation_in; [apply HO|]. exact Ha.
Qed.

Section Outcome.
  Variables (tasks : list task) (ord : list block -> list block) (ordt : list nat -> list nat).
  Variables (d : dgraph) (s0 : sched) (fuel : nat) (h : history) (s : sched).
  Hypothesis R : pipe_run tasks ord ordt d s0 fuel h s.
  Hypothesis IV : inverse tasks ord ordt d.
  Hypothesis FO : fuel_ok tasks fuel.
  Variable bad : block -> Prop.
  Hypothesis AG : agrees bad (dg_max_retries d) h.
  Hypothesis AS : all_settled tasks ord ordt d h.
  Notation Up := (dg_up ord ordt d).
  Notation maxr := (dg_max_retries d).

  Lemma anc_trans a b c : ancestor Up a b -> ancestor Up b c -> ancestor Up a c.
  Proof. intros H K. induction K as [c Hc|c e K IH Hc]; [eapply anc_more; eauto|eapply anc_more; eauto]. Qed.
  Lemma perm_pipe b : perm_failed maxr h b -> pipe_block tasks b.
  Proof.
    intros F. pose proof (reach_HInv _ _ _ _ _ _ (run_good _ _ _ _ _ _ _ _ R IV) (run_enough _ _ _ _ _ _ _ _ R FO)
      _ (run_fresh _ _ _ _ _ _ _ _ R) h s (pr_reach _ _ _ _ _ _ _ _ R)) as HI.
    apply (run_in _ _ _ _ _ _ _ _ R). apply (i_F _ _ _ _ _ _ _ _ _ (hi_inv _ _ _ _ _ _ _ _ HI) b F).
  Qed.
  Lemma out_orphan b : pipe_block tasks b -> (orphan Up maxr h b <-> doomed tasks ord ordt d bad b).
  Proof.
    intros Hb. split.
    - intros [a [F A]]. exists a. split; [apply perm_pipe; auto|]. split; auto. apply AG, F.
    - intros [a [Ha [B A]]]. destruct (AS a Ha) as [S|[F|[c [F A']]]].
      + exfalso. apply (proj2 AG _ S B).
      + exists a. auto.
      + exists c. split; auto. eapply anc_trans; eauto.
  Qed.
  Lemma out_failed b : pipe_block tasks b -> (perm_failed maxr h b <-> bad b /\ ~ doomed tasks ord ordt d bad b).
  Proof.
    intros Hb. split.
    - intros F. split; [apply AG, F|]. intros D. apply out_orphan in D; auto.
      destruct (C20_orphans_never_run_partial _ _ _ _ _ _ _ _ R IV FO b D) as [_ [_ [_ N]]]. auto.
    - intros [B D]. destruct (AS b Hb) as [S|[F|O]]; auto.
      + exfalso. apply (proj2 AG _ S B).
      + exfalso. apply D, out_orphan; auto.
  Qed.
  Lemma out_succ b : pipe_block tasks b -> (succeeded h b <-> ~ bad b /\ ~ doomed tasks ord ordt d bad b).
  Proof.
    intros Hb. split.
    - intros S. split; [apply AG, S|]. intros D. apply out_orphan in D; auto.
      destruct (C20_orphans_never_run_partial _ _ _ _ _ _ _ _ R IV FO b D) as [_ [_ [N _]]]. auto.
    - intros [B D]. destruct (AS b Hb) as [S|[F|O]]; auto.
      + exfalso. apply B, AG, F.
      + exfalso. apply D, out_orphan; auto.
  Qed.
End Outcome.

(* C51.  When everything is settled: the blocks that succeeded are those that are not bad and depend on
   no bad block; the blocks that failed for good are the bad ones that depend on no bad block; the
   orphans are those that depend on a bad block. *)
Theorem C51_outcome_partial : forall tasks ord ordt d s0 fuel h s bad,
  pipe_run tasks ord ordt d s0 fuel h s -> inverse tasks ord ordt d -> fuel_ok tasks fuel ->
  agrees bad (dg_max_retries d) h -> all_settled tasks ord ordt d h ->
  forall b, pipe_block tasks b ->
    (succeeded h b <-> ~ bad b /\ ~ doomed tasks ord ordt d bad b) /\
    (perm_failed (dg_max_retries d) h b <-> bad b /\ ~ doomed tasks ord ordt d bad b) /\
    (orphan (dg_up ord ordt d) (dg_max_retries d) h b <-> doomed tasks ord ordt d bad b).
Proof.
  intros tasks ord ordt d s0 fuel h s bad R IV FO AG AS b Hb. split; [|split].
  - eapply out_succ; eauto.
  - eapply out_failed; eauto.
  - eapply out_orphan; eauto.
Qed.
Print Assumptions C51_outcome_partial.

(* Two runs of the same tasks with the same bad blocks - whatever the order of calls, the iteration
   order of sets, the number of retries needed - end with the same counters (the counts of orphans where C21
   holds). *)
Theorem C51_order_irrelevant_partial : forall tasks bad d s0
    ord ordt fuel h s ord' ordt' fuel' h' s',
  pipe_run tasks ord ordt d s0 fuel h s -> inverse tasks ord ordt d -> fuel_ok tasks fuel ->
  agrees bad (dg_max_retries d) h -> all_settled tasks ord ordt d h ->
  pipe_run tasks ord' ordt' d s0 fuel' h' s' -> fuel_ok tasks fuel' ->
  agrees bad (dg_max_retries d) h' -> all_settled tasks ord' ordt' d h' ->
  (forall b, pipe_block tasks b -> (succeeded h b <-> succeeded h' b) /\
     (perm_failed (dg_max_retries d) h b <-> perm_failed (dg_max_retries d) h' b) /\
     (orphan (dg_up ord ordt d) (dg_max_retries d) h b <-> orphan (dg_up ord' ordt' d) (dg_max_retries d) h' b)) /\
  (forall t, ts_total (s_st s t) = ts_total (s_st s' t) /\ ts_completed (s_st s t) = ts_completed (s_st s' t) /\
     ts_failed (s_st s t) = ts_failed (s_st s' t)) /\
  (apart_failures tasks ord ordt d h -> forall t, ts_orphaned (s_st s t) = ts_orphaned (s_st s' t) /\
     ts_is_done (s_st s t) = true /\ ts_is_done (s_st s' t) = true).
Proof.
  intros tasks bad d s0 ord ordt fuel h s ord' ordt' fuel' h' s' R IV FO AG AS R' FO' AG' AS'.
  pose proof (pr_ok _ _ _ _ _ _ _ _ R) as PO. pose proof (pr_ord _ _ _ _ _ _ _ _ R) as HO. pose proof (pr_ordt _ _ _ _ _ _ _ _ R) as HOt.
  pose proof (pr_ord _ _ _ _ _ _ _ _ R') as HO'. pose proof (pr_ordt _ _ _ _ _ _ _ _ R') as HOt'.
  pose proof (ex_intro (fun x => sched_init tasks = Ok (d, x)) s0 (pr_init _ _ _ _ _ _ _ _ R)) as EX.
  assert (UP : forall a b, pipe_block tasks b -> (In a (dg_up ord ordt d b) <-> In a (dg_up ord' ordt' d b))).
  { intros a b Hb. split; apply (up_any_order tasks d PO EX); auto. }
  assert (UV : forall o ot, is_order o -> is_order ot -> forall a b, pipe_block tasks b -> In a (dg_up o ot d b) -> pipe_block tasks a).
  { intros o ot Ho Hot a b Hb Ha.
    assert (R0 : pipe_run tasks o ot d s0 0 [] s0) by (constructor; auto; [apply (pr_init _ _ _ _ _ _ _ _ R)|constructor]).
    apply (run_in _ _ _ _ _ _ _ _ R0). apply (run_in _ _ _ _ _ _ _ _ R0) in Hb.
    apply (sg_up _ _ _ _ (run_safe _ _ _ _ _ _ _ _ R0) a b Hb Ha). }
  assert (IV' : inverse tasks ord' ordt' d).
  { intros a b Ha Hb. rewrite <- (UP a b Hb), <- (IV a b Ha Hb). split; apply (down_any_order tasks d PO EX); auto. }
  assert (AN : forall a b, pipe_block tasks b -> (ancestor (dg_up ord ordt d) a b <-> ancestor (dg_up ord' ordt' d) a b)).
  { intros a b Hb. split; intros A.
    - induction A as [b Ha|b c A IH Hc]; [apply anc_one; apply UP; auto|].
      apply anc_more with b; [apply IH; apply (UV ord ordt HO HOt b c Hb Hc)|apply UP; auto].
    - induction A as [b Ha|b c A IH Hc]; [apply anc_one; apply UP; auto|].
      apply anc_more with b; [apply IH; apply (UV ord' ordt' HO' HOt' b c Hb Hc)|apply UP; auto]. }
  assert (DM : forall b, pipe_block tasks b -> (doomed tasks ord ordt d bad b <-> doomed tasks ord' ordt' d bad b)).
  { intros b Hb. unfold doomed. split; intros [a [Ha [B A]]]; exists a; (split; [auto|split; [auto|apply (AN a b Hb); auto]]). }
  assert (SAME : forall b, pipe_block tasks b -> (succeeded h b <-> succeeded h' b) /\
     (perm_failed (dg_max_retries d) h b <-> perm_failed (dg_max_retries d) h' b) /\
     (orphan (dg_up ord ordt d) (dg_max_retries d) h b <-> orphan (dg_up ord' ordt' d) (dg_max_retries d) h' b)).
  { intros b Hb. pose proof (DM b Hb) as DMb.
    destruct (C51_outcome_partial _ _ _ _ _ _ _ _ bad R IV FO AG AS b Hb) as [A1 [A2 A3]].
    destruct (C51_outcome_partial _ _ _ _ _ _ _ _ bad R' IV' FO' AG' AS' b Hb) as [B1 [B2 B3]]. tauto. }
  split; [exact SAME|].
  pose proof (reach_HInv _ _ _ _ _ _ (run_good _ _ _ _ _ _ _ _ R IV) (run_enough _ _ _ _ _ _ _ _ R FO)
    _ (run_fresh _ _ _ _ _ _ _ _ R) h s (pr_reach _ _ _ _ _ _ _ _ R)) as HI.
  pose proof (reach_HInv _ _ _ _ _ _ (run_good _ _ _ _ _ _ _ _ R' IV') (run_enough _ _ _ _ _ _ _ _ R' FO')
    _ (run_fresh _ _ _ _ _ _ _ _ R') h' s' (pr_reach _ _ _ _ _ _ _ _ R')) as HI'.
  assert (S1 : forall b, succeeded h b -> pipe_block tasks b).
  { intros b X. apply (run_in _ _ _ _ _ _ _ _ R), (i_S _ _ _ _ _ _ _ _ _ (hi_inv _ _ _ _ _ _ _ _ HI) b X). }
  assert (S2 : forall b, succeeded h' b -> pipe_block tasks b).
  { intros b X. apply (run_in _ _ _ _ _ _ _ _ R'), (i_S _ _ _ _ _ _ _ _ _ (hi_inv _ _ _ _ _ _ _ _ HI') b X). }
  assert (F1 : forall b, perm_failed (dg_max_retries d) h b -> pipe_block tasks b) by (intros b X; exact (perm_pipe _ _ _ _ _ _ _ _ R IV FO b X)).
  assert (F2 : forall b, perm_failed (dg_max_retries d) h' b -> pipe_block tasks b) by (intros b X; exact (perm_pipe _ _ _ _ _ _ _ _ R' IV' FO' b X)).
  split.
  - intros t.
    destruct (C22_counters_partial _ _ _ _ _ _ _ _ R IV FO t) as [_ [C2 [C3 [_ C5]]]].
    destruct (C22_counters_partial _ _ _ _ _ _ _ _ R' IV' FO' t) as [_ [D2 [D3 [_ D5]]]].
    split; [eapply card_unique; eauto|]. split.
    + eapply card_unique; [exact C2|]. apply (card_ext _ _ _ D2). intros b.
      split; intros [X T]; (split; [|exact T]); [pose proof (S2 b X) as Hb|pose proof (S1 b X) as Hb]; apply (SAME b Hb); exact X.
    + eapply card_unique; [exact C3|]. apply (card_ext _ _ _ D3). intros b.
      split; intros [X T]; (split; [|exact T]); [pose proof (F2 b X) as Hb|pose proof (F1 b X) as Hb]; apply (SAME b Hb); exact X.
  - intros FW t. assert (FW' : apart_failures tasks ord' ordt' d h').
    { assert (AE : forall a b, pipe_block tasks b -> (anc_eq (dg_up ord ordt d) a b <-> anc_eq (dg_up ord' ordt' d) a b)).
      { intros a b Hb. unfold anc_eq. rewrite (AN a b Hb). tauto. }
      intros x u a b w Hx Hu Su Fa Fb Aa Ab Hw. rewrite <- (AE a w), <- (AE b w) by (eapply (UV ord' ordt'); eauto).
      apply (FW x u a b w); auto; try (apply UP; auto); try (apply AN; auto).
      - apply (SAME u (S2 u Su)). exact Su.
      - apply (SAME a (F2 a Fa)). exact Fa.
      - apply (SAME b (F2 b Fb)). exact Fb. }
    split.
    + eapply card_unique; [apply (C21_orphans_counted_partial _ _ _ _ _ _ _ _ R IV FO FW t)|].
      apply (card_ext _ _ _ (C21_orphans_counted_partial _ _ _ _ _ _ _ _ R' IV' FO' FW' t)).
      intros b. split; intros [Hb [T X]]; (split; [exact Hb|split; [exact T|apply (SAME b Hb); exact X]]).
    + split.
      * apply (C23_done_partial _ _ _ _ _ _ _ _ R IV FO FW t). intros b Hb _. apply AS, Hb.
      * apply (C23_done_partial _ _ _ _ _ _ _ _ R' IV' FO' FW' t). intros b Hb _. apply AS', Hb.
Qed.
Print Assumptions C51_order_irrelevant_partial.

(* where the events of a serial run come from *)
Section Serial.
  Variables (up down : block -> list block) (maxr : nat -> Z) (fuel : nat) (all_tasks : list nat).
  Variable chk : history -> nat -> block -> check_result.
  Variable proc : history -> pyblock -> res status.
  Variable pick : history -> nat -> list block -> nat.
  Definition caused (e : event) : Prop :=
    match e with
    | EvSkip b => exists h k, chk h k b = CheckTrue
    | EvRel pb => exists h pb0 st, proc h pb0 = Ok st /\ pb_block pb0 = pb_block pb /\
                    pb_status pb = if status_eqb st FAILED then FAILED else SUCCESS
    | _ => True
    end.
  Lemma first_caused ts : forall h s s' r h1, first_block up down maxr fuel chk ts h s = Ok (s', r, h1) ->
    forall e, In e h1 -> In e h \/ caused e.
  Proof.
    induction ts as [|t ts IH]; intros h s s' r h1; cbn [first_block].
    - intros E. injection E as <- <- <-. auto.
    - destruct (acquire_block up down maxr fuel (chk h) s t) as [[[s1 b] sk]|] eqn:Ea; [|discriminate]. cbn [bind].
      assert (X : forall e, In e (rev (map EvSkip sk) ++ h) -> In e h \/ caused e).
      { intros e He. apply in_app_or in He. destruct He as [He|He]; auto. right. apply in_rev, in_map_iff in He.
        destruct He as [c [<- Hc]]. apply In_nth_error in Hc. destruct Hc as [i Hc].
        destruct (C25_skip_iff_check_true _ _ _ _ _ _ _ _ _ _ Ea) as [K _]. cbn. eauto. }
      destruct b as [pb|].
      + intros E. injection E as <- <- <-. intros e [<-|He]; cbn; auto.
      + intros E e He. destruct (IH _ _ _ _ _ E e He) as [[<-|K]|K]; cbn; auto.
  Qed.
  Lemma block_caused x s1 h1 pb y : serial_block up down maxr fuel proc pick x s1 h1 pb = Ok y ->
    forall e, In e (ss_h y) -> In e h1 \/ caused e.
  Proof.
    unfold serial_block. destruct (mem _ _ _); [|discriminate]. destruct (proc h1 pb) as [st0|] eqn:Ep; [|discriminate].
    cbn [bind]. destruct (release_block _ _ _ _ _ _ _) as [s2|] eqn:Er; [|discriminate]. cbn [bind].
    assert (X : forall e, In e (EvRel (PB (pb_block pb) (if status_eqb st0 FAILED then FAILED else SUCCESS)) :: h1) -> In e h1 \/ caused e).
    { intros e [<-|He]; auto. right. cbn. exists h1, pb, st0. auto. }
    destruct (ts_is_done _); [destruct (sremove _ _ _); [|discriminate]; cbn [bind]|];
      intros E; injection E as <-; cbn [ss_h]; exact X.
  Qed.
  Lemma loop_caused n : forall x y, serial_loop up down maxr fuel all_tasks chk proc pick n x = Ok y ->
    forall e, In e (ss_h y) -> In e (ss_h x) \/ caused e.
  Proof.
    induction n as [|n IH]; intros x y; cbn [serial_loop]; [discriminate|].
    destruct (set_eqb _ _); [intros E; injection E as <-; auto|].
    destruct (first_block _ _ _ _ _ _ _ _) as [[[s1 r] h1]|] eqn:Ef; [|discriminate]. cbn [bind].
    pose proof (first_caused _ _ _ _ _ _ Ef) as X. destruct r as [pb|].
    - destruct (serial_block _ _ _ _ _ _ _ _ _ _) as [z|] eqn:Ez; [|discriminate]. cbn [bind].
      pose proof (block_caused _ _ _ _ _ Ez) as Z.
      assert (XZ : forall e, In e (ss_h z) -> In e (ss_h x) \/ caused e) by (intros e He; destruct (Z e He); auto).
      destruct (ss_funcs z); [intros E; injection E as <-; exact XZ|].
      intros E e He. destruct (IH _ _ E e He); auto.
    - intros E. injection E as <-. exact X.
  Qed.
End Serial.

(* A serial run without a check_function, in which exactly the blocks in [bad] fail whenever they are
   tried, ends with exactly this outcome. *)
Theorem C51_serial_partial : forall tasks ord ordt d s0 fuel chk proc pick bad,
  pipe_ok tasks -> is_order ord -> is_order ordt -> sched_init tasks = Ok (d, s0) -> closed_tasks tasks ->
  inverse tasks ord ordt d -> no_lonely tasks ord ordt d -> fuel_ok tasks fuel ->
  few_upstream tasks ord ordt d \/ spread tasks ord ordt d bad ->
  (forall h pb, exists st, proc h pb = Ok st /\ (st = FAILED <-> bad (pb_block pb))) ->
  (forall h k b, chk h k b <> CheckTrue) ->
  exists N, forall n, (N <= n)%nat -> exists y, let h := ss_h y in
    serial_pipe tasks ord ordt d fuel chk proc pick n s0 = Ok y /\
    forall b, pipe_block tasks b ->
      (succeeded h b <-> ~ bad b /\ ~ doomed tasks ord ordt d bad b) /\
      (perm_failed (dg_max_retries d) h b <-> bad b /\ ~ doomed tasks ord ordt d bad b) /\
      (orphan (dg_up ord ordt d) (dg_max_retries d) h b <-> doomed tasks ord ordt d bad b).
Proof.
  intros tasks ord ordt d s0 fuel chk proc pick bad PO HO HOt E0 CL IV NL FO FW PR NT.
  destruct (C28_no_skips_partial tasks ord ordt d s0 fuel chk proc pick PO HO HOt E0 CL IV NL FO) as [N H]; auto.
  { intros h pb. destruct (PR h pb) as [st [K _]]. eauto. }
  { destruct FW as [FW|FW]; [left; auto|right]. exists bad. split; auto. intros h pb E.
    destruct (PR h pb) as [st [K1 K2]]. apply K2. rewrite E in K1. injection K1 as <-. reflexivity. }
  exists N. intros n L. destruct (H n L) as [y [Ey [Ry Sy]]]. exists y. cbv zeta. split; auto.
  apply (C51_outcome_partial tasks ord ordt d s0 fuel (ss_h y) (ss_s y) bad); auto.
  assert (C : forall e, In e (ss_h y) -> caused chk proc e).
  { unfold serial_pipe, serial_run in Ey. destruct (serial_loop _ _ _ _ _ _ _ _ _ _) as [x|] eqn:El; [|discriminate].
    cbn [bind] in Ey. injection Ey as <-. cbn [ss_h]. intros e He.
    destruct (loop_caused _ _ _ _ _ _ _ _ _ _ _ El e He) as [[]|K]. exact K. }
  split.
  - intros b [F _]. apply count_pos in F. destruct F as [e [He Pe]]. destruct e as [|?|?|pb]; try discriminate.
    apply andb_prop in Pe. destruct Pe as [P1 P2]. apply is_block_eq in P1.
    destruct (C _ He) as [h [pb0 [st [K1 [K2 K3]]]]]. destruct (PR h pb0) as [st' [K4 K5]].
    rewrite K1 in K4. injection K4 as <-. rewrite <- P1, <- K2. apply K5. rewrite K3 in P2.
    destruct st; try discriminate P2; reflexivity.
  - intros b [S|S]; specialize (C _ S); cbn in C.
    + destruct C as [h [k C]]. exfalso. apply (NT _ _ _ C).
    + destruct C as [h [pb0 [st [K1 [K2 K3]]]]]. destruct (PR h pb0) as [st' [K4 K5]].
      rewrite K1 in K4. injection K4 as <-. rewrite <- K2. intros B. apply K5 in B. subst st. discriminate.
Qed.
Print Assumptions C51_serial_partial.

(* The distributed server, once it has stopped, and the serial server agree. *)
Theorem C51_servers_agree_partial : forall tasks ord ordt d s0 fuel bad init ins y ord' ordt' fuel' chk proc pick n z,
  server_run_to tasks ord ordt d s0 fuel init false ins y -> sv_stop y = true ->
  is_order ord' -> is_order ordt' -> fuel_ok tasks fuel' ->
  serial_pipe tasks ord' ordt' d fuel' chk proc pick n s0 = Ok z -> all_settled tasks ord' ordt' d (ss_h z) ->
  apart_failures tasks ord ordt d (hist (sv_tr y)) ->
  agrees bad (dg_max_retries d) (hist (sv_tr y)) -> agrees bad (dg_max_retries d) (ss_h z) ->
  forall t, let a := s_st (sv_s y) t in let b := s_st (ss_s z) t in
    ts_total a = ts_total b /\ ts_completed a = ts_completed b /\ ts_failed a = ts_failed b /\ ts_orphaned a = ts_orphaned b.
Proof.
  intros tasks ord ordt d s0 fuel bad init ins y ord' ordt' fuel' chk proc pick n z RY ST HO' HOt' FO' EZ AZ FW AGY AGZ t.
  pose proof (a_pipe _ _ _ _ _ _ _ _ _ _ RY) as PY.
  pose proof (serial_is_run _ _ _ _ _ _ _ _ _ _ _ (sr_ok _ _ _ _ _ _ _ _ _ _ RY) HO' HOt' (sr_init _ _ _ _ _ _ _ _ _ _ RY) EZ) as PZ.
  assert (AY : all_settled tasks ord ordt d (hist (sv_tr y))).
  { intros b Hb. eapply C35_stops_when_settled_partial; eauto. }
  destruct (C51_order_irrelevant_partial tasks bad d s0 _ _ _ _ _ _ _ _ _ _ PY (sr_inverse _ _ _ _ _ _ _ _ _ _ RY)
    (sr_fuel _ _ _ _ _ _ _ _ _ _ RY) AGY AY PZ FO' AGZ AZ) as [_ [C O]].
  destruct (C t) as [C1 [C2 C3]]. destruct (O FW t) as [C4 _]. cbv zeta. auto.
Qed.
Print Assumptions C51_servers_agree_partial.

(* ---- example: ex_u has blocks 0..3 in two levels; block 3 always fails, so block 2, which depends on it, is an orphan ---- *)
Definition bad3 (b : block) : Prop := b_num b = 3.
Definition fail3 : history -> pyblock -> res status := fun _ pb => Ok (if b_num (pb_block pb) =? 3 then FAILED else SUCCESS).
Example outcome_example : exists d s0, sched_init [ex_u] = Ok (d, s0) /\
  exists N, forall n, (N <= n)%nat -> exists y b3 b2,
    serial_pipe [ex_u] idl idl d 100 (fun _ => no_check) fail3 (fun _ => first) n s0 = Ok y /\
    pipe_block [ex_u] b3 /\ bid b3 = (1%nat, 3) /\ perm_failed (dg_max_retries d) (ss_h y) b3 /\
    pipe_block [ex_u] b2 /\ bid b2 = (1%nat, 2) /\ orphan (dg_up idl idl d) (dg_max_retries d) (ss_h y) b2.
Proof.
  assert (PO : pipe_ok [ex_u]) by pipe_ok_tac.
  destruct (run_ce [ex_u] 100 []
    (fun d h s => Nat.leb (length (pblocks d) * (length (pblocks d) + 1) + length (pblocks d) + 1) 100 &&
       with_id d (1%nat, 3) (fun b3 => match dg_up idl idl d b3 with [] => true | _ => false end &&
         with_id d (1%nat, 2) (fun b2 => mem_b b3 (dg_up idl idl d b2)))) PO) as [d [s0 [h [s [R X]]]]].
  { vm_compute. reflexivity. }
  apply andb_prop in X. destruct X as [X1 X]. apply with_id_ok in X. destruct X as [b3 [V3 [E3 X]]].
  apply andb_prop in X. destruct X as [X2 X]. apply with_id_ok in X. destruct X as [b2 [V2 [E2 X]]]. apply mem_b_true in X.
  pose proof (run_in _ _ _ _ _ _ _ _ R) as RI. pose proof (pr_init _ _ _ _ _ _ _ _ R) as E0.
  assert (FO : fuel_ok [ex_u] 100).
  { intros l N Hl. apply Nat.leb_le in X1.
    assert (length l <= length (pblocks d))%nat by (apply NoDup_incl_length; auto; intros y Hy; apply RI; auto).
    unfold enough. nia. }
  assert (NU : forall t, In t [ex_u] -> t_ups t = []) by (intros t [<-|[]]; reflexivity).
  destruct (independent_tasks_ok _ _ _ _ _ _ _ _ R NU) as [IV NL].
  assert (FW : few_upstream [ex_u] idl idl d).
  { apply (C21_context_in_one_dimension ex_u idl idl d s0 100 h s 0 eq_refl R). intros _ i Hi N. cbn in Hi. lia. }
  exists d, s0. split; auto.
  destruct (C51_serial_partial [ex_u] idl idl d s0 100 (fun _ => no_check) fail3 (fun _ => first) bad3 PO idl_order idl_order E0) as [N H]; auto.
  { intros x [t [Ht Hr]]. apply requires_inv in Hr. destruct Hr as [<-|[u [Hu _]]]; auto. rewrite (NU t Ht) in Hu. destruct Hu. }
  { intros h' pb. unfold fail3, bad3. destruct (Z.eqb_spec (b_num (pb_block pb)) 3); eexists; (split; [reflexivity|]); split; congruence. }
  { discriminate. }
  exists N. intros n L. destruct (H n L) as [y [Ey Hy]]. exists y, b3, b2. split; auto.
  apply RI in V2, V3. assert (B3 : bad3 b3) by (unfold bid in E3; injection E3 as _ E3; exact E3).
  split; auto. split; auto. split.
  - apply (Hy b3 V3). split; auto. intros [a [Ha [Ba A]]]. destruct (dg_up idl idl d b3) eqn:U; [|discriminate].
    inversion A as [c A1|c c' A1 A2]; subst; [rewrite U in A1; destruct A1|rewrite U in A2; destruct A2].
  - split; auto. split; auto. apply (Hy b2 V2). exists b3. split; auto. split; auto. apply anc_one. exact X.
Qed.
Print Assumptions outcome_example.

(* The number of orphans is not determined where C21 fails: two complete runs of a task with 16 blocks,
   (4,1) and (4,3) failing in both, in different order.  One ends with 4 orphans counted and the task
   done, the other with 5 and a task that is never done. *)
Definition one_order : list call := ce_twice ++ acq 1 2 ++ rel 1 SUCCESS [sq 1 1; sq 1 3].
Definition other_order : list call :=
  acq 1 4 ++ rel 1 SUCCESS [sq 2 2; sq 2 4; sq 4 2; sq 4 4] ++
  acq 1 4 ++ rel 1 FAILED [sq 4 1; sq 4 3] ++ rel 1 SUCCESS [sq 2 3; sq 2 1] ++
  acq 1 4 ++ rel 1 SUCCESS [sq 1 2; sq 1 4] ++ acq 1 2 ++ rel 1 SUCCESS [sq 1 1; sq 1 3].
Definition bad_41_43 (b : block) : Prop := b_num b = sq 4 1 \/ b_num b = sq 4 3.
Lemma after_orphan maxr d h F : (forall a, In a F -> perm_failed maxr h a) -> forall n C,
  (forall c, In c C -> orphan (dg_up idl idl d) maxr h c) ->
  forall b, In b (after n d F C) -> orphan (dg_up idl idl d) maxr h b.
Proof.
  intros HF. induction n as [|n IH]; intros C HC b; cbn [after]; auto. apply IH.
  intros c Hc. apply filter_In in Hc. destruct Hc as [_ Hc]. apply existsb_exists in Hc. destruct Hc as [a [Ha Hc]].
  apply Bool.orb_true_iff in Hc. rewrite !mem_b_true in Hc. destruct Hc as [Hc|Hc].
  - exists a. split; auto. apply anc_one, Ha.
  - apply HC in Hc. destruct Hc as [x [Fx Ax]]. exists x. split; auto. apply anc_more with a; auto.
Qed.
Definition is_41_43 (b : block) : bool := Z.eqb (b_num b) (sq 4 1) || Z.eqb (b_num b) (sq 4 3).
Definition complete_b (d : dgraph) (h : history) : bool :=
  let F := failed_in h in
  forallb (perm_b d h) F && forallb is_41_43 F &&
  forallb (fun b => succ_b h b || perm_b d h b || mem_b b (after 4 d F [])) (pblocks d) &&
  forallb (fun e => match e with EvSkip b | EvRel (PB b SUCCESS) => negb (is_41_43 b) | _ => true end) h.
Lemma complete_ok d s0 h s : pipe_run [ce_sq] idl idl d s0 400 h s -> complete_b d h = true ->
  all_settled [ce_sq] idl idl d h /\ agrees bad_41_43 (dg_max_retries d) h.
Proof.
  intros R C. unfold complete_b in C. cbv zeta in C. apply andb_prop in C. destruct C as [C C4]. apply andb_prop in C.
  destruct C as [C C3]. apply andb_prop in C. destruct C as [C1 C2].
  rewrite forallb_forall in C1, C2, C3, C4. pose proof (run_in _ _ _ _ _ _ _ _ R) as RI. split; [|split].
  - intros b Hb. apply RI in Hb. apply C3 in Hb. rewrite !Bool.orb_true_iff, succ_b_true, perm_b_true, mem_b_true in Hb.
    destruct Hb as [[S|F]|A]; [left; auto|right; left; auto|right; right].
    refine (after_orphan _ _ _ (failed_in h) _ 4 [] _ b A); [intros a Ha; apply perm_b_true, C1, Ha|intros c []].
  - intros b F. apply failed_in_ok in F. apply C2 in F. unfold is_41_43 in F. apply Bool.orb_true_iff in F.
    rewrite !Z.eqb_eq in F. exact F.
  - intros b S B.
    assert (B' : is_41_43 b = true) by (apply Bool.orb_true_iff; rewrite !Z.eqb_eq; exact B).
    destruct S as [S|S]; apply C4 in S; cbn in S; rewrite B' in S; discriminate.
Qed.
Theorem C51_orphan_count_refuted : exists d s0 h s h' s',
  pipe_run [ce_sq] idl idl d s0 400 h s /\ pipe_run [ce_sq] idl idl d s0 400 h' s' /\
  all_settled [ce_sq] idl idl d h /\ agrees bad_41_43 (dg_max_retries d) h /\
  all_settled [ce_sq] idl idl d h' /\ agrees bad_41_43 (dg_max_retries d) h' /\
  ts_orphaned (s_st s 1) = 5 /\ ts_is_done (s_st s 1) = false /\
  ts_orphaned (s_st s' 1) = 4 /\ ts_is_done (s_st s' 1) = true.
Proof.
  destruct (run_ce [ce_sq] 400 one_order
    (fun d h s => complete_b d h && (ts_orphaned (s_st s 1) =? 5) && negb (ts_is_done (s_st s 1))) ce_sq_ok) as [d [s0 [h [s [R X]]]]].
  { vm_compute. reflexivity. }
  destruct (run_ce [ce_sq] 400 other_order
    (fun d h s => complete_b d h && (ts_orphaned (s_st s 1) =? 4) && ts_is_done (s_st s 1)) ce_sq_ok) as [d' [s0' [h' [s' [R' X']]]]].
  { vm_compute. reflexivity. }
  pose proof (pr_init _ _ _ _ _ _ _ _ R) as E. pose proof (pr_init _ _ _ _ _ _ _ _ R') as E'. rewrite E in E'. injection E' as <- <-.
  apply andb_prop in X, X'. destruct X as [X X3], X' as [X' X3']. apply andb_prop in X, X'. destruct X as [X1 X2], X' as [X1' X2'].
  apply Z.eqb_eq in X2, X2'. apply Bool.negb_true_iff in X3.
  destruct (complete_ok _ _ _ _ R X1) as [A1 A2]. destruct (complete_ok _ _ _ _ R' X1') as [B1 B2].
  exists d, s0, h, s, h', s'. repeat (split; auto).
Qed.
Print Assumptions C51_orphan_count_refuted.

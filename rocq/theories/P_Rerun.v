(* C87: running the tasks again until no block fails, as in the tutorial. *)
From Coq Require Import Arith Lia.
From Verif Require Import SchedProps SchedExec DGFacts2 PipeRun P_SchedCE P_Sched SerialFacts P_Conv P_Serial P_SerialAny P_Outcome P_Resume.
From Verif Require Import Serial P_Serial.
Open Scope Z_scope.

(* examples/tutorial.py:146-163.  Every turn of the loop makes the tasks anew and runs them with the serial server; the loop
   ends when the failed_count of every task is 0 (the tutorial has one task).  What the check function and the process function
   do may depend on all earlier runs, here as the histories [hs], newest first (the tutorial uses files).  The tasks of all
   turns are equal, so are the dependency graph and the first state of the scheduler. *)
Fixpoint until_no_failure (tasks : list task) ord ordt (d : dgraph) (fuel : nat) (s0 : sched)
    (chk : list history -> history -> nat -> block -> check_result) (proc : list history -> history -> pyblock -> res status)
    (pick : history -> nat -> list block -> nat) (n m : nat) (hs : list history) : res (list history) :=
  match m with
  | O => Err OutOfFuel
  | S m =>
      y <- serial_pipe tasks ord ordt d fuel (chk hs) (proc hs) pick n s0 ;;
      if forallb (fun t => ts_failed (s_st (ss_s y) (t_id t)) =? 0) tasks then Ok (ss_h y :: hs)
      else until_no_failure tasks ord ordt d fuel s0 chk proc pick n m (ss_h y :: hs)
  end.

(* the check function says True of the blocks done in an earlier run, and of no others but those done in this run *)
Definition remembers (chk : list history -> history -> nat -> block -> check_result) : Prop :=
  forall hs h k b, (done_before hs b -> chk hs h k b = CheckTrue) /\ (chk hs h k b = CheckTrue -> done_before hs b \/ succeeded h b).

(* ---- which blocks a run skips ---- *)
Section Skips.
  Variables (up down : block -> list block) (maxr : nat -> Z) (fuel : nat) (all_tasks : list nat).
  Variable chk : history -> nat -> block -> check_result.
  Variable proc : history -> pyblock -> res status.
  Variable pick : history -> nat -> list block -> nat.
  Variable D : block -> Prop.
  Hypothesis CT : forall h k b, chk h k b = CheckTrue -> D b \/ succeeded h b.
  Definition skips_known (h : history) : Prop := forall l b h', h = l ++ EvSkip b :: h' -> D b \/ succeeded h' b.

  Lemma known_cons e h : (forall b, e = EvSkip b -> D b \/ succeeded h b) -> skips_known h -> skips_known (e :: h).
  Proof.
    intros He Hh l b h' E. destruct l as [|x l]; cbn [app] in E; injection E as E1 E2.
    - subst. auto.
    - eapply Hh; eauto.
  Qed.
  Lemma known_skips sk h : (forall b, In b sk -> D b \/ succeeded h b) -> skips_known h -> skips_known (map EvSkip sk ++ h).
  Proof.
    induction sk as [|b sk IH]; intros Hs Hh; auto. cbn [map app]. apply known_cons.
    - intros c E. injection E as <-. destruct (Hs b (or_introl eq_refl)) as [H|H]; auto. right.
      destruct H as [H|H]; [left|right]; apply in_or_app; auto.
    - apply IH; auto. intros c Hc. apply Hs. right. auto.
  Qed.
  Lemma acquire_known h s t s' r sk : acquire_block up down maxr fuel (chk h) s t = Ok (s', r, sk) ->
    forall b, In b sk -> D b \/ succeeded h b.
  Proof.
    intros E b Hb. destruct (C25_skip_iff_check_true _ _ _ _ _ _ _ _ _ _ E) as [C _].
    destruct (In_nth_error _ _ Hb) as [i Hi]. eapply CT, C, Hi.
  Qed.
  Lemma first_known ts : forall h s s' r h1, first_block up down maxr fuel chk ts h s = Ok (s', r, h1) -> skips_known h -> skips_known h1.
  Proof.
    induction ts as [|t ts IH]; intros h s s' r h1; cbn [first_block].
    - intros E. injection E as <- <- <-. auto.
    - destruct (acquire_block up down maxr fuel (chk h) s t) as [[[s1 b] sk]|] eqn:Ea; [|discriminate]. cbn [bind].
      assert (K : skips_known h -> skips_known (rev (map EvSkip sk) ++ h)).
      { intros Hh. rewrite <- map_rev. apply known_skips; auto. intros c Hc. apply in_rev in Hc. eapply acquire_known; eauto. }
      destruct b as [pb|]; intros E Hh.
      + injection E as <- <- <-. apply known_cons; auto. intros c Ec. discriminate.
      + apply (IH _ _ _ _ _ E). apply known_cons; auto. intros c Ec. discriminate.
  Qed.
  Lemma block_known x s1 h1 pb y : serial_block up down maxr fuel proc pick x s1 h1 pb = Ok y -> skips_known h1 -> skips_known (ss_h y).
  Proof.
    unfold serial_block. destruct (mem _ _ _); [|discriminate]. destruct (proc h1 pb) as [st0|]; [|discriminate]. cbn [bind].
    destruct (release_block _ _ _ _ _ _ _) as [s2|]; [|discriminate]. cbn [bind].
    destruct (ts_is_done _); [destruct (sremove _ _ _); [|discriminate]; cbn [bind]|];
      intros E Hh; injection E as <-; apply known_cons; auto; intros c Ec; discriminate.
  Qed.
  Lemma loop_known n : forall x y, serial_loop up down maxr fuel all_tasks chk proc pick n x = Ok y -> skips_known (ss_h x) -> skips_known (ss_h y).
  Proof.
    induction n as [|n IH]; intros x y; cbn [serial_loop]; [discriminate|]. destruct (set_eqb _ _); [intros E; injection E as <-; auto|].
    destruct (first_block _ _ _ _ _ _ _ _) as [[[s1 r] h1]|] eqn:Ef; [|discriminate]. cbn [bind]. intros E Hx.
    pose proof (first_known _ _ _ _ _ _ Ef Hx) as H1. destruct r as [pb|]; [|injection E as <-; exact H1].
    destruct (serial_block _ _ _ _ _ _ _ _ _ _) as [z|] eqn:Ez; [|discriminate]. cbn [bind] in E.
    pose proof (block_known _ _ _ _ _ Ez H1) as H2. destruct (ss_funcs z); [injection E as <-; exact H2|]. eapply IH; eauto.
  Qed.
  (* what fails was reported so by the process function *)
  Definition fails_real (h : history) : Prop := forall b, In (EvRel (PB b FAILED)) h -> exists h' st, proc h' (PB b st) = Ok FAILED.
  Lemma first_real ts : forall h s s' r h1, first_block up down maxr fuel chk ts h s = Ok (s', r, h1) -> fails_real h -> fails_real h1.
  Proof.
    induction ts as [|t ts IH]; intros h s s' r h1; cbn [first_block].
    - intros E. injection E as <- <- <-. auto.
    - destruct (acquire_block up down maxr fuel (chk h) s t) as [[[s1 b] sk]|] eqn:Ea; [|discriminate]. cbn [bind].
      assert (K : forall e, (forall pb, e <> EvRel pb) -> fails_real h -> fails_real (e :: rev (map EvSkip sk) ++ h)).
      { intros e Ne Hh c [Hc|Hc]; [destruct (Ne _ Hc)|]. apply in_app_or in Hc. destruct Hc as [Hc|Hc]; auto.
        apply in_rev, in_map_iff in Hc. destruct Hc as [? [Hc _]]. discriminate. }
      destruct b as [pb|]; intros E Hh.
      + injection E as <- <- <-. apply K; auto. discriminate.
      + apply (IH _ _ _ _ _ E). apply K; auto. discriminate.
  Qed.
  Lemma block_real x s1 h1 pb y : serial_block up down maxr fuel proc pick x s1 h1 pb = Ok y -> fails_real h1 -> fails_real (ss_h y).
  Proof.
    unfold serial_block. destruct (mem _ _ _); [|discriminate]. destruct (proc h1 pb) as [st0|] eqn:Ep; [|discriminate]. cbn [bind].
    destruct (release_block _ _ _ _ _ _ _) as [s2|]; [|discriminate]. cbn [bind].
    assert (K : fails_real h1 -> fails_real (EvRel (PB (pb_block pb) (if status_eqb st0 FAILED then FAILED else SUCCESS)) :: h1)).
    { intros Hh c [Hc|Hc]; auto. injection Hc as Ec Es. exists h1, (pb_status pb). destruct pb as [b st]. cbn in *. subst c.
      rewrite Ep. destruct st0; cbn in Es; congruence. }
    destruct (ts_is_done _); [destruct (sremove _ _ _); [|discriminate]; cbn [bind]|];
      intros E Hh; injection E as <-; apply K; auto.
  Qed.
  Lemma loop_real n : forall x y, serial_loop up down maxr fuel all_tasks chk proc pick n x = Ok y -> fails_real (ss_h x) -> fails_real (ss_h y).
  Proof.
    induction n as [|n IH]; intros x y; cbn [serial_loop]; [discriminate|]. destruct (set_eqb _ _); [intros E; injection E as <-; auto|].
    destruct (first_block _ _ _ _ _ _ _ _) as [[[s1 r] h1]|] eqn:Ef; [|discriminate]. cbn [bind]. intros E Hx.
    pose proof (first_real _ _ _ _ _ _ Ef Hx) as H1. destruct r as [pb|]; [|injection E as <-; exact H1].
    destruct (serial_block _ _ _ _ _ _ _ _ _ _) as [z|] eqn:Ez; [|discriminate]. cbn [bind] in E.
    pose proof (block_real _ _ _ _ _ Ez H1) as H2. destruct (ss_funcs z); [injection E as <-; exact H2|]. eapply IH; eauto.
  Qed.
End Skips.

Section Loop.
  Variables (tasks : list task) (ord : list block -> list block) (ordt : list nat -> list nat) (d : dgraph) (s0 : sched) (fuel : nat).
  Variables (chk : list history -> history -> nat -> block -> check_result) (proc : list history -> history -> pyblock -> res status).
  Variable pick : history -> nat -> list block -> nat.
  Hypothesis PO : pipe_ok tasks.
  Hypothesis HO : is_order ord.
  Hypothesis HOt : is_order ordt.
  Hypothesis E0 : sched_init tasks = Ok (d, s0).
  Hypothesis NU : forall t, In t tasks -> t_ups t = [].
  Hypothesis FO : fuel_ok tasks fuel.
  Hypothesis RM : remembers chk.
  Local Notation maxr := (dg_max_retries d).
  Lemma R0 : pipe_run tasks ord ordt d s0 fuel [] s0.
  Proof. constructor; auto. constructor. Qed.
  Lemma lp_closed : closed_tasks tasks.
  Proof.
    intros x [t [Ht Hr]]. apply requires_inv in Hr. destruct Hr as [<-|[u [Hu _]]]; auto. rewrite (NU t Ht) in Hu. destruct Hu.
  Qed.
  Lemma lp_cross : no_cross (pblocks d) (dg_up ord ordt d).
  Proof.
    intros a b Hb Ha. apply (run_in _ _ _ _ _ _ _ _ R0) in Hb. destruct Hb as [t [g [Pt [Eg Gb]]]].
    assert (Nt : t_ups t = []) by (apply NU, lp_closed, Pt).
    pose proof (run_dk _ _ _ _ _ _ _ _ R0) as DK.
    destruct (up_spec tasks PO d DK ord ordt HO HOt t g b Pt Eg Gb) as [us [Eu [_ [_ Hu]]]].
    apply Hu in Ha. destruct Ha as [Ha|[u [_ [Hn _]]]]; [|rewrite Nt in Hn; destruct Hn].
    destruct (up_gen _ _ _ (pipe_built tasks PO t g Pt Eg) ord HO b Gb) as [us' [Eu' [_ G]]].
    rewrite Eu' in Eu. injection Eu as ->.
    rewrite (gen_id tasks PO t g b), (gen_id tasks PO t g a); auto.
  Qed.
  Lemma lp_ok : inverse tasks ord ordt d /\ no_lonely tasks ord ordt d.
  Proof. exact (independent_tasks_ok _ _ _ _ _ _ _ _ R0 NU). Qed.

  (* one turn *)
  Lemma turn hs n y : serial_pipe tasks ord ordt d fuel (chk hs) (proc hs) pick n s0 = Ok y ->
    pipe_run tasks ord ordt d s0 fuel (ss_h y) (ss_s y) /\ respects (done_before hs) (done_before hs) (ss_h y) /\ fails_real (proc hs) (ss_h y).
  Proof.
    intros Ey. pose proof (serial_is_run _ _ _ _ _ _ _ _ _ _ _ PO HO HOt E0 Ey) as R. split; auto. split.
    - split.
      + apply (C70_serial tasks ord ordt d fuel (chk hs) (proc hs) pick n s0 y (done_before hs) (fun _ => True)); auto.
        intros h k b. split; auto. apply RM.
      + intros b Hb. apply in_split in Hb. destruct Hb as [l [h' E]].
        assert (SK : skips_known (done_before hs) (ss_h y)).
        { unfold serial_pipe, serial_run in Ey. destruct (serial_loop _ _ _ _ _ _ _ _ _ _) as [x|] eqn:El; [|discriminate].
          cbn [bind] in Ey. injection Ey as <-. cbn [ss_h]. eapply loop_known; [|exact El|].
          - intros h k c. apply RM.
          - intros l0 c h0 Ec. destruct l0; discriminate. }
        destruct (SK _ _ _ E) as [K|K]; auto. exfalso. destruct lp_ok as [IV _].
        pose proof (ok_at _ _ _ _ _ _ (run_good _ _ _ _ _ _ _ _ R IV) (run_enough _ _ _ _ _ _ _ _ R FO)
          _ (run_fresh _ _ _ _ _ _ _ _ R) _ _ (pr_reach _ _ _ _ _ _ _ _ R) _ _ _ E) as O. cbn in O. unfold ok_take in O. tauto.
    - unfold serial_pipe, serial_run in Ey. destruct (serial_loop _ _ _ _ _ _ _ _ _ _) as [x|] eqn:El; [|discriminate].
      cbn [bind] in Ey. injection Ey as <-. cbn [ss_h]. eapply loop_real; [exact El|]. intros c [].
  Qed.

  Definition all_zero (s : sched) : bool := forallb (fun t => ts_failed (s_st s (t_id t)) =? 0) tasks.
  Lemma zero_none h s : pipe_run tasks ord ordt d s0 fuel h s -> all_zero s = true -> forall b, ~ perm_failed maxr h b.
  Proof.
    intros R Z b P. destruct lp_ok as [IV _]. unfold all_zero in Z. rewrite forallb_forall in Z.
    pose proof (perm_pipe _ _ _ _ _ _ _ _ R IV FO b P) as Hb.
    destruct Hb as [t [g [Pt [Eg Gb]]]]. pose proof (gen_id tasks PO t g b Pt Eg Gb) as Ei.
    destruct (C22_counters_partial _ _ _ _ _ _ _ _ R IV FO (t_id t)) as [_ [_ [[l [_ [Hl Ll]]] _]]].
    specialize (Z t (lp_closed t Pt)). apply Z.eqb_eq in Z. assert (In b l) by (apply Hl; auto).
    destruct l; [contradiction|]. cbn in Ll. lia.
  Qed.
  Lemma pos_some h s : pipe_run tasks ord ordt d s0 fuel h s -> all_zero s = false -> exists b, pipe_block tasks b /\ perm_failed maxr h b.
  Proof.
    intros R Z. destruct lp_ok as [IV _]. unfold all_zero in Z.
    assert (X : exists t, In t tasks /\ ts_failed (s_st s (t_id t)) <> 0).
    { clear -Z. induction tasks as [|t l IH]; [discriminate|]. cbn [forallb] in Z. destruct (ts_failed (s_st s (t_id t)) =? 0) eqn:E.
      - destruct (IH Z) as [u [Hu N]]. exists u. split; [right|]; auto.
      - exists t. split; [left; auto|]. apply Z.eqb_neq, E. }
    destruct X as [t [_ N]]. destruct (C22_counters_partial _ _ _ _ _ _ _ _ R IV FO (t_id t)) as [_ [_ [[l [_ [Hl Ll]]] _]]].
    destruct l as [|b l]; [cbn in Ll; lia|]. destruct (proj1 (Hl b) (or_introl eq_refl)) as [P _].
    exists b. split; auto. exact (perm_pipe _ _ _ _ _ _ _ _ R IV FO b P).
  Qed.
  (* how often b failed for good *)
  Definition lost (hs : list history) (b : block) : Z :=
    fold_right (fun h k => (if (0 <? n_failed h b) && (maxr (b_task b) <? n_failed h b) then 1 else 0) + k) 0 hs.
  Lemma lost_perm h hs b : perm_failed maxr h b -> lost (h :: hs) b = 1 + lost hs b.
  Proof. intros [P Q]. unfold lost. cbn [fold_right]. apply Z.ltb_lt in P, Q. rewrite P, Q. reflexivity. Qed.
  Lemma lost_not h hs b : ~ perm_failed maxr h b -> lost (h :: hs) b = lost hs b.
  Proof.
    intros P. unfold lost. cbn [fold_right]. destruct ((0 <? n_failed h b) && _) eqn:E; [|lia]. exfalso. apply P.
    apply andb_prop in E. destruct E as [E1 E2]. apply Z.ltb_lt in E1, E2. split; auto.
  Qed.
  Lemma perm_dec h b : perm_failed maxr h b \/ ~ perm_failed maxr h b.
  Proof. unfold perm_failed. destruct (Z_lt_dec 0 (n_failed h b)), (Z_lt_dec (maxr (b_task b)) (n_failed h b)); tauto. Qed.

  Definition ran (hs : list history) : Prop := resumed tasks d s0 hs.
  Definition each_lost (hs : list history) : Prop := forall h, In h hs -> exists b, pipe_block tasks b /\ perm_failed maxr h b.
  Lemma loop_shape n m : forall hs0 hs, ran hs0 -> each_lost hs0 ->
    until_no_failure tasks ord ordt d fuel s0 chk proc pick n m hs0 = Ok hs ->
    exists h s rest, hs = h :: rest /\ ran hs /\ each_lost rest /\ pipe_run tasks ord ordt d s0 fuel h s /\ all_zero s = true /\
      exists y, serial_pipe tasks ord ordt d fuel (chk rest) (proc rest) pick n s0 = Ok y /\ ss_h y = h.
  Proof.
    induction m as [|m IH]; intros hs0 hs RA EL; cbn [until_no_failure]; [discriminate|].
    destruct (serial_pipe _ _ _ _ _ _ _ _ _ _) as [y|] eqn:Ey; [|discriminate]. cbn [bind].
    destruct (turn _ _ _ Ey) as [R [RS _]]. destruct lp_ok as [IV _].
    assert (RA' : ran (ss_h y :: hs0)) by (eapply resumed_run; eauto).
    fold (all_zero (ss_s y)). destruct (all_zero (ss_s y)) eqn:Z.
    - intros E. injection E as <-. exists (ss_h y), (ss_s y), hs0. do 5 (split; auto). exists y. auto.
    - intros E. apply (IH (ss_h y :: hs0)); auto. intros h [<-|H]; auto. exact (pos_some _ _ R Z).
  Qed.
  (* ends *)
  Variable k : Z.
  Hypothesis K0 : 0 <= k.
  Hypothesis LK : forall hs h pb, proc hs h pb = Ok FAILED -> lost hs (pb_block pb) < k.
  Definition total (hs : list history) : Z := fold_right (fun b n => lost hs b + n) 0 (pblocks d).
  Lemma total_le hs : (forall b, lost hs b <= k) -> total hs <= k * Z.of_nat (length (pblocks d)).
  Proof.
    intros H. unfold total. induction (pblocks d) as [|b l IH]; [cbn; lia|]. cbn [fold_right length]. specialize (H b). lia.
  Qed.
  Lemma total_more h hs b : In b (pblocks d) -> perm_failed maxr h b -> total hs + 1 <= total (h :: hs).
  Proof.
    intros Hb P. unfold total.
    assert (G : forall c, lost hs c <= lost (h :: hs) c).
    { intros c. destruct (perm_dec h c) as [Q|Q]; [rewrite lost_perm; auto; lia|rewrite lost_not; auto; lia]. }
    assert (GS : forall l, fold_right (fun b n => lost hs b + n) 0 l <= fold_right (fun b n => lost (h :: hs) b + n) 0 l).
    { induction l as [|c l IH]; [cbn; lia|]. cbn [fold_right]. specialize (G c). lia. }
    induction (pblocks d) as [|c l IH]; [destruct Hb|]. cbn [fold_right]. destruct Hb as [<-|Hb].
    - rewrite (lost_perm h hs c P). specialize (GS l). lia.
    - specialize (IH Hb). specialize (G c). lia.
  Qed.
  Variable N : nat.
  Hypothesis TOT : forall hs, exists y, serial_pipe tasks ord ordt d fuel (chk hs) (proc hs) pick N s0 = Ok y.
  Lemma loop_ends m : forall hs0, (forall b, lost hs0 b <= k) -> Z.of_nat (length hs0) <= total hs0 ->
    k * Z.of_nat (length (pblocks d)) < Z.of_nat m + total hs0 ->
    exists hs, until_no_failure tasks ord ordt d fuel s0 chk proc pick N m hs0 = Ok hs /\
      Z.of_nat (length hs) <= 1 + k * Z.of_nat (length (pblocks d)).
  Proof.
    induction m as [|m IH]; intros hs0 LB LN B; pose proof (total_le hs0 LB); [lia|].
    cbn [until_no_failure]. destruct (TOT hs0) as [y Ey]. rewrite Ey. cbn [bind]. destruct (turn _ _ _ Ey) as [R [RS FR]].
    fold (all_zero (ss_s y)). destruct (all_zero (ss_s y)) eqn:Z.
    - eexists. split; [reflexivity|]. cbn [length]. lia.
    - destruct (pos_some _ _ R Z) as [b [Hb P]]. apply (run_in _ _ _ _ _ _ _ _ R) in Hb.
      pose proof (total_more _ hs0 b Hb P). apply IH; [|cbn [length]; lia|lia].
      intros c. destruct (perm_dec (ss_h y) c) as [Q|Q]; [rewrite lost_perm; auto|rewrite lost_not; auto].
      destruct Q as [Q _]. unfold n_failed in Q. apply count_pos in Q. destruct Q as [e [He T]]. destruct e as [|?|?|[x st]]; try discriminate.
      cbn [pb_block pb_status] in T. apply andb_prop in T. destruct T as [T1 T2]. apply is_block_eq in T1. subst x.
      assert (st = FAILED) by (destruct st; try discriminate; auto). subst st.
      destruct (FR _ He) as [h' [st Ep]]. apply LK in Ep. cbn in Ep. lia.
  Qed.
End Loop.

(* C87.  Tasks that require no other: when the loop ends, every block has been done, and its process function has ended well
   exactly once over all runs; every run but the last had a block that failed for good. *)
Theorem C87_done : forall tasks ord ordt d s0 fuel chk proc pick n m hs,
  pipe_ok tasks -> is_order ord -> is_order ordt -> sched_init tasks = Ok (d, s0) ->
  (forall t, In t tasks -> t_ups t = []) -> fuel_ok tasks fuel -> remembers chk ->
  until_no_failure tasks ord ordt d fuel s0 chk proc pick n m [] = Ok hs ->
  (forall b, pipe_block tasks b -> won_total hs b = 1) /\
  exists h rest, hs = h :: rest /\ (forall b, pipe_block tasks b -> succeeded h b) /\
    forall h', In h' rest -> exists b, pipe_block tasks b /\ perm_failed (dg_max_retries d) h' b.
Proof.
  intros tasks ord ordt d s0 fuel chk proc pick n m hs PO HO HOt E0 NU FO RM E.
  destruct (loop_shape tasks ord ordt d s0 fuel chk proc pick PO HO HOt E0 NU FO RM n m [] hs (resumed_none _ _ _)) as
    [h [s [rest [-> [RA [EL [R [Z [y [Ey Hy]]]]]]]]]]; [intros ? []|exact E|].
  pose proof (zero_none tasks ord ordt d s0 fuel PO HO HOt E0 NU FO h s R Z) as NF.
  destruct (lp_ok tasks ord ordt d s0 fuel PO HO HOt E0 NU) as [IV NL].
  destruct (C28_returned_partial _ _ _ _ _ _ _ _ _ _ _ PO HO HOt E0 (lp_closed tasks NU) IV NL FO Ey) as [_ [_ S]].
  rewrite Hy in S. destruct S as [_ S]; [intros x u a b w _ _ _ Fa; destruct (NF _ Fa)|].
  specialize (S (lp_cross tasks ord ordt d s0 fuel PO HO HOt E0 NU)).
  destruct (C70_each_block_once_partial _ _ _ _ RA) as [_ W]. split; [eapply W; eauto|].
  exists h, rest. split; auto. split; auto. intros b Hb. destruct (S b Hb) as [Q|[Q|[a [Q _]]]]; auto; destruct (NF _ Q).
Qed.
Print Assumptions C87_done.

(* With enough passes the result does not depend on their number. *)
Lemma loop_more up down maxr fuel all chk proc pick n : forall x r, serial_loop up down maxr fuel all chk proc pick n x = r -> r <> Err OutOfFuel ->
  forall n', (n <= n')%nat -> serial_loop up down maxr fuel all chk proc pick n' x = r.
Proof.
  induction n as [|n IH]; intros x r; [cbn [serial_loop]; intros <- X; contradiction|]. intros E NE [|n'] L; [lia|]. revert E. cbn [serial_loop].
  destruct (set_eqb _ _); auto. destruct (first_block _ _ _ _ _ _ _ _) as [[[s1 b] h1]|]; auto. cbn [bind]. destruct b as [pb|]; auto.
  destruct (serial_block _ _ _ _ _ _ _ _ _ _) as [z|]; auto. cbn [bind]. destruct (ss_funcs z); auto. intros E. apply IH; auto. lia.
Qed.

(* If a block that failed for good in k runs no longer fails, the loop ends, after at most 1 + k * (number of blocks) runs. *)
Theorem C87_ends_partial : forall tasks ord ordt d s0 fuel chk proc pick k,
  pipe_ok tasks -> is_order ord -> is_order ordt -> sched_init tasks = Ok (d, s0) ->
  (forall t, In t tasks -> t_ups t = []) -> fuel_ok tasks fuel -> remembers chk ->
  (forall hs h pb, exists st, proc hs h pb = Ok st) ->
  few_upstream tasks ord ordt d \/
    (exists bad : block -> Prop, (forall hs h pb, proc hs h pb = Ok FAILED -> bad (pb_block pb)) /\ spread tasks ord ordt d bad) ->
  0 <= k -> (forall hs h pb, proc hs h pb = Ok FAILED -> lost d hs (pb_block pb) < k) ->
  exists N M, forall n m, (N <= n)%nat -> (M <= m)%nat ->
  exists hs, until_no_failure tasks ord ordt d fuel s0 chk proc pick n m [] = Ok hs /\
    forall l, NoDup l -> (forall b, In b l <-> pipe_block tasks b) -> Z.of_nat (length hs) <= 1 + k * Z.of_nat (length l).
Proof.
  intros tasks ord ordt d s0 fuel chk proc pick k PO HO HOt E0 NU FO RM PR FC K0 LK.
  destruct (lp_ok tasks ord ordt d s0 fuel PO HO HOt E0 NU) as [IV NL]. pose proof (lp_closed tasks NU) as CL.
  exists (S (Z.to_nat (hand_bound (pblocks d) (dg_max_retries d)))), (S (Z.to_nat (k * Z.of_nat (length (pblocks d))))). intros n m Ln Lm.
  destruct (loop_ends tasks ord ordt d s0 fuel chk proc pick PO HO HOt E0 NU FO RM k LK n) with (m := m) (hs0 := @nil history) as [hs [E L]].
  - intros hs. destruct (C28_serial_partial tasks ord ordt d s0 fuel (chk hs) (proc hs) pick PO HO HOt E0 CL IV NL FO (PR hs)) as [N H].
    { destruct FC as [F|[bad [F S]]]; auto. right. exists bad. eauto. }
    pose proof (serial_setup tasks ord ordt d s0 fuel n (chk hs) (proc hs) pick PO HO HOt E0 CL IV NL FO) as B.
    destruct (H (Nat.max N n) (Nat.le_max_l _ _)) as [y [Ey _]]. exists y. rewrite <- Ey. unfold serial_pipe, serial_run in *. f_equal.
    destruct (serial_loop _ _ _ _ _ _ _ _ n _) as [x|e] eqn:El.
    + symmetry. eapply loop_more; [exact El|discriminate|lia].
    + symmetry. eapply loop_more; [exact El| |lia]. cbn [bind] in B. destruct B as [[_ B]|[->|[h [pb B]]]]; [lia|discriminate|].
      destruct (PR hs h pb) as [st E]. congruence.
  - intros b. cbn. lia.
  - unfold total. assert (forall l, fold_right (fun (b : block) (n : Z) => lost d [] b + n) 0 l = 0) as -> by (induction l as [|b l IH]; [reflexivity|]; cbn [fold_right]; rewrite IH; reflexivity). cbn. lia.
  - unfold total. assert (forall l, fold_right (fun (b : block) (n : Z) => lost d [] b + n) 0 l = 0) as -> by (induction l as [|b l IH]; [reflexivity|]; cbn [fold_right]; rewrite IH; reflexivity). lia.
  - exists hs. split; auto. intros l ND Hl.
    pose proof (R0 tasks ord ordt d s0 fuel PO HO HOt E0) as R. pose proof (run_in _ _ _ _ _ _ _ _ R) as RI.
    assert (LL : (length (pblocks d) <= length l)%nat); [|assert (k * Z.of_nat (length (pblocks d)) <= k * Z.of_nat (length l)) by (apply Z.mul_le_mono_nonneg_l; lia); lia].
    apply NoDup_incl_length; [|intros b Hb; apply Hl, RI, Hb]. apply (gg_nodup _ _ _ _ (run_good _ _ _ _ _ _ _ _ R IV)).
Qed.
Print Assumptions C87_ends_partial.

(* Concrete runs.  The files of the tutorial: a block is recognised when it was done in an earlier run. *)
Definition files (hs : list history) (h : history) (k : nat) (b : block) : check_result :=
  if existsb (fun h => succ_b h b) (h :: hs) then CheckTrue else CheckFalse.
Lemma files_remember : remembers files.
Proof.
  intros hs h k b. unfold files. split.
  - intros [h' [H S]]. rewrite (proj2 (existsb_exists _ _)); auto. exists h'. split; [right; auto|]. apply succ_b_true, S.
  - destruct (existsb _ _) eqn:E; [|discriminate]. intros _. apply existsb_exists in E. destruct E as [h' [[<-|H] S]]; apply succ_b_true in S; auto.
    left. exists h'. auto.
Qed.
(* the blocks [l] fail in the first k runs *)
Definition failing_first (k : nat) (l : list (nat * Z)) (hs : list history) : history -> pyblock -> res status :=
  if (length hs <? k)%nat then failing l else failing [].
Definition rerun (tasks : list task) (fuel : nat) chk proc (n m : nat) : res (dgraph * sched * list history) :=
  '(d, s0) <- sched_init tasks ;;
  hs <- until_no_failure tasks idl idl d fuel s0 chk proc (fun _ => first) n m [] ;;
  Ok (d, s0, hs).
Lemma rerun_ce tasks fuel chk proc n m (P : dgraph -> list history -> bool) : pipe_ok tasks ->
  match rerun tasks fuel chk proc n m with Ok (d, s0, hs) => P d hs | Err _ => false end = true ->
  exists d s0 hs, sched_init tasks = Ok (d, s0) /\ until_no_failure tasks idl idl d fuel s0 chk proc (fun _ => first) n m [] = Ok hs /\
    pipe_run tasks idl idl d s0 fuel [] s0 /\ P d hs = true.
Proof.
  intros PO. unfold rerun. destruct (sched_init tasks) as [[d s0]|] eqn:E; [|discriminate]. cbn [bind].
  destruct (until_no_failure _ _ _ _ _ _ _ _ _ _ _ _) as [hs|] eqn:Eh; [|discriminate]. cbn [bind]. intros H.
  exists d, s0, hs. split; auto. split; auto. split; auto. constructor; auto using @idl_order. constructor.
Qed.

(* C87 fails for tasks that require others.  One block of the second task fails in the first run.  In the second run the check
   functions recognise all blocks of the first task, the server gives up (C28_all_skipped_refuted), nothing has failed, and
   the loop ends: the block was never done. *)
Theorem C87_chain_refuted : exists d s0 hs b,
  sched_init [ex_e; ex_u] = Ok (d, s0) /\ inverse [ex_e; ex_u] idl idl d /\ no_lonely [ex_e; ex_u] idl idl d /\ remembers files /\
  until_no_failure [ex_e; ex_u] idl idl d 100 s0 files (failing_first 1 [(2%nat, 1)]) (fun _ => first) 100 10 [] = Ok hs /\
  length hs = 2%nat /\ pipe_block [ex_e; ex_u] b /\ won_total hs b = 0 /\ ~ done_before hs b.
Proof.
  destruct (rerun_ce [ex_e; ex_u] 100 files (failing_first 1 [(2%nat, 1)]) 100 10
    (fun d hs => (length hs =? 2)%nat && some_block (fun b => (won_total hs b =? 0) && negb (existsb (fun h => succ_b h b) hs)) d) ex_eu_ok)
    as [d [s0 [hs [E [Eh [R P]]]]]].
  { vm_compute. reflexivity. }
  apply andb_prop in P. destruct P as [P1 P]. apply existsb_exists in P. destruct P as [b [Hb P]]. apply andb_prop in P. destruct P as [P2 P3].
  apply Nat.eqb_eq in P1. apply Z.eqb_eq in P2. exists d, s0, hs, b. split; auto. split; [apply (run_dual _ _ _ _ _ _ _ _ R ex_eu_edges)|].
  split; [apply (inside_lonely _ _ _ _ _ _ _ _ R ex_eu_inside)|]. split; [apply files_remember|]. split; auto. split; auto.
  split; [apply (run_in _ _ _ _ _ _ _ _ R), Hb|]. split; auto. intros [h [H S]].
  assert (existsb (fun h => succ_b h b) hs = true) as X by (apply existsb_exists; exists h; split; auto; apply succ_b_true, S). rewrite X in P3. discriminate.
Qed.
Print Assumptions C87_chain_refuted.

(* Ten blocks, two of which fail in the first two runs: three runs. *)
Definition tut : task := Task 1 (Roi [0] [10]) (Roi [0] [1]) (Roi [0] [1]) false Valid 1 0 [].
Lemma tut_ok : pipe_ok [tut].
Proof. pipe_ok_tac. Qed.
Example C87_example : exists d s0 hs b,
  sched_init [tut] = Ok (d, s0) /\ (forall t, In t [tut] -> t_ups t = []) /\ fuel_ok [tut] 200 /\ remembers files /\
  few_upstream [tut] idl idl d /\ (forall hs h pb, exists st, failing_first 2 [(1%nat, 3); (1%nat, 7)] hs h pb = Ok st) /\
  (forall hs h pb, failing_first 2 [(1%nat, 3); (1%nat, 7)] hs h pb = Ok FAILED -> lost d hs (pb_block pb) < 2) /\
  until_no_failure [tut] idl idl d 200 s0 files (failing_first 2 [(1%nat, 3); (1%nat, 7)]) (fun _ => first) 100 10 [] = Ok hs /\
  map hands hs = [2; 2; 10] /\ pipe_block [tut] b /\ lost d hs b = 2 /\ won_total hs b = 1.
Proof.
  destruct (rerun_ce [tut] 200 files (failing_first 2 [(1%nat, 3); (1%nat, 7)]) 100 10
    (fun d hs => (length (pblocks d) <=? 10)%nat && few_b d && (if list_eq_dec Z.eq_dec (map hands hs) [2; 2; 10] then true else false) &&
       with_id d (1%nat, 7) (fun b => (lost d hs b =? 2) && (won_total hs b =? 1))) tut_ok)
    as [d [s0 [hs [E [Eh [R P]]]]]].
  { vm_compute. reflexivity. }
  apply andb_prop in P. destruct P as [P P4]. apply andb_prop in P. destruct P as [P P3]. apply andb_prop in P. destruct P as [P1 P2].
  apply with_id_ok in P4. destruct P4 as [b [Hb [_ P4]]]. apply andb_prop in P4. destruct P4 as [P4 P5]. apply Z.eqb_eq in P4, P5.
  apply Nat.leb_le in P1. destruct (list_eq_dec _ _ _) as [P3'|]; [|discriminate].
  exists d, s0, hs, b. split; auto. split; [intros t [<-|[]]; reflexivity|]. split.
  { assert (Ed : dgraph_init [tut] = Ok d).
    { unfold sched_init in E. destruct (dgraph_init _) as [d'|]; [|discriminate].
      cbn [bind] in E. destruct (init_roots _ _); [|discriminate]. cbn [bind] in E.
      destruct (foldM _ _ _) as [[? ?]|]; [|discriminate]. cbn [bind] in E. congruence. }
    apply (fuel_of _ d); auto; [apply tut_ok|]. unfold enough. nia. }
  split; [apply files_remember|]. split; [eapply few_b_ok; eauto|].
  split. { intros hs' h pb. unfold failing_first, failing. destruct (_ <? _)%nat; destruct (existsb _ _); eauto. }
  split.
  { intros hs' h pb. unfold failing_first. destruct (length hs' <? 2)%nat eqn:L; [|discriminate]. intros _. apply Nat.ltb_lt in L.
    assert (lost d hs' (pb_block pb) <= Z.of_nat (length hs')); [|lia]. clear L.
    induction hs' as [|x l IH]; [cbn; lia|]. unfold lost in *. cbn [fold_right length]. destruct (_ && _); lia. }
  split; auto. split; auto. split; [apply (run_in _ _ _ _ _ _ _ _ R), Hb|]. auto.
Qed.
Print Assumptions C87_example.

(* The order in which the blocks of a task are handed out (C75). *)
From Coq Require Import Lia.
From Verif Require Import VecFacts SchedProps SchedExec DGFacts2 PipeRun P_SchedCE P_Sched.
Open Scope Z_scope.

(* the scheduler goes on: events since then, newest first *)
Inductive goes up down maxr fuel (h1 : history) (s1 : sched) : history -> sched -> Prop :=
| goes_nil : goes up down maxr fuel h1 s1 [] s1
| goes_acquire h s t chk s' r sk : goes up down maxr fuel h1 s1 h s ->
    acquire_block up down maxr fuel chk s t = Ok (s', r, sk) ->
    goes up down maxr fuel h1 s1 (match r with Some pb => EvHand t pb | None => EvNone t end :: rev (map EvSkip sk) ++ h) s'
| goes_release h s pick pb s' : goes up down maxr fuel h1 s1 h s -> held (h ++ h1) (pb_block pb) ->
    pb_status pb = SUCCESS \/ pb_status pb = FAILED ->
    release_block up down maxr fuel pick s pb = Ok s' -> goes up down maxr fuel h1 s1 (EvRel pb :: h) s'.

(* the blocks of task t taken from its queue (handed out or skipped), oldest first *)
Definition taken (t : nat) (h : history) : list block :=
  flat_map (fun e => match e with
                     | EvSkip b => if Nat.eqb (b_task b) t then [b] else []
                     | EvHand _ pb => if Nat.eqb (b_task (pb_block pb)) t then [pb_block pb] else []
                     | _ => []
                     end) (rev h).
(* b can be handed out: everything it depends on succeeded, nobody works on it, it is neither done nor given up *)
Definition ready_at up maxr (h : history) (b : block) : Prop :=
  (forall a, In a (up b) -> succeeded h a) /\ ~ held h b /\ ~ succeeded h b /\ ~ perm_failed maxr h b.

Lemma taken_app t h k : taken t (h ++ k) = taken t k ++ taken t h.
Proof. unfold taken. rewrite rev_app_distr. apply flat_map_app. Qed.
Lemma taken_skips t sk : taken t (rev (map EvSkip sk)) = of_task t sk.
Proof.
  unfold taken. rewrite rev_involutive. induction sk as [|b sk IH]; auto. cbn [map flat_map of_task filter]. rewrite IH.
  destruct (Nat.eqb _ _); auto.
Qed.
Lemma taken_in t h b : In b (taken t h) -> exists e, In e h /\ takes e b.
Proof.
  unfold taken. rewrite in_flat_map. intros [e [He H]]. exists e. split; [apply in_rev; auto|].
  destruct e as [x|u pb|u|pb]; cbn in *; try (destruct (Nat.eqb _ _); cbn in H; [destruct H as [->|[]]; reflexivity|]); destruct H.
Qed.
Lemma takes_taken t h e b : In e h -> takes e b -> b_task b = t -> In b (taken t h).
Proof.
  intros He H T. unfold taken. apply in_flat_map. exists e. split; [apply -> in_rev; auto|].
  destruct e; cbn in H; try tauto; subst; cbn; rewrite Nat.eqb_refl; left; auto.
Qed.

Lemma pair_ok {A B} (a c : A) (b d : B) : Ok (a, b) = Ok (c, d) -> a = c /\ b = d.
Proof. intros H. injection H. auto. Qed.

Section Line.
  Variables (up down : block -> list block) (maxr : nat -> Z) (fuel : nat).
  (* every queue counts its roots right and holds blocks of its own task *)
  Definition lined (s : sched) : Prop := forall t,
    q_roots (s_q s t) = Z.of_nat (length (q_gen (s_q s t))) /\ forall b, In b (readyl s t) -> b_task b = t.
  Lemma next_line s t q nb : lined s -> get_next (s_q s t) = Ok (q, nb) ->
    match nb with
    | None => readyl s t = []
    | Some pb => readyl s t = pb_block pb :: (q_gen q ++ map pb_block (q_ready q)) /\ q_roots q = Z.of_nat (length (q_gen q))
    end.
  Proof.
    intros L. destruct (L t) as [R _]. unfold get_next, num_ready, readyl. destruct (s_q s t) as [rd pr rt ro ge].
    cbn [q_ready q_proc q_retries q_roots q_gen] in *. subst ro. destruct ge as [|b ge].
    - destruct rd as [|pb rd]; cbn; intros H; injection H as <- <-; auto.
    - cbn [length]. replace (0 <? Z.of_nat (S (length ge)) + Z.of_nat (length rd)) with true by (symmetry; apply Z.ltb_lt; lia).
      replace (0 <? Z.of_nat (S (length ge))) with true by (symmetry; apply Z.ltb_lt; lia). intros H. apply pair_ok in H. destruct H as [<- <-].
      cbn [q_ready q_roots q_gen pb_block map app]. split; auto. lia.
  Qed.
  (* a block goes to the end of the line of its task *)
  Lemma push_line s pb : lined s -> lined (queue_ready_block s pb) /\
    forall t, readyl (queue_ready_block s pb) t = readyl s t ++ of_task t [pb_block pb].
  Proof.
    intros L. assert (E : forall t, readyl (queue_ready_block s pb) t = readyl s t ++ of_task t [pb_block pb]).
    { intros t. unfold readyl, queue_ready_block. cbn. unfold upd. destruct (Nat.eqb_spec (b_task (pb_block pb)) t) as [<-|N]; cbn.
      - rewrite map_app, app_assoc. reflexivity.
      - rewrite app_nil_r. reflexivity. }
    split; auto. intros t. destruct (L t) as [R T]. split.
    - unfold queue_ready_block. cbn. unfold upd. destruct (Nat.eqb_spec (b_task (pb_block pb)) t) as [<-|N]; cbn; apply L.
    - intros b. rewrite E, in_app_iff. intros [H|H]; auto. apply sN_of_task in H. apply H.
  Qed.
  Lemma urq_line bs : forall s, lined s -> lined (update_ready_queue s bs) /\
    forall t, readyl (update_ready_queue s bs) t = readyl s t ++ of_task t bs.
  Proof.
    unfold update_ready_queue. induction bs as [|b bs IH]; intros s L; cbn [fold_left].
    - split; auto. intros t. rewrite app_nil_r. auto.
    - destruct (push_line s (PB b CREATED) L) as [L1 E1]. destruct (IH _ L1) as [L2 E2]. split; auto. intros t.
      rewrite E2, E1, <- app_assoc. f_equal. unfold of_task. cbn [filter pb_block]. destruct (Nat.eqb _ _); reflexivity.
  Qed.
  (* the states of the tasks are not part of the line, nor are processing_blocks and block_retries *)
  Lemma same_line s s' : (forall t, q_roots (s_q s' t) = q_roots (s_q s t) /\ q_gen (s_q s' t) = q_gen (s_q s t) /\
      q_ready (s_q s' t) = q_ready (s_q s t)) -> lined s -> lined s' /\ forall t, readyl s' t = readyl s t.
  Proof.
    intros E L. assert (ER : forall t, readyl s' t = readyl s t) by (intros t; unfold readyl; destruct (E t) as [_ [-> ->]]; auto).
    split; auto. intros t. destruct (E t) as [-> [-> _]]. destruct (L t) as [R T]. split; auto. intros b. rewrite ER. auto.
  Qed.
  Lemma orphans_q os : forall s, s_q (fold_left (fun s o => upd_st s (b_task o) (ts_add_orphaned 1)) os s) = s_q s.
  Proof. induction os as [|o os IH]; intros s; cbn [fold_left]; auto. rewrite IH. reflexivity. Qed.
  Lemma release_line pick s pb s' : lined s -> release_block up down maxr fuel pick s pb = Ok s' ->
    lined s' /\ forall t, exists new, readyl s' t = readyl s t ++ new.
  Proof.
    intros L. unfold release_block, remove_from_processing. destruct (sremove _ _ _) as [p|]; [|discriminate]. cbn [bind].
    set (s1 := upd_st _ _ _).
    destruct (same_line s s1) as [L1 E1]; auto.
    { intros t. unfold s1. cbn. unfold upd. destruct (Nat.eqb_spec (b_task (pb_block pb)) t) as [<-|]; auto. }
    destruct (pb_status pb); try discriminate.
    - destruct (mark_success _ _ _ _ _) as [[sf news]|]; [|discriminate]. cbn [bind]. intros H. injection H as <-.
      set (s2 := upd_st _ _ _). destruct (same_line s1 s2) as [L2 E2]; auto.
      destruct (urq_line news s2 L2) as [L3 E3]. split; auto. intros t. rewrite E3, E2, E1. eauto.
    - destruct (_ <=? _).
      + destruct (mark_failure _ _ _ _ _ _ _) as [[sf os]|]; [|discriminate]. cbn [bind]. intros H. injection H as <-.
        set (s2 := fold_left _ _ _). destruct (same_line s1 s2) as [L2 E2]; auto.
        { intros t. unfold s2. rewrite orphans_q. auto. }
        split; auto. intros t. exists []. rewrite app_nil_r, E2. auto.
      + intros H. injection H as <-. destruct (push_line s1 pb L1) as [L2 E2]. set (s2 := queue_ready_block s1 pb) in *.
        set (s3 := upd_q _ _ _). destruct (same_line s2 s3) as [L3 E3]; auto.
        { clearbody s2. intros t. unfold s3. cbn. unfold upd. destruct (Nat.eqb_spec (b_task (pb_block pb)) t) as [<-|]; cbn; auto. }
        split; auto. intros t. rewrite E3, E2, E1. eauto.
  Qed.
  Lemma acquire_line chk t : forall f s s' r sk, lined s -> acquire_loop up down maxr fuel chk f s t = Ok (s', r, sk) ->
    lined s' /\ (forall b, In b sk -> b_task b = t) /\ (forall pb, r = Some pb -> b_task (pb_block pb) = t) /\
    forall u, exists new, readyl s u ++ new =
      (of_task u sk ++ match r with Some pb => of_task u [pb_block pb] | None => [] end) ++ readyl s' u.
  Proof.
    induction f as [|f IH]; intros s s' r sk L; cbn [acquire_loop]; [discriminate|].
    destruct (get_next (s_q s t)) as [[q nb]|] eqn:G; [|discriminate]. cbn [bind].
    pose proof (next_line _ _ _ _ L G) as N. destruct nb as [pb|].
    2: { intros H. injection H as <- <- <-. split; auto. split; [intros b []|]. split; [discriminate|]. intros u. exists []. rewrite app_nil_r. auto. }
    destruct N as [E R]. assert (T : b_task (pb_block pb) = t) by (apply (L t); rewrite E; left; auto).
    set (add := fun q0 => q_set_proc q0 _). set (s2 := upd_st (upd_st (upd_q s t _) t _) t _).
    assert (K : forall g, let s3 := upd_q (upd_st s2 t g) t add in lined s3 /\ forall u, readyl s u = of_task u [pb_block pb] ++ readyl s3 u).
    { intros g s3.
      assert (E3 : forall u, readyl s u = of_task u [pb_block pb] ++ readyl s3 u).
      { intros u. unfold s3, s2, readyl at 2. cbn. unfold upd. rewrite Nat.eqb_refl, T.
        destruct (Nat.eqb_spec t u) as [<-|]; cbn; auto. }
      split; auto. intros u. destruct (L u) as [Ru Tu]. split.
      - unfold s3, s2. cbn. unfold upd. rewrite Nat.eqb_refl. destruct (Nat.eqb_spec t u) as [<-|]; cbn; auto.
      - intros b Hb. apply Tu. rewrite E3. apply in_or_app. auto. }
    destruct (precheck _).
    - destruct (K (ts_add_skipped 1)) as [L3 E3]. set (s3 := upd_q (upd_st s2 t _) t add) in *.
      destruct (release_block _ _ _ _ _ _ _) as [s4|] eqn:Er; [|discriminate]. cbn [bind].
      destruct (release_line _ _ _ _ L3 Er) as [L4 E4].
      destruct (acquire_loop _ _ _ _ _ _ _ _) as [[[s5 r5] sk5]|] eqn:A; [|discriminate]. cbn [bind]. intros H. injection H as <- <- <-.
      destruct (IH _ _ _ _ L4 A) as [L5 [SK [RT E5]]]. split; auto. split; [intros b [<-|Hb]; auto|]. split; auto.
      intros u. destruct (E4 u) as [n4 Q4]. destruct (E5 u) as [n5 Q5]. exists (n4 ++ n5).
      rewrite E3, <- (app_assoc (of_task u [pb_block pb])), (app_assoc (readyl s3 u)), <- Q4, Q5. rewrite !app_assoc. f_equal. f_equal.
      unfold of_task. cbn [filter]. destruct (Nat.eqb _ _); reflexivity.
    - intros H. injection H as <- <- <-. destruct (K ts_set_started) as [L3 E3]. split; auto. split; [intros b []|].
      split; [intros pb' H; injection H as <-; auto|]. intros u. exists []. rewrite app_nil_r, E3. reflexivity.
  Qed.
  Lemma goes_line h1 s1 h s : goes up down maxr fuel h1 s1 h s -> lined s1 -> lined s /\
    forall t, exists new, readyl s1 t ++ new = taken t h ++ readyl s t.
  Proof.
    intros G L1. induction G as [|h s t chk s' r sk G IH A|h s pick pb s' G IH Hh St Re].
    - split; auto. intros t. exists []. rewrite app_nil_r. reflexivity.
    - destruct IH as [L E]. destruct (acquire_line _ _ _ _ _ _ _ L A) as [L' [SK [RT E']]]. split; auto.
      intros u. destruct (E u) as [n1 Q1]. destruct (E' u) as [n2 Q2]. exists (n1 ++ n2).
      rewrite app_assoc, Q1, <- app_assoc, Q2. rewrite app_assoc. f_equal.
      change (?e :: ?l ++ h) with (([e] ++ l) ++ h). rewrite !taken_app, taken_skips. f_equal. f_equal.
      destruct r as [pb|]; [|reflexivity]. unfold taken, of_task. cbn. destruct (Nat.eqb _ _); reflexivity.
    - destruct IH as [L E]. destruct (release_line _ _ _ _ L Re) as [L' E']. split; auto. intros u. destruct (E u) as [n1 Q1].
      destruct (E' u) as [n2 Q2]. exists (n1 ++ n2). rewrite app_assoc, Q1, Q2, <- app_assoc.
      change (EvRel pb :: h) with ([EvRel pb] ++ h). rewrite taken_app. cbn. rewrite app_nil_r. reflexivity.
  Qed.
  Lemma prefix_nth {A} (l n a b : list A) i : l ++ n = a ++ b -> (i < length l)%nat ->
    nth_error l i = if (i <? length a)%nat then nth_error a i else nth_error b (i - length a).
  Proof.
    intros E Hi. rewrite <- (nth_error_app1 l n) by auto. rewrite E. destruct (Nat.ltb_spec i (length a)) as [H|H].
    - apply nth_error_app1; auto.
    - apply nth_error_app2; auto.
  Qed.
  Lemma goes_reach s0 h1 s1 h s : reach up down maxr fuel s0 h1 s1 -> goes up down maxr fuel h1 s1 h s ->
    reach up down maxr fuel s0 (h ++ h1) s.
  Proof.
    intros R G. induction G as [|h s t chk s' r sk G IH A|h s pick pb s' G IH Hh St Re]; auto.
    - cbn [app]. rewrite <- app_assoc. eapply reach_acquire; eauto.
    - cbn [app]. eapply reach_release; eauto.
  Qed.
  Lemma reach_goes s0 h s : reach up down maxr fuel s0 h s -> goes up down maxr fuel [] s0 h s.
  Proof.
    intros R. induction R; [constructor|eapply goes_acquire; eauto|eapply goes_release; eauto]. rewrite app_nil_r. auto.
  Qed.
End Line.

Section Pipe.
  Variables (tasks : list task) (ord : list block -> list block) (ordt : list nat -> list nat) (d : dgraph) (s0 : sched) (fuel : nat).
  Variables (h1 : history) (s1 : sched) (h : history) (s : sched).
  Hypothesis PR : pipe_run tasks ord ordt d s0 fuel h1 s1.
  Hypothesis IV : inverse tasks ord ordt d.
  Hypothesis FO : fuel_ok tasks fuel.
  Hypothesis GO : goes (dg_up ord ordt d) (dg_down ord ordt d) (dg_max_retries d) fuel h1 s1 h s.
  Let GG := run_good _ _ _ _ _ _ _ _ PR IV.
  Let EN := run_enough _ _ _ _ _ _ _ _ PR FO.
  Let FR := run_fresh _ _ _ _ _ _ _ _ PR.
  Let RR := pr_reach _ _ _ _ _ _ _ _ PR.
  Let HI := reach_HInv _ _ _ _ _ _ GG EN _ FR _ _ RR.
  Let I := hi_inv _ _ _ _ _ _ _ _ HI.
  Lemma pipe_lined : lined s1.
  Proof.
    intros t. split; [apply (i_roots _ _ _ _ _ _ _ _ _ I)|]. intros b Hb. apply (i_ready _ _ _ _ _ _ _ _ _ I t b Hb).
  Qed.
  Lemma line_ready t b : In b (readyl s1 t) -> b_task b = t /\ ready_at (dg_up ord ordt d) (dg_max_retries d) h1 b.
  Proof.
    intros H. destruct (i_ready _ _ _ _ _ _ _ _ _ I t b H) as [_ [T [U [S [F Hd]]]]]. split; auto. repeat split; auto.
  Qed.
  Lemma ready_line (NL : no_lonely tasks ord ordt d) b : pipe_block tasks b ->
    ready_at (dg_up ord ordt d) (dg_max_retries d) h1 b -> In b (readyl s1 (b_task b)).
  Proof.
    intros Hb [U [Hd [S F]]]. apply (ready_iff _ _ _ _ _ _ GG EN _ FR h1 s1 RR (run_roots _ _ _ _ _ _ _ _ PR NL)).
    apply (run_in _ _ _ _ _ _ _ _ PR) in Hb. auto 10.
  Qed.
  (* of two blocks of a task, one that is ready is taken before one that is not ready yet *)
  Lemma not_overtaken (NL : no_lonely tasks ord ordt d) b c h3 e h2 : pipe_block tasks b ->
    ready_at (dg_up ord ordt d) (dg_max_retries d) h1 b -> ~ ready_at (dg_up ord ordt d) (dg_max_retries d) h1 c ->
    b_task c = b_task b -> h = h3 ++ e :: h2 -> takes e c -> exists e', In e' h2 /\ takes e' b.
  Proof.
    intros Hb Rb Rc T Eh Te. pose proof (ready_line NL b Hb Rb) as Lb. apply (taken_in (b_task b)).
    destruct (goes_line _ _ _ _ _ _ _ _ GO pipe_lined) as [_ E]. destruct (E (b_task b)) as [new Q].
    change (e :: h2) with ([e] ++ h2) in Eh. rewrite Eh, !taken_app, <- app_assoc in Q.
    assert (Tc : taken (b_task b) [e] = [c]).
    { unfold taken. cbn. destruct e; cbn in Te; try tauto; subst; rewrite T, Nat.eqb_refl; reflexivity. }
    rewrite Tc, <- app_assoc in Q. set (k := length (taken (b_task b) h2)).
    destruct (Nat.lt_ge_cases k (length (readyl s1 (b_task b)))) as [H|H].
    - exfalso. apply Rc. apply (line_ready (b_task b)). apply nth_error_In with k. rewrite (prefix_nth _ _ _ _ k Q H).
      unfold k. replace (_ <? _)%nat with false by (symmetry; apply Nat.ltb_ge; auto). rewrite Nat.sub_diag. reflexivity.
    - apply In_nth_error in Lb. destruct Lb as [i Hi]. assert (Li : (i < length (readyl s1 (b_task b)))%nat) by (apply nth_error_Some; congruence).
      rewrite (prefix_nth _ _ _ _ i Q Li) in Hi. replace (i <? _)%nat with true in Hi by (symmetry; apply Nat.ltb_lt; fold k; lia).
      apply nth_error_In with i. auto.
  Qed.
  (* a block that is ready is taken at the latest after all others that are *)
  Lemma in_time (NL : no_lonely tasks ord ordt d) b : pipe_block tasks b ->
    ready_at (dg_up ord ordt d) (dg_max_retries d) h1 b ->
    ts_ready (s_st s1 (b_task b)) <= Z.of_nat (length (taken (b_task b) h)) -> exists e, In e h /\ takes e b.
  Proof.
    intros Hb Rb Hl. pose proof (ready_line NL b Hb Rb) as Lb. apply (taken_in (b_task b)).
    destruct (goes_line _ _ _ _ _ _ _ _ GO pipe_lined) as [_ E]. destruct (E (b_task b)) as [new Q].
    rewrite (i_cready _ _ _ _ _ _ _ _ _ I) in Hl. apply In_nth_error in Lb. destruct Lb as [i Hi].
    assert (Li : (i < length (readyl s1 (b_task b)))%nat) by (apply nth_error_Some; congruence).
    rewrite (prefix_nth _ _ _ _ i Q Li) in Hi. replace (i <? _)%nat with true in Hi by (symmetry; apply Nat.ltb_lt; lia).
    apply nth_error_In with i. auto.
  Qed.
End Pipe.

(* C75: a block is not overtaken by blocks of its task that become ready later *)
Theorem C75_in_order_partial : forall tasks ord ordt d s0 fuel h1 s1 h s,
  pipe_run tasks ord ordt d s0 fuel h1 s1 -> inverse tasks ord ordt d -> no_lonely tasks ord ordt d -> fuel_ok tasks fuel ->
  goes (dg_up ord ordt d) (dg_down ord ordt d) (dg_max_retries d) fuel h1 s1 h s ->
  forall b c h3 e h2, pipe_block tasks b -> b_task c = b_task b ->
  ready_at (dg_up ord ordt d) (dg_max_retries d) h1 b -> ~ ready_at (dg_up ord ordt d) (dg_max_retries d) h1 c ->
  h = h3 ++ e :: h2 -> takes e c -> exists e', In e' h2 /\ takes e' b.
Proof.
  intros tasks ord ordt d s0 fuel h1 s1 h s PR IV NL FO GO b c h3 e h2 Hb T Rb Rc Eh Te.
  eapply not_overtaken; eauto.
Qed.
Print Assumptions C75_in_order_partial.
(* it is taken at the latest after as many others as were ready *)
Theorem C75_in_time_partial : forall tasks ord ordt d s0 fuel h1 s1 h s,
  pipe_run tasks ord ordt d s0 fuel h1 s1 -> inverse tasks ord ordt d -> no_lonely tasks ord ordt d -> fuel_ok tasks fuel ->
  goes (dg_up ord ordt d) (dg_down ord ordt d) (dg_max_retries d) fuel h1 s1 h s ->
  forall b, pipe_block tasks b -> ready_at (dg_up ord ordt d) (dg_max_retries d) h1 b ->
  ts_ready (s_st s1 (b_task b)) <= Z.of_nat (length (taken (b_task b) h)) -> exists e, In e h /\ takes e b.
Proof. intros. eapply in_time; eauto. Qed.
Print Assumptions C75_in_time_partial.
(* a failed block is tried again only after every block of its task that was ready when it failed *)
Theorem C75_retry_last_partial : forall tasks ord ordt d s0 fuel h1 s1 h s b,
  pipe_run tasks ord ordt d s0 fuel h1 s1 -> inverse tasks ord ordt d -> no_lonely tasks ord ordt d -> fuel_ok tasks fuel ->
  held h1 b -> goes (dg_up ord ordt d) (dg_down ord ordt d) (dg_max_retries d) fuel h1 s1 h s ->
  forall c h3 e h2, pipe_block tasks c -> b_task b = b_task c -> ready_at (dg_up ord ordt d) (dg_max_retries d) h1 c ->
  h = h3 ++ e :: h2 -> takes e b -> exists e', In e' h2 /\ takes e' c.
Proof.
  intros tasks ord ordt d s0 fuel h1 s1 h s b PR IV NL FO Hd GO c h3 e h2 Hc T Rc Eh Te.
  eapply not_overtaken; eauto. intros [_ [N _]]. auto.
Qed.
Print Assumptions C75_retry_last_partial.
(* the blocks of a task that requires no other are taken level 0 first, in the order they are enumerated in *)
Theorem C75_roots_first : forall tasks ord ordt d s0 fuel h s t g bs n b,
  pipe_run tasks ord ordt d s0 fuel h s -> in_pipe tasks t -> t_ups t = [] -> task_graph t = Ok g -> level_blocks g 0 = Ok bs ->
  nth_error bs n = Some b -> (n < length (taken (t_id t) h))%nat -> nth_error (taken (t_id t) h) n = Some b.
Proof.
  intros tasks ord ordt d s0 fuel h s t g bs n b PR Pt U Eg Eb Hn Ln.
  pose proof (run_fresh _ _ _ _ _ _ _ _ PR) as FR. pose proof (run_safe _ _ _ _ _ _ _ _ PR) as SG.
  assert (L0 : lined s0).
  { intros i. rewrite (fr_roots _ _ _ FR), (fr_gen _ _ _ FR). split; auto. intros x. unfold readyl.
    rewrite (fr_gen _ _ _ FR), (fr_ready _ _ _ FR), app_nil_r. intros Hx.
    apply (seeds_ok tasks (pr_ok _ _ _ _ _ _ _ _ PR) d (run_dk _ _ _ _ _ _ _ _ PR) ord ordt (pr_ord _ _ _ _ _ _ _ _ PR)
      (pr_ordt _ _ _ _ _ _ _ _ PR) (run_room _ _ _ _ _ _ _ _ PR) i x Hx). }
  destruct (goes_line _ _ _ _ _ _ _ _ (reach_goes _ _ _ _ _ _ _ (pr_reach _ _ _ _ _ _ _ _ PR)) L0) as [_ E].
  destruct (E (t_id t)) as [new Q].
  assert (Es : readyl s0 (t_id t) = bs).
  { unfold readyl. rewrite (fr_gen _ _ _ FR), (fr_ready _ _ _ FR), app_nil_r.
    pose proof (run_dk _ _ _ _ _ _ _ _ PR) as DK. pose proof (pr_ok _ _ _ _ _ _ _ _ PR) as PO.
    assert (Hi : In (t_id t) (root_tasks d)) by (apply (root_iff tasks d DK); eauto).
    destruct (root_graph tasks PO (run_room _ _ _ _ _ _ _ _ PR) d DK _ Hi) as [g' [E1 [_ [_ E4]]]].
    destruct (dk_graph _ _ DK t Pt) as [g'' [E1' E2]]. congruence. }
  rewrite Es in Q. assert (Lb : (n < length bs)%nat) by (apply nth_error_Some; congruence).
  pose proof (prefix_nth _ _ _ _ n Q Lb) as X. replace (n <? _)%nat with true in X by (symmetry; apply Nat.ltb_lt; auto). congruence.
Qed.
Print Assumptions C75_roots_first.

(* A run in two parts. *)
Lemma exec_goes up down maxr fuel cs : forall h1 s1 h0 s h', goes up down maxr fuel h1 s1 h0 s ->
  forall s', foldM (fun x c => SchedExec.step up down maxr fuel c x) cs (h0 ++ h1, s) = Ok (h', s') ->
  exists h, h' = h ++ h1 /\ goes up down maxr fuel h1 s1 h s'.
Proof.
  induction cs as [|c cs IH]; intros h1 s1 h0 s h' G s'; cbn [foldM].
  - intros E. injection E as <- <-. eauto.
  - destruct (SchedExec.step _ _ _ _ c (h0 ++ h1, s)) as [[h2 s2]|] eqn:E; [|discriminate]. cbn [bind].
    destruct c as [t chk|i st pick]; cbn [SchedExec.step] in E.
    + destruct (acquire_block up down maxr fuel chk s t) as [[[s3 r] sk]|] eqn:A; [|discriminate].
      cbn [bind] in E. apply pair_ok in E. destruct E as [<- <-]. rewrite app_assoc, app_comm_cons. apply IH. eapply goes_acquire; eauto.
    + destruct (find_held (h0 ++ h1) i) as [b|] eqn:Ef; [|discriminate]. apply find_held_ok in Ef.
      destruct st; try discriminate; destruct (release_block up down maxr fuel pick s _) as [s3|] eqn:Er; try discriminate;
        cbn [bind] in E; apply pair_ok in E; destruct E as [<- <-]; rewrite app_comm_cons; apply IH; eapply goes_release; eauto.
Qed.
Definition run_two (tasks : list task) (fuel : nat) (cs1 cs2 : list call) :=
  '(d, s0) <- sched_init tasks ;;
  '(h1, s1) <- exec (dg_up idl idl d) (dg_down idl idl d) (dg_max_retries d) fuel cs1 s0 ;;
  '(h, s) <- foldM (fun x c => SchedExec.step (dg_up idl idl d) (dg_down idl idl d) (dg_max_retries d) fuel c x) cs2 (h1, s1) ;;
  Ok (d, h1, s1, firstn (length h - length h1) h, s).
Lemma run_two_ce tasks fuel cs1 cs2 (P : dgraph -> history -> sched -> history -> bool) : pipe_ok tasks ->
  match run_two tasks fuel cs1 cs2 with Ok (d, h1, s1, h, s) => P d h1 s1 h | Err _ => false end = true ->
  exists d s0 h1 s1 h s, pipe_run tasks idl idl d s0 fuel h1 s1 /\
    goes (dg_up idl idl d) (dg_down idl idl d) (dg_max_retries d) fuel h1 s1 h s /\ P d h1 s1 h = true.
Proof.
  intros PO. unfold run_two. destruct (sched_init tasks) as [[d s0]|] eqn:E; [|discriminate]. cbn [bind].
  destruct (exec _ _ _ _ _ _) as [[h1 s1]|] eqn:Ex; [|discriminate]. cbn [bind].
  destruct (foldM _ _ _) as [[h' s]|] eqn:Ef; [|discriminate]. cbn [bind]. intros H.
  destruct (exec_goes _ _ _ _ _ h1 s1 [] s1 h' (goes_nil _ _ _ _ _ _) s Ef) as [h [-> G]].
  rewrite app_length, Nat.add_sub, firstn_app, Nat.sub_diag, firstn_O, app_nil_r, firstn_all in H.
  exists d, s0, h1, s1, h, s. split; [constructor; auto using idl_order; eapply exec_reach; eauto|]. auto.
Qed.
(* Four blocks, each may be tried twice.  Block 0 is handed out, fails, and comes after the three others. *)
Definition ex_four : task := Task 1 (Roi [0] [4]) (Roi [0] [1]) (Roi [0] [1]) false Valid 1 1 [].
Lemma ex_four_ok : pipe_ok [ex_four].
Proof. pipe_ok_tac. Qed.
Example C75_example : exists d s0 h1 s1 h s, pipe_run [ex_four] idl idl d s0 100 h1 s1 /\
  inverse [ex_four] idl idl d /\ no_lonely [ex_four] idl idl d /\ fuel_ok [ex_four] 100 /\
  goes (dg_up idl idl d) (dg_down idl idl d) (dg_max_retries d) 100 h1 s1 h s /\
  map b_num (taken 1 h1) = [0] /\ ts_ready (s_st s1 1) = 3 /\ map b_num (taken 1 h) = [1; 2; 3; 0].
Proof.
  destruct (run_two_ce [ex_four] 100 (acq 1 1) (rel 1 FAILED [0] ++ acq 1 4)
    (fun d h1 s1 h => Nat.leb (length (pblocks d) * (length (pblocks d) + 1) + length (pblocks d) + 1) 100 &&
      forallb (fun a => match dg_up idl idl d a, dg_down idl idl d a with [], [] => true | _, _ => false end) (pblocks d) &&
      coord_eqb (map b_num (taken 1 h1)) [0] && (ts_ready (s_st s1 1) =? 3) && coord_eqb (map b_num (taken 1 h)) [1; 2; 3; 0])
    ex_four_ok) as [d [s0 [h1 [s1 [h [s [R [G X]]]]]]]].
  { vm_compute. reflexivity. }
  repeat match goal with H : _ && _ = true |- _ => apply andb_prop in H; destruct H end.
  exists d, s0, h1, s1, h, s. split; auto.
  assert (ED : edges_ok [ex_four]).
  { constructor; intros; pipe_tac. }
  split; [apply (run_dual _ _ _ _ _ _ _ _ R ED)|]. split.
  { apply (covered_lonely [ex_four] ex_four_ok d (run_dk _ _ _ _ _ _ _ _ R) idl idl idl_order idl_order).
    apply inside_covered; [apply ex_four_ok|]. intros t Ht Nu. pipe_tac. cbn in Nu. tauto. }
  split.
  { intros l N Hl. match goal with H : Nat.leb _ 100 = true |- _ => apply Nat.leb_le in H end.
    assert (length l <= length (pblocks d))%nat by (apply NoDup_incl_length; auto; intros y Hy; apply (run_in _ _ _ _ _ _ _ _ R); auto).
    unfold enough. nia. }
  repeat match goal with H : coord_eqb _ _ = true |- _ => apply coord_eqb_eq in H | H : (_ =? _) = true |- _ => apply Z.eqb_eq in H end.
  auto.
Qed.

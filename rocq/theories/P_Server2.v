(* Requests and answers of the server (C50). *)
From Coq Require Import Lia.
From Verif Require Import SchedProps SchedExec DGFacts2 PipeRun P_SchedCE P_Sched SerialFacts
  Server ServerFacts ServerSteps ServerIdle P_Server.
Open Scope nat_scope.

(* How many requests of stream st for the tasks selected by k the server received; how many of them
   it answered, by a block or by RequestShutdown; how many wait in its queues. *)
Section Count.
  Variables (k : nat -> bool) (st : nat).
  Definition is_request (a : act) : bool :=
    match a with ARecv s (MAcquire t) => Nat.eqb s st && k t | _ => false end.
  Definition is_answer (a : act) : bool :=
    match a with
    | ASend s pb => Nat.eqb s st && k (b_task (pb_block pb))
    | AShutdown t s => Nat.eqb s st && k t
    | _ => false
    end.
  Definition requests (tr : list act) : nat := length (filter is_request tr).
  Definition answers (tr : list act) : nat := length (filter is_answer tr).
  Fixpoint waiting (p : list (nat * list nat)) : nat :=
    match p with
    | [] => 0
    | (t, q) :: r => (if k t then length (filter (Nat.eqb st) q) else 0) + waiting r
    end.
  Definition balanced (x : server) : Prop := requests (sv_tr x) = answers (sv_tr x) + waiting (sv_pend x).
  Definition one (s t : nat) : nat := if Nat.eqb s st && k t then 1 else 0.

  Lemma requests_app l m : requests (l ++ m) = requests l + requests m.
  Proof. unfold requests. rewrite filter_app, app_length. reflexivity. Qed.
  Lemma answers_app l m : answers (l ++ m) = answers l + answers m.
  Proof. unfold answers. rewrite filter_app, app_length. reflexivity. Qed.
  Definition mute (a : act) : Prop := is_request a = false /\ is_answer a = false.
  Lemma mute_counts l : Forall mute l -> requests l = 0 /\ answers l = 0.
  Proof.
    induction 1 as [|a l [H1 H2] _ [I1 I2]]; auto. unfold requests, answers in *. cbn. rewrite H1, H2. auto.
  Qed.
  Lemma mute_aside l : Forall aside l -> Forall mute l.
  Proof. apply Forall_impl. intros a. destruct a; cbn; try tauto; intros _; split; reflexivity. Qed.
  Lemma mute_lost l : Forall is_lost l -> Forall mute l.
  Proof. apply Forall_impl. intros a. destruct a; cbn; try tauto; intros _; split; reflexivity. Qed.
  Lemma mute_calls l : Forall mute (map ACall l).
  Proof. apply Forall_forall. intros a H. apply in_map_iff in H. destruct H as [e [<- _]]. split; reflexivity. Qed.
  (* nothing but mute actions was added *)
  Definition quiet (x y : server) : Prop := sv_pend y = sv_pend x /\ exists l, sv_tr y = l ++ sv_tr x /\ Forall mute l.
  Lemma quiet_refl x : quiet x x.
  Proof. split; auto. exists []. auto. Qed.
  Lemma quiet_trans x y z : quiet x y -> quiet y z -> quiet x z.
  Proof.
    intros [A [l [B C]]] [D [m [E F]]]. split; [congruence|]. exists (m ++ l). rewrite E, B, app_assoc. split; auto.
    apply Forall_app. auto.
  Qed.
  Lemma quiet_besides x y : besides x y -> quiet x y.
  Proof. intros [_ _ P [l [T A]]]. split; auto. exists l. split; auto. apply mute_aside. auto. Qed.
  Lemma quiet_check x : quiet x (check_all x).
  Proof. apply quiet_besides, (check_all_spec x). Qed.
  Lemma quiet_balanced x y : quiet x y -> balanced x -> balanced y.
  Proof.
    intros [P [l [T M]]]. apply mute_counts in M. unfold balanced. rewrite P, T, requests_app, answers_app. lia.
  Qed.
  Lemma pput_waiting t s : forall p p', pput t s p = Ok p' -> waiting p' = waiting p + one s t.
  Proof.
    unfold one. induction p as [|[u q] p IH]; intros p'; cbn [pput]; [discriminate|].
    destruct (Nat.eqb_spec t u) as [->|N].
    - intros H. injection H as <-. cbn [waiting]. rewrite filter_app, app_length. cbn [filter]. rewrite (Nat.eqb_sym st s).
      destruct (Nat.eqb s st); cbn [andb length]; destruct (k u); lia.
    - destruct (pput t s p) as [r|] eqn:E; [|discriminate]. cbn [bind]. intros H. injection H as <-. cbn [waiting].
      rewrite (IH r eq_refl). lia.
  Qed.
  Lemma pfirst_waiting t s : forall p p', pfirst p = Some (t, s, p') -> waiting p = waiting p' + one s t.
  Proof.
    unfold one. induction p as [|[u q] p IH]; intros p'; cbn [pfirst]; [discriminate|]. destruct q as [|a q].
    - destruct (pfirst p) as [[[t1 s1] r]|] eqn:E; [|discriminate]. intros H. injection H as -> -> <-. cbn [waiting].
      rewrite (IH r eq_refl). lia.
    - intros H. injection H as -> -> <-. cbn [waiting filter]. rewrite (Nat.eqb_sym s st).
      destruct (Nat.eqb st s); cbn [andb length]; destruct (k t); lia.
  Qed.

  Variables up down : block -> list block.
  Variable maxr : nat -> Z.
  Variable fuel : nat.
  Variable init : nat -> res unit.
  Lemma quiet_release i pb x y : sv_release up down maxr fuel init i pb x = Ok y -> quiet x y.
  Proof.
    unfold sv_release. destruct (release_block _ _ _ _ _ _ _) as [s1|]; [|discriminate]. cbn [bind]. intros R.
    eapply quiet_trans; [|apply quiet_besides, (recruit_spec init _ _ R)]. eapply quiet_trans; [|apply quiet_check].
    split; auto. eexists. split; [reflexivity|]. repeat constructor.
  Qed.
  Lemma quiet_safe i pb s x y : safe_release up down maxr fuel init i pb s x = Ok y -> quiet x y.
  Proof.
    unfold safe_release. destruct (is_valid_return _ _ _).
    - destruct (sv_release _ _ _ _ _ _ _ _) as [z|] eqn:E; [|discriminate]. cbn [bind].
      destruct (notify_block_returned _ _ _) as [b|]; [|discriminate]. cbn [bind]. intros H. injection H as <-.
      eapply quiet_trans; [eapply quiet_release; eauto|]. split; auto. exists []. auto.
    - intros H. injection H as <-. apply quiet_refl.
  Qed.
  Lemma quiet_lost i x y : check_lost up down maxr fuel init i x = Ok y -> quiet x y.
  Proof.
    unfold check_lost. destruct (get_lost_blocks _ _ _ _) as [[bs b]|]; [|discriminate]. cbn [bind].
    set (z := add_tr _ _). intros H. apply quiet_trans with z.
    { split; auto. eexists. split; [reflexivity|]. apply mute_lost. apply (lost_notes i (sv_book x)). }
    clearbody z. revert z H. induction bs as [|pb bs IH]; intros z; cbn [foldM].
    - intros H. injection H as <-. apply quiet_refl.
    - destruct (sv_release _ _ _ _ _ _ _ _) as [w|] eqn:E; [|discriminate]. cbn [bind]. intros H.
      eapply quiet_trans; [eapply quiet_release; eauto|]. apply IH. exact H.
  Qed.
  (* the blocks handed out are of the tasks asked for, as far as k can tell *)
  Definition right_task (x : server) (t : nat) : Prop := forall chk s1 pb sk,
    acquire_block up down maxr fuel chk (touch (sv_s x) t) t = Ok (s1, Some pb, sk) -> k (b_task (pb_block pb)) = k t.
  (* a request is taken, and answered or put back *)
  Lemma acquire_balance i t s x y : handle_acquire up down maxr fuel init i t s x = Ok y -> right_task x t ->
    exists l, sv_tr y = l ++ sv_tr x /\ requests l = 0 /\ answers l + waiting (sv_pend y) = waiting (sv_pend x) + one s t.
  Proof.
    unfold handle_acquire, one. intros H R. destruct (acquire_block _ _ _ _ _ _ _) as [[[s1 r] sk]|] eqn:E; [|discriminate].
    cbn [bind] in H. destruct r as [pb|].
    - apply R in E. destruct (notify_block_sent _ _ _ _) as [b|]; [|discriminate]. cbn [bind] in H. injection H as <-.
      cbn [add_tr set_book set_s sv_tr sv_pend].
      exists ([ANote (NAcquire t (s_st s1 t)); ASend s pb] ++ map ACall (EvHand t pb :: rev (map EvSkip sk))).
      split; [rewrite <- app_assoc; reflexivity|]. rewrite requests_app, answers_app.
      destruct (mute_counts _ (mute_calls (EvHand t pb :: rev (map EvSkip sk)))) as [-> ->].
      split; [reflexivity|]. unfold answers. cbn. rewrite E. destruct (Nat.eqb s st && k t); cbn; lia.
    - destruct (negb _); [discriminate|]. destruct (ts_pending _ =? 0)%Z.
      + destruct (recruit_spec init _ _ H) as [[_ _ P [l [T A]]] _]. apply mute_aside, mute_counts in A.
        cbn [add_tr set_s sv_tr sv_pend] in *. rewrite P, T.
        exists (l ++ [AShutdown t s] ++ map ACall (EvNone t :: rev (map EvSkip sk))). split; [rewrite <- !app_assoc; reflexivity|].
        rewrite !requests_app, !answers_app. destruct A as [-> ->].
        destruct (mute_counts _ (mute_calls (EvNone t :: rev (map EvSkip sk)))) as [-> ->].
        split; [reflexivity|]. unfold answers. cbn. destruct (Nat.eqb s st && k t); cbn; lia.
      + cbn [add_tr set_s sv_pend] in H. destruct (pput t s (sv_pend x)) as [p|] eqn:P; [|discriminate]. cbn [bind] in H. injection H as <-.
        cbn [add_tr set_pend set_s sv_tr sv_pend]. apply pput_waiting in P. unfold one in P.
        exists ([ADelay t s] ++ map ACall (EvNone t :: rev (map EvSkip sk))). split; [reflexivity|].
        rewrite !requests_app, !answers_app.
        destruct (mute_counts _ (mute_calls (EvNone t :: rev (map EvSkip sk)))) as [-> ->]. split; [reflexivity|]. cbn. lia.
  Qed.
  (* the server may turn to a request for t *)
  Definition next_request (i : input) (x : server) (t : nat) : Prop :=
    (exists s, i_get i = GotMessage s (MAcquire t)) \/ exists s p, pfirst (sv_pend x) = Some (t, s, p).
  Lemma iteration_balance i x y : iteration up down maxr fuel init i x = Ok y ->
    (forall t, next_request i x t -> right_task x t) -> balanced x -> balanced y.
  Proof.
    unfold iteration. destruct (handle_messages _ _ _ _ _ _ _) as [z|] eqn:E; [|discriminate]. cbn [bind].
    destruct (check_lost _ _ _ _ _ _ _) as [w|] eqn:L; [|discriminate]. cbn [bind].
    destruct (i_health i); [|discriminate]. cbn [bind]. intros H R B. injection H as <-.
    assert (Q : quiet z (if i_tick i then check_all w else w)).
    { apply quiet_lost in L. destruct (i_tick i); auto. eapply quiet_trans; [exact L|apply quiet_check]. }
    eapply quiet_balanced; [exact Q|]. clear Q L. unfold handle_messages in E.
    destruct (i_get i) as [s m| | |e] eqn:Eg; try discriminate.
    - unfold handle_message in E. destruct m as [t|pb|pb wh|e|]; try discriminate.
      + destruct (handle_acquire _ _ _ _ _ _ _ _ _) as [v|] eqn:A; [|discriminate]. cbn [bind] in E. injection E as <-.
        eapply quiet_balanced; [apply quiet_check|].
        destruct (acquire_balance _ _ _ _ _ A (R t (or_introl (ex_intro _ s Eg)))) as [l [T [Q1 Q2]]]. unfold balanced in *. rewrite T.
        cbn [add_tr sv_tr sv_pend app] in *. rewrite requests_app, answers_app.
        change (ARecv s (MAcquire t) :: sv_tr x) with ([ARecv s (MAcquire t)] ++ sv_tr x). rewrite requests_app, answers_app.
        assert (K1 : requests [ARecv s (MAcquire t)] = one s t) by (unfold requests, one; cbn; destruct (Nat.eqb s st && k t); reflexivity).
        assert (K2 : answers [ARecv s (MAcquire t)] = 0) by reflexivity. lia.
      + destruct (safe_release _ _ _ _ _ _ _ _ _) as [v|] eqn:A; [|discriminate]. cbn [bind] in E. injection E as <-.
        eapply quiet_balanced; [|exact B]. eapply quiet_trans; [|apply quiet_check]. eapply quiet_trans; [|eapply quiet_safe; exact A].
        split; auto. exists [ARecv s (MRelease pb)]. split; auto. repeat constructor.
      + destruct (safe_release _ _ _ _ _ _ _ _ _) as [v|] eqn:A; [|discriminate]. cbn [bind] in E. injection E as <-.
        eapply quiet_balanced; [|exact B]. eapply quiet_trans; [|apply quiet_check].
        eapply quiet_trans; [eapply quiet_trans; [|eapply quiet_safe; exact A]|].
        * split; auto. exists [ARecv s (MBlockFailed pb wh)]. split; auto. repeat constructor.
        * split; auto. eexists. split; [reflexivity|]. repeat constructor.
    - destruct (pfirst (sv_pend x)) as [[[t s] p]|] eqn:P.
      + unfold handle_message in E. destruct (handle_acquire _ _ _ _ _ _ _ _ _) as [v|] eqn:A; [|discriminate]. cbn [bind] in E. injection E as <-.
        eapply quiet_balanced; [apply quiet_check|]. pose proof P as P0. apply pfirst_waiting in P.
        destruct (acquire_balance _ _ _ _ _ A (R t (or_intror (ex_intro _ s (ex_intro _ p P0))))) as [l [T [Q1 Q2]]]. unfold balanced in *. rewrite T.
        cbn [add_tr set_pend sv_tr sv_pend app] in *. rewrite requests_app, answers_app.
        change (ARetry t s :: sv_tr x) with ([ARetry t s] ++ sv_tr x). rewrite requests_app, answers_app.
        assert (K1 : requests [ARetry t s] = 0) by reflexivity. assert (K2 : answers [ARetry t s] = 0) by reflexivity. lia.
      + injection E as <-. exact B.
    - injection E as <-. exact B.
  Qed.
  Lemma init_balance tasks stopped s0 x : server_init init tasks stopped s0 = Ok x -> balanced x.
  Proof.
    intros H. eapply quiet_balanced; [apply quiet_besides, (recruit_spec init _ _ H)|]. unfold balanced. cbn.
    induction (dedup Nat.eqb tasks) as [|t l IH]; auto. cbn. destruct (k t); auto.
  Qed.
End Count.

(* C50.  At every iteration, whatever the scheduler, the clients and the callbacks do: the requests
   received from a client are those it was sent an answer for and those that wait, one each. *)
Theorem C50_answered_once : forall up down maxr fuel init tasks stopped ins s0 x y st,
  let all := fun _ : nat => true in
  server_init init tasks stopped s0 = Ok x -> event_loop up down maxr fuel init ins x = Ok y ->
  requests all st (sv_tr y) = answers all st (sv_tr y) + waiting all st (sv_pend y).
Proof.
  intros up down maxr fuel init tasks stopped ins s0 x y st all Ei. apply (init_balance all st) in Ei. revert x Ei.
  induction ins as [|i ins IH]; intros x B; cbn [event_loop]; destruct (sv_stop x); try (intros H; injection H as <-; exact B).
  destruct (iteration _ _ _ _ _ _ _) as [z|] eqn:E; [|discriminate]. cbn [bind]. apply IH.
  eapply iteration_balance; eauto. intros t _ chk s1 pb sk _. reflexivity.
Qed.
Print Assumptions C50_answered_once.

(* and on a pipeline the answers are blocks of the task asked for *)
Theorem C50_answered_for_task_partial : forall tasks ord ordt d s0 fuel init stopped ins y st t,
  server_run_to tasks ord ordt d s0 fuel init stopped ins y ->
  requests (Nat.eqb t) st (sv_tr y) = answers (Nat.eqb t) st (sv_tr y) + waiting (Nat.eqb t) st (sv_pend y).
Proof.
  intros tasks ord ordt d s0 fuel init stopped ins y st t R.
  destruct (a_split _ _ _ _ _ _ _ _ _ _ R) as [x [Ex Ey]].
  pose proof (init_balance (Nat.eqb t) st init _ _ _ _ Ex) as B.
  destruct (init_sinv (dg_up ord ordt d) (dg_down ord ordt d) (dg_max_retries d) fuel s0 (map t_id tasks) init
    (sr_callback _ _ _ _ _ _ _ _ _ _ R) stopped) as [x' [Ex' I]].
  rewrite Ex in Ex'. injection Ex' as <-. clear Ex.
  assert (F : Forall (good_input (pblocks d) (map t_id tasks)) ins).
  { pose proof R as [? ? ? ? ? ? ? Fi ?]. eapply (p_fairs tasks ord ordt d s0 fuel); eauto. }
  pose proof (a_good _ _ _ _ _ _ _ _ _ _ R) as GG. pose proof (a_enough _ _ _ _ _ _ _ _ _ _ R) as EN.
  pose proof (a_fresh _ _ _ _ _ _ _ _ _ _ R) as FR. pose proof (a_known _ _ _ _ _ _ _ _ _ _ R) as KN.
  pose proof (sr_callback _ _ _ _ _ _ _ _ _ _ R) as IO. clear R. revert x B I Ey.
  induction ins as [|i ins IH]; intros x B I; cbn [event_loop]; destruct (sv_stop x); try (intros H; injection H as <-; exact B).
  inversion F; subst.
  destruct (iteration_ok (pblocks d) _ _ (root_seeds d) _ fuel GG EN s0 FR (map t_id tasks) KN init IO i x I) as [z [Ez Iz]]; auto.
  rewrite Ez. cbn [bind]. apply IH; auto. eapply iteration_balance; eauto.
  intros u Hn chk s1 pb sk E. f_equal.
  assert (Hu : In u (map t_id tasks)).
  { destruct Hn as [[s Hn]|[s [p Hn]]].
    - destruct H1 as [G _]. rewrite Hn in G. exact G.
    - apply pfirst_keys in Hn. destruct Hn as [_ Hn]. rewrite (si_pend _ _ _ _ _ _ _ _ I) in Hn. apply in_dedup_nat. exact Hn. }
  pose proof (si_reach _ _ _ _ _ _ _ _ I) as RR.
  rewrite (reach_touch (pblocks d) _ _ (root_seeds d) _ fuel GG EN s0 FR (map t_id tasks) KN _ _ _ RR Hu) in E.
  pose proof (reach_acquire _ _ _ _ _ _ _ _ _ _ _ _ RR E) as R1.
  exact (proj1 (never_twice (pblocks d) _ _ (root_seeds d) _ fuel GG EN s0 FR _ _ R1 [] _ u pb eq_refl)).
Qed.
Print Assumptions C50_answered_for_task_partial.

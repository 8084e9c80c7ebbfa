(* What the server does, as a sequence of small steps; invariants of all of them. *)
From Coq Require Import Lia Permutation.
From Verif Require Import SchedProps SerialFacts P_Conv Server ServerFacts.
Open Scope Z_scope.

(* the server is about to answer a request of stream st for a block of task t *)
Definition asked (tr : list act) (t st : nat) : Prop :=
  exists r, tr = ARecv st (MAcquire t) :: r \/ tr = ARetry t st :: r.
Definition is_lost (a : act) : Prop := match a with ALost _ _ => True | _ => False end.
Definition calls (t : nat) (r : option pyblock) (sk : list block) : list act :=
  map ACall (match r with Some pb => EvHand t pb | None => EvNone t end :: rev (map EvSkip sk)).

  Lemma take_lost_sub ids : forall b bs b', take_lost ids b = Ok (bs, b') -> forall e, In e b' -> In e b.
  Proof.
    induction ids as [|i ids IH]; intros b bs b'; cbn [take_lost].
    - intros H. injection H as <- <-. auto.
    - destruct (bget i b); [|discriminate]. destruct (take_lost ids (bdel i b)) as [[bs1 b1]|] eqn:E; [|discriminate].
      cbn [bind]. intros H. injection H as <- <-. intros e He. apply (IH _ _ _ E) in He. apply filter_In in He. tauto.
  Qed.
  Lemma lost_notes i (bk : book) : Forall is_lost (rev (flat_map (fun e : (nat * Z) * blog => if i_closed i (lg_stream (snd e))
         then [ALost (lg_block (snd e)) (lg_stream (snd e))] else []) bk)).
  Proof.
    apply Forall_rev, Forall_forall. intros a Ha. apply in_flat_map in Ha. destruct Ha as [e [_ Ha]].
    destruct (i_closed i _); [destruct Ha as [<-|[]]; exact I|destruct Ha].
  Qed.

(* every action of a trace, with what was before it *)
Fixpoint each (Q : act -> list act -> Prop) (tr : list act) : Prop :=
  match tr with [] => True | a :: r => Q a r /\ each Q r end.
Lemma each_neutral (Q : act -> list act -> Prop) l tr : (forall a, In a l -> forall r, Q a r) -> each Q tr -> each Q (l ++ tr).
Proof.
  intros N H. induction l as [|a l IH]; auto. cbn. split; [apply N; left; auto|].
  apply IH. intros b Hb. apply N. right; auto.
Qed.
Lemma each_at Q l a tr : each Q (l ++ a :: tr) -> Q a tr.
Proof. induction l as [|b l IH]; cbn; [tauto|intros [_ H]; auto]. Qed.
Lemma each_app Q l tr : each Q (l ++ tr) -> each Q tr.
Proof. induction l as [|b l IH]; cbn; [tauto|intros [_ H]; auto]. Qed.

Section Steps.
  Variables up down : block -> list block.
  Variable maxr : nat -> Z.
  Variable fuel : nat.
  Variable init : nat -> res unit.
  (* what may be released, and which tasks are asked for *)
  Variable gr : server -> pyblock -> Prop.
  Variable ga : server -> nat -> Prop.

  Inductive ustep (x : server) : server -> Prop :=
  | u_recv st m : ustep x (add_tr x [ARecv st m])
  | u_retry t st p : pfirst (sv_pend x) = Some (t, st, p) -> ustep x (add_tr (set_pend x p) [ARetry t st])
  | u_send chk now t st s1 pb sk b : asked (sv_tr x) t st -> ga x t ->
      acquire_block up down maxr fuel chk (touch (sv_s x) t) t = Ok (s1, Some pb, sk) ->
      notify_block_sent now pb st (sv_book x) = Ok b ->
      ustep x (add_tr (set_book (set_s x s1) b)
                      ([ANote (NAcquire t (s_st s1 t)); ASend st pb] ++ calls t (Some pb) sk))
  | u_shut chk t st s1 sk : asked (sv_tr x) t st -> ga x t ->
      acquire_block up down maxr fuel chk (touch (sv_s x) t) t = Ok (s1, None, sk) ->
      ts_ready (s_st s1 t) = 0 -> ts_pending (s_st s1 t) = 0 ->
      ustep x (add_tr (set_s x s1) (AShutdown t st :: calls t None sk))
  | u_delay chk t st s1 sk p : asked (sv_tr x) t st -> ga x t ->
      acquire_block up down maxr fuel chk (touch (sv_s x) t) t = Ok (s1, None, sk) ->
      ts_ready (s_st s1 t) = 0 -> ts_pending (s_st s1 t) <> 0 -> pput t st (sv_pend x) = Ok p ->
      ustep x (add_tr (set_pend (set_s x s1) p) (ADelay t st :: calls t None sk))
  | u_rel pick pb s1 : gr x pb -> release_block up down maxr fuel pick (sv_s x) pb = Ok s1 ->
      ustep x (add_tr (set_s x s1) [ANote (NRelease (b_task (pb_block pb)) (s_st s1 (b_task (pb_block pb)))); ACall (EvRel pb)])
  | u_fail pb w : ustep x (add_tr x [ANote (NFailure pb w)])
  | u_check : ustep x (check_all x)
  | u_recruit y : recruit init x = Ok y -> ustep x y
  | u_book b : (forall e, In e b -> In e (sv_book x)) -> ustep x (set_book x b)
  | u_lost l : Forall is_lost l -> ustep x (add_tr x l).

  Inductive steps (x : server) : server -> Prop :=
  | st_refl : steps x x
  | st_more y z : steps x y -> ustep y z -> steps x z.
  Lemma st_one x y : ustep x y -> steps x y.
  Proof. intros H. eapply st_more; [constructor|exact H]. Qed.
  Lemma st_trans x y z : steps x y -> steps y z -> steps x z.
  Proof. intros H K. induction K; auto. eapply st_more; eauto. Qed.

  Lemma rel_steps i pb x y : sv_release up down maxr fuel init i pb x = Ok y -> gr x pb -> steps x y.
  Proof.
    unfold sv_release. destruct (release_block _ _ _ _ _ _ _) as [s1|] eqn:E; [|discriminate]. cbn [bind]. intros R G.
    eapply st_more; [|apply u_recruit; exact R]. eapply st_more; [|apply u_check].
    apply st_one. eapply u_rel; eauto.
  Qed.
  Lemma safe_steps i pb st x y : safe_release up down maxr fuel init i pb st x = Ok y ->
    (is_valid_return pb st (sv_book x) = true -> gr x pb) -> steps x y.
  Proof.
    unfold safe_release. destruct (is_valid_return _ _ _).
    - destruct (sv_release _ _ _ _ _ _ _ _) as [z|] eqn:E; [|discriminate]. cbn [bind].
      destruct (notify_block_returned _ _ _) as [b|] eqn:N; [|discriminate]. cbn [bind]. intros H G. injection H as <-.
      eapply st_more; [eapply rel_steps; eauto|]. apply u_book. unfold notify_block_returned in N.
      destruct (bget _ _) as [l|]; [|discriminate]. destruct (Nat.eqb _ _); [|discriminate]. injection N as <-.
      intros e He. unfold bdel in He. apply filter_In in He. tauto.
    - intros H _. injection H as <-. constructor.
  Qed.
  Lemma acq_steps i t st x y : handle_acquire up down maxr fuel init i t st x = Ok y ->
    asked (sv_tr x) t st -> ga x t -> steps x y.
  Proof.
    unfold handle_acquire. intros H A G.
    destruct (acquire_block _ _ _ _ _ _ _) as [[[s1 r] sk]|] eqn:E; [|discriminate]. cbn [bind] in H.
    destruct r as [pb|].
    - cbn [add_tr set_s sv_book] in H. destruct (notify_block_sent _ _ _ _) as [b|] eqn:N; [|discriminate]. cbn [bind] in H.
      injection H as <-. apply st_one.
      match goal with |- ustep x ?y => replace y with (add_tr (set_book (set_s x s1) b)
        ([ANote (NAcquire t (s_st s1 t)); ASend st pb] ++ calls t (Some pb) sk)) by reflexivity end.
      eapply u_send; eauto.
    - destruct (ts_ready (s_st s1 t) =? 0) eqn:Er; cbn [negb] in H; [|discriminate]. apply Z.eqb_eq in Er.
      destruct (ts_pending (s_st s1 t) =? 0) eqn:Ep.
      + apply Z.eqb_eq in Ep. eapply st_more; [|apply u_recruit; exact H].
        apply st_one. exact (u_shut x (i_chk i) t st s1 sk A G E Er Ep).
      + apply Z.eqb_neq in Ep. cbn [add_tr set_s sv_pend] in H. destruct (pput t st (sv_pend x)) as [p|] eqn:P; [|discriminate].
        cbn [bind] in H. injection H as <-. apply st_one. exact (u_delay x (i_chk i) t st s1 sk p A G E Er Ep P).
  Qed.
  Definition may (m : message) (st : nat) (x : server) : Prop :=
    match m with
    | MAcquire t => asked (sv_tr x) t st /\ ga x t
    | MRelease pb => is_valid_return pb st (sv_book x) = true -> gr x pb
    | MBlockFailed pb _ => is_valid_return pb st (sv_book x) = true -> gr x (PB (pb_block pb) FAILED)
    | _ => True
    end.
  Lemma msg_steps i st m x y : handle_message up down maxr fuel init i st m x = Ok y -> may m st x -> steps x y.
  Proof.
    unfold handle_message. destruct m as [t|pb|pb w|e|]; cbn [may]; try discriminate.
    - destruct (handle_acquire _ _ _ _ _ _ _ _ _) as [z|] eqn:E; [|discriminate]. cbn [bind]. intros H [A G]. injection H as <-.
      eapply st_more; [eapply acq_steps; eauto|apply u_check].
    - destruct (safe_release _ _ _ _ _ _ _ _ _) as [z|] eqn:E; [|discriminate]. cbn [bind]. intros H G. injection H as <-.
      eapply st_more; [eapply safe_steps; eauto|apply u_check].
    - destruct (safe_release _ _ _ _ _ _ _ _ _) as [z|] eqn:E; [|discriminate]. cbn [bind]. intros H G. injection H as <-.
      eapply st_more; [|apply u_check]. eapply st_more; [eapply safe_steps; eauto|apply u_fail].
  Qed.
  Lemma msgs_steps i x y : handle_messages up down maxr fuel init i x = Ok y ->
    match i_get i with
    | GotMessage st m => may m st (add_tr x [ARecv st m])
    | GotNothing => forall t st p, pfirst (sv_pend x) = Some (t, st, p) -> ga (add_tr (set_pend x p) [ARetry t st]) t
    | _ => True
    end -> steps x y.
  Proof.
    unfold handle_messages. destruct (i_get i) as [st m| | |e]; try discriminate.
    - intros H M. eapply st_trans; [apply st_one, u_recv|]. eapply msg_steps; eauto.
    - destruct (pfirst (sv_pend x)) as [[[t st] p]|] eqn:P.
      + intros H M. eapply st_trans; [apply st_one, u_retry, P|]. eapply msg_steps; eauto. split.
        * exists (sv_tr x). right. reflexivity.
        * apply M. reflexivity.
      + intros H _. injection H as <-. constructor.
    - intros H _. injection H as <-. constructor.
  Qed.
  Lemma step_trace x y : ustep x y -> exists l, sv_tr y = l ++ sv_tr x.
  Proof.
    intros S. destruct S; cbn [add_tr set_s set_book set_pend sv_tr]; try (eexists; reflexivity).
    - destruct (check_all_spec x) as [[_ _ _ [l [E _]]] _]. eauto.
    - destruct (recruit_spec init _ _ H) as [[_ _ _ [l [E _]]] _]. eauto.
    - exists []. reflexivity.
  Qed.
  Lemma steps_trace x y : steps x y -> exists l, sv_tr y = l ++ sv_tr x.
  Proof.
    intros S. induction S as [|y z S [l IH] U]; [exists []; auto|]. destruct (step_trace _ _ U) as [m E].
    exists (m ++ l). rewrite E, IH, app_assoc. reflexivity.
  Qed.
End Steps.

(* without any assumption *)
Section Any.
  Variables up down : block -> list block.
  Variable maxr : nat -> Z.
  Variable fuel : nat.
  Variable init : nat -> res unit.
  Definition any_r : server -> pyblock -> Prop := fun _ _ => True.
  Definition any_a : server -> nat -> Prop := fun _ _ => True.
  Local Notation steps := (steps up down maxr fuel init any_r any_a).

  Lemma lost_steps i x y : check_lost up down maxr fuel init i x = Ok y -> steps x y.
  Proof.
    unfold check_lost, get_lost_blocks. destruct (take_lost _ _) as [[bs b]|] eqn:E; [|discriminate]. cbn [bind]. intros H.
    eapply st_trans; [eapply st_more; [apply st_one, (u_book _ _ _ _ _ _ _ x b); eapply take_lost_sub; exact E|apply u_lost, (lost_notes i (sv_book x))]|].
    revert H. generalize (add_tr (set_book x b) (rev (flat_map (fun e => if i_closed i (lg_stream (snd e))
         then [ALost (lg_block (snd e)) (lg_stream (snd e))] else []) (sv_book x)))).
    clear. induction bs as [|pb bs IH]; intros x; cbn [foldM].
    - intros H. injection H as <-. constructor.
    - destruct (sv_release _ _ _ _ _ _ _ _) as [z|] eqn:E; [|discriminate]. cbn [bind]. intros H.
      eapply st_trans; [eapply rel_steps; [exact E|exact I]|apply IH, H].
  Qed.
  Lemma iteration_steps i x y : iteration up down maxr fuel init i x = Ok y -> steps x y.
  Proof.
    unfold iteration. destruct (handle_messages _ _ _ _ _ _ _) as [z|] eqn:E; [|discriminate]. cbn [bind].
    destruct (check_lost _ _ _ _ _ _ _) as [w|] eqn:L; [|discriminate]. cbn [bind].
    destruct (i_health i); [|discriminate]. cbn [bind]. intros H. injection H as <-.
    assert (S : steps x w).
    { eapply st_trans; [|eapply lost_steps; eauto]. eapply msgs_steps; [exact E|].
      destruct (i_get i) as [st m| | |e]; auto; [|intros; exact I]. destruct m; cbn; auto; try (intros; exact I).
      split; [|exact I]. exists (sv_tr x). left. reflexivity. }
    destruct (i_tick i); auto. eapply st_more; [exact S|apply u_check].
  Qed.
  Lemma loop_steps ins : forall x y, event_loop up down maxr fuel init ins x = Ok y -> steps x y.
  Proof.
    induction ins as [|i ins IH]; intros x y; cbn [event_loop]; destruct (sv_stop x); try (intros H; injection H as <-; constructor).
    destruct (iteration _ _ _ _ _ _ _) as [z|] eqn:E; [|discriminate]. cbn [bind]. intros H.
    eapply st_trans; [eapply iteration_steps; eauto|apply IH, H].
  Qed.
  Definition idle_server (tasks : list nat) (stopped : bool) (s0 : sched) : server :=
    Server s0 [] (map (fun t => (t, [])) (dedup Nat.eqb tasks)) [] [] stopped [].
  Lemma run_steps tasks stopped ins s0 x y : server_init init tasks stopped s0 = Ok x ->
    event_loop up down maxr fuel init ins x = Ok y -> steps (idle_server tasks stopped s0) y.
  Proof. intros H K. eapply st_trans; [apply st_one, u_recruit, H|eapply loop_steps; eauto]. Qed.
End Any.

(* with honest messages on a good graph *)
Section Good.
  Variables (V : list block) (up down : block -> list block) (seeds : nat -> list block).
  Variable maxr : nat -> Z.
  Variable fuel : nat.
  Hypothesis GG : good_graph V up down seeds.
  Hypothesis EN : enough V fuel.
  Variable s0 : sched.
  Hypothesis FR : fresh V seeds s0.
  Variable tasks : list nat.
  Hypothesis known : forall t, In t tasks -> In t (s_order s0).
  Variable init : nat -> res unit.
  Hypothesis init_ok : forall t, init t = Ok tt.

  Definition held_r : server -> pyblock -> Prop :=
    fun x pb => held (hist (sv_tr x)) (pb_block pb) /\ (pb_status pb = SUCCESS \/ pb_status pb = FAILED).
  Definition known_a : server -> nat -> Prop := fun _ t => In t tasks.
  Local Notation steps := (steps up down maxr fuel init held_r known_a).
  Local Notation SInv := (SInv up down maxr fuel s0 tasks).

  Lemma valid_held pb st x : SInv [] x -> In (pb_block pb) V -> is_valid_return pb st (sv_book x) = true ->
    held (hist (sv_tr x)) (pb_block pb).
  Proof.
    intros I Vb Va. destruct (valid_block V up down seeds maxr fuel GG EN s0 FR tasks pb st [] x I Vb Va) as [l [H1 [H2 _]]].
    apply (si_held _ _ _ _ _ _ _ _ I). apply in_or_app. left. apply in_blocks. eauto.
  Qed.
  Lemma good_msgs i x y : SInv [] x -> good_input V tasks i ->
    handle_messages up down maxr fuel init i x = Ok y -> steps x y.
  Proof.
    intros I [G _] H. eapply msgs_steps; [exact H|]. destruct (i_get i) as [st m| | |e]; auto.
    - assert (I1 : SInv [] (add_tr x [ARecv st m])) by (apply sinv_plain; auto; repeat constructor).
      destruct m as [t|pb|pb w|e|]; cbn [may]; auto.
      + split; [exists (sv_tr x); left; reflexivity|exact G].
      + intros Va. split; [|apply G]. eapply valid_held; eauto. apply G.
      + intros Va. split; [|right; reflexivity]. eapply (valid_held pb); eauto.
    - intros t st p P. apply pfirst_keys in P. destruct P as [_ P]. rewrite (si_pend _ _ _ _ _ _ _ _ I) in P.
      unfold known_a. apply in_dedup_nat. exact P.
  Qed.
  Lemma good_lost i x y : SInv [] x -> check_lost up down maxr fuel init i x = Ok y -> steps x y.
  Proof.
    intros I H. destruct (lost_start V up down seeds maxr fuel GG EN s0 FR tasks init i x I) as [E [I1 _]]. rewrite E in H. clear E.
    assert (L : forall bs z, SInv (map pb_block bs) z ->
      foldM (fun x pb => sv_release up down maxr fuel init i (PB (pb_block pb) FAILED) x) bs z = Ok y -> steps z y).
    { clear -GG EN FR init_ok. induction bs as [|pb bs IH]; intros x I; cbn [foldM].
      - intros H. injection H as <-. constructor.
      - destruct (release_one V up down seeds maxr fuel GG EN s0 FR tasks init init_ok i pb _ x I) as [z [l [Ez [Iz [Hh _]]]]].
        rewrite Ez. cbn [bind]. intros H. eapply st_trans; [eapply rel_steps; [exact Ez|]|apply IH; eauto].
        split; [exact Hh|right; reflexivity]. }
    eapply st_trans; [|eapply L; [exact I1|exact H]].
    eapply st_more; [apply st_one, u_book|apply u_lost, (lost_notes i (sv_book x))].
    intros e He. apply filter_In in He. exact (proj1 He).
  Qed.
  Lemma good_iteration i x y : SInv [] x -> good_input V tasks i ->
    iteration up down maxr fuel init i x = Ok y -> steps x y.
  Proof.
    intros I G. unfold iteration.
    destruct (handle_messages_ok V up down seeds maxr fuel GG EN s0 FR tasks known init init_ok i x I G) as [z [Ez Iz]].
    rewrite Ez. cbn [bind].
    destruct (check_lost _ _ _ _ _ _ _) as [w|] eqn:L; [|discriminate]. cbn [bind].
    destruct (i_health i); [|discriminate]. cbn [bind]. intros H. injection H as <-.
    assert (S : steps x w) by (eapply st_trans; [eapply good_msgs|eapply good_lost]; eauto).
    destruct (i_tick i); auto. eapply st_more; [exact S|apply u_check].
  Qed.
  Lemma good_loop ins : forall x y, SInv [] x -> Forall (good_input V tasks) ins ->
    event_loop up down maxr fuel init ins x = Ok y -> steps x y.
  Proof.
    induction ins as [|i ins IH]; intros x y I G; cbn [event_loop]; destruct (sv_stop x); try (intros H; injection H as <-; constructor).
    inversion G; subst.
    destruct (iteration_ok V up down seeds maxr fuel GG EN s0 FR tasks known init init_ok i x I) as [z [Ez Iz]]; auto.
    rewrite Ez. cbn [bind]. intros H. eapply st_trans; [eapply good_iteration; eauto|apply IH; auto].
  Qed.
  Lemma good_run stopped ins x y : Forall (good_input V tasks) ins -> server_init init tasks stopped s0 = Ok x ->
    event_loop up down maxr fuel init ins x = Ok y -> steps (idle_server tasks stopped s0) y.
  Proof.
    intros G E H. destruct (init_sinv up down maxr fuel s0 tasks init init_ok stopped) as [x' [E' I]].
    rewrite E in E'. injection E' as <-.
    eapply st_trans; [apply st_one, u_recruit, E|]. eapply good_loop; eauto.
  Qed.

  Local Notation reach := (reach up down maxr fuel s0).
  Lemma reach_touch h s t : reach h s -> In t tasks -> touch s t = s.
  Proof.
    intros R Ht. unfold touch, sadd. apply known in Ht.
    rewrite <- (hi_order _ _ _ _ _ _ _ _ (reach_HInv V up down seeds maxr fuel GG EN s0 FR h s R)) in Ht.
    apply mem_nat in Ht. rewrite Ht. destruct s. reflexivity.
  Qed.
  Lemma besides_reach x y : besides x y -> reach (hist (sv_tr x)) (sv_s x) -> reach (hist (sv_tr y)) (sv_s y).
  Proof. intros B. rewrite (besides_hist _ _ B), (be_s _ _ B). auto. Qed.
  Lemma hist_call t r sk l : hist (calls t r sk ++ l) = match r with Some pb => EvHand t pb | None => EvNone t end :: rev (map EvSkip sk) ++ hist l.
  Proof. unfold calls. rewrite hist_app, hist_calls. reflexivity. Qed.
  Lemma hist_lost l : Forall is_lost l -> hist l = [].
  Proof. induction 1 as [|a l H _ IH]; auto. unfold hist in *. cbn. rewrite IH. destruct a; cbn in H; tauto. Qed.
  Lemma step_reach x y : ustep up down maxr fuel init held_r known_a x y ->
    reach (hist (sv_tr x)) (sv_s x) -> reach (hist (sv_tr y)) (sv_s y).
  Proof.
    intros S R. destruct S as [st m|t st p P|chk now t st s1 pb sk b A G E N|chk t st s1 sk A G E Er Ep|chk t st s1 sk p A G E Er Ep P|pick pb s1 G E|pb w| |y E|b S|l L].
    - exact R.
    - exact R.
    - cbn [add_tr sv_tr set_book set_s sv_s app].
      change (hist (ANote _ :: ASend st pb :: calls t (Some pb) sk ++ sv_tr x)) with (hist (calls t (Some pb) sk ++ sv_tr x)).
      rewrite hist_call. rewrite (reach_touch _ _ _ R G) in E. exact (reach_acquire _ _ _ _ _ _ _ _ _ _ _ _ R E).
    - cbn [add_tr sv_tr set_s sv_s]. cbn [app].
      change (hist (AShutdown t st :: calls t None sk ++ sv_tr x)) with (hist (calls t None sk ++ sv_tr x)).
      rewrite hist_call. rewrite (reach_touch _ _ _ R G) in E. exact (reach_acquire _ _ _ _ _ _ _ _ _ _ _ _ R E).
    - cbn [add_tr sv_tr set_s set_pend sv_s]. cbn [app].
      change (hist (ADelay t st :: calls t None sk ++ sv_tr x)) with (hist (calls t None sk ++ sv_tr x)).
      rewrite hist_call. rewrite (reach_touch _ _ _ R G) in E. exact (reach_acquire _ _ _ _ _ _ _ _ _ _ _ _ R E).
    - cbn. destruct G as [G1 G2]. eapply reach_release; eauto.
    - exact R.
    - eapply besides_reach; [apply (check_all_spec x)|exact R].
    - eapply besides_reach; [apply (recruit_spec init _ _ E)|exact R].
    - exact R.
    - cbn [add_tr sv_tr sv_s]. rewrite hist_app, (hist_lost l L). exact R.
  Qed.
  Lemma steps_reach x y : steps x y -> reach (hist (sv_tr x)) (sv_s x) -> reach (hist (sv_tr y)) (sv_s y).
  Proof. intros S R. induction S as [|y z S IH U]; auto. eapply step_reach; eauto. Qed.

  (* C35: the server has stopped *)
  Definition stop_ok (x : server) : Prop := reach (hist (sv_tr x)) (sv_s x) /\
    (sv_stop x = true -> forall b, In b V -> settled up maxr (hist (sv_tr x)) b).
  (* counters are right *)
  Hypothesis known_V : forall b, In b V -> In (b_task b) (s_order s0).

  Lemma stop_more x y : reach (hist (sv_tr y)) (sv_s y) -> sv_stop y = sv_stop x -> (exists l, hist (sv_tr y) = l ++ hist (sv_tr x)) ->
    stop_ok x -> stop_ok y.
  Proof.
    intros R E [l H] [_ S]. split; auto. rewrite E, H. intros K b Hb. apply settled_mono. auto.
  Qed.
  Lemma all_done_settled h s : reach h s -> apart (fun b => In b V) up maxr h -> all_done s = true ->
    forall b, In b V -> settled up maxr h b.
  Proof.
    intros R F A b Hb. unfold all_done in A. rewrite forallb_forall in A.
    apply (proj1 (done_iff V up down seeds maxr fuel GG EN s0 FR h s R F (b_task b)) ); auto. apply A.
    rewrite (hi_order _ _ _ _ _ _ _ _ (reach_HInv V up down seeds maxr fuel GG EN s0 FR h s R)). auto.
  Qed.
  Lemma single_app l h : single maxr (l ++ h) -> single maxr h.
  Proof. intros S a b Ha Hb. apply S; apply perm_mono; auto. Qed.
  Lemma steps_stop x y : steps x y -> apart (fun b => In b V) up maxr (hist (sv_tr y)) -> stop_ok x -> stop_ok y.
  Proof.
    intros S F K. induction S as [|y z S IH U]; auto.
    destruct (step_trace _ _ _ _ _ _ _ _ _ U) as [l El].
    assert (F1 : apart (fun b => In b V) up maxr (hist (sv_tr y))).
    { rewrite El, hist_app in F. eapply apart_back; eauto. }
    specialize (IH F1). pose proof (step_reach _ _ U (proj1 IH)) as R.
    assert (H : exists l, hist (sv_tr z) = l ++ hist (sv_tr y)) by (exists (hist l); rewrite El; apply hist_app).
    inversion U; subst; try (apply (stop_more y); auto; fail).
    - split; auto. destruct (check_all_spec y) as [B [_ [Es _]]]. rewrite Es. intros D b Hb.
      apply Bool.orb_prop in D. rewrite (besides_hist _ _ B). destruct D as [D|D]; [apply IH; auto|].
      eapply all_done_settled; eauto. apply IH.
    - apply (stop_more y); auto. apply (recruit_spec init _ _ H0).
  Qed.

  (* C36 *)
  Lemma none_left h s t : reach h s -> apart (fun b => In b V) up maxr h ->
    ts_ready (s_st s t) = 0 -> ts_pending (s_st s t) = 0 ->
    forall b, In b V -> b_task b = t -> held h b \/ settled up maxr h b.
  Proof.
    intros R F Er Ep b Vb Et.
    pose proof (settled_card V up down seeds maxr fuel GG EN s0 FR h s R F t) as C.
    destruct (counters V up down seeds maxr fuel GG EN s0 FR h s R t) as [Cp [_ [_ [_ Ct]]]].
    pose proof (hi_inv _ _ _ _ _ _ _ _ (reach_HInv V up down seeds maxr fuel GG EN s0 FR h s R)) as I.
    assert (C1 : card (fun b => (In b V /\ b_task b = t /\ settled up maxr h b) \/ held h b /\ b_task b = t)
      (ts_completed (s_st s t) + ts_failed (s_st s t) + ts_orphaned (s_st s t) + ts_processing (s_st s t))).
    { apply (card_union _ _ _ _ _ C Cp); [|tauto].
      intros x [_ [_ [S|[S|O]]]] [Hx _].
      - destruct (i_held _ _ _ _ _ _ _ _ _ I x Hx) as [_ [_ [NS NF]]]. exact (NS S).
      - destruct (i_held _ _ _ _ _ _ _ _ _ I x Hx) as [_ [_ [NS NF]]]. exact (NF S).
      - apply (held_norph' V up down seeds maxr fuel GG EN s0 FR h s R x Hx O). }
    assert (E' : ts_total (s_st s t) = ts_completed (s_st s t) + ts_failed (s_st s t) + ts_orphaned (s_st s t) + ts_processing (s_st s t)).
    { unfold ts_pending in Ep. lia. }
    rewrite E' in Ct.
    assert (X : (In b V /\ b_task b = t /\ settled up maxr h b) \/ held h b /\ b_task b = t).
    { apply (card_eq_all _ _ _ C1 Ct); auto. intros x [[? [? _]]|[Hx ?]]; auto. split; auto.
      apply (i_held _ _ _ _ _ _ _ _ _ I x Hx). }
    tauto.
  Qed.
  Definition shut_ok (a : act) (r : list act) : Prop :=
    match a with
    | AShutdown t _ => forall b, In b V -> b_task b = t -> held (hist r) b \/ settled up maxr (hist r) b
    | _ => True
    end.
  Lemma steps_shut x y : steps x y -> apart (fun b => In b V) up maxr (hist (sv_tr y)) ->
    reach (hist (sv_tr x)) (sv_s x) -> each shut_ok (sv_tr x) -> each shut_ok (sv_tr y).
  Proof.
    intros S F R K. induction S as [|y z S IH U]; auto.
    destruct (step_trace _ _ _ _ _ _ _ _ _ U) as [l El].
    assert (F1 : apart (fun b => In b V) up maxr (hist (sv_tr y))).
    { rewrite El, hist_app in F. eapply apart_back; eauto. }
    specialize (IH F1). pose proof (steps_reach _ _ S R) as Ry. pose proof (step_reach _ _ U Ry) as Rz.
    destruct U as [st m|t st p P|chk now t st s1 pb sk b A G E N|chk t st s1 sk A G E Er Ep|chk t st s1 sk p A G E Er Ep P|pick pb s1 G E|pb w| |z E|b Sb|m L];
      try (cbn [add_tr set_s set_book set_pend sv_tr]; apply each_neutral; auto;
           intros a Ha r; destruct a; try exact Logic.I; exfalso; cbn in Ha; intuition discriminate).
    - cbn [add_tr set_s set_book set_pend sv_tr]. apply each_neutral; auto.
      intros a Ha r. destruct a; try exact Logic.I. apply in_app_or in Ha. destruct Ha as [[?|[?|[]]]|Ha]; try discriminate.
      unfold calls in Ha. apply in_map_iff in Ha. destruct Ha as [? [? _]]. discriminate.
    - cbn [add_tr set_s set_book set_pend sv_tr app each shut_ok] in *. split.
      + change (hist (AShutdown t st :: calls t None sk ++ sv_tr y)) with (hist (calls t None sk ++ sv_tr y)) in Rz, F.
        intros b Vb Et. eapply none_left; eauto.
      + apply each_neutral; auto. intros a Ha r. destruct a; try exact Logic.I.
        unfold calls in Ha. apply in_map_iff in Ha. destruct Ha as [? [? _]]. discriminate.
    - cbn [add_tr set_s set_book set_pend sv_tr]. apply each_neutral; auto.
      intros a Ha r. destruct a; try exact Logic.I. destruct Ha as [?|Ha]; try discriminate.
      unfold calls in Ha. apply in_map_iff in Ha. destruct Ha as [? [? _]]. discriminate.
    - destruct (check_all_spec y) as [[_ _ _ [k [-> Hk]]] _]. apply each_neutral; auto.
      intros a Ha r. rewrite Forall_forall in Hk. specialize (Hk a Ha). destruct a; try exact Logic.I. destruct Hk.
    - destruct (recruit_spec init _ _ E) as [[_ _ _ [k [-> Hk]]] _]. apply each_neutral; auto.
      intros a Ha r. rewrite Forall_forall in Hk. specialize (Hk a Ha). destruct a; try exact Logic.I. destruct Hk.
    - exact IH.
    - cbn [add_tr sv_tr]. apply each_neutral; auto.
      intros a Ha r. rewrite Forall_forall in L. specialize (L a Ha). destruct a; try exact Logic.I. destruct L.
  Qed.
End Good.

(* how often something was done *)
Definition times (p : act -> bool) (tr : list act) : nat := length (filter p tr).
Definition is_start t a := match a with ANote (NStart u _) => Nat.eqb u t | _ => false end.
Definition is_init t a := match a with AInit u => Nat.eqb u t | _ => false end.
Definition is_done t a := match a with ANote (NDone u _) => Nat.eqb u t | _ => false end.
Lemma times_app p l tr : times p (l ++ tr) = (times p l + times p tr)%nat.
Proof. unfold times. rewrite filter_app, app_length. reflexivity. Qed.
Lemma times_cons p a l : times p (a :: l) = ((if p a then 1 else 0) + times p l)%nat.
Proof. unfold times. cbn. destruct (p a); reflexivity. Qed.
Lemma times_nil p : times p [] = O.
Proof. reflexivity. Qed.
Lemma times_none p l : (forall a, In a l -> p a = false) -> times p l = O.
Proof.
  intros H. induction l as [|a l IH]; auto. unfold times. cbn. rewrite (H a (or_introl eq_refl)).
  apply IH. intros b Hb. apply H. right; auto.
Qed.
Lemma times_pos p l : (0 < times p l)%nat <-> exists a, In a l /\ p a = true.
Proof.
  unfold times. induction l as [|a l IH]; cbn.
  - split; [lia|intros [a [[] _]]].
  - destruct (p a) eqn:E; cbn.
    + split; [intros _; exists a; auto|lia].
    + rewrite IH. split; intros [b [Hb Eb]]; exists b; auto. destruct Hb as [<-|Hb]; [congruence|auto].
Qed.

(* C35: notifications and init_callback_fn *)
Definition bit (b : bool) : nat := if b then 1%nat else O.
Definition once (x : server) : Prop := forall t,
  times (is_start t) (sv_tr x) = bit (mem Nat.eqb t (sv_started x)) /\
  times (is_init t) (sv_tr x) = bit (mem Nat.eqb t (sv_started x)) /\
  times (is_done t) (sv_tr x) = bit (mem Nat.eqb t (sv_finished x)).
Lemma mem_sadd t u l : mem Nat.eqb t (sadd Nat.eqb u l) = Nat.eqb t u || mem Nat.eqb t l.
Proof.
  apply Bool.eq_iff_eq_true. rewrite Bool.orb_true_iff, !mem_nat, in_sadd_nat, Nat.eqb_eq. tauto.
Qed.
Lemma once_more x y l : once x -> sv_tr y = l ++ sv_tr x -> sv_started y = sv_started x -> sv_finished y = sv_finished x ->
  (forall a t, In a l -> is_start t a = false /\ is_init t a = false /\ is_done t a = false) -> once y.
Proof.
  intros O E1 E2 E3 N t. destruct (O t) as [O1 [O2 O3]]. rewrite E1, E2, E3, !times_app.
  rewrite !(times_none _ l); auto; intros a Ha; apply (N a t Ha).
Qed.
Lemma check_once st ts : forall fin tr a fin' tr' a',
  fold_left (check_step st) ts (fin, tr, a) = (fin', tr', a') -> forall t,
  (times (is_done t) tr = bit (mem Nat.eqb t fin) -> times (is_done t) tr' = bit (mem Nat.eqb t fin')) /\
  times (is_start t) tr' = times (is_start t) tr /\ times (is_init t) tr' = times (is_init t) tr.
Proof.
  induction ts as [|u ts IH]; intros fin tr a fin' tr' a'; cbn [fold_left].
  - intros E t. injection E as <- <- <-. auto.
  - unfold check_step at 2. destruct (ts_is_done (st u)); [destruct (mem Nat.eqb u fin) eqn:M|];
      intros E t; destruct (IH _ _ _ _ _ _ E t) as [I1 [I2 I3]]; auto.
    split; [|split; [rewrite I2|rewrite I3]; reflexivity].
    intros H. apply I1. rewrite mem_sadd. unfold times in *. cbn. destruct (Nat.eqb_spec u t) as [->|N].
    + rewrite Nat.eqb_refl. cbn. rewrite H, M. reflexivity.
    + destruct (Nat.eqb_spec t u); [congruence|]. exact H.
Qed.
Lemma start_once init st ts : forall started tr started' tr',
  foldM (start_step init st) ts (started, tr) = Ok (started', tr') -> forall t,
  (times (is_start t) tr = bit (mem Nat.eqb t started) -> times (is_start t) tr' = bit (mem Nat.eqb t started')) /\
  (times (is_init t) tr = bit (mem Nat.eqb t started) -> times (is_init t) tr' = bit (mem Nat.eqb t started')) /\
  times (is_done t) tr' = times (is_done t) tr.
Proof.
  induction ts as [|u ts IH]; intros started tr started' tr'; cbn [foldM].
  - intros E t. injection E as <- <-. auto.
  - cbn [start_step]. destruct (mem Nat.eqb u started) eqn:M; cbn [bind]; [intros E t; apply (IH _ _ _ _ E t)|].
    destruct (init u); [|discriminate]. cbn [bind]. intros E t. destruct (IH _ _ _ _ E t) as [I1 [I2 I3]].
    split; [|split; [|rewrite I3; reflexivity]]; intros H; [apply I1|apply I2]; rewrite mem_sadd; unfold times in *; cbn;
      (destruct (Nat.eqb_spec u t) as [->|N]; [rewrite Nat.eqb_refl; cbn; rewrite H, M; reflexivity|
        destruct (Nat.eqb_spec t u); [congruence|exact H]]).
Qed.
Section Once.
  Variables (up down : block -> list block) (maxr : nat -> Z) (fuel : nat) (init : nat -> res unit).
  Variables (gr : server -> pyblock -> Prop) (ga : server -> nat -> Prop).
  Lemma step_once x y : ustep up down maxr fuel init gr ga x y -> once x -> once y.
  Proof.
    intros U O.
    assert (NC : forall a t t' r sk, In a (calls t' r sk) -> is_start t a = false /\ is_init t a = false /\ is_done t a = false).
    { intros a t t' r sk Ha. unfold calls in Ha. apply in_map_iff in Ha. destruct Ha as [e [<- _]]. auto. }
    destruct U as [st m|t st p P|chk now t st s1 pb sk b A G E N|chk t st s1 sk A G E Er Ep|chk t st s1 sk p A G E Er Ep P|pick pb s1 G E|pb w| |y E|b Sb|m L].
    - eapply (once_more x _ [_]); [exact O|reflexivity|reflexivity|reflexivity|]. intros a t [<-|[]]. auto.
    - eapply (once_more x _ [_]); [exact O|reflexivity|reflexivity|reflexivity|]. intros a u [<-|[]]. auto.
    - eapply (once_more x); [exact O|reflexivity|reflexivity|reflexivity|]. intros a u Ha. apply in_app_or in Ha.
      destruct Ha as [[<-|[<-|[]]]|Ha]; eauto.
    - eapply (once_more x); [exact O|reflexivity|reflexivity|reflexivity|]. intros a u [<-|Ha]; eauto.
    - eapply (once_more x); [exact O|reflexivity|reflexivity|reflexivity|]. intros a u [<-|Ha]; eauto.
    - eapply (once_more x _ [_; _]); [exact O|reflexivity|reflexivity|reflexivity|]. intros a t [<-|[<-|[]]]; auto.
    - eapply (once_more x _ [_]); [exact O|reflexivity|reflexivity|reflexivity|]. intros a t [<-|[]]. auto.
    - intros t. destruct (O t) as [O1 [O2 O3]]. unfold check_all. fold (check_step (s_st (sv_s x))).
      destruct (fold_left _ _ _) as [[fin tr] a] eqn:E. destruct (check_once _ _ _ _ _ _ _ _ E t) as [I1 [I2 I3]].
      cbn [sv_tr sv_started sv_finished]. rewrite I2, I3. auto.
    - intros t. destruct (O t) as [O1 [O2 O3]]. unfold recruit in E.
      change (fun '(started, tr) t => _) with (start_step init (s_st (sv_s x))) in E.
      destruct (foldM _ _ _) as [[started tr]|] eqn:F; [|discriminate]. cbn [bind] in E. injection E as <-.
      destruct (start_once _ _ _ _ _ _ _ F t) as [I1 [I2 I3]]. cbn [sv_tr sv_started sv_finished].
      change (ARecruit (get_ready_tasks (sv_s x)) :: tr) with ([ARecruit (get_ready_tasks (sv_s x))] ++ tr).
      rewrite !times_app, I3. cbn [times filter is_start is_init is_done length]. auto.
    - eapply (once_more x _ []); [exact O|reflexivity|reflexivity|reflexivity|]. intros a t [].
    - eapply (once_more x); [exact O|reflexivity|reflexivity|reflexivity|]. intros a t Ha. rewrite Forall_forall in L. specialize (L a Ha).
      destruct a; cbn in L; try tauto; auto.
  Qed.
  Lemma steps_once x y : steps up down maxr fuel init gr ga x y -> once x -> once y.
  Proof. intros S O. induction S as [|y z S IH U]; auto. eapply step_once; eauto. Qed.
End Once.
Lemma idle_once tasks stopped s0 : once (idle_server tasks stopped s0).
Proof. intros t. cbn. auto. Qed.

(* where the entries of the book come from, and the answers to requests *)
Section Origin.
  Variables (up down : block -> list block) (maxr : nat -> Z) (fuel : nat) (init : nat -> res unit).
  Variables (gr : server -> pyblock -> Prop) (ga : server -> nat -> Prop).
  Local Notation steps := (steps up down maxr fuel init gr ga).
  Local Notation ustep := (ustep up down maxr fuel init gr ga).

  Lemma sent_entry now pb st b b' : notify_block_sent now pb st b = Ok b' ->
    b' = b ++ [(bid (pb_block pb), BLog pb st now)] /\ ~ In (bid (pb_block pb)) (map fst b).
  Proof.
    unfold notify_block_sent. destruct (bget _ _) eqn:E; [discriminate|]. intros H. injection H as <-. split; auto.
    apply bget_none. exact E.
  Qed.
  Lemma steps_book x y : steps x y -> exists l, sv_tr y = l ++ sv_tr x /\
    forall e, In e (sv_book y) -> In e (sv_book x) \/
      (In (ASend (lg_stream (snd e)) (lg_block (snd e))) l /\ fst e = bid (pb_block (lg_block (snd e)))).
  Proof.
    intros S. induction S as [|y z S [l [E IH]] U]; [exists []; split; auto|].
    assert (SAME : forall k, sv_tr z = k ++ sv_tr y -> (forall e, In e (sv_book z) -> In e (sv_book y)) ->
      exists l, sv_tr z = l ++ sv_tr x /\ forall e, In e (sv_book z) -> In e (sv_book x) \/
        (In (ASend (lg_stream (snd e)) (lg_block (snd e))) l /\ fst e = bid (pb_block (lg_block (snd e))))).
    { intros k Ek Sub. exists (k ++ l). rewrite Ek, E, app_assoc. split; auto. intros e He.
      destruct (IH e (Sub e He)) as [|[? ?]]; auto. right. split; auto. apply in_or_app. auto. }
    destruct (step_trace _ _ _ _ _ _ _ _ _ U) as [k0 Ek0].
    destruct U as [st m|t st p P|chk now t st s1 pb sk b A G Ea N|chk t st s1 sk A G Ea Er Ep|chk t st s1 sk p A G Ea Er Ep P|pick pb s1 G Ea|pb w| |z Ea|b Sb|m L];
      try (eapply SAME; [exact Ek0|auto]; fail).
    - apply sent_entry in N. destruct N as [-> N].
      eexists (_ ++ l). split; [cbn [add_tr set_book set_s sv_tr]; rewrite E, app_assoc; reflexivity|].
      intros e He. cbn [add_tr set_book set_s sv_book] in He. apply in_app_or in He. destruct He as [He|[<-|[]]].
      + destruct (IH e He) as [|[? ?]]; auto. right. split; auto. apply in_or_app. auto.
      + right. cbn. auto.
    - apply (SAME k0 Ek0). rewrite (be_book _ _ (proj1 (check_all_spec y))). auto.
    - apply (SAME k0 Ek0). rewrite (be_book _ _ (proj1 (recruit_spec init _ _ Ea))). auto.
  Qed.

  Definition waits (st : nat) (p : list (nat * list nat)) : Prop := exists t q, In (t, q) p /\ In st q.
  Lemma pput_waits t st p p' : pput t st p = Ok p' -> forall st', waits st' p' -> waits st' p \/ st' = st.
  Proof.
    revert p'. induction p as [|[u q] p IH]; intros p'; cbn; [discriminate|]. destruct (Nat.eqb t u).
    - intros H st'. injection H as <-. intros [t' [q' [[H|H] Hq]]].
      + injection H as <- <-. apply in_app_or in Hq. destruct Hq as [Hq|[<-|[]]]; auto. left. exists u, q. split; [left; auto|auto].
      + left. exists t', q'. split; [right; auto|auto].
    - destruct (pput t st p) as [r|]; [|discriminate]. cbn [bind]. intros H st'. injection H as <-. intros [t' [q' [[H|H] Hq]]].
      + injection H as <- <-. left. exists u, q. split; [left; auto|auto].
      + destruct (IH r eq_refl st') as [[t2 [q2 [H2 Hq2]]]|]; auto; [exists t', q'; auto|]. left. exists t2, q2. split; [right; auto|auto].
  Qed.
  Lemma pfirst_waits p t st p' : pfirst p = Some (t, st, p') ->
    waits st p /\ forall st', waits st' p' -> waits st' p.
  Proof.
    revert t st p'. induction p as [|[u q] p IH]; intros t st p'; cbn; [discriminate|]. destruct q as [|a q].
    - destruct (pfirst p) as [[[t1 st1] p1]|]; [|discriminate]. intros H. injection H as <- <- <-.
      destruct (IH _ _ _ eq_refl) as [[t2 [q2 [H2 Hq2]]] W]. split; [exists t2, q2; split; [right; auto|auto]|].
      intros st' [t' [q' [[H|H] Hq]]]; [injection H as <- <-; destruct Hq|].
      destruct (W st') as [t3 [q3 [H3 Hq3]]]; [exists t', q'; auto|]. exists t3, q3. split; [right; auto|auto].
    - intros H. injection H as <- <- <-. split; [exists u, (a :: q); split; left; auto|].
      intros st' [t' [q' [[H|H] Hq]]]; [injection H as <- <-; exists u, (a :: q); split; [left; auto|right; auto]|].
      exists t', q'. split; [right; auto|auto].
  Qed.

  (* a block is sent to a stream only after a request from it, received since x or waiting at x *)
  Lemma steps_sends x y : steps x y -> forall st, (forall t, ~ asked (sv_tr x) t st) -> ~ waits st (sv_pend x) ->
    exists l, sv_tr y = l ++ sv_tr x /\
    ((forall t, ~ In (ARecv st (MAcquire t)) l) ->
     (forall t, ~ In (ARetry t st) l) /\ ~ waits st (sv_pend y) /\ forall pb, ~ In (ASend st pb) l).
  Proof.
    intros S st NA NW. induction S as [|y z S [l [E IH]] U]; [exists []; split; auto|].
    destruct (step_trace _ _ _ _ _ _ _ _ _ U) as [k Ek]. exists (k ++ l). split; [rewrite Ek, E, app_assoc; auto|].
    intros NR.
    assert (NRl : forall t, ~ In (ARecv st (MAcquire t)) l) by (intros t H; apply (NR t), in_or_app; auto).
    destruct (IH NRl) as [I1 [I2 I3]].
    assert (ASK : forall t, ~ asked (sv_tr y) t st).
    { intros t [r A]. destruct l as [|a l]; [apply (NA t); exists r; rewrite E in A; exact A|].
      rewrite E in A. cbn in A. destruct A as [A|A]; injection A as -> _; [apply (NRl t)|apply (I1 t)]; left; auto. }
    assert (DONE : (forall t, ~ In (ARetry t st) k) -> ~ waits st (sv_pend z) -> (forall pb, ~ In (ASend st pb) k) ->
      (forall t, ~ In (ARetry t st) (k ++ l)) /\ ~ waits st (sv_pend z) /\ forall pb, ~ In (ASend st pb) (k ++ l)).
    { intros D1 D2 D3. split; [|split; auto].
      - intros t H. apply in_app_or in H. destruct H; [eapply D1|eapply I1]; eauto.
      - intros pb H. apply in_app_or in H. destruct H; [eapply D3|eapply I3]; eauto. }
    assert (NC : forall a t r sk, In a (calls t r sk) -> exists e, a = ACall e).
    { intros a t r sk Ha. unfold calls in Ha. apply in_map_iff in Ha. destruct Ha as [e [<- _]]. eauto. }
    clear IH NR NRl E.
    destruct U as [st1 m|t st1 p P|chk now t st1 s1 pb sk b A G Ea N|chk t st1 s1 sk A G Ea Er Ep|chk t st1 s1 sk p A G Ea Er Ep P|pick pb s1 G Ea|pb w| |z Ea|b Sb|m L];
      cbn [add_tr set_s set_book set_pend sv_tr] in Ek; try (apply app_inv_tail in Ek; subst k); apply DONE; auto;
      try (intros t0 H; cbn in H; intuition discriminate); try (intros t0 H; destruct H as [H|H]; [discriminate|apply NC in H; destruct H; discriminate]).
    - intros t0 [H|[]]. injection H as -> ->. apply I2. exact (proj1 (pfirst_waits _ _ _ _ P)).
    - intros W. apply I2. exact (proj2 (pfirst_waits _ _ _ _ P) st W).
    - intros t0 H. apply in_app_or in H. destruct H as [[H|[H|[]]]|H]; try discriminate. apply NC in H. destruct H; discriminate.
    - intros pb0 H. apply in_app_or in H. destruct H as [[H|[H|[]]]|H]; try discriminate.
      + injection H as -> ->. exact (ASK t A).
      + apply NC in H. destruct H; discriminate.
    - intros W. apply (pput_waits _ _ _ _ P) in W. destruct W as [W| ->]; auto. exact (ASK t A).
    - destruct (check_all_spec y) as [[_ _ _ [m [Em Hm]]] _]. rewrite Em in Ek. apply app_inv_tail in Ek. subst m.
      intros t H. rewrite Forall_forall in Hm. apply (Hm _ H).
    - rewrite (be_pend _ _ (proj1 (check_all_spec y))). auto.
    - destruct (check_all_spec y) as [[_ _ _ [m [Em Hm]]] _]. rewrite Em in Ek. apply app_inv_tail in Ek. subst m.
      intros t H. rewrite Forall_forall in Hm. apply (Hm _ H).
    - destruct (recruit_spec init _ _ Ea) as [[_ _ _ [m [Em Hm]]] _]. rewrite Em in Ek. apply app_inv_tail in Ek. subst m.
      intros t H. rewrite Forall_forall in Hm. apply (Hm _ H).
    - rewrite (be_pend _ _ (proj1 (recruit_spec init _ _ Ea))). auto.
    - destruct (recruit_spec init _ _ Ea) as [[_ _ _ [m [Em Hm]]] _]. rewrite Em in Ek. apply app_inv_tail in Ek. subst m.
      intros t H. rewrite Forall_forall in Hm. apply (Hm _ H).
    - intros t H. apply (app_inv_tail (sv_tr y) [] k) in Ek. subst k. destruct H.
    - intros t H. apply (app_inv_tail (sv_tr y) [] k) in Ek. subst k. destruct H.
    - intros t H. rewrite Forall_forall in L. apply (L _ H).
    - intros t H. rewrite Forall_forall in L. apply (L _ H).
  Qed.
End Origin.

(* requests and answers of each stream *)
Definition is_req st a := match a with ARecv s (MAcquire _) => Nat.eqb s st | _ => false end.
Definition is_ans st a := match a with ASend s _ => Nat.eqb s st | AShutdown _ s => Nat.eqb s st | _ => false end.
Definition nwait (st : nat) (p : list (nat * list nat)) : nat := length (filter (Nat.eqb st) (concat (map snd p))).
Definition acct (x : server) : Prop := forall st,
  times (is_req st) (sv_tr x) = (times (is_ans st) (sv_tr x) + nwait st (sv_pend x))%nat.
Definition noreq (a : act) : Prop := match a with ARecv _ (MAcquire _) | ASend _ _ | AShutdown _ _ => False | _ => True end.
Record quietly (x y : server) : Prop := {
  qu_pend : sv_pend y = sv_pend x;
  qu_tr : exists l, sv_tr y = l ++ sv_tr x /\ Forall noreq l
}.
Lemma quietly_refl x : quietly x x.
Proof. constructor; auto. exists []. auto. Qed.
Lemma quietly_trans x y z : quietly x y -> quietly y z -> quietly x z.
Proof.
  intros [A1 [l [A2 A3]]] [B1 [m [B2 B3]]]. constructor; [congruence|]. exists (m ++ l). rewrite B2, A2, app_assoc. split; auto.
  apply Forall_app; auto.
Qed.
Lemma besides_quietly x y : besides x y -> quietly x y.
Proof.
  intros [_ _ A [l [B C]]]. constructor; auto. exists l. split; auto. eapply Forall_impl; [|exact C].
  intros a. destruct a; cbn; tauto.
Qed.
Lemma noreq_times l st : Forall noreq l -> times (is_req st) l = O /\ times (is_ans st) l = O.
Proof.
  intros H. rewrite Forall_forall in H. split; apply times_none; intros a Ha; specialize (H a Ha);
    destruct a as [s m| | | | | | | | |]; cbn in *; try reflexivity; try tauto. destruct m; cbn; tauto.
Qed.
Lemma quietly_acct x y : quietly x y -> acct x -> acct y.
Proof.
  intros [A [l [B C]]] H st. rewrite A, B, !times_app. destruct (noreq_times l st C) as [-> ->]. apply H.
Qed.
Lemma nwait_put t st p p' : pput t st p = Ok p' -> forall st', nwait st' p' = (nwait st' p + bit (Nat.eqb st' st))%nat.
Proof.
  revert p'. induction p as [|[u q] p IH]; intros p'; cbn; [discriminate|]. destruct (Nat.eqb t u).
  - intros H st'. injection H as <-. unfold nwait. cbn. rewrite !filter_app, !app_length. cbn. destruct (Nat.eqb st' st); cbn; lia.
  - destruct (pput t st p) as [r|]; [|discriminate]. cbn [bind]. intros H st'. injection H as <-. unfold nwait in *. cbn.
    rewrite !filter_app, !app_length, (IH r eq_refl). lia.
Qed.
Lemma nwait_first p t st p' : pfirst p = Some (t, st, p') -> forall st', nwait st' p = (nwait st' p' + bit (Nat.eqb st' st))%nat.
Proof.
  revert t st p'. induction p as [|[u q] p IH]; intros t st p'; cbn; [discriminate|]. destruct q as [|a q].
  - destruct (pfirst p) as [[[t1 st1] p1]|]; [|discriminate]. intros H. injection H as <- <- <-. intros st'.
    unfold nwait in *. cbn. apply (IH _ _ _ eq_refl).
  - intros H. injection H as <- <- <-. intros st'. unfold nwait. cbn. destruct (Nat.eqb st' a); cbn; lia.
Qed.
Section Acct.
  Variables (up down : block -> list block) (maxr : nat -> Z) (fuel : nat) (init : nat -> res unit).
  Lemma rel_quietly i pb x y : sv_release up down maxr fuel init i pb x = Ok y -> quietly x y.
  Proof.
    unfold sv_release. destruct (release_block _ _ _ _ _ _ _) as [s1|] eqn:E; [|discriminate]. cbn [bind]. intros R.
    eapply quietly_trans; [|apply besides_quietly, (recruit_spec init _ _ R)].
    eapply quietly_trans; [|apply besides_quietly, check_all_spec].
    constructor; [reflexivity|]. eexists. split; [reflexivity|]. repeat constructor.
  Qed.
  Lemma safe_quietly i pb st x y : safe_release up down maxr fuel init i pb st x = Ok y -> quietly x y.
  Proof.
    unfold safe_release. destruct (is_valid_return _ _ _).
    - destruct (sv_release _ _ _ _ _ _ _ _) as [z|] eqn:E; [|discriminate]. cbn [bind].
      destruct (notify_block_returned _ _ _) as [b|] eqn:N; [|discriminate]. cbn [bind]. intros H. injection H as <-.
      apply rel_quietly in E. destruct E as [A B]. constructor; auto.
    - intros H. injection H as <-. apply quietly_refl.
  Qed.
  Lemma acq_acct i t st x y : handle_acquire up down maxr fuel init i t st x = Ok y -> forall st',
    times (is_req st') (sv_tr y) = times (is_req st') (sv_tr x) /\
    (times (is_ans st') (sv_tr y) + nwait st' (sv_pend y) =
     times (is_ans st') (sv_tr x) + nwait st' (sv_pend x) + bit (Nat.eqb st' st))%nat.
  Proof.
    unfold handle_acquire. intros H st'.
    destruct (acquire_block _ _ _ _ _ _ _) as [[[s1 r] sk]|] eqn:E; [|discriminate]. cbn [bind] in H.
    assert (NC : forall p l, (forall e, p (ACall e) = false) -> times p (map ACall l) = O).
    { intros p l Hp. apply times_none. intros a Ha. apply in_map_iff in Ha. destruct Ha as [e [<- _]]. apply Hp. }
    set (mc := map ACall _) in H.
    assert (Nm : forall p, (forall e, p (ACall e) = false) -> times p mc = O) by (intros p; apply NC). clearbody mc.
    destruct r as [pb|].
    - destruct (notify_block_sent _ _ _ _) as [b|] eqn:N; [|discriminate]. cbn [bind] in H.
      injection H as <-. cbn [add_tr set_book set_s sv_tr sv_pend]. rewrite !times_app, !Nm by reflexivity.
      rewrite !times_cons, !times_nil. cbn [is_req is_ans]. rewrite (Nat.eqb_sym st' st).
      destruct (Nat.eqb st st'); cbn [bit]; split; lia.
    - destruct (ts_ready (s_st s1 t) =? 0); cbn [negb] in H; [|discriminate].
      destruct (ts_pending (s_st s1 t) =? 0).
      + apply (recruit_spec init) in H. destruct H as [H _]. apply besides_quietly in H. destruct H as [Hp [l [Hl Hn]]].
        rewrite Hp, Hl, !times_app. destruct (noreq_times l st' Hn) as [-> ->].
        cbn [add_tr set_book set_s sv_tr sv_pend]. rewrite !times_app, !Nm by reflexivity.
        rewrite !times_cons, !times_nil. cbn [is_req is_ans]. rewrite (Nat.eqb_sym st' st).
        destruct (Nat.eqb st st'); cbn [bit]; split; lia.
      + cbn [add_tr set_s sv_pend] in H. destruct (pput t st (sv_pend x)) as [p|] eqn:P; [|discriminate].
        cbn [bind] in H. injection H as <-. cbn [add_tr set_pend set_s sv_tr sv_pend].
        rewrite !times_app, !Nm by reflexivity. rewrite (nwait_put _ _ _ _ P).
        rewrite !times_cons, !times_nil. cbn [is_req is_ans]. split; lia.
  Qed.
  Lemma msg_acct i st m x y : handle_message up down maxr fuel init i st m x = Ok y -> forall st',
    times (is_req st') (sv_tr y) = times (is_req st') (sv_tr x) /\
    (times (is_ans st') (sv_tr y) + nwait st' (sv_pend y) =
     times (is_ans st') (sv_tr x) + nwait st' (sv_pend x) + bit (match m with MAcquire _ => Nat.eqb st' st | _ => false end))%nat.
  Proof.
    assert (Q : forall x y, quietly x y -> forall st',
      times (is_req st') (sv_tr y) = times (is_req st') (sv_tr x) /\
      (times (is_ans st') (sv_tr y) + nwait st' (sv_pend y) = times (is_ans st') (sv_tr x) + nwait st' (sv_pend x))%nat).
    { intros x0 y0 [A [l [B C]]] st'. rewrite A, B, !times_app. destruct (noreq_times l st' C) as [-> ->]. auto. }
    unfold handle_message. intros H st'. destruct m as [t|pb|pb w|e|]; cbn [bit]; rewrite ?Nat.add_0_r; try discriminate.
    - destruct (handle_acquire _ _ _ _ _ _ _ _ _) as [z|] eqn:E; [|discriminate]. cbn [bind] in H. injection H as <-.
      destruct (Q _ _ (besides_quietly _ _ (proj1 (check_all_spec z))) st') as [-> ->]. eapply acq_acct; eauto.
    - destruct (safe_release _ _ _ _ _ _ _ _ _) as [z|] eqn:E; [|discriminate]. cbn [bind] in H. injection H as <-.
      apply Q. eapply quietly_trans; [eapply safe_quietly; eauto|apply besides_quietly, check_all_spec].
    - destruct (safe_release _ _ _ _ _ _ _ _ _) as [z|] eqn:E; [|discriminate]. cbn [bind] in H. injection H as <-.
      apply Q. eapply quietly_trans; [eapply safe_quietly; eauto|]. eapply quietly_trans; [|apply besides_quietly, check_all_spec].
      constructor; [reflexivity|]. eexists. split; [reflexivity|]. repeat constructor.
  Qed.
  Lemma iteration_acct i x y : iteration up down maxr fuel init i x = Ok y -> acct x -> acct y.
  Proof.
    unfold iteration. destruct (handle_messages _ _ _ _ _ _ _) as [z|] eqn:E; [|discriminate]. cbn [bind].
    destruct (check_lost _ _ _ _ _ _ _) as [w|] eqn:L; [|discriminate]. cbn [bind].
    destruct (i_health i); [|discriminate]. cbn [bind]. intros H A. injection H as <-.
    assert (Az : acct z).
    { unfold handle_messages in E. destruct (i_get i) as [st m| | |e]; try discriminate.
      - intros st'. destruct (msg_acct _ _ _ _ _ E st') as [M1 M2]. rewrite M1, M2.
        cbn [add_tr sv_tr sv_pend]. rewrite !times_app, !times_cons, !times_nil. specialize (A st'). destruct m; cbn [is_req is_ans bit] in *; try lia.
        rewrite (Nat.eqb_sym st' st). destruct (Nat.eqb st st'); cbn; lia.
      - destruct (pfirst (sv_pend x)) as [[[t st] p]|] eqn:P; [|injection E as <-; exact A].
        intros st'. destruct (msg_acct _ _ _ _ _ E st') as [M1 M2]. rewrite M1, M2.
        cbn [add_tr set_pend sv_tr sv_pend]. rewrite !times_app, !times_cons, !times_nil. specialize (A st'). rewrite (nwait_first _ _ _ _ P) in A. cbn [is_req is_ans] in *. lia.
      - injection E as <-. exact A. }
    assert (Aw : acct w).
    { unfold check_lost in L. destruct (get_lost_blocks _ _ _ _) as [[bs b]|]; [|discriminate]. cbn [bind] in L.
      revert L. set (z1 := add_tr (set_book z b) _). assert (A1 : acct z1).
      { apply (quietly_acct z); auto. constructor; [reflexivity|]. eexists. split; [reflexivity|].
        eapply Forall_impl; [|apply lost_notes]. intros c; destruct c; cbn; tauto. }
      revert A1. generalize z1. clear -init. induction bs as [|pb bs IH]; intros x A; cbn [foldM].
      - intros H. injection H as <-. exact A.
      - destruct (sv_release _ _ _ _ _ _ _ _) as [z|] eqn:E; [|discriminate]. cbn [bind]. intros H.
        eapply IH; [|exact H]. eapply quietly_acct; [eapply rel_quietly; eauto|exact A]. }
    destruct (i_tick i); auto. eapply quietly_acct; [|exact Aw]. apply besides_quietly, check_all_spec.
  Qed.
  Lemma loop_acct ins : forall x y, event_loop up down maxr fuel init ins x = Ok y -> acct x -> acct y.
  Proof.
    induction ins as [|i ins IH]; intros x y; cbn [event_loop]; destruct (sv_stop x); try (intros H; injection H as <-; auto).
    destruct (iteration _ _ _ _ _ _ _) as [z|] eqn:E; [|discriminate]. cbn [bind]. intros H A.
    eapply IH; [exact H|]. eapply iteration_acct; eauto.
  Qed.
  Lemma init_acct tasks stopped s0 x : server_init init tasks stopped s0 = Ok x -> acct x.
  Proof.
    intros H. apply (recruit_spec init) in H. destruct H as [H _]. eapply quietly_acct; [apply besides_quietly; exact H|].
    intros st. cbn [sv_tr sv_pend]. rewrite !times_nil. unfold nwait.
    assert (E : forall l : list nat, concat (map snd (map (fun t => (t, @nil nat)) l)) = []) by (induction l; auto).
    rewrite E. reflexivity.
  Qed.
End Acct.
Lemma nwait_waits st p : waits st p <-> (0 < nwait st p)%nat.
Proof.
  unfold nwait, waits. split.
  - intros [t [q [H Hq]]]. assert (I : In st (filter (Nat.eqb st) (concat (map snd p)))).
    { apply filter_In. split; [|apply Nat.eqb_refl]. apply in_concat. exists q. split; auto. apply in_map_iff. exists (t, q). auto. }
    destruct (filter _ _); [destruct I|cbn; lia].
  - destruct (filter _ _) as [|a l] eqn:E; [cbn; lia|]. intros _.
    assert (I : In a (filter (Nat.eqb st) (concat (map snd p)))) by (rewrite E; left; auto).
    apply filter_In in I. destruct I as [I Ea]. apply Nat.eqb_eq in Ea. subst a. apply in_concat in I.
    destruct I as [q [Hq I]]. apply in_map_iff in Hq. destruct Hq as [[t q'] [<- H]]. exists t, q'. auto.
Qed.

(* C35: the task is started before its blocks are sent *)
Definition started t (tr : list act) : Prop := exists ts, In (ANote (NStart t ts)) tr.
Definition asked_ok (a : act) (r : list act) : Prop :=
  match a with ARecv _ (MAcquire t) => started t r | _ => True end.
Definition sent_ok (a : act) (r : list act) : Prop :=
  match a with ASend _ pb => started (b_task (pb_block pb)) r | ARetry t _ => started t r | _ => True end.
Section Started.
  Variables (V : list block) (up down : block -> list block) (seeds : nat -> list block).
  Variable maxr : nat -> Z.
  Variable fuel : nat.
  Hypothesis GG : good_graph V up down seeds.
  Hypothesis EN : enough V fuel.
  Variable s0 : sched.
  Hypothesis FR : fresh V seeds s0.
  Variable tasks : list nat.
  Hypothesis known : forall t, In t tasks -> In t (s_order s0).
  Variable init : nat -> res unit.
  Local Notation steps := (steps up down maxr fuel init held_r (known_a tasks)).
  Local Notation reach := (reach up down maxr fuel s0).
  Lemma started_more t l tr : started t tr -> started t (l ++ tr).
  Proof. intros [ts H]. exists ts. apply in_or_app. auto. Qed.
  Lemma steps_started x y : steps x y -> reach (hist (sv_tr x)) (sv_s x) ->
    each asked_ok (sv_tr y) ->
    each sent_ok (sv_tr x) /\ (forall t q, In (t, q) (sv_pend x) -> q <> [] -> started t (sv_tr x)) ->
    each sent_ok (sv_tr y) /\ (forall t q, In (t, q) (sv_pend y) -> q <> [] -> started t (sv_tr y)).
  Proof.
    intros S R K J. induction S as [|y z S IH U]; auto.
    destruct (step_trace _ _ _ _ _ _ _ _ _ U) as [l El].
    assert (K1 : each asked_ok (sv_tr y)) by (rewrite El in K; eapply each_app; eauto).
    specialize (IH K1). destruct IH as [I1 I2].
    pose proof (steps_reach V up down seeds maxr fuel GG EN s0 FR tasks known init _ _ S R) as Ry.
    assert (ASK : forall t st, asked (sv_tr y) t st -> started t (sv_tr y)).
    { intros t st [r [E|E]]; rewrite E in *; apply (started_more t [_]).
      - exact (proj1 K1).
      - exact (proj1 I1). }
    assert (SAME : sv_pend z = sv_pend y -> forall t q, In (t, q) (sv_pend z) -> q <> [] -> started t (sv_tr z)).
    { intros E t q H N. rewrite E in H. rewrite El. apply started_more. eauto. }
    assert (NC : forall a t r sk, In a (calls t r sk) -> exists e, a = ACall e).
    { intros a t r sk Ha. unfold calls in Ha. apply in_map_iff in Ha. destruct Ha as [e [<- _]]. eauto. }
    destruct U as [st1 m|t st1 p P|chk now t st1 s1 pb sk b A G Ea N|chk t st1 s1 sk A G Ea Er Ep|chk t st1 s1 sk p A G Ea Er Ep P|pick pb s1 G Ea|pb w| |z Ea|b Sb|m L].
    - split; [|apply SAME; reflexivity]. cbn [add_tr sv_tr]. apply each_neutral; auto. intros a [<-|[]] r. exact I.
    - cbn [add_tr set_pend sv_tr sv_pend app each] in *.
      assert (St : started t (sv_tr y) /\ forall u q, In (u, q) p -> q <> [] -> exists q', In (u, q') (sv_pend y) /\ q' <> []).
      { clear -P I2. revert t st1 p P I2. induction (sv_pend y) as [|[u q] w IH]; intros t st p; cbn [pfirst]; [discriminate|].
        destruct q as [|a q].
        - destruct (pfirst w) as [[[t1 st1] p1]|]; [|discriminate]. intros H I2. injection H as <- <- <-.
          destruct (IH _ _ _ eq_refl) as [H1 H2]; [intros u' q' H'; apply I2; right; auto|]. split; auto.
          intros u' q' [H|H] Nq; [injection H as <- <-; congruence|]. destruct (H2 u' q' H Nq) as [q2 [H3 H4]]. exists q2. split; [right; auto|auto].
        - intros H I2. injection H as <- <- <-. split; [eapply I2; [left; reflexivity|discriminate]|].
          intros u' q' [H|H] Nq; [injection H as <- <-; exists (a :: q); split; [left; auto|discriminate]|].
          exists q'. split; [right; auto|auto]. }
      destruct St as [St Sub]. split; [split; auto|].
      intros u q H Nq. destruct (Sub u q H Nq) as [q' [H' N']]. apply (started_more u [_]). eauto.
    - split; [|apply SAME; reflexivity]. cbn [add_tr set_book set_s sv_tr app each sent_ok] in *. split; [exact I|].
      assert (Ec : b_task (pb_block pb) = t).
      { rewrite (reach_touch V up down seeds maxr fuel GG EN s0 FR tasks known _ _ _ Ry G) in Ea.
        pose proof (reach_acquire _ _ _ _ _ _ _ _ _ _ _ _ Ry Ea) as R1.
        exact (proj1 (never_twice V up down seeds maxr fuel GG EN s0 FR _ _ R1 [] _ t pb eq_refl)). }
      split; [rewrite Ec; apply started_more; eapply ASK; eauto|].
      apply each_neutral; auto. intros a Ha r. apply NC in Ha. destruct Ha as [e ->]. exact I.
    - split; [|apply SAME; reflexivity]. cbn [add_tr set_s sv_tr]. apply each_neutral; auto.
      intros a [<-|Ha] r; [exact I|]. apply NC in Ha. destruct Ha as [e ->]. exact I.
    - split.
      + cbn [add_tr set_s set_pend sv_tr]. apply each_neutral; auto.
        intros a [<-|Ha] r; [exact I|]. apply NC in Ha. destruct Ha as [e ->]. exact I.
      + cbn [add_tr set_s set_pend sv_tr sv_pend]. intros u q H Nq.
        change (started u ((ADelay t st1 :: calls t None sk) ++ sv_tr y)). apply started_more.
        assert (X : u = t \/ exists q', In (u, q') (sv_pend y) /\ q' <> []).
        { clear -P H Nq. revert p P H. induction (sv_pend y) as [|[u' q'] w IH]; intros p; cbn [pput]; [discriminate|].
          destruct (Nat.eqb_spec t u') as [->|N].
          - intros E. injection E as <-. intros [H|H]; [injection H as <- <-; auto|]. right. exists q. split; [right; auto|auto].
          - destruct (pput t st1 w) as [r|]; [|discriminate]. cbn [bind]. intros E. injection E as <-. intros [H|H].
            + injection H as <- <-. right. exists q'. split; [left; auto|auto].
            + destruct (IH r eq_refl H) as [|[q2 [H2 N2]]]; auto. right. exists q2. split; [right; auto|auto]. }
        destruct X as [->|[q' [H' N']]]; eauto.
    - split; [|apply SAME; reflexivity]. cbn [add_tr set_s sv_tr]. apply each_neutral; auto. intros a [<-|[<-|[]]] r; exact I.
    - split; [|apply SAME; reflexivity]. cbn [add_tr sv_tr]. apply each_neutral; auto. intros a [<-|[]] r. exact I.
    - split; [|apply SAME; apply (be_pend _ _ (proj1 (check_all_spec y)))].
      destruct (check_all_spec y) as [[_ _ _ [k [-> Hk]]] _]. apply each_neutral; auto.
      intros a Ha r. rewrite Forall_forall in Hk. specialize (Hk a Ha). destruct a; try exact I; destruct Hk.
    - split; [|apply SAME; apply (be_pend _ _ (proj1 (recruit_spec init _ _ Ea)))].
      destruct (recruit_spec init _ _ Ea) as [[_ _ _ [k [-> Hk]]] _]. apply each_neutral; auto.
      intros a Ha r. rewrite Forall_forall in Hk. specialize (Hk a Ha). destruct a; try exact I; destruct Hk.
    - split; [|apply SAME; reflexivity]. exact I1.
    - split; [|apply SAME; reflexivity]. cbn [add_tr sv_tr]. apply each_neutral; auto.
      intros a Ha r. rewrite Forall_forall in L. specialize (L a Ha). destruct a; try exact I; destruct L.
  Qed.
End Started.

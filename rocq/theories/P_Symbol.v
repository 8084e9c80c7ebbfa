(* C76: the symbol shown behind the name of a finished task. *)
From Coq Require Import Lia.
From Verif Require Import SchedProps SchedExec DGFacts2 PipeRun P_SchedCE P_Sched SerialFacts P_Serial
  Server ServerFacts ServerSteps P_Server P_ServerCE Monitor P_Monitor P_Notify.
Open Scope Z_scope.

(* orphaned_count only grows when a block fails for good *)
Section Orphaned.
  Variables (up down : block -> list block) (maxr : nat -> Z) (fuel : nat).
  Definition orphd (s : sched) (t : nat) : Z := ts_orphaned (s_st s t).
  Lemma orphd_ready bs : forall s t, orphd (update_ready_queue s bs) t = orphd s t.
  Proof.
    unfold update_ready_queue. induction bs as [|b bs IH]; intros s t; cbn [fold_left]; auto. rewrite IH.
    unfold orphd, queue_ready_block, upd_st. cbn [s_st upd_q]. unfold upd. destruct (Nat.eqb_spec (b_task (pb_block (PB b CREATED))) t) as [<-|]; auto.
  Qed.
  Lemma orphd_success pick s b s' t : release_block up down maxr fuel pick s (PB b SUCCESS) = Ok s' -> orphd s' t = orphd s t.
  Proof.
    unfold release_block, remove_from_processing. destruct (sremove _ _ _) as [p|]; [|discriminate]. cbn [bind pb_status pb_block].
    destruct (mark_success _ _ _ _ _) as [[sf news]|]; [|discriminate]. cbn [bind]. intros H. injection H as <-. rewrite orphd_ready.
    unfold orphd, upd_st, set_surf. cbn [s_st upd_q]. unfold upd. rewrite ?Nat.eqb_refl. destruct (Nat.eqb_spec (b_task b) t) as [<-|]; reflexivity.
  Qed.
  Lemma orphd_acquire_loop chk u : forall f s s' r sk t, acquire_loop up down maxr fuel chk f s u = Ok (s', r, sk) -> orphd s' t = orphd s t.
  Proof.
    induction f as [|f IH]; intros s s' r sk t; cbn [acquire_loop]; [discriminate|].
    destruct (get_next _) as [[q nb]|]; [|discriminate]. cbn [bind]. destruct nb as [pb|].
    - destruct (precheck _).
      + destruct (release_block _ _ _ _ _ _ _) as [s4|] eqn:E; [|discriminate]. cbn [bind].
        destruct (acquire_loop _ _ _ _ _ _ _ _) as [[[s5 r5] sk5]|] eqn:L; [|discriminate]. cbn [bind]. intros H. injection H as <- <- <-.
        rewrite (IH _ _ _ _ t L), (orphd_success _ _ _ _ t E).
        unfold orphd, upd_st. cbn [s_st upd_q]. unfold upd. rewrite !Nat.eqb_refl. destruct (Nat.eqb_spec u t) as [<-|]; reflexivity.
      + intros H. injection H as <- <- <-. unfold orphd, upd_st. cbn [s_st upd_q]. unfold upd. rewrite !Nat.eqb_refl.
        destruct (Nat.eqb_spec u t) as [<-|]; reflexivity.
    - intros H. injection H as <- <- <-. reflexivity.
  Qed.
  Variables (V : list block) (seeds : nat -> list block) (s0 : sched).
  Hypothesis GG : good_graph V up down seeds.
  Hypothesis EN : enough V fuel.
  Hypothesis FR : fresh V seeds s0.
  Local Notation reach := (reach up down maxr fuel s0).
  Definition of_t (t : nat) (b : block) : Prop := In b V /\ b_task b = t.
  (* a counted orphan exists *)
  Lemma orphd_some h s : reach h s -> forall t, 0 < orphd s t -> exists b, of_t t b /\ orphan up maxr h b.
  Proof.
    intros R. induction R as [|h s t' chk s' r sk R IH E|h s pick pb s' R IH Hb St E]; intros t P.
    - exfalso. unfold orphd in P. destruct (fr_zero _ _ _ FR t) as [_ [_ [_ [_ Z0]]]]. lia.
    - unfold acquire_block in E. rewrite (orphd_acquire_loop _ _ _ _ _ _ _ t E) in P. destruct (IH t P) as [b [Hb [a [Fa A]]]].
      exists b. split; auto. exists a. split; auto. rewrite app_comm_cons. apply perm_mono. exact Fa.
    - assert (M : forall b, orphan up maxr h b -> orphan up maxr (EvRel pb :: h) b).
      { intros b [a [Fa A]]. exists a. split; auto. apply (perm_mono maxr [EvRel pb]). exact Fa. }
      assert (Old : 0 < orphd s t -> exists b, of_t t b /\ orphan up maxr (EvRel pb :: h) b).
      { intros P0. destruct (IH t P0) as [b [B O]]. exists b. auto. }
      destruct pb as [b st]. cbn [pb_status pb_block] in *. destruct St as [-> | ->].
      + apply Old. rewrite (orphd_success _ _ _ _ t E) in P. exact P.
      + destruct (Z_lt_le_dec (n_failed h b) (maxr (b_task b))) as [L|L].
        * apply Old. destruct (retry_step V up down seeds maxr fuel GG _ _ _ s b pick (hi_inv _ _ _ _ _ _ _ _ (reach_HInv V up down seeds maxr fuel GG EN s0 FR h s R)) Hb L)
            as [s2 [E2 [_ [Q _]]]]. rewrite E in E2. injection E2 as <-. unfold orphd in *. rewrite (proj2 (Q t)) in P. exact P.
        * destruct (orphans_exact V up down seeds maxr fuel GG EN s0 FR h s R pick b s' Hb L E) as [sf [orph [_ [_ [A [_ [_ C]]]]]]].
          unfold orphd in *. rewrite C in P. destruct (of_task t orph) as [|x l] eqn:Eo; [apply Old; cbn in P; lia|].
          assert (Hx : In x (of_task t orph)) by (rewrite Eo; left; reflexivity). apply filter_In in Hx. destruct Hx as [Hx Tx]. apply Nat.eqb_eq in Tx.
          destruct (A x Hx) as [Vx Ax]. exists x. split; [split; auto|]. exists b. split; auto.
          assert (Q : n_failed (EvRel (PB b FAILED) :: h) b = n_failed h b + 1).
          { unfold n_failed. cbn [count pb_block pb_status]. rewrite is_block_same. cbn [andb status_eqb]. lia. }
          pose proof (failed_mono h [] b) as Q0. rewrite app_nil_r in Q0. unfold perm_failed. change (n_failed [] b) with 0 in Q0. lia.
  Qed.

  (* what a symbol says of the blocks of its task *)
  Definition says (t : nat) (h : history) (k : mark) : Prop :=
    match k with
    | Tick => forall b, of_t t b -> succeeded h b
    | Cross => exists b, of_t t b /\ perm_failed maxr h b
    | Void => exists b, of_t t b /\ orphan up maxr h b
    | Going => True
    end.
  Lemma says_more t l h k : says t h k -> says t (l ++ h) k.
  Proof.
    destruct k; cbn; auto.
    - intros [b [B F]]. exists b. split; auto. apply perm_mono. exact F.
    - intros [b [B [a [F A]]]]. exists b. split; auto. exists a. split; auto. apply perm_mono. exact F.
    - intros S b B. apply succeeded_app. auto.
  Qed.
  Lemma mark_right h s t : reach h s -> ts_is_done (s_st s t) = true -> says t h (mark_of (s_st s t)).
  Proof.
    intros R D. destruct (counters V up down seeds maxr fuel GG EN s0 FR h s R t) as [_ [C1 [C2 [_ C]]]]. unfold mark_of.
    destruct (Z.ltb_spec 0 (ts_failed (s_st s t))) as [P|P].
    - destruct C2 as [l [_ [C2 L]]]. destruct l as [|b l]; [cbn in L; lia|]. destruct (proj1 (C2 b) (or_introl eq_refl)) as [F T].
      exists b. split; auto. split; auto. apply (i_F _ _ _ _ _ _ _ _ _ (hi_inv _ _ _ _ _ _ _ _ (reach_HInv V up down seeds maxr fuel GG EN s0 FR h s R)) b F).
    - destruct (Z.ltb_spec 0 (ts_orphaned (s_st s t))) as [O|O]; [apply (orphd_some h s R t O)|].
      cbn. intros b B. unfold ts_is_done in D. apply Z.eqb_eq in D.
      assert (Z1 : 0 <= ts_failed (s_st s t)) by (destruct C2 as [l [_ [_ L]]]; lia).
      assert (Z2 : 0 <= ts_orphaned (s_st s t)).
      { destruct (orphan_count_ge V up down seeds maxr fuel GG EN s0 FR h s R t) as [k [[l [_ [_ L]]] Le]]. lia. }
      assert (E : ts_total (s_st s t) = ts_completed (s_st s t)) by lia. rewrite E in C.
      apply (card_eq_all _ _ _ C1 C); [|exact B]. intros x [Sx Tx]. split; auto.
      apply (i_S _ _ _ _ _ _ _ _ _ (hi_inv _ _ _ _ _ _ _ _ (reach_HInv V up down seeds maxr fuel GG EN s0 FR h s R)) x Sx).
  Qed.
  (* what it says when failures lie apart *)
  Definition marked (t : nat) (ts : tstate) (h : history) : Prop :=
    says t h (mark_of ts) /\
    (apart (fun b => In b V) up maxr h -> (forall b, of_t t b -> settled up maxr h b) /\
       (mark_of ts = Void -> forall b, of_t t b -> succeeded h b \/ orphan up maxr h b)).
  Lemma marked_more t ts l h : marked t ts h -> marked t ts (l ++ h).
  Proof.
    intros [S A]. split; [apply says_more; exact S|]. intros AP. destruct (A (apart_back _ _ _ _ _ AP)) as [A1 A2]. split.
    - intros b B. apply settled_mono. auto.
    - intros E b B. destruct (A2 E b B) as [X|[a [F X]]]; [left; apply succeeded_app; exact X|right]. exists a. split; auto. apply perm_mono. exact F.
  Qed.
  Lemma marked_now h s t : reach h s -> ts_is_done (s_st s t) = true -> marked t (s_st s t) h.
  Proof.
    intros R D. split; [apply (mark_right h s t R D)|]. intros AP.
    pose proof (proj1 (done_iff V up down seeds maxr fuel GG EN s0 FR h s R AP t) D) as ST. split; [intros b [Vb Tb]; auto|].
    intros E b [Vb Tb]. destruct (ST b Vb Tb) as [X|[X|X]]; auto. exfalso.
    destruct (counters V up down seeds maxr fuel GG EN s0 FR h s R t) as [_ [_ [[l [_ [C2 L]]] _]]].
    assert (Hb : In b l) by (apply C2; auto). unfold mark_of in E. destruct (Z.ltb_spec 0 (ts_failed (s_st s t))) as [|P]; [discriminate|].
    destruct l; [destruct Hb|cbn in L; lia].
  Qed.

  (* every task reported done is marked right: in the server ... *)
  Variable tasks : list nat.
  Hypothesis known : forall t, In t tasks -> In t (s_order s0).
  Variable init : nat -> res unit.
  Local Notation steps := (steps up down maxr fuel init held_r (known_a tasks)).
  Definition all_marked (x : server) : Prop := forall t ts, In (ANote (NDone t ts)) (sv_tr x) -> marked t ts (hist (sv_tr x)).
  Lemma marked_add x y l : sv_tr y = l ++ sv_tr x -> (forall t ts, ~ In (ANote (NDone t ts)) l) -> all_marked x -> all_marked y.
  Proof.
    intros E D K t ts Hd. rewrite E in *. rewrite hist_app. apply marked_more. apply in_app_or in Hd. destruct Hd as [Hd|Hd]; [destruct (D _ _ Hd)|auto].
  Qed.
  Lemma steps_marked x y : steps x y -> reach (hist (sv_tr x)) (sv_s x) -> all_marked x -> all_marked y.
  Proof.
    intros S R K. induction S as [|y z S IH U]; auto.
    pose proof (steps_reach V up down seeds maxr fuel GG EN s0 FR tasks known init _ _ S R) as Ry.
    assert (NC : forall n t r sk, ~ In (ANote n) (calls t r sk)).
    { intros n t r sk Ha. unfold calls in Ha. apply in_map_iff in Ha. destruct Ha as [e [Ee _]]. discriminate. }
    destruct U as [st m|t st p P|chk now t st s1 pb sk b A G E N|chk t st s1 sk A G E Er Ep|chk t st s1 sk p A G E Er Ep P|pick pb s1 G E|pb w| |z E|b Sb|m L].
    - apply (marked_add y _ [ARecv st m]); auto. intros ? ? [X|[]]; discriminate.
    - apply (marked_add y _ [ARetry t st]); auto. intros ? ? [X|[]]; discriminate.
    - eapply (marked_add y); [cbn [add_tr set_book set_s sv_tr]; reflexivity| |auto]. intros u ts Hd. cbn [app] in Hd. destruct Hd as [X|[X|Hd]]; try discriminate. destruct (NC _ _ _ _ Hd).
    - apply (marked_add y _ (AShutdown t st :: calls t None sk)); auto. intros ? ? [X|X]; [discriminate|destruct (NC _ _ _ _ X)].
    - apply (marked_add y _ (ADelay t st :: calls t None sk)); auto. intros ? ? [X|X]; [discriminate|destruct (NC _ _ _ _ X)].
    - eapply (marked_add y); [cbn [add_tr set_s sv_tr]; reflexivity| |auto]. intros u ts Hd. cbn in Hd. destruct Hd as [X|[X|[]]]; discriminate.
    - apply (marked_add y _ [ANote (NFailure pb w)]); auto. intros ? ? [X|[]]; discriminate.
    - destruct (check_all_spec y) as [B [_ [_ [_ [k [Ek Fk]]]]]]. rewrite Forall_forall in Fk. intros u ts Hd.
      rewrite (besides_hist _ _ B). rewrite Ek in Hd. apply in_app_or in Hd. destruct Hd as [Hd|Hd]; [|apply IH; auto].
      apply Fk in Hd. destruct Hd as [u' [X [_ [D _]]]]. injection X as <- ->. apply marked_now; auto.
    - destruct (recruit_spec init _ _ E) as [_ [_ [_ [_ [k' [Ek' Fk']]]]]].
      apply (marked_add y z (ARecruit (get_ready_tasks (sv_s y)) :: k')); auto.
      intros ? ? [X|X]; [discriminate|]. rewrite Forall_forall in Fk'. apply Fk' in X. destruct X as [? [[X|X] _]]; discriminate.
    - apply (marked_add y _ []); auto.
    - apply (marked_add y _ m); auto. intros; intros X. rewrite Forall_forall in L. apply L in X. exact X.
  Qed.

  (* ... and in the serial server *)
  Variables (all_tasks : list nat) (chk : history -> nat -> block -> check_result) (proc : history -> pyblock -> res status)
    (pick : history -> nat -> list block -> nat).
  Definition all_marked_s (x : serial) : Prop := forall t ts, In (NDone t ts) (ss_notes x) -> marked t ts (ss_h x).
  Lemma block_marked x s1 h1 pb y : reach h1 s1 -> held h1 (pb_block pb) -> (exists l, h1 = l ++ ss_h x) ->
    serial_block up down maxr fuel proc pick x s1 h1 pb = Ok y -> all_marked_s x -> all_marked_s y.
  Proof.
    intros R H [l El]. unfold serial_block. destruct (mem _ _ (ss_funcs x)); [|discriminate]. destruct (proc h1 pb) as [st0|]; [|discriminate].
    cbn [bind]. set (st := if status_eqb st0 FAILED then FAILED else SUCCESS).
    assert (St : st = SUCCESS \/ st = FAILED) by (unfold st; destruct (status_eqb st0 FAILED); auto).
    destruct (release_block _ _ _ _ _ _ _) as [s2|] eqn:Er; [|discriminate]. cbn [bind].
    pose proof (reach_release _ _ _ _ _ _ _ _ (PB (pb_block pb) st) _ R H St Er) as R2. intros E K.
    set (t0 := b_task (pb_block pb)) in *. set (h2 := EvRel (PB (pb_block pb) st) :: h1) in *.
    set (n2 := NRelease t0 (s_st s2 t0) :: NAcquire t0 (s_st s1 t0) :: (if mem Nat.eqb t0 (ss_started x) then ss_notes x else NStart t0 (s_st s1 t0) :: ss_notes x)) in *.
    assert (Old : forall t ts, In (NDone t ts) n2 -> marked t ts h2).
    { intros t ts Hd. assert (Hd' : In (NDone t ts) (ss_notes x)).
      { unfold n2 in Hd. destruct Hd as [X|[X|Hd]]; try discriminate. destruct (mem _ _ (ss_started x)); auto. destruct Hd as [X|Hd]; [discriminate|auto]. }
      apply K in Hd'. unfold h2. rewrite El. apply (marked_more t ts (EvRel (PB (pb_block pb) st) :: l)). exact Hd'. }
    destruct (ts_is_done (s_st s2 t0)) eqn:D.
    - destruct (sremove _ _ _); [|discriminate]. cbn [bind] in E. injection E as <-. intros t ts. cbn [ss_notes ss_h]. intros [X|Hd]; [|auto].
      injection X as <- <-. apply marked_now; auto.
    - injection E as <-. exact Old.
  Qed.
  Lemma loop_marked n : forall x y, reach (ss_h x) (ss_s x) -> (forall b, n_released (ss_h x) b <= n_handed (ss_h x) b) ->
    serial_loop up down maxr fuel all_tasks chk proc pick n x = Ok y -> all_marked_s x -> all_marked_s y.
  Proof.
    induction n as [|n IH]; intros x y R K; cbn [serial_loop]; [discriminate|].
    destruct (set_eqb _ _); [intros E; injection E as <-; auto|].
    destruct (first_block _ _ _ _ _ _ _ _) as [[[s1 r] h1]|] eqn:Ef; [|discriminate]. cbn [bind].
    destruct (first_reach _ _ _ _ _ _ _ _ _ _ _ _ R K Ef) as [R1 [K1 X]]. destruct (first_moves _ _ _ _ _ _ _ _ _ _ _ Ef) as [_ [L _]].
    destruct r as [pb|].
    - destruct (serial_block _ _ _ _ _ _ _ _ _ _) as [z|] eqn:Ez; [|discriminate]. cbn [bind].
      destruct (block_reach _ _ _ _ _ _ _ _ _ _ _ _ R1 K1 X Ez) as [R2 K2]. intros E M. pose proof (block_marked _ _ _ _ _ R1 X L Ez M) as Mz.
      destruct (ss_funcs z); [injection E as <-; auto|eapply IH; eauto].
    - intros E M. injection E as <-. intros t ts Hd. cbn [ss_h ss_notes] in *. destruct L as [l ->]. apply marked_more. auto.
  Qed.
End Orphaned.

(* the marks of a sequence of notifications *)
Lemma marks_snoc l n : marks (l ++ [n]) = mark_step (marks l) n.
Proof. unfold marks. rewrite fold_left_app. reflexivity. Qed.
Lemma marks_done l : forall t k, dget (marks l) t = Some k -> k = Going \/ exists ts, In (NDone t ts) l /\ k = mark_of ts.
Proof.
  induction l as [|n l IH] using rev_ind; intros t k; [discriminate|]. rewrite marks_snoc.
  assert (M : dget (marks l) t = Some k -> k = Going \/ exists ts, In (NDone t ts) (l ++ [n]) /\ k = mark_of ts).
  { intros H. destruct (IH t k H) as [|[ts [Hd E]]]; auto. right. exists ts. split; auto. apply in_or_app. auto. }
  assert (U : forall u, dget match dget (marks l) u with Some _ => marks l | None => dset (marks l) u Going end t = Some k ->
     k = Going \/ exists ts, In (NDone t ts) (l ++ [n]) /\ k = mark_of ts).
  { intros u. destruct (dget (marks l) u); auto. rewrite dget_dset. destruct (Nat.eqb t u); auto. intros H. injection H as <-. auto. }
  destruct n as [u ts|u ts|u ts|u ts|pb w|]; cbn [mark_step]; try apply U; try apply M.
  destruct (dget (marks l) u) eqn:Eu; auto. rewrite dget_dset. destruct (Nat.eqb_spec t u) as [->|]; auto.
  intros H. injection H as <-. right. exists ts. split; auto. apply in_or_app. right. left. reflexivity.
Qed.
Lemma marks_some l : forall t, last_state t l <> None <-> dget (marks l) t <> None.
Proof.
  induction l as [|n l IH] using rev_ind; intros t; [cbn; tauto|]. rewrite marks_snoc, last_app.
  assert (U : forall u ts, match (if Nat.eqb u t then Some ts else None) with Some ts => Some ts | None => last_state t l end <> None <->
      dget match dget (marks l) u with Some _ => marks l | None => dset (marks l) u Going end t <> None).
  { intros u ts. destruct (Nat.eqb_spec u t) as [->|N].
    - destruct (dget (marks l) t) eqn:E; [rewrite E|rewrite dget_dset, Nat.eqb_refl]; split; discriminate.
    - rewrite IH. destruct (dget (marks l) u); [tauto|]. rewrite dget_dset. destruct (Nat.eqb_spec t u); [congruence|tauto]. }
  destruct n as [u ts|u ts|u ts|u ts|pb w|]; cbn [mark_step last_state]; auto.
  rewrite IH. destruct (dget (marks l) u) eqn:Eu; [|tauto]. rewrite dget_dset. destruct (Nat.eqb_spec t u) as [->|]; [|tauto].
  rewrite Eu. split; discriminate.
Qed.
(* a task reported done after its last update does not look as if it was going on *)
Lemma marks_over l : forall t l1 ts l2, l = l1 ++ NDone t ts :: l2 -> last_state t l1 <> None -> dget (marks l) t <> Some Going.
Proof.
  intros t l1 ts l2 ->. revert l2. induction l2 as [|n l2 IH] using rev_ind; intros L.
  - rewrite marks_snoc. cbn [mark_step]. apply marks_some in L. destruct (dget (marks l1) t) eqn:E; [|congruence].
    rewrite dget_dset, Nat.eqb_refl. unfold mark_of. destruct (_ <? _); [discriminate|]. destruct (_ <? _); discriminate.
  - rewrite app_comm_cons, app_assoc, marks_snoc. specialize (IH L). set (d := marks (l1 ++ NDone t ts :: l2)) in *.
    assert (D : dget d t <> None).
    { apply marks_some. rewrite last_app. destruct (last_state t (NDone t ts :: l2)); [discriminate|exact L]. }
    assert (U : forall u, dget match dget d u with Some _ => d | None => dset d u Going end t <> Some Going).
    { intros u. destruct (dget d u) eqn:Eu; auto. rewrite dget_dset. destruct (Nat.eqb_spec t u) as [->|]; [congruence|auto]. }
    destruct n as [u us|u us|u us|u us|pb w|]; cbn [mark_step]; auto.
    destruct (dget d u); auto. rewrite dget_dset. destruct (Nat.eqb t u); auto. unfold mark_of. destruct (_ <? _); [discriminate|]. destruct (_ <? _); discriminate.
Qed.
(* there is a symbol exactly where there is a bar *)
Theorem C76_bars l m : mon_run l = Ok m -> forall t, dget (marks l) t <> None <-> dget (m_bars m) t <> None.
Proof.
  revert m. induction l as [|n l IH] using rev_ind; intros m; [intros E; injection E as <-; cbn; tauto|].
  unfold mon_run. assert (G : forall i, foldM mon_step (l ++ [n]) i = (x <- foldM mon_step l i ;; mon_step x n)).
  { clear. induction l as [|a l IH]; intros i; cbn [foldM app bind]; [destruct (mon_step i n); reflexivity|]. destruct (mon_step i a); [|reflexivity]. cbn [bind]. apply IH. }
  rewrite G. destruct (foldM mon_step l mon_init) as [m0|] eqn:E0; [|discriminate]. cbn [bind]. specialize (IH m0 E0).
  rewrite marks_snoc. intros E t.
  assert (U : forall u b (k : mark), dget match dget (marks l) u with Some _ => marks l | None => dset (marks l) u k end t <> None <-> dget (dset (m_bars m0) u b) t <> None).
  { intros u b k. rewrite dget_dset. destruct (Nat.eqb_spec t u) as [->|N].
    - destruct (dget (marks l) u) eqn:Eu; [rewrite Eu|rewrite dget_dset, Nat.eqb_refl]; split; discriminate.
    - rewrite <- IH. destruct (dget (marks l) u); [tauto|]. rewrite dget_dset. destruct (Nat.eqb_spec t u); [congruence|tauto]. }
  destruct n as [u ts|u ts|u ts|u ts|pb w|]; cbn [mon_step mark_step] in *.
  - injection E as <-. apply IH.
  - injection E as <-. unfold update_state. cbn [m_bars]. apply U.
  - injection E as <-. unfold update_state. cbn [m_bars]. apply U.
  - injection E as <-. cbn [m_bars]. pose proof (IH u) as IHu. destruct (dget (marks l) u), (dget (m_bars m0) u); try (exfalso; assert (X : None <> None) by (apply IHu; discriminate); congruence); auto.
    rewrite !dget_dset. destruct (Nat.eqb t u); [split; discriminate|apply IH].
  - destruct (dget (m_sums m0) _); [|discriminate]. injection E as <-. apply IH.
  - injection E as <-. cbn [m_bars]. rewrite dget_map. rewrite IH. destruct (dget (m_bars m0) t); cbn; split; auto; discriminate.
Qed.

(* ---- C76 ---- *)
(* The statement, for the blocks of the pipeline: what a symbol means. *)
Definition means (tasks : list task) ord ordt (d : dgraph) (h : history) (t : nat) (k : mark) : Prop :=
  let mine b := pipe_block tasks b /\ b_task b = t in
  match k with
  | Tick => forall b, mine b -> succeeded h b
  | Cross => exists b, mine b /\ perm_failed (dg_max_retries d) h b
  | Void => exists b, mine b /\ orphan (dg_up ord ordt d) (dg_max_retries d) h b
  | Going => True
  end.

Section Ends.
  Variables (tasks : list task) (ord : list block -> list block) (ordt : list nat -> list nat) (d : dgraph) (s0 : sched) (fuel : nat).
  Variables (h : history) (s : sched).
  Hypothesis PR : pipe_run tasks ord ordt d s0 fuel h s.
  Hypothesis IV : inverse tasks ord ordt d.
  Hypothesis FO : fuel_ok tasks fuel.
  Local Notation V := (pblocks d).
  Local Notation up := (dg_up ord ordt d).
  Local Notation maxr := (dg_max_retries d).
  Lemma mine_of t b : of_t V t b <-> pipe_block tasks b /\ b_task b = t.
  Proof. unfold of_t. rewrite (run_in _ _ _ _ _ _ _ _ PR b). tauto. Qed.
  Lemma says_means t k : says up maxr V t h k -> means tasks ord ordt d h t k.
  Proof.
    destruct k; cbn; auto.
    - intros [b [B F]]. exists b. rewrite <- mine_of. auto.
    - intros [b [B F]]. exists b. rewrite <- mine_of. auto.
    - intros S b B. apply S. apply mine_of. exact B.
  Qed.
  Let GG := run_good _ _ _ _ _ _ _ _ PR IV.
  Let EN := run_enough _ _ _ _ _ _ _ _ PR FO.
  Let FR := run_fresh _ _ _ _ _ _ _ _ PR.
  Let RR := pr_reach _ _ _ _ _ _ _ _ PR.
  (* of the three symbols of a finished task, exactly the right one *)
  Lemma exactly t ts : apart_failures tasks ord ordt d h -> marked up maxr V t ts h -> means tasks ord ordt d h t (mark_of ts) ->
    (mark_of ts = Tick <-> forall b, pipe_block tasks b -> b_task b = t -> succeeded h b) /\
    (mark_of ts = Cross <-> exists b, pipe_block tasks b /\ b_task b = t /\ perm_failed maxr h b) /\
    (mark_of ts = Void <-> (forall b, pipe_block tasks b -> b_task b = t -> ~ perm_failed maxr h b) /\
                           exists b, pipe_block tasks b /\ b_task b = t /\ orphan up maxr h b).
  Proof.
    intros AF [_ M] ME. pose proof (hi_inv _ _ _ _ _ _ _ _ (reach_HInv V up _ _ maxr fuel GG EN s0 FR h s RR)) as I.
    destruct (M (apart_low _ _ _ _ _ _ _ _ PR AF)) as [ST VD]. clear M.
    assert (SF : forall b, succeeded h b -> ~ perm_failed maxr h b) by (intros b S; apply (i_S _ _ _ _ _ _ _ _ _ I b S)).
    assert (SO : forall b, succeeded h b -> ~ orphan up maxr h b) by (intros b S; apply (succ_norph V up _ _ maxr fuel GG EN s0 FR h s RR b S)).
    assert (FO' : forall b, perm_failed maxr h b -> ~ orphan up maxr h b) by (intros b S; apply (failed_norph V up _ _ maxr fuel GG EN s0 FR h s RR b S)).
    assert (VF : mark_of ts = Void -> forall b, pipe_block tasks b -> b_task b = t -> ~ perm_failed maxr h b).
    { intros E b Pb Tb F. assert (B : of_t V t b) by (apply mine_of; auto). destruct (VD E b B) as [X|X]; [exact (SF b X F)|exact (FO' b F X)]. }
    assert (NG : mark_of ts <> Going) by (unfold mark_of; destruct (_ <? _); [discriminate|]; destruct (_ <? _); discriminate).
    unfold means in ME. destruct (mark_of ts) eqn:K; [congruence| | |].
    - destruct ME as [b [[Pb Tb] F]]. split; [|split]; split; intros X; try discriminate; auto.
      + exfalso. exact (SF b (X b Pb Tb) F).
      + exists b. auto.
      + exfalso. destruct X as [X _]. exact (X b Pb Tb F).
    - destruct ME as [b [[Pb Tb] F]]. specialize (VF eq_refl). split; [|split]; split; intros X; try discriminate; auto.
      + exfalso. exact (SO b (X b Pb Tb) F).
      + exfalso. destruct X as [c [Pc [Tc Fc]]]. exact (VF c Pc Tc Fc).
      + split; auto. exists b. auto.
    - split; [|split]; split; intros X; try discriminate; auto.
      + exfalso. destruct X as [c [Pc [Tc Fc]]]. apply (SF c); auto.
      + exfalso. destruct X as [_ [c [Pc [Tc Fc]]]]. apply (SO c); auto.
  Qed.
End Ends.

(* when failures lie apart, the symbol of a finished task is the right one of the three *)
Definition right_symbol (tasks : list task) ord ordt (d : dgraph) (h : history) (t : nat) (k : mark) : Prop :=
  (k = Tick <-> forall b, pipe_block tasks b -> b_task b = t -> succeeded h b) /\
  (k = Cross <-> exists b, pipe_block tasks b /\ b_task b = t /\ perm_failed (dg_max_retries d) h b) /\
  (k = Void <-> (forall b, pipe_block tasks b -> b_task b = t -> ~ perm_failed (dg_max_retries d) h b) /\
                exists b, pipe_block tasks b /\ b_task b = t /\ orphan (dg_up ord ordt d) (dg_max_retries d) h b).

Lemma server_marked tasks ord ordt d s0 fuel init stopped ins y : server_run_to tasks ord ordt d s0 fuel init stopped ins y ->
  all_marked (dg_up ord ordt d) (dg_max_retries d) (pblocks d) y.
Proof.
  intros R. eapply (steps_marked (dg_up ord ordt d) (dg_down ord ordt d) (dg_max_retries d) fuel (pblocks d) (root_seeds d) s0
      (a_good _ _ _ _ _ _ _ _ _ _ R) (a_enough _ _ _ _ _ _ _ _ _ _ R) (a_fresh _ _ _ _ _ _ _ _ _ _ R)
      (map t_id tasks) (a_known _ _ _ _ _ _ _ _ _ _ R) init _ _ (a_steps _ _ _ _ _ _ _ _ _ _ R)); [constructor|intros ? ? []].
Qed.
(* At any time, the symbols on the bars of a monitor attached to the server mean what they say. *)
Theorem C76_server_partial : forall tasks ord ordt d s0 fuel init stopped ins y t k,
  server_run_to tasks ord ordt d s0 fuel init stopped ins y ->
  dget (marks (rev (notes (sv_tr y)))) t = Some k ->
  means tasks ord ordt d (hist (sv_tr y)) t k /\
  (apart_failures tasks ord ordt d (hist (sv_tr y)) -> k <> Going -> right_symbol tasks ord ordt d (hist (sv_tr y)) t k).
Proof.
  intros tasks ord ordt d s0 fuel init stopped ins y t k R Dk. pose proof (server_marked _ _ _ _ _ _ _ _ _ _ R) as M.
  apply marks_done in Dk. destruct Dk as [-> | [ts [Hd ->]]]; [split; [exact I|congruence]|].
  apply in_rev in Hd. apply in_notes in Hd. apply M in Hd.
  assert (ME : means tasks ord ordt d (hist (sv_tr y)) t (mark_of ts)).
  { eapply says_means; [apply (a_pipe _ _ _ _ _ _ _ _ _ _ R)|apply Hd]. }
  split; auto. intros AF _. destruct R. eapply exactly; eauto. eapply a_pipe. constructor; eauto.
Qed.
Print Assumptions C76_server_partial.
(* and when the server has stopped every task of which a block was handed out has its final symbol *)
Theorem C76_server_end_partial : forall tasks ord ordt d s0 fuel init ins y t pb,
  server_run_to tasks ord ordt d s0 fuel init false ins y -> sv_stop y = true ->
  apart_failures tasks ord ordt d (hist (sv_tr y)) -> In (EvHand t pb) (hist (sv_tr y)) ->
  exists k, dget (marks (rev (notes (sv_tr y)))) t = Some k /\ k <> Going /\ right_symbol tasks ord ordt d (hist (sv_tr y)) t k.
Proof.
  intros tasks ord ordt d s0 fuel init ins y t pb R Sp F Hh. pose proof (sr_run _ _ _ _ _ _ _ _ _ _ R) as H.
  destruct (C52_server _ _ _ _ _ _ _ _ _ _ H) as [W1 _].
  assert (L : last_state t (rev (notes (sv_tr y))) <> None).
  { apply told_update. rewrite W1. unfold moved_for. apply in_flat_map. exists (EvHand t pb). split; auto. left. reflexivity. }
  assert (K : done_ok (pblocks d) (dg_up ord ordt d) (dg_max_retries d) y).
  { eapply (steps_done (pblocks d) _ _ (root_seeds d) _ _ (a_good _ _ _ _ _ _ _ _ _ _ R) (a_enough _ _ _ _ _ _ _ _ _ _ R) s0
      (a_fresh _ _ _ _ _ _ _ _ _ _ R) (map t_id tasks) (a_known _ _ _ _ _ _ _ _ _ _ R) init _ _ (a_steps _ _ _ _ _ _ _ _ _ _ R)
      (a_two _ _ _ _ _ _ _ _ _ _ R F)).
    - constructor.
    - split; [intros ? ? []|exact I]. }
  destruct K as [_ K].
  assert (Ht : In t (s_order s0)).
  { apply in_split in Hh. destruct Hh as [h2 [h1 Hh]].
    pose proof (ok_at _ _ _ _ _ _ (a_good _ _ _ _ _ _ _ _ _ _ R) (a_enough _ _ _ _ _ _ _ _ _ _ R) s0 (a_fresh _ _ _ _ _ _ _ _ _ _ R) _ _
      (pr_reach _ _ _ _ _ _ _ _ (a_pipe _ _ _ _ _ _ _ _ _ _ R)) _ _ _ Hh) as O. cbn in O. destruct O as [Vb [Tb _]].
    rewrite <- Tb. apply (a_knownV _ _ _ _ _ _ _ _ _ _ R). exact Vb. }
  destruct (proj1 (C35_done_reported _ _ _ _ _ _ _ _ _ H) Sp t Ht) as [ts Hd].
  apply in_split in Hd. destruct Hd as [k2 [k1 E]].
  assert (EN : rev (notes (sv_tr y)) = rev (notes k1) ++ NDone t ts :: rev (notes k2)).
  { rewrite E. change (k2 ++ ANote (NDone t ts) :: k1) with (k2 ++ [ANote (NDone t ts)] ++ k1). rewrite !notes_app. cbn. rewrite !rev_app_distr. cbn. rewrite <- app_assoc. reflexivity. }
  assert (L1 : last_state t (rev (notes k1)) <> None).
  { intros L1. rewrite EN, last_app in L. cbn [last_state] in L. rewrite L1 in L.
    assert (U : exists n, In n (rev (notes k2)) /\ updates t n = true).
    { destruct (last_state t (rev (notes k2))) as [ts'|] eqn:Q; [|congruence]. clear -Q. revert Q. generalize (rev (notes k2)). intros l.
      induction l as [|n l IH]; [discriminate|]. cbn [last_state]. destruct (last_state t l).
      - intros Q. destruct (IH Q) as [x [Hx U]]. exists x. split; [right; exact Hx|exact U].
      - intros Q. exists n. split; [left; reflexivity|]. destruct n; try discriminate; cbn; destruct (Nat.eqb _ _); auto; discriminate. }
    destruct U as [n [Hn U]]. apply in_rev in Hn. apply in_notes in Hn. apply in_split in Hn. destruct Hn as [q2 [q1 ->]].
    rewrite E in K. rewrite <- app_assoc in K. cbn [app] in K. apply each_at in K. cbn in K. apply (K t ts U). apply in_or_app. right. left. reflexivity. }
  destruct (dget (marks (rev (notes (sv_tr y)))) t) as [k|] eqn:Dk; [|exfalso; apply (proj1 (marks_some _ _) L Dk)].
  exists k. split; auto. assert (G : k <> Going) by (intros ->; eapply marks_over; eauto). split; auto.
  eapply C76_server_partial; eauto.
Qed.
Print Assumptions C76_server_end_partial.
(* the same for the serial server; its last notification changes no symbol *)
Theorem C76_serial_partial : forall tasks ord ordt d s0 fuel chk proc pick n y t k,
  pipe_ok tasks -> is_order ord -> is_order ordt -> sched_init tasks = Ok (d, s0) -> inverse tasks ord ordt d -> fuel_ok tasks fuel ->
  serial_pipe tasks ord ordt d fuel chk proc pick n s0 = Ok y ->
  dget (marks (rev (ss_notes y))) t = Some k ->
  means tasks ord ordt d (ss_h y) t k /\
  (apart_failures tasks ord ordt d (ss_h y) -> k <> Going -> right_symbol tasks ord ordt d (ss_h y) t k).
Proof.
  intros tasks ord ordt d s0 fuel chk proc pick n y t k PO HO HOt E IV FO Ey Dk.
  pose proof (serial_is_run _ _ _ _ _ _ _ _ _ _ _ PO HO HOt E Ey) as PR.
  unfold serial_pipe, serial_run in Ey. destruct (serial_loop _ _ _ _ _ _ _ _ _ _) as [x|] eqn:El; [|discriminate]. cbn [bind] in Ey. injection Ey as <-.
  cbn [ss_notes ss_h ss_s] in *.
  assert (M : all_marked_s (dg_up ord ordt d) (dg_max_retries d) (pblocks d) x).
  { eapply (loop_marked _ _ _ _ (pblocks d) (root_seeds d) s0 (run_good _ _ _ _ _ _ _ _ PR IV) (run_enough _ _ _ _ _ _ _ _ PR FO) (run_fresh _ _ _ _ _ _ _ _ PR)); [| |exact El|].
    - constructor.
    - intros b. cbn. lia.
    - intros ? ? []. }
  apply marks_done in Dk. destruct Dk as [-> | [ts [Hd ->]]]; [split; [exact I|congruence]|].
  apply in_rev in Hd. destruct Hd as [Hd|Hd]; [discriminate|]. apply M in Hd.
  assert (ME : means tasks ord ordt d (ss_h x) t (mark_of ts)) by (eapply says_means; [exact PR|apply Hd]).
  split; auto. intros AF _. eapply exactly; eauto.
Qed.
Print Assumptions C76_serial_partial.

(* The run of server_example: the first task is done, in the second one block failed for good, the third lacks the block
   that depends on it. *)
Definition mark_eqb (a b : mark) : bool :=
  match a, b with Going, Going | Cross, Cross | Void, Void | Tick, Tick => true | _, _ => false end.
Definition shows (l : list (nat * mark)) (y : server) : bool :=
  forallb (fun tk => match dget (marks (rev (notes (sv_tr y)))) (fst tk) with Some k => mark_eqb k (snd tk) | None => false end) l.
Lemma shows_ok l y : shows l y = true -> forall t k, In (t, k) l -> dget (marks (rev (notes (sv_tr y)))) t = Some k.
Proof.
  unfold shows. rewrite forallb_forall. intros H t k Hk. apply H in Hk. cbn [fst snd] in Hk. destruct (dget _ t) as [k'|]; [|discriminate].
  destruct k', k; try discriminate; reflexivity.
Qed.
Example C76_example : exists d s0 fuel ins y,
  server_run_to ex_row idl idl d s0 fuel no_init false ins y /\ sv_stop y = true /\ apart_failures ex_row idl idl d (hist (sv_tr y)) /\
  let m := marks (rev (notes (sv_tr y))) in dget m 1 = Some Tick /\ dget m 2 = Some Cross /\ dget m 3 = Some Void.
Proof.
  destruct (serve_run ex_row 100 no_check ex_row_script
    (fun d y => forallb (fun b => Nat.leb (length (dg_up idl idl d b)) 2) (pblocks d) && sv_stop y && shows [(1%nat, Tick); (2%nat, Cross); (3%nat, Void)] y)
    ex_row_ok ex_row_edges) as [d [s0 [ins [y [R H]]]]].
  { vm_compute. reflexivity. }
  pose proof (a_pipe _ _ _ _ _ _ _ _ _ _ R) as PR. apply andb_prop in H. destruct H as [H Sh]. apply andb_prop in H. destruct H as [H Sp].
  rewrite forallb_forall in H. pose proof (shows_ok _ _ Sh) as Q.
  exists d, s0, 100%nat, ins, y. split; [exact R|]. split; auto. split.
  { eapply few_apart; [exact PR|apply (sr_inverse _ _ _ _ _ _ _ _ _ _ R)|apply (sr_fuel _ _ _ _ _ _ _ _ _ _ R)|]. intros c Hc. apply (run_in _ _ _ _ _ _ _ _ PR), H in Hc. apply Nat.leb_le in Hc. exact Hc. }
  cbv zeta. split; [|split]; apply Q; cbn; auto.
Qed.
Print Assumptions C76_example.

(* Without the condition: the fourth task requires the first three, the fifth the third, each has two blocks.  A block of the
   fourth task depends on a block of the first that fails, and then on one of the second that fails.  Between that, the
   fifth task finishes its block.  The orphan is counted twice; the task is reported done, with the symbol for orphaned blocks,
   while its other block is under way.  That one fails for good, and the symbol stays. *)
Definition ce_s (n : nat) (ups : list task) : task := Task n (Roi [0] [2]) (Roi [0] [1]) (Roi [0] [1]) false Valid 1 0 ups.
Definition ce_five : list task := let a := ce_s 1 [] in let b := ce_s 2 [] in let c := ce_s 3 [] in [a; b; c; ce_s 4 [a; b; c]; ce_s 5 [c]].
Lemma ce_five_ok : pipe_ok ce_five.
Proof. unfold ce_five, ce_s. pipe_ok_tac. Qed.
Lemma ce_five_edges : edges_ok ce_five.
Proof.
  intros t u Ht Hu. unfold ce_five, ce_s in *. pipe_tac;
  (constructor; try discriminate;
   [intros i Hi; cbn in Hi; destruct i as [|i]; [reflexivity|lia]
   |intros [k [[L _] X]]; specialize (X O); cbn in *; lia..]).
Qed.
Definition ce_five_script : list cmd :=
  [Ask 1 1; Ask 1 2; Ask 2 3; Ask 2 4; Ask 3 5; Ask 3 6; Ret (1%nat, 1) SUCCESS; Ret (2%nat, 1) SUCCESS; Ret (3%nat, 1) SUCCESS; Ask 4 7;
   Ret (3%nat, 0) SUCCESS; Fail (1%nat, 0); Ask 5 8; Ask 5 9; Ret (5%nat, 0) SUCCESS; Fail (2%nat, 0); Wait [] false; Fail (4%nat, 1)].
Theorem C76_failure_hidden_refuted : exists d s0 fuel ins y b,
  server_run_to ce_five idl idl d s0 fuel no_init false ins y /\ dget (marks (rev (notes (sv_tr y)))) 4 = Some Void /\
  pipe_block ce_five b /\ b_task b = 4%nat /\ perm_failed (dg_max_retries d) (hist (sv_tr y)) b.
Proof.
  destruct (serve_run ce_five 200 no_check ce_five_script
    (fun d y => shows [(4%nat, Void)] y && some_block (fun b => Nat.eqb (b_task b) 4 && perm_b d (hist (sv_tr y)) b) d)
    ce_five_ok ce_five_edges) as [d [s0 [ins [y [R H]]]]].
  { vm_compute. reflexivity. }
  pose proof (a_pipe _ _ _ _ _ _ _ _ _ _ R) as PR. apply andb_prop in H. destruct H as [Sh H].
  apply existsb_exists in H. destruct H as [b [Hb H]]. apply andb_prop in H. destruct H as [Tb Fb]. apply Nat.eqb_eq in Tb. rewrite perm_b_true in Fb.
  exists d, s0, 200%nat, ins, y, b. split; [exact R|]. split; [apply (shows_ok _ _ Sh); left; reflexivity|].
  split; [apply (run_in _ _ _ _ _ _ _ _ PR); exact Hb|]. auto.
Qed.
Print Assumptions C76_failure_hidden_refuted.

(* What the servers tell their observers, and a progress monitor attached to a server (C52). *)
From Coq Require Import Lia.
From Verif Require Import SchedProps SchedExec DGFacts2 PipeRun P_SchedCE P_Sched SerialFacts P_Serial
  Server ServerFacts ServerSteps P_Server P_ServerCE Monitor P_Monitor.
Open Scope Z_scope.

(* the notifications of a trace of the server, newest first *)
Definition notes (tr : list act) : list note := flat_map (fun a => match a with ANote n => [n] | _ => [] end) tr.
(* the task whose blocks the scheduler hands out and takes back, in that order *)
Inductive move := Hand (t : nat) | Back (t : nat).
Definition moved (h : history) : list move :=
  flat_map (fun e => match e with
                     | EvHand _ pb => [Hand (b_task (pb_block pb))]
                     | EvRel pb => [Back (b_task (pb_block pb))]
                     | _ => []
                     end) h.
Definition told (l : list note) : list move :=
  flat_map (fun n => match n with NAcquire t _ => [Hand t] | NRelease t _ => [Back t] | _ => [] end) l.
Lemma moved_app h k : moved (h ++ k) = moved h ++ moved k.
Proof. apply flat_map_app. Qed.
Lemma told_app h k : told (h ++ k) = told h ++ told k.
Proof. apply flat_map_app. Qed.
Lemma notes_app h k : notes (h ++ k) = notes h ++ notes k.
Proof. apply flat_map_app. Qed.

(* The life of a task as an observer sees it (newest notification first): it is started, then its
   blocks are acquired and released one at a time, then it may be done, and after that nothing. *)
Inductive phase := Unseen | Idle | Busy | Over.
Definition about (t : nat) (n : note) : bool :=
  match n with
  | NStart u _ | NAcquire u _ | NRelease u _ | NDone u _ => Nat.eqb u t
  | NFailure pb _ => Nat.eqb (b_task (pb_block pb)) t
  | NExit => false
  end.
Inductive life (t : nat) : list note -> phase -> Prop :=
| life_nil : life t [] Unseen
| life_start ts l : life t l Unseen -> life t (NStart t ts :: l) Idle
| life_acquire ts l : life t l Idle -> life t (NAcquire t ts :: l) Busy
| life_release ts l : life t l Busy -> life t (NRelease t ts :: l) Idle
| life_done ts l : life t l Idle -> ts_is_done ts = true -> life t (NDone t ts :: l) Over
| life_other n l p : about t n = false -> life t l p -> life t (n :: l) p.

(* the number of completed blocks of t: as last told, or as it was *)
Definition shown (k : Z) (t : nat) (l : list note) : Z :=
  match last_state t (rev l) with Some ts => ts_completed ts | None => k end.
Lemma shown_cons k t n l : shown k t (n :: l) =
  match n with NAcquire u ts | NRelease u ts => if Nat.eqb u t then ts_completed ts else shown k t l | _ => shown k t l end.
Proof.
  unfold shown. cbn [rev]. rewrite last_app. destruct n; cbn [last_state]; auto; destruct (Nat.eqb _ _); auto.
Qed.
Definition skips_of (t : nat) (h : history) : Prop := exists b, In (EvSkip b) h /\ b_task b = t.

(* completed_count changes only when a block of the task is released as successful, or skipped *)
Section Completed.
  Variables (up down : block -> list block) (maxr : nat -> Z) (fuel : nat).
  Definition comp (s : sched) (t : nat) : Z := ts_completed (s_st s t).
  Lemma comp_ready bs : forall s t, comp (update_ready_queue s bs) t = comp s t.
  Proof.
    unfold update_ready_queue. induction bs as [|b bs IH]; intros s t; cbn [fold_left]; auto. rewrite IH.
    unfold comp, queue_ready_block, upd_st. cbn [s_st upd_q]. unfold upd. destruct (Nat.eqb_spec (b_task (pb_block (PB b CREATED))) t) as [<-|]; auto.
  Qed.
  Lemma comp_orphans bs : forall s t, comp (fold_left (fun s o => upd_st s (b_task o) (ts_add_orphaned 1)) bs s) t = comp s t.
  Proof.
    induction bs as [|b bs IH]; intros s t; cbn [fold_left]; auto. rewrite IH.
    unfold comp, upd_st. cbn [s_st]. unfold upd. destruct (Nat.eqb_spec (b_task b) t) as [<-|]; auto.
  Qed.
  Lemma comp_release pick s pb s' t : release_block up down maxr fuel pick s pb = Ok s' -> b_task (pb_block pb) <> t -> comp s' t = comp s t.
  Proof.
    unfold release_block, remove_from_processing. destruct (sremove _ _ _) as [p|]; [|discriminate]. cbn [bind].
    intros H N. assert (N' : Nat.eqb (b_task (pb_block pb)) t = false) by (apply Nat.eqb_neq; auto).
    destruct (pb_status pb); try discriminate.
    - destruct (mark_success _ _ _ _ _) as [[sf news]|]; [|discriminate]. cbn [bind] in H. injection H as <-. rewrite comp_ready.
      unfold comp, upd_st, set_surf. cbn [s_st upd_q]. unfold upd. rewrite N'. auto.
    - destruct (_ <=? _).
      + destruct (mark_failure _ _ _ _ _ _ _) as [[sf orph]|]; [|discriminate]. cbn [bind] in H. injection H as <-. rewrite comp_orphans.
        unfold comp, upd_st, set_surf. cbn [s_st upd_q]. unfold upd. rewrite N'. auto.
      + injection H as <-. unfold comp, queue_ready_block, upd_st. cbn [s_st upd_q]. unfold upd. rewrite N'. auto.
  Qed.
  Lemma comp_acquire_loop chk u : forall f s s' r sk t, acquire_loop up down maxr fuel chk f s u = Ok (s', r, sk) ->
    (forall b, In b sk -> b_task b <> t) -> comp s' t = comp s t.
  Proof.
    induction f as [|f IH]; intros s s' r sk t; cbn [acquire_loop]; [discriminate|].
    destruct (get_next _) as [[q nb]|]; [|discriminate]. cbn [bind]. destruct nb as [pb|].
    - destruct (precheck _).
      + destruct (release_block _ _ _ _ _ _ _) as [s4|] eqn:E; [|discriminate]. cbn [bind].
        destruct (acquire_loop _ _ _ _ _ _ _ _) as [[[s5 r5] sk5]|] eqn:L; [|discriminate]. cbn [bind]. intros H N. injection H as <- <- <-.
        rewrite (IH _ _ _ _ _ L) by (intros b Hb; apply N; right; auto).
        rewrite (comp_release _ _ _ _ t E) by (apply N; left; auto).
        unfold comp, upd_st. cbn [s_st upd_q]. unfold upd. rewrite !Nat.eqb_refl. destruct (Nat.eqb_spec u t) as [<-|]; reflexivity.
      + intros H _. injection H as <- <- <-. unfold comp, upd_st. cbn [s_st upd_q]. unfold upd. rewrite !Nat.eqb_refl.
        destruct (Nat.eqb_spec u t) as [<-|]; reflexivity.
    - intros H _. injection H as <- <- <-. reflexivity.
  Qed.
  Lemma comp_acquire chk u s s' r sk t : acquire_block up down maxr fuel chk s u = Ok (s', r, sk) ->
    (forall b, In b sk -> b_task b <> t) -> comp s' t = comp s t.
  Proof. apply comp_acquire_loop. Qed.
End Completed.

(* ---- the serial server, for any scheduler and any user functions ---- *)
Section SerialNotes.
  Variables (up down : block -> list block) (maxr : nat -> Z) (fuel : nat) (all_tasks : list nat).
  Variable chk : history -> nat -> block -> check_result.
  Variable proc : history -> pyblock -> res status.
  Variable pick : history -> nat -> list block -> nat.
  Variable s0 : sched.
  Definition ph (x : serial) (t : nat) : phase :=
    if mem Nat.eqb t (ss_finished x) then Over else if mem Nat.eqb t (ss_started x) then Idle else Unseen.
  Record NInv (x : serial) : Prop := {
    ni_life : forall t, life t (ss_notes x) (ph x t);
    ni_funcs : forall t, In t (ss_finished x) -> ~ In t (ss_funcs x);
    ni_plain : forall n, In n (ss_notes x) -> (exists t, about t n = true) /\ forall pb w, n <> NFailure pb w;
    ni_moves : told (ss_notes x) = moved (ss_h x);
    ni_shown : forall t, ~ skips_of t (ss_h x) -> shown (comp s0 t) t (ss_notes x) = comp (ss_s x) t
  }.
  Lemma first_moves ts : forall h s s1 r h1, first_block up down maxr fuel chk ts h s = Ok (s1, r, h1) ->
    moved h1 = match r with Some pb => Hand (b_task (pb_block pb)) :: moved h | None => moved h end /\
    (exists l, h1 = l ++ h) /\
    forall t, ~ skips_of t h1 -> comp s1 t = comp s t.
  Proof.
    assert (SK : forall sk, moved (rev (map EvSkip sk)) = []).
    { intros sk. unfold moved. induction sk as [|b sk IH]; auto. cbn. rewrite flat_map_app, IH. reflexivity. }
    induction ts as [|u ts IH]; intros h s s1 r h1; cbn [first_block].
    - intros H. injection H as <- <- <-. split; auto. split; auto. exists []. auto.
    - destruct (acquire_block _ _ _ _ _ _ _) as [[[s' b] sk]|] eqn:E; [|discriminate]. cbn [bind]. destruct b as [pb|].
      + intros H. injection H as <- <- <-. split; [|split].
        * change (EvHand u pb :: ?l) with ([EvHand u pb] ++ l). rewrite !moved_app, SK. reflexivity.
        * exists (EvHand u pb :: rev (map EvSkip sk)). reflexivity.
        * intros t N. eapply comp_acquire; eauto. intros b Hb Et. apply N. exists b. split; auto. right.
          apply in_or_app. left. apply -> in_rev. apply in_map. auto.
      + intros H. destruct (IH _ _ _ _ _ H) as [M [[l El] C]]. split; [|split].
        * rewrite M. change (EvNone u :: ?l) with ([EvNone u] ++ l). rewrite !moved_app, SK. reflexivity.
        * exists (l ++ EvNone u :: rev (map EvSkip sk)). rewrite El, <- app_assoc. reflexivity.
        * intros t N. rewrite (C t N). eapply comp_acquire; eauto. intros b Hb Et. apply N. exists b. split; auto. rewrite El.
          apply in_or_app. right. right. apply in_or_app. left. apply -> in_rev. apply in_map. auto.
  Qed.
  Lemma block_ninv x s1 h1 pb y : NInv x -> moved h1 = Hand (b_task (pb_block pb)) :: moved (ss_h x) ->
    (forall t, ~ skips_of t h1 -> comp s1 t = comp (ss_s x) t) -> (exists l, h1 = l ++ ss_h x) ->
    serial_block up down maxr fuel proc pick x s1 h1 pb = Ok y -> NInv y.
  Proof.
    intros I M C [hl Eh] H. unfold serial_block in H. set (t := b_task (pb_block pb)) in *.
    destruct (mem Nat.eqb t (ss_funcs x)) eqn:Fn; [|discriminate]. apply mem_nat in Fn.
    destruct (proc h1 pb) as [st|]; [|discriminate]. cbn [bind] in H.
    set (st' := if status_eqb st FAILED then FAILED else SUCCESS) in *.
    destruct (release_block _ _ _ _ _ _ _) as [s2|] eqn:E; [|discriminate]. cbn [bind] in H.
    assert (NF : mem Nat.eqb t (ss_finished x) = false).
    { destruct (mem Nat.eqb t (ss_finished x)) eqn:F; auto. apply mem_nat in F. exfalso. apply (ni_funcs _ I t F Fn). }
    set (n0 := if mem Nat.eqb t (ss_started x) then ss_notes x else NStart t (s_st s1 t) :: ss_notes x) in *.
    set (n2 := NRelease t (s_st s2 t) :: NAcquire t (s_st s1 t) :: n0) in *.
    assert (L0 : life t n0 Idle).
    { pose proof (ni_life _ I t) as L. unfold ph in L. rewrite NF in L. unfold n0. destruct (mem _ t (ss_started x)); auto. constructor. auto. }
    assert (L2 : life t n2 Idle) by (unfold n2; constructor; constructor; auto).
    assert (O2 : forall u, u <> t -> life u n2 (ph x u)).
    { intros u Nu. assert (Q : Nat.eqb t u = false) by (apply Nat.eqb_neq; auto). unfold n2, n0.
      apply life_other; [exact Q|]. apply life_other; [exact Q|]. destruct (mem _ t (ss_started x)); [apply ni_life; auto|].
      apply life_other; [exact Q|]. apply ni_life. auto. }
    assert (P2 : forall n, In n n2 -> (exists u, about u n = true) /\ forall pb w, n <> NFailure pb w).
    { unfold n2, n0. intros n [<-|[<-|Hn]]; [| |].
      - split; [exists t; apply Nat.eqb_refl|discriminate].
      - split; [exists t; apply Nat.eqb_refl|discriminate].
      - destruct (mem _ t (ss_started x)); [apply (ni_plain _ I n Hn)|]. destruct Hn as [<-|Hn]; [|apply (ni_plain _ I n Hn)].
        split; [exists t; apply Nat.eqb_refl|discriminate]. }
    assert (T2 : told n2 = Back t :: Hand t :: moved (ss_h x)).
    { unfold n2, n0. cbn. f_equal. f_equal. rewrite <- (ni_moves _ I). destruct (mem _ t (ss_started x)); reflexivity. }
    assert (M2 : moved (EvRel (PB (pb_block pb) st') :: h1) = Back t :: Hand t :: moved (ss_h x)) by (cbn; fold (moved h1); rewrite M; reflexivity).
    assert (S2 : forall u, ~ skips_of u (EvRel (PB (pb_block pb) st') :: h1) -> shown (comp s0 u) u n2 = comp s2 u).
    { intros u Nu. unfold n2. rewrite !shown_cons.
      destruct (Nat.eqb_spec t u) as [<-|N]; [reflexivity|]. unfold n0.
      assert (Q : shown (comp s0 u) u (if mem Nat.eqb t (ss_started x) then ss_notes x else NStart t (s_st s1 t) :: ss_notes x) = shown (comp s0 u) u (ss_notes x)).
      { destruct (mem _ t (ss_started x)); auto. rewrite shown_cons. reflexivity. }
      assert (K1 : ~ skips_of u h1) by (intros [b [Hb Eb]]; apply Nu; exists b; split; auto; right; auto).
      rewrite Q, (ni_shown _ I), <- C; auto.
      - symmetry. eapply comp_release; eauto.
      - intros [b [Hb Eb]]. apply K1. exists b. split; auto. rewrite Eh. apply in_or_app. auto. }
    assert (PH : forall u, u <> t -> mem Nat.eqb u (sadd Nat.eqb t (ss_started x)) = mem Nat.eqb u (ss_started x)).
    { intros u Nu. rewrite mem_sadd. destruct (Nat.eqb_spec u t); [congruence|reflexivity]. }
    destruct (ts_is_done (s_st s2 t)) eqn:D.
    - destruct (sremove Nat.eqb t (sadd Nat.eqb t (ss_started x))) as [started'|] eqn:Er; [|discriminate]. cbn [bind] in H. injection H as <-.
      assert (Er' : started' = sdel Nat.eqb t (sadd Nat.eqb t (ss_started x))).
      { unfold sremove in Er. destruct (mem _ _ _) in Er; [|discriminate]. injection Er as <-. reflexivity. }
      constructor; cbn [ss_notes ss_h ss_s ss_finished ss_started ss_funcs].
      + intros u. destruct (Nat.eq_dec u t) as [->|Nu].
        * unfold ph. cbn [ss_finished ss_started]. rewrite mem_sadd, Nat.eqb_refl. cbn [orb]. constructor; auto.
        * apply life_other; [apply Nat.eqb_neq; auto|]. assert (Q : ph x u = ph (SS s2 (EvRel (PB (pb_block pb) st') :: h1) started' (sadd Nat.eqb t (ss_finished x)) (sdel Nat.eqb t (ss_funcs x)) (NDone t (s_st s2 t) :: n2)) u).
          { unfold ph. cbn [ss_finished ss_started]. rewrite mem_sadd. destruct (Nat.eqb_spec u t); [congruence|]. cbn [orb].
            destruct (mem _ u (ss_finished x)); auto. rewrite <- (PH u Nu). subst started'. clear -Nu.
            destruct (mem Nat.eqb u (sdel Nat.eqb t (sadd Nat.eqb t (ss_started x)))) eqn:A, (mem Nat.eqb u (sadd Nat.eqb t (ss_started x))) eqn:B; auto.
            - apply mem_nat in A. apply in_sdel_nat in A. destruct A as [_ A]. apply mem_nat in A. congruence.
            - apply mem_nat in B. assert (A' : In u (sdel Nat.eqb t (sadd Nat.eqb t (ss_started x)))) by (apply in_sdel_nat; auto). apply mem_nat in A'. congruence. }
          rewrite <- Q. apply O2. auto.
      + intros u Hu. rewrite in_sadd_nat in Hu. rewrite in_sdel_nat. destruct Hu as [->|Hu]; [tauto|].
        intros [_ K]. apply (ni_funcs _ I u Hu K).
      + intros n [<-|Hn]; [split; [exists t; apply Nat.eqb_refl|discriminate]|auto].
      + rewrite M2. exact T2.
      + intros u Nu. rewrite shown_cons. apply S2. exact Nu.
    - injection H as <-. constructor; cbn [ss_notes ss_h ss_s ss_finished ss_started ss_funcs].
      + intros u. destruct (Nat.eq_dec u t) as [->|Nu].
        * unfold ph. cbn [ss_finished ss_started]. rewrite NF, mem_sadd, Nat.eqb_refl. exact L2.
        * unfold ph. cbn [ss_finished ss_started]. rewrite (PH u Nu). apply O2. auto.
      + apply (ni_funcs _ I).
      + exact P2.
      + rewrite M2. exact T2.
      + exact S2.
  Qed.
  Lemma loop_ninv n : forall x y, NInv x -> serial_loop up down maxr fuel all_tasks chk proc pick n x = Ok y -> NInv y.
  Proof.
    induction n as [|n IH]; intros x y I; cbn [serial_loop]; [discriminate|].
    destruct (set_eqb _ _); [intros H; injection H as <-; exact I|].
    destruct (first_block _ _ _ _ _ _ _ _) as [[[s1 b] h1]|] eqn:E; [|discriminate]. cbn [bind].
    destruct (first_moves _ _ _ _ _ _ E) as [M [L C]]. destruct b as [pb|].
    - destruct (serial_block _ _ _ _ _ _ _ _ _ _) as [z|] eqn:B; [|discriminate]. cbn [bind].
      pose proof (block_ninv _ _ _ _ _ I M C L B) as Iz.
      destruct (ss_funcs z); [intros H; injection H as <-; exact Iz|apply IH; exact Iz].
    - intros H. injection H as <-. destruct I as [I1 I2 I3 I4 I5]. constructor; auto; cbn [ss_notes ss_h ss_s].
      + rewrite M. auto.
      + intros t N. rewrite (C t N). apply I5. intros [b [Hb Eb]]. apply N. exists b. split; auto.
        destruct L as [l ->]. apply in_or_app. auto.
  Qed.
  Lemma init_ninv : NInv (serial_init all_tasks s0).
  Proof using.
    constructor; cbn.
    - intros t. constructor.
    - intros t [].
    - intros n [].
    - reflexivity.
    - reflexivity.
  Qed.
End SerialNotes.

(* C52, serial server: whatever the scheduler and the user's functions do, if run_blockwise returns, every
   task was started at most once, before its blocks; acquisitions and releases were reported, alternating,
   exactly as they happened; done was reported at most once, for a task that is_done, with nothing after
   it; the end of the server was reported last and once. *)
Theorem C52_serial : forall up down maxr fuel all_tasks chk proc pick n s0 y,
  serial_run up down maxr fuel all_tasks chk proc pick n s0 = Ok y ->
  exists l, ss_notes y = NExit :: l /\ ~ In NExit l /\
    (forall t, exists p, life t l p /\ p <> Busy) /\
    told l = moved (ss_h y) /\
    forall pb w, ~ In (NFailure pb w) l.
Proof.
  intros up down maxr fuel all_tasks chk proc pick n s0 y H. unfold serial_run in H.
  destruct (serial_loop _ _ _ _ _ _ _ _ _ _) as [x|] eqn:E; [|discriminate]. cbn [bind] in H. injection H as <-.
  pose proof (loop_ninv _ _ _ _ _ _ _ _ _ _ _ _ (init_ninv all_tasks s0) E) as I. cbn [ss_notes ss_h].
  exists (ss_notes x). split; auto. split; [|split; [|split]].
  - intros K. destruct (ni_plain _ _ I _ K) as [[t T] _]. discriminate.
  - intros t. exists (ph x t). split; [apply (ni_life _ _ I)|]. unfold ph. destruct (mem _ _ _); [|destruct (mem _ _ _)]; discriminate.
  - apply (ni_moves _ _ I).
  - intros pb w K. destruct (ni_plain _ _ I _ K) as [_ F]. apply (F pb w). reflexivity.
Qed.
Print Assumptions C52_serial.

(* ---- the monitor's bar when nothing is told about a task after its end ---- *)
Definition updates (t : nat) (n : note) : bool :=
  match n with NAcquire u _ | NRelease u _ => Nat.eqb u t | _ => false end.
Definition quiet_end (t : nat) (l : list note) : Prop :=   (* oldest first *)
  forall l1 n l2, l = l1 ++ n :: l2 -> ends t n = true -> forall k, In k l2 -> updates t k = false.
Lemma bar_end l : forall m, mon_run l = Ok m -> forall t, quiet_end t l ->
  match last_state t l with
  | Some ts => exists b, dget (m_bars m) t = Some b /\ bar_n b = ts_completed ts
  | None => dget (m_bars m) t = None
  end.
Proof.
  induction l as [|n l IH] using rev_ind; intros m E t Q.
  - injection E as <-. reflexivity.
  - apply run_app in E. destruct E as [m0 [E0 E1]].
    assert (Q0 : quiet_end t l).
    { intros l1 k l2 El Ek x Hx. apply (Q l1 k (l2 ++ [n])); auto; [rewrite El, <- app_assoc; reflexivity|apply in_or_app; auto]. }
    specialize (IH m0 E0 t Q0). rewrite last_app.
    destruct (updates t n) eqn:U.
    + assert (NE : forall k, In k l -> ends t k = false).
      { intros k Hk. destruct (ends t k) eqn:Ek; auto. apply in_split in Hk. destruct Hk as [l1 [l2 ->]].
        rewrite <- (Q l1 k (l2 ++ [n])) with (k := n); auto; [rewrite <- app_assoc; reflexivity|apply in_or_app; right; left; auto]. }
      pose proof (bar_inv l m0 E0 t NE) as B.
      assert (X : exists ts, (n = NAcquire t ts \/ n = NRelease t ts)).
      { destruct n; try discriminate; cbn in U; apply Nat.eqb_eq in U; subst; eauto. }
      destruct X as [ts X].
      assert (Em : m = update_state t ts m0) by (destruct X as [-> | ->]; injection E1 as <-; reflexivity).
      assert (El : last_state t [n] = Some ts) by (destruct X as [-> | ->]; cbn; rewrite Nat.eqb_refl; reflexivity).
      rewrite El, Em. unfold update_state. cbn [m_bars]. rewrite dget_dset, Nat.eqb_refl. eexists. split; [reflexivity|].
      destruct (last_state t l) as [ts0|].
      * destruct B as [b [-> [B1 B2]]]. unfold bar_update. rewrite B2. cbn. lia.
      * rewrite B. cbn. lia.
    + assert (El : last_state t [n] = None) by (destruct n; cbn in *; auto; rewrite U; auto). rewrite El.
      assert (X : match dget (m_bars m0) t with
                  | Some b => exists b', dget (m_bars m) t = Some b' /\ bar_n b' = bar_n b
                  | None => dget (m_bars m) t = None end).
      { destruct n as [u ts|u ts|u ts|u ts|pb w|]; cbn [mon_step updates] in *.
        - injection E1 as <-. cbn [m_bars]. destruct (dget (m_bars m0) t); eauto.
        - injection E1 as <-. unfold update_state. cbn [m_bars]. rewrite dget_dset, (Nat.eqb_sym t u), U. destruct (dget (m_bars m0) t); eauto.
        - injection E1 as <-. unfold update_state. cbn [m_bars]. rewrite dget_dset, (Nat.eqb_sym t u), U. destruct (dget (m_bars m0) t); eauto.
        - injection E1 as <-. cbn [m_bars]. destruct (dget (m_bars m0) u) as [bu|] eqn:D; [|destruct (dget (m_bars m0) t); eauto].
          rewrite dget_dset. destruct (Nat.eqb_spec t u) as [->|]; [|destruct (dget (m_bars m0) t); eauto].
          rewrite D. eexists. split; reflexivity.
        - destruct (dget (m_sums m0) _); [|discriminate]. injection E1 as <-. cbn [m_bars]. destruct (dget (m_bars m0) t); eauto.
        - injection E1 as <-. cbn [m_bars]. rewrite dget_map. destruct (dget (m_bars m0) t); cbn; eauto. }
      destruct (last_state t l) as [ts|].
      * destruct IH as [b [Db Nb]]. rewrite Db in X. destruct X as [b' [Db' Nb']]. exists b'. split; auto. congruence.
      * rewrite IH in X. exact X.
Qed.
Lemma life_quiet t l p : life t l p -> p <> Over -> forall n, In n l -> n <> NExit -> ends t n = false.
Proof.
  induction 1 as [|ts l L IH|ts l L IH|ts l L IH|ts l L IH D|n l p A L IH]; intros P m Hm NX.
  - destruct Hm.
  - destruct Hm as [<-|Hm]; auto. apply IH; auto. discriminate.
  - destruct Hm as [<-|Hm]; auto. apply IH; auto. discriminate.
  - destruct Hm as [<-|Hm]; auto. apply IH; auto. discriminate.
  - congruence.
  - destruct Hm as [<-|Hm]; auto. destruct n; cbn in *; auto; congruence.
Qed.
Lemma life_over t l p : life t l p -> forall l2 n l1, l = l2 ++ n :: l1 -> ends t n = true -> n <> NExit ->
  forall k, In k l2 -> about t k = false.
Proof.
  induction 1 as [|ts l L IH|ts l L IH|ts l L IH|ts l L IH D|n l p A L IH]; intros l2 m l1 E En NX k Hk;
    (destruct l2 as [|a l2]; [destruct Hk|]); try discriminate; injection E as <- E.
  - exfalso. assert (ends t m = false); [|congruence]. apply (life_quiet _ _ _ L); [discriminate| |auto]. rewrite E. apply in_or_app. right. left. auto.
  - exfalso. assert (ends t m = false); [|congruence]. apply (life_quiet _ _ _ L); [discriminate| |auto]. rewrite E. apply in_or_app. right. left. auto.
  - exfalso. assert (ends t m = false); [|congruence]. apply (life_quiet _ _ _ L); [discriminate| |auto]. rewrite E. apply in_or_app. right. left. auto.
  - exfalso. assert (ends t m = false); [|congruence]. apply (life_quiet _ _ _ L); [discriminate| |auto]. rewrite E. apply in_or_app. right. left. auto.
  - destruct Hk as [<-|Hk]; auto. eapply IH; eauto.
Qed.
Lemma summary_get cur m t l : dget (m_sums m) t = Some l -> dget (summary cur m) t = Some (report_of (cur t) l).
Proof.
  unfold summary. induction (m_sums m) as [|[u x] d IH]; [discriminate|]. cbn. intros S.
  destruct (Nat.eqb_spec t u) as [->|]; auto. injection S as ->. reflexivity.
Qed.
Lemma told_update t l : In (Hand t) (told l) -> last_state t (rev l) <> None.
Proof.
  intros H. assert (X : exists n, In n (rev l) /\ updates t n = true).
  { unfold told in H. apply in_flat_map in H. destruct H as [n [Hn H]]. exists n. split; [apply -> in_rev; auto|].
    destruct n; cbn in H; try (destruct H; fail); destruct H as [H|[]]; try discriminate; injection H as ->; apply Nat.eqb_refl. }
  destruct X as [n [Hn U]]. apply in_split in Hn. destruct Hn as [l1 [l2 ->]]. rewrite last_app. cbn [last_state].
  destruct (last_state t l2); [discriminate|]. destruct n; try discriminate; cbn in U; rewrite U; discriminate.
Qed.
Lemma life_start_split t l p : life t l p -> p <> Unseen -> exists l2 ts l1, l = l2 ++ NStart t ts :: l1 /\
  (forall n, In n l2 -> starts t n = false) /\ forall n, In n l1 -> about t n = false.
Proof.
  assert (U : forall l, life t l Unseen -> forall n, In n l -> about t n = false).
  { intros l0 L. remember Unseen as p0 eqn:Ep. induction L; try discriminate; [intros ? []|]. intros m [<-|Hm]; auto. }
  induction 1 as [|ts l L IH|ts l L IH|ts l L IH|ts l L IH D|n l p A L IH]; intros P; [congruence| | | | |].
  - exists [], ts, l. split; auto. split; [intros ? []|]. apply U. auto.
  - destruct IH as [l2 [ts' [l1 [-> [A B]]]]]; [discriminate|]. exists (NAcquire t ts :: l2), ts', l1. split; auto. split; auto. intros n [<-|Hn]; auto.
  - destruct IH as [l2 [ts' [l1 [-> [A B]]]]]; [discriminate|]. exists (NRelease t ts :: l2), ts', l1. split; auto. split; auto. intros n [<-|Hn]; auto.
  - destruct IH as [l2 [ts' [l1 [-> [A B]]]]]; [discriminate|]. exists (NDone t ts :: l2), ts', l1. split; auto. split; auto. intros n [<-|Hn]; auto.
  - destruct (IH P) as [l2 [ts' [l1 [-> [A' B]]]]]. exists (n :: l2), ts', l1. split; auto. split; auto. intros m [<-|Hm]; auto.
    destruct n; auto.
Qed.
(* the exit of the server: the bars are closed, and stay as they are *)
Theorem C52_exit : forall l m, mon_run l = Ok m -> exists m', mon_run (l ++ [NExit]) = Ok m' /\ m_sums m' = m_sums m /\
  forall t, match dget (m_bars m) t with
            | Some b => exists b', dget (m_bars m') t = Some b' /\ bar_closed b' = true /\ bar_n b' = bar_n b
            | None => dget (m_bars m') t = None
            end.
Proof.
  intros l m E. assert (G : forall i, foldM mon_step l i = Ok m -> foldM mon_step (l ++ [NExit]) i = mon_step m NExit).
  { clear. induction l as [|n l IH]; intros i; cbn [foldM app].
    - intros E. injection E as ->. cbn. reflexivity.
    - destruct (mon_step i n); [|discriminate]. cbn [bind]. apply IH. }
  unfold mon_run. rewrite (G _ E). eexists. split; [reflexivity|]. split; [reflexivity|]. cbn [m_bars]. intros t.
  rewrite dget_map. destruct (dget (m_bars m) t) as [b|]; [|reflexivity]. eexists. split; [reflexivity|]. split; reflexivity.
Qed.
Print Assumptions C52_exit.

(* C52, a monitor attached to the serial server: it never raises; it has a bar and a summary for every task of
   which a block ran; unless blocks were skipped the bar ends at completed_count; the list of failed blocks is
   always empty. *)
Theorem C52_serial_monitor : forall up down maxr fuel all_tasks chk proc pick n s0 y,
  serial_run up down maxr fuel all_tasks chk proc pick n s0 = Ok y ->
  exists m, mon_run (rev (ss_notes y)) = Ok m /\ (forall t b, dget (m_bars m) t = Some b -> bar_closed b = true) /\
    forall t pb, In (EvRel pb) (ss_h y) -> b_task (pb_block pb) = t ->
      (exists b, dget (m_bars m) t = Some b /\ (~ skips_of t (ss_h y) -> bar_n b = ts_completed (s_st (ss_s y) t))) /\
      (exists r, dget (summary (s_st (ss_s y)) m) t = Some r /\ r_failures r = [] /\ r_more r = 0 /\
         r_completed r = ts_completed (s_st (ss_s y) t) /\ r_failed r = ts_failed (s_st (ss_s y) t)).
Proof.
  intros up down maxr fuel all_tasks chk proc pick n s0 y H.
  destruct (C52_serial _ _ _ _ _ _ _ _ _ _ _ H) as [l [El [NX [LF [TM NF]]]]].
  destruct (C48_no_exception (rev (ss_notes y))) as [m Em].
  { intros l1 pb w l2 E. exfalso. apply (NF pb w). assert (K : In (NFailure pb w) (ss_notes y)) by (apply in_rev; rewrite E; apply in_or_app; right; left; auto).
    rewrite El in K. destruct K as [K|K]; [discriminate|exact K]. }
  exists m. split; auto. split.
  { intros t b Hb. rewrite El in Em. cbn [rev] in Em. pose proof Em as Em'. apply run_app in Em'. destruct Em' as [m0 [E0 _]].
    destruct (C52_exit _ _ E0) as [m' [Em2 [_ X]]]. rewrite Em in Em2. injection Em2 as <-. specialize (X t). rewrite Hb in X.
    destruct (dget (m_bars m0) t); [|discriminate]. destruct X as [b' [Xb [Xc _]]]. congruence. }
  intros t pb HR Et.
  assert (HB : In (Back t) (moved (ss_h y))).
  { unfold moved. apply in_flat_map. exists (EvRel pb). split; auto. left. rewrite Et. reflexivity. }
  assert (HD : exists p, life t l p /\ p <> Unseen).
  { destruct (LF t) as [p [Lp _]]. exists p. split; auto. intros ->. rewrite <- TM in HB.
    clear -Lp HB. remember Unseen as p0 eqn:Ep. induction Lp; try discriminate; [destruct HB|].
    destruct n; cbn in *; try (apply IHLp; auto; fail); destruct HB as [HB|HB]; try (apply IHLp; auto; fail); try congruence.
    injection HB as ->. rewrite Nat.eqb_refl in H. discriminate. }
  destruct HD as [p [Lp Np]].
  assert (LS : last_state t (rev (ss_notes y)) <> None).
  { rewrite <- TM in HB. unfold told in HB. apply in_flat_map in HB. destruct HB as [k [Hk HB]].
    assert (U : updates t k = true) by (destruct k; cbn in HB; try (destruct HB; fail); destruct HB as [HB|[]]; try discriminate; injection HB as ->; apply Nat.eqb_refl).
    rewrite El. cbn [rev]. rewrite last_app. cbn [last_state].
    apply in_rev in Hk. apply in_split in Hk. destruct Hk as [l1 [l2 ->]]. rewrite last_app. cbn [last_state].
    destruct (last_state t l2); [discriminate|]. destruct k; try discriminate; cbn in U; rewrite U; discriminate. }
  assert (QE : quiet_end t (rev (ss_notes y))).
  { intros l1 k l2 E Ek x Hx. assert (E' : ss_notes y = rev l2 ++ k :: rev l1).
    { rewrite <- (rev_involutive (ss_notes y)), E, rev_app_distr. cbn [rev]. rewrite <- app_assoc. reflexivity. }
    rewrite El in E'. apply in_rev in Hx. destruct (rev l2) as [|a l2'] eqn:R2; [destruct Hx|]. injection E' as <- E'.
    destruct Hx as [<-|Hx]; auto.
    assert (KX : k <> NExit) by (intros ->; apply NX; rewrite E'; apply in_or_app; right; left; auto).
    pose proof (life_over _ _ _ Lp _ _ _ E' Ek KX x Hx) as A. destruct x; auto. }
  split.
  - pose proof (bar_end _ _ Em t QE) as B. destruct (last_state t (rev (ss_notes y))) as [ts|] eqn:L; [|congruence].
    destruct B as [b [B1 B2]]. exists b. split; auto. intros NS. rewrite B2.
    unfold serial_run in H. destruct (serial_loop _ _ _ _ _ _ _ _ _ _) as [x|] eqn:E; [|discriminate]. cbn [bind] in H. injection H as <-.
    pose proof (loop_ninv _ _ _ _ _ _ _ _ _ _ _ _ (init_ninv all_tasks s0) E) as I. cbn [ss_notes ss_h ss_s] in *. injection El as <-.
    pose proof (ni_shown _ _ I t NS) as S. unfold shown in S. cbn [rev] in L. rewrite last_app in L. cbn [last_state] in L. rewrite L in S. exact S.
  - destruct (life_start_split _ _ _ Lp Np) as [l2 [ts [l1 [E1 [E2 E3]]]]].
    assert (E : rev (ss_notes y) = rev l1 ++ NStart t ts :: (rev l2 ++ [NExit])).
    { rewrite El, E1. cbn [rev]. rewrite rev_app_distr. cbn [rev]. rewrite <- !app_assoc. reflexivity. }
    assert (N2 : forall k, In k (rev l2 ++ [NExit]) -> starts t k = false).
    { intros k Hk. apply in_app_or in Hk. destruct Hk as [Hk|[<-|[]]]; auto. apply E2. apply in_rev. auto. }
    pose proof Em as Em'. rewrite E in Em'. pose proof (sums_start t ts _ _ _ Em' N2) as S.
    assert (F0 : failures_of t (rev l2 ++ [NExit]) = []).
    { assert (G : forall k, (forall pb w, ~ In (NFailure pb w) k) -> failures_of t k = []).
      { induction k as [|a k IH]; auto. intros N. cbn. destruct a; try (apply IH; intros pb' w' K; apply (N pb' w'); right; auto).
        exfalso. apply (N pb0 worker). left. auto. }
      apply G. intros pb' w' K. apply in_app_or in K. destruct K as [K|[K|[]]]; [|discriminate]. apply in_rev in K.
      apply (NF pb' w'). rewrite E1. apply in_or_app. auto. }
    rewrite F0 in S. eexists. split; [apply summary_get; exact S|]. cbn. auto.
Qed.
Print Assumptions C52_serial_monitor.

(* ---- the server, for any scheduler, messages and callbacks ---- *)
(* hand-outs by the task they were asked for *)
Definition moved_for (h : history) : list move :=
  flat_map (fun e => match e with EvHand t _ => [Hand t] | EvRel pb => [Back (b_task (pb_block pb))] | _ => [] end) h.
(* failures reported to the observers, and by the clients *)
Definition failed_notes (tr : list act) : list failure :=
  flat_map (fun a => match a with ANote (NFailure pb w) => [(pb, w)] | _ => [] end) tr.
Definition failed_msgs (tr : list act) : list failure :=
  flat_map (fun a => match a with ARecv _ (MBlockFailed pb w) => [(PB (pb_block pb) FAILED, w)] | _ => [] end) tr.
(* a reported failure was received before *)
Definition note_ok (a : act) (r : list act) : Prop :=
  match a with ANote (NFailure pb w) => exists st pb', In (ARecv st (MBlockFailed pb' w)) r /\ pb_block pb' = pb_block pb | _ => True end.
Lemma moved_for_app h k : moved_for (h ++ k) = moved_for h ++ moved_for k.
Proof. apply flat_map_app. Qed.

Section ServerNotes.
  Variables (up down : block -> list block) (maxr : nat -> Z) (fuel : nat) (init : nat -> res unit).
  Variable s0 : sched.
  Record WInv (x : server) : Prop := {
    wi_told : told (notes (sv_tr x)) = moved_for (hist (sv_tr x));
    wi_exit : ~ In NExit (notes (sv_tr x));
    wi_shown : forall t, ~ skips_of t (hist (sv_tr x)) -> shown (comp s0 t) t (notes (sv_tr x)) = comp (sv_s x) t
  }.
  (* actions that change none of this *)
  Definition dull (a : act) : Prop :=
    match a with ACall _ | ANote (NAcquire _ _) | ANote (NRelease _ _) | ANote NExit => False | _ => True end.
  Lemma dull_notes l : Forall dull l -> told (notes l) = [] /\ hist l = [] /\ ~ In NExit (notes l) /\
    forall k t r, shown k t (notes l ++ r) = shown k t r.
  Proof using.
    induction 1 as [|a l D _ [I1 [I2 [I3 I4]]]]; [cbn; auto|]. change (a :: l) with ([a] ++ l). rewrite notes_app, told_app, hist_app, I1, I2.
    destruct a as [| | |n| | | | | |]; try destruct D; auto. split; [destruct n; auto; destruct D|]. split; auto. split.
    - cbn. intros [->|K]; auto.
    - intros k t r. cbn [notes flat_map app]. rewrite shown_cons. destruct n; try apply I4; destruct D.
  Qed.
  Lemma dull_aside l : Forall aside l -> Forall dull l.
  Proof using. apply Forall_impl. intros a. destruct a as [| | |n| | | | | |]; cbn; intros H; try destruct n; try exact I; destruct H. Qed.
  Lemma winv_dull x y l : WInv x -> sv_tr y = l ++ sv_tr x -> sv_s y = sv_s x -> Forall dull l -> WInv y.
  Proof using.
    intros [W1 W2 W3] E Es D. destruct (dull_notes l D) as [D1 [D2 [D3 D4]]].
    constructor; rewrite E, ?notes_app, ?hist_app, ?told_app, ?D1, ?D2; cbn [app]; auto.
    - intros K. apply in_app_or in K. destruct K as [K|K]; [exact (D3 K)|exact (W2 K)].
    - intros t N. rewrite D4, Es. auto.
  Qed.
  Lemma calls_notes t r sk : notes (calls t r sk) = [] /\ hist (calls t r sk) = match r with Some pb => EvHand t pb | None => EvNone t end :: rev (map EvSkip sk).
  Proof using.
    unfold calls. split; [|apply hist_calls].
    assert (G : forall l, notes (map ACall l) = []) by (induction l; auto). apply G.
  Qed.
  Lemma moved_skips sk : moved_for (rev (map EvSkip sk)) = [].
  Proof using. unfold moved_for. induction sk as [|b sk IH]; auto. cbn. rewrite flat_map_app, IH. reflexivity. Qed.
  Lemma winv_none x y t sk l : WInv x -> Forall dull l -> sv_tr y = l ++ calls t None sk ++ sv_tr x ->
    (forall u, (forall b, In b sk -> b_task b <> u) -> comp (sv_s y) u = comp (sv_s x) u) -> WInv y.
  Proof using.
    intros [W1 W2 W3] D E C. destruct (dull_notes l D) as [D1 [D2 [D3 D4]]]. destruct (calls_notes t None sk) as [N1 N2].
    constructor; rewrite E, ?notes_app, ?hist_app, ?told_app, ?D1, ?D2, ?N1, ?N2; cbn [app told flat_map].
    - rewrite W1. change (EvNone t :: ?l) with ([EvNone t] ++ l). rewrite !moved_for_app, moved_skips. reflexivity.
    - intros K. apply in_app_or in K. destruct K as [K|K]; [exact (D3 K)|exact (W2 K)].
    - intros u N. rewrite D4, W3, C; auto.
      + intros b Hb Eb. apply N. exists b. split; auto. right. apply in_or_app. left. apply -> in_rev. apply in_map. auto.
      + intros [b [Hb Eb]]. apply N. exists b. split; auto. right. apply in_or_app. auto.
  Qed.
  Lemma step_winv gr ga x y : ustep up down maxr fuel init gr ga x y -> WInv x -> WInv y.
  Proof using.
    intros U W.
    destruct U as [st m|t st p P|chk now t st s1 pb sk b A G E N|chk t st s1 sk A G E Er Ep|chk t st s1 sk p A G E Er Ep P|pick pb s1 G E|pb w| |y E|b Sb|m L].
    - eapply (winv_dull x _ [_] W); try reflexivity. repeat constructor.
    - eapply (winv_dull x _ [_] W); try reflexivity. repeat constructor.
    - destruct W as [W1 W2 W3]. destruct (calls_notes t (Some pb) sk) as [N1 N2].
      constructor; cbn [add_tr set_book set_s sv_tr sv_s]; rewrite <- app_assoc, ?notes_app, ?hist_app, ?told_app, ?N1, ?N2; cbn [app told flat_map notes hist].
      + rewrite W1. change (EvHand t pb :: ?l) with ([EvHand t pb] ++ l). rewrite !moved_for_app, moved_skips. reflexivity.
      + intros [K|K]; [discriminate|auto].
      + intros u Nu. rewrite shown_cons. destruct (Nat.eqb_spec t u) as [->|Ne]; [reflexivity|].
        rewrite W3.
        * symmetry. change (comp (sv_s x) u) with (comp (touch (sv_s x) t) u). eapply comp_acquire; eauto.
          intros b' Hb Eb. apply Nu. exists b'. split; auto. right. apply in_or_app. left. apply -> in_rev. apply in_map. auto.
        * intros [b' [Hb Eb]]. apply Nu. exists b'. split; auto. right. apply in_or_app. auto.
    - apply (winv_none x _ t sk [AShutdown t st] W); [repeat constructor|reflexivity|].
      intros u Nu. cbn [add_tr set_s sv_s]. change (comp (sv_s x) u) with (comp (touch (sv_s x) t) u). eapply comp_acquire; eauto.
    - apply (winv_none x _ t sk [ADelay t st] W); [repeat constructor|reflexivity|].
      intros u Nu. cbn [add_tr set_s set_pend sv_s]. change (comp (sv_s x) u) with (comp (touch (sv_s x) t) u). eapply comp_acquire; eauto.
    - destruct W as [W1 W2 W3]. constructor; cbn [add_tr set_s sv_tr sv_s app notes hist flat_map told moved_for]; fold (notes (sv_tr x)) (hist (sv_tr x)).
      + fold (told (notes (sv_tr x))) (moved_for (hist (sv_tr x))). rewrite W1. reflexivity.
      + intros [K|K]; [discriminate|auto].
      + intros u Nu. rewrite shown_cons. destruct (Nat.eqb_spec (b_task (pb_block pb)) u) as [<-|Ne]; [reflexivity|].
        rewrite W3; [symmetry; eapply comp_release; eauto|]. intros [b' [Hb Eb]]. apply Nu. exists b'. split; auto. right. auto.
    - eapply (winv_dull x _ [_] W); try reflexivity. repeat constructor.
    - destruct (check_all_spec x) as [[B1 B2 B3 [l [B4 B5]]] _]. eapply winv_dull; eauto. apply dull_aside. auto.
    - destruct (recruit_spec init _ _ E) as [[B1 B2 B3 [l [B4 B5]]] _]. eapply winv_dull; eauto. apply dull_aside. auto.
    - eapply (winv_dull x _ [] W); try reflexivity. constructor.
    - eapply (winv_dull x _ m W); try reflexivity. eapply Forall_impl; [|exact L]. intros a. destruct a; cbn; intros H; try exact I; destruct H.
  Qed.
  Lemma steps_winv gr ga x y : steps up down maxr fuel init gr ga x y -> WInv x -> WInv y.
  Proof using. intros S W. induction S as [|y z S IH U]; auto. eapply step_winv; eauto. Qed.
  Lemma idle_winv tasks stopped : WInv (idle_server tasks stopped s0).
  Proof using. constructor; cbn; auto. Qed.

  (* failures, message by message *)
  Definition mild (a : act) : Prop := match a with ANote (NFailure _ _) | ARecv _ (MBlockFailed _ _) => False | _ => True end.
  Definition fine (x : server) : Prop := failed_notes (sv_tr x) = failed_msgs (sv_tr x) /\ each note_ok (sv_tr x).
  Definition mildly (x y : server) : Prop := exists l, sv_tr y = l ++ sv_tr x /\ Forall mild l.
  Lemma mild_lists l : Forall mild l -> failed_notes l = [] /\ failed_msgs l = [].
  Proof using.
    induction 1 as [|a l D _ [I1 I2]]; auto. unfold failed_notes, failed_msgs in *. cbn [flat_map]. rewrite I1, I2, !app_nil_r.
    destruct a as [s m| | |n| | | | | |]; auto; [destruct m|destruct n]; auto; destruct D.
  Qed.
  Lemma mildly_fine x y : mildly x y -> fine x -> fine y.
  Proof using.
    intros [l [E M]] [F1 F2]. destruct (mild_lists l M) as [M1 M2]. split.
    - rewrite E. unfold failed_notes, failed_msgs in *. rewrite !flat_map_app, M1, M2, F1. reflexivity.
    - rewrite E. apply each_neutral; auto. intros a Ha r. rewrite Forall_forall in M. apply M in Ha.
      destruct a as [| | |n| | | | | |]; try exact I. destruct n; try exact I. destruct Ha.
  Qed.
  Lemma mildly_refl x : mildly x x.
  Proof using. exists []. auto. Qed.
  Lemma mildly_trans x y z : mildly x y -> mildly y z -> mildly x z.
  Proof using. intros [l [E M]] [k [E' M']]. exists (k ++ l). rewrite E', E, app_assoc. split; auto. apply Forall_app. auto. Qed.
  Lemma mildly_besides x y : besides x y -> mildly x y.
  Proof using.
    intros [_ _ _ [l [E A]]]. exists l. split; auto. eapply Forall_impl; [|exact A].
    intros a. destruct a as [| | |n| | | | | |]; cbn; intros H; try destruct n; try exact I; destruct H.
  Qed.
  Lemma mildly_release i pb x y : sv_release up down maxr fuel init i pb x = Ok y -> mildly x y.
  Proof using.
    unfold sv_release. destruct (release_block _ _ _ _ _ _ _) as [s1|]; [|discriminate]. cbn [bind]. intros R.
    eapply mildly_trans; [|apply mildly_besides, (recruit_spec init _ _ R)].
    eapply mildly_trans; [|apply mildly_besides, check_all_spec]. eexists. split; [reflexivity|]. repeat constructor.
  Qed.
  Lemma mildly_safe i pb st x y : safe_release up down maxr fuel init i pb st x = Ok y -> mildly x y.
  Proof using.
    unfold safe_release. destruct (is_valid_return _ _ _).
    - destruct (sv_release _ _ _ _ _ _ _ _) as [z|] eqn:E; [|discriminate]. cbn [bind].
      destruct (notify_block_returned _ _ _); [|discriminate]. cbn [bind]. intros H. injection H as <-.
      apply mildly_release in E. destruct E as [l [E M]]. exists l. auto.
    - intros H. injection H as <-. apply mildly_refl.
  Qed.
  Lemma mildly_calls t r sk : Forall mild (calls t r sk).
  Proof using. apply Forall_forall. intros a Ha. unfold calls in Ha. apply in_map_iff in Ha. destruct Ha as [e [<- _]]. exact I. Qed.
  Lemma mildly_acquire i t st x y : handle_acquire up down maxr fuel init i t st x = Ok y -> mildly x y.
  Proof using.
    unfold handle_acquire. destruct (acquire_block _ _ _ _ _ _ _) as [[[s1 r] sk]|]; [|discriminate]. cbn [bind].
    set (w := add_tr (set_s x s1) _). assert (Mw : mildly x w) by (eexists; split; [reflexivity|apply (mildly_calls t r sk)]).
    clearbody w. destruct r as [pb|].
    - destruct (notify_block_sent _ _ _ _); [|discriminate]. cbn [bind]. intros H. injection H as <-.
      eapply mildly_trans; [exact Mw|]. exists [ANote (NAcquire t (s_st s1 t)); ASend st pb]. split; [reflexivity|]. repeat constructor.
    - destruct (negb _); [discriminate|]. destruct (_ =? _).
      + intros H. eapply mildly_trans; [|apply mildly_besides, (recruit_spec init _ _ H)]. eapply mildly_trans; [exact Mw|].
        exists [AShutdown t st]. split; [reflexivity|]. repeat constructor.
      + destruct (pput _ _ _); [|discriminate]. cbn [bind]. intros H. injection H as <-. eapply mildly_trans; [exact Mw|].
        exists [ADelay t st]. split; [reflexivity|]. repeat constructor.
  Qed.
  Lemma fine_message i st m x y : handle_message up down maxr fuel init i st m (add_tr x [ARecv st m]) = Ok y -> fine x -> fine y.
  Proof using.
    unfold handle_message. intros H F.
    assert (C : forall z, fine z -> fine (check_all z)) by (intros z; apply mildly_fine, mildly_besides, check_all_spec).
    assert (RV : mild (ARecv st m) -> fine (add_tr x [ARecv st m])).
    { intros K. eapply mildly_fine; [|exact F]. exists [ARecv st m]. split; auto. }
    destruct m as [t|pb|pb w|e|]; try discriminate.
    - destruct (handle_acquire _ _ _ _ _ _ _ _ _) as [z|] eqn:E; [|discriminate]. cbn [bind] in H. injection H as <-. apply C.
      eapply mildly_fine; [eapply mildly_acquire; eauto|]. apply RV. exact I.
    - destruct (safe_release _ _ _ _ _ _ _ _ _) as [z|] eqn:E; [|discriminate]. cbn [bind] in H. injection H as <-. apply C.
      eapply mildly_fine; [eapply mildly_safe; eauto|]. apply RV. exact I.
    - destruct (safe_release _ _ _ _ _ _ _ _ _) as [z|] eqn:E; [|discriminate]. cbn [bind] in H. injection H as <-. apply C.
      apply mildly_safe in E. destruct E as [l [E M]]. cbn [add_tr sv_tr] in E. destruct F as [F1 F2].
      destruct (mild_lists l M) as [M1 M2]. split; cbn [add_tr sv_tr]; rewrite E.
      + unfold failed_notes, failed_msgs in *. rewrite !flat_map_app, M1, M2. cbn [flat_map app]. rewrite F1. reflexivity.
      + cbn [app each note_ok]. split.
        * exists st, pb. split; auto. apply in_or_app. right. left. auto.
        * apply each_neutral; [|split; [exact I|exact F2]]. intros a Ha r. rewrite Forall_forall in M. apply M in Ha.
          destruct a as [| | |n| | | | | |]; try exact I. destruct n; try exact I. destruct Ha.
  Qed.
  Lemma fine_retry i t st p x y : handle_message up down maxr fuel init i st (MAcquire t) (add_tr (set_pend x p) [ARetry t st]) = Ok y -> fine x -> fine y.
  Proof using.
    unfold handle_message. destruct (handle_acquire _ _ _ _ _ _ _ _ _) as [z|] eqn:E; [|discriminate]. cbn [bind]. intros H F. injection H as <-.
    apply mildly_acquire in E. eapply mildly_fine; [apply mildly_besides, check_all_spec|]. eapply mildly_fine; [exact E|].
    eapply mildly_fine; [|exact F]. exists [ARetry t st]. split; [reflexivity|]. repeat constructor.
  Qed.
  Lemma fine_lost i x y : check_lost up down maxr fuel init i x = Ok y -> mildly x y.
  Proof using.
    unfold check_lost. destruct (get_lost_blocks _ _ _ _) as [[bs b]|]; [|discriminate]. cbn [bind].
    set (z := add_tr _ _). intros H. apply mildly_trans with z.
    { eexists. split; [reflexivity|]. eapply Forall_impl; [|apply (lost_notes i (sv_book x))]. intros a. destruct a; cbn; intros K; try exact I; destruct K. }
    clearbody z. revert z H. induction bs as [|pb bs IH]; intros z; cbn [foldM].
    - intros H. injection H as <-. apply mildly_refl.
    - destruct (sv_release _ _ _ _ _ _ _ _) as [w|] eqn:E; [|discriminate]. cbn [bind]. intros H.
      eapply mildly_trans; [eapply mildly_release; eauto|]. apply IH. exact H.
  Qed.
  Lemma fine_loop ins : forall x y, event_loop up down maxr fuel init ins x = Ok y -> fine x -> fine y.
  Proof using.
    induction ins as [|i ins IH]; intros x y; cbn [event_loop]; destruct (sv_stop x); try (intros H; injection H as <-; auto; fail).
    destruct (iteration _ _ _ _ _ _ _) as [z|] eqn:E; [|discriminate]. cbn [bind]. intros H F. apply (IH _ _ H). clear H IH.
    unfold iteration in E. destruct (handle_messages _ _ _ _ _ _ _) as [v|] eqn:Ev; [|discriminate]. cbn [bind] in E.
    destruct (check_lost _ _ _ _ _ _ _) as [w|] eqn:L; [|discriminate]. cbn [bind] in E. destruct (i_health i); [|discriminate]. cbn [bind] in E. injection E as <-.
    assert (Fw : fine w).
    { eapply mildly_fine; [eapply fine_lost; eauto|]. unfold handle_messages in Ev. destruct (i_get i) as [st m| | |e].
      - eapply fine_message; eauto.
      - destruct (pfirst _) as [[[t st] p]|]; [eapply fine_retry; eauto|injection Ev as <-; auto].
      - injection Ev as <-. auto.
      - discriminate. }
    destruct (i_tick i); auto. eapply mildly_fine; [apply mildly_besides, check_all_spec|auto].
  Qed.
  Lemma fine_init tasks stopped x : server_init init tasks stopped s0 = Ok x -> fine x.
  Proof using.
    unfold server_init. intros H. eapply mildly_fine; [apply mildly_besides, (recruit_spec init _ _ H)|]. split; cbn; auto.
  Qed.
End ServerNotes.

(* C52, server: whatever the scheduler, the clients and the callbacks do, at every iteration the acquisitions
   and releases reported are those that happened, in that order; the failures reported are those the clients
   reported; the numbers last reported for a task are the current ones unless blocks of it were skipped; every
   start and every done is reported at most once (C35_once). *)
Theorem C52_server : forall tasks ord ordt d s0 fuel init stopped ins y,
  server_pipe tasks ord ordt d fuel init stopped ins s0 = Ok y ->
  told (notes (sv_tr y)) = moved_for (hist (sv_tr y)) /\
  failed_notes (sv_tr y) = failed_msgs (sv_tr y) /\
  ~ In NExit (notes (sv_tr y)) /\
  (forall t ts, last_state t (rev (notes (sv_tr y))) = Some ts -> ~ skips_of t (hist (sv_tr y)) ->
     ts_completed ts = ts_completed (s_st (sv_s y) t)).
Proof.
  intros tasks ord ordt d s0 fuel init stopped ins y H. unfold server_pipe in H.
  destruct (server_init _ _ _ _) as [x|] eqn:E; [|discriminate]. cbn [bind] in H.
  destruct (steps_winv _ _ _ _ _ s0 _ _ _ _ (run_steps _ _ _ _ _ _ _ _ _ _ _ E H) (idle_winv s0 _ _)) as [W1 W2 W3].
  destruct (fine_loop _ _ _ _ _ _ _ _ H (fine_init _ _ _ _ _ E)) as [F1 _].
  repeat (split; auto). intros t ts L N. specialize (W3 t N). unfold shown in W3. rewrite L in W3. exact W3.
Qed.
Print Assumptions C52_server.

(* a block in flight, or just handed out, is not settled *)
Section Unsettled.
  Variables (V : list block) (up down : block -> list block) (seeds : nat -> list block) (maxr : nat -> Z) (fuel : nat).
  Hypothesis GG : good_graph V up down seeds.
  Hypothesis EN : enough V fuel.
  Variable s0 : sched.
  Hypothesis FR : fresh V seeds s0.
  Local Notation reach := (reach up down maxr fuel s0).
  Lemma held_unsettled h s b : reach h s -> held h b -> ~ settled up maxr h b.
  Proof.
    intros R H [S|[F|O]].
    - pose proof (reach_HInv V up down seeds maxr fuel GG EN s0 FR h s R) as HI.
      destruct (i_held _ _ _ _ _ _ _ _ _ (hi_inv _ _ _ _ _ _ _ _ HI) b H) as [_ [_ [N _]]]. auto.
    - apply (perm_handed V up down seeds maxr fuel GG EN s0 FR h s R) in F. tauto.
    - apply (held_norph' V up down seeds maxr fuel GG EN s0 FR h s R b H O).
  Qed.
  Lemma hand_unsettled h s t pb l : reach (EvHand t pb :: l ++ h) s -> ~ settled up maxr h (pb_block pb).
  Proof.
    intros R K. pose proof (reach_HInv V up down seeds maxr fuel GG EN s0 FR _ s R) as HI.
    pose proof (hi_ok _ _ _ _ _ _ _ _ HI) as O. cbn in O. destruct O as [[_ [_ [_ [NS [NF _]]]]] _].
    apply (settled_mono up maxr l) in K. destruct K as [S|[F|O]]; auto.
    pose proof (taken_norph V up down seeds maxr fuel GG EN s0 FR _ s R [] _ _ eq_refl) as NO. cbn in NO. apply NO.
    destruct O as [a [Fa A]]. exists a. split; auto.
  Qed.

  Variable tasks : list nat.
  Hypothesis known : forall t, In t tasks -> In t (s_order s0).
  Variable init : nat -> res unit.
  Local Notation steps := (steps up down maxr fuel init held_r (known_a tasks)).
  Definition quiet_after (a : act) (r : list act) : Prop :=
    match a with ANote n => forall t ts, updates t n = true -> ~ In (ANote (NDone t ts)) r | _ => True end.
  Definition done_ok (x : server) : Prop :=
    (forall t ts, In (ANote (NDone t ts)) (sv_tr x) -> forall b, In b V -> b_task b = t -> settled up maxr (hist (sv_tr x)) b) /\
    each quiet_after (sv_tr x).
  Lemma done_more x y l : sv_tr y = l ++ sv_tr x -> (forall t ts, ~ In (ANote (NDone t ts)) l) ->
    (forall n, In (ANote n) l -> forall t, updates t n = false) -> done_ok x -> done_ok y.
  Proof.
    intros E D N [K1 K2]. split.
    - intros t ts Hd b Vb Tb. rewrite E in *. rewrite hist_app. apply settled_mono. apply in_app_or in Hd.
      destruct Hd as [Hd|Hd]; [destruct (D _ _ Hd)|eapply K1; eauto].
    - rewrite E. apply each_neutral; auto. intros a Ha r. destruct a; try exact I. intros t ts U. rewrite (N _ Ha) in U. discriminate.
  Qed.
  Lemma steps_done x y : steps x y -> apart (fun b => In b V) up maxr (hist (sv_tr y)) -> reach (hist (sv_tr x)) (sv_s x) -> done_ok x -> done_ok y.
  Proof.
    intros S F R K. induction S as [|y z S IH U]; auto.
    destruct (step_trace _ _ _ _ _ _ _ _ _ U) as [l El].
    assert (F1 : apart (fun b => In b V) up maxr (hist (sv_tr y))).
    { rewrite El, hist_app in F. eapply apart_back; eauto. }
    specialize (IH F1). pose proof (steps_reach V up down seeds maxr fuel GG EN s0 FR tasks known init _ _ S R) as Ry.
    assert (MON : forall b, settled up maxr (hist (sv_tr y)) b -> settled up maxr (hist (sv_tr z)) b).
    { intros b. rewrite El, hist_app. apply settled_mono. }
    assert (NC : forall n t r sk, ~ In (ANote n) (calls t r sk)).
    { intros n t r sk Ha. unfold calls in Ha. apply in_map_iff in Ha. destruct Ha as [e [Ee _]]. discriminate. }
    destruct U as [st m|t st p P|chk now t st s1 pb sk b A G E N|chk t st s1 sk A G E Er Ep|chk t st s1 sk p A G E Er Ep P|pick pb s1 G E|pb w| |z E|b Sb|m L].
    - apply (done_more y _ [ARecv st m]); auto; [intros ? ? [X|[]]; discriminate|intros ? [X|[]]; discriminate].
    - apply (done_more y _ [ARetry t st]); auto; [intros ? ? [X|[]]; discriminate|intros ? [X|[]]; discriminate].
    - assert (Rz : reach (EvHand t pb :: rev (map EvSkip sk) ++ hist (sv_tr y)) s1).
      { rewrite (reach_touch V up down seeds maxr fuel GG EN s0 FR tasks known _ _ _ Ry G) in E. exact (reach_acquire _ _ _ _ _ _ _ _ _ _ _ _ Ry E). }
      assert (Eb : In (pb_block pb) V /\ b_task (pb_block pb) = t).
      { pose proof (hi_ok _ _ _ _ _ _ _ _ (reach_HInv V up down seeds maxr fuel GG EN s0 FR _ _ Rz)) as O. cbn in O. unfold ok_take in O. tauto. }
      assert (ND : forall ts, ~ In (ANote (NDone t ts)) (sv_tr y)).
      { intros ts Hd. apply (hand_unsettled _ _ _ _ _ Rz). destruct Eb. eapply (proj1 IH); eauto. }
      cbn [add_tr set_book set_s]. split; cbn [sv_tr].
      + intros u ts Hd b' Vb Tb. apply MON. apply in_app_or in Hd. destruct Hd as [Hd|Hd]; [|eapply (proj1 IH); eauto].
        destruct Hd as [X|[X|Hd]]; try discriminate. cbn [app] in Hd; destruct (NC _ _ _ _ Hd).
      + cbn [app each quiet_after]. split; [|split; [exact I|]].
        * intros u ts U Hd. cbn in U. apply Nat.eqb_eq in U. subst u. destruct Hd as [Hd|Hd]; [discriminate|].
          apply in_app_or in Hd. destruct Hd as [Hd|Hd]; [destruct (NC _ _ _ _ Hd)|eapply ND; eauto].
        * apply each_neutral; [|apply IH]. intros a Ha r. destruct a; try exact I. destruct (NC _ _ _ _ Ha).
    - apply (done_more y _ (AShutdown t st :: calls t None sk)); auto.
      + intros ? ? [X|X]; [discriminate|destruct (NC _ _ _ _ X)].
      + intros ? [X|X]; [discriminate|destruct (NC _ _ _ _ X)].
    - apply (done_more y _ (ADelay t st :: calls t None sk)); auto.
      + intros ? ? [X|X]; [discriminate|destruct (NC _ _ _ _ X)].
      + intros ? [X|X]; [discriminate|destruct (NC _ _ _ _ X)].
    - destruct G as [G1 G2]. cbn [add_tr set_s]. split; cbn [sv_tr].
      + intros u ts Hd b' Vb Tb. apply MON. destruct Hd as [X|[X|Hd]]; try discriminate. eapply (proj1 IH); eauto.
      + cbn [app each quiet_after]. split; [|split; [exact I|apply IH]].
        intros u ts U Hd. cbn in U. apply Nat.eqb_eq in U. destruct Hd as [Hd|Hd]; [discriminate|].
        apply (held_unsettled _ _ _ Ry G1). eapply (proj1 IH); eauto.
        pose proof (reach_HInv V up down seeds maxr fuel GG EN s0 FR _ _ Ry) as HI.
        apply (i_held _ _ _ _ _ _ _ _ _ (hi_inv _ _ _ _ _ _ _ _ HI) _ G1).
    - apply (done_more y _ [ANote (NFailure pb w)]); auto; [intros ? ? [X|[]]; discriminate|].
      intros ? [X|[]]. injection X as <-. reflexivity.
    - destruct (check_all_spec y) as [B [_ [_ [_ [k [Ek Fk]]]]]]. rewrite Forall_forall in Fk. split.
      + rewrite (besides_hist _ _ B). intros u ts Hd b' Vb Tb. rewrite Ek in Hd. apply in_app_or in Hd.
        destruct Hd as [Hd|Hd]; [|eapply (proj1 IH); eauto]. apply Fk in Hd. destruct Hd as [u' [X [_ [D _]]]]. injection X as <- _.
        apply (proj1 (done_iff V up down seeds maxr fuel GG EN s0 FR _ _ Ry F1 u)); auto.
      + rewrite Ek. apply each_neutral; [|apply IH]. intros a Ha r. apply Fk in Ha. destruct Ha as [u' [-> _]]. intros ? ? X. discriminate.
    - destruct (recruit_spec init _ _ E) as [[_ _ _ [k [Ek Fk]]] [_ [_ [_ [k' [Ek' Fk']]]]]].
      apply (done_more y z (ARecruit (get_ready_tasks (sv_s y)) :: k')); auto.
      + intros ? ? [X|X]; [discriminate|]. rewrite Forall_forall in Fk'. apply Fk' in X. destruct X as [? [[X|X] _]]; discriminate.
      + intros ? [X|X]; [discriminate|]. rewrite Forall_forall in Fk'. apply Fk' in X. destruct X as [? [[X|X] _]]; [injection X as ->; reflexivity|discriminate].
    - apply (done_more y _ []); auto. intros ? [].
    - apply (done_more y _ m); auto; intros; intros; rewrite Forall_forall in L.
      + intros X. apply L in X. exact X.
      + apply L in H. destruct H.
  Qed.
End Unsettled.

(* C52, a monitor attached to the server.  Clients ask for blocks of tasks that were started, and report failures of
   blocks that were sent. *)
Definition honest (tr : list act) : Prop :=
  (forall l2 st t l1, tr = l2 ++ ARecv st (MAcquire t) :: l1 -> exists ts, In (ANote (NStart t ts)) l1) /\
  (forall l2 st pb w l1, tr = l2 ++ ARecv st (MBlockFailed pb w) :: l1 -> exists st' pb', In (ASend st' pb') l1 /\ pb_block pb' = pb_block pb).
(* the failures of blocks of t *)
Definition failed_of (t : nat) (l : list failure) : list failure := filter (fun f => Nat.eqb (b_task (pb_block (fst f))) t) l.
Lemma failed_of_notes t tr : failures_of t (rev (notes tr)) = rev (failed_of t (failed_notes tr)).
Proof.
  unfold failed_of, failed_notes, notes. induction tr as [|a tr IH]; auto. cbn [flat_map].
  rewrite rev_app_distr, failures_app, IH, filter_app, rev_app_distr. f_equal.
  destruct a as [| | |n| | | | | |]; auto. destruct n as [u ts|u ts|u ts|u ts|pb w|]; auto. cbn. destruct (Nat.eqb _ _); reflexivity.
Qed.
Lemma notes_split n tr : forall l2 l1, notes tr = l2 ++ n :: l1 -> exists k2 k1, tr = k2 ++ ANote n :: k1 /\ notes k2 = l2 /\ notes k1 = l1.
Proof.
  unfold notes. induction tr as [|a tr IH]; intros l2 l1 E; [destruct l2; discriminate|]. cbn [flat_map] in E.
  assert (X : forall m, a = ANote m -> m :: flat_map (fun a => match a with ANote n => [n] | _ => [] end) tr = l2 ++ n :: l1 ->
     exists k2 k1, a :: tr = k2 ++ ANote n :: k1 /\ flat_map (fun a => match a with ANote n => [n] | _ => [] end) k2 = l2 /\
       flat_map (fun a => match a with ANote n => [n] | _ => [] end) k1 = l1).
  { intros m -> E'. destruct l2 as [|x l2].
    - injection E' as -> E'. exists [], tr. auto.
    - injection E' as -> E'. destruct (IH _ _ E') as [k2 [k1 [-> [<- <-]]]]. exists (ANote x :: k2), k1. auto. }
  destruct a as [| | |m| | | | | |]; try (cbn [app] in E; destruct (IH _ _ E) as [k2 [k1 [-> [<- <-]]]]; eexists (_ :: k2), k1; split; [reflexivity|]; auto; fail).
  apply (X m); auto.
Qed.
Lemma in_notes n tr : In n (notes tr) <-> In (ANote n) tr.
Proof.
  unfold notes. rewrite in_flat_map. split; [intros [a [Ha Hn]]|intros H; exists (ANote n); cbn; auto].
  destruct a; try (destruct Hn; fail). destruct Hn as [<-|[]]. exact Ha.
Qed.
Theorem C52_server_monitor_partial : forall tasks ord ordt d s0 fuel init stopped ins y,
  server_run_to tasks ord ordt d s0 fuel init stopped ins y -> honest (sv_tr y) ->
  exists m, mon_run (rev (notes (sv_tr y))) = Ok m /\
    (forall t ts, In (ANote (NStart t ts)) (sv_tr y) ->
       exists r, dget (summary (s_st (sv_s y)) m) t = Some r /\
         let fs := rev (failed_of t (failed_msgs (sv_tr y))) in
         r_failures r = firstn 100 fs /\ Z.of_nat (length (r_failures r)) + r_more r = Z.of_nat (length fs) /\
         r_completed r = ts_completed (s_st (sv_s y) t) /\ r_failed r = ts_failed (s_st (sv_s y) t)) /\
    (apart_failures tasks ord ordt d (hist (sv_tr y)) ->
     forall t pb, In (EvHand t pb) (hist (sv_tr y)) -> ~ skips_of t (hist (sv_tr y)) ->
       exists b, dget (m_bars m) t = Some b /\ bar_n b = ts_completed (s_st (sv_s y) t)).
Proof.
  intros tasks ord ordt d s0 fuel init stopped ins y R [A B].
  pose proof (sr_run _ _ _ _ _ _ _ _ _ _ R) as H.
  destruct (C52_server _ _ _ _ _ _ _ _ _ _ H) as [W1 [W2 [W3 W4]]].
  assert (FN : each note_ok (sv_tr y)).
  { unfold server_pipe in H. destruct (server_init _ _ _ _) as [x|] eqn:E; [|discriminate]. cbn [bind] in H.
    destruct (fine_loop _ _ _ _ _ _ _ _ H (fine_init _ _ _ _ _ E)) as [_ F]. exact F. }
  (* a failure is reported after the start of its task *)
  assert (FS : forall k2 pb w k1, sv_tr y = k2 ++ ANote (NFailure pb w) :: k1 -> exists ts, In (ANote (NStart (b_task (pb_block pb)) ts)) k1).
  { intros k2 pb w k1 E. rewrite E in FN. apply each_at in FN. destruct FN as [st [pb' [Hr Ep]]].
    apply in_split in Hr. destruct Hr as [r2 [r1 ->]].
    destruct (B (k2 ++ ANote (NFailure pb w) :: r2) st pb' w r1) as [st' [pb'' [Hs Ep']]]; [rewrite E, <- app_assoc; reflexivity|].
    apply in_split in Hs. destruct Hs as [q2 [q1 ->]].
    destruct (C35_started_first_partial _ _ _ _ _ _ _ _ _ _ (k2 ++ ANote (NFailure pb w) :: r2 ++ ARecv st (MBlockFailed pb' w) :: q2) st' pb'' q1 R A) as [ts Ht].
    { rewrite E. rewrite <- !app_assoc. cbn. rewrite <- !app_assoc. reflexivity. }
    exists ts. rewrite Ep', Ep in Ht. apply in_or_app. right. right. apply in_or_app. right. right. exact Ht. }
  destruct (C48_no_exception (rev (notes (sv_tr y)))) as [m Em].
  { intros l1 pb w l2 E. apply (f_equal (@rev note)) in E. rewrite rev_involutive, rev_app_distr in E. cbn [rev] in E. rewrite <- app_assoc in E.
    apply notes_split in E. destruct E as [k2 [k1 [E [_ E1]]]]. destruct (FS _ _ _ _ E) as [ts Ht]. exists ts. apply in_rev. rewrite <- E1. apply in_notes. exact Ht. }
  exists m. split; auto. split.
  - intros t ts Ht. apply in_split in Ht. destruct Ht as [k2 [k1 E]].
    destruct (C35_once _ _ _ _ _ _ _ _ _ _ t H) as [O _]. rewrite E, times_app in O. unfold times at 2 in O. cbn [filter is_start] in O. rewrite Nat.eqb_refl in O. cbn [length] in O.
    assert (O2 : forall k, In k (rev (notes k2)) -> starts t k = false).
    { intros k Hk. apply in_rev in Hk. apply in_notes in Hk. destruct (starts t k) eqn:S; auto. exfalso.
      unfold times in O. assert (X : In (ANote k) (filter (is_start t) k2)) by (apply filter_In; split; auto; destruct k; try discriminate; exact S).
      destruct (filter (is_start t) k2); [destruct X|cbn in O; lia]. }
    assert (EN : rev (notes (sv_tr y)) = rev (notes k1) ++ NStart t ts :: rev (notes k2)).
    { rewrite E. change (k2 ++ ANote (NStart t ts) :: k1) with (k2 ++ [ANote (NStart t ts)] ++ k1). rewrite !notes_app. cbn. rewrite !rev_app_distr. cbn. rewrite <- app_assoc. reflexivity. }
    assert (F0 : failures_of t (rev (notes k1)) = []).
    { rewrite failed_of_notes. destruct (failed_of t (failed_notes k1)) as [|f l] eqn:Ef; auto. exfalso.
      assert (Hf : In f (failed_of t (failed_notes k1))) by (rewrite Ef; left; auto). apply filter_In in Hf. destruct Hf as [Hf Tf]. apply Nat.eqb_eq in Tf.
      unfold failed_notes in Hf. apply in_flat_map in Hf. destruct Hf as [a [Ha Hf]]. destruct a as [| | |n| | | | | |]; try (destruct Hf; fail).
      destruct n as [u us|u us|u us|u us|pb w|]; try (destruct Hf; fail). destruct Hf as [<-|[]]. cbn [fst] in Tf.
      apply in_split in Ha. destruct Ha as [q2 [q1 ->]].
      destruct (FS (k2 ++ ANote (NStart t ts) :: q2) pb w q1) as [ts' Hs]; [rewrite E, <- app_assoc; reflexivity|]. rewrite Tf in Hs.
      unfold times in O. assert (X : In (ANote (NStart t ts')) (filter (is_start t) (q2 ++ ANote (NFailure pb w) :: q1))).
      { apply filter_In. split; [apply in_or_app; right; right; exact Hs|]. cbn. apply Nat.eqb_refl. }
      destruct (filter (is_start t) (q2 ++ _ :: q1)); [destruct X|cbn in O; lia]. }
    pose proof Em as Em'. rewrite EN in Em'.
    destruct (C48_summary_partial _ t ts _ m (s_st (sv_s y)) Em' O2 F0) as [r [Dr [R1 [R2 [_ [R3 [R4 _]]]]]]].
    rewrite <- EN, failed_of_notes, W2 in R1, R2. exists r. cbv zeta. auto.
  - intros F t pb Hh NS.
    assert (K : done_ok (pblocks d) (dg_up ord ordt d) (dg_max_retries d) y).
    { eapply (steps_done (pblocks d) _ _ (root_seeds d) _ _ (a_good _ _ _ _ _ _ _ _ _ _ R) (a_enough _ _ _ _ _ _ _ _ _ _ R) s0
        (a_fresh _ _ _ _ _ _ _ _ _ _ R) (map t_id tasks) (a_known _ _ _ _ _ _ _ _ _ _ R) init _ _ (a_steps _ _ _ _ _ _ _ _ _ _ R)
        (a_two _ _ _ _ _ _ _ _ _ _ R F)).
      - constructor.
      - split; [intros ? ? []|exact I]. }
    destruct K as [_ K].
    assert (QE : quiet_end t (rev (notes (sv_tr y)))).
    { intros l1 k l2 E Ek x Hx. destruct (updates t x) eqn:U; auto. exfalso.
      assert (Nk : k <> NExit) by (intros ->; apply W3; apply in_rev; rewrite E; apply in_or_app; right; left; auto).
      apply in_split in Hx. destruct Hx as [m1 [m2 ->]].
      apply (f_equal (@rev note)) in E. rewrite rev_involutive, rev_app_distr in E. cbn [rev] in E. rewrite rev_app_distr in E. cbn [rev] in E.
      rewrite <- !app_assoc in E. cbn [app] in E. apply notes_split in E. destruct E as [k2 [k1 [E [_ E1]]]].
      rewrite E in K. apply each_at in K. cbn in K. destruct k; try discriminate; try congruence. cbn in Ek. apply Nat.eqb_eq in Ek. subst.
      eapply K; eauto. apply in_notes. rewrite E1. apply in_or_app. right. left. reflexivity. }
    assert (L : last_state t (rev (notes (sv_tr y))) <> None).
    { apply told_update. rewrite W1. unfold moved_for. apply in_flat_map. exists (EvHand t pb). split; auto. left. reflexivity. }
    pose proof (bar_end _ _ Em t QE) as Bn. destruct (last_state t (rev (notes (sv_tr y)))) as [ts|] eqn:Els; [|congruence].
    destruct Bn as [b [B1 B2]]. exists b. split; auto. rewrite B2. apply W4; auto.
Qed.
Print Assumptions C52_server_monitor_partial.

(* the numbers in the report are those of the run, and success is reported exactly if all blocks succeeded *)
Theorem C52_report_partial : forall tasks ord ordt d s0 fuel h s,
  pipe_run tasks ord ordt d s0 fuel h s -> inverse tasks ord ordt d -> fuel_ok tasks fuel ->
  forall t l, let r := report_of (s_st s t) l in
    card (fun b => pipe_block tasks b /\ b_task b = t) (r_total r) /\
    card (fun b => succeeded h b /\ b_task b = t) (r_completed r) /\
    card (fun b => skipped h b /\ b_task b = t) (r_skipped r) /\
    card (fun b => perm_failed (dg_max_retries d) h b /\ b_task b = t) (r_failed r) /\
    (apart_failures tasks ord ordt d h ->
       card (fun b => pipe_block tasks b /\ b_task b = t /\ orphan (dg_up ord ordt d) (dg_max_retries d) h b) (r_orphaned r)) /\
    (r_all_ok r = true <-> forall b, pipe_block tasks b -> b_task b = t -> succeeded h b).
Proof.
  intros tasks ord ordt d s0 fuel h s R IV FO t l r.
  destruct (C22_counters_partial _ _ _ _ _ _ _ _ R IV FO t) as [_ [C2 [C3 [C4 C5]]]].
  cbn [r report_of r_total r_completed r_skipped r_failed r_orphaned r_all_ok].
  repeat (split; [assumption|]). split.
  { intros F. apply (C21_orphans_counted_partial _ _ _ _ _ _ _ _ R IV FO F t). }
  rewrite Z.eqb_eq. destruct C2 as [l2 [N2 [I2 L2]]]. destruct C5 as [l5 [N5 [I5 L5]]].
  assert (INC : incl l2 l5).
  { intros b Hb. apply I2 in Hb. destruct Hb as [S T]. apply I5. split; auto.
    apply (run_in _ _ _ _ _ _ _ _ R).
    pose proof (reach_HInv _ _ _ _ _ _ (run_good _ _ _ _ _ _ _ _ R IV) (run_enough _ _ _ _ _ _ _ _ R FO) _ (run_fresh _ _ _ _ _ _ _ _ R) h s (pr_reach _ _ _ _ _ _ _ _ R)) as HI.
    apply (i_S _ _ _ _ _ _ _ _ _ (hi_inv _ _ _ _ _ _ _ _ HI) b S). }
  split.
  - intros E b Pb Tb. assert (I : incl l5 l2) by (apply NoDup_length_incl; auto; lia).
    assert (Hb : In b l5) by (apply I5; auto). apply I, I2 in Hb. tauto.
  - intros A. assert (I : incl l5 l2) by (intros b Hb; apply I5 in Hb; apply I2; split; [apply A|]; tauto).
    pose proof (NoDup_incl_length N2 INC). pose proof (NoDup_incl_length N5 I). lia.
Qed.
Print Assumptions C52_report_partial.

(* ---- runs ---- *)
Fixpoint honest_b (tr : list act) : bool :=
  match tr with
  | [] => true
  | a :: r => match a with
              | ARecv _ (MAcquire t) => existsb (is_start t) r
              | ARecv _ (MBlockFailed pb _) => existsb (fun c => match c with ASend _ pb' => if block_dec (pb_block pb') (pb_block pb) then true else false | _ => false end) r
              | _ => true
              end && honest_b r
  end.
Lemma honest_b_ok tr : honest_b tr = true -> honest tr.
Proof.
  assert (G : forall l r, honest_b (l ++ r) = true -> honest_b r = true).
  { induction l as [|a l IH]; auto. cbn [app honest_b]. intros r H. apply andb_prop in H. apply IH, H. }
  intros H. split; intros; subst; apply G in H; cbn [honest_b] in H; apply andb_prop in H; destruct H as [H _]; apply existsb_exists in H; destruct H as [c [Hc H]].
  - destruct c as [| | |n| | | | | |]; try discriminate. destruct n; try discriminate. cbn in H. apply Nat.eqb_eq in H. subst. eauto.
  - destruct c as [| | | |st' pb'| | | | |]; try discriminate. destruct (block_dec _ _); [|discriminate]. eauto.
Qed.

(* a block fails for good in the serial server: it is counted, but not listed *)
Theorem C52_serial_failures_not_listed_refuted : exists d s0 y m r,
  pipe_ok [ce_retry] /\ serial_pipe [ce_retry] idl idl d 100 (fun _ => no_check) fail_once (fun _ => first) 100 s0 = Ok y /\
  mon_run (rev (ss_notes y)) = Ok m /\ dget (summary (s_st (ss_s y)) m) 1 = Some r /\ r_failed r = 1 /\ r_failures r = [] /\ r_more r = 0.
Proof.
  assert (PO : pipe_ok [ce_retry]) by pipe_ok_tac.
  destruct (serial_ce [ce_retry] 100 (fun _ => no_check) fail_once 100
    (fun d y => match mon_run (rev (ss_notes y)) with
                | Ok m => match dget (summary (s_st (ss_s y)) m) 1 with
                          | Some r => (r_failed r =? 1) && (match r_failures r with [] => true | _ => false end) && (r_more r =? 0)
                          | None => false end
                | Err _ => false end) PO) as [d [s0 [y [E [Ey [R P]]]]]].
  { vm_compute. reflexivity. }
  destruct (mon_run _) as [m|] eqn:Em; [|discriminate]. destruct (dget _ _) as [r|] eqn:Dr; [|discriminate].
  apply andb_prop in P. destruct P as [P P3]. apply andb_prop in P. destruct P as [P1 P2]. apply Z.eqb_eq in P1, P3.
  exists d, s0, y, m, r. repeat (split; auto). destruct (r_failures r); [reflexivity|discriminate].
Qed.
Print Assumptions C52_serial_failures_not_listed_refuted.

(* a client reports the failure of a block of a task that was not started (it was sent to it because it asked
   for it): the monitor raises, in the server's event loop *)
Theorem C52_monitor_raises_refuted : exists d s0 fuel ins y,
  server_run_to ce_row idl idl d s0 fuel no_init false ins y /\ mon_run (rev (notes (sv_tr y))) = Err KeyError.
Proof.
  destruct (serve_run ce_row 100 skip_first [Ask 1 1; Ask 2 2; Fail (2%nat, 0)]
    (fun d y => match mon_run (rev (notes (sv_tr y))) with Err KeyError => true | _ => false end) ce_row_ok ce_row_edges) as [d [s0 [ins [y [R H]]]]].
  { vm_compute. reflexivity. }
  exists d, s0, 100%nat, ins, y. split; auto. destruct (mon_run _) as [|e]; [discriminate|]. destruct e; try discriminate. reflexivity.
Qed.
Print Assumptions C52_monitor_raises_refuted.

(* blocks whose clients disconnected are counted as failed in the end, but not listed *)
Theorem C52_lost_not_listed_refuted : exists d s0 fuel ins y m r,
  server_run_to ex_row idl idl d s0 fuel no_init false ins y /\ honest (sv_tr y) /\
  mon_run (rev (notes (sv_tr y))) = Ok m /\ dget (summary (s_st (sv_s y)) m) 1 = Some r /\
  r_failed r = 1 /\ r_failures r = [] /\ r_more r = 0.
Proof.
  destruct (serve_run ex_row 100 no_check [Ask 1 1; Wait [1%nat] true; Ask 1 2; Ask 1 3; Wait [2%nat; 3%nat] true]
    (fun d y => honest_b (sv_tr y) &&
                match mon_run (rev (notes (sv_tr y))) with
                | Ok m => match dget (summary (s_st (sv_s y)) m) 1 with
                          | Some r => (r_failed r =? 1) && (match r_failures r with [] => true | _ => false end) && (r_more r =? 0)
                          | None => false end
                | Err _ => false end) ex_row_ok ex_row_edges) as [d [s0 [ins [y [R H]]]]].
  { vm_compute. reflexivity. }
  apply andb_prop in H. destruct H as [H0 P]. apply honest_b_ok in H0.
  destruct (mon_run _) as [m|] eqn:Em; [|discriminate]. destruct (dget _ _) as [r|] eqn:Dr; [|discriminate].
  apply andb_prop in P. destruct P as [P P3]. apply andb_prop in P. destruct P as [P1 P2]. apply Z.eqb_eq in P1, P3.
  exists d, s0, 100%nat, ins, y, m, r. repeat (split; auto). destruct (r_failures r); [reflexivity|discriminate].
Qed.
Print Assumptions C52_lost_not_listed_refuted.

(* a run with a failure that is tried again and one that is final: both are listed *)
Example C52_server_example : exists d s0 fuel ins y m r1 r2,
  server_run_to ex_row idl idl d s0 fuel no_init false ins y /\ few_upstream ex_row idl idl d /\ honest (sv_tr y) /\
  (forall t, ~ skips_of t (hist (sv_tr y))) /\
  mon_run (rev (notes (sv_tr y))) = Ok m /\
  dget (summary (s_st (sv_s y)) m) 1 = Some r1 /\ r_failures r1 = [] /\ r_completed r1 = 2 /\
  dget (summary (s_st (sv_s y)) m) 2 = Some r2 /\ length (r_failures r2) = 2%nat /\ r_completed r2 = 1 /\ r_failed r2 = 1 /\
  (exists b, dget (m_bars m) 2 = Some b /\ bar_n b = 1).
Proof.
  destruct (serve_run ex_row 100 no_check ex_row_script
    (fun d y => forallb (fun b => Nat.leb (length (dg_up idl idl d b)) 2) (pblocks d) && honest_b (sv_tr y) &&
                forallb (fun e => match e with EvSkip _ => false | _ => true end) (hist (sv_tr y)) &&
                match mon_run (rev (notes (sv_tr y))) with
                | Ok m => match dget (summary (s_st (sv_s y)) m) 1, dget (summary (s_st (sv_s y)) m) 2, dget (m_bars m) 2 with
                          | Some r1, Some r2, Some b => (match r_failures r1 with [] => true | _ => false end) && (r_completed r1 =? 2) &&
                              Nat.eqb (length (r_failures r2)) 2 && (r_completed r2 =? 1) && (r_failed r2 =? 1) && (bar_n b =? 1)
                          | _, _, _ => false end
                | Err _ => false end) ex_row_ok ex_row_edges) as [d [s0 [ins [y [R H]]]]].
  { vm_compute. reflexivity. }
  pose proof (a_pipe _ _ _ _ _ _ _ _ _ _ R) as PR.
  apply andb_prop in H. destruct H as [H P]. apply andb_prop in H. destruct H as [H SK]. apply andb_prop in H. destruct H as [FW H0]. apply honest_b_ok in H0.
  rewrite forallb_forall in FW, SK.
  destruct (mon_run _) as [m|] eqn:Em; [|discriminate]. destruct (dget _ 1) as [r1|] eqn:D1; [|discriminate]. destruct (dget (summary _ _) 2) as [r2|] eqn:D2; [|discriminate].
  destruct (dget (m_bars m) 2) as [b|] eqn:Db; [|discriminate].
  do 5 (apply andb_prop in P; let Q := fresh "Q" in destruct P as [P Q]). apply Z.eqb_eq in Q, Q0, Q1, Q3. apply Nat.eqb_eq in Q2.
  exists d, s0, 100%nat, ins, y, m, r1, r2. split; [exact R|]. split.
  { intros c Hc. apply (run_in _ _ _ _ _ _ _ _ PR), FW in Hc. apply Nat.leb_le in Hc. exact Hc. }
  split; auto. split. { intros t [c [Hc _]]. apply SK in Hc. discriminate. }
  split; auto. split; auto. split; [destruct (r_failures r1); [reflexivity|discriminate]|]. repeat (split; auto). eauto.
Qed.
Print Assumptions C52_server_example.

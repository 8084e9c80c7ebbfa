(* Progress report (C48) *)
From Verif Require Import SchedExec PipeRun P_SchedCE P_Sched P_Serial Monitor.
Open Scope Z_scope.

(* the task state with the last acquire or release notification for t; notifications oldest first *)
Fixpoint last_state (t : nat) (l : list note) : option tstate :=
  match l with
  | [] => None
  | n :: r => match last_state t r with
              | Some ts => Some ts
              | None => match n with
                        | NAcquire u ts | NRelease u ts => if Nat.eqb u t then Some ts else None
                        | _ => None
                        end
              end
  end.
(* the failures reported for t *)
Fixpoint failures_of (t : nat) (l : list note) : list failure :=
  match l with
  | [] => []
  | NFailure pb w :: r => if Nat.eqb (b_task (pb_block pb)) t then (pb, w) :: failures_of t r else failures_of t r
  | _ :: r => failures_of t r
  end.
(* t was finished, or the server exited *)
Definition ends (t : nat) (n : note) : bool :=
  match n with NDone u _ => Nat.eqb u t | NExit => true | _ => false end.
Definition starts (t : nat) (n : note) : bool := match n with NStart u _ => Nat.eqb u t | _ => false end.

Lemma dget_dset {V} (d : dict V) t v u : dget (dset d t v) u = if Nat.eqb u t then Some v else dget d u.
Proof.
  induction d as [|[w x] d IH]; cbn; [reflexivity|].
  destruct (Nat.eqb_spec t w) as [->|N]; cbn.
  - destruct (Nat.eqb u w); reflexivity.
  - destruct (Nat.eqb_spec u w) as [->|N']; [destruct (Nat.eqb_spec w t); [congruence|reflexivity]|apply IH].
Qed.
Lemma dget_map {V W} (f : V -> W) d t : dget (map (fun tb => (fst tb, f (snd tb))) d) t = option_map f (dget d t).
Proof. induction d as [|[u v] d IH]; cbn; auto. destruct (Nat.eqb t u); auto. Qed.

Lemma last_app t l1 l2 : last_state t (l1 ++ l2) = match last_state t l2 with Some ts => Some ts | None => last_state t l1 end.
Proof.
  induction l1 as [|n l1 IH]; cbn; [destruct (last_state t l2); reflexivity|]. rewrite IH.
  destruct (last_state t l2); auto.
Qed.
Lemma failures_app t l1 l2 : failures_of t (l1 ++ l2) = failures_of t l1 ++ failures_of t l2.
Proof. induction l1 as [|n l1 IH]; cbn; auto. destruct n; auto. destruct (Nat.eqb _ _); auto. cbn. rewrite IH. auto. Qed.

Lemma run_app l n m : mon_run (l ++ [n]) = Ok m -> exists m0, mon_run l = Ok m0 /\ mon_step m0 n = Ok m.
Proof.
  unfold mon_run. generalize mon_init as i. induction l as [|x l IH]; intros i; cbn [app foldM].
  - destruct (mon_step i n) eqn:E; [|discriminate]. cbn. intros H. injection H as <-. eauto.
  - destruct (mon_step i x) as [j|]; [|discriminate]. cbn [bind]. apply IH.
Qed.

(* the bar of t, as long as it is not closed *)
Lemma bar_inv l : forall m, mon_run l = Ok m -> forall t, (forall n, In n l -> ends t n = false) ->
  match last_state t l with
  | Some ts => exists b, dget (m_bars m) t = Some b /\ bar_n b = ts_completed ts /\ bar_closed b = false
  | None => dget (m_bars m) t = None
  end.
Proof.
  induction l as [|n l IH] using rev_ind; intros m E t NE.
  - injection E as <-. reflexivity.
  - apply run_app in E. destruct E as [m0 [E0 E1]]. specialize (IH m0 E0 t).
    assert (NE0 : forall x, In x l -> ends t x = false) by (intros; apply NE, in_or_app; auto).
    specialize (IH NE0). assert (En : ends t n = false) by (apply NE, in_or_app; right; left; auto).
    rewrite last_app. cbn [last_state].
    assert (U : forall u ts, m = update_state u ts m0 -> match (if Nat.eqb u t then Some ts else None) with Some ts => Some ts | None => last_state t l end
       = match (if Nat.eqb u t then Some ts else None) with Some ts => Some ts | None => last_state t l end /\
       match match (if Nat.eqb u t then Some ts else None) with Some ts => Some ts | None => last_state t l end with
       | Some ts => exists b, dget (m_bars m) t = Some b /\ bar_n b = ts_completed ts /\ bar_closed b = false
       | None => dget (m_bars m) t = None end).
    { intros u ts ->. split; auto. unfold update_state. cbn [m_bars]. rewrite dget_dset. rewrite (Nat.eqb_sym t u).
      destruct (Nat.eqb_spec u t) as [->|N]; [|exact IH]. eexists. split; [reflexivity|].
      destruct (last_state t l) as [ts0|].
      - destruct IH as [b [-> [B1 B2]]]. unfold bar_update. rewrite B2. cbn. split; auto. lia.
      - rewrite IH. cbn. split; auto. lia. }
    destruct n as [u ts|u ts|u ts|u ts|pb w|]; cbn [mon_step] in E1.
    + injection E1 as <-. exact IH.
    + injection E1 as E1. symmetry in E1. destruct (U u ts E1) as [_ X]. exact X.
    + injection E1 as E1. symmetry in E1. destruct (U u ts E1) as [_ X]. exact X.
    + injection E1 as <-. cbn [ends] in En. cbn [m_bars]. destruct (dget (m_bars m0) u) as [bu|]; auto.
      rewrite dget_dset, (Nat.eqb_sym t u), En. exact IH.
    + destruct (dget (m_sums m0) _); [|discriminate]. injection E1 as <-. exact IH.
    + discriminate.
Qed.

(* C48, progress bar: until t is reported done, after every notification the bar of t shows the
   completed_count that came with the last acquire or release notification of t; in particular
   after such a notification it shows the task's current completed_count. *)
Theorem C48_bar_partial : forall l m t, mon_run l = Ok m -> (forall n, In n l -> ends t n = false) ->
  (forall ts, last_state t l = Some ts -> exists b, dget (m_bars m) t = Some b /\ bar_n b = ts_completed ts) /\
  forall ts n, n = NAcquire t ts \/ n = NRelease t ts -> exists m' b,
    mon_step m n = Ok m' /\ dget (m_bars m') t = Some b /\ bar_n b = ts_completed ts.
Proof.
  intros l m t E NE. pose proof (bar_inv l m E t NE) as B. split.
  - intros ts Hl. rewrite Hl in B. destruct B as [b [B1 [B2 _]]]. eauto.
  - intros ts n Hn.
    assert (X : mon_step m n = Ok (update_state t ts m)) by (destruct Hn as [-> | ->]; reflexivity).
    rewrite X. eexists _, _. split; [reflexivity|]. unfold update_state. cbn [m_bars]. rewrite dget_dset, Nat.eqb_refl.
    split; [reflexivity|]. destruct (last_state t l) as [ts0|].
    + destruct B as [b [-> [B1 B2]]]. unfold bar_update. rewrite B2. cbn. lia.
    + rewrite B. cbn. lia.
Qed.

(* C48, summary: if t was not started again after failures of it were reported, the monitor has exactly
   the failures reported for t, in that order; the first 100 are listed and the number of others
   is printed. *)
Lemma sums_start t ts l : forall l0 m, mon_run (l0 ++ NStart t ts :: l) = Ok m -> (forall n, In n l -> starts t n = false) ->
  dget (m_sums m) t = Some (failures_of t l).
Proof.
  induction l as [|n l IH] using rev_ind; intros l0 m E NS.
  - apply run_app in E. destruct E as [m0 [_ E]]. injection E as <-. cbn. rewrite dget_dset, Nat.eqb_refl. reflexivity.
  - rewrite app_comm_cons, app_assoc in E. apply run_app in E. destruct E as [m0 [E0 E1]].
    assert (NS0 : forall x, In x l -> starts t x = false) by (intros; apply NS, in_or_app; auto).
    specialize (IH l0 m0 E0 NS0). assert (Sn : starts t n = false) by (apply NS, in_or_app; right; left; auto).
    rewrite failures_app. destruct n as [u us|u us|u us|u us|pb w|]; cbn [mon_step failures_of starts] in *;
      try (injection E1 as <-; cbn [m_sums]; rewrite app_nil_r; try exact IH).
    + rewrite dget_dset, (Nat.eqb_sym t u), Sn. exact IH.
    + destruct (dget (m_sums m0) u) as [x|] eqn:D; auto. rewrite dget_dset. destruct (Nat.eqb_spec t u) as [->|]; auto. congruence.
    + destruct (dget (m_sums m0) (b_task (pb_block pb))) as [x|] eqn:D; [|discriminate]. injection E1 as <-. cbn [m_sums].
      rewrite dget_dset, (Nat.eqb_sym t). destruct (Nat.eqb_spec (b_task (pb_block pb)) t) as [<-|N].
      * rewrite D in IH. injection IH as ->. reflexivity.
      * rewrite app_nil_r. exact IH.
Qed.
Theorem C48_summary_partial : forall l0 t ts l m cur, mon_run (l0 ++ NStart t ts :: l) = Ok m ->
  (forall n, In n l -> starts t n = false) -> failures_of t l0 = [] ->
  exists r, dget (summary cur m) t = Some r /\
    let fs := failures_of t (l0 ++ NStart t ts :: l) in
    r_failures r = firstn 100 fs /\ Z.of_nat (length (r_failures r)) + r_more r = Z.of_nat (length fs) /\
    ((length fs <= 100)%nat -> r_failures r = fs /\ r_more r = 0) /\
    r_completed r = ts_completed (cur t) /\ r_failed r = ts_failed (cur t) /\ r_orphaned r = ts_orphaned (cur t).
Proof.
  intros l0 t ts l m cur E N1 F0. pose proof (sums_start t ts l l0 m E N1) as S.
  assert (FS : failures_of t (l0 ++ NStart t ts :: l) = failures_of t l) by (rewrite failures_app, F0; reflexivity).
  cbv zeta. rewrite FS. set (fs := failures_of t l) in *.
  assert (D : dget (summary cur m) t = Some (report_of (cur t) fs)).
  { unfold summary. clear - S. induction (m_sums m) as [|[u x] d IH]; [discriminate|]. cbn in *.
    destruct (Nat.eqb_spec t u) as [->|]; auto. injection S as ->. reflexivity. }
  eexists. split; [exact D|]. cbn [report_of r_failures r_more r_completed r_failed r_orphaned]. unfold max_entries.
  split; auto. rewrite firstn_length. destruct (Nat.ltb_spec 100 (length fs)) as [L|L].
  - split; [lia|]. split; [lia|auto].
  - split; [lia|]. split; auto. intros _. rewrite firstn_all2 by lia. auto.
Qed.
(* The monitor raises only for a failure of a task neither started nor finished before. *)
Theorem C48_no_exception : forall l, (forall l1 pb w l2, l = l1 ++ NFailure pb w :: l2 ->
    exists ts, In (NStart (b_task (pb_block pb)) ts) l1) -> exists m, mon_run l = Ok m.
Proof.
  induction l as [|n l IH] using rev_ind; intros H; [eexists; reflexivity|].
  destruct IH as [m E].
  { intros l1 pb w l2 El. apply (H l1 pb w (l2 ++ [n])). rewrite El, <- app_assoc. reflexivity. }
  assert (X : exists m', mon_step m n = Ok m').
  { destruct n as [u us|u us|u us|u us|pb w|]; cbn [mon_step]; eauto.
    destruct (H l pb w [] eq_refl) as [ts Hts].
    assert (P : dget (m_sums m) (b_task (pb_block pb)) <> None).
    { clear - E Hts. revert m E. induction l as [|x l IH] using rev_ind; intros m E; [destruct Hts|].
      apply run_app in E. destruct E as [m0 [E0 E1]]. set (t := b_task (pb_block pb)) in *.
      assert (K : dget (m_sums m0) t <> None -> dget (m_sums m) t <> None).
      { intros K. destruct x as [u us|u us|u us|u us|pb' w'|]; cbn [mon_step] in E1; try (injection E1 as <-; cbn [m_sums]; auto).
        - rewrite dget_dset. destruct (Nat.eqb t u); auto. discriminate.
        - destruct (dget (m_sums m0) u); auto. rewrite dget_dset. destruct (Nat.eqb t u); auto. discriminate.
        - destruct (dget (m_sums m0) _); [|discriminate]. injection E1 as <-. cbn [m_sums]. rewrite dget_dset.
          destruct (Nat.eqb t _); auto. discriminate. }
      apply in_app_or in Hts. destruct Hts as [Hts|[Hx|[]]]; [apply K, (IH Hts m0 E0)|].
      subst x. injection E1 as <-. cbn. rewrite dget_dset, Nat.eqb_refl. discriminate. }
    destruct (dget (m_sums m) _); eauto. congruence. }
  destruct X as [m' X]. exists m'. unfold mon_run in *. clear - E X. revert E. generalize mon_init as i.
  induction l as [|y l IH]; intros i E; cbn [app foldM] in *.
  - injection E as ->. rewrite X. reflexivity.
  - destruct (mon_step i y) as [j|]; [|discriminate]. cbn [bind] in *. auto.
Qed.
Print Assumptions C48_bar_partial.
Print Assumptions C48_summary_partial.
Print Assumptions C48_no_exception.

(* C48 fails: a task with two blocks, the second of which is skipped by the check_function.  The serial
   server sends no notification for it: at the end two blocks are completed, the bar shows one. *)
Definition sk_t : task := Task 1 (Roi [0] [2]) (Roi [0] [1]) (Roi [0] [1]) false Valid 1 0 [].
Definition sk_chk : history -> nat -> block -> check_result := fun _ _ b => if b_num b =? 1 then CheckTrue else CheckFalse.
Theorem C48_skipped_block_refuted : exists d s0 y m b,
  serial_pipe [sk_t] idl idl d 100 sk_chk untouched (fun _ => first) 100 s0 = Ok y /\
  pipe_run [sk_t] idl idl d s0 100 (ss_h y) (ss_s y) /\
  mon_run (rev (ss_notes y)) = Ok m /\ dget (m_bars m) 1 = Some b /\ bar_n b = 1 /\
  ts_completed (s_st (ss_s y) 1) = 2.
Proof.
  assert (PO : pipe_ok [sk_t]) by (unfold sk_t; pipe_ok_tac).
  destruct (serial_ce [sk_t] 100 sk_chk untouched 100
    (fun d y => match mon_run (rev (ss_notes y)) with
                | Ok m => match dget (m_bars m) 1 with
                          | Some b => (bar_n b =? 1) && (ts_completed (s_st (ss_s y) 1) =? 2) | None => false end
                | Err _ => false end) PO) as [d [s0 [y [E [Ey [R P]]]]]].
  { vm_compute. reflexivity. }
  destruct (mon_run _) as [m|] eqn:Em; [|discriminate]. destruct (dget (m_bars m) 1) as [b|] eqn:Eb; [|discriminate].
  apply andb_prop in P. destruct P as [P1 P2]. apply Z.eqb_eq in P1, P2.
  exists d, s0, y, m, b. repeat (split; auto).
Qed.
(* a closed bar does not move: after on_task_done the bar is no longer updated *)
Theorem C48_after_done_refuted : exists ts1 ts2 m b,
  mon_run [NStart 1 ts1; NAcquire 1 ts1; NDone 1 ts1; NRelease 1 ts2] = Ok m /\
  dget (m_bars m) 1 = Some b /\ bar_n b <> ts_completed ts2.
Proof.
  exists (TState true 2 0 1 0 0 0 2), (TState true 2 0 0 1 0 0 1). eexists _, _. vm_compute.
  split; [reflexivity|]. split; [reflexivity|discriminate].
Qed.
(* more than 100 failures: not all are listed *)
Definition some_failure : failure := (PB (Block 1 0 (Roi [0] [1]) (Roi [0] [1]) (Roi [0] [1])) FAILED, 3%nat).
Theorem C48_more_than_100_refuted : exists l m r, mon_run l = Ok m /\ dget (summary (fun _ => tstate_init) m) 1 = Some r /\
  length (failures_of 1 l) = 101%nat /\ length (r_failures r) = 100%nat /\ r_more r = 1.
Proof.
  exists (NStart 1 tstate_init :: repeat (NFailure (fst some_failure) 3) 101).
  eexists _, _. split; [vm_compute; reflexivity|]. split; [vm_compute; reflexivity|]. vm_compute. auto.
Qed.
Example monitor_example : exists m b r,
  let ts k f := TState true 2 0 0 k 0 f 0 in
  let cur := fun _ : nat => ts 1 1 in
  mon_run [NStart 1 (ts 0 0); NAcquire 1 (ts 0 0); NFailure (fst some_failure) 3; NRelease 1 (ts 0 1); NAcquire 1 (ts 0 1);
           NRelease 1 (ts 1 1); NDone 1 (ts 1 1); NExit] = Ok m /\
  dget (m_bars m) 1 = Some b /\ bar_n b = 1 /\ dget (summary cur m) 1 = Some r /\
  r_failures r = [some_failure] /\ r_all_ok r = false.
Proof. eexists _, _, _. vm_compute. repeat split. Qed.
Print Assumptions C48_skipped_block_refuted.
Print Assumptions C48_after_done_refuted.
Print Assumptions C48_more_than_100_refuted.

(* Addresses (C80) and IO loops (C81) *)
From Coq Require Import Arith Lia DecimalString DecimalNat.
From Verif Require Import P_Ctx P_TaskFn Setup.
Open Scope string_scope.
Open Scope list_scope.

(* ---- C80 ---- *)
(* The server's address has the port it listens at and a host that is the one given, or one at which a test connection worked, or
   the machine's own. *)
Theorem C80_address : forall host tries att detect valid h p,
  server_init host tries att detect valid = Listens h p ->
  (0 < tries)%nat /\ att 0%nat = Bound p /\
  match host with
  | Some h0 => h = h0
  | None => h = "127.0.0.1" \/ detect = Some h /\ valid h = true
  end.
Proof.
  intros host tries att detect valid h p. unfold server_init. destruct tries as [|n]; [discriminate|]. cbn [listen_loop].
  destruct (att 0%nat) as [q|] eqn:E; [|discriminate]. intros X. injection X as <- <-. split; [lia|]. split; auto.
  unfold get_host. destruct host as [h0|]; auto. destruct detect as [ip|]; auto.
  destruct (String.eqb_spec ip "127.0.0.1") as [->|N]; cbn [negb andb]; auto. destruct (valid ip) eqn:V; cbn [negb]; auto.
Qed.
(* If the first port can be bound the server starts. *)
Theorem C80_starts : forall host tries att detect valid p, (0 < tries)%nat -> att 0%nat = Bound p ->
  exists h, server_init host tries att detect valid = Listens h p.
Proof.
  intros host tries att detect valid p H E. unfold server_init. destruct tries as [|n]; [lia|]. cbn [listen_loop]. rewrite E. eauto.
Qed.
(* A second port is never tried, and NoFreePort is never raised: the first OSError becomes an AttributeError. *)
Theorem C80_second_port_refuted : forall host tries att detect valid, (0 < tries)%nat -> att 0%nat = OSErr ->
  server_init host tries att detect valid = AttributeError.
Proof. intros host tries att detect valid H E. unfold server_init. destruct tries as [|n]; [lia|]. cbn [listen_loop]. rewrite E. reflexivity. Qed.

(* ints survive str and int *)
Lemma int_str n : py_int (str (VNat n)) = Ok n.
Proof.
  cbn [str]. unfold py_int. assert (N : Nat.to_uint n <> Decimal.Nil).
  { destruct n; [discriminate|]. intros X. pose proof (Unsigned.of_to (S n)) as Y. rewrite X in Y. discriminate. }
  rewrite (NilZero.usu _ N), Unsigned.of_to. reflexivity.
Qed.
(* Workers connect to the address their server listens at. *)
Theorem C80_workers_connect : forall host tries att detect valid h p dir t w here c,
  server_init host tries att detect valid = Listens h p ->
  worker_context dir (VStr h) (VStr t) p w = Ok c ->
  clean (str dir) -> clean t -> match host with Some h0 => clean h0 | None => forall ip, detect = Some ip -> clean ip end ->
  client_address here (to_env c) = Ok (h, p).
Proof.
  intros host tries att detect valid h p dir t w here c Es Ec Cd Ct CC.
  assert (Ch : clean h).
  { apply C80_address in Es. destruct Es as [_ [_ Eh]]. destruct host as [h0|]; [subst; auto|].
    destruct Eh as [-> | [D _]]; [split; reflexivity|auto]. }
  destruct (C43_worker_context dir (VStr h) (VStr t) p w here) as [c' [Ec' R]]. rewrite Ec in Ec'. injection Ec' as <-.
  destruct R as [_ R]. unfold client_address. rewrite R by auto. clear R.
  unfold worker_context, ctx_set in Ec. destruct (number_clean w) as [H1 H2]. rewrite H1, H2 in Ec.
  cbn [has Ascii.eqb orb Bool.eqb] in Ec. cbn -[str] in Ec. injection Ec as <-. cbn -[str py_int].
  change (str (VStr (str (VNat p)))) with (str (VNat p)). rewrite int_str. reflexivity.
Qed.
(* Not if the host is an IPv6 address: the context cannot be read by the worker. *)
Theorem C80_ipv6_refuted : exists c, 
  server_init (Some "fe80::1") 1000 (fun _ => Bound 4000) None (fun _ => true) = Listens "fe80::1" 4000 /\
  worker_context (VStr "daisy_logs") (VStr "fe80::1") (VStr "predict") 4000 3 = Ok c /\
  client_address (VStr "daisy_logs") (to_env c) = Err ValueError.
Proof. eexists. vm_compute. repeat split. Qed.
Example C80_example :
  server_init None 1000 (fun _ => Bound 4000) (Some "10.0.0.7") (fun _ => true) = Listens "10.0.0.7" 4000 /\
  server_init None 1000 (fun _ => Bound 4000) (Some "10.0.0.7") (fun _ => false) = Listens "127.0.0.1" 4000 /\
  server_init (Some "node3") 1000 (fun _ => Bound 4000) None (fun _ => false) = Listens "node3" 4000 /\
  (exists c, worker_context VNone (VStr "10.0.0.7") (VStr "predict") 4000 3 = Ok c /\ client_address VNone (to_env c) = Ok ("10.0.0.7", 4000)).
Proof. repeat split. eexists. vm_compute. repeat split. Qed.
Print Assumptions C80_address.
Print Assumptions C80_starts.
Print Assumptions C80_second_port_refuted.
Print Assumptions C80_workers_connect.
Print Assumptions C80_ipv6_refuted.

(* ---- C81 ---- *)
(* the k-th act was the creation of an object in process i, which uses loop x *)
Definition uses (l : list act) (os : list (option nat)) (k i x : nat) : Prop :=
  nth_error l k = Some (New i) /\ nth_error os k = Some (Some x).

Lemma set_same ps i p : (i < List.length ps)%nat -> nth_error (set_proc ps i p) i = Some p.
Proof. revert i. induction ps as [|q ps IH]; intros [|i] H; cbn in *; try lia; auto. apply IH. lia. Qed.
Lemma set_other ps i j p : i <> j -> nth_error (set_proc ps i p) j = nth_error ps j.
Proof. revert i j. induction ps as [|q ps IH]; intros [|i] [|j] H; cbn in *; auto; try congruence. Qed.
Lemma set_length ps i p : List.length (set_proc ps i p) = List.length ps.
Proof. revert i. induction ps as [|q ps IH]; intros [|i]; cbn; auto. Qed.
Lemma nth_lt {A} (l : list A) i x : nth_error l i = Some x -> (i < List.length l)%nat.
Proof. intros H. apply nth_error_Some. congruence. Qed.
Lemma find_in d pid l : find_loop d pid = Some l -> In (pid, l) d.
Proof.
  induction d as [|[k x] d IH]; [discriminate|]. cbn. destruct (Nat.eqb_spec k pid) as [->|]; [intros E; injection E as ->; auto|auto].
Qed.

(* what an act does to process j and to the home of a loop *)
Lemma step_proc w a w1 o j p : act_step w a = Some (w1, o) -> nth_error (w_procs w) j = Some p ->
  exists p', nth_error (w_procs w1) j = Some p' /\ pr_pid p' = pr_pid p /\
    (pr_loops p' = pr_loops p \/
     a = Clear j /\ pr_loops p' = [] \/
     a = New j /\ find_loop (pr_loops p) (pr_pid p) = None /\ pr_loops p' = (pr_pid p, List.length (w_home w)) :: pr_loops p /\
       nth_error (w_home w1) (List.length (w_home w)) = Some j).
Proof.
  intros E Hp. destruct a as [i|i|i q|i]; cbn [act_step] in E; destruct (nth_error (w_procs w) i) as [pi|] eqn:Ei; try discriminate.
  - destruct (negb (pr_alive pi)); [discriminate|]. destruct (find_loop (pr_loops pi) (pr_pid pi)) as [l|] eqn:Ef; injection E as <- <-.
    + eauto 10.
    + cbn [w_procs w_home]. destruct (Nat.eq_dec i j) as [<-|N].
      * rewrite Ei in Hp. injection Hp as ->. rewrite set_same by (eapply nth_lt; eauto). eexists. split; [reflexivity|]. cbn. split; auto.
        right. right. split; auto. split; auto. split; auto. rewrite nth_error_app2 by lia. rewrite Nat.sub_diag. reflexivity.
      * rewrite set_other by auto. eauto 10.
  - destruct (negb (pr_alive pi)); [discriminate|]. injection E as <- <-. cbn [w_procs]. destruct (Nat.eq_dec i j) as [<-|N].
    + rewrite Ei in Hp. injection Hp as ->. rewrite set_same by (eapply nth_lt; eauto). eexists. split; [reflexivity|]. cbn. auto.
    + rewrite set_other by auto. eauto 10.
  - destruct (_ || _); [discriminate|]. injection E as <- <-. cbn [w_procs]. rewrite nth_error_app1 by (eapply nth_lt; eauto). eauto 10.
  - destruct (negb (pr_alive pi)); [discriminate|]. injection E as <- <-. cbn [w_procs]. destruct (Nat.eq_dec i j) as [<-|N].
    + rewrite Ei in Hp. injection Hp as ->. rewrite set_same by (eapply nth_lt; eauto). eexists. split; [reflexivity|]. cbn. auto.
    + rewrite set_other by auto. eauto 10.
Qed.
Lemma step_home w a w1 o x i : act_step w a = Some (w1, o) -> nth_error (w_home w) x = Some i -> nth_error (w_home w1) x = Some i.
Proof.
  intros E H. destruct a as [j|j|j q|j]; cbn [act_step] in E; destruct (nth_error (w_procs w) j) as [pi|] eqn:Ei; try discriminate.
  - destruct (negb (pr_alive pi)); [discriminate|]. destruct (find_loop _ _); injection E as <- <-; auto. cbn [w_home].
    rewrite nth_error_app1 by (eapply nth_lt; eauto). auto.
  - destruct (negb (pr_alive pi)); [discriminate|]. injection E as <- <-. auto.
  - destruct (_ || _); [discriminate|]. injection E as <- <-. auto.
  - destruct (negb (pr_alive pi)); [discriminate|]. injection E as <- <-. auto.
Qed.
(* the loop used *)
Lemma step_uses w i w1 o : act_step w (New i) = Some (w1, o) -> exists x p, o = Some x /\ nth_error (w_procs w1) i = Some p /\
  find_loop (pr_loops p) (pr_pid p) = Some x.
Proof.
  intros E. cbn [act_step] in E. destruct (nth_error (w_procs w) i) as [p|] eqn:Ei; [|discriminate].
  destruct (negb (pr_alive p)); [discriminate|]. destruct (find_loop (pr_loops p) (pr_pid p)) as [l|] eqn:Ef; injection E as <- <-.
  - eauto.
  - cbn [w_procs]. rewrite set_same by (eapply nth_lt; eauto). eexists _, _. split; [reflexivity|]. split; [reflexivity|]. cbn. rewrite Nat.eqb_refl. auto.
Qed.
(* where processes come from *)
Lemma step_born w a w1 o j p : act_step w a = Some (w1, o) -> nth_error (w_procs w1) j = Some p ->
  (exists p0, nth_error (w_procs w) j = Some p0) \/
  (exists i p0 q, j = List.length (w_procs w) /\ a = Fork i q /\ nth_error (w_procs w) i = Some p0 /\ pr_alive p0 = true /\
     (forall k r, nth_error (w_procs w) k = Some r -> pr_alive r = true -> pr_pid r <> q) /\ p = Proc q (pr_loops p0) true).
Proof.
  intros E H. assert (L : (j < List.length (w_procs w))%nat -> exists p0, nth_error (w_procs w) j = Some p0).
  { intros K. apply nth_error_Some in K. destruct (nth_error (w_procs w) j); eauto. congruence. }
  destruct a as [i|i|i q|i]; cbn [act_step] in E; destruct (nth_error (w_procs w) i) as [pi|] eqn:Ei; try discriminate.
  - destruct (negb (pr_alive pi)); [discriminate|]. left. apply L. destruct (find_loop _ _); injection E as <- <-; apply nth_lt in H; auto.
    cbn [w_procs] in H. rewrite set_length in H. auto.
  - destruct (negb (pr_alive pi)); [discriminate|]. left. apply L. injection E as <- <-; apply nth_lt in H. cbn [w_procs] in H. rewrite set_length in H. auto.
  - destruct (negb (pr_alive pi) || _) eqn:Eb; [discriminate|]. injection E as <- <-. cbn [w_procs] in H.
    apply Bool.orb_false_elim in Eb. destruct Eb as [Ea Eb]. apply Bool.negb_false_iff in Ea.
    pose proof (nth_lt _ _ _ H) as Lj. rewrite app_length in Lj. cbn in Lj.
    destruct (Nat.eq_dec j (List.length (w_procs w))) as [->|N]; [|left; apply L; lia].
    rewrite nth_error_app2, Nat.sub_diag in H by lia. injection H as <-. right. exists i, pi, q. split; auto. split; auto. split; auto. split; auto. split; auto.
    intros k r Hr Ar Er. apply Bool.not_true_iff_false in Eb. apply Eb. apply existsb_exists. exists r. split; [eapply nth_error_In; eauto|].
    rewrite Ar, Er, Nat.eqb_refl. reflexivity.
  - destruct (negb (pr_alive pi)); [discriminate|]. left. apply L. injection E as <- <-; apply nth_lt in H. cbn [w_procs] in H. rewrite set_length in H. auto.
Qed.
Lemma acts_app l1 : forall w l2 w2 os, acts w (l1 ++ l2) = Some (w2, os) ->
  exists w1 os1 os2, acts w l1 = Some (w1, os1) /\ acts w1 l2 = Some (w2, os2) /\ os = os1 ++ os2 /\ List.length os1 = List.length l1.
Proof.
  induction l1 as [|a l1 IH]; intros w l2 w2 os E; cbn [app acts] in *.
  - eexists _, _, _. split; [reflexivity|]. split; [exact E|]. split; reflexivity.
  - destruct (act_step w a) as [[w1 o]|]; [|discriminate]. destruct (acts w1 (l1 ++ l2)) as [[w3 os3]|] eqn:E3; [|discriminate].
    injection E as <- <-. destruct (IH w1 l2 w3 os3 E3) as [w4 [os4 [os5 [A [B [C D]]]]]]. rewrite A.
    eexists _, _, _. split; [reflexivity|]. split; [exact B|]. subst. cbn. auto.
Qed.
Lemma uses_at w l w' os k i x : acts w l = Some (w', os) -> uses l os k i x ->
  exists l1 l2 w1 w2 os1 os2, l = l1 ++ New i :: l2 /\ List.length l1 = k /\ acts w l1 = Some (w1, os1) /\ act_step w1 (New i) = Some (w2, Some x) /\
    acts w2 l2 = Some (w', os2).
Proof.
  intros E [H1 H2]. apply nth_error_split in H1. destruct H1 as [l1 [l2 [-> Hk]]].
  destruct (acts_app l1 _ _ _ _ E) as [w1 [os1 [os2 [A [B [-> D]]]]]]. cbn [acts] in B.
  destruct (act_step w1 (New i)) as [[w2 o]|] eqn:Es; [|discriminate]. destruct (acts w2 l2) as [[w3 os3]|] eqn:E3; [|discriminate].
  injection B as -> <-. rewrite nth_error_app2 in H2 by lia. rewrite D, Hk, Nat.sub_diag in H2. cbn in H2. injection H2 as ->.
  eexists _, _, _, _, _, _. split; [reflexivity|]. split; auto. split; [exact A|]. split; [exact Es|exact E3].
Qed.
Lemma acts_home l : forall w w' os x i, acts w l = Some (w', os) -> nth_error (w_home w) x = Some i -> nth_error (w_home w') x = Some i.
Proof.
  induction l as [|a l IH]; intros w w' os x i E H; cbn [acts] in E.
  - injection E as <- _. auto.
  - destruct (act_step w a) as [[w1 o]|] eqn:Es; [|discriminate]. destruct (acts w1 l) as [[w2 os2]|] eqn:E2; [|discriminate].
    injection E as <- <-. apply (IH _ _ _ _ _ E2). apply (step_home _ _ _ _ _ _ Es H).
Qed.
Definition pids (w : world) : list nat := map pr_pid (w_procs w).
Lemma set_pids ps i p q : nth_error ps i = Some q -> pr_pid p = pr_pid q -> map pr_pid (set_proc ps i p) = map pr_pid ps.
Proof. revert i. induction ps as [|r ps IH]; intros [|i] H E; cbn in *; auto; [injection H as ->; congruence|f_equal; eauto]. Qed.
Lemma step_pids w a w1 o : act_step w a = Some (w1, o) -> exists more, pids w1 = pids w ++ more.
Proof.
  unfold pids. intros E. destruct a as [i|i|i q|i]; cbn [act_step] in E; destruct (nth_error (w_procs w) i) as [pi|] eqn:Ei; try discriminate.
  - destruct (negb (pr_alive pi)); [discriminate|]. exists []. rewrite app_nil_r. destruct (find_loop _ _); injection E as <- <-; auto. cbn [w_procs].
    eapply set_pids; eauto.
  - destruct (negb (pr_alive pi)); [discriminate|]. exists []. rewrite app_nil_r. injection E as <- <-. cbn [w_procs]. eapply set_pids; eauto.
  - destruct (_ || _); [discriminate|]. injection E as <- <-. cbn [w_procs]. rewrite map_app. eauto.
  - destruct (negb (pr_alive pi)); [discriminate|]. exists []. rewrite app_nil_r. injection E as <- <-. cbn [w_procs]. eapply set_pids; eauto.
Qed.
Lemma acts_pids l : forall w w' os, acts w l = Some (w', os) -> exists more, pids w' = pids w ++ more.
Proof.
  induction l as [|a l IH]; intros w w' os E; cbn [acts] in E.
  - injection E as <- _. exists []. rewrite app_nil_r. auto.
  - destruct (act_step w a) as [[w1 o]|] eqn:Es; [|discriminate]. destruct (acts w1 l) as [[w2 os2]|] eqn:E2; [|discriminate].
    injection E as <- <-. destruct (IH _ _ _ E2) as [m ->]. destruct (step_pids _ _ _ _ Es) as [m' ->]. rewrite <- app_assoc. eauto.
Qed.
Lemma nodup_pre {A} (l m : list A) : NoDup (l ++ m) -> NoDup l.
Proof. induction l as [|x l IH]; intros H; [constructor|]. inversion H; subst. constructor; [intros K; apply H2, in_or_app; auto|auto]. Qed.

(* every entry belongs to the process whose id it has *)
Definition owned (w : world) : Prop :=
  forall i p k l, nth_error (w_procs w) i = Some p -> In (k, l) (pr_loops p) ->
  exists j q, nth_error (w_procs w) j = Some q /\ pr_pid q = k /\ nth_error (w_home w) l = Some j.
Lemma owned_step w a w1 o : act_step w a = Some (w1, o) -> owned w -> owned w1.
Proof.
  intros E O i p k l Hp Hl.
  assert (K : forall j q, nth_error (w_procs w) j = Some q -> nth_error (w_home w) l = Some j -> pr_pid q = k ->
    exists j q, nth_error (w_procs w1) j = Some q /\ pr_pid q = k /\ nth_error (w_home w1) l = Some j).
  { intros j q Hq Hh Ek. destruct (step_proc _ _ _ _ _ _ E Hq) as [q' [A [B _]]]. exists j, q'. split; auto. split; [congruence|].
    apply (step_home _ _ _ _ _ _ E Hh). }
  destruct (step_born _ _ _ _ _ _ E Hp) as [[p0 H0]|[i0 [p0 [q [_ [_ [H0 [_ [_ ->]]]]]]]]].
  - destruct (step_proc _ _ _ _ _ _ E H0) as [p' [A [B C]]]. rewrite Hp in A. injection A as <-.
    destruct C as [C|[[_ C]|[Ea [_ [C D]]]]]; rewrite C in Hl.
    + destruct (O _ _ _ _ H0 Hl) as [j [q [X [Y Z]]]]. eauto.
    + destruct Hl.
    + destruct Hl as [El|Hl]; [injection El as <- <-; exists i, p; auto|]. destruct (O _ _ _ _ H0 Hl) as [j [q [X [Y Z]]]]. eauto.
  - cbn [pr_loops] in Hl. destruct (O _ _ _ _ H0 Hl) as [j [r [X [Y Z]]]]. eauto.
Qed.
Lemma owned_acts l : forall w w' os, acts w l = Some (w', os) -> owned w -> owned w'.
Proof.
  induction l as [|a l IH]; intros w w' os E O; cbn [acts] in E.
  - injection E as <- _. auto.
  - destruct (act_step w a) as [[w1 o]|] eqn:Es; [|discriminate]. destruct (acts w1 l) as [[w2 os2]|] eqn:E2; [|discriminate].
    injection E as <- <-. apply (IH _ _ _ E2). apply (owned_step _ _ _ _ Es O).
Qed.
Lemma nodup_nth {A} (l : list A) i j x : NoDup l -> nth_error l i = Some x -> nth_error l j = Some x -> i = j.
Proof. intros N H1 H2. apply (proj1 (NoDup_nth_error l) N); [eapply nth_lt; eauto|congruence]. Qed.

(* C81, own loop: if no two processes ever had the same id, the loop an object uses runs in the process of the object. *)
Theorem C81_own_loop : forall pid l w os k i x,
  acts (world_init pid) l = Some (w, os) -> NoDup (map pr_pid (w_procs w)) ->
  uses l os k i x -> nth_error (w_home w) x = Some i.
Proof.
  intros pid l w os k i x E N U. destruct (uses_at _ _ _ _ _ _ _ E U) as [l1 [l2 [w1 [w2 [os1 [os2 [-> [_ [E1 [Es E2]]]]]]]]]].
  assert (O2 : owned w2).
  { apply (owned_step _ _ _ _ Es). apply (owned_acts _ _ _ _ E1). intros j p y z Hp Hl. unfold world_init in Hp. cbn in Hp.
    destruct j as [|j]; cbn in Hp; [injection Hp as <-; destruct Hl|destruct j; discriminate]. }
  destruct (step_uses _ _ _ _ Es) as [x' [p [Ex [Hp F]]]]. injection Ex as <-. apply find_in in F.
  destruct (O2 _ _ _ _ Hp F) as [j [q [Hq [Ep Hh]]]].
  destruct (acts_pids _ _ _ _ E2) as [m Em]. assert (N2 : NoDup (pids w2)) by (unfold pids in *; rewrite Em in N; eapply nodup_pre; eauto).
  assert (j = i).
  { apply (nodup_nth (pids w2) j i (pr_pid p) N2); unfold pids; [rewrite <- Ep|]; apply map_nth_error; auto. }
  subst j. apply (acts_home _ _ _ _ _ _ E2 Hh).
Qed.
Print Assumptions C81_own_loop.

(* C81, one loop: two objects made in a process without IOLooper.clear() between use the same loop. *)
Lemma found_acts i x l : forall w w' os p, acts w l = Some (w', os) -> ~ In (Clear i) l ->
  nth_error (w_procs w) i = Some p -> find_loop (pr_loops p) (pr_pid p) = Some x ->
  exists p', nth_error (w_procs w') i = Some p' /\ find_loop (pr_loops p') (pr_pid p') = Some x.
Proof.
  induction l as [|a l IH]; intros w w' os p E NC Hp F; cbn [acts] in E.
  - injection E as <- _. eauto.
  - destruct (act_step w a) as [[w1 o]|] eqn:Es; [|discriminate]. destruct (acts w1 l) as [[w2 os2]|] eqn:E2; [|discriminate].
    injection E as <- <-. destruct (step_proc _ _ _ _ _ _ Es Hp) as [p1 [A [B C]]].
    assert (C' : pr_loops p1 = pr_loops p).
    { destruct C as [C|[[C _]|[_ [C _]]]]; auto; [exfalso; apply NC; left; auto|congruence]. }
    apply (IH _ _ _ p1 E2); auto; [intros K; apply NC; right; auto|congruence].
Qed.
Theorem C81_one_loop : forall pid l w os k k' i x x',
  acts (world_init pid) l = Some (w, os) -> uses l os k i x -> uses l os k' i x' -> (k < k')%nat ->
  (forall m, (k < m < k')%nat -> nth_error l m <> Some (Clear i)) -> x = x'.
Proof.
  intros pid l w os k k' i x x' E U U' L NC.
  destruct (uses_at _ _ _ _ _ _ _ E U') as [l1 [l2 [w1 [w2 [os1 [os2 [El [Lk [E1 [Es E2]]]]]]]]]]. subst l k'.
  assert (U1 : uses l1 os1 k i x).
  { destruct U as [A B]. rewrite nth_error_app1 in A by auto. split; auto.
    destruct (acts_app l1 _ _ _ _ E) as [w1' [os1' [os2' [A' [B' [Eo D]]]]]]. rewrite E1 in A'. injection A' as <- <-. subst os.
    rewrite nth_error_app1 in B by lia. auto. }
  destruct (uses_at _ _ _ _ _ _ _ E1 U1) as [l3 [l4 [w3 [w4 [os3 [os4 [El [Lk [E3 [Es3 E4]]]]]]]]]]. subst l1 k.
  destruct (step_uses _ _ _ _ Es3) as [y [p [Ey [Hp F]]]]. injection Ey as <-.
  destruct (found_acts i x l4 _ _ _ p E4) as [p' [Hp' F']]; auto.
  { intros K. apply In_nth_error in K. destruct K as [n Hn]. apply (NC (List.length l3 + 1 + n)%nat).
    - apply nth_lt in Hn. rewrite app_length. cbn. lia.
    - rewrite <- app_assoc. rewrite nth_error_app2 by lia. replace (List.length l3 + 1 + n - List.length l3)%nat with (S n) by lia. cbn.
      rewrite nth_error_app1 by (eapply nth_lt; eauto). auto. }
  destruct (step_uses _ _ _ _ Es) as [y [q [Ey [Hq G]]]]. injection Ey as <-.
  cbn [act_step] in Es. rewrite Hp' in Es. destruct (negb (pr_alive p')); [discriminate|]. rewrite F' in Es. injection Es as _ ->. auto.
Qed.
Print Assumptions C81_one_loop.

(* C81, threads: a process starts at most one IO loop more often than it calls IOLooper.clear(). *)
Definition clears (i : nat) (l : list act) : nat := List.length (filter (fun a => match a with Clear j => Nat.eqb j i | _ => false end) l).
Definition has_own (w : world) (i : nat) : nat :=
  match nth_error (w_procs w) i with
  | Some p => match find_loop (pr_loops p) (pr_pid p) with Some _ => 1 | None => 0 end
  | None => 0 end.
Lemma has_own_le w i : (has_own w i <= 1)%nat.
Proof. unfold has_own. destruct (nth_error _ _) as [p|]; [destruct (find_loop _ _)|]; lia. Qed.
Lemma threads_step w a w1 o i n : act_step w a = Some (w1, o) -> (count_occ Nat.eq_dec (w_home w) i <= n + has_own w i)%nat ->
  (count_occ Nat.eq_dec (w_home w1) i <= n + clears i [a] + has_own w1 i)%nat.
Proof.
  intros E H. assert (Keep : forall j p p', nth_error (w_procs w) j = Some p -> pr_pid p' = pr_pid p -> pr_loops p' = pr_loops p ->
    forall hm, has_own (World (set_proc (w_procs w) j p') hm) i = has_own w i).
  { intros j p p' Hp E1 E2 hm. unfold has_own. cbn [w_procs]. destruct (Nat.eq_dec j i) as [<-|N].
    - rewrite set_same by (eapply nth_lt; eauto). rewrite Hp, E1, E2. auto.
    - rewrite set_other by auto. auto. }
  destruct a as [j|j|j q|j]; cbn [act_step] in E; destruct (nth_error (w_procs w) j) as [pj|] eqn:Ej; try discriminate.
  - destruct (negb (pr_alive pj)); [discriminate|]. unfold clears. cbn [filter List.length].
    destruct (find_loop (pr_loops pj) (pr_pid pj)) as [y|] eqn:F; injection E as <- <-; [lia|]. cbn [w_home].
    rewrite count_occ_app. cbn [count_occ]. unfold has_own in *. cbn [w_procs].
    destruct (Nat.eq_dec j i) as [<-|N].
    + rewrite set_same by (eapply nth_lt; eauto). rewrite Ej, F in H. cbn [pr_loops pr_pid find_loop]. rewrite Nat.eqb_refl. lia.
    + rewrite set_other by auto. lia.
  - destruct (negb (pr_alive pj)); [discriminate|]. injection E as <- <-. cbn [w_home]. unfold clears. cbn [filter].
    destruct (Nat.eqb_spec j i) as [Eji|N]; cbn [List.length]; [pose proof (has_own_le w i); lia|].
    unfold has_own in *. cbn [w_procs]. rewrite set_other by auto. lia.
  - destruct (_ || _); [discriminate|]. injection E as <- <-. cbn [w_home]. unfold clears. cbn [filter List.length].
    assert (has_own w i <= has_own (World (w_procs w ++ [Proc q (pr_loops pj) true]) (w_home w)) i)%nat; [|lia].
    unfold has_own. cbn [w_procs]. destruct (nth_error (w_procs w) i) as [p|] eqn:Ei; [|lia].
    rewrite nth_error_app1 by (eapply nth_lt; eauto). rewrite Ei. lia.
  - destruct (negb (pr_alive pj)); [discriminate|]. injection E as <- <-. cbn [w_home]. unfold clears. cbn [filter List.length].
    rewrite (Keep j pj); auto. lia.
Qed.
Theorem C81_threads : forall pid l w os i, acts (world_init pid) l = Some (w, os) ->
  (count_occ Nat.eq_dec (w_home w) i <= 1 + clears i l)%nat.
Proof.
  intros pid l w os i E.
  assert (G : forall l w w' os n, acts w l = Some (w', os) -> (count_occ Nat.eq_dec (w_home w) i <= n + has_own w i)%nat ->
    (count_occ Nat.eq_dec (w_home w') i <= n + clears i l + has_own w' i)%nat).
  { clear. induction l as [|a l IH]; intros w w' os n E H; cbn [acts] in E.
    - injection E as <- _. unfold clears. cbn. lia.
    - destruct (act_step w a) as [[w1 o]|] eqn:Es; [|discriminate]. destruct (acts w1 l) as [[w2 os2]|] eqn:E2; [|discriminate].
      injection E as <- <-. pose proof (threads_step _ _ _ _ i n Es H) as H1. specialize (IH _ _ _ _ E2 H1).
      assert (clears i (a :: l) = clears i [a] + clears i l)%nat; [|lia].
      unfold clears. cbn [filter]. destruct a; cbn; try reflexivity. destruct (Nat.eqb _ _); reflexivity. }
  pose proof (G l _ _ _ 0%nat E ltac:(cbn; lia)) as H. pose proof (has_own_le w i). lia.
Qed.
Print Assumptions C81_threads.

(* C81, run_blockwise: it calls IOLooper.clear() first (convenience.py:46).  From then on objects of that process and of the
   processes it starts use loops of their own process, even if ids of processes that ended are used again. *)
Definition forks (l : list act) : nat := List.length (filter (fun a => match a with Fork _ _ => true | _ => false end) l).
Definition own_key (w : world) (c : nat) : Prop :=
  exists p, nth_error (w_procs w) c = Some p /\ forall y, In (pr_pid p, y) (pr_loops p) -> nth_error (w_home w) y = Some c.
Definition only_own (w : world) (i : nat) : Prop :=
  exists p, nth_error (w_procs w) i = Some p /\ forall k y, In (k, y) (pr_loops p) -> k = pr_pid p /\ nth_error (w_home w) y = Some i.
Lemma only_own_key w i : only_own w i -> own_key w i.
Proof. intros [p [H K]]. exists p. split; auto. intros y Hy. apply (K _ _ Hy). Qed.
Lemma own_key_step w a w1 o c : act_step w a = Some (w1, o) -> own_key w c -> own_key w1 c.
Proof.
  intros E [p [Hp K]]. destruct (step_proc _ _ _ _ _ _ E Hp) as [p' [A [B C]]]. exists p'. split; auto. rewrite B. intros y Hy.
  destruct C as [C|[[_ C]|[_ [_ [C D]]]]]; rewrite C in Hy.
  - apply (step_home _ _ _ _ _ _ E). auto.
  - destruct Hy.
  - destruct Hy as [Ey|Hy]; [injection Ey as <-; auto|apply (step_home _ _ _ _ _ _ E); auto].
Qed.
Lemma only_own_step w a w1 o c : act_step w a = Some (w1, o) -> only_own w c -> only_own w1 c.
Proof.
  intros E [p [Hp K]]. destruct (step_proc _ _ _ _ _ _ E Hp) as [p' [A [B C]]]. exists p'. split; auto. rewrite B. intros k y Hy.
  destruct C as [C|[[_ C]|[_ [_ [C D]]]]]; rewrite C in Hy.
  - destruct (K _ _ Hy). split; auto. apply (step_home _ _ _ _ _ _ E). auto.
  - destruct Hy.
  - destruct Hy as [Ey|Hy]; [injection Ey as <- <-; auto|]. destruct (K _ _ Hy). split; auto. apply (step_home _ _ _ _ _ _ E); auto.
Qed.
Lemma keep_acts (P : world -> nat -> Prop) c : (forall w a w1 o, act_step w a = Some (w1, o) -> P w c -> P w1 c) ->
  forall l w w' os, acts w l = Some (w', os) -> P w c -> P w' c.
Proof.
  intros S. induction l as [|a l IH]; intros w w' os E H; cbn [acts] in E.
  - injection E as <- _. auto.
  - destruct (act_step w a) as [[w1 o]|] eqn:Es; [|discriminate]. destruct (acts w1 l) as [[w2 os2]|] eqn:E2; [|discriminate].
    injection E as <- <-. eauto.
Qed.
Lemma procs_count l : forall w w' os, acts w l = Some (w', os) -> List.length (w_procs w') = (List.length (w_procs w) + forks l)%nat.
Proof.
  induction l as [|a l IH]; intros w w' os E; cbn [acts] in E.
  - injection E as <- _. cbn. lia.
  - destruct (act_step w a) as [[w1 o]|] eqn:Es; [|discriminate]. destruct (acts w1 l) as [[w2 os2]|] eqn:E2; [|discriminate].
    injection E as <- <-. rewrite (IH _ _ _ E2). clear E2 IH. unfold forks. cbn [filter].
    destruct a as [i|i|i q|i]; cbn [act_step] in Es; destruct (nth_error (w_procs w) i) as [pi|] eqn:Ei; try discriminate.
    + destruct (negb (pr_alive pi)); [discriminate|]. destruct (find_loop _ _); injection Es as <- <-; auto. cbn [w_procs]. rewrite set_length. auto.
    + destruct (negb (pr_alive pi)); [discriminate|]. injection Es as <- <-. cbn [w_procs]. rewrite set_length. auto.
    + destruct (_ || _); [discriminate|]. injection Es as <- <-. cbn [w_procs List.length]. rewrite app_length. cbn. lia.
    + destruct (negb (pr_alive pi)); [discriminate|]. injection Es as <- <-. cbn [w_procs]. rewrite set_length. auto.
Qed.
Lemma key_uses w l w' os k c x : own_key w c -> acts w l = Some (w', os) -> uses l os k c x -> nth_error (w_home w') x = Some c.
Proof.
  intros K E U. destruct (uses_at _ _ _ _ _ _ _ E U) as [l1 [l2 [w1 [w2 [os1 [os2 [-> [_ [E1 [Es E2]]]]]]]]]].
  apply (keep_acts own_key c (fun w a w1 o => own_key_step w a w1 o c) _ _ _ _ E1) in K. apply (own_key_step _ _ _ _ _ Es) in K.
  destruct (step_uses _ _ _ _ Es) as [y [p [Ey [Hp F]]]]. injection Ey as <-. destruct K as [p' [Hp' K]]. rewrite Hp in Hp'. injection Hp' as <-.
  apply (acts_home _ _ _ _ _ _ E2). apply K, find_in, F.
Qed.
Theorem C81_after_clear : forall pid l1 i l2 w os k x,
  acts (world_init pid) (l1 ++ Clear i :: l2) = Some (w, os) -> (List.length l1 < k)%nat ->
  (uses (l1 ++ Clear i :: l2) os k i x -> nth_error (w_home w) x = Some i) /\
  (forall l3 q l4, l2 = l3 ++ Fork i q :: l4 -> let c := (1 + forks (l1 ++ Clear i :: l3))%nat in
     uses (l1 ++ Clear i :: l2) os k c x -> nth_error (w_home w) x = Some c).
Proof.
  intros pid l1 i l2 w os k x E Lk. destruct (acts_app l1 _ _ _ _ E) as [w1 [os1 [os2 [E1 [E2 [-> L1]]]]]].
  cbn [acts] in E2. destruct (act_step w1 (Clear i)) as [[w2 o]|] eqn:Es; [|discriminate].
  destruct (acts w2 l2) as [[w3 os3]|] eqn:E3; [|discriminate]. injection E2 as -> <-.
  assert (O : only_own w2 i).
  { cbn [act_step] in Es. destruct (nth_error (w_procs w1) i) as [p|] eqn:Ei; [|discriminate]. destruct (negb (pr_alive p)); [discriminate|].
    injection Es as <- <-. exists (Proc (pr_pid p) [] true). cbn [w_procs]. rewrite set_same by (eapply nth_lt; eauto). split; auto. intros k0 y []. }
  assert (Sh : forall j, uses (l1 ++ Clear i :: l2) (os1 ++ o :: os3) k j x -> uses l2 os3 (k - S (List.length l1)) j x).
  { intros j [A B]. rewrite nth_error_app2 in A by lia. rewrite nth_error_app2 in B by lia. rewrite L1 in B.
    replace (k - List.length l1)%nat with (S (k - S (List.length l1))) in A, B by lia. split; auto. }
  split.
  - intros U. apply Sh in U. apply (key_uses _ _ _ _ _ _ _ (only_own_key _ _ O) E3 U).
  - intros l3 q l4 -> c U. apply Sh in U. set (n := (k - S (List.length l1))%nat) in *.
    destruct (acts_app l3 _ _ _ _ E3) as [w4 [os4 [os5 [E4 [E5 [-> L4]]]]]].
    apply (keep_acts only_own i (fun w a w1 o => only_own_step w a w1 o i) _ _ _ _ E4) in O.
    cbn [acts] in E5. destruct (act_step w4 (Fork i q)) as [[w5 o5]|] eqn:Ef; [|discriminate].
    destruct (acts w5 l4) as [[w6 os6]|] eqn:E6; [|discriminate]. injection E5 as -> <-.
    assert (Ec : c = List.length (w_procs w4)).
    { assert (E' : acts (world_init pid) (l1 ++ Clear i :: l3) = Some (w4, os1 ++ o :: os4)).
      { clear - E1 Es E4. revert E1. generalize (world_init pid) as w0. revert os1. induction l1 as [|a l1 IH]; intros os1 w0 E1; cbn [app acts] in *.
        - injection E1 as -> <-. rewrite Es, E4. reflexivity.
        - destruct (act_step w0 a) as [[wa oa]|]; [|discriminate]. destruct (acts wa l1) as [[wb osb]|] eqn:Eb; [|discriminate].
          injection E1 as -> <-. rewrite (IH _ _ Eb). reflexivity. }
      rewrite (procs_count _ _ _ _ E'). reflexivity. }
    assert (K : own_key w5 c).
    { destruct O as [p [Hp O]]. cbn [act_step] in Ef. rewrite Hp in Ef. destruct (negb (pr_alive p) || _) eqn:Eb; [discriminate|].
      injection Ef as <- <-. exists (Proc q (pr_loops p) true). cbn [w_procs w_home]. rewrite Ec, nth_error_app2, Nat.sub_diag by lia.
      split; [reflexivity|]. cbn [pr_pid pr_loops]. intros y Hy. destruct (O _ _ Hy) as [Eq _]. exfalso.
      apply Bool.orb_false_elim in Eb. destruct Eb as [Ea Eb]. apply Bool.negb_false_iff in Ea. apply Bool.not_true_iff_false in Eb. apply Eb.
      apply existsb_exists. exists p. split; [eapply nth_error_In; eauto|]. rewrite Ea, <- Eq, Nat.eqb_refl. reflexivity. }
    assert (P : (List.length l3 < n)%nat).
    { destruct (Nat.lt_ge_cases (List.length l3) n) as [|G]; auto. exfalso. destruct U as [U1 U2].
      assert (U' : nth_error l3 n = Some (New c) \/ n = List.length l3).
      { destruct (Nat.eq_dec n (List.length l3)); auto. left. rewrite nth_error_app1 in U1 by lia. auto. }
      destruct U' as [U'| ->].
      - apply nth_error_split in U'. destruct U' as [la [lb [El _]]]. rewrite El in E4.
        destruct (acts_app la _ _ _ _ E4) as [wa [osa [osb [Ea [Eb _]]]]]. cbn [acts] in Eb.
        destruct (act_step wa (New c)) as [[wb ob]|] eqn:En; [|discriminate].
        destruct (step_uses _ _ _ _ En) as [y [pc [_ [Hc _]]]]. apply nth_lt in Hc. destruct (acts wb lb) as [[wd osd]|] eqn:Ed; [|discriminate].
        injection Eb as -> _. pose proof (procs_count _ _ _ _ Ed). lia.
      - rewrite nth_error_app2, Nat.sub_diag in U1 by lia. discriminate. }
    assert (U' : uses l4 os6 (n - S (List.length l3)) c x).
    { destruct U as [U1 U2]. rewrite nth_error_app2 in U1 by lia. rewrite nth_error_app2 in U2 by lia. rewrite L4 in U2.
      replace (n - List.length l3)%nat with (S (n - S (List.length l3))) in U1, U2 by lia. split; auto. }
    apply (key_uses _ _ _ _ _ _ _ K E6 U').
Qed.
Print Assumptions C81_after_clear.

(* Otherwise an id that is used again can give an object the loop of a process that ended: nothing runs it. *)
Theorem C81_reused_pid_refuted : exists l w os k i x j p,
  acts (world_init 1) l = Some (w, os) /\ uses l os k i x /\ nth_error (w_home w) x = Some j /\ j <> i /\
  nth_error (w_procs w) j = Some p /\ pr_alive p = false.
Proof.
  exists [Fork 0 2; New 1; Fork 1 3; Exit 1; Fork 2 2; New 3]. eexists _, _, 5%nat, 3%nat, 0%nat, 1%nat, _. split; [reflexivity|].
  split; [split; reflexivity|]. split; [reflexivity|]. split; [discriminate|]. split; reflexivity.
Qed.
Print Assumptions C81_reused_pid_refuted.
(* A call of run_blockwise in a process that already used a loop, two workers, one of which uses the id of a process that ended. *)
Example C81_example : exists w os, 
  acts (world_init 1) [New 0; Fork 0 2; New 1; Exit 1; Clear 0; New 0; Fork 0 3; Fork 0 2; New 2; New 3; New 3; New 0] = Some (w, os) /\
  os = [Some 0; None; Some 1; None; None; Some 2; None; None; Some 3; Some 4; Some 4; Some 2]%nat /\ w_home w = [0; 1; 0; 2; 3]%nat.
Proof. eexists _, _. vm_compute. repeat split. Qed.

(* C28: what holds of the serial server whenever it returns, whatever the process functions do. *)
From Coq Require Import Arith Lia.
From Verif Require Import SchedProps SchedExec DGFacts2 PipeRun P_SchedCE P_Sched SerialFacts P_Conv P_Serial.
Open Scope Z_scope.

Lemma apart_mono P up maxr l h : apart P up maxr (l ++ h) -> apart P up maxr h.
Proof.
  intros A x u a b w Px Hu Su Fa Fb. apply (A x u); auto using perm_mono.
  destruct Su as [H|H]; [left|right]; apply in_or_app; auto.
Qed.

Section Any.
  Variables (V : list block) (up down : block -> list block) (seeds : nat -> list block).
  Variable maxr : nat -> Z.
  Variable fuel : nat.
  Hypothesis GG : good_graph V up down seeds.
  Hypothesis EN : enough V fuel.
  Variable s0 : sched.
  Hypothesis FR : fresh V seeds s0.
  Hypothesis ORD : forall b, In b V -> In (b_task b) (s_order s0).
  Variable all_tasks : list nat.
  Hypothesis ALL : forall b, In b V -> In (b_task b) all_tasks.
  Variable chk : history -> nat -> block -> check_result.
  Variable proc : history -> pyblock -> res status.
  Variable pick : history -> nat -> list block -> nat.
  Hypothesis AR : all_roots V up seeds.
  Local Notation reach := (reach up down maxr fuel s0).
  Local Notation settled := (settled up maxr).
  Local Notation HI := (HI V up down seeds maxr fuel GG EN s0 FR).
  Local Notation ap := (apart (fun b => In b V) up maxr).

  (* t was done at some moment *)
  Definition was_done (h : history) (t : nat) : Prop := exists l h' s', h = l ++ h' /\ reach h' s' /\ ts_is_done (s_st s' t) = true.
  Lemma was_done_app l h t : was_done h t -> was_done (l ++ h) t.
  Proof. intros [k [h' [s' [-> [R D]]]]]. exists (l ++ k), h', s'. rewrite app_assoc. auto. Qed.
  Lemma was_done_settled h t b : was_done h t -> ap h -> In b V -> b_task b = t -> settled h b.
  Proof.
    intros [l [h' [s' [-> [R D]]]]] A Hb Ht. apply settled_mono. apply apart_mono in A.
    apply (done_iff V up down seeds maxr fuel GG EN s0 FR h' s' R A t); auto.
  Qed.
  Record WInv (x : serial) : Prop := {
    wi_reach : reach (ss_h x) (ss_s x);
    wi_free : forall b, ~ held (ss_h x) b;
    wi_cover : forall t, In t all_tasks -> In t (ss_funcs x) \/ In t (ss_finished x);
    wi_done : forall t, In t (ss_finished x) -> was_done (ss_h x) t
  }.
  Lemma block_any x s1 h1 h3 pb : WInv x -> reach h1 s1 ->
    h1 = EvHand (b_task (pb_block pb)) pb :: h3 ++ ss_h x -> (forall e, In e h3 -> quiet e) ->
    match serial_block up down maxr fuel proc pick x s1 h1 pb with
    | Ok y => WInv y /\ exists st, ss_h y = EvRel (PB (pb_block pb) st) :: h1
    | Err e => e = KeyError \/ proc h1 pb = Err e
    end.
  Proof.
    intros [X1 X2 X3 X4] R1 E Q.
    set (b := pb_block pb) in *. set (t := b_task b) in *.
    pose proof (HI _ _ R1) as I1.
    assert (Hb : held h1 b).
    { rewrite E. unfold held, n_released, n_handed. cbn [count]. fold b. rewrite is_block_same, !count_app.
      rewrite !(quiet_count _ h3) by auto. pose proof (hi_count _ _ _ _ _ _ _ _ (HI _ _ X1) b) as [K _].
      unfold n_released, n_handed in K. lia. }
    assert (Only : forall c, held h1 c -> c = b).
    { intros c Hc. destruct (block_dec c b) as [|N]; auto. exfalso. apply (X2 c). rewrite E in Hc.
      unfold held, n_released, n_handed in *. cbn [count] in Hc. fold b in Hc.
      rewrite is_block_other, !count_app, !(quiet_count _ h3) in Hc by auto. lia. }
    unfold serial_block. fold b. fold t. destruct (mem Nat.eqb t (ss_funcs x)); [|auto].
    destruct (proc h1 pb) as [st0|e] eqn:Ep; cbn [bind]; [|auto].
    set (st := if status_eqb st0 FAILED then FAILED else SUCCESS).
    assert (St : st = SUCCESS \/ st = FAILED) by (unfold st; destruct (status_eqb st0 FAILED); auto).
    destruct (release_ok V up down seeds maxr fuel GG EN s0 (pick h1) (PB b st) h1 s1 I1 Hb St) as [s2 [Er I2]].
    rewrite Er. cbn [bind].
    pose proof (reach_release up down maxr fuel s0 h1 s1 (pick h1) (PB b st) s2 R1 Hb St Er) as R2.
    assert (Free : forall c, ~ held (EvRel (PB b st) :: h1) c).
    { intros c Hc. apply (held_rel maxr fuel h1 (PB b st)) in Hc.
      - destruct Hc as [Hc N]. apply N. apply Only. exact Hc.
      - intros z. apply (hi_count _ _ _ _ _ _ _ _ I1). }
    assert (Mono : forall u, was_done (ss_h x) u -> was_done (EvRel (PB b st) :: h1) u).
    { intros u W. apply (was_done_app (EvRel (PB b st) :: EvHand t pb :: h3)) in W. cbn [app] in W. rewrite <- E in W. exact W. }
    destruct (ts_is_done (s_st s2 t)) eqn:D.
    - unfold sremove. rewrite (proj2 (mem_nat t _)) by (apply in_sadd_nat; auto). cbn [bind].
      split; [|eexists; reflexivity].
      constructor; cbn [ss_s ss_h ss_funcs ss_finished]; auto.
      + intros u Hu. rewrite in_sadd_nat, in_sdel_nat.
        destruct (Nat.eq_dec u t) as [->|N]; auto. destruct (X3 u Hu); auto.
      + intros u Hu. apply in_sadd_nat in Hu. destruct Hu as [->|Hu]; auto. exists [], (EvRel (PB b st) :: h1), s2. auto.
    - split; [|eexists; reflexivity].
      constructor; cbn [ss_s ss_h ss_funcs ss_finished]; auto.
  Qed.

  Definition over (y : serial) : Prop :=
    reach (ss_h y) (ss_s y) /\ (forall b, ~ held (ss_h y) b) /\
    (ap (ss_h y) -> ((forall b, In b V -> settled (ss_h y) b) \/ ended_by_skips (ss_h y)) /\
                    (no_cross V up -> forall b, In b V -> settled (ss_h y) b)).
  Lemma loop_any n : forall x, WInv x ->
    match serial_loop up down maxr fuel all_tasks chk proc pick n x with
    | Ok y => over y
    | Err e => (e = OutOfFuel /\ Z.of_nat n <= hand_bound V maxr - hands (ss_h x)) \/ e = KeyError \/ exists h pb, proc h pb = Err e
    end.
  Proof.
    induction n as [|n IH]; intros x SI.
    { cbn [serial_loop]. left. split; auto. pose proof (hands_le V up down seeds maxr fuel GG EN s0 FR _ _ (wi_reach _ SI)). lia. }
    cbn [serial_loop]. destruct (set_eqb (ss_finished x) all_tasks) eqn:Ef.
    - destruct SI as [X1 X2 X3 X4]. split; auto. split; auto. intros A.
      assert (D : forall b, In b V -> settled (ss_h x) b).
      { intros b Hb. eapply was_done_settled; eauto. apply X4. eapply set_eqb_in; eauto. }
      auto.
    - destruct (first_block_ok V up down seeds maxr fuel GG EN s0 FR chk (get_ready_tasks (ss_s x)) (ss_h x) (ss_s x) (wi_reach _ SI))
        as [s1 [r [h1 [h2 [E [R1 [Eh X]]]]]]].
      rewrite E. cbn [bind]. destruct r as [pb|].
      + destruct X as [h3 [-> Q]]. cbn [app] in Eh.
        pose proof (block_any x s1 h1 h3 pb SI R1 Eh Q) as BA.
        destruct (serial_block up down maxr fuel proc pick x s1 h1 pb) as [y|e] eqn:Ey.
        * destruct BA as [SY [st Hy]]. cbn [bind]. destruct (ss_funcs y) as [|f fs] eqn:Fy.
          -- destruct SY as [X1 X2 X3 X4]. split; auto. split; auto. intros A.
             assert (D : forall b, In b V -> settled (ss_h y) b).
             { intros b Hb. destruct (X3 (b_task b)) as [K|K]; [apply ALL; auto|rewrite Fy in K; destruct K|].
               eapply was_done_settled; eauto. }
             auto.
          -- specialize (IH y SY). destruct (serial_loop _ _ _ _ _ _ _ _ n y) as [z|e]; auto.
             destruct IH as [[-> IH]|IH]; auto. left. split; auto. rewrite Hy, Eh in IH. unfold hands in *. cbn [count is_hand] in IH.
             rewrite count_app, (quiet_count is_hand h3) in IH by auto. lia.
        * cbn [bind]. destruct BA as [BA|BA]; eauto.
      + destruct X as [Q X]. cbn [ss_h ss_s].
        assert (Free : forall b, ~ held h1 b).
        { intros b. rewrite Eh, held_quiet by auto. apply (wi_free _ SI). }
        assert (Rd : forall t, ~ In t (get_ready_tasks (ss_s x)) -> readyl (ss_s x) t = []).
        { intros t Nt. destruct (readyl (ss_s x) t) as [|b l] eqn:El; auto. exfalso. apply Nt.
          assert (Hb : In b (readyl (ss_s x) t)) by (rewrite El; left; auto).
          pose proof (HI _ _ (wi_reach _ SI)) as I0.
          destruct (i_ready _ _ _ _ _ _ _ _ _ (hi_inv _ _ _ _ _ _ _ _ I0) t b Hb) as [Vb [Tb _]].
          unfold get_ready_tasks. apply filter_In.
          rewrite (hi_order _ _ _ _ _ _ _ _ I0). split; [rewrite <- Tb; apply ORD; auto|].
          rewrite (i_cready _ _ _ _ _ _ _ _ _ (hi_inv _ _ _ _ _ _ _ _ I0)), El. reflexivity. }
        split; [exact R1|]. split; [exact Free|]. cbn [ss_h]. intros _. split.
        2: { intros NX. refine (not_stuck V up down seeds maxr fuel GG EN s0 FR h1 s1 R1 AR Free _).
             apply (first_drain V up down seeds maxr fuel GG EN s0 FR chk AR _ NX (ss_h x) (ss_s x) s1 h1 (wi_reach _ SI) Rd E). }
        assert (D : (exists b, In (EvSkip b) h2) \/ forall b, ~ In (EvSkip b) h2).
        { clear. induction h2 as [|e l IH]; [right; intros b []|]. destruct IH as [[b Hb]|N]; [left; exists b; right; auto|].
          destruct e; [left; eexists; left; reflexivity|right; intros c [?|K]; [discriminate|eapply N; eauto]..]. }
        destruct D as [[b Hb]|N].
        * right. exists h2, (ss_h x), b. auto.
        * left. destruct (X N) as [-> Em].
          refine (not_stuck V up down seeds maxr fuel GG EN s0 FR h1 (ss_s x) R1 AR Free _).
          intros t. destruct (in_dec Nat.eq_dec t (get_ready_tasks (ss_s x))) as [H|H]; auto.
  Qed.
  Lemma init_any : WInv (serial_init all_tasks s0).
  Proof.
    constructor; cbn [ss_s ss_h ss_funcs ss_finished serial_init].
    - constructor.
    - intros b. unfold held. cbn. lia.
    - intros t Ht. left. apply in_dedup_nat. auto.
    - intros t [].
  Qed.
End Any.

Lemma serial_setup tasks ord ordt d s0 fuel n chk proc pick :
  pipe_ok tasks -> is_order ord -> is_order ordt -> sched_init tasks = Ok (d, s0) -> closed_tasks tasks ->
  inverse tasks ord ordt d -> no_lonely tasks ord ordt d -> fuel_ok tasks fuel ->
  match serial_pipe tasks ord ordt d fuel chk proc pick n s0 with
  | Ok y => over (pblocks d) (dg_up ord ordt d) (dg_down ord ordt d) (dg_max_retries d) fuel s0 y
  | Err e => (e = OutOfFuel /\ Z.of_nat n <= hand_bound (pblocks d) (dg_max_retries d)) \/ e = KeyError \/ exists h pb, proc h pb = Err e
  end.
Proof.
  intros PO HO HOt E CL IV NL FO.
  assert (R0 : pipe_run tasks ord ordt d s0 fuel [] s0) by (constructor; auto; constructor).
  pose proof (run_good _ _ _ _ _ _ _ _ R0 IV) as GG. pose proof (run_enough _ _ _ _ _ _ _ _ R0 FO) as EN.
  pose proof (run_fresh _ _ _ _ _ _ _ _ R0) as FR. pose proof (run_in _ _ _ _ _ _ _ _ R0) as RI.
  pose proof (run_roots _ _ _ _ _ _ _ _ R0 NL) as AR.
  assert (ORD : forall b, In b (pblocks d) -> In (b_task b) (s_order s0)).
  { intros b Hb. apply RI in Hb. destruct Hb as [t [g [Pt [Eg Gb]]]]. rewrite (gen_id tasks PO t g b Pt Eg Gb).
    destruct (pipe_fresh tasks d s0 PO E) as [_ [_ [_ [O _]]]]. apply O. eauto. }
  assert (AL : forall b, In b (pblocks d) -> In (b_task b) (map t_id tasks)).
  { intros b Hb. apply RI in Hb. destruct Hb as [t [g [Pt [Eg Gb]]]]. rewrite (gen_id tasks PO t g b Pt Eg Gb).
    apply in_map. apply CL, Pt. }
  pose proof (loop_any _ _ _ _ _ _ GG EN s0 FR ORD (map t_id tasks) AL chk proc pick AR n _ (init_any _ _ (dg_max_retries d) fuel s0 _)) as L.
  unfold serial_pipe, serial_run. destruct (serial_loop _ _ _ _ _ _ _ _ _ _) as [x|e]; cbn [bind].
  - exact L.
  - destruct L as [[-> L]|L]; auto. left. split; auto. cbn in L. lia.
Qed.

(* C28, whatever the process functions and the check functions do, as long as the server returns: what it did is a run of the
   scheduler, no block is left with a process function, and if orphans were counted right in this run (C21) every block is
   settled - unless the last thing the server saw were skipped blocks, and always if no task requires another. *)
Theorem C28_returned_partial : forall tasks ord ordt d s0 fuel chk proc pick n y,
  pipe_ok tasks -> is_order ord -> is_order ordt -> sched_init tasks = Ok (d, s0) -> closed_tasks tasks ->
  inverse tasks ord ordt d -> no_lonely tasks ord ordt d -> fuel_ok tasks fuel ->
  serial_pipe tasks ord ordt d fuel chk proc pick n s0 = Ok y ->
  pipe_run tasks ord ordt d s0 fuel (ss_h y) (ss_s y) /\ (forall b, ~ held (ss_h y) b) /\
  (apart_failures tasks ord ordt d (ss_h y) ->
    ((forall b, pipe_block tasks b -> settled (dg_up ord ordt d) (dg_max_retries d) (ss_h y) b) \/ ended_by_skips (ss_h y)) /\
    (no_cross (pblocks d) (dg_up ord ordt d) ->
     forall b, pipe_block tasks b -> settled (dg_up ord ordt d) (dg_max_retries d) (ss_h y) b)).
Proof.
  intros tasks ord ordt d s0 fuel chk proc pick n y PO HO HOt E CL IV NL FO Ey.
  pose proof (serial_setup tasks ord ordt d s0 fuel n chk proc pick PO HO HOt E CL IV NL FO) as L. rewrite Ey in L.
  destruct L as [R [H S]]. assert (RP : pipe_run tasks ord ordt d s0 fuel (ss_h y) (ss_s y)) by (constructor; auto).
  pose proof (run_in _ _ _ _ _ _ _ _ RP) as RI. split; auto. split; auto. intros A.
  destruct S as [S1 S2].
  { intros x u a b w Hx. apply A, RI, Hx. }
  split; [|intros NX b Hb; apply (S2 NX), RI, Hb]. destruct S1 as [S1|S1]; auto. left. intros b Hb. apply S1, RI, Hb.
Qed.
Print Assumptions C28_returned_partial.

(* The server does not run forever, and the only exceptions are those of the process functions and the KeyError of
   C28_key_error_refuted. *)
Theorem C28_ends : forall tasks ord ordt d s0 fuel chk proc pick,
  pipe_ok tasks -> is_order ord -> is_order ordt -> sched_init tasks = Ok (d, s0) -> closed_tasks tasks ->
  inverse tasks ord ordt d -> no_lonely tasks ord ordt d -> fuel_ok tasks fuel ->
  exists N, forall n, (N <= n)%nat ->
    match serial_pipe tasks ord ordt d fuel chk proc pick n s0 with
    | Ok _ => True
    | Err e => e = KeyError \/ exists h pb, proc h pb = Err e
    end.
Proof.
  intros tasks ord ordt d s0 fuel chk proc pick PO HO HOt E CL IV NL FO.
  exists (S (Z.to_nat (hand_bound (pblocks d) (dg_max_retries d)))). intros n Ln.
  pose proof (serial_setup tasks ord ordt d s0 fuel n chk proc pick PO HO HOt E CL IV NL FO) as L.
  destruct (serial_pipe _ _ _ _ _ _ _ _ _ _) as [y|e]; auto. destruct L as [[_ L]|L]; auto. lia.
Qed.
Print Assumptions C28_ends.

(* The server, its pools and the workers together (C60, C61). *)
From Coq Require Import Arith Lia Permutation.
From Verif Require Import SchedProps SchedExec DGFacts2 PipeRun P_SchedCE P_Sched SerialFacts P_Conv P_Serial ServerFacts ServerSteps
  ServerIdle P_Server P_ServerCE P_Outcome P_Notify.
From Verif Require Client Pool.
From Verif Require Import Sys SysFacts SysMeasure SysLive SysFair SysTrace P_Sys WholeFair.
Open Scope Z_scope.

(* The beginning: [Server.run_blockwise] for [tasks], [nw t] workers for task t (task.num_workers). *)
Record company (tasks : list task) ord ordt (d : dgraph) (s0 : sched) fuel init (nw : nat -> Z) (mbf : Z) (h : whole) : Prop := {
  co_ok : pipe_ok tasks;
  co_ord : is_order ord;
  co_ordt : is_order ordt;
  co_init : sched_init tasks = Ok (d, s0);
  co_inverse : inverse tasks ord ordt d;
  co_fuel : fuel_ok tasks fuel;
  co_callback : forall t, init t = Ok tt;
  co_workers : forall t, 1 <= nw t;
  co_start : whole_init init nw mbf (map t_id tasks) s0 = Ok h
}.
(* a run in which every move is prudent (Whole.v) *)
Inductive pruns up down maxr fuel init nw mbf (h : whole) : list hmove -> whole -> Prop :=
| pruns_nil : pruns up down maxr fuel init nw mbf h [] h
| pruns_step ms h1 m h2 : pruns up down maxr fuel init nw mbf h ms h1 -> hstep up down maxr fuel init nw mbf h1 m h2 -> prudent h1 m ->
    pruns up down maxr fuel init nw mbf h (ms ++ [m]) h2.
Definition hserved (ms : list hmove) : list input := flat_map (fun m => match m with HServe i _ => [i] | _ => [] end) ms.
(* moves that are work, as in C53 *)
Definition hworks (h : whole) (m : hmove) (h' : whole) : Prop :=
  match m with
  | HExit _ | HEnd _ _ _ => False
  | HServe i _ => (exists st msg, i_get i = GotMessage st msg) \/
                  exists l, sv_tr (h_sv h') = l ++ sv_tr (h_sv h) /\ existsb effect l = true
  | _ => True
  end.
(* [k] moves that are work, [e] processes that ended before they were told to *)
Inductive hcounted up down maxr fuel init nw mbf (h : whole) : nat -> nat -> whole -> Prop :=
| hc_nil : hcounted up down maxr fuel init nw mbf h 0 0 h
| hc_work k e h1 m h2 : hcounted up down maxr fuel init nw mbf h k e h1 -> hstep up down maxr fuel init nw mbf h1 m h2 -> prudent h1 m ->
    hworks h1 m h2 -> hcounted up down maxr fuel init nw mbf h (S k) e h2
| hc_end k e h1 m h2 : hcounted up down maxr fuel init nw mbf h k e h1 -> hstep up down maxr fuel init nw mbf h1 m h2 -> prudent h1 m ->
    hends m -> hcounted up down maxr fuel init nw mbf h k (S e) h2
| hc_other k e h1 m h2 : hcounted up down maxr fuel init nw mbf h k e h1 -> hstep up down maxr fuel init nw mbf h1 m h2 -> prudent h1 m ->
    ~ hends m -> hcounted up down maxr fuel init nw mbf h k e h2.

Section Company.
  Variables (tasks : list task) (ord : list block -> list block) (ordt : list nat -> list nat) (d : dgraph) (s0 : sched) (fuel : nat).
  Variables (init : nat -> res unit) (nw : nat -> Z) (mbf : Z) (h0 : whole).
  Hypothesis CO : company tasks ord ordt d s0 fuel init nw mbf h0.
  Local Notation V := (pblocks d).
  Local Notation up := (dg_up ord ordt d).
  Local Notation down := (dg_down ord ordt d).
  Local Notation maxr := (dg_max_retries d).
  Local Notation ids := (map t_id tasks).
  Local Notation hstep := (hstep up down maxr fuel init nw mbf).
  Local Notation pruns := (pruns up down maxr fuel init nw mbf).
  Local Notation Good := (Good V up down maxr fuel s0 ids).
  Local Notation Full := (Full V up down maxr fuel s0 ids).
  Local Notation HW := (HW ids nw).
  Local Notation mu3 := (mu3 V maxr ids nw).

  Lemma w_staffed : staffed tasks ord ordt d s0 fuel init [] (start_of (h_sv h0) []).
  Proof.
    destruct CO. constructor; auto; [intros t []|].
    assert (Es : exists sv, server_init init ids false s0 = Ok sv) by (unfold whole_init in co_start0; destruct (server_init _ _ _ _) as [sv|]; [eauto|discriminate]).
    destruct Es as [sv Es]. exists sv. split; auto. unfold whole_init in co_start0. rewrite Es in co_start0. cbn [bind] in co_start0.
    destruct (on_all _ _ _ _ _ _) as [[ps f]|]; [|discriminate]. cbn in co_start0. injection co_start0 as <-. reflexivity.
  Qed.
  Local Notation GG := (f_good _ _ _ _ _ _ _ _ _ w_staffed).
  Local Notation EN := (f_enough _ _ _ _ _ _ _ _ _ w_staffed).
  Local Notation FR := (f_fresh _ _ _ _ _ _ _ _ _ w_staffed).
  Local Notation KN := (f_known _ _ _ _ _ _ _ _ _ w_staffed).
  Local Notation CB := (co_callback _ _ _ _ _ _ _ _ _ _ CO).
  Local Notation NW := (co_workers _ _ _ _ _ _ _ _ _ _ CO).
  Lemma w_nw t : 0 <= nw t.
  Proof. pose proof (NW t). lia. Qed.

  Lemma w_init : exists sv, server_init init ids false s0 = Ok sv /\ h_sv h0 = sv /\ HW h0 /\ Good (Y h0) /\
    mu3 h0 <= 20 * hand_bound V maxr + Z.of_nat (length V) + 7 * spare ids nw [] /\
    exists y ms, runs up down maxr fuel init (start_of sv []) ms y /\ mirror y (h_sv h0) (h_ps h0) (h_w h0).
  Proof. exact (init_good V up down (root_seeds d) maxr fuel GG EN s0 FR ids KN init CB nw NW mbf h0 (co_start _ _ _ _ _ _ _ _ _ _ CO)). Qed.
  Lemma w_kept ms h : pruns h0 ms h -> HW h /\ Good (Y h).
  Proof.
    intros R. induction R as [|ms h1 m h2 R [IH1 IH2] S P]; [destruct w_init as [sv [_ [_ [H [G _]]]]]; auto|].
    exact (hstep_kept V up down (root_seeds d) maxr fuel GG EN s0 FR ids KN init CB nw NW mbf h1 m h2 IH1 IH2 S P).
  Qed.
  Lemma w_sim h m h' : HW h -> Good (Y h) -> hstep h m h' -> prudent h m -> simulated V up down maxr fuel ids init nw h m h'.
  Proof. exact (step_sim V up down (root_seeds d) maxr fuel GG EN s0 FR ids KN init CB nw w_nw mbf (keys_nodup ids) h m h'). Qed.
  (* the server is a server with fair clients *)
  Lemma w_server ms h : pruns h0 ms h -> server_run_to tasks ord ordt d s0 fuel init false (hserved ms) (h_sv h).
  Proof.
    intros R. destruct w_init as [sv [Es [Eh _]]]. pose proof CO as C. destruct C. constructor; auto.
    - induction R as [|ms h1 m h2 R IH S P]; [constructor|]. unfold hserved. rewrite flat_map_app. apply Forall_app. split; [exact IH|].
      cbn [flat_map]. rewrite app_nil_r. destruct (w_kept _ _ R) as [H G].
      inversion S as [| | | | | | |i cut sv' l ps f Sp Io Ei El Eo]; subst; try constructor; [|constructor].
      destruct (input_good V up down maxr fuel s0 ids (Y h1) i G (serve_input ids nw h1 i cut H Io P)) as [H1 H2]. split; auto.
      destruct (i_get i) as [st m| | |e]; auto. destruct m; cbn in *; try tauto.
      + apply in_map_iff in H1. destruct H1 as [x [Ex Hx]]. eauto.
      + rewrite <- (f_in _ _ _ _ _ _ _ _ _ w_staffed). auto.
      + rewrite <- (f_in _ _ _ _ _ _ _ _ _ w_staffed). auto.
    - unfold server_pipe. rewrite Es. cbn [bind]. rewrite <- Eh. clear Es Eh sv.
      induction R as [|ms h1 m h2 R IH S P]; [cbn; destruct (sv_stop (h_sv h0)); reflexivity|].
      unfold hserved. rewrite flat_map_app. cbn [flat_map]. rewrite app_nil_r.
      inversion S as [| | | | | | |i cut sv' l ps f Sp Io Ei El Eo]; subst; rewrite ?app_nil_r; try exact IH.
      eapply loop_snoc; eauto.
  Qed.
  Lemma w_noted ms h : pruns h0 ms h -> noted (h_sv h).
  Proof.
    intros R. apply once_noted. pose proof (a_steps _ _ _ _ _ _ _ _ _ _ (w_server _ _ R)) as S.
    eapply steps_once; [exact S|]. apply idle_once.
  Qed.
  Lemma w_honest ms h : pruns h0 ms h -> honest (sv_tr (h_sv h)).
  Proof.
    intros R. induction R as [|ms h1 m h2 R IH S P].
    - pose proof (f_honest _ _ _ _ _ _ _ _ _ w_staffed [] _ (runs_nil _ _ _ _ _ _)) as F. exact F.
    - destruct (w_kept _ _ R) as [H G]. destruct (w_sim _ _ _ H G S P) as [_ [y1 [ms1 [y' [I [_ [_ En]]]]]]].
      inversion S as [| | | | | | |i cut sv' l ps f Sp Io Ei El Eo]; subst; try exact IH.
      cbn [image] in I. destruct En as [Ev _]. cbn [h_sv] in *. rewrite <- Ev. eapply step_honest; try exact G; try exact I; [eapply (w_noted ms); eauto|exact IH].
  Qed.
  Lemma w_fine ms h : pruns h0 ms h -> apart_failures tasks ord ordt d (hist (sv_tr (h_sv h))) -> fine V up maxr (h_sv h).
  Proof. intros R F. apply (a_two _ _ _ _ _ _ _ _ _ _ (w_server _ _ R)). exact F. Qed.
  Lemma w_count k e h : hcounted up down maxr fuel init nw mbf h0 k e h -> HW h /\ Good (Y h) /\ mu3 h + Z.of_nat k <= mu3 h0 + 8 * Z.of_nat e.
  Proof.
    assert (X : forall h1 m h2, HW h1 -> Good (Y h1) -> hstep h1 m h2 -> prudent h1 m -> HW h2 /\ Good (Y h2) /\
       (hworks h1 m h2 -> mu3 h2 + 1 <= mu3 h1) /\ (~ hends m -> mu3 h2 <= mu3 h1) /\ (hends m -> mu3 h2 <= mu3 h1 + 8)).
    { intros h1 m h2 H G S P. destruct (hstep_kept V up down (root_seeds d) maxr fuel GG EN s0 FR ids KN init CB nw NW mbf h1 m h2 H G S P) as [H2 G2].
      split; auto. split; auto. destruct (w_sim _ _ _ H G S P) as [_ [y1 [ms1 [y' [I [_ [M En]]]]]]].
      destruct m as [st|st|st|st o|st|st n c|i cut]; cbn [hworks hends ends_in] in *; try (split; [|split]; intros; (lia || tauto)).
      - assert (Ee : mu3 h2 = mu3 h1); [|split; [|split]; intros; (lia || tauto)]. subst y'.
        assert (Ey : h_sv h2 = h_sv h1) by (symmetry; apply M). unfold WholeStep.mu3.
        rewrite (mu2_ext V maxr (Y h1) (Y h2) Ey (mirror_alike _ _ M)), Ey. reflexivity.
      - destruct En as [Ev [_ En]]. split; [|split; [intros _; lia|tauto]]. intros W.
        destruct En as [En|[_ [Nw _]]]; [exact En|]. exfalso. apply Nw. cbn [works]. rewrite Ev. exact W. }
    intros C. induction C as [|k e h1 m h2 C [H [G IH]] S P W|k e h1 m h2 C [H [G IH]] S P W|k e h1 m h2 C [H [G IH]] S P W].
    1: { destruct w_init as [sv [_ [_ [H [G _]]]]]. split; auto. split; auto. lia. }
    all: destruct (X _ _ _ H G S P) as [H2 [G2 [A [B D]]]]; split; auto; split; auto.
    - specialize (A W). lia.
    - specialize (D W). lia.
    - specialize (B W). lia.
  Qed.
End Company.

(* C60, the pools: in every state, the pool of a started task has num_workers workers, the other pools are
   empty; every process that runs is in the pool of its task; hence never more than num_workers
   processes of a task run.  No worker failed while it was started. *)
Theorem C60_pools_partial : forall tasks ord ordt d s0 fuel init nw mbf h0 ms h,
  company tasks ord ordt d s0 fuel init nw mbf h0 ->
  pruns (dg_up ord ordt d) (dg_down ord ordt d) (dg_max_retries d) fuel init nw mbf h0 ms h ->
  (forall t p, In (t, p) (Pool.ps_pools (h_ps h)) ->
     (In t (sv_started (h_sv h)) -> Z.of_nat (length p) = nw t) /\ (~ In t (sv_started (h_sv h)) -> p = [])) /\
  (forall x, In x tasks -> In (t_id x) (map fst (Pool.ps_pools (h_ps h)))) /\
  (forall st t, proc h st = Some (t, Pool.Running) -> exists p, In (t, p) (Pool.ps_pools (h_ps h)) /\ In st (map Pool.w_id p)) /\
  (forall t l, NoDup l -> (forall st, In st l -> proc h st = Some (t, Pool.Running)) -> Z.of_nat (length l) <= nw t) /\
  (forall t, Pool.ps_err (h_ps h) t = []).
Proof.
  intros tasks ord ordt d s0 fuel init nw mbf h0 ms h CO R. destruct (w_kept _ _ _ _ _ _ _ _ _ _ CO _ _ R) as [H G].
  assert (RU : forall st t, proc h st = Some (t, Pool.Running) -> exists p, In (t, p) (Pool.ps_pools (h_ps h)) /\ In st (map Pool.w_id p)).
  { intros st t E. destruct (hi_run _ _ _ _ _ H st t E) as [_ [p [Hp Hw]]]. exists p. split; auto. apply (in_map Pool.w_id) in Hw. exact Hw. }
  split; [|split; [|split; [exact RU|split; [|apply H]]]].
  - intros t p Hp. destruct (hi_size _ _ _ _ _ H t p Hp) as [[A B]|[A B]]; split; tauto.
  - intros x Hx. rewrite (hi_keys _ _ _ _ _ H). apply in_dedup_nat, in_map, Hx.
  - intros t l N Hl. destruct l as [|a l]; [cbn; pose proof (co_workers _ _ _ _ _ _ _ _ _ _ CO t); lia|].
    destruct (RU a t (Hl a (or_introl eq_refl))) as [p [Hp Ha]].
    assert (L : (length (a :: l) <= length (map Pool.w_id p))%nat).
    { apply NoDup_incl_length; auto. intros st Hst. destruct (RU st t (Hl st Hst)) as [q [Hq Hs]].
      rewrite (hi_uniq nw (dedup Nat.eqb (map t_id tasks)) (keys_nodup _) _ _ _ t p q H Hp Hq). exact Hs. }
    rewrite map_length in L. destruct (hi_size _ _ _ _ _ H t p Hp) as [[_ B]|[_ B]]; [lia|]. subst p. destruct Ha.
Qed.
Print Assumptions C60_pools_partial.

(* C60, after an iteration of the server: every worker of a pool runs, or has left as it was told to. *)
Theorem C60_replaced_partial : forall tasks ord ordt d s0 fuel init nw mbf h0 ms i cut h st,
  company tasks ord ordt d s0 fuel init nw mbf h0 ->
  pruns (dg_up ord ordt d) (dg_down ord ordt d) (dg_max_retries d) fuel init nw mbf h0 (ms ++ [HServe i cut]) h ->
  pooled (h_ps h) st -> alive h st \/ exists t, proc h st = Some (t, Pool.Exited 0) /\ w_at (h_w h st) = Left.
Proof.
  intros tasks ord ordt d s0 fuel init nw mbf h0 ms i cut h st CO R Ps. destruct (w_kept _ _ _ _ _ _ _ _ _ _ CO _ _ R) as [H G].
  inversion R as [E|ms1 h1 m h2 R1 S P E]; [destruct ms; discriminate|]. apply app_inj_tail in E. destruct E as [-> ->]. subst h2.
  destruct (w_kept _ _ _ _ _ _ _ _ _ _ CO _ _ R1) as [H1 G1].
  destruct (w_sim _ _ _ _ _ _ _ _ _ _ CO _ _ _ H1 G1 S P) as [_ [y1 [ms2 [y' [_ [_ [_ [_ [Nd _]]]]]]]]].
  assert (K : exists t s, proc h st = Some (t, s)).
  { destruct Ps as [t [p [Hp Hj]]]. apply in_map_iff in Hj. destruct Hj as [w [<- Hw]]. destruct (hi_in _ _ _ _ _ H _ _ _ Hp Hw) as [s [Es _]].
    exists t, s. exact Es. }
  destruct K as [t [[|c] E]]; [left; exists t; exact E|right].
  destruct (hi_exit _ _ _ _ _ H st t c E) as [[D _]|[L [_ ->]]]; [exfalso; apply Nd; exists st; auto|eauto].
Qed.
Print Assumptions C60_replaced_partial.

(* C60, nothing is raised: whatever message, closed connections, check functions, deaths: the
   iteration comes to its end, and so do the pools. *)
Theorem C60_serves_partial : forall tasks ord ordt d s0 fuel init nw mbf h0 ms h i cut,
  company tasks ord ordt d s0 fuel init nw mbf h0 ->
  pruns (dg_up ord ordt d) (dg_down ord ordt d) (dg_max_retries d) fuel init nw mbf h0 ms h ->
  sv_stop (h_sv h) = false -> hinput_ok h i -> prudent h (HServe i cut) ->
  exists h', hstep (dg_up ord ordt d) (dg_down ord ordt d) (dg_max_retries d) fuel init nw mbf h (HServe i cut) h'.
Proof.
  intros tasks ord ordt d s0 fuel init nw mbf h0 ms h i cut CO R Sp Io P. destruct (w_kept _ _ _ _ _ _ _ _ _ _ CO _ _ R) as [H G].
  pose proof (w_staffed _ _ _ _ _ _ _ _ _ _ CO) as SF.
  exact (serve_total (pblocks d) _ _ (root_seeds d) _ fuel (f_good _ _ _ _ _ _ _ _ _ SF) (f_enough _ _ _ _ _ _ _ _ _ SF) s0 (f_fresh _ _ _ _ _ _ _ _ _ SF)
    (map t_id tasks) (f_known _ _ _ _ _ _ _ _ _ SF) init (co_callback _ _ _ _ _ _ _ _ _ _ CO) nw (w_nw _ _ _ _ _ _ _ _ _ _ CO) mbf (keys_nodup _) h i cut H G P Sp Io).
Qed.
Print Assumptions C60_serves_partial.

(* C60, the server: it meets fair clients only, as in C53. *)
Theorem C60_server_partial : forall tasks ord ordt d s0 fuel init nw mbf h0 ms h,
  company tasks ord ordt d s0 fuel init nw mbf h0 ->
  pruns (dg_up ord ordt d) (dg_down ord ordt d) (dg_max_retries d) fuel init nw mbf h0 ms h ->
  server_run_to tasks ord ordt d s0 fuel init false (hserved ms) (h_sv h) /\ honest (sv_tr (h_sv h)).
Proof. intros tasks ord ordt d s0 fuel init nw mbf h0 ms h CO R. split; [eapply w_server|eapply w_honest]; eauto. Qed.
Print Assumptions C60_server_partial.

(* C60, work: with [k] moves that are work and [e] processes that ended before they were told to. *)
Theorem C60_bounded_work_partial : forall tasks ord ordt d s0 fuel init nw mbf h0 k e h l ts,
  company tasks ord ordt d s0 fuel init nw mbf h0 ->
  hcounted (dg_up ord ordt d) (dg_down ord ordt d) (dg_max_retries d) fuel init nw mbf h0 k e h ->
  NoDup l -> (forall b, In b l <-> pipe_block tasks b) ->
  NoDup ts -> (forall t, In t ts <-> exists x, In x tasks /\ t_id x = t) ->
  Z.of_nat k <= 20 * fold_right Z.add 0 (map (fun b => Z.max (dg_max_retries d (b_task b)) 0 + 1) l) + Z.of_nat (length l) +
                7 * fold_right Z.add 0 (map nw ts) + 8 * Z.of_nat e.
Proof.
  intros tasks ord ordt d s0 fuel init nw mbf h0 k e h l ts CO C N Hl Nt Ht.
  destruct (w_count _ _ _ _ _ _ _ _ _ _ CO _ _ _ C) as [H [G M]]. pose proof (w_staffed _ _ _ _ _ _ _ _ _ _ CO) as SF.
  destruct (w_init _ _ _ _ _ _ _ _ _ _ CO) as [sv [_ [_ [_ [_ [M0 _]]]]]].
  pose proof (mu3_nonneg _ _ _ _ _ _ (f_good _ _ _ _ _ _ _ _ _ SF) (f_enough _ _ _ _ _ _ _ _ _ SF) _ (f_fresh _ _ _ _ _ _ _ _ _ SF) _ nw
    (co_workers _ _ _ _ _ _ _ _ _ _ CO) _ G) as P.
  assert (SUM : forall (A : Type) (f : A -> Z) x y, Permutation x y -> fold_right Z.add 0 (map f x) = fold_right Z.add 0 (map f y)).
  { intros A f x y Pm. induction Pm; cbn [fold_right map] in *; lia. }
  assert (Pm : Permutation (pblocks d) l).
  { apply NoDup_Permutation; auto; [apply (f_good _ _ _ _ _ _ _ _ _ SF)|]. intros b. rewrite Hl. apply (f_in _ _ _ _ _ _ _ _ _ SF). }
  rewrite (Permutation_length Pm) in M0.
  assert (Z0 : forall x, SerialFacts.zsum (fun b => Z.max (dg_max_retries d (b_task b)) 0 + 1) x =
     fold_right Z.add 0 (map (fun b => Z.max (dg_max_retries d (b_task b)) 0 + 1) x)).
  { induction x as [|a x IH]; cbn; [reflexivity|]. now rewrite IH. }
  unfold hand_bound in M0. rewrite Z0, (SUM _ _ _ _ Pm) in M0.
  assert (Sp : spare (map t_id tasks) nw [] = fold_right Z.add 0 (map nw ts)).
  { rewrite <- (SUM _ nw (dedup Nat.eqb (map t_id tasks)) ts).
    - unfold spare. induction (dedup Nat.eqb (map t_id tasks)) as [|a x IH]; cbn in *; [reflexivity|]. rewrite IH. reflexivity.
    - apply NoDup_Permutation; auto; [apply keys_nodup|]. intros t. rewrite Ht, in_dedup_nat, in_map_iff. split; intros [x [A B]]; eauto. }
  rewrite Sp in M0. lia.
Qed.
Print Assumptions C60_bounded_work_partial.

Lemma hfair_prefix up down maxr fuel init nw mbf r mv : hfair up down maxr fuel init nw mbf r mv ->
  forall n, exists ms, pruns up down maxr fuel init nw mbf (r O) ms (r n).
Proof.
  intros FA n. induction n as [|n [ms IH]]; [exists []; constructor|].
  pose proof (hf_step _ _ _ _ _ _ _ _ _ FA n) as S. destruct (mv n) as [m|] eqn:E; [|rewrite S; eauto].
  exists (ms ++ [m]). eapply pruns_step; eauto. eapply hf_prudent; eauto.
Qed.

(* C61: every fair run of the whole comes to its end, and then every block has succeeded, failed
   for good, or cannot run because a block it depends on failed.  Nothing is assumed about the pools: workers are
   started, replaced and restarted by the code of Pool.v. *)
Theorem C61_ends_partial : forall tasks ord ordt d s0 fuel init nw mbf r mv,
  let up := dg_up ord ordt d in let down := dg_down ord ordt d in let maxr := dg_max_retries d in
  company tasks ord ordt d s0 fuel init nw mbf (r O) -> no_lonely tasks ord ordt d -> in_order tasks ->
  hfair up down maxr fuel init nw mbf r mv ->
  (forall n, apart_failures tasks ord ordt d (hist (sv_tr (h_sv (r n))))) ->
  exists n, sv_stop (h_sv (r n)) = true /\ forall b, pipe_block tasks b -> settled up maxr (hist (sv_tr (h_sv (r n)))) b.
Proof.
  intros tasks ord ordt d s0 fuel init nw mbf r mv up down maxr CO NL UF FA F.
  pose proof (hfair_prefix _ _ _ _ _ _ _ _ _ FA) as PX. pose proof (w_staffed _ _ _ _ _ _ _ _ _ _ CO) as SF.
  assert (Fi : forall n, fine (pblocks d) up maxr (h_sv (r n))).
  { intros n. destruct (PX n) as [ms R]. eapply w_fine; eauto. }
  destruct (w_init _ _ _ _ _ _ _ _ _ _ CO) as [sv [_ [_ [H0 _]]]].
  assert (F0 : Full (pblocks d) up down maxr fuel s0 (map t_id tasks) (Y (r O))).
  { eapply (init_full (pblocks d) up down (root_seeds d)); eauto using f_good, f_enough, f_fresh, f_known, f_roots, f_knownV, f_first, co_callback, co_workers, co_start. }
  destruct (whole_ends (pblocks d) up down (root_seeds d) maxr fuel (f_good _ _ _ _ _ _ _ _ _ SF) (f_enough _ _ _ _ _ _ _ _ _ SF) s0
    (f_fresh _ _ _ _ _ _ _ _ _ SF) (map t_id tasks) (f_known _ _ _ _ _ _ _ _ _ SF) init (co_callback _ _ _ _ _ _ _ _ _ _ CO)
    (f_roots _ _ _ _ _ _ _ _ _ SF NL) (f_knownV _ _ _ _ _ _ _ _ _ SF UF) (f_first _ _ _ _ _ _ _ _ _ SF UF) nw (co_workers _ _ _ _ _ _ _ _ _ _ CO) mbf r mv FA
    H0 F0 Fi) as [n Sn].
  exists n. split; auto. destruct (PX n) as [ms R]. eapply C35_stops_when_settled_partial; eauto using w_server.
Qed.
Print Assumptions C61_ends_partial.

(* no body of a bad block ends well, no check function finds it done *)
Definition hsincere (bad : block -> Prop) (h : whole) (m : hmove) : Prop :=
  match m with
  | HFinish st o => well o -> forall pb, w_at (h_w h st) = Working pb -> ~ bad (pb_block pb)
  | HServe i _ => forall k b, i_chk i k b = CheckTrue -> ~ bad b
  | _ => True
  end.
Lemma w_sincere tasks ord ordt d s0 fuel init nw mbf h0 bad : company tasks ord ordt d s0 fuel init nw mbf h0 -> forall ms h m h',
  pruns (dg_up ord ordt d) (dg_down ord ordt d) (dg_max_retries d) fuel init nw mbf h0 ms h ->
  hstep (dg_up ord ordt d) (dg_down ord ordt d) (dg_max_retries d) fuel init nw mbf h m h' -> prudent h m -> hsincere bad h m ->
  Sincere bad (Y h) -> Sincere bad (Y h').
Proof.
  intros CO ms h m h' R S P O I. destruct (w_kept _ _ _ _ _ _ _ _ _ _ CO _ _ R) as [H G].
  destruct (w_sim _ _ _ _ _ _ _ _ _ _ CO _ _ _ H G S P) as [_ [y1 [ms1 [y' [Im [[R1 Pm] [M _]]]]]]].
  assert (I1 : Sincere bad y1).
  { destruct m as [st|st|st|st o|st|st n c|i cut]; cbn [image] in Im; try (subst y1; exact I); (eapply step_sincere; [|exact Im|exact I]); cbn; auto.
    intros W pb E. apply (O W pb). unfold abs_at in E. destruct (w_at (h_w h st)); try discriminate E; auto. destruct (pooledb _ _); discriminate E. }
  assert (I2 : Sincere bad y').
  { clear -R1 Pm I1. induction R1 as [|ms y2 m y3 R IH S]; auto. apply Forall_app in Pm. destruct Pm as [P1 P2]. inversion P2 as [|? ? P3 _]; subst.
    eapply step_sincere; [|exact S|apply IH; auto]. destruct m; cbn in *; tauto. }
  destruct I2 as [A B]. destruct (mirror_alike _ _ M) as [_ _ _ A4 A5]. split.
  - intros st Hst. rewrite A4 in Hst. rewrite A5 by exact Hst. apply A. exact Hst.
  - cbn [Y y_sv]. rewrite <- (mi_sv _ _ _ _ M). exact B.
Qed.

(* C61, the result, as in C54: it depends on the bad blocks only. *)
Theorem C61_result_partial : forall tasks ord ordt d s0 fuel init nw mbf r mv bad,
  let up := dg_up ord ordt d in let down := dg_down ord ordt d in let maxr := dg_max_retries d in
  company tasks ord ordt d s0 fuel init nw mbf (r O) -> no_lonely tasks ord ordt d -> in_order tasks ->
  hfair up down maxr fuel init nw mbf r mv ->
  (forall n, apart_failures tasks ord ordt d (hist (sv_tr (h_sv (r n))))) ->
  (forall n m, mv n = Some m -> hsincere bad (r n) m) ->
  (forall n b, ~ bad b -> n_failed (hist (sv_tr (h_sv (r n)))) b <= Z.max (maxr (b_task b)) 0) ->
  (forall b, bad b \/ ~ bad b) ->
  exists n, sv_stop (h_sv (r n)) = true /\ forall b, pipe_block tasks b ->
    let h := hist (sv_tr (h_sv (r n))) in
    (succeeded h b <-> ~ bad b /\ ~ doomed tasks ord ordt d bad b) /\
    (perm_failed maxr h b <-> bad b /\ ~ doomed tasks ord ordt d bad b) /\
    (orphan up maxr h b <-> doomed tasks ord ordt d bad b).
Proof.
  intros tasks ord ordt d s0 fuel init nw mbf r mv bad up down maxr CO NL UF FA F O FW Dc.
  destruct (C61_ends_partial _ _ _ _ _ _ _ _ _ _ _ CO NL UF FA F) as [n [Sn Hn]]. exists n. split; auto.
  destruct (hfair_prefix _ _ _ _ _ _ _ _ _ FA n) as [ms R].
  assert (SI : forall k, Sincere bad (Y (r k))).
  { intros k. induction k as [|k IH].
    - destruct (w_init _ _ _ _ _ _ _ _ _ _ CO) as [sv [Es [Eh [_ [_ [_ [y [ms0 [R0 M]]]]]]]]].
      pose proof (w_staffed _ _ _ _ _ _ _ _ _ _ CO) as SF.
      assert (I0 : Sincere bad (start_of sv [])).
      { split; cbn; [intros st []|]. rewrite (start_hist _ _ _ _ Es). intros e []. }
      pose proof (co_start _ _ _ _ _ _ _ _ _ _ CO) as E0.
      destruct (init_sim (pblocks d) up down (root_seeds d) maxr fuel (f_good _ _ _ _ _ _ _ _ _ SF) (f_enough _ _ _ _ _ _ _ _ _ SF) s0
        (f_fresh _ _ _ _ _ _ _ _ _ SF) (map t_id tasks) (f_known _ _ _ _ _ _ _ _ _ SF) init (co_callback _ _ _ _ _ _ _ _ _ _ CO) nw
        (co_workers _ _ _ _ _ _ _ _ _ _ CO) mbf sv Es) as [h' [ms' [y' [E' [_ [_ [R' [[Pm _] M']]]]]]]].
      rewrite E0 in E'. injection E' as <-.
      assert (I2 : Sincere bad y').
      { clear -R' Pm I0. induction R' as [|ms y2 m y3 R IH S]; auto. apply Forall_app in Pm. destruct Pm as [P1 P2]. inversion P2 as [|? ? P3 _]; subst.
        eapply step_sincere; [|exact S|apply IH; auto]. destruct m; cbn in *; tauto. }
      destruct I2 as [A B]. destruct (mirror_alike _ _ M') as [_ _ _ A4 A5]. split.
      + intros st Hst. rewrite A4 in Hst. rewrite A5 by exact Hst. apply A. exact Hst.
      + cbn [Y y_sv]. rewrite <- (mi_sv _ _ _ _ M'). exact B.
    - pose proof (hf_step _ _ _ _ _ _ _ _ _ FA k) as S. destruct (mv k) as [m|] eqn:E; [|rewrite S; exact IH].
      destruct (hfair_prefix _ _ _ _ _ _ _ _ _ FA k) as [ms1 R1]. eapply w_sincere; eauto. eapply hf_prudent; eauto. }
  intros b Hb. eapply C51_outcome_partial; eauto using co_inverse, co_fuel.
  - eapply a_pipe. eapply w_server; eauto.
  - destruct (SI n) as [_ T]. split.
    + intros c P. destruct (Dc c) as [|Nc]; auto. exfalso. specialize (FW n c Nc). subst maxr. unfold perm_failed in P. lia.
    + intros c. apply truthful_succ. exact T.
Qed.
Print Assumptions C61_result_partial.

(* C62, for the whole: whatever happened (prudent or not), and wherever in an iteration the loop was left by an
   exception ([es]: what the pools had done in that iteration): no worker process outlives
   the finally branch of run_blockwise (server.py:59-69). *)
Lemma on_all_steps nw mbf cut es : forall ps f ps' f', on_all nw mbf cut es ps f = Ok (ps', f') -> ps' = P_Pool.steps nw mbf es ps.
Proof.
  induction es as [|e es IH]; intros ps f ps' f' H; cbn [on_all] in H; [injection H as <- _; reflexivity|].
  destruct (Pool.pstep nw mbf e ps) as [ps1 [x|]] eqn:E; [discriminate|]. apply IH in H.
  unfold P_Pool.steps in *. cbn [fold_left]. rewrite E. exact H.
Qed.
Definition no_process : Pool.sys := Pool.Sys (fun _ => None) 0.
Lemma whole_reached up down maxr fuel init nw mbf tasks s0 h0 ms h :
  whole_init init nw mbf tasks s0 = Ok h0 -> hruns up down maxr fuel init nw mbf h0 ms h ->
  exists k, P_Pool.reached nw mbf (dedup Nat.eqb tasks) no_process k (h_ps h).
Proof.
  intros E R. induction R as [|ms h1 m h2 R [k IH] S].
  - unfold whole_init in E. destruct (server_init _ _ _ _) as [sv|]; [|discriminate]. cbn [bind] in E.
    destruct (on_all _ _ _ _ _ _) as [[ps f]|] eqn:Eo; [|discriminate]. cbn [bind] in E. injection E as <-. cbn [h_ps].
    apply on_all_steps in Eo. subst ps. eapply P_Pool.steps_reached. constructor.
  - assert (X : forall es, exists k', P_Pool.reached nw mbf (dedup Nat.eqb tasks) no_process k' (P_Pool.steps nw mbf es (h_ps h1)))
      by (intros es; eapply P_Pool.steps_reached; eauto).
    destruct S as [ | | | | |st|st n c t p o r|i cut sv l ps f Sp Io Ei El Eo]; cbn [h_ps hput]; eauto.
    + exact (X [Pool.PExit st 0]).
    + exact (X [Pool.PExit st c]).
    + apply on_all_steps in Eo. subst ps. apply X.
Qed.
Theorem C62_none_outlives : forall up down maxr fuel init nw mbf tasks s0 h0 ms h es, (forall t, 0 <= nw t) ->
  whole_init init nw mbf tasks s0 = Ok h0 -> hruns up down maxr fuel init nw mbf h0 ms h ->
  let ps := Pool.pools_stop (P_Pool.steps nw mbf es (h_ps h)) in
  (forall st t, Pool.tbl (Pool.ps_sys ps) st <> Some (t, Pool.Running)) /\ forall t p, In (t, p) (Pool.ps_pools ps) -> p = [].
Proof.
  intros up down maxr fuel init nw mbf tasks s0 h0 ms h es NN E R ps.
  destruct (whole_reached _ _ _ _ _ _ _ _ _ _ _ _ E R) as [k Re].
  destruct (P_Pool.steps_reached _ _ _ _ es _ _ Re) as [k' Re'].
  destruct (P_Pool.C62_stop _ _ _ _ _ _ NN (keys_nodup tasks) P_Pool.sys0_clean Re') as [A B].
  split; [exact A|]. intros t p Hp. unfold ps in Hp. rewrite B in Hp. apply in_map_iff in Hp. destruct Hp as [u [Eu _]]. congruence.
Qed.
Print Assumptions C62_none_outlives.

(* The server and its workers together (C53, C54). *)
From Coq Require Import Arith Lia Permutation.
From Verif Require Import SchedProps SchedExec DGFacts2 PipeRun P_SchedCE P_Sched SerialFacts P_Conv P_Serial ServerFacts ServerSteps
  ServerIdle P_Server P_ServerCE P_Outcome P_Notify.
From Verif Require Client.
From Verif Require Import Conv Sys SysFacts SysMeasure SysLive SysFair SysTrace.
Open Scope Z_scope.

(* The beginning: a server for [tasks], and a crew, one task id for each worker to be started. *)
Record staffed (tasks : list task) ord ordt (d : dgraph) (s0 : sched) fuel init (crew : list nat) (y : sys) : Prop := {
  sf_ok : pipe_ok tasks;
  sf_ord : is_order ord;
  sf_ordt : is_order ordt;
  sf_init : sched_init tasks = Ok (d, s0);
  sf_inverse : inverse tasks ord ordt d;
  sf_fuel : fuel_ok tasks fuel;
  sf_callback : forall t, init t = Ok tt;
  sf_crew : forall t, In t crew -> exists x, In x tasks /\ t_id x = t;
  sf_start : exists sv, server_init init (map t_id tasks) false s0 = Ok sv /\ y = start_of sv crew
}.
(* every task comes after the tasks it requires *)
Definition upstream_first (tasks : list task) : Prop :=
  forall l1 t l2 u, tasks = l1 ++ t :: l2 -> In u (t_ups t) -> In u l1.
(* the same, but for the tasks that require none themselves: these may come anywhere *)
Definition in_order (tasks : list task) : Prop :=
  forall l1 t l2 u, tasks = l1 ++ t :: l2 -> In u (t_ups t) -> In u l1 \/ In u tasks /\ t_ups u = [].
Lemma first_in_order tasks : upstream_first tasks -> in_order tasks.
Proof. intros H l1 t l2 u E Hu. left. eauto. Qed.
Definition each_manned (tasks : list task) (crew : list nat) : Prop := forall x, In x tasks -> In (t_id x) crew.

Lemma pos_first l1 l2 t u : In u l1 -> ~ In t l1 -> In t (l1 ++ l2) ->
  (pos (dedup Nat.eqb (l1 ++ l2)) u < pos (dedup Nat.eqb (l1 ++ l2)) t)%nat.
Proof.
  intros Hu Nt _.
  assert (P : forall acc, In u acc -> ~ In t acc -> forall l, (pos (dedup_acc Nat.eqb acc l) u < pos (dedup_acc Nat.eqb acc l) t)%nat).
  { assert (B : forall a b, In u a -> ~ In t a -> (pos (a ++ b) u < pos (a ++ b) t)%nat).
    { induction a as [|c a IH]; intros b [] N; cbn.
      - subst c. rewrite Nat.eqb_refl. destruct (Nat.eqb_spec u t); [subst; exfalso; apply N; left; auto|lia].
      - destruct (Nat.eqb_spec c t); [subst; exfalso; apply N; left; auto|]. destruct (Nat.eqb c u); [lia|].
        apply -> Nat.succ_lt_mono. apply IH; auto. intros X. apply N. right; auto. }
    assert (E : forall l acc, exists b, dedup_acc Nat.eqb acc l = acc ++ b).
    { induction l as [|x l IH]; intros acc; cbn [dedup_acc]; [exists []; rewrite app_nil_r; auto|].
      destruct (IH (sadd Nat.eqb x acc)) as [b ->]. unfold sadd. destruct (mem _ _ _); [eauto|]. rewrite <- app_assoc. eauto. }
    intros acc Ha Na l. destruct (E l acc) as [b ->]. apply B; auto. }
  assert (Q : forall l1 acc, In u acc \/ In u l1 -> ~ In t acc -> ~ In t l1 ->
     (pos (dedup_acc Nat.eqb acc (l1 ++ l2)) u < pos (dedup_acc Nat.eqb acc (l1 ++ l2)) t)%nat).
  { clear l1 Hu Nt. induction l1 as [|x l1 IH]; intros acc [H|H] Na Nl; try (apply P; auto; fail); [destruct H|].
    - cbn [app dedup_acc]. apply IH.
      + destruct H as [->|H]; auto. left. apply in_sadd_nat. auto.
      + rewrite in_sadd_nat. intros [X|X]; auto. subst. apply Nl. left; auto.
      + intros X. apply Nl. right. auto. }
  apply (Q l1 []); auto.
Qed.

Section Staffed.
  Variables (tasks : list task) (ord : list block -> list block) (ordt : list nat -> list nat) (d : dgraph) (s0 : sched) (fuel : nat).
  Variables (init : nat -> res unit) (crew : list nat) (y0 : sys).
  Hypothesis SF : staffed tasks ord ordt d s0 fuel init crew y0.
  Local Notation V := (pblocks d).
  Local Notation up := (dg_up ord ordt d).
  Local Notation down := (dg_down ord ordt d).
  Local Notation maxr := (dg_max_retries d).
  Local Notation ids := (map t_id tasks).
  Local Notation runs := (runs up down maxr fuel init).
  Local Notation step := (step up down maxr fuel init).
  Local Notation Good := (Good V up down maxr fuel s0 ids).
  Local Notation Full := (Full V up down maxr fuel s0 ids).

  Lemma f_run0 : pipe_run tasks ord ordt d s0 fuel [] s0.
  Proof. destruct SF. apply p_run0; auto. Qed.
  Lemma f_good : good_graph V up down (root_seeds d).
  Proof. destruct SF. eapply p_good; eauto. Qed.
  Lemma f_enough : enough V fuel.
  Proof. destruct SF. eapply (p_enough tasks ord ordt); eauto. Qed.
  Lemma f_fresh : fresh V (root_seeds d) s0.
  Proof. destruct SF. eapply (p_fresh tasks ord ordt d s0 fuel); eauto. Qed.
  Lemma f_in b : In b V <-> pipe_block tasks b.
  Proof. destruct SF. eapply (p_in tasks ord ordt d s0 fuel); eauto. Qed.
  Lemma f_known t : In t ids -> In t (s_order s0).
  Proof. destruct SF. eapply p_known; eauto. Qed.
  Lemma f_crew t : In t crew -> In t ids.
  Proof. intros H. apply (sf_crew _ _ _ _ _ _ _ _ _ SF) in H. destruct H as [x [Hx <-]]. apply in_map. auto. Qed.
  Lemma f_Good : Good y0.
  Proof.
    destruct (sf_start _ _ _ _ _ _ _ _ _ SF) as [sv [E Ey]]. rewrite Ey.
    eapply start_good; eauto using f_crew. exact (sf_callback _ _ _ _ _ _ _ _ _ SF).
  Qed.
  Lemma f_runs ms y : runs y0 ms y -> Good y.
  Proof.
    intros R. eapply (runs_good V up down (root_seeds d)); eauto using f_good, f_enough, f_fresh, f_known, f_Good.
    exact (sf_callback _ _ _ _ _ _ _ _ _ SF).
  Qed.
  (* the server is a server with fair clients *)
  Lemma f_server ms y : runs y0 ms y -> server_run_to tasks ord ordt d s0 fuel init false (served ms) (y_sv y).
  Proof.
    intros R. destruct (sf_start _ _ _ _ _ _ _ _ _ SF) as [sv [E Ey]]. constructor; try (apply SF).
    - pose proof (runs_inputs V up down (root_seeds d) maxr fuel f_good f_enough s0 f_fresh ids f_known init
        (sf_callback _ _ _ _ _ _ _ _ _ SF) _ _ _ f_Good R) as F.
      eapply Forall_impl; [|exact F]. intros i [H1 H2]. split; auto. destruct (i_get i) as [st m| | |e]; auto.
      destruct m; cbn in *; try tauto.
      + apply in_map_iff in H1. destruct H1 as [x [Ex Hx]]. eauto.
      + rewrite <- f_in. auto.
      + rewrite <- f_in. auto.
    - unfold server_pipe. rewrite E. cbn [bind]. apply runs_loop in R. rewrite Ey in R. exact R.
  Qed.
  Lemma f_noted ms y : runs y0 ms y -> noted (y_sv y).
  Proof.
    intros R. apply once_noted. pose proof (a_steps _ _ _ _ _ _ _ _ _ _ (f_server _ _ R)) as S.
    eapply steps_once; [exact S|]. apply idle_once.
  Qed.
  Lemma f_honest ms y : runs y0 ms y -> honest (sv_tr (y_sv y)).
  Proof.
    intros R. induction R as [|ms y1 m y2 R IH S].
    - destruct (sf_start _ _ _ _ _ _ _ _ _ SF) as [sv [E Ey]]. rewrite Ey. cbn. unfold server_init in E.
      destruct (recruit_spec init _ _ E) as [B _]. destruct (be_tr _ _ B) as [l [El Fl]]. cbn in El. rewrite El.
      apply honest_more.
      + eapply Forall_impl; [|exact Fl]. intros a. destruct a; cbn; tauto.
      + split; intros l2; destruct l2; discriminate.
    - eapply step_honest; eauto using f_runs, f_noted.
  Qed.

  Hypothesis NL : no_lonely tasks ord ordt d.
  Hypothesis UF : in_order tasks.
  Lemma f_closed : closed_tasks tasks.
  Proof.
    intros x [t [Ht Q]]. induction Q as [t|t u x Hu Q IH]; auto. apply IH. apply in_split in Ht. destruct Ht as [l1 [l2 E]].
    destruct (UF _ _ _ _ E Hu) as [H|[H _]]; auto. rewrite E. apply in_or_app. auto.
  Qed.
  Lemma f_task b : In b V -> exists t g, In t tasks /\ task_graph t = Ok g /\ generated g b /\ b_task b = t_id t.
  Proof.
    intros Hb. apply f_in in Hb. destruct Hb as [t [g [Pt [Eg Gb]]]]. exists t, g. split; [apply f_closed; auto|]. split; auto. split; auto.
    eapply gen_id; eauto. apply SF.
  Qed.
  Lemma f_knownV b : In b V -> In (b_task b) ids.
  Proof. intros Hb. destruct (f_task b Hb) as [t [g [Ht [_ [_ ->]]]]]. apply in_map; auto. Qed.
  Lemma f_roots : all_roots V up (root_seeds d).
  Proof. eapply (run_roots tasks ord ordt d s0 fuel [] s0); auto. apply f_run0. Qed.
  Lemma f_root u : in_pipe tasks u -> t_ups u = [] -> root_task V up (t_id u).
  Proof.
    intros Pu Nu b a Hb Tb Ha. pose proof (sf_ok _ _ _ _ _ _ _ _ _ SF) as PO. destruct (f_task b Hb) as [t [g [Ht [Eg [Gb Eb]]]]].
    assert (Pt : in_pipe tasks t) by (exists t; split; auto; constructor).
    assert (t = u) by (apply (po_ids _ PO); auto; congruence). subst u.
    destruct (up_spec tasks PO d (run_dk _ _ _ _ _ _ _ _ f_run0) ord ordt (sf_ord _ _ _ _ _ _ _ _ _ SF) (sf_ordt _ _ _ _ _ _ _ _ _ SF) t g b Pt Eg Gb)
      as [us [Eu [_ [_ H]]]]. apply H in Ha. destruct Ha as [Ha|[u [gu [Hu _]]]]; [|rewrite Nu in Hu; destruct Hu].
    destruct (up_gen _ _ _ (pipe_built tasks PO t g Pt Eg) ord (sf_ord _ _ _ _ _ _ _ _ _ SF) b Gb) as [us' [Eu' [_ Gu]]].
    rewrite Eu in Eu'. injection Eu' as <-. eapply gen_id; eauto.
  Qed.
  Lemma f_first b a : In b V -> In a (up b) ->
    b_task a = b_task b \/ (pos (dedup Nat.eqb ids) (b_task a) < pos (dedup Nat.eqb ids) (b_task b))%nat \/ root_task V up (b_task a).
  Proof.
    intros Hb Ha. pose proof (sf_ok _ _ _ _ _ _ _ _ _ SF) as PO. destruct (f_task b Hb) as [t [g [Ht [Eg [Gb ->]]]]].
    assert (Pt : in_pipe tasks t) by (exists t; split; auto; constructor).
    destruct (up_spec tasks PO d (run_dk _ _ _ _ _ _ _ _ f_run0) ord ordt (sf_ord _ _ _ _ _ _ _ _ _ SF) (sf_ordt _ _ _ _ _ _ _ _ _ SF) t g b Pt Eg Gb)
      as [us [Eu [_ [_ H]]]]. apply H in Ha. destruct Ha as [Ha|[u [gu [Hu [Egu Ha]]]]].
    - left. destruct (up_gen _ _ _ (pipe_built tasks PO t g Pt Eg) ord (sf_ord _ _ _ _ _ _ _ _ _ SF) b Gb) as [us' [Eu' [_ Gu]]].
      rewrite Eu in Eu'. injection Eu' as <-. eapply gen_id; eauto.
    - right. assert (Pu : in_pipe tasks u).
      { destruct Pt as [t' [Ht' Q]]. exists t. split; auto. eapply req_up; [exact Hu|constructor]. }
      assert (Ga : b_task a = t_id u).
      { eapply (gen_id tasks); eauto.
        refine (proj2 (proj1 (sub_ok tasks PO t g b u gu false Pt Eg Gb _ Egu _)) a Ha); [exact Pu|]. apply (po_dims _ PO); auto. }
      rewrite Ga. destruct (t_ups u) as [|u0 ur] eqn:Uu; [right; apply f_root; auto|left].
      (* the first of the tasks with the id of t *)
      assert (Sp : exists l1 t' l2, tasks = l1 ++ t' :: l2 /\ t_id t' = t_id t /\ ~ In (t_id t) (map t_id l1)).
      { clear -Ht. induction tasks as [|x l IH]; [destruct Ht|]. destruct (Nat.eq_dec (t_id x) (t_id t)) as [E|N].
        - exists [], x, l. auto.
        - destruct Ht as [->|Ht]; [congruence|]. destruct (IH Ht) as [l1 [t' [l2 [-> [E1 E2]]]]]. exists (x :: l1), t', l2.
          split; auto. split; auto. cbn. intros [H|H]; auto. }
      destruct Sp as [l1 [t' [l2 [E [Ei Nf]]]]].
      assert (t' = t).
      { apply (po_ids _ PO); auto. exists t'. split; [rewrite E; apply in_or_app; right; left; auto|constructor]. }
      subst t'. rewrite E, map_app. apply pos_first; auto.
      + apply in_map. destruct (UF _ _ _ _ E Hu) as [H'|[_ H']]; [auto|congruence].
      + apply in_or_app. right. left. reflexivity.
  Qed.
  Lemma f_Full : Full y0.
  Proof.
    destruct (sf_start _ _ _ _ _ _ _ _ _ SF) as [sv [E Ey]]. rewrite Ey.
    eapply (start_full V up down (root_seeds d)); eauto using f_good, f_enough, f_fresh, f_known, f_crew, f_roots, f_knownV, f_first.
    exact (sf_callback _ _ _ _ _ _ _ _ _ SF).
  Qed.
  Lemma f_fine ms y : runs y0 ms y -> apart_failures tasks ord ordt d (hist (sv_tr (y_sv y))) -> fine V up maxr (y_sv y).
  Proof. intros R F. apply (a_two _ _ _ _ _ _ _ _ _ _ (f_server _ _ R)). exact F. Qed.
  (* with at most two direct upstream blocks the condition of C53 and C54 on failures holds *)
  Lemma f_few ms y : runs y0 ms y -> few_upstream tasks ord ordt d -> apart_failures tasks ord ordt d (hist (sv_tr (y_sv y))).
  Proof.
    intros R F. apply (few_apart _ _ _ _ _ _ _ _ (a_pipe _ _ _ _ _ _ _ _ _ _ (f_server _ _ R)) (sf_inverse _ _ _ _ _ _ _ _ _ SF) (sf_fuel _ _ _ _ _ _ _ _ _ SF) F).
  Qed.
End Staffed.

(* C53, the server: seen from the server, its workers are fair clients (P_Server), they ask only for
   blocks of started tasks and report only failures of blocks that were sent (P_Notify); so what is
   proved of the server for such clients (C30-C37, C49-C52) holds of it among its workers. *)
Theorem C53_server : forall tasks ord ordt d s0 fuel init crew y0 ms y,
  staffed tasks ord ordt d s0 fuel init crew y0 ->
  runs (dg_up ord ordt d) (dg_down ord ordt d) (dg_max_retries d) fuel init y0 ms y ->
  server_run_to tasks ord ordt d s0 fuel init false (served ms) (y_sv y) /\ honest (sv_tr (y_sv y)).
Proof. intros tasks ord ordt d s0 fuel init crew y0 ms y SF R. split; [eapply f_server|eapply f_honest]; eauto. Qed.
Print Assumptions C53_server.

(* C53, work: whatever happens, the number of moves that are work ([works]: every move of a worker;
   every iteration of the server that takes a message, sends, skips or gets back a block, or tells a
   worker to leave) is bounded by the number of blocks, the retries and the number of workers.  [k]
   counts these moves, [r] the workers that were started later, in place of dead ones or in addition. *)
Theorem C53_bounded_work : forall tasks ord ordt d s0 fuel init crew y0 k r y l,
  staffed tasks ord ordt d s0 fuel init crew y0 ->
  counted (dg_up ord ordt d) (dg_down ord ordt d) (dg_max_retries d) fuel init y0 k r y ->
  NoDup l -> (forall b, In b l <-> pipe_block tasks b) ->
  Z.of_nat k <= 20 * fold_right Z.add 0 (map (fun b => Z.max (dg_max_retries d (b_task b)) 0 + 1) l) + Z.of_nat (length l) +
                7 * (Z.of_nat (length crew) + Z.of_nat r).
Proof.
  intros tasks ord ordt d s0 fuel init crew y0 k r y l SF C N Hl.
  pose proof (f_good _ _ _ _ _ _ _ _ _ SF) as GG. pose proof (f_enough _ _ _ _ _ _ _ _ _ SF) as EN.
  pose proof (f_fresh _ _ _ _ _ _ _ _ _ SF) as FR.
  pose proof (f_Good _ _ _ _ _ _ _ _ _ SF) as G0.
  destruct (counted_mu _ _ _ _ _ _ GG EN _ FR _ (f_known _ _ _ _ _ _ _ _ _ SF) init (sf_callback _ _ _ _ _ _ _ _ _ SF) _ _ _ _ G0 C) as [G M].
  pose proof (mus_nonneg _ _ _ _ _ _ GG EN _ FR _ _ G) as P.
  destruct (sf_start _ _ _ _ _ _ _ _ _ SF) as [sv [E ->]]. erewrite start_mu in M by eauto.
  assert (Pm : Permutation (pblocks d) l).
  { apply NoDup_Permutation; auto; [apply GG|]. intros b. rewrite Hl. apply (f_in _ _ _ _ _ _ _ _ _ SF). }
  rewrite (Permutation_length Pm) in M.
  assert (H : hand_bound (pblocks d) (dg_max_retries d) =
     fold_right Z.add 0 (map (fun b => Z.max (dg_max_retries d (b_task b)) 0 + 1) l)).
  { unfold hand_bound. clear -Pm. generalize (fun b : block => Z.max (dg_max_retries d (b_task b)) 0 + 1). intros f.
    assert (Z0 : forall x, SerialFacts.zsum f x = fold_right Z.add 0 (map f x)).
    { induction x as [|a x IH]; cbn; [reflexivity|]. now rewrite IH. }
    rewrite Z0. induction Pm; cbn [fold_right map] in *; lia. }
  lia.
Qed.
Print Assumptions C53_bounded_work.

Lemma step_kept up down maxr fuel init y m y' : step up down maxr fuel init y m y' ->
  forall st, In st (y_team y) -> In st (y_team y') /\ w_task (y_w y' st) = w_task (y_w y st).
Proof.
  intros S st Hst.
  assert (P : forall s t p p' o o' r r', y_w y s = Worker t p o r -> In st (y_team (put y s (Worker t p' o' r'))) /\
     w_task (y_w (put y s (Worker t p' o' r')) st) = w_task (y_w y st)).
  { intros s t p p' o o' r r' E. split; [exact Hst|]. cbn [put y_w]. destruct (Nat.eqb_spec st s) as [->|]; [rewrite E|]; reflexivity. }
  destruct S as [s t o r Hs Ew|s t o r Hs Ew|s t o pb r Hs Ew|s t o r Hs Ew|s t o pb r out Hs Ew No|s t p o r n Hs Ew Rn Sd|s s' t o r Hs Ew Nt|s t Nt Ht|i sv l Sp Io Ei El];
    try (eapply P; exact Ew); cbn [y_team y_w].
  - split; [right; auto|]. destruct (Nat.eqb_spec st s') as [->|]; [tauto|]. destruct (Nat.eqb_spec st s) as [->|]; [rewrite Ew|]; reflexivity.
  - split; [right; auto|]. destruct (Nat.eqb_spec st s) as [->|]; [tauto|reflexivity].
  - split; auto. apply task_moved.
Qed.
Lemma runs_kept up down maxr fuel init y ms y' : runs up down maxr fuel init y ms y' ->
  forall st, In st (y_team y) -> In st (y_team y') /\ w_task (y_w y' st) = w_task (y_w y st).
Proof.
  intros R st Hst. induction R as [|ms y1 m y2 R [IH1 IH2] S]; auto.
  destruct (step_kept _ _ _ _ _ _ _ _ S st IH1) as [H1 H2]. split; auto. congruence.
Qed.
Lemma f_manned tasks ord ordt d s0 fuel init crew y0 ms y : staffed tasks ord ordt d s0 fuel init crew y0 -> each_manned tasks crew ->
  runs (dg_up ord ordt d) (dg_down ord ordt d) (dg_max_retries d) fuel init y0 ms y -> manned (map t_id tasks) y.
Proof.
  intros SF EM R t Ht _. apply in_map_iff in Ht. destruct Ht as [x [<- Hx]]. apply EM in Hx.
  destruct (sf_start _ _ _ _ _ _ _ _ _ SF) as [sv [_ Ey]]. apply (In_nth _ _ 0%nat) in Hx. destruct Hx as [k [Hl Ek]].
  destruct (runs_kept _ _ _ _ _ _ _ _ R k) as [H1 H2]; [rewrite Ey; apply in_seq; lia|]. exists k. split; auto.
  rewrite H2, Ey. exact Ek.
Qed.
Lemma step_tr up down maxr fuel init y m y' : step up down maxr fuel init y m y' -> exists l, sv_tr (y_sv y') = l ++ sv_tr (y_sv y).
Proof.
  intros S. destruct S; try (exists []; reflexivity). exists l. assumption.
Qed.

(* C53, no deadlock: as long as the server runs, some worker can move, or a message waits for the
   server, or the next iteration without a message (in which all gone connections are seen) is work or
   the last one.  Each task, unless it requires none, must be listed before those that require it,
   and has a worker.  Missing: tasks in
   another order (see C53_downstream_first_refuted), pipelines with lonely blocks, C21's bound. *)
Theorem C53_no_deadlock_partial : forall tasks ord ordt d s0 fuel init crew y0 ms y i y',
  let up := dg_up ord ordt d in let down := dg_down ord ordt d in let maxr := dg_max_retries d in
  staffed tasks ord ordt d s0 fuel init crew y0 -> no_lonely tasks ord ordt d -> in_order tasks -> each_manned tasks crew ->
  runs up down maxr fuel init y0 ms y -> step up down maxr fuel init y (Serve i) y' -> idle y i ->
  apart_failures tasks ord ordt d (hist (sv_tr (y_sv y'))) ->
  (exists st m z, acts m st /\ upsets m = false /\ step up down maxr fuel init y m z) \/
  (exists st, In st (y_team y) /\ w_out (y_w y st) <> []) \/
  works y (Serve i) y' \/ sv_stop (y_sv y') = true.
Proof.
  intros tasks ord ordt d s0 fuel init crew y0 ms y i y' up down maxr SF NL UF EM R S Id F.
  pose proof (f_good _ _ _ _ _ _ _ _ _ SF) as GG. pose proof (f_enough _ _ _ _ _ _ _ _ _ SF) as EN.
  pose proof (f_fresh _ _ _ _ _ _ _ _ _ SF) as FR. pose proof (f_known _ _ _ _ _ _ _ _ _ SF) as Kn.
  pose proof (sf_callback _ _ _ _ _ _ _ _ _ SF) as CB.
  pose proof (f_roots _ _ _ _ _ _ _ _ _ SF NL) as AR.
  pose proof (f_knownV _ _ _ _ _ _ _ _ _ SF UF) as KV. pose proof (f_first _ _ _ _ _ _ _ _ _ SF UF) as UP.
  assert (R' : runs up down maxr fuel init y0 (ms ++ [Serve i]) y') by (eapply runs_step; eauto).
  pose proof (f_fine _ _ _ _ _ _ _ _ _ SF _ _ R' F) as Fi.
  assert (FU : forall ms z, runs up down maxr fuel init y0 ms z -> fine (pblocks d) up maxr (y_sv z) -> Full (pblocks d) up down maxr fuel s0 (map t_id tasks) z).
  { intros ms1 z Q. induction Q as [|ms1 z1 m z2 Q IH Sz]; intros Fz; [eapply f_Full; eauto|].
    eapply step_full; eauto. destruct (step_tr _ _ _ _ _ _ _ _ Sz) as [l El]. apply IH. eapply fine_back; eauto. }
  assert (Fy : Full (pblocks d) up down maxr fuel s0 (map t_id tasks) y).
  { destruct (step_tr _ _ _ _ _ _ _ _ S) as [l El]. eapply FU; eauto. eapply fine_back; eauto. }
  destruct (Exists_dec (fun st => can_move y st) (y_team y) (fun st => can_move_dec maxr fuel y st)) as [Ex|Nx].
  - left. apply Exists_exists in Ex. destruct Ex as [st [Hst C]].
    destruct (can_step _ _ _ _ _ _ _ init y st (proj1 Fy) C) as [m [z H]]. exists st, m, z. exact H.
  - right. destruct (existsb (fun st => match w_out (y_w y st) with [] => false | _ => true end) (y_team y)) eqn:Eo.
    + left. apply existsb_exists in Eo. destruct Eo as [st [Hst Eo]]. exists st. split; auto. intros Z. rewrite Z in Eo. discriminate.
    + right. eapply no_deadlock; eauto.
      * eapply f_manned; eauto.
      * intros st C. apply Nx. apply Exists_exists. exists st. split; auto. apply C.
      * intros st Hst. destruct (w_out (y_w y st)) eqn:Ew; auto. exfalso.
        assert (X : existsb (fun st => match w_out (y_w y st) with [] => false | _ => true end) (y_team y) = true).
        { apply existsb_exists. exists st. rewrite Ew. auto. }
        congruence.
Qed.
Print Assumptions C53_no_deadlock_partial.

Lemma fair_prefix up down maxr fuel init r mv : fair_run up down maxr fuel init r mv ->
  forall n, exists ms, runs up down maxr fuel init (r O) ms (r n).
Proof.
  intros FA n. induction n as [|n [ms IH]]; [exists []; constructor|].
  pose proof (fr_step _ _ _ _ _ _ _ FA n) as S. destruct (mv n) as [m|]; [|rewrite S; eauto].
  exists (ms ++ [m]). eapply runs_step; eauto.
Qed.

(* C53, the end: every fair run comes to its end, and then every block has succeeded, failed for good,
   or cannot run because a block it depends on failed. *)
Theorem C53_ends_partial : forall tasks ord ordt d s0 fuel init crew r mv,
  let up := dg_up ord ordt d in let down := dg_down ord ordt d in let maxr := dg_max_retries d in
  staffed tasks ord ordt d s0 fuel init crew (r O) -> no_lonely tasks ord ordt d -> in_order tasks -> each_manned tasks crew ->
  fair_run up down maxr fuel init r mv ->
  (forall n, apart_failures tasks ord ordt d (hist (sv_tr (y_sv (r n))))) ->
  exists n, sv_stop (y_sv (r n)) = true /\ forall b, pipe_block tasks b -> settled up maxr (hist (sv_tr (y_sv (r n)))) b.
Proof.
  intros tasks ord ordt d s0 fuel init crew r mv up down maxr SF NL UF EM FA F.
  pose proof (fair_prefix _ _ _ _ _ _ _ FA) as PX.
  assert (Fi : forall n, fine (pblocks d) up maxr (y_sv (r n))).
  { intros n. destruct (PX n) as [ms R]. eapply f_fine; eauto. }
  destruct (fair_ends (pblocks d) up down (root_seeds d) maxr fuel (f_good _ _ _ _ _ _ _ _ _ SF) (f_enough _ _ _ _ _ _ _ _ _ SF) s0
    (f_fresh _ _ _ _ _ _ _ _ _ SF) (map t_id tasks) (f_known _ _ _ _ _ _ _ _ _ SF) init (sf_callback _ _ _ _ _ _ _ _ _ SF)
    (f_roots _ _ _ _ _ _ _ _ _ SF NL) (f_knownV _ _ _ _ _ _ _ _ _ SF UF) (f_first _ _ _ _ _ _ _ _ _ SF UF) r mv FA
    (f_Full _ _ _ _ _ _ _ _ _ SF NL UF) Fi) as [n Sn].
  { intros n. destruct (PX n) as [ms R]. eapply f_manned; eauto. }
  exists n. split; auto. destruct (PX n) as [ms R]. eapply C35_stops_when_settled_partial; eauto using f_server.
Qed.
Print Assumptions C53_ends_partial.

Lemma start_hist init ids s0 sv : server_init init ids false s0 = Ok sv -> hist (sv_tr sv) = [].
Proof.
  unfold server_init. intros E. destruct (recruit_spec init _ _ E) as [B _]. rewrite (besides_hist _ _ B). reflexivity.
Qed.
Lemma all_fits tasks ord ordt d s0 fuel init crew r mv bad :
  staffed tasks ord ordt d s0 fuel init crew (r O) -> fair_run (dg_up ord ordt d) (dg_down ord ordt d) (dg_max_retries d) fuel init r mv ->
  (forall n m, mv n = Some m -> obeys bad (r n) m) -> forall n, Fits bad (r n).
Proof.
  intros SF FA O n. induction n as [|n IH].
  - destruct (sf_start _ _ _ _ _ _ _ _ _ SF) as [sv [E ->]]. split; cbn.
    + intros st _. split; [discriminate|split; [discriminate|intros m []]].
    + rewrite (start_hist _ _ _ _ E). intros e [].
  - pose proof (fr_step _ _ _ _ _ _ _ FA n) as S. destruct (mv n) as [m|] eqn:Em; [|rewrite S; exact IH].
    destruct (fair_prefix _ _ _ _ _ _ _ FA n) as [ms R].
    eapply (step_fits (pblocks d) _ _ (root_seeds d) _ _ (f_good _ _ _ _ _ _ _ _ _ SF) (f_enough _ _ _ _ _ _ _ _ _ SF) s0
      (f_fresh _ _ _ _ _ _ _ _ _ SF) (map t_id tasks) (f_known _ _ _ _ _ _ _ _ _ SF) init (sf_callback _ _ _ _ _ _ _ _ _ SF));
      [eapply f_runs; eauto| |exact S|exact IH]; auto.
Qed.
Lemma all_sincere tasks ord ordt d s0 fuel init crew r mv bad :
  staffed tasks ord ordt d s0 fuel init crew (r O) -> fair_run (dg_up ord ordt d) (dg_down ord ordt d) (dg_max_retries d) fuel init r mv ->
  (forall n m, mv n = Some m -> sincere bad (r n) m) -> forall n, Sincere bad (r n).
Proof.
  intros SF FA O n. induction n as [|n IH].
  - destruct (sf_start _ _ _ _ _ _ _ _ _ SF) as [sv [E ->]]. split; cbn.
    + intros st _ m [].
    + rewrite (start_hist _ _ _ _ E). intros e [].
  - pose proof (fr_step _ _ _ _ _ _ _ FA n) as S. destruct (mv n) as [m|] eqn:Em; [|rewrite S; exact IH].
    eapply step_sincere; [|exact S|exact IH]. auto.
Qed.

(* C54.  Let [bad] be blocks that never end well: no worker ends the body of such a block without
   an exception and with a good status, no check function finds it done.  Let the other blocks not fail
   more often than they are retried, for whatever reason (an exception, the death of a worker).  Then
   every fair run ends, and the blocks that succeeded, failed for good, were orphaned are
   those that C51 says: it depends on [bad] and on the dependencies only. *)
Theorem C54_result_partial : forall tasks ord ordt d s0 fuel init crew r mv bad,
  let up := dg_up ord ordt d in let down := dg_down ord ordt d in let maxr := dg_max_retries d in
  staffed tasks ord ordt d s0 fuel init crew (r O) -> no_lonely tasks ord ordt d -> in_order tasks -> each_manned tasks crew ->
  fair_run up down maxr fuel init r mv ->
  (forall n, apart_failures tasks ord ordt d (hist (sv_tr (y_sv (r n))))) ->
  (forall n m, mv n = Some m -> sincere bad (r n) m) ->
  (forall n b, ~ bad b -> n_failed (hist (sv_tr (y_sv (r n)))) b <= Z.max (maxr (b_task b)) 0) ->
  (forall b, bad b \/ ~ bad b) ->
  exists n, sv_stop (y_sv (r n)) = true /\ forall b, pipe_block tasks b ->
    let h := hist (sv_tr (y_sv (r n))) in
    (succeeded h b <-> ~ bad b /\ ~ doomed tasks ord ordt d bad b) /\
    (perm_failed maxr h b <-> bad b /\ ~ doomed tasks ord ordt d bad b) /\
    (orphan up maxr h b <-> doomed tasks ord ordt d bad b).
Proof.
  intros tasks ord ordt d s0 fuel init crew r mv bad up down maxr SF NL UF EM FA F O FW Dc.
  destruct (C53_ends_partial _ _ _ _ _ _ _ _ _ _ SF NL UF EM FA F) as [n [Sn Hn]]. exists n. split; auto.
  destruct (fair_prefix _ _ _ _ _ _ _ FA n) as [ms R].
  intros b Hb. eapply C51_outcome_partial; eauto using sf_inverse, sf_fuel.
  - eapply a_pipe. eapply f_server; eauto.
  - destruct (all_sincere _ _ _ _ _ _ _ _ _ _ _ SF FA O n) as [_ T]. split.
    + intros c P. destruct (Dc c) as [|Nc]; auto. exfalso. specialize (FW n c Nc). subst maxr. unfold perm_failed in P. lia.
    + intros c. apply truthful_succ. exact T.
Qed.
Print Assumptions C54_result_partial.

(* C54 without deaths: if the body of a block ends well exactly when the block is not bad, nothing need
   be assumed about the number of failures. *)
Theorem C54_steady_partial : forall tasks ord ordt d s0 fuel init crew r mv bad,
  let up := dg_up ord ordt d in let down := dg_down ord ordt d in let maxr := dg_max_retries d in
  staffed tasks ord ordt d s0 fuel init crew (r O) -> no_lonely tasks ord ordt d -> in_order tasks -> each_manned tasks crew ->
  fair_run up down maxr fuel init r mv ->
  (forall n, apart_failures tasks ord ordt d (hist (sv_tr (y_sv (r n))))) ->
  (forall n m, mv n = Some m -> obeys bad (r n) m) ->
  exists n, sv_stop (y_sv (r n)) = true /\ forall b, pipe_block tasks b ->
    let h := hist (sv_tr (y_sv (r n))) in
    (succeeded h b <-> ~ bad b /\ ~ doomed tasks ord ordt d bad b) /\
    (perm_failed maxr h b <-> bad b /\ ~ doomed tasks ord ordt d bad b) /\
    (orphan up maxr h b <-> doomed tasks ord ordt d bad b).
Proof.
  intros tasks ord ordt d s0 fuel init crew r mv bad up down maxr SF NL UF EM FA F O.
  destruct (C53_ends_partial _ _ _ _ _ _ _ _ _ _ SF NL UF EM FA F) as [n [Sn Hn]]. exists n. split; auto.
  destruct (fair_prefix _ _ _ _ _ _ _ FA n) as [ms R].
  intros b Hb. eapply C51_outcome_partial; eauto using sf_inverse, sf_fuel.
  - eapply a_pipe. eapply f_server; eauto.
  - apply accord_agrees. destruct (all_fits _ _ _ _ _ _ _ _ _ _ _ SF FA O n) as [_ T]. exact T.
Qed.
Print Assumptions C54_steady_partial.

(* run_blockwise (convenience.py:26-36) keeps the order of a list that contains all required tasks; a
   single task is put before the tasks it requires, see C53_downstream_first_refuted. *)
Lemma sadd_new x l : ~ In x l -> sadd Nat.eqb x l = l ++ [x].
Proof. intros N. unfold sadd. destruct (mem Nat.eqb x l) eqn:E; auto. exfalso. apply N. unfold mem in E. apply existsb_exists in E. destruct E as [y [H E]]. apply Nat.eqb_eq in E. subst. exact H. Qed.
Theorem C53_order_kept : forall fuel tasks all, closed_tasks tasks -> NoDup (map t_id tasks) ->
  collect_tasks fuel tasks = Ok all -> all = tasks.
Proof.
  intros fuel tasks all CT ND. unfold collect_tasks.
  assert (CU : forall t u, In t tasks -> In u (t_ups t) -> In u tasks).
  { intros t u Ht Hu. apply CT. exists t. split; auto. eapply req_up; [exact Hu|constructor]. }
  assert (G : forall fuel rest extra acc, tasks = acc ++ rest -> (forall x, In x extra -> In x tasks) ->
     collect fuel (rest ++ extra) (map t_id acc) acc = Ok all -> all = tasks).
  { clear fuel. induction fuel as [|n IH]; intros rest extra acc E X; cbn [collect]; [discriminate|].
    destruct rest as [|t rest]; cbn [app].
    - rewrite app_nil_r in E. destruct extra as [|x extra]; [intros H; congruence|].
      assert (Hx : In x tasks) by (apply X; left; auto).
      assert (M : mem Nat.eqb (t_id x) (map t_id acc) = true).
      { unfold mem. apply existsb_exists. exists (t_id x). rewrite Nat.eqb_refl. split; auto. apply in_map. congruence. }
      rewrite M. cbn [negb]. intros H. apply (IH [] (extra ++ t_ups x) acc); auto; [rewrite app_nil_r; auto|].
      intros z Hz. apply in_app_or in Hz. destruct Hz as [Hz|Hz]; [apply X; right; auto|eauto].
    - assert (M : ~ In (t_id t) (map t_id acc)).
      { rewrite E, map_app in ND. cbn [map] in ND. apply NoDup_remove_2 in ND. intros H. apply ND. apply in_or_app. auto. }
      assert (M' : mem Nat.eqb (t_id t) (map t_id acc) = false).
      { destruct (mem Nat.eqb (t_id t) (map t_id acc)) eqn:Em; auto. exfalso. apply M. unfold mem in Em. apply existsb_exists in Em.
        destruct Em as [z [Hz Ez]]. apply Nat.eqb_eq in Ez. rewrite Ez. exact Hz. }
      rewrite M'. cbn [negb]. rewrite sadd_new by exact M. rewrite <- app_assoc.
      replace (map t_id acc ++ [t_id t]) with (map t_id (acc ++ [t])) by (rewrite map_app; reflexivity).
      intros H. apply (IH rest (extra ++ t_ups t) (acc ++ [t])); [rewrite <- app_assoc; exact E| |exact H].
      intros z Hz. apply in_app_or in Hz. destruct Hz as [Hz|Hz]; [auto|].
      apply (CU t); auto. rewrite E. apply in_or_app. right. left. reflexivity. }
  intros H. apply (G fuel tasks [] []); auto; [intros x []|]. rewrite app_nil_r. exact H.
Qed.
Print Assumptions C53_order_kept.
(* If no task is more than one step away from those given, the list of run_blockwise is in order,
   whatever the order of the tasks given. *)
Theorem C53_two_levels : forall tasks fuel all, pipe_ok tasks ->
  (forall t u, In t tasks -> In u (t_ups t) -> t_ups u = []) -> collect_tasks fuel tasks = Ok all -> in_order all.
Proof.
  intros tasks fuel all PO TL E. destruct (C39_closure tasks (po_ids _ PO)) as [N H].
  assert (M : forall a b ts ids acc x, collect a ts ids acc = Ok x -> (a <= b)%nat -> collect b ts ids acc = Ok x).
  { induction a as [|a IH]; intros b ts ids acc x; cbn [collect]; [discriminate|]. intros E' L. destruct b as [|b]; [lia|].
    cbn [collect]. destruct ts as [|t ts]; auto. destruct (if negb _ then _ else _) as [i' a']. eapply IH; eauto. lia. }
  destruct (H (Nat.max N fuel)) as [l' [E' [ND HL]]]; [lia|].
  unfold collect_tasks in *. rewrite (M _ (Nat.max N fuel) _ _ _ _ E) in E' by lia. injection E' as <-.
  intros l1 t l2 u Ea Hu. right.
  assert (Pt : in_pipe tasks t) by (apply HL; rewrite Ea; apply in_or_app; right; left; reflexivity).
  destruct Pt as [t0 [H0 Q]]. split.
  - apply HL. exists t0. split; auto. eapply requires_trans; [exact Q|]. eapply req_up; [exact Hu|constructor].
  - apply requires_inv in Q. destruct Q as [->|[v [Hv Q]]]; [eauto|].
    assert (Nv : t_ups v = []) by eauto. apply requires_inv in Q. destruct Q as [->|[w [Hw _]]]; rewrite Nv in *; [destruct Hu|destruct Hw].
Qed.
Print Assumptions C53_two_levels.

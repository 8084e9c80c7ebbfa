(* A fair run over the network (for C89), computed. *)
From Coq Require Import Arith Lia.
From Verif Require Import SchedProps SchedExec DGFacts2 PipeRun P_SchedCE P_Sched SerialFacts P_Conv P_Serial ServerFacts ServerSteps
  ServerIdle P_Server P_Server2 P_ServerCE P_Outcome P_Notify PoolAll P_PoolFail P_SysEx P_SysCE.
From Verif Require Client Pool P_Pool P_Sys P_WholeEx P_WholeCE P_Cause Tcp Net NetFacts P_Net P_NetErr WireNet.
From Verif Require Import Sys SysFacts SysMeasure SysTrace WholeFair WholeInv WholeSrv P_Whole WholeSim WholeAny WholeAll WholeRun P_WholeAny Wire WireSim P_Wire
  WireFair P_WireFair P_WireEx.
Open Scope Z_scope.
Local Notation link x st := (Net.n_link (x_net x) st).
Local Notation gots x st := (NetFacts.got_from st (Net.n_rets (x_net x))).

(* every process has a number below [nxt] *)
Definition all_of (x : wire) : list nat := seq 0 (Pool.nxt (Pool.ps_sys (x_ps x))).
Definition xnumbered (x : wire) : Prop := forall st, xproc x st <> None -> In st (all_of x).
(* the conditions of WireFair.v, computed *)
Definition has_b (x : wire) (s : nat) : bool := existsb (fun e => Nat.eqb (lg_stream (snd e)) s) (sv_book (x_sv x)).
Definition lost_b (x : wire) (s t : nat) : bool :=
  match xproc x s with Some (u, Pool.Exited _) => Nat.eqb u t && negb (pooledb (x_ps x) s) | _ => false end.
Definition task_of (x : wire) (s : nat) : nat := match xproc x s with Some (t, _) => t | None => 0 end.
Definition replacing (x : wire) (t u : nat) : bool :=
  match xproc x u with
  | Some (v, Pool.Running) => Nat.eqb v t && match x_pc x u with PNew => true | _ => false end
  | Some (v, Pool.Exited c) => Nat.eqb v t && negb (c =? 0) && pooledb (x_ps x) u
  | None => false
  end.
Definition xprudent_b (x : wire) (m : xmove) : bool :=
  match m with
  | XNet _ (Net.KConn ok) => ok
  | XMain st _ => match x_pc x st with PNew => forallb (fun s => negb (lost_b x s (task_of x st) && has_b x s)) (all_of x) | _ => true end
  | XEnd st c => negb (c =? 0) && forallb (fun a => match a with ToServer (MBlockFailed _ _) => false | _ => true end) (skipn (length (gots x st)) (NetFacts.sents (rets x st)))
  | XRaise _ _ => false
  | XServe i => forallb (fun s => negb (lost_b x s (task_of x s)) || i_closed i s || existsb (replacing x (task_of x s)) (all_of x)) (all_of x)
  | _ => true
  end.
Lemma lost_b_true x s t : lost x s t -> lost_b x s t = true.
Proof.
  intros [[c E] N]. unfold lost_b. rewrite E, Nat.eqb_refl. cbn. apply Bool.negb_true_iff. destruct (pooledb (x_ps x) s) eqn:Q; auto.
  apply pooledb_iff in Q. contradiction.
Qed.
Lemma has_b_true x s : has_block (x_sv x) s -> has_b x s = true.
Proof. intros [e [He E]]. unfold has_b. apply existsb_exists. exists e. split; auto. apply Nat.eqb_eq. exact E. Qed.
Lemma xprudent_b_ok x m : xnumbered x -> xprudent_b x m = true -> xprudent x m.
Proof.
  intros N H. destruct m as [st k|st|st|st k|st o|st c|st e|i|]; cbn [xprudent xprudent_b] in *; auto; try discriminate H.
  - destruct k; auto.
  - intros E s t p Ht Ls Hs. rewrite E in H. rewrite forallb_forall in H. assert (Hi : In s (all_of x)) by (apply N; destruct Ls as [[c Q] _]; congruence).
    apply H in Hi. unfold task_of in Hi. rewrite Ht, (lost_b_true _ _ _ Ls), (has_b_true _ _ Hs) in Hi. discriminate Hi.
  - apply andb_prop in H. destruct H as [H1 H2]. right. split; [apply Z.eqb_neq, Bool.negb_true_iff; exact H1|]. intros pb w Hi. rewrite forallb_forall in H2. apply H2 in Hi. discriminate Hi.
  - intros s t Ls. rewrite forallb_forall in H. assert (Hi : In s (all_of x)) by (apply N; destruct Ls as [[c Q] _]; congruence).
    apply H in Hi. assert (Et : task_of x s = t) by (unfold task_of; destruct Ls as [[c ->] _]; reflexivity). rewrite Et, (lost_b_true _ _ _ Ls) in Hi. cbn [negb orb] in Hi.
    apply Bool.orb_prop in Hi. destruct Hi as [Hi|Hi]; [auto|right]. apply existsb_exists in Hi. destruct Hi as [u [_ Hu]]. exists u. unfold replacing in Hu.
    destruct (xproc x u) as [[v [|c]]|]; [| |discriminate Hu].
    + left. apply andb_prop in Hu. destruct Hu as [Hv Hp]. apply Nat.eqb_eq in Hv. subst v. split; auto. destruct (x_pc x u); try discriminate Hp. reflexivity.
    + right. apply andb_prop in Hu. destruct Hu as [Hu Hp]. apply andb_prop in Hu. destruct Hu as [Hv Hc]. apply Nat.eqb_eq in Hv. subst v.
      exists c. split; auto. split; [apply Z.eqb_neq, Bool.negb_true_iff; exact Hc|apply pooledb_iff; exact Hp].
Qed.
Definition xready_b (x : wire) (st : nat) : bool :=
  match x_pc x st with
  | PNew => Net.c_conn (link x st)
  | PSend _ _ | PWork _ => true
  | PWait => match Net.c_main (link x st), Net.c_mq (link x st) with Net.Get2, [] => false | _, _ => true end
  | PBye | PEnd => false
  end.
Lemma xready_b_ok x st : xready x st -> xready_b x st = true.
Proof.
  intros [t [_ H]]. unfold xready_b. destruct (x_pc x st); auto; [apply H|]. destruct (Net.c_main (link x st)) eqn:E; auto. destruct (Net.c_mq (link x st)); auto. destruct (H eq_refl eq_refl).
Qed.

Section Chain.
  Variables (tasks : list task) (ord : list block -> list block) (ordt : list nat -> list nat) (d : dgraph) (s0 : sched) (fuel : nat).
  Variables (nw : nat -> Z) (mbf : Z) (h0 : whole).
  Hypothesis CO : company tasks ord ordt d s0 fuel no_init nw mbf h0.
  Hypothesis ML : 0 <= mbf.
  Variable dumps : Net.nmsg payload -> option Tcp.bytes.
  Variable loads : Tcp.bytes -> option (Net.nmsg payload).
  Hypothesis L : P_Net.lossless dumps loads.
  Local Notation up := (dg_up ord ordt d).
  Local Notation down := (dg_down ord ordt d).
  Local Notation maxr := (dg_max_retries d).
  Local Notation xstep := (xstep up down maxr fuel no_init nw mbf dumps loads).
  Local Notation xruns := (xruns up down maxr fuel no_init nw mbf dumps loads).
  Local Notation xperform := (xperform up down maxr fuel nw mbf dumps loads).
  (* the moves, and the states after them *)
  Fixpoint xtrail (cs : list xdeed) (x : wire) : option (list (xmove * wire)) :=
    match cs with
    | [] => Some []
    | c :: r => match xperform c x with
                | Some (m, x1) => match xtrail r x1 with Some l => Some ((m, x1) :: l) | None => None end
                | None => None
                end
    end.
  Inductive xchain (x : wire) : list (xmove * wire) -> Prop :=
  | xchain_nil : xchain x []
  | xchain_cons m x' l : xstep x m x' -> xchain x' l -> xchain x ((m, x') :: l).
  Lemma xtrail_chain cs : forall x l, xtrail cs x = Some l -> xchain x l.
  Proof.
    induction cs as [|c r IH]; intros x l H; cbn [xtrail] in H; [apply some_inj in H; subst l; constructor|].
    destruct (xperform c x) as [[m x1]|] eqn:E; [|discriminate H]. destruct (xtrail r x1) as [q|] eqn:El; [|discriminate H].
    apply some_inj in H. subst l. constructor; auto. eapply xperform_step; eauto.
  Qed.
  Definition xlast (x : wire) (l : list (xmove * wire)) : wire := last (map snd l) x.
  Lemma xlast_cons x m x' l : xlast x ((m, x') :: l) = xlast x' l.
  Proof. unfold xlast. cbn [map snd]. apply last_cons. Qed.
  Fixpoint xbefores (x : wire) (l : list (xmove * wire)) : list (wire * xmove) :=
    match l with [] => [] | (m, x') :: r => (x, m) :: xbefores x' r end.
  Lemma xchain_runs l : forall x, xchain x l -> xruns x (map fst l) (xlast x l).
  Proof.
    induction l as [|[m a] l IH]; intros x C; [constructor|]. inversion C; subst. cbn [map fst]. rewrite xlast_cons. eapply xruns_cons; eauto.
  Qed.
  Lemma xbefores_nth (z : wire) l : forall x n m, nth_error (map fst l) n = Some m -> In (nth n (x :: map snd l) z, m) (xbefores x l).
  Proof.
    induction l as [|[m a] l IH]; intros x [|n] m0 H; try discriminate H; cbn in H |- *; [injection H as <-; auto|]. right. apply IH. exact H.
  Qed.
  Lemma xchain_end x l : nth (length l) (x :: map snd l) (xlast x l) = xlast x l.
  Proof.
    unfold xlast. revert x. induction l as [|[m a] l IH]; intros x; [reflexivity|]. cbn [map snd length]. specialize (IH a). cbn [nth map] in *.
    rewrite last_cons. destruct l; [reflexivity|]. exact IH.
  Qed.
  Lemma xchain_split l : forall x n, xchain x l -> exists l1 l2, xchain x l1 /\ xlast x l1 = nth n (x :: map snd l) (xlast x l) /\ xchain (xlast x l1) l2 /\ xlast (xlast x l1) l2 = xlast x l.
  Proof.
    induction l as [|[m a] l IH]; intros x n C.
    - exists [], []. cbn. destruct n as [|[|n]]; repeat split; constructor.
    - destruct n as [|n]; [exists [], ((m, a) :: l); repeat split; auto; constructor|]. inversion C as [|m' a' l' S C' E]; subst.
      destruct (IH a n C') as [l1 [l2 [C1 [E1 [C2 E2]]]]]. exists ((m, a) :: l1), l2. rewrite !xlast_cons. cbn [map snd nth]. repeat split; auto. constructor; auto.
  Qed.
  Lemma runs_small ms x x' : xruns x ms x' -> small dumps x' -> small dumps x.
  Proof. intros R. induction R as [|ms z1 m z2 R IH S]; auto. intros H. apply IH. eapply small_step; eauto. Qed.
  Lemma step_rets x m x' : xstep x m x' -> exists rs, Net.n_rets (x_net x') = Net.n_rets (x_net x) ++ rs.
  Proof.
    intros S. assert (No : exists rs, Net.n_rets (x_net x) = Net.n_rets (x_net x) ++ rs) by (exists []; rewrite app_nil_r; reflexivity).
    destruct S; cbn [set_net set_pc set_ps x_net]; auto;
      try (match goal with H : Net.nstep _ _ _ _ = Some _ |- _ => apply nstep_grows in H; apply H end).
    destruct (Net.nstep _ _ _ _) eqn:E; auto. apply nstep_grows in E. apply E.
  Qed.
  Lemma runs_gots ms x x' st : xruns x ms x' -> (length (gots x st) <= length (gots x' st))%nat.
  Proof.
    intros R. induction R as [|ms z1 m z2 R IH S]; auto. destruct (step_rets _ _ _ S) as [rs E]. rewrite E, NetFacts.got_app, app_length. lia.
  Qed.
  Lemma step_todo x m x' : xstep x m x' -> x_todo x <> [] -> m = XSend \/ x_todo x' = x_todo x.
  Proof. intros S N. destruct S; auto. contradiction. Qed.
  Lemma runs_numbered ms x : xruns (wire_init h0) ms x -> small dumps x -> xnumbered x.
  Proof.
    intros R Sm. pose proof (SE _ _ _ _ _ _ _ _ _ _ CO ML) as Se.
    destruct (wire_runs _ _ _ _ _ _ _ _ _ _ Se _ _ (fun _ => None) L _ _ (fun _ => eq_refl) R Sm) as [ams [h [A [Re _]]]].
    pose proof (ai_runs _ _ _ _ _ _ _ _ _ _ Se _ _ A) as AI. destruct (ai_told _ _ _ _ _ _ _ _ _ _ _ AI) as [evs [T _]].
    destruct (told_sound _ _ _ _ no_process_ok _ _ T) as [[F _] _]. rewrite (r_ps _ _ _ _ _ Re) in F.
    intros st K. unfold all_of. apply in_seq. split; [lia|]. cbn. destruct (Nat.lt_ge_cases st (Pool.nxt (Pool.ps_sys (x_ps x)))) as [H|H]; auto. apply F in H. contradiction.
  Qed.
  Definition rest_labels : list (Net.klabel payload) :=
    [Net.KFlushC true; Net.KFlushC false; Net.KFlushS true; Net.KFlushS false; Net.KArriveC 1; Net.KArriveS 1; Net.KReadC; Net.KReadS; Net.KFailC; Net.KFailS].
  Definition rest_b (x : wire) (st : nat) : bool :=
    forallb (fun k => match Net.kstep dumps loads k (link x st) with Some _ => false | None => true end) rest_labels.
  Lemma rest_ok x st : rest_b x st = true -> ~ busy dumps loads x st.
  Proof.
    intros H [k [y [Mk Hk]]]. unfold rest_b in H. rewrite forallb_forall in H.
    assert (D : forall l, In l rest_labels -> Net.kstep dumps loads l (link x st) = None).
    { intros lb Hl. specialize (H lb Hl). cbv beta in H. destruct (Net.kstep dumps loads lb (link x st)) eqn:E; [discriminate H|reflexivity]. }
    clear H. assert (Ar : forall n (h : Net.chan payload), Net.arrive 1 h = None -> Net.arrive n h = None).
    { intros n h. unfold Net.arrive. destruct n as [|n]; [reflexivity|]. cbn. destruct (length (Net.ch_wire h)) as [|i]; [reflexivity|discriminate]. }
    destruct k as [ok|c| | |[]|n| | | |a| |[]|n| | | |]; try discriminate Mk; try (rewrite D in Hk by (unfold rest_labels; cbn [In]; tauto); discriminate Hk); cbn [Net.kstep] in Hk.
    - assert (Q := D (Net.KArriveC 1) ltac:(cbn; tauto)). cbn [Net.kstep] in Q. destruct (Net.arrive 1 (Net.dn (link x st))) eqn:E; [discriminate Q|]. rewrite (Ar n _ E) in Hk. discriminate Hk.
    - assert (Q := D (Net.KArriveS 1) ltac:(cbn; tauto)). cbn [Net.kstep] in Q. destruct (Net.arrive 1 (Net.up (link x st))) eqn:E; [discriminate Q|]. rewrite (Ar n _ E) in Hk. discriminate Hk.
  Qed.
  Definition over_b (x : wire) : bool :=
    sv_stop (x_sv x) && match x_todo x with [] => true | _ => false end &&
    forallb (fun st => negb (xruns_b x st) || rest_b x st && negb (xready_b x st) && match x_pc x st with PNew => false | _ => true end) (all_of x).
  Variable l : list (xmove * wire).
  Hypothesis C : xchain (wire_init h0) l.
  Let z := xlast (wire_init h0) l.
  Let r (n : nat) : wire := nth n (wire_init h0 :: map snd l) z.
  Let mv (n : nat) : option xmove := nth_error (map fst l) n.
  Hypothesis Sz : small dumps z.
  Hypothesis Pr : forallb (fun '(x, m) => xprudent_b x m) (xbefores (wire_init h0) l) = true.
  Hypothesis Ov : over_b z = true.
  Lemma r_end n : (length l <= n)%nat -> r n = z.
  Proof. intros Hn. unfold r. destruct (Nat.eq_dec n (length l)) as [->|]; [apply xchain_end|]. apply nth_overflow. cbn. rewrite map_length. lia. Qed.
  Lemma r_runs n : exists ms1 ms2, xruns (wire_init h0) ms1 (r n) /\ xruns (r n) ms2 z.
  Proof.
    destruct (xchain_split _ _ n C) as [l1 [l2 [C1 [E1 [C2 E2]]]]]. fold z in E1, E2. change (xlast (wire_init h0) l1 = r n) in E1.
    apply xchain_runs in C1, C2. rewrite E2 in C2. rewrite E1 in C1, C2. eauto.
  Qed.
  Lemma r_small n : small dumps (r n).
  Proof. destruct (r_runs n) as [_ [ms [_ R]]]. eapply runs_small; eauto. Qed.
  Lemma r_step n : match mv n with Some m => xstep (r n) m (r (S n)) | None => r (S n) = r n end.
  Proof.
    assert (G : forall l x w, xchain x l -> last (map snd l) x = w -> forall n, match nth_error (map fst l) n with
      | Some m => xstep (nth n (x :: map snd l) w) m (nth (S n) (x :: map snd l) w) | None => nth (S n) (x :: map snd l) w = nth n (x :: map snd l) w end).
    { clear. induction l as [|[m a] q IH]; intros x w C Hw n.
      - cbn in Hw. subst w. destruct n as [|[|n]]; reflexivity.
      - inversion C as [|m' a' l' St C' E]; subst m' a' l'. destruct n; [exact St|]. cbn [map fst snd nth_error]. change (nth (S (S n)) (x :: a :: map snd q) w) with (nth (S n) (a :: map snd q) w).
        change (nth (S n) (x :: a :: map snd q) w) with (nth n (a :: map snd q) w). apply IH; auto. rewrite <- Hw. cbn [map snd]. symmetry. apply last_cons. }
    apply (G l (wire_init h0) z C eq_refl n).
  Qed.
  Lemma over : sv_stop (x_sv z) = true /\ x_todo z = [] /\ forall st, xalive z st -> ~ busy dumps loads z st /\ ~ xready z st /\ x_pc z st <> PNew.
  Proof.
    unfold over_b in Ov. apply andb_prop in Ov. destruct Ov as [O1 O2]. apply andb_prop in O1. destruct O1 as [O0 O1]. split; auto. split; [destruct (x_todo z); [reflexivity|discriminate O1]|].
    intros st [t A]. rewrite forallb_forall in O2. destruct (r_runs (length l)) as [ms [_ [R _]]]. rewrite r_end in R by lia.
    assert (Hi : In st (all_of z)) by (apply (runs_numbered _ _ R Sz); congruence). apply O2 in Hi. unfold xruns_b in Hi. rewrite A in Hi. cbn [negb orb] in Hi.
    apply andb_prop in Hi. destruct Hi as [Hi H3]. apply andb_prop in Hi. destruct Hi as [H1 H2]. split; [apply rest_ok; exact H1|]. split.
    - intros Q. apply xready_b_ok in Q. rewrite Q in H2. discriminate H2.
    - intros Q. rewrite Q in H3. discriminate H3.
  Qed.
  Lemma todo_sent n : x_todo (r n) <> [] -> exists k, (n <= k)%nat /\ mv k = Some XSend.
  Proof.
    intros H. remember (length l - n)%nat as j eqn:Ej. revert n H Ej. induction j as [|j IH]; intros n H Ej.
    - rewrite r_end in H by lia. destruct over as [_ [Q _]]. contradiction.
    - pose proof (r_step n) as S. destruct (mv n) as [m|] eqn:Em.
      + destruct (step_todo _ _ _ S H) as [->|Q]; [exists n; auto|]. destruct (IH (Datatypes.S n)) as [k [Hk Ek]]; [rewrite Q; exact H|lia|]. exists k. split; [lia|exact Ek].
      + destruct (IH (Datatypes.S n)) as [k [Hk Ek]]; [rewrite S; exact H|lia|]. exists k. split; [lia|exact Ek].
  Qed.
  Lemma xchain_fair : xfair up down maxr fuel no_init nw mbf dumps loads (fun st => Some (length (gots z st))) r mv.
  Proof.
    destruct over as [O1 [O2 O3]]. assert (Al : forall st, xalive z st \/ ~ xalive z st).
    { intros st. unfold xalive. destruct (xproc z st) as [[t [|c]]|]; [left; eauto|right; intros [u Q]; discriminate Q|right; intros [u Q]; discriminate Q]. }
    constructor.
    - exact r_step.
    - exact r_small.
    - intros n m H. assert (Hi := xbefores_nth z l (wire_init h0) n m H). rewrite forallb_forall in Pr. apply Pr in Hi. apply xprudent_b_ok; auto.
      destruct (r_runs n) as [ms [_ [R _]]]. eapply runs_numbered; eauto using r_small.
    - intros st. split; [|exists (length l); rewrite r_end by lia; lia]. intros n. destruct (r_runs n) as [_ [ms [_ R]]]. eapply runs_gots; eauto.
    - intros n st _. exists (max n (length l)). split; [lia|]. right. rewrite r_end by lia. destruct (Al st) as [A|A]; auto. left. apply O3. exact A.
    - intros n st _ _. exists (max n (length l)). split; [lia|]. right. rewrite r_end by lia. destruct (Al st) as [A|A]; auto. left. apply O3. exact A.
    - intros n st _. exists (max n (length l)). split; [lia|]. right. rewrite r_end by lia. intros Q. assert (A : xalive z st) by (destruct Q as [t [A _]]; exists t; exact A). destruct (O3 _ A) as [_ [X _]]. exact (X Q).
    - exact todo_sent.
    - intros n _. exists (max n (length l)). split; [lia|]. right. rewrite r_end by lia. exact O1.
    - intros n. exists (max n (length l)). split; [lia|]. right. right. rewrite r_end by lia. exact O1.
    - exists (length l). intros k st c Hk H. assert (X : nth_error (map fst l) k = None) by (apply nth_error_None; rewrite map_length; lia). unfold mv in H. rewrite X in H. discriminate H.
  Qed.
End Chain.

(* The run of P_WireEx.v, in which the process of worker 0 ends while it has the block and worker 1 does it.  At last worker 1 asks for
   more and waits, while the server has stopped. *)
Definition asks' (st : nat) (closed : list nat) : list xdeed := calls st ++ goes_up st 6 ++ [DServe closed; DSend].
Definition wf_deeds : list xdeed := connect 0 ++ asks' 0 [] ++ comes_down 0 6 ++ [DEnd 0 1; DLost 0; DNet 0 Net.KFailS; DServe [0%nat]] ++
  connect 1 ++ asks' 1 [0%nat] ++ comes_down 1 6 ++ [DBody 1 (Client.Finished SUCCESS)] ++ calls 1 ++ calls 1 ++ goes_up 1 6 ++ goes_up 1 6 ++ [DServe [0%nat]; DCall 1; DMain 1; DMain 1].
Definition wf_trail (ts : list task) : option (dgraph * sched * whole * block * list (xmove * wire)) :=
  match sched_init ts with
  | Ok (d, s0) =>
      match whole_init no_init P_WholeCE.one_each 3 (map t_id ts) s0, pblocks d with
      | Ok h, b :: _ => match xtrail idl idl d 100 P_WholeCE.one_each 3 (dumpx b) (loadx b) wf_deeds (wire_init h) with
                        | Some l => Some (d, s0, h, b, l)
                        | None => None end
      | _, _ => None end
  | Err _ => None end.
Lemma wf_trail_is ts d s0 h b l : wf_trail ts = Some (d, s0, h, b, l) ->
  sched_init ts = Ok (d, s0) /\ whole_init no_init P_WholeCE.one_each 3 (map t_id ts) s0 = Ok h /\ In b (pblocks d) /\
  xtrail idl idl d 100 P_WholeCE.one_each 3 (dumpx b) (loadx b) wf_deeds (wire_init h) = Some l.
Proof.
  unfold wf_trail. destruct (sched_init ts) as [[d' s']|] eqn:Es; [|discriminate]. destruct (whole_init _ _ _ _ _) as [h'|] eqn:Ei; [|discriminate].
  destruct (pblocks d') as [|b' q] eqn:Eb; [discriminate|]. destruct (xtrail _ _ _ _ _ _ _ _ _ _) as [l'|] eqn:E1; [|discriminate].
  intros E. apply some_inj in E. repeat (apply pair_equal_spec in E; let F := fresh in destruct E as [E F]). subst. rewrite Eb. repeat split; auto. left. reflexivity.
Qed.
(* the check function finds nothing done *)
Lemma trail_chk ord ordt d fuel nw mbf dumps loads cs : forall x l, xtrail ord ordt d fuel nw mbf dumps loads cs x = Some l ->
  forall i y, In (XServe i, y) l -> i_chk i = no_check.
Proof.
  induction cs as [|c r IH]; intros x l H i y Hi; cbn [xtrail] in H; [apply some_inj in H; subst l; destruct Hi|].
  destruct (xperform _ _ _ _ _ _ _ _ c x) as [[m x1]|] eqn:E; [|discriminate H]. destruct (xtrail _ _ _ _ _ _ _ _ r x1) as [q|] eqn:El; [|discriminate H].
  apply some_inj in H. subst l. destruct Hi as [Hi|Hi]; [|eauto]. apply pair_equal_spec in Hi. destruct Hi as [-> _]. clear -E.
  destruct c as [st k|st|st|st|st o|st c|st e|cl|]; cbn [xperform] in E;
    repeat match type of E with context [match ?b with _ => _ end] => destruct b end; try discriminate E; apply some_inj, pair_equal_spec in E; destruct E as [E _]; try discriminate E.
  injection E as <-. reflexivity.
Qed.
Definition xsincere_b (x : wire) (m : xmove) : bool :=
  match m with
  | XBody st _ => match x_pc x st with PWork pb => negb (is_bad (pb_block pb)) | _ => true end
  | _ => true
  end.
(* what is checked by computation *)
Definition wf_check (d : dgraph) (h : whole) (b : block) (l : list (xmove * wire)) : bool :=
  let z := xlast (wire_init h) l in
  enough_b d 100 && over_b (dumpx b) (loadx b) z && forallb (fun '(x, m) => xprudent_b x m) (xbefores (wire_init h) l) && small_b (dumpx b) (map fst l) z &&
  forallb (fun '(x, m) => xsincere_b x m) (xbefores (wire_init h) l) &&
  forallb (fun x => bounded_b (dg_max_retries d) (hist (sv_tr (x_sv x)))) (wire_init h :: map snd l) &&
  forallb (fun b => match dg_up idl idl d b with [] => true | _ => false end) (pblocks d) &&
  wx_gone z && xruns_b z 1 && (n_failed (hist (sv_tr (x_sv z))) b =? 1) && succ_b (hist (sv_tr (x_sv z))) b && negb (is_bad b).
Lemma wf_checked : match wf_trail [P_WholeCE.wc 1 5] with Some (d, s0, h, b, l) => wf_check d h b l | None => false end = true.
Proof. vm_compute. reflexivity. Qed.
(* The hypotheses of C89_ends_partial and C89_result_partial hold of a run in which a process ends with the block, which another one does. *)
Definition wf_claim (d : dgraph) (s0 : sched) (h : whole) (b : block) (r : nat -> wire) (mv : nat -> option xmove) (n : nat) : Prop :=
  let ts := [P_WholeCE.wc 1 5] in
  let bad := fun b => is_bad b = true in
  let maxr := dg_max_retries d in
  company ts idl idl d s0 100 no_init P_WholeCE.one_each 3 h /\ no_lonely ts idl idl d /\ P_Sys.in_order ts /\ P_Net.lossless (dumpx b) (loadx b) /\ r O = wire_init h /\
  (exists last, xfair (dg_up idl idl d) (dg_down idl idl d) maxr 100 no_init P_WholeCE.one_each 3 (dumpx b) (loadx b) last r mv) /\
  (forall n, apart_failures ts idl idl d (hist (sv_tr (x_sv (r n))))) /\
  (forall n m, mv n = Some m -> xsincere bad (r n) m) /\
  (forall n b, ~ bad b -> n_failed (hist (sv_tr (x_sv (r n)))) b <= Z.max (maxr (b_task b)) 0) /\
  (forall b, bad b \/ ~ bad b) /\
  sv_stop (x_sv (r n)) = true /\ pipe_block ts b /\ succeeded (hist (sv_tr (x_sv (r n)))) b /\ n_failed (hist (sv_tr (x_sv (r n)))) b = 1 /\
  (exists t c, xproc (r n) 0 = Some (t, Pool.Exited c)) /\ xalive (r n) 1.
Lemma wf_from d s0 h b l : sched_init [P_WholeCE.wc 1 5] = Ok (d, s0) -> whole_init no_init P_WholeCE.one_each 3 (map t_id [P_WholeCE.wc 1 5]) s0 = Ok h ->
  In b (pblocks d) -> xtrail idl idl d 100 P_WholeCE.one_each 3 (dumpx b) (loadx b) wf_deeds (wire_init h) = Some l -> wf_check d h b l = true ->
  wf_claim d s0 h b (fun n => nth n (wire_init h :: map snd l) (xlast (wire_init h) l)) (fun n => nth_error (map fst l) n) (length l).
Proof.
  intros Es Ei Hb E Q. unfold wf_check in Q. cbv zeta in Q.
  apply andb_prop in Q. destruct Q as [Q Q12]. apply andb_prop in Q. destruct Q as [Q Q11]. apply andb_prop in Q. destruct Q as [Q Q10]. apply andb_prop in Q. destruct Q as [Q Q9].
  apply andb_prop in Q. destruct Q as [Q Q8]. apply andb_prop in Q. destruct Q as [Q Q7]. apply andb_prop in Q. destruct Q as [Q Q6]. apply andb_prop in Q. destruct Q as [Q Q5].
  apply andb_prop in Q. destruct Q as [Q Q4]. apply andb_prop in Q. destruct Q as [Q Q3]. apply andb_prop in Q. destruct Q as [Q1 Q2].
  assert (Po : pipe_ok [P_WholeCE.wc 1 5]) by (apply P_Cause.c_ok; lia).
  assert (PR : pipe_run [P_WholeCE.wc 1 5] idl idl d s0 100 [] s0) by (constructor; auto using idl_order; constructor).
  assert (CO : company [P_WholeCE.wc 1 5] idl idl d s0 100 no_init P_WholeCE.one_each 3 h).
  { eapply P_WholeEx.company_ok; eauto; [apply P_Cause.c_edges|]. intros t. unfold P_WholeCE.one_each. lia. }
  pose proof (xtrail_chain _ _ _ _ _ _ _ _ _ _ _ E) as C.
  assert (R : xruns (dg_up idl idl d) (dg_down idl idl d) (dg_max_retries d) 100 no_init P_WholeCE.one_each 3 (dumpx b) (loadx b) (wire_init h) (map fst l) (xlast (wire_init h) l)).
  { apply xchain_runs. exact C. }
  pose proof (small_b_ok _ _ _ _ _ _ _ _ _ _ _ R Q4) as Sm.
  pose proof (xchain_end (wire_init h) l) as Ez.
  unfold wf_claim. cbv zeta. rewrite Ez. split; [exact CO|]. split; [apply P_WholeCE.one_no_lonely; reflexivity|]. split; [apply P_WholeCE.one_first; reflexivity|].
  split; [apply loadx_lossless|]. split; [reflexivity|].
  split. { eexists. eapply xchain_fair; eauto; [lia|apply loadx_lossless]. }
  split. { intros n x u a a0 w Hx Hu. exfalso. rewrite forallb_forall in Q7. apply (run_in _ _ _ _ _ _ _ _ PR), Q7 in Hx. destruct (dg_up idl idl d x); [destruct Hu|discriminate Hx]. }
  split. { intros n m H. pose proof (xbefores_nth (xlast (wire_init h) l) l (wire_init h) n m H) as Hi. rewrite forallb_forall in Q5. apply Q5 in Hi. cbn beta iota in Hi.
    destruct m as [| | | |st o| | |i|]; try exact I.
    - intros _ pb Ep. unfold xsincere_b in Hi. rewrite Ep in Hi. apply Bool.negb_true_iff in Hi. congruence.
    - intros k c Hk. apply nth_error_In in H. apply in_map_iff in H. destruct H as [[m0 y0] [E0 H]]. cbn in E0. subst m0. rewrite (trail_chk _ _ _ _ _ _ _ _ _ _ _ E _ _ H) in Hk. discriminate Hk. }
  split. { intros n c Nc. apply bounded_b_ok; auto. rewrite forallb_forall in Q6. apply (Q6 (nth n (wire_init h :: map snd l) (xlast (wire_init h) l))).
    destruct (Nat.lt_ge_cases n (length (wire_init h :: map snd l))) as [L|L]; [apply nth_In; exact L|].
    rewrite nth_overflow by exact L. rewrite <- Ez. apply nth_In. cbn. rewrite map_length. lia. }
  split. { intros c. destruct (is_bad c); [left|right]; congruence. }
  split. { unfold over_b in Q2. apply andb_prop in Q2. destruct Q2 as [Q2 _]. apply andb_prop in Q2. apply Q2. }
  split; [apply (run_in _ _ _ _ _ _ _ _ PR); exact Hb|]. split; [apply succ_b_true; exact Q11|]. split; [apply Z.eqb_eq; exact Q10|].
  split; [|apply xruns_b_ok; exact Q9]. unfold wx_gone in Q8. destruct (xproc _ 0%nat) as [[t [|c]]|]; try discriminate Q8. eauto.
Qed.
Example C89_example : exists d s0 h b r mv n, wf_claim d s0 h b r mv n.
Proof.
  pose proof wf_checked as Q. destruct (wf_trail _) as [[[[[d s0] h] b] l]|] eqn:E; [|discriminate Q].
  destruct (wf_trail_is _ _ _ _ _ _ E) as [Es [Ei [Hb El]]]. eexists d, s0, h, b, _, _, _. exact (wf_from _ _ _ _ _ Es Ei Hb El Q).
Qed.
Print Assumptions C89_example.

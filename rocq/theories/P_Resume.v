(* C70: running the same tasks again with a check function that recognises what was done before. *)
From Coq Require Import Arith Lia Permutation.
From Verif Require Import SchedProps SchedExec DGFacts2 PipeRun P_SchedCE P_Sched SerialFacts P_Conv P_Serial ServerFacts ServerSteps
  ServerIdle P_Server P_Server2 P_ServerCE P_Outcome P_Notify PoolAll P_PoolFail.
From Verif Require Client Pool P_Pool.
From Verif Require Import P_Apart.
From Verif Require Import Sys SysFacts SysMeasure SysTrace WholeSrv WholeSim WholeAny WholeAll WholeRun P_WholeAny TopInit Top P_Top.
Open Scope Z_scope.

(* a check function that says True of the blocks [K], and only of blocks of [L] *)
Definition says (K L : block -> Prop) (chk : nat -> block -> check_result) : Prop :=
  forall k b, (K b -> chk k b = CheckTrue) /\ (chk k b = CheckTrue -> L b).
(* no block of [K] is handed out, only blocks of [L] are skipped *)
Definition respects (K L : block -> Prop) (h : history) : Prop :=
  (forall t pb, In (EvHand t pb) h -> ~ K (pb_block pb)) /\ (forall b, In (EvSkip b) h -> L b).

Lemma respects_app K L a b : respects K L a -> respects K L b -> respects K L (a ++ b).
Proof. intros [A1 A2] [B1 B2]. split; [intros t pb H|intros x H]; apply in_app_or in H; destruct H; eauto. Qed.
Lemma acquire_respects up down maxr fuel K L chk s t s' r sk : says K L chk ->
  Sched.acquire_block up down maxr fuel chk s t = Ok (s', r, sk) ->
  respects K L (match r with Some pb => EvHand t pb | None => EvNone t end :: rev (map EvSkip sk)).
Proof.
  intros SA E. destruct (C25_skip_iff_check_true _ _ _ _ _ _ _ _ _ _ E) as [C1 C2]. split.
  - intros u pb [H|H].
    + destruct r as [pb'|]; [|discriminate]. injection H as -> ->. intros Kb. apply (C2 pb eq_refl). apply SA, Kb.
    + apply in_rev, in_map_iff in H. destruct H as [x [H _]]. discriminate H.
  - intros b [H|H]; [destruct r; discriminate H|]. apply in_rev, in_map_iff in H. destruct H as [x [H Hx]]. injection H as ->.
    destruct (In_nth_error _ _ Hx) as [i Hi]. eapply SA. eapply C1, Hi.
Qed.

(* ---- the serial server ---- *)
Section SerialAsks.
  Variables (up down : block -> list block) (maxr : nat -> Z) (fuel : nat) (all_tasks : list nat).
  Variable chk : history -> nat -> block -> check_result.
  Variable proc : history -> pyblock -> res status.
  Variable pick : history -> nat -> list block -> nat.
  Variables (K L : block -> Prop).
  Hypothesis SA : forall h, says K L (chk h).
  Lemma first_asks ts : forall h s s' r h1, first_block up down maxr fuel chk ts h s = Ok (s', r, h1) -> respects K L h -> respects K L h1.
  Proof.
    induction ts as [|t ts IH]; intros h s s' r h1; cbn [first_block].
    - intros E. injection E as <- <- <-. auto.
    - destruct (Sched.acquire_block up down maxr fuel (chk h) s t) as [[[s1 b] sk]|] eqn:Ea; [|discriminate]. cbn [bind].
      pose proof (acquire_respects _ _ _ _ K L _ _ _ _ _ _ (SA h) Ea) as X. destruct b as [pb|]; intros E Hh.
      + injection E as <- <- <-. apply (respects_app K L (_ :: _) h X Hh).
      + apply (IH _ _ _ _ _ E). apply (respects_app K L (_ :: _) h X Hh).
  Qed.
  Lemma block_asks x s1 h1 pb y : serial_block up down maxr fuel proc pick x s1 h1 pb = Ok y -> respects K L h1 -> respects K L (ss_h y).
  Proof.
    unfold serial_block. destruct (mem _ _ _); [|discriminate]. destruct (proc h1 pb) as [st0|]; [|discriminate]. cbn [bind].
    destruct (release_block _ _ _ _ _ _ _) as [s2|]; [|discriminate]. cbn [bind].
    assert (X : respects K L h1 -> respects K L (EvRel (PB (pb_block pb) (if status_eqb st0 FAILED then FAILED else SUCCESS)) :: h1)).
    { intros [A B]. split; [intros t p [H|H]|intros b [H|H]]; try discriminate H; eauto. }
    destruct (ts_is_done _); [destruct (sremove _ _ _); [|discriminate]; cbn [bind]|]; intros E; injection E as <-; exact X.
  Qed.
  Lemma loop_asks n : forall x y, serial_loop up down maxr fuel all_tasks chk proc pick n x = Ok y -> respects K L (ss_h x) -> respects K L (ss_h y).
  Proof.
    induction n as [|n IH]; intros x y; cbn [serial_loop]; [discriminate|]. destruct (set_eqb _ _); [intros E; injection E as <-; auto|].
    destruct (first_block _ _ _ _ _ _ _ _) as [[[s1 r] h1]|] eqn:Ef; [|discriminate]. cbn [bind]. intros E Hx.
    pose proof (first_asks _ _ _ _ _ _ Ef Hx) as H1. destruct r as [pb|]; [|injection E as <-; exact H1].
    destruct (serial_block _ _ _ _ _ _ _ _ _ _) as [z|] eqn:Ez; [|discriminate]. cbn [bind] in E.
    pose proof (block_asks _ _ _ _ _ Ez H1) as H2. destruct (ss_funcs z); [injection E as <-; exact H2|]. eapply IH; eauto.
  Qed.
End SerialAsks.

(* ---- the server ---- *)
Section ServerAsks.
  Variables (up down : block -> list block) (maxr : nat -> Z) (fuel : nat) (init : nat -> res unit).
  Variables (K L : block -> Prop).
  Local Notation ok x := (respects K L (hist (sv_tr x))).
  Lemma respects_nil : respects K L [].
  Proof. split; [intros ? ? []|intros ? []]. Qed.
  Lemma besides_ok x y : besides x y -> ok x -> ok y.
  Proof. intros B. rewrite (besides_hist _ _ B). auto. Qed.
  Lemma rel_ok i pb x y : sv_release up down maxr fuel init i pb x = Ok y -> ok x -> ok y.
  Proof.
    unfold sv_release. destruct (release_block _ _ _ _ _ _ _) as [s1|]; [|discriminate]. cbn [bind]. intros E Hx.
    destruct (recruit_spec init _ _ E) as [B _]. apply (besides_ok _ _ B). apply (besides_ok _ _ (proj1 (check_all_spec _))).
    destruct Hx as [A C]. split; [intros t p [H|H]|intros b [H|H]]; try discriminate H; eauto.
  Qed.
  Lemma safe_ok i pb st x y : safe_release up down maxr fuel init i pb st x = Ok y -> ok x -> ok y.
  Proof.
    unfold safe_release. destruct (is_valid_return _ _ _); [|intros E; injection E as <-; auto].
    destruct (sv_release _ _ _ _ _ _ _ _) as [z|] eqn:E; [|discriminate]. cbn [bind].
    destruct (notify_block_returned _ _ _) as [b|]; [|discriminate]. cbn [bind]. intros H. injection H as <-. cbn [set_book sv_tr]. eapply rel_ok; eauto.
  Qed.
  Lemma acq_ok i t st x y : says K L (i_chk i) -> handle_acquire up down maxr fuel init i t st x = Ok y -> ok x -> ok y.
  Proof.
    unfold handle_acquire. intros SA. destruct (Sched.acquire_block _ _ _ _ _ _ _) as [[[s1 r] sk]|] eqn:E; [|discriminate]. cbn [bind].
    pose proof (acquire_respects _ _ _ _ K L _ _ _ _ _ _ SA E) as C.
    assert (X : forall l x, ok x -> hist l = [] -> ok (add_tr (add_tr (set_s x s1) (map ACall (match r with Some pb => EvHand t pb | None => EvNone t end :: rev (map EvSkip sk)))) l)).
    { intros l z Hz El. cbn [add_tr set_s sv_tr]. rewrite !hist_app, El. cbn [app]. rewrite hist_calls. apply respects_app; auto. }
    destruct r as [pb|].
    - destruct (notify_block_sent _ _ _ _) as [b|]; [|discriminate]. cbn [bind]. intros H Hx. injection H as <-.
      apply (X [ANote (NAcquire t (s_st s1 t)); ASend st pb] x Hx eq_refl).
    - destruct (negb _); [discriminate|]. destruct (_ =? 0).
      + intros H Hx. destruct (recruit_spec init _ _ H) as [B _]. apply (besides_ok _ _ B). apply (X [AShutdown t st] x Hx eq_refl).
      + destruct (pput _ _ _) as [p|]; [|discriminate]. cbn [bind]. intros H Hx. injection H as <-. apply (X [ADelay t st] x Hx eq_refl).
  Qed.
  Lemma msg_ok i st m x y : says K L (i_chk i) -> handle_message up down maxr fuel init i st m x = Ok y -> ok x -> ok y.
  Proof.
    unfold handle_message. intros SA. destruct m as [t|pb|pb w|e|]; try discriminate.
    - destruct (handle_acquire _ _ _ _ _ _ _ _ _) as [z|] eqn:E; [|discriminate]. cbn [bind]. intros H Hx. injection H as <-.
      apply (besides_ok _ _ (proj1 (check_all_spec _))). eapply acq_ok; eauto.
    - destruct (safe_release _ _ _ _ _ _ _ _ _) as [z|] eqn:E; [|discriminate]. cbn [bind]. intros H Hx. injection H as <-.
      apply (besides_ok _ _ (proj1 (check_all_spec _))). eapply safe_ok; eauto.
    - destruct (safe_release _ _ _ _ _ _ _ _ _) as [z|] eqn:E; [|discriminate]. cbn [bind]. intros H Hx. injection H as <-.
      apply (besides_ok _ _ (proj1 (check_all_spec _))). apply (safe_ok _ _ _ _ _ E) in Hx. exact Hx.
  Qed.
  Lemma msgs_ok i x y : says K L (i_chk i) -> handle_messages up down maxr fuel init i x = Ok y -> ok x -> ok y.
  Proof.
    unfold handle_messages. intros SA. destruct (i_get i) as [st m| | |e]; try discriminate.
    - intros E Hx. eapply msg_ok; eauto.
    - destruct (pfirst (sv_pend x)) as [[[t st] p]|]; [|intros H; injection H as <-; auto]. intros E Hx. eapply msg_ok; eauto.
    - intros H. injection H as <-. auto.
  Qed.
  Lemma lost_ok i x y : check_lost up down maxr fuel init i x = Ok y -> ok x -> ok y.
  Proof.
    unfold check_lost. destruct (get_lost_blocks _ _ _ _) as [[bs b]|]; [|discriminate]. cbn [bind].
    assert (F : forall bs z, foldM (fun x pb => sv_release up down maxr fuel init i (PB (pb_block pb) FAILED) x) bs z = Ok y -> ok z -> ok y).
    { induction bs0 as [|pb bs0 IH]; intros z; cbn [foldM]; [intros H; injection H as <-; auto|].
      destruct (sv_release _ _ _ _ _ _ _ _) as [z1|] eqn:E; [|discriminate]. cbn [bind]. intros H Hz. eapply IH; eauto. eapply rel_ok; eauto. }
    intros H Hx. eapply F; [exact H|]. cbn [add_tr set_book sv_tr]. rewrite hist_app. apply respects_app; auto.
    replace (hist _) with ([] : history); [apply respects_nil|]. symmetry. unfold hist.
    assert (G : forall l, (forall a, In a l -> exists pb st, a = ALost pb st) -> flat_map (fun a => match a with ACall e => [e] | _ => [] end) l = []).
    { induction l as [|a l IH]; auto. intros G. cbn [flat_map]. rewrite IH by (intros; apply G; right; auto).
      destruct (G a (or_introl eq_refl)) as [? [? ->]]. reflexivity. }
    apply G. intros a Ha. apply in_rev, in_flat_map in Ha. destruct Ha as [e [_ Ha]].
    destruct (i_closed i _); [destruct Ha as [<-|[]]; eauto|destruct Ha].
  Qed.
  Lemma iter_ok i x y : says K L (i_chk i) -> iteration up down maxr fuel init i x = Ok y -> ok x -> ok y.
  Proof.
    intros SA E Hx. destruct (iter_split up down maxr fuel init i x y E) as [a [b [Ea [Eb Ey]]]].
    pose proof (lost_ok _ _ _ Eb (msgs_ok _ _ _ SA Ea Hx)) as H. subst y. destruct (i_tick i); auto. apply (besides_ok _ _ (proj1 (check_all_spec _)) H).
  Qed.
  Lemma event_loop_ok ins : forall x y, Forall (fun i => says K L (i_chk i)) ins -> event_loop up down maxr fuel init ins x = Ok y -> ok x -> ok y.
  Proof.
    induction ins as [|i ins IH]; intros x y F; cbn [event_loop]; destruct (sv_stop x); try (intros E; injection E as <-; auto; fail).
    inversion F; subst. destruct (iteration _ _ _ _ _ i x) as [z|] eqn:E; [|discriminate]. cbn [bind]. intros H Hx. eapply IH; eauto. eapply iter_ok; eauto.
  Qed.
  Lemma init_ok ts st s0 x : server_init init ts st s0 = Ok x -> ok x.
  Proof.
    unfold server_init. intros E. destruct (recruit_spec init _ _ E) as [B _]. apply (besides_ok _ _ B). apply respects_nil.
  Qed.
  (* the server among its workers *)
  Variables (nw : nat -> Z) (mbf : Z).
  Definition asked (m : amove) : Prop := match m with AMove (HServe i _) => says K L (i_chk i) | _ => True end.
  Lemma aruns_ok h ms h' : aruns up down maxr fuel init nw mbf h ms h' -> (forall m, In m ms -> asked m) -> ok (h_sv h) -> ok (h_sv h').
  Proof.
    intros R. induction R as [|ms h1 m h2 R IH S]; intros A Hx; auto.
    assert (H1 : ok (h_sv h1)) by (apply IH; auto; intros x Hm; apply A, in_or_app; auto).
    assert (Am : asked m) by (apply A, in_or_app; right; left; reflexivity).
    destruct S as [m h2 S|st e n Al|st s n c pb Al At]; [|exact H1|exact H1].
    destruct S; try exact H1. cbn [h_sv]. eapply iter_ok; eauto.
  Qed.
End ServerAsks.

(* how often b was returned as done *)
Definition n_won (h : history) (b : block) : Z :=
  count (fun e => match e with EvRel pb => is_block (pb_block pb) b && status_eqb (pb_status pb) SUCCESS | _ => false end) h.
Definition won_total (hs : list history) (b : block) : Z := fold_right (fun h n => n_won h b + n) 0 hs.

Lemma count_in p (h : history) e : In e h -> p e = true -> 0 < count p h.
Proof.
  induction h as [|x h IH]; [intros []|]. intros [->|H] E; cbn [count].
  - rewrite E. pose proof (count_nonneg p h). lia.
  - specialize (IH H E). destruct (p x); lia.
Qed.
Lemma is_block_refl b : is_block b b = true.
Proof. unfold is_block. destruct (block_dec b b); auto. Qed.
Lemma won_pos h b : 0 < n_won h b <-> In (EvRel (PB b SUCCESS)) h.
Proof.
  split.
  - intros H. apply count_pos in H. destruct H as [e [He H]]. destruct e as [|?|?|[c st]]; try discriminate H.
    apply andb_prop in H. destruct H as [H1 H2]. cbn [pb_block pb_status] in *. apply is_block_eq in H1. subst. destruct st; try discriminate H2. exact He.
  - intros H. eapply count_in; [exact H|]. cbn. rewrite is_block_refl. reflexivity.
Qed.
Lemma ok_once V up maxr h : ok_hist V up maxr h -> forall b,
  n_won h b <= 1 /\ (succeeded h b -> ~ held h b) /\ (skipped h b -> n_won h b = 0) /\ n_handed h b <= n_released h b + 1.
Proof.
  induction h as [|e h IH]; [intros _ b; split; [cbn; lia|split; [intros [[]|[]]|split; [intros []|cbn; lia]]]|].
  intros [O H] b. destruct (IH H b) as [W [S [K N]]]. pose proof (count_nonneg (fun e => match e with EvRel pb => is_block (pb_block pb) b && status_eqb (pb_status pb) SUCCESS | _ => false end) h) as P. fold (n_won h b) in P.
  assert (PW : ~ succeeded h b -> n_won h b = 0).
  { intros NS. destruct (Z.eq_dec (n_won h b) 0); auto. exfalso. apply NS. right. apply won_pos. lia. }
  destruct e as [c|t [c st]|t|[c st]]; cbn [ok_event ok_take pb_block pb_status] in O.
  - unfold held. cbn [n_won n_handed n_released count]. fold (n_won h b) (n_handed h b) (n_released h b).
    destruct O as [_ [_ [_ [O1 [_ O2]]]]]. split; [exact W|]. split; [|split; [|lia]].
    + intros [[E|Q]|[E|Q]]; try discriminate E; [injection E as ->; exact O2| |]; apply S; [left|right]; exact Q.
    + intros [E|Q]; [injection E as ->; apply PW, O1|apply K, Q].
  - unfold held. cbn [n_won n_handed n_released count pb_block]. fold (n_won h b) (n_handed h b) (n_released h b).
    destruct O as [_ [_ [_ [O1 [_ O2]]]]]. unfold held in O2. unfold is_block at 1 2. destruct (block_dec c b) as [->|Nc].
    + split; [exact W|]. split; [|split; [|lia]].
      * intros [[E|Q]|[E|Q]]; try discriminate E; exfalso; apply O1; [left|right]; exact Q.
      * intros [E|Q]; [discriminate E|apply K, Q].
    + split; [exact W|]. split; [|split; [|lia]].
      * intros [[E|Q]|[E|Q]]; try discriminate E; rewrite Z.add_0_l; apply S; [left|right]; exact Q.
      * intros [E|Q]; [discriminate E|apply K, Q].
  - unfold held. cbn [n_won n_handed n_released count]. fold (n_won h b) (n_handed h b) (n_released h b).
    split; [exact W|]. split; [|split; [|lia]].
    + intros [[E|Q]|[E|Q]]; try discriminate E; apply S; [left|right]; exact Q.
    + intros [E|Q]; [discriminate E|apply K, Q].
  - unfold held. cbn [n_won n_handed n_released count pb_block pb_status]. fold (n_won h b) (n_handed h b) (n_released h b).
    destruct O as [O1 _]. unfold is_block at 1 2 3 4. destruct (block_dec c b) as [->|Nc].
    + assert (NS : ~ succeeded h b) by (intros Q; apply (S Q), O1). rewrite (PW NS). split; [destruct (status_eqb st SUCCESS); cbn; lia|].
      split; [intros _; lia|]. split; [|lia]. intros [E|Q]; [discriminate E|]. exfalso. apply NS. left. exact Q.
    + cbn [andb]. rewrite !Z.add_0_l. split; [exact W|]. split; [|split; [|exact N]].
      * intros [[E|Q]|[E|Q]]; [discriminate E|apply S; left; exact Q|injection E as -> _; congruence|apply S; right; exact Q].
      * intros [E|Q]; [discriminate E|apply K, Q].
Qed.

Section Second.
  Variables (tasks : list task) (d : dgraph) (s0 : sched) (K L : block -> Prop).
  Variables (ord : list block -> list block) (ordt : list nat -> list nat) (fuel : nat) (h : history) (s : sched).
  Hypothesis R : pipe_run tasks ord ordt d s0 fuel h s.
  Hypothesis IV : inverse tasks ord ordt d.
  Hypothesis FO : fuel_ok tasks fuel.
  Let HI := reach_HInv _ _ _ _ _ _ (run_good _ _ _ _ _ _ _ _ R IV) (run_enough _ _ _ _ _ _ _ _ R FO)
      _ (run_fresh _ _ _ _ _ _ _ _ R) h s (pr_reach _ _ _ _ _ _ _ _ R).
  Lemma run_once b : n_won h b <= 1 /\ (skipped h b -> n_won h b = 0).
  Proof. destruct (ok_once _ _ _ h (hi_ok _ _ _ _ _ _ _ _ HI) b) as [A [_ [B _]]]. auto. Qed.
  Lemma failed_handed b : perm_failed (dg_max_retries d) h b -> 0 < n_handed h b.
  Proof. intros [F _]. pose proof (hi_count _ _ _ _ _ _ _ _ HI b) as C. lia. Qed.
  Lemma won_handed b : 0 < n_won h b -> 0 < n_handed h b.
  Proof.
    intros W. pose proof (hi_count _ _ _ _ _ _ _ _ HI b) as C. apply won_pos in W.
    assert (0 < n_released h b); [|lia]. eapply count_in; [exact W|]. cbn. apply is_block_refl.
  Qed.
  Hypothesis RS : respects K L h.
  Lemma not_again b : K b -> n_handed h b = 0.
  Proof.
    intros Kb. destruct (Z.eq_dec (n_handed h b) 0) as [|N]; auto. exfalso.
    pose proof (count_nonneg (fun e => match e with EvHand _ pb => is_block (pb_block pb) b | _ => false end) h) as P. fold (n_handed h b) in P.
    assert (Q : 0 < n_handed h b) by lia. apply count_pos in Q. destruct Q as [e [He E]]. destruct e as [|t pb| |]; try discriminate E.
    apply is_block_eq in E. subst b. apply (proj1 RS _ _ He Kb).
  Qed.
  Lemma not_done b : all_settled tasks ord ordt d h -> pipe_block tasks b -> ~ succeeded h b ->
    exists a, ~ K a /\ perm_failed (dg_max_retries d) h a /\ anc_eq (dg_up ord ordt d) a b.
  Proof.
    intros AS Hb NS. assert (X : forall a, perm_failed (dg_max_retries d) h a -> ~ K a) by (intros a F Ka; apply failed_handed in F; apply not_again in Ka; lia).
    destruct (AS b Hb) as [Q|[F|[a [F A]]]]; [tauto| |]; [exists b|exists a]; (split; [auto|split; [auto|]]); [left|right]; auto.
  Qed.
  Lemma closed_skipped b : all_settled tasks ord ordt d h -> pipe_block tasks b -> K b ->
    (forall a, ancestor (dg_up ord ordt d) a b -> K a) -> skipped h b.
  Proof.
    intros AS Hb Kb KA. destruct (AS b Hb) as [[S|S]|[F|[a [F A]]]].
    - exact S.
    - exfalso. apply won_pos, won_handed in S. rewrite (not_again b Kb) in S. lia.
    - exfalso. apply failed_handed in F. rewrite (not_again b Kb) in F. lia.
    - exfalso. apply failed_handed in F. rewrite (not_again a (KA a A)) in F. lia.
  Qed.
End Second.

Lemma anc_any tasks d s0 ord ordt ord' ordt' : pipe_ok tasks -> sched_init tasks = Ok (d, s0) ->
  is_order ord -> is_order ordt -> is_order ord' -> is_order ordt' ->
  forall a b, pipe_block tasks b -> ancestor (dg_up ord ordt d) a b -> ancestor (dg_up ord' ordt' d) a b.
Proof.
  intros PO E0 HO HOt HO' HOt' a b Hb A.
  assert (R0 : pipe_run tasks ord ordt d s0 0 [] s0) by (constructor; auto; constructor).
  induction A as [b Ha|b c A IH Hc].
  - apply anc_one. apply (up_any_order tasks d PO (ex_intro _ s0 E0) ord ordt ord' ordt'); auto.
  - apply anc_more with b; [apply IH|apply (up_any_order tasks d PO (ex_intro _ s0 E0) ord ordt ord' ordt'); auto].
    apply (run_in _ _ _ _ _ _ _ _ R0). apply (run_in _ _ _ _ _ _ _ _ R0) in Hb. apply (sg_up _ _ _ _ (run_safe _ _ _ _ _ _ _ _ R0) b c Hb Hc).
Qed.
Lemma inverse_any tasks d s0 ord ordt ord' ordt' : pipe_ok tasks -> sched_init tasks = Ok (d, s0) ->
  is_order ord -> is_order ordt -> is_order ord' -> is_order ordt' -> inverse tasks ord ordt d -> inverse tasks ord' ordt' d.
Proof.
  intros PO E0 HO HOt HO' HOt' IV a b Ha Hb. pose proof (ex_intro (fun x => sched_init tasks = Ok (d, x)) s0 E0) as EX.
  pose proof (IV a b Ha Hb) as I. split; intros H.
  - apply (up_any_order tasks d PO EX ord ordt ord' ordt'); auto. apply I. apply (down_any_order tasks d PO EX ord' ordt' ord ordt); auto.
  - apply (down_any_order tasks d PO EX ord ordt ord' ordt'); auto. apply I. apply (up_any_order tasks d PO EX ord' ordt' ord ordt); auto.
Qed.

(* [b] was handed out or skipped *)
Definition begun (h : history) (b : block) : Prop := exists e, In e h /\ takes e b.

(* C70.  The first run, with history h, may have ended at any moment.  [K]: what the check function recognises in the second
   run: all blocks that succeeded in the first one, perhaps others.  In the second run no such block is handed out.  When it
   is over: every block that was done in the first run is skipped, also one whose body did its work but could not report it
   ([begun]); a block that is still not done has failed in the second run, or depends on one that has, and was not done before. *)
Theorem C70_resume_partial : forall tasks d s0 (K L : block -> Prop) ord ordt fuel h s ord' ordt' fuel' h' s',
  pipe_run tasks ord ordt d s0 fuel h s -> inverse tasks ord ordt d -> fuel_ok tasks fuel ->
  pipe_run tasks ord' ordt' d s0 fuel' h' s' -> fuel_ok tasks fuel' ->
  (forall b, succeeded h b -> K b) -> respects K L h' ->
  (forall b, K b -> n_handed h' b = 0) /\
  (all_settled tasks ord' ordt' d h' ->
     (forall b, K b -> begun h b -> skipped h' b) /\
     (forall b, succeeded h b -> skipped h' b) /\
     forall b, pipe_block tasks b -> ~ succeeded h' b ->
       exists a, ~ K a /\ perm_failed (dg_max_retries d) h' a /\ anc_eq (dg_up ord' ordt' d) a b).
Proof.
  intros tasks d s0 K L ord ordt fuel h s ord' ordt' fuel' h' s' R IV FO R' FO' KS RS.
  assert (IV' : inverse tasks ord' ordt' d).
  { apply (inverse_any tasks d s0 ord ordt); auto; try apply R; apply R'. }
  split; [intros b; eapply not_again; eauto|]. intros AS.
  assert (AN : forall a b, pipe_block tasks b -> ancestor (dg_up ord' ordt' d) a b -> ancestor (dg_up ord ordt d) a b).
  { intros a b. apply (anc_any tasks d s0); try apply R; apply R'. }
  split; [|split].
  - intros b Kb [e [He T]]. apply in_split in He. destruct He as [h2 [h1 Eh]].
    destruct (L14 _ _ _ _ _ _ _ _ R h2 e h1 b Eh T) as [Pb U]. apply (closed_skipped _ _ _ K L _ _ _ _ _ R' IV' FO' RS); auto.
    intros a A. apply KS. apply (AN a b Pb) in A.
    assert (UP : forall c, In c (dg_up ord ordt d b) -> succeeded h c).
    { intros c Hc. destruct (U c Hc) as [Q|Q]; [left|right]; subst h; apply in_or_app; right; right; exact Q. }
    inversion A as [? Ha|c ? Ac Hc]; subst; [auto|]. apply (anc_succ _ _ _ _ _ _ _ _ R IV FO a c Ac). right. auto.
  - intros b Sb. pose proof (reach_HInv _ _ _ _ _ _ (run_good _ _ _ _ _ _ _ _ R IV) (run_enough _ _ _ _ _ _ _ _ R FO)
      _ (run_fresh _ _ _ _ _ _ _ _ R) h s (pr_reach _ _ _ _ _ _ _ _ R)) as HI.
    assert (Pb : pipe_block tasks b) by apply (run_in _ _ _ _ _ _ _ _ R), (i_S _ _ _ _ _ _ _ _ _ (hi_inv _ _ _ _ _ _ _ _ HI) b Sb).
    apply (closed_skipped _ _ _ K L _ _ _ _ _ R' IV' FO' RS); auto.
    intros a A. apply KS. apply (anc_succ _ _ _ _ _ _ _ _ R IV FO a b (AN a b Pb A)). right. exact Sb.
  - intros b Hb NS. apply (not_done _ _ _ K L _ _ _ _ _ R' IV' FO' RS b AS Hb NS).
Qed.
Print Assumptions C70_resume_partial.

(* Any number of runs, each ended at any moment, newest first; in each the check function recognises exactly the blocks that
   succeeded in an earlier one. *)
Definition done_before (hs : list history) (b : block) : Prop := exists h, In h hs /\ succeeded h b.
Inductive resumed (tasks : list task) (d : dgraph) (s0 : sched) : list history -> Prop :=
| resumed_none : resumed tasks d s0 []
| resumed_run hs ord ordt fuel h s : resumed tasks d s0 hs ->
    pipe_run tasks ord ordt d s0 fuel h s -> inverse tasks ord ordt d -> fuel_ok tasks fuel ->
    respects (done_before hs) (done_before hs) h -> resumed tasks d s0 (h :: hs).

(* Over all runs the body of a block ends well at most once, and not in a run after the one in which it did; if the last run
   ends with everything settled and nothing failed in it, exactly once for every block. *)
Theorem C70_each_block_once_partial : forall tasks d s0 hs, resumed tasks d s0 hs ->
  (forall b, won_total hs b <= 1 /\ (done_before hs b <-> won_total hs b = 1)) /\
  forall ord ordt h rest, hs = h :: rest -> all_settled tasks ord ordt d h -> (forall b, ~ perm_failed (dg_max_retries d) h b) ->
  forall b, pipe_block tasks b -> won_total hs b = 1.
Proof.
  intros tasks d s0 hs RE.
  assert (X : forall b, (won_total hs b = 0 \/ won_total hs b = 1) /\ (done_before hs b <-> won_total hs b = 1)).
  { induction RE as [|hs ord ordt fuel h s RE IH R IV FO RS]; intros b.
    - split; [left; reflexivity|]. split; [intros [h [[] _]]|discriminate].
    - destruct (IH b) as [I1 I2]. cbn [won_total fold_right]. fold (won_total hs b). destruct (run_once _ _ _ _ _ _ _ _ R IV FO b) as [W1 W2].
      pose proof (count_nonneg (fun e => match e with EvRel pb => is_block (pb_block pb) b && status_eqb (pb_status pb) SUCCESS | _ => false end) h) as P. fold (n_won h b) in P.
      assert (Q : done_before hs b -> n_won h b = 0).
      { intros D. destruct (Z.eq_dec (n_won h b) 0); auto. exfalso. assert (0 < n_won h b) by lia.
        pose proof (won_handed _ _ _ _ _ _ _ _ R IV FO b H). rewrite (not_again (done_before hs) (done_before hs) h RS b D) in H0. lia. }
      split; [destruct I1 as [I1|I1]; [lia|]; rewrite (Q (proj2 I2 I1)); lia|]. split.
      + intros [h' [[<-|Hh] S]].
        * destruct S as [S|S].
          -- rewrite (W2 S), Z.add_0_l. apply I2. apply (proj2 RS b S).
          -- apply won_pos in S. assert (n_won h b = 1) by lia. destruct I1 as [I1|I1]; [lia|]. rewrite (Q (proj2 I2 I1)) in H. discriminate H.
        * assert (D : done_before hs b) by (exists h'; auto). rewrite (Q D). apply I2 in D. lia.
      + intros E. destruct I1 as [I1|I1].
        * exists h. split; [left; reflexivity|]. right. apply won_pos. lia.
        * apply I2 in I1. destruct I1 as [h' [Hh S]]. exists h'. split; [right; auto|auto]. }
  split; [intros b; destruct (X b) as [[E|E] Q]; split; auto; lia|].
  intros ord ordt h rest -> AS NF b Hb. apply X. exists h. split; [left; reflexivity|].
  destruct (AS b Hb) as [S|[F|[a [F _]]]]; [exact S| |]; exfalso; eapply NF; eauto.
Qed.
Print Assumptions C70_each_block_once_partial.

(* ---- the runs of the two servers and of run_blockwise ---- *)
Theorem C70_serial : forall tasks ord ordt d fuel chk proc pick n s0 y (K L : block -> Prop),
  (forall h, says K L (chk h)) -> serial_pipe tasks ord ordt d fuel chk proc pick n s0 = Ok y -> respects K L (ss_h y).
Proof.
  intros tasks ord ordt d fuel chk proc pick n s0 y K L SA. unfold serial_pipe, serial_run.
  destruct (serial_loop _ _ _ _ _ _ _ _ _ _) as [x|] eqn:E; [|discriminate]. cbn [bind]. intros H. injection H as <-. cbn [ss_h].
  eapply loop_asks; eauto. apply respects_nil.
Qed.
Theorem C70_server : forall tasks ord ordt d s0 fuel init ins y (K L : block -> Prop),
  Forall (fun i => says K L (i_chk i)) ins -> server_run_to tasks ord ordt d s0 fuel init false ins y -> respects K L (hist (sv_tr y)).
Proof.
  intros tasks ord ordt d s0 fuel init ins y K L F R. pose proof (sr_run _ _ _ _ _ _ _ _ _ _ R) as E. unfold server_pipe in E.
  destruct (server_init _ _ _ _) as [x|] eqn:Ex; [|discriminate]. cbn [bind] in E. eapply event_loop_ok; eauto. eapply init_ok; eauto.
Qed.
Print Assumptions C70_serial.
Print Assumptions C70_server.

(* Two calls of run_blockwise with worker processes; the first one may have ended in any way (its workers may have died,
   raised an exception, the main thread may have been interrupted), the second one returns True. *)
Theorem C70_calls_partial : forall tasks all d s0 (K L : block -> Prop) ord ordt fuel init nw ms y e ps ord' ordt' fuel' init' nw' ms' y' ps',
  call tasks ord ordt all d fuel nw -> run_blockwise tasks ord ordt fuel init nw all d s0 ms (Some y) e ps ->
  call tasks ord' ordt' all d fuel' nw' -> run_blockwise tasks ord' ordt' fuel' init' nw' all d s0 ms' (Some y') (Returned true) ps' ->
  let h := hist (sv_tr (h_sv (tp_h y))) in let h' := hist (sv_tr (h_sv (tp_h y'))) in
  (forall b, succeeded h b -> K b) -> (forall m, In (TMove m) ms' -> asked K L m) -> apart_failures all ord' ordt' d h' ->
  (forall b, K b -> n_handed h' b = 0) /\ (forall b, K b -> begun h b -> skipped h' b) /\ (forall b, succeeded h b -> skipped h' b) /\
  forall b, pipe_block tasks b -> ~ succeeded h' b -> exists a, ~ K a /\ perm_failed (dg_max_retries d) h' a /\ anc_eq (dg_up ord' ordt' d) a b.
Proof.
  intros tasks all d s0 K L ord ordt fuel init nw ms y e ps ord' ordt' fuel' init' nw' ms' y' ps' CA RB CA' RB' h h' KS AS AP.
  destruct (C66_value_partial _ _ _ _ _ _ _ _ _ _ _ _ _ CA' RB' AP) as [V _]. specialize (V eq_refl). fold h' in V.
  inversion RB as [|k h0 ? ? ? ? Ec Es Ei R E]; subst. inversion RB' as [|k' h0' ? ? ? ? Ec' Es' Ei' R' E']; subst.
  pose proof (ca_setup _ _ _ _ _ _ _ _ _ _ _ CA Ec Es Ei) as SE. pose proof (truns_quiet _ _ _ _ _ _ _ _ _ _ R) as Q. cbn [tp_h] in Q.
  pose proof (ca_setup _ _ _ _ _ _ _ _ _ _ _ CA' Ec' Es' Ei') as SE'. pose proof (truns_quiet _ _ _ _ _ _ _ _ _ _ R') as Q'. cbn [tp_h] in Q'.
  destruct (C65_server _ _ _ _ _ _ _ _ _ _ _ _ SE Q) as [S _]. pose proof (a_pipe _ _ _ _ _ _ _ _ _ _ S) as P.
  destruct (C65_server _ _ _ _ _ _ _ _ _ _ _ _ SE' Q') as [S' _]. pose proof (a_pipe _ _ _ _ _ _ _ _ _ _ S') as P'.
  assert (RS : respects K L h').
  { apply (aruns_ok _ _ _ _ _ K L _ _ _ _ _ Q').
    - intros m Hm. apply AS. unfold amoves in Hm. apply in_flat_map in Hm. destruct Hm as [x [Hx Hm]]. destruct x; [destruct Hm as [<-|[]]; exact Hx|destruct Hm].
    - pose proof (se_start _ _ _ _ _ _ _ _ _ _ SE') as W. unfold whole_init in W.
      destruct (server_init quiet (map t_id all) false s0) as [sv|] eqn:Es2; [|discriminate]. cbn [bind] in W.
      destruct (on_all _ _ _ _ _ _) as [[p f]|]; [|discriminate]. cbn in W. injection W as <-. cbn [h_sv]. eapply init_ok; eauto. }
  destruct (C70_resume_partial all d s0 K L _ _ _ _ _ _ _ _ _ _ P (ca_inverse _ _ _ _ _ _ _ CA) (ca_fuel _ _ _ _ _ _ _ CA) P' (ca_fuel _ _ _ _ _ _ _ CA') KS RS) as [A B].
  destruct (ca_all _ _ _ _ _ _ _ _ _ CA' Ec' Es') as [_ [X _]].
  destruct B as [B1 [B2 B3]]; [intros b Hb; apply V, X, Hb|]. split; auto. split; auto. split; auto. intros b Hb. apply B3, X, Hb.
Qed.
Print Assumptions C70_calls_partial.

(* C70 fails for the serial server: if all blocks of the tasks that require nothing are recognised, it hands out no block at
   all and returns, whatever is left to do (see C28_all_skipped_refuted). *)
Theorem C70_serial_stops_refuted : forall tasks ord ordt d s0 fuel chk proc pick n,
  pipe_ok tasks -> is_order ord -> is_order ordt -> sched_init tasks = Ok (d, s0) -> inverse tasks ord ordt d -> fuel_ok tasks fuel ->
  (forall t g b h k, in_pipe tasks t -> t_ups t = [] -> task_graph t = Ok g -> generated g b -> chk h k b = CheckTrue) ->
  exists y, serial_pipe tasks ord ordt d fuel chk proc pick (S n) s0 = Ok y /\ forall t pb, ~ In (EvHand t pb) (ss_h y).
Proof.
  intros tasks ord ordt d s0 fuel chk proc pick n PO HO HOt E0 IV FO CK.
  assert (R0 : pipe_run tasks ord ordt d s0 fuel [] s0) by (constructor; auto; constructor).
  assert (FB : forall ts h s, (forall t, In t ts -> exists x, in_pipe tasks x /\ t_id x = t /\ t_ups x = []) ->
    pipe_run tasks ord ordt d s0 fuel h s -> (forall t pb, ~ In (EvHand t pb) h) ->
    exists s1 h1, first_block (dg_up ord ordt d) (dg_down ord ordt d) (dg_max_retries d) fuel chk ts h s = Ok (s1, None, h1) /\ forall t pb, ~ In (EvHand t pb) h1).
  { induction ts as [|t ts IH]; intros h s Hts R NH; cbn [first_block]; [eauto|].
    destruct (C24_no_exception_partial _ _ _ _ _ _ _ _ R IV FO) as [AT _]. destruct (AT t (chk h)) as [s1 [r [sk Ea]]]. rewrite Ea. cbn [bind].
    assert (R1 : pipe_run tasks ord ordt d s0 fuel (match r with Some pb => EvHand t pb | None => EvNone t end :: rev (map EvSkip sk) ++ h) s1).
    { destruct R. constructor; auto. eapply reach_acquire; eauto. }
    destruct r as [pb|].
    - exfalso. destruct (Hts t (or_introl eq_refl)) as [x [Px [Ex Ux]]].
      pose proof (ok_at _ _ _ _ _ _ (run_good _ _ _ _ _ _ _ _ R1 IV) (run_enough _ _ _ _ _ _ _ _ R1 FO) _ (run_fresh _ _ _ _ _ _ _ _ R1) _ _ (pr_reach _ _ _ _ _ _ _ _ R1) [] _ _ eq_refl) as O.
      cbn in O. destruct O as [Vb [Tb _]]. apply (run_in _ _ _ _ _ _ _ _ R1) in Vb. destruct Vb as [x' [g [Px' [Eg Gb]]]].
      pose proof (gen_id tasks PO x' g _ Px' Eg Gb) as Ti. assert (x' = x) by (apply (po_ids _ PO); auto; congruence). subst x'.
      destruct (C25_skip_iff_check_true _ _ _ _ _ _ _ _ _ _ Ea) as [_ C]. apply (C pb eq_refl). eapply CK; eauto.
    - apply IH; auto; [intros u Hu; apply Hts; right; exact Hu|]. intros u pb [H|H]; [discriminate|]. apply in_app_or in H. destruct H as [H|H]; [|eapply NH; eauto].
      apply in_rev, in_map_iff in H. destruct H as [c [H _]]. discriminate. }
  assert (RT : forall t, In t (get_ready_tasks s0) -> exists x, in_pipe tasks x /\ t_id x = t /\ t_ups x = []).
  { intros t Ht. unfold get_ready_tasks in Ht. apply filter_In in Ht. destruct Ht as [_ Ht]. apply Z.ltb_lt in Ht.
    rewrite (fr_nready _ _ _ (run_fresh _ _ _ _ _ _ _ _ R0)) in Ht. destruct (root_seeds d t) as [|b l] eqn:Es; [cbn in Ht; lia|].
    destruct (pipe_fresh tasks d s0 PO E0) as [RM [DK _]].
    destruct (seeds_info tasks PO d DK RM t b) as [x [g [rs [Px [Ex [Ux _]]]]]]; [rewrite Es; left; reflexivity|]. eauto. }
  destruct (FB (get_ready_tasks s0) [] s0 RT R0) as [s1 [h1 [Ef NH]]]; [intros ? ? []|].
  unfold serial_pipe, serial_run. cbn [serial_loop serial_init ss_s ss_h ss_finished].
  destruct (set_eqb [] (map t_id tasks)); cbn [bind]; [eexists; split; [reflexivity|]; intros ? ? []|].
  rewrite Ef. cbn [bind]. eexists. split; [reflexivity|]. exact NH.
Qed.
Print Assumptions C70_serial_stops_refuted.

(* ---- a pipeline run twice ---- *)
Lemma run_ce2 tasks fuel cs1 cs2 (P : dgraph -> history -> history -> bool) : pipe_ok tasks ->
  match run_of tasks fuel cs1, run_of tasks fuel cs2 with Ok (d, _, h1, _), Ok (_, _, h2, _) => P d h1 h2 | _, _ => false end = true ->
  exists d s0 h1 s1 h2 s2, pipe_run tasks idl idl d s0 fuel h1 s1 /\ pipe_run tasks idl idl d s0 fuel h2 s2 /\ P d h1 h2 = true.
Proof.
  intros PO. unfold run_of. destruct (sched_init tasks) as [[d s0]|] eqn:E; [|discriminate]. cbn [bind].
  destruct (exec _ _ _ _ cs1 _) as [[h1 s1]|] eqn:E1; [|discriminate]. cbn [bind].
  destruct (exec _ _ _ _ cs2 _) as [[h2 s2]|] eqn:E2; [|discriminate]. cbn [bind]. intros H.
  exists d, s0, h1, s1, h2, s2.
  split; [constructor; auto using idl_order; eapply exec_reach; eauto|]. split; auto. constructor; auto using idl_order; eapply exec_reach; eauto.
Qed.
Definition respects_b (h1 h2 : history) : bool :=
  forallb (fun e => match e with EvHand _ pb => negb (succ_b h1 (pb_block pb)) | EvSkip b => succ_b h1 b | _ => true end) h2.
Lemma respects_b_ok h1 h2 : respects_b h1 h2 = true -> respects (done_before [h1]) (done_before [h1]) h2.
Proof.
  intros E. unfold respects_b in E. rewrite forallb_forall in E. split.
  - intros t pb H [h [[<-|[]] S]]. apply E in H. apply succ_b_true in S. rewrite S in H. discriminate.
  - intros b H. apply E in H. exists h1. split; [left; auto|]. apply succ_b_true, H.
Qed.
(* The first run is interrupted: 8 of 12 blocks of the first task and 2 of 10 of the second are done, one failed.  The second
   run skips these 10 blocks and completes the rest. *)
Definition far_run1 : list SchedExec.call :=
  P_SchedCE.acq 1 12 ++ P_SchedCE.rel 1 SUCCESS [0; 1; 2; 3; 4; 5; 6; 7] ++ P_SchedCE.rel 1 FAILED [8] ++ P_SchedCE.acq 2 2 ++ P_SchedCE.rel 2 SUCCESS [1; 2].
Definition far_known : nat -> block -> check_result :=
  fun _ b => if (b_task b =? 1)%nat then (if b_num b <? 8 then CheckTrue else CheckFalse) else (if b_num b <? 3 then CheckTrue else CheckFalse).
Definition far_run2 : list SchedExec.call :=
  map (fun _ => Acq 1 far_known) (seq 0 4) ++ P_SchedCE.rel 1 SUCCESS [8; 9; 10; 11] ++ map (fun _ => Acq 2 far_known) (seq 0 8) ++
  P_SchedCE.rel 2 SUCCESS [3; 4; 5; 6; 7; 8; 9; 10].
Example C70_example : exists d s0 h1 h2 b0 b1 b2, resumed [far_d] d s0 [h2; h1] /\
  all_settled [far_d] idl idl d h2 /\ (forall b, ~ perm_failed (dg_max_retries d) h2 b) /\
  succeeded h1 b0 /\ b_task b0 = 2%nat /\ n_failed h1 b1 = 1 /\ n_handed h1 b2 = 0 /\ b_task b2 = 2%nat /\
  skipped h2 b0 /\ won_total [h2; h1] b0 = 1 /\ won_total [h2; h1] b1 = 1 /\ won_total [h2; h1] b2 = 1 /\ hands h1 = 14 /\ hands h2 = 12.
Proof.
  destruct (run_ce2 [far_d] 1000 far_run1 far_run2
    (fun d h1 h2 => Nat.leb (length (pblocks d) * (length (pblocks d) + 1) + length (pblocks d) + 1) 1000 && (hands h1 =? 14) && (hands h2 =? 12) &&
      respects_b h1 h2 && forallb (fun e => match e with EvSkip _ => false | _ => true end) h1 && forallb (succ_b h2) (pblocks d) && match failed_in h2 with [] => true | _ => false end &&
      with_id d (2%nat, 2) (fun b => succ_b h1 b) && with_id d (1%nat, 8) (fun b => n_failed h1 b =? 1) &&
      with_id d (2%nat, 7) (fun b => n_handed h1 b =? 0)) far_ok) as [d [s0 [h1 [s1 [h2 [s2 [R1 [R2 X]]]]]]]].
  { vm_compute. reflexivity. }
  repeat match goal with H : _ && _ = true |- _ => apply andb_prop in H; destruct H end.
  repeat match goal with H : (_ =? _) = true |- _ => apply Z.eqb_eq in H end.
  match goal with H : with_id d (2%nat, 2) _ = true |- _ => apply with_id_ok in H; destruct H as [b0 [V0 [E0 P0]]] end.
  match goal with H : with_id d (1%nat, 8) _ = true |- _ => apply with_id_ok in H; destruct H as [b1 [V1 [E1 P1]]] end.
  match goal with H : with_id d (2%nat, 7) _ = true |- _ => apply with_id_ok in H; destruct H as [b2 [V2 [E2 P2]]] end.
  apply succ_b_true in P0. apply Z.eqb_eq in P1, P2.
  pose proof (run_in _ _ _ _ _ _ _ _ R1) as RI. pose proof (run_dual _ _ _ _ _ _ _ _ R1 far_edges) as IV.
  assert (FO : fuel_ok [far_d] 1000).
  { intros l N Hl. match goal with H : Nat.leb _ 1000 = true |- _ => apply Nat.leb_le in H end.
    assert (length l <= length (pblocks d))%nat by (apply NoDup_incl_length; auto; intros y Hy; apply RI; auto).
    unfold enough. nia. }
  assert (RR : resumed [far_d] d s0 [h2; h1]).
  { eapply resumed_run; eauto; [|apply respects_b_ok; auto]. eapply resumed_run; eauto using resumed_none. 
    split; [intros t pb _ [h [[] _]]|]. intros b Hb. exfalso.
    match goal with H : forallb _ h1 = true |- _ => rewrite forallb_forall in H; apply H in Hb; discriminate end. }
  assert (ST : forall b, pipe_block [far_d] b -> succeeded h2 b).
  { intros b Hb. apply RI in Hb. match goal with H : forallb (succ_b h2) _ = true |- _ => rewrite forallb_forall in H; apply H in Hb end.
    apply succ_b_true, Hb. }
  assert (AS : all_settled [far_d] idl idl d h2) by (intros b Hb; left; apply ST, Hb).
  assert (NP : forall b, ~ perm_failed (dg_max_retries d) h2 b).
  { intros b Pb. apply failed_in_ok in Pb. destruct (failed_in h2); [destruct Pb|discriminate]. }
  destruct (C70_each_block_once_partial _ _ _ _ RR) as [_ O]. specialize (O idl idl h2 [h1] eq_refl AS NP).
  exists d, s0, h1, h2, b0, b1, b2. split; auto. split; auto. split; auto. split; auto. split; [unfold bid in E0; congruence|].
  split; auto. split; auto. split; [unfold bid in E2; congruence|]. split; [|repeat split; auto; apply O, RI; auto].
  destruct (C70_resume_partial [far_d] d s0 (done_before [h1]) (done_before [h1]) idl idl 1000 h1 s1 idl idl 1000 h2 s2 R1 IV FO R2 FO) as [_ X].
  - intros b Hb. exists h1. split; [left|]; auto.
  - apply respects_b_ok. auto.
  - apply X; auto.
Qed.
Print Assumptions C70_example.

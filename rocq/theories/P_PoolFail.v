(* Workers that fail too often (C63), for the pools alone. *)
From Coq Require Import Arith Lia.
From Verif Require PipeFacts.
From Verif Require Import Pool P_Pool PoolAll.
Open Scope Z_scope.

(* how often the pools were told that worker [w] of task [t] failed a block *)
Definition reports (t w : nat) (es : list pevent) : Z :=
  Z.of_nat (length (filter (fun e => match e with PFailure t' w' => Nat.eqb t' t && Nat.eqb w' w | _ => false end) es)).
(* [es]: what happened since the pools were created, oldest first; only workers that were started
   report *)
Inductive told nw mbf (tasks : list nat) (s0 : sys) : list pevent -> pools -> Prop :=
| to_init : told nw mbf tasks s0 [] (pools_init tasks s0)
| to_step es x e : told nw mbf tasks s0 es x ->
    match e with PFailure _ w => (w < nxt (ps_sys x))%nat | _ => True end ->
    told nw mbf tasks s0 (es ++ [e]) (fst (pstep nw mbf e x)).
(* processes of an earlier run may be in the table, but do not run *)
Definition no_one_runs (s : sys) : Prop := full s /\ forall i t, tbl s i <> Some (t, Running).

Lemma is_exit e : (exists w c, e = PExit w c) \/ forall w c, e <> PExit w c.
Proof. destruct e; try (right; discriminate). left. eauto. Qed.
Lemma reports_snoc t w es e : reports t w (es ++ [e]) = reports t w es + reports t w [e].
Proof. unfold reports. rewrite filter_app, app_length. lia. Qed.
Lemma reports_one t w e : reports t w [e] = 0 \/ (reports t w [e] = 1 /\ e = PFailure t w).
Proof.
  unfold reports. cbn [filter]. destruct e as [| | |t' w'| |]; auto. destruct (Nat.eqb_spec t' t) as [->|]; auto.
  destruct (Nat.eqb_spec w' w) as [->|]; auto.
Qed.
(* what each does to one process *)
Lemma each_stays f (P : nat -> Prop) w u : forall l s s' l',
  (forall t p s1 s1' p', In (t, p) l -> full s1 -> members s1 t p -> f t (s1, p) = (s1', p') -> chg P s1 s1' /\ members s1' t p') ->
  full s -> (forall t p, In (t, p) l -> members s t p) -> each f s l = (s', l') ->
  (forall t p s1 s1' p', In (t, p) l -> full s1 -> members s1 t p -> f t (s1, p) = (s1', p') -> tbl s1 w = Some (u, Running) -> tbl s1' w = Some (u, Running)) ->
  tbl s w = Some (u, Running) -> tbl s' w = Some (u, Running).
Proof.
  induction l as [|[t p] l IH]; intros s s' l' Hf F M; cbn [each].
  - intros H. injection H as <- <-. auto.
  - destruct (f t (s, p)) as [s1 p1] eqn:E1. destruct (each f s1 l) as [s2 l2] eqn:E2. intros H K Hr. injection H as <- <-.
    destruct (Hf t p s s1 p1 (or_introl eq_refl) F (M t p (or_introl eq_refl)) E1) as [C1 M1].
    pose proof (K t p s s1 p1 (or_introl eq_refl) F (M t p (or_introl eq_refl)) E1 Hr) as Hr1.
    refine (IH s1 s2 l2 _ _ _ E2 _ Hr1).
    + intros u' q s3 s3' p' Hq. apply Hf. right. exact Hq.
    + apply C1, F.
    + intros u' q Hq. eapply chg_members; [exact C1|]. apply M. right. exact Hq.
    + intros u' q s3 s3' p' Hq. apply K. right. exact Hq.
Qed.
Lemma stops_stay t w y l : forall s p s' p', (forall v, In v l -> w <> w_id v) ->
  fold_left (fun '(s, p) v => (stop_worker t s v, del_worker p (w_id v))) l (s, p) = (s', p') -> tbl s w = y -> tbl s' w = y.
Proof.
  induction l as [|v l IH]; intros s p s' p' N; cbn [fold_left].
  - intros H. injection H as <- _. auto.
  - intros H Hy. eapply IH; [|exact H|]; [intros a Ha; apply N; right; exact Ha|].
    destruct (stop_worker_tbl t s v w) as [A|[A _]]; [congruence|]. destruct (N v (or_introl eq_refl)). exact A.
Qed.
Lemma each_ends f (P : nat -> Prop) w t p : forall l s s' l',
  (forall t p s1 s1' p', In (t, p) l -> full s1 -> members s1 t p -> f t (s1, p) = (s1', p') -> chg P s1 s1' /\ members s1' t p') ->
  full s -> (forall t p, In (t, p) l -> members s t p) -> each f s l = (s', l') -> In (t, p) l ->
  (forall s1 s1' p', full s1 -> members s1 t p -> f t (s1, p) = (s1', p') -> exists c, tbl s1' w = Some (t, Exited c)) ->
  exists c, tbl s' w = Some (t, Exited c).
Proof.
  induction l as [|[u q] l IH]; intros s s' l' Hf F M; cbn [each]; [intros _ []|].
  destruct (f u (s, q)) as [s1 p1] eqn:E1. destruct (each f s1 l) as [s2 l2] eqn:E2. intros H Hp K. injection H as <- <-.
  destruct (Hf u q s s1 p1 (or_introl eq_refl) F (M u q (or_introl eq_refl)) E1) as [C1 M1].
  assert (Hf' : forall t p s1 s1' p', In (t, p) l -> full s1 -> members s1 t p -> f t (s1, p) = (s1', p') -> chg P s1 s1' /\ members s1' t p').
  { intros v r s3 s3' p' Hq. apply Hf. right. exact Hq. }
  assert (F1 : full s1) by (apply C1, F).
  assert (M1' : forall t p, In (t, p) l -> members s1 t p).
  { intros v r Hq. eapply chg_members; [exact C1|]. apply M. right. exact Hq. }
  destruct Hp as [Hp|Hp]; [|eapply (IH s1); eauto]. injection Hp as -> ->.
  destruct (K s s1 p1 F (M t p (or_introl eq_refl)) E1) as [c Hc]. exists c.
  destruct (each_chg f P _ _ _ _ Hf' F1 M1' E2) as [C2 _]. destruct (c_old _ _ _ C2 _ _ _ Hc) as [H|[H _]]; [exact H|discriminate].
Qed.

Section Fail.
  Variable nw : nat -> Z.
  Variable mbf : Z.
  Variable tasks : list nat.
  Variable s0 : sys.
  Hypothesis NN : forall t, 0 <= nw t.
  Hypothesis NT : NoDup tasks.
  Hypothesis CS : no_one_runs s0.
  Hypothesis MB : 0 <= mbf.
  Local Notation told := (told nw mbf tasks s0).
  Local Notation step e x := (fst (pstep nw mbf e x)).

  Lemma told_sound es x : told es x -> sound x /\ map fst (ps_pools x) = tasks.
  Proof.
    induction 1 as [|es x e R [S K] _].
    - split; [|cbn; rewrite map_map; apply map_id]. split; [apply CS|]. intros t p Hp. cbn in Hp. apply in_map_iff in Hp. destruct Hp as [u [Hp _]].
      injection Hp as -> <-. intros w [].
    - destruct (is_exit e) as [[w [c ->]]|N].
      + destruct (exit_sound nw mbf w c x S) as [S' [_ K']]. split; [exact S'|congruence].
      + destruct (pstep_chg nw mbf e x S N) as [_ [S' K']]. split; [exact S'|congruence].
  Qed.
  Lemma told_GI es x : told es x -> exists k, GI nw tasks k x.
  Proof.
    intros R. assert (X : exists k, reached nw mbf tasks s0 k x).
    { induction R as [|es x e R [k IH] _]; [exists 0; constructor|].
      destruct (steps_reached nw mbf tasks s0 [e] k x IH) as [k' H]. exists k'. exact H. }
    destruct X as [k X]. exists k. eapply reached_GI; eauto. destruct CS as [A B]. split; auto. intros i Hi. apply A. exact Hi.
  Qed.
  (* which moves end the process of worker w *)
  Lemma failure_ends es x t w : told es x -> tbl (ps_sys x) w = Some (t, Running) -> mbf < ps_fc x t w + 1 ->
    exists c, tbl (ps_sys (step (PFailure t w) x)) w = Some (t, Exited c).
  Proof.
    intros R H L. destruct (told_sound _ _ R) as [[F M] K]. destruct (told_GI _ _ R) as [k G].
    assert (Ht : In t tasks) by (eapply (gi_all _ _ _ _ G); eauto).
    rewrite <- K in Ht. apply in_map_iff in Ht. destruct Ht as [[t' p] [E Hp]]. cbn in E. subst t'.
    pose proof (gi_pi _ _ _ _ G t p Hp) as Pi. pose proof (pi_run _ _ _ Pi w H) as Hw.
    cbn [pstep]. unfold on_block_failure. rewrite (proj2 (Z.ltb_lt _ _) L).
    assert (X : existsb (fun tp => Nat.eqb (fst tp) t) (ps_pools x) = true) by (apply existsb_exists; exists (t, p); cbn; rewrite Nat.eqb_refl; auto).
    rewrite X. cbn [fst]. unfold on_pools. cbn [ps_sys ps_pools]. destruct (each _ _ _) as [s' l'] eqn:E. cbn [ps_sys].
    eapply (each_ends _ (eq t) w t p); [| | |exact E|exact Hp|]; auto.
    - intros u q s1 s1' p' _ F1 M1. cbv beta. destruct (Nat.eqb_spec u t) as [->|Nu]; [|intros Hq; injection Hq as <- <-; split; [apply chg_refl|auto]].
      destruct (pool_stop t (Some w) (s1, q)) as [s2 p2] eqn:E2. apply pool_stop_chg in E2; auto. destruct E2 as [C2 M2].
      unfold inc_num_workers. intros Hq. apply start_chg in Hq; auto; [|apply C2, F1]. destruct Hq as [C3 [M3 _]]. split; auto.
      eapply chg_trans; [eapply chg_weaken; [|exact C2]|exact C3]. intros v [].
    - intros s1 s1' p' F1 M1. cbv beta. rewrite Nat.eqb_refl. destruct (pool_stop t (Some w) (s1, p)) as [s2 p2] eqn:E2.
      unfold inc_num_workers. intros Hq. pose proof (pool_stop_chg t w s1 p s2 p2 F1 M1 E2) as [C2 M2].
      apply start_chg in Hq; auto; [|apply C2, F1]. destruct Hq as [C3 [_ [O _]]].
      cbn [pool_stop] in E2. destruct (find (fun w0 => Nat.eqb (w_id w0) w) p) as [v|] eqn:Ef.
      2:{ exfalso. pose proof (find_none _ _ Ef _ Hw) as N. cbn in N. rewrite Nat.eqb_refl in N. discriminate. }
      apply find_some in Ef. destruct Ef as [Hv Ev]. apply Nat.eqb_eq in Ev.
      assert (v = Worker w true).
      { assert (N : NoDup (map w_id p)) by (apply sorted_nodup, Pi). clear - N Hv Hw Ev. induction p as [|a p IH]; [destruct Hv|].
        cbn in N. apply NoDup_cons_iff in N. destruct N as [N1 N2].
        destruct Hv as [->|Hv], Hw as [Hw|Hw]; auto.
        - exfalso. apply N1. apply (in_map w_id) in Hw. cbn in Hw. rewrite Ev. exact Hw.
        - exfalso. apply N1. apply (in_map w_id) in Hv. rewrite Hw. cbn. rewrite <- Ev. exact Hv. }
      subst v. injection E2 as <- <-. destruct (M1 _ Hw) as [y Hy]. cbn [w_id] in Hy.
      unfold stop_worker in O. cbn [w_proc w_id] in O. rewrite Hy in O. destruct y as [|c].
      + exists (-15). apply O. unfold set_proc. cbn [tbl]. rewrite Nat.eqb_refl. reflexivity.
      + exists c. apply O. exact Hy.
  Qed.
  Definition counts (es : list pevent) (x : pools) : Prop := forall w,
    (forall t, tbl (ps_sys x) w = Some (t, Running) -> ps_fc x t w = reports t w es /\ reports t w es <= mbf) /\
    (tbl (ps_sys x) w = None -> forall t, ps_fc x t w = 0 /\ reports t w es = 0).
  Lemma fc_same e x : (forall t w, e <> PFailure t w) -> ps_fc (step e x) = ps_fc x.
  Proof.
    intros N. destruct e as [ts| | |t w|w c|t e]; try reflexivity.
    - cbn [pstep fst]. unfold recruit_workers, on_pools. destruct (each _ _ _). reflexivity.
    - cbn [pstep fst]. unfold pools_stop, on_pools. destruct (each _ _ _). reflexivity.
    - cbn [pstep]. unfold check_worker_health. destruct (health _ _ _) as [[[? ?] ?] ?]. reflexivity.
    - exfalso. eapply N. reflexivity.
  Qed.
  Lemma fc_failure t w x : ps_fc (step (PFailure t w) x) = set_fc (ps_fc x) t w (if mbf <? ps_fc x t w + 1 then 0 else ps_fc x t w + 1).
  Proof.
    cbn [pstep]. unfold on_block_failure. destruct (mbf <? _); [|reflexivity]. destruct (existsb _ _); [|reflexivity].
    cbn [fst]. unfold on_pools. destruct (each _ _ _). reflexivity.
  Qed.
  Lemma step_before e x w t : sound x -> tbl (ps_sys (step e x)) w = Some (t, Running) ->
    tbl (ps_sys x) w = Some (t, Running) \/ tbl (ps_sys x) w = None.
  Proof.
    intros S H. destruct (tbl (ps_sys x) w) as [[u y]|] eqn:E; auto. left.
    destruct (is_exit e) as [[w' [c ->]]|N]; [|destruct (pstep_chg nw mbf e x S N) as [C _]; destruct (c_old _ _ _ C _ _ _ E) as [A|[_ A]]; congruence].
    destruct (exit_sound nw mbf w' c x S) as [_ [T _]]. rewrite T, E in H. destruct y; [destruct (Nat.eqb _ _); [discriminate|]|]; congruence.
  Qed.
  Lemma step_none e x w : sound x -> tbl (ps_sys (step e x)) w = None -> tbl (ps_sys x) w = None.
  Proof.
    intros S H. destruct (tbl (ps_sys x) w) as [[u y]|] eqn:E; auto. exfalso.
    destruct (is_exit e) as [[w' [c ->]]|N]; [|destruct (pstep_chg nw mbf e x S N) as [C _]; destruct (c_old _ _ _ C _ _ _ E) as [A|[_ A]]; congruence].
    destruct (exit_sound nw mbf w' c x S) as [_ [T _]]. rewrite T, E in H. destruct y; [destruct (Nat.eqb _ _)|]; discriminate.
  Qed.
  Lemma told_counts es x : told es x -> counts es x.
  Proof.
    induction 1 as [|es x e R IH Ok].
    - intros w. split; [intros t H; destruct (proj2 CS _ _ H)|]. intros _ t. split; reflexivity.
    - destruct (told_sound _ _ R) as [S K]. intros w. 
      assert (D : (exists t w', e = PFailure t w') \/ forall t w', e <> PFailure t w') by (destruct e; [right|right|right|left; eauto|right|right]; discriminate).
      destruct D as [[t1 [w1 ->]]|N].
      + split.
        * intros t H. rewrite fc_failure, reports_snoc. destruct (step_before _ _ _ _ S H) as [H1|H1].
          -- destruct (proj1 (IH w) t H1) as [A B]. destruct (reports_one t w (PFailure t1 w1)) as [Z|[Z Q]].
             ++ rewrite Z. unfold set_fc. destruct (Nat.eqb_spec t1 t) as [->|]; cbn [andb]; [|lia]. destruct (Nat.eqb_spec w1 w) as [->|]; [|lia].
                unfold reports in Z. cbn in Z. rewrite !Nat.eqb_refl in Z. discriminate.
             ++ injection Q as -> ->. rewrite Z. unfold set_fc. rewrite !Nat.eqb_refl. cbn [andb].
                destruct (mbf <? ps_fc x t w + 1) eqn:Lm; [|apply Z.ltb_ge in Lm; lia]. apply Z.ltb_lt in Lm.
                destruct (failure_ends _ _ _ _ R H1 Lm) as [c Hc]. rewrite Hc in H. discriminate.
          -- destruct (proj2 (IH w) H1 t) as [A B]. assert (Nw : w1 <> w) by (intros ->; apply S in H1; cbn in Ok; lia).
             destruct (reports_one t w (PFailure t1 w1)) as [Z|[Z Q]]; [|congruence]. rewrite Z. unfold set_fc.
             rewrite (proj2 (Nat.eqb_neq w1 w) Nw), Bool.andb_false_r. lia.
        * intros H t. rewrite fc_failure, reports_snoc. apply step_none in H; auto. destruct (proj2 (IH w) H t) as [A B].
          assert (Nw : w1 <> w) by (intros ->; apply S in H; cbn in Ok; lia).
          destruct (reports_one t w (PFailure t1 w1)) as [Z|[Z Q]]; [|congruence]. rewrite Z. unfold set_fc.
          rewrite (proj2 (Nat.eqb_neq w1 w) Nw), Bool.andb_false_r. lia.
      + rewrite fc_same by auto. split.
        * intros t H. rewrite reports_snoc. destruct (reports_one t w e) as [Z|[_ Q]]; [|destruct (N _ _ Q)]. rewrite Z.
          destruct (step_before _ _ _ _ S H) as [H1|H1]; [destruct (proj1 (IH w) t H1); lia|destruct (proj2 (IH w) H1 t); lia].
        * intros H t. rewrite reports_snoc. destruct (reports_one t w e) as [Z|[_ Q]]; [|destruct (N _ _ Q)]. rewrite Z.
          apply step_none in H; auto. destruct (proj2 (IH w) H t); lia.
  Qed.
  (* who is killed, and why *)
  Lemma killed_why es x e w t c : told es x -> tbl (ps_sys x) w = Some (t, Running) -> tbl (ps_sys (step e x)) w = Some (t, Exited c) ->
    e = PExit w c \/ e = PStop \/ (exists ts p, e = PRecruit ts /\ In t ts /\ In (t, p) (ps_pools x) /\ nw t < Z.of_nat (length p)) \/
    (e = PFailure t w /\ reports t w (es ++ [e]) = mbf + 1).
  Proof.
    intros R H H'. destruct (told_sound _ _ R) as [S K]. pose proof S as [F M]. destruct (told_counts _ _ R w) as [C _]. destruct (C t H) as [C1 C2].
    destruct e as [ts| | |t1 w1|w1 c1|t1 e1]; auto.
    - right. right. left. destruct (existsb (fun tp => Nat.eqb (fst tp) t && mem Nat.eqb t ts && (nw t <? Z.of_nat (length (snd tp)))) (ps_pools x)) eqn:X.
      + apply existsb_exists in X. destruct X as [[u p] [Hp X]]. cbn in X. apply andb_prop in X. destruct X as [X X3]. apply andb_prop in X. destruct X as [X1 X2].
        apply Nat.eqb_eq in X1. subst u. apply Z.ltb_lt in X3. exists ts, p. apply PipeFacts.mem_nat in X2. auto.
      + exfalso. cbn [pstep fst] in H'. unfold recruit_workers, on_pools in H'. destruct (each _ _ _) as [s' l'] eqn:E. cbn [ps_sys] in H'.
        assert (Q : exists y, tbl s' w = Some (t, y) /\ y = Running); [|destruct Q as [y [Q ->]]; congruence]. exists Running. split; auto.
        eapply (each_stays _ (fun _ => True) w t); [| | |exact E| |exact H]; auto.
        * intros u p s1 s1' p' _ F1 M1. cbv beta. destruct (mem Nat.eqb u ts); intros Hq.
          -- apply set_chg in Hq; auto. destruct Hq as [Q1 Q2]. split; auto. eapply chg_weaken; [|exact Q1]. auto.
          -- injection Hq as <- <-. split; [apply chg_refl|auto].
        * intros u p s1 s1' p' Hp F1 M1. cbv beta. destruct (mem Nat.eqb u ts) eqn:Eu; [|intros Hq; injection Hq as <- _; auto].
          unfold set_num_workers. cbn [snd]. destruct (0 <? _).
          -- intros Hq. pose proof (start_chg _ _ _ _ _ _ F1 M1 Hq) as [_ [_ [O _]]]. auto.
          -- destruct (_ <? 0) eqn:L; [|intros Hq; injection Hq as <- _; auto]. unfold stop_workers. intros Hq Hr.
             refine (stops_stay _ w _ _ _ _ _ _ _ Hq Hr).
             ++ intros v Hv. assert (Hv' : In v p) by (rewrite <- (firstn_skipn (length p - Z.to_nat (- (nw u - Z.of_nat (length p)))) p); apply in_or_app; auto).
                intros ->. destruct (M1 v Hv') as [y Hy]. rewrite Hr in Hy. injection Hy as <- _.
                apply Bool.not_true_iff_false in X. apply X. apply existsb_exists. exists (t, p). split; auto. cbn. rewrite Nat.eqb_refl, Eu. cbn [andb].
                apply Z.ltb_lt. apply Z.ltb_lt in L. lia.
    - cbn [pstep] in H'. unfold check_worker_health in H'. destruct (health _ _ _) as [[[s err] l] e] eqn:E. cbn [fst ps_sys] in H'.
      destruct (health_chg _ _ _ _ _ _ _ F M E) as [_ [_ [_ [_ O]]]]. rewrite (O _ _ H) in H'. discriminate.
    - right. right. right. cbn [pstep] in H'. unfold on_block_failure in H'. destruct (mbf <? ps_fc x t1 w1 + 1) eqn:L; [|cbn in H'; congruence].
      destruct (existsb _ _); [|cbn in H'; congruence]. cbn [fst] in H'. unfold on_pools in H'. cbn [ps_sys ps_pools] in H'.
      destruct (each _ _ _) as [s' l'] eqn:E. cbn [ps_sys] in H'. apply Z.ltb_lt in L.
      assert (Q : t1 = t /\ w1 = w).
      { destruct (Nat.eq_dec t1 t) as [->|Nt]; [destruct (Nat.eq_dec w1 w) as [->|Nw]; auto|]; exfalso.
        1: assert (Hs : forall p, In (t, p) (ps_pools x) -> forall s1 s2 p2, pool_stop t (Some w1) (s1, p) = (s2, p2) -> tbl s2 w = tbl s1 w).
        1:{ intros p _ s1 s2 p2 E2. cbn [pool_stop] in E2. destruct (find _ p) as [v|] eqn:Ef; [|injection E2 as <- _; auto].
            apply find_some in Ef. destruct Ef as [_ Ev]. apply Nat.eqb_eq in Ev. injection E2 as <- _.
            destruct (stop_worker_tbl t s1 v w) as [A|[A _]]; auto. congruence. }
        all: assert (Q : tbl s' w = Some (t, Running)); [|congruence].
        all: refine (each_stays _ (fun _ => True) w t _ _ _ _ _ F M E _ H).
        - intros u p s1 s1' p' Hp F1 M1. cbv beta. destruct (Nat.eqb_spec u t) as [->|Nu]; [|intros Hq; injection Hq as <- <-; split; [apply chg_refl|auto]].
          destruct (pool_stop t (Some w1) (s1, p)) as [s2 p2] eqn:E2. apply pool_stop_chg in E2; auto. destruct E2 as [D2 M2].
          unfold inc_num_workers. intros Hq. apply start_chg in Hq; auto; [|apply D2, F1]. destruct Hq as [D3 [M3 _]]. split; auto.
          eapply chg_trans; eapply chg_weaken; [|exact D2| |exact D3]; auto.
        - intros u p s1 s1' p' Hp F1 M1. cbv beta. destruct (Nat.eqb_spec u t) as [->|Nu]; [|intros Hq; injection Hq as <- _; auto].
          destruct (pool_stop t (Some w1) (s1, p)) as [s2 p2] eqn:E2. pose proof (Hs _ Hp _ _ _ E2) as T. apply pool_stop_chg in E2; auto. destruct E2 as [D2 M2].
          unfold inc_num_workers. intros Hq Hr. apply start_chg in Hq; auto; [|apply D2, F1]. destruct Hq as [_ [_ [O _]]]. apply O. congruence.
        - intros u p s1 s1' p' Hp F1 M1. cbv beta. destruct (Nat.eqb_spec u t1) as [->|Nu]; [|intros Hq; injection Hq as <- <-; split; [apply chg_refl|auto]].
          destruct (pool_stop t1 (Some w1) (s1, p)) as [s2 p2] eqn:E2. apply pool_stop_chg in E2; auto. destruct E2 as [D2 M2].
          unfold inc_num_workers. intros Hq. apply start_chg in Hq; auto; [|apply D2, F1]. destruct Hq as [D3 [M3 _]]. split; auto.
          eapply chg_trans; eapply chg_weaken; [|exact D2| |exact D3]; auto.
        - intros u p s1 s1' p' Hp F1 M1. cbv beta. destruct (Nat.eqb_spec u t1) as [->|Nu]; [|intros Hq; injection Hq as <- _; auto].
          destruct (pool_stop t1 (Some w1) (s1, p)) as [s2 p2] eqn:E2. pose proof E2 as E3. apply pool_stop_chg in E2; auto. destruct E2 as [D2 M2].
          unfold inc_num_workers. intros Hq Hr. apply start_chg in Hq; auto; [|apply D2, F1]. destruct Hq as [_ [_ [O _]]]. apply O.
          cbn [pool_stop] in E3. destruct (find _ p) as [v|] eqn:Ef; [|injection E3 as <- _; auto]. apply find_some in Ef. destruct Ef as [Hv _]. injection E3 as <- _.
          destruct (stop_worker_tbl t1 s1 v w) as [A|[A _]]; [congruence|]. destruct (M1 v Hv) as [y Hy]. rewrite <- A, Hr in Hy. congruence. }
      destruct Q as [-> ->]. split; auto. rewrite reports_snoc. destruct (reports_one t w (PFailure t w)) as [Z|[Z _]]; [|lia].
      unfold reports in Z. cbn in Z. rewrite !Nat.eqb_refl in Z. discriminate.
    - left. destruct (exit_sound nw mbf w1 c1 x S) as [_ [T _]]. rewrite T, H in H'. destruct (Nat.eqb_spec w1 w) as [->|]; congruence.
    - cbn in H'. congruence.
  Qed.
End Fail.
Lemma each_same f t : (forall u sp, u <> t -> f u sp = sp) -> forall l s, ~ In t (map fst l) -> each f s l = (s, l).
Proof.
  intros Hf. induction l as [|[u q] l IH]; intros s N; cbn [each]; auto. cbn in N. rewrite Hf by tauto. rewrite IH by tauto. reflexivity.
Qed.
Lemma each_only f t p s1 p1 : (forall u sp, u <> t -> f u sp = sp) -> forall l s, NoDup (map fst l) -> In (t, p) l -> f t (s, p) = (s1, p1) ->
  exists l', each f s l = (s1, l') /\ In (t, p1) l'.
Proof.
  intros Hf. induction l as [|[u q] l IH]; intros s N H E; [destruct H|destruct H as [H|H]].
  - injection H as -> ->. cbn in N. apply NoDup_cons_iff in N. destruct N as [N _]. cbn [each]. rewrite E, (each_same f t Hf _ _ N).
    eexists. split; [reflexivity|]. left. reflexivity.
  - cbn in N. apply NoDup_cons_iff in N. destruct N as [N1 N2]. cbn [each].
    assert (u <> t) by (intros ->; apply N1; apply (in_map fst) in H; exact H).
    rewrite Hf by auto. destruct (IH s N2 H E) as [l' [E' I]]. rewrite E'. eexists. split; [reflexivity|]. right. exact I.
Qed.

(* ---- C63, the pools alone ---- *)
(* Whatever happens: a worker whose process runs has been reported failing at most
   max_block_failures times. *)
Theorem C63_limit : forall nw mbf tasks s0 es x w t, (forall t, 0 <= nw t) -> NoDup tasks -> no_one_runs s0 -> 0 <= mbf ->
  told nw mbf tasks s0 es x -> tbl (ps_sys x) w = Some (t, Running) -> reports t w es <= mbf.
Proof. intros nw mbf tasks s0 es x w t NN NT CS MB R H. destruct (told_counts nw mbf tasks s0 NN NT CS MB _ _ R w) as [C _]. apply (C t H). Qed.
(* The report that exceeds it ends the process, and another one is started for the same task. *)
Theorem C63_replaced : forall nw mbf tasks s0 es x w t, (forall t, 0 <= nw t) -> NoDup tasks -> no_one_runs s0 -> 0 <= mbf ->
  told nw mbf tasks s0 es x -> tbl (ps_sys x) w = Some (t, Running) -> mbf < reports t w (es ++ [PFailure t w]) ->
  let y := fst (pstep nw mbf (PFailure t w) x) in
  snd (pstep nw mbf (PFailure t w) x) = None /\ (exists c, tbl (ps_sys y) w = Some (t, Exited c)) /\
  exists w' p, tbl (ps_sys x) w' = None /\ tbl (ps_sys y) w' = Some (t, Running) /\ In (t, p) (ps_pools y) /\ In (Worker w' true) p /\ ~ In w (map w_id p).
Proof.
  intros nw mbf tasks s0 es x w t NN NT CS MB R H L y. destruct (told_counts nw mbf tasks s0 NN NT CS MB _ _ R w) as [C _]. destruct (C t H) as [C1 C2].
  rewrite reports_snoc in L. assert (L2 : mbf < ps_fc x t w + 1) by (destruct (reports_one t w (PFailure t w)) as [Z|[Z _]]; lia).
  pose proof (failure_ends nw mbf tasks s0 NN NT CS _ _ _ _ R H L2) as Ex. fold y in Ex.
  destruct (told_sound nw mbf tasks s0 CS _ _ R) as [[F M] K]. destruct (told_GI nw mbf tasks s0 NN NT CS _ _ R) as [k G].
  assert (Ht : In t tasks) by (eapply (gi_all _ _ _ _ G); eauto).
  pose proof Ht as Ht'. rewrite <- K in Ht'. apply in_map_iff in Ht'. destruct Ht' as [[t' p] [E Hp]]. cbn in E. subst t'.
  assert (X : existsb (fun tp => Nat.eqb (fst tp) t) (ps_pools x) = true) by (apply existsb_exists; exists (t, p); cbn; rewrite Nat.eqb_refl; auto).
  subst y. cbn [pstep] in Ex |- *. unfold on_block_failure in Ex |- *. rewrite (proj2 (Z.ltb_lt _ _) L2), X in Ex |- *. cbn [fst snd] in Ex |- *.
  split; [reflexivity|]. split; [exact Ex|]. clear Ex.
  destruct (pool_stop t (Some w) (ps_sys x, p)) as [s1 p1] eqn:E1.
  pose proof (stop_one_spec t w _ _ _ _ (gi_wf _ _ _ _ G) (gi_pi _ _ _ _ G t p Hp) E1) as [Q1 _].
  destruct (pool_stop_chg t w _ _ _ _ F (M t p Hp) E1) as [D1 _].
  set (f := fun (u : nat) (sp : sys * pool) => if Nat.eqb u t then inc_num_workers t 1 (pool_stop t (Some w) sp) else sp).
  assert (Ef : f t (ps_sys x, p) = inc_num_workers t 1 (s1, p1)) by (unfold f; rewrite Nat.eqb_refl, E1; reflexivity).
  assert (Ei : inc_num_workers t 1 (s1, p1) = (Sys (tbl (set_proc s1 (nxt s1) t Running)) (S (nxt s1)), p1 ++ [Worker (nxt s1) true])) by reflexivity.
  rewrite Ei in Ef.
  assert (Hf : forall u sp, u <> t -> f u sp = sp) by (intros u sp Nu; unfold f; destruct (Nat.eqb_spec u t); congruence).
  assert (NK : NoDup (map fst (ps_pools x))) by (rewrite K; exact NT).
  pose proof (each_only f t p _ _ Hf (ps_pools x) (ps_sys x) NK Hp Ef) as [l' [E' I]].
  exists (nxt s1), (p1 ++ [Worker (nxt s1) true]). unfold on_pools. cbn [ps_sys ps_pools]. rewrite E'. cbn [ps_sys ps_pools tbl].
  assert (F1 : full s1) by (apply D1, F). split.
  { destruct (tbl (ps_sys x) (nxt s1)) as [[u z]|] eqn:Z; auto. destruct (chg_task _ _ _ _ _ _ D1 Z) as [z' Z']. rewrite (proj2 (F1 (nxt s1)) (le_n _)) in Z'. discriminate. }
  unfold set_proc. cbn [tbl]. rewrite Nat.eqb_refl. split; [reflexivity|]. split; [exact I|]. split; [apply in_or_app; right; left; reflexivity|].
  rewrite map_app, in_app_iff. intros [J|[J|[]]].
  - subst p1. apply in_map_iff in J. destruct J as [v [Ev Hv]]. unfold del_worker in Hv. apply filter_In in Hv. destruct Hv as [_ Hv].
    rewrite Ev, Nat.eqb_refl in Hv. discriminate.
  - cbn in J. destruct (chg_task _ _ _ _ _ _ D1 H) as [z Z]. rewrite <- J, (proj2 (F1 (nxt s1)) (le_n _)) in Z. discriminate.
Qed.
(* A worker's process ends only by itself, when all workers are stopped, when its pool has more
   workers than the task asks for, or with the report that exceeds the limit. *)
Theorem C63_only_then : forall nw mbf tasks s0 es x e w t c, (forall t, 0 <= nw t) -> NoDup tasks -> no_one_runs s0 -> 0 <= mbf ->
  told nw mbf tasks s0 es x -> tbl (ps_sys x) w = Some (t, Running) -> tbl (ps_sys (fst (pstep nw mbf e x))) w = Some (t, Exited c) ->
  e = PExit w c \/ e = PStop \/ (exists ts p, e = PRecruit ts /\ In t ts /\ In (t, p) (ps_pools x) /\ nw t < Z.of_nat (length p)) \/
  (e = PFailure t w /\ reports t w (es ++ [e]) = mbf + 1).
Proof. intros nw mbf tasks s0 es x e w t c NN NT CS MB R. eapply killed_why; eauto. Qed.

(* two workers of task 7, one of which fails four blocks; the other one goes on *)
Lemma told_all nw mbf tasks s0 : forall es es0 x, told nw mbf tasks s0 es0 x ->
  (forall a e b, es = a ++ e :: b -> match e with PFailure _ w => (w < nxt (ps_sys (steps nw mbf a x)))%nat | _ => True end) ->
  told nw mbf tasks s0 (es0 ++ es) (steps nw mbf es x).
Proof.
  induction es as [|e es IH]; intros es0 x R Ok; [rewrite app_nil_r; exact R|]. cbn [steps].
  replace (es0 ++ e :: es) with ((es0 ++ [e]) ++ es) by (rewrite <- app_assoc; reflexivity).
  apply IH; [constructor; auto; exact (Ok [] e es eq_refl)|]. intros a e' b E. apply (Ok (e :: a) e' b). rewrite E. reflexivity.
Qed.
Example C63_example : let s0 := Sys (fun i => if Nat.eqb i 0 then Some (7%nat, Exited 0) else None) 1 in
  let four := [PRecruit [7%nat]; PFailure 7 2; PFailure 7 1; PFailure 7 2; PFailure 7 2; PFailure 7 2] in
  let x := steps (fun _ => 2) 3 four (pools_init [7%nat; 8%nat] s0) in
  no_one_runs s0 /\ told (fun _ => 2) 3 [7%nat; 8%nat] s0 four x /\
  tbl (ps_sys x) 2 = Some (7%nat, Exited (-15)) /\ reports 7 2 four = 4 /\
  tbl (ps_sys x) 1 = Some (7%nat, Running) /\ reports 7 1 four = 1 /\ tbl (ps_sys x) 3 = Some (7%nat, Running).
Proof.
  intros s0 es x. split; [|split].
  - split.
    + intros j. destruct j; cbn; split; try discriminate; try lia; auto.
    + intros i t. destruct i; cbn; discriminate.
  - subst x. pose proof (told_all (fun _ => 2) 3 [7%nat; 8%nat] s0 es [] _ (to_init _ _ _ _)) as X. cbn [app] in X. apply X. clear X.
    intros a e b E. subst es. do 6 (destruct a as [|? a]; [injection E as <- <-; vm_compute; auto; lia|injection E as <- E]).
    destruct a; discriminate.
  - vm_compute. auto.
Qed.
Print Assumptions C63_limit.
Print Assumptions C63_replaced.
Print Assumptions C63_only_then.
Print Assumptions C63_example.

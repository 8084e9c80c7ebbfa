(* Consequences of the scheduler invariant, for any dependency graph that is good_graph. *)
From Coq Require Import Arith Lia Permutation.
From Verif Require Import VecFacts.
From Verif Require Export SchedFacts2.
Open Scope Z_scope.

(* The blocks with no upstream block are all offered by the root generators. *)
Definition all_roots (V : list block) (up : block -> list block) (seeds : nat -> list block) : Prop :=
  forall b, In b V -> up b = [] -> In b (seeds (b_task b)).

Lemma count_pos p h : 0 < count p h -> exists e, In e h /\ p e = true.
Proof.
  induction h as [|e h IH]; cbn; [lia|]. destruct (p e) eqn:E; [exists e; auto|].
  intros H. destruct IH as [x [Hx Px]]; [lia|]. exists x. auto.
Qed.
Lemma is_block_eq a b : is_block a b = true -> a = b.
Proof. unfold is_block. destruct (block_dec a b); congruence. Qed.
Lemma succeeded_app h1 h2 b : succeeded h2 b -> succeeded (h1 ++ h2) b.
Proof. intros [H|H]; [left|right]; apply in_or_app; auto. Qed.

Lemma event_dec (a b : event) : {a = b} + {a <> b}.
Proof. decide equality; try apply block_dec; try apply Nat.eq_dec; decide equality; try apply block_dec; decide equality. Qed.
Lemma succeeded_dec h b : succeeded h b \/ ~ succeeded h b.
Proof.
  unfold succeeded. destruct (in_dec event_dec (EvSkip b) h); [tauto|].
  destruct (in_dec event_dec (EvRel (PB b SUCCESS)) h); tauto.
Qed.

Section Props.
  Variables (V : list block) (up down : block -> list block) (seeds : nat -> list block).
  Variable maxr : nat -> Z.
  Variable fuel : nat.
  Hypothesis GG : good_graph V up down seeds.
  Hypothesis EN : enough V fuel.
  Variable s0 : sched.
  Hypothesis FR : fresh V seeds s0.

  Local Notation reach := (reach up down maxr fuel s0).
  Local Notation perm_failed := (perm_failed maxr).
  Local Notation orphan := (orphan up maxr).
  Local Notation settled := (settled up maxr).

  Section At.
  Variables (h : history) (s : sched).
  Hypothesis R : reach h s.
  Let HI : HInv V up down seeds maxr s0 h s := reach_HInv V up down seeds maxr fuel GG EN s0 FR h s R.
  Let I := hi_inv _ _ _ _ _ _ _ _ HI.

  Lemma ok_hist_app h2 h1 : ok_hist V up maxr (h2 ++ h1) -> ok_hist V up maxr h1.
  Proof. induction h2; cbn; tauto. Qed.
  Lemma ok_at h2 e h1 : h = h2 ++ e :: h1 -> ok_event V up maxr h1 e.
  Proof.
    intros E. pose proof (hi_ok _ _ _ _ _ _ _ _ HI) as O. rewrite E in O. apply ok_hist_app in O. apply O.
  Qed.

  (* C16 *)
  Lemma never_twice h2 h1 t pb : h = h2 ++ EvHand t pb :: h1 ->
    b_task (pb_block pb) = t /\ ~ held h1 (pb_block pb) /\ ~ succeeded h1 (pb_block pb).
  Proof. intros E. apply ok_at in E. destruct E as [J1 [J2 [J3 [J4 [J5 J6]]]]]. auto. Qed.
  Lemma skip_once h2 h1 b : h = h2 ++ EvSkip b :: h1 ->
    ~ held h1 b /\ ~ succeeded h1 b.
  Proof. intros E. apply ok_at in E. destruct E as [J1 [J2 [J3 [J4 [J5 J6]]]]]. auto. Qed.

  Lemma counts_app h2 h1 : h = h2 ++ h1 -> forall b,
    n_released h1 b <= n_handed h1 b <= n_released h1 b + 1 /\
    (~ succeeded h1 b -> n_released h1 b = n_failed h1 b).
  Proof.
    intros E b. pose proof (hi_ok _ _ _ _ _ _ _ _ HI) as O. rewrite E in O. apply ok_hist_app in O.
    clear -O. induction h1 as [|e h1 IH]; [cbn; split; [lia|auto]|].
    destruct O as [Oe O]. specialize (IH O). destruct IH as [K1 K2].
    unfold n_released, n_handed, n_failed, held in *. cbn [count] in *.
    destruct e as [c|t pb|t|pb]; cbn [ok_event] in Oe.
    - split; [lia|]. intros Ns. rewrite K2; auto. intros S. apply Ns, succ_cons_skip. auto.
    - destruct Oe as [_ [_ [_ [NS [_ NH]]]]]. unfold held, n_released, n_handed in NH.
      destruct (block_dec b (pb_block pb)) as [->|Nb].
      + rewrite is_block_same. split; [lia|]. intros _. rewrite K2; auto.
      + rewrite is_block_other by auto. split; [lia|]. intros Ns. rewrite K2; auto.
        intros S. apply Ns, succ_cons_hand. auto.
    - split; [lia|]. intros Ns. rewrite K2; auto. intros S. apply Ns, succ_cons_none. auto.
    - destruct pb as [c st]. cbn [pb_block pb_status] in *. destruct Oe as [H St].
      unfold held, n_released, n_handed in H.
      destruct (block_dec b c) as [->|Nb].
      + rewrite is_block_same. split; [lia|]. destruct St as [-> | ->].
        * intros Ns. exfalso. apply Ns, succ_cons_succ. auto.
        * intros Ns. cbn. rewrite K2; auto. intros S. apply Ns, succ_cons_fail. auto.
      + rewrite is_block_other by auto. cbn [andb]. split; [lia|]. intros Ns. rewrite K2; auto.
        intros S. apply Ns. destruct S; [left|right]; right; auto.
  Qed.

  Lemma between h3 h2 h1 t t' pb pb' : h = h3 ++ EvHand t' pb' :: h2 ++ EvHand t pb :: h1 ->
    pb_block pb' = pb_block pb -> In (EvRel (PB (pb_block pb) FAILED)) h2.
  Proof.
    intros E Eb. set (b := pb_block pb) in *.
    assert (E1 : h = (h3 ++ EvHand t' pb' :: h2) ++ EvHand t pb :: h1)
      by (rewrite <- app_assoc; exact E).
    assert (E2 : h = (h3 ++ EvHand t' pb' :: h2 ++ [EvHand t pb]) ++ h1).
    { rewrite E. rewrite <- app_assoc. cbn [app]. rewrite <- app_assoc. reflexivity. }
    destruct (ok_at _ _ _ E) as [_ [_ [_ [NS [_ NH]]]]]. rewrite Eb in NS, NH.
    pose proof (counts_app _ _ E2 b) as [K1 _].
    unfold held in NH. unfold n_released, n_handed in *. rewrite !count_app in NH. cbn [count] in NH.
    fold b in NH. rewrite is_block_same in NH.
    pose proof (count_nonneg (fun e => match e with EvHand _ pb => is_block (pb_block pb) b | _ => false end) h2).
    match goal with NH : ~ (?r2 + (0 + ?r1) < _) |- _ => assert (P : 0 < r2) by lia end.
    apply count_pos in P. destruct P as [e [He Pe]]. destruct e as [c|? ?|?|[c st]]; try discriminate.
    cbn [pb_block] in Pe. apply is_block_eq in Pe. subst c.
    apply in_split in He as Hs. destruct Hs as [l1 [l2 Hs]].
    assert (E3 : h = (h3 ++ EvHand t' pb' :: l1) ++ EvRel (PB b st) :: (l2 ++ EvHand t pb :: h1)).
    { rewrite E, Hs, <- !app_assoc. cbn [app]. rewrite <- ?app_assoc. reflexivity. }
    destruct (ok_at _ _ _ E3) as [_ [St|St]]; cbn in St; subst st; auto.
    exfalso. apply NS. right. apply in_or_app. left. auto.
  Qed.

  (* C17 *)
  Lemma handed_bound b : n_handed h b <= Z.max (maxr (b_task b)) 0 + 1.
  Proof.
    pose proof (hi_ok _ _ _ _ _ _ _ _ HI) as O.
    assert (G : forall h2 h1, h = h2 ++ h1 -> n_handed h1 b <= Z.max (maxr (b_task b)) 0 + 1).
    { intros h2 h1. revert h2. induction h1 as [|e h1 IH]; intros h2 E; [cbn; lia|].
      assert (E' : h = (h2 ++ [e]) ++ h1) by (rewrite <- app_assoc; auto).
      specialize (IH _ E'). unfold n_handed in *. cbn [count].
      destruct e as [c|t pb|t|pb]; try lia.
      destruct (block_dec b (pb_block pb)) as [->|Nb]; [|rewrite is_block_other by auto; lia].
      rewrite is_block_same. destruct (ok_at _ _ _ E) as [_ [_ [_ [NS [NF NH]]]]].
      pose proof (counts_app _ _ E' (pb_block pb)) as [K1 K2]. specialize (K2 NS).
      unfold SchedSpec.perm_failed in NF. unfold held, n_handed in *. lia. }
    apply (G []). auto.
  Qed.
  Lemma perm_exact b : perm_failed h b <-> n_failed h b = Z.max (maxr (b_task b)) 0 + 1.
  Proof.
    split.
    - apply (i_F _ _ _ _ _ _ _ _ _ I b).
    - intros E. unfold SchedSpec.perm_failed. lia.
  Qed.
  Lemma perm_handed b : perm_failed h b ->
    n_handed h b = Z.max (maxr (b_task b)) 0 + 1 /\ ~ held h b /\ ~ succeeded h b.
  Proof.
    intros F. pose proof (handed_bound b). pose proof (proj1 (perm_exact b) F) as E.
    destruct (hi_count _ _ _ _ _ _ _ _ HI b) as [K1 [K2 _]].
    assert (n_handed h b = Z.max (maxr (b_task b)) 0 + 1) by lia.
    split; auto. split; [unfold held; lia|].
    intros S. apply (i_S _ _ _ _ _ _ _ _ _ I b S). exact F.
  Qed.

  Hypothesis AR : all_roots V up seeds.

  Lemma failed_requeued b : 0 < n_failed h b -> ~ perm_failed h b -> ~ succeeded h b -> ~ held h b ->
    In b (readyl s (b_task b)).
  Proof.
    intros P NF NS NH. destruct (hi_count _ _ _ _ _ _ _ _ HI b) as [K1 [K2 K3]].
    assert (H : 0 < n_handed h b) by lia.
    apply count_pos in H. destruct H as [e [He Pe]]. destruct e as [c|t pb|t|pb]; try discriminate.
    apply is_block_eq in Pe. apply in_split in He. destruct He as [l1 [l2 E]].
    destruct (ok_at _ _ _ E) as [Vb [_ [Ub _]]]. rewrite Pe in Vb, Ub.
    assert (Ub' : ups up (succeeded h) b).
    { intros a Ha. specialize (Ub a Ha). rewrite E.
      apply (succeeded_app (l1 ++ [EvHand t pb])) in Ub. rewrite <- app_assoc in Ub. exact Ub. }
    destruct (i_complete _ _ _ _ _ _ _ _ _ I b Vb Ub' (fun E => AR b Vb E)) as [?|[?|[?|?]]]; auto; tauto.
  Qed.

  (* C18 *)
  Lemma not_stuck : (forall b, ~ held h b) -> (forall t, readyl s t = []) -> forall b, In b V -> settled h b.
  Proof.
    intros NH NR. destruct (gg_acyclic _ _ _ _ GG) as [rk RK].
    assert (D : forall b, In b V -> succeeded h b \/ ~ succeeded h b) by (intros; apply succeeded_dec).
    assert (G : forall n b, (rk b < n)%nat -> In b V -> settled h b).
    { induction n as [|n IH]; [lia|]. intros b Hb Vb.
      assert (C : ups up (succeeded h) b \/ exists a, In a (up b) /\ ~ succeeded h a).
      { unfold ups. clear -D Vb GG. assert (X : forall a, In a (up b) -> In a V) by (intros a; apply (gg_up _ _ _ _ GG); auto).
        induction (up b) as [|a l IHl]; [left; intros ? []|].
        destruct (D a) as [Da|Da]; [apply X; left; auto| |right; exists a; split; [left|]; auto].
        destruct IHl as [IHl|[c [Hc Nc]]]; [intros; apply X; right; auto| |right; exists c; split; [right|]; auto].
        left. intros x [<-|Hx]; auto. }
      destruct C as [C|[a [Ha Na]]].
      - destruct (i_complete _ _ _ _ _ _ _ _ _ I b Vb C) as [K|[K|[K|K]]].
        + intros E. apply AR; auto.
        + rewrite NR in K. destruct K.
        + exfalso. eapply NH; eauto.
        + left; auto.
        + right; left; auto.
      - assert (Va : In a V) by (eapply (gg_up _ _ _ _ GG); eauto).
        pose proof (RK a b Vb Ha). destruct (IH a) as [K|[K|[x [K1 K2]]]]; auto; [lia|tauto| |].
        + right; right. exists a. split; auto. apply anc_one; auto.
        + right; right. exists x. split; auto. eapply anc_more; eauto. }
    intros b. apply (G (S (rk b))). lia.
  Qed.

  Lemma ready_iff t b : In b (readyl s t) <->
    In b V /\ b_task b = t /\ (forall a, In a (up b) -> succeeded h a) /\
    ~ held h b /\ ~ succeeded h b /\ ~ perm_failed h b.
  Proof.
    split.
    - intros H. destruct (i_ready _ _ _ _ _ _ _ _ _ I t b H) as [? [? [? [? [? ?]]]]]. auto 10.
    - intros [Vb [<- [U [NH [NS NF]]]]].
      destruct (i_complete _ _ _ _ _ _ _ _ _ I b Vb U (fun E => AR b Vb E)) as [?|[?|[?|?]]]; auto; tauto.
  Qed.
  End At.

  Section At2.
  Variables (h : history) (s : sched).
  Hypothesis R : reach h s.
  Let HI : HInv V up down seeds maxr s0 h s := reach_HInv V up down seeds maxr fuel GG EN s0 FR h s R.
  Let I := hi_inv _ _ _ _ _ _ _ _ HI.

  Lemma Or_orphan b : Or V up maxr (n_failed h) b <-> In b V /\ orphan h b.
  Proof. unfold Or, SchedSpec.orphan. reflexivity. Qed.

  (* C20 *)
  Lemma ran_norph b : In b V -> (forall a, In a (up b) -> succeeded h a) -> ~ orphan h b.
  Proof.
    intros Vb U O. apply (ups_norph V up down seeds maxr _ _ _ s I b U). apply Or_orphan. auto.
  Qed.
  Lemma succ_norph b : succeeded h b -> ~ orphan h b.
  Proof.
    intros Sb. destruct (i_S _ _ _ _ _ _ _ _ _ I b Sb) as [Vb [Ub _]]. apply ran_norph; auto.
  Qed.
  Lemma held_norph' b : held h b -> ~ orphan h b.
  Proof.
    intros Sb. destruct (i_held _ _ _ _ _ _ _ _ _ I b Sb) as [Vb [Ub _]]. apply ran_norph; auto.
  Qed.
  Lemma failed_norph b : perm_failed h b -> ~ orphan h b.
  Proof.
    intros Sb. destruct (i_F _ _ _ _ _ _ _ _ _ I b Sb) as [Vb [Ub _]]. apply ran_norph; auto.
  Qed.
  Lemma taken_norph h2 e h1 : h = h2 ++ e :: h1 ->
    match e with EvSkip b => ~ orphan h b | EvHand _ pb => ~ orphan h (pb_block pb) | _ => True end.
  Proof.
    intros E. pose proof (ok_at _ _ R _ _ _ E) as O. destruct e as [b|t pb|t|pb]; auto; cbn in O.
    - destruct O as [Vb [_ [U _]]]. apply ran_norph; auto. intros a Ha. rewrite E.
      specialize (U a Ha). apply (succeeded_app (h2 ++ [EvSkip b])) in U. rewrite <- app_assoc in U. exact U.
    - destruct O as [Vb [_ [U _]]]. apply ran_norph; auto. intros a Ha. rewrite E.
      specialize (U a Ha). apply (succeeded_app (h2 ++ [EvHand t pb])) in U. rewrite <- app_assoc in U. exact U.
  Qed.

  (* the orphans reported at a permanent failure *)
  Lemma orphans_exact pick b s' : held h b -> maxr (b_task b) <= n_failed h b ->
    release_block up down maxr fuel pick s (PB b FAILED) = Ok s' ->
    exists sf orph, mark_failure block_eqb up down pick fuel (s_surf s) b = Ok (sf, orph) /\
      NoDup orph /\
      (forall x, In x orph -> In x V /\ ancestor up b x) /\
      (forall x, In x V -> ancestor up b x -> orphan h x \/ In x orph) /\
      (apart (fun b => In b V) up maxr (EvRel (PB b FAILED) :: h) -> forall x, In x orph -> ~ orphan h x) /\
      (forall t, ts_orphaned (s_st s' t) = ts_orphaned (s_st s t) + Z.of_nat (length (of_task t orph))).
  Proof.
    intros Hb Le E.
    destruct (fail_step V up down seeds maxr fuel GG EN _ _ _ s b pick I Hb Le)
      as [s2 [orph [sf [E1 [E2 [E3 [E4 [E5 [E6 [E7 [E8 [E9 [E10 [E11 _]]]]]]]]]]]]]].
    rewrite E in E1. injection E1 as <-. exists sf, orph. split; auto. split; auto.
    assert (OV : forall x, In x orph -> In x V).
    { intros x Hx. apply (proj2 (E7 x)) . right; auto. }
    split; [auto|]. split; [|split; auto].
    - intros x Vx A. destruct (E8 x Vx A) as [O|O]; auto. left. apply (proj1 (Or_orphan _)) in O. tauto.
    - intros T x Hx O. apply (E10 (hi_tight _ _ _ _ _ _ _ _ HI) (apart_fail _ _ _ _ _ T) x Hx). apply Or_orphan. auto.
  Qed.

  (* C21 *)
  Lemma orphan_count : apart (fun b => In b V) up maxr h -> forall t,
    card (fun b => In b V /\ b_task b = t /\ orphan h b) (ts_orphaned (s_st s t)).
  Proof.
    intros T t. apply (card_ext _ _ _ (hi_exact _ _ _ _ _ _ _ _ HI T t)).
    intros b. rewrite Or_orphan. tauto.
  Qed.
  Lemma orphan_count_ge t : exists k,
    card (fun b => In b V /\ b_task b = t /\ orphan h b) k /\ k <= ts_orphaned (s_st s t).
  Proof.
    destruct (i_corph _ _ _ _ _ _ _ _ _ I t) as [k [C Le]]. exists k. split; auto.
    apply (card_ext _ _ _ C). intros b. rewrite Or_orphan. tauto.
  Qed.

  (* C22 *)
  Lemma skips_card t : card (fun b => skipped h b /\ b_task b = t) (n_skips h t).
  Proof.
    pose proof (hi_ok _ _ _ _ _ _ _ _ HI) as O. clear -O. induction h as [|e h' IH].
    - apply card_empty. intros x [[] _].
    - destruct O as [Oe O]. specialize (IH O). unfold n_skips. cbn [count]. fold (n_skips h' t).
      destruct e as [b|t' pb|t'|pb].
      2-4: cbn; apply (card_ext _ _ _ IH); intros x; unfold skipped; cbn; intuition congruence.
      destruct (Nat.eqb_spec (b_task b) t) as [E|N].
      + rewrite Z.add_comm. apply (card_add _ _ _ b IH).
        * destruct Oe as [_ [_ [_ [NS _]]]]. intros [Sk _]. apply NS. left. exact Sk.
        * intros x. unfold skipped. cbn. split.
          -- intros [[Ex|Hx] Et]; [injection Ex as <-; auto|auto].
          -- intros [[Hx Et]| ->]; auto.
      + cbn. apply (card_ext _ _ _ IH). intros x. unfold skipped. cbn. split; [tauto|].
        intros [[Ex|Hx] Et]; auto. injection Ex as <-. tauto.
  Qed.
  Lemma counters t :
    card (fun b => held h b /\ b_task b = t) (ts_processing (s_st s t)) /\
    card (fun b => succeeded h b /\ b_task b = t) (ts_completed (s_st s t)) /\
    card (fun b => perm_failed h b /\ b_task b = t) (ts_failed (s_st s t)) /\
    card (fun b => skipped h b /\ b_task b = t) (ts_skipped (s_st s t)) /\
    card (fun b => In b V /\ b_task b = t) (ts_total (s_st s t)).
  Proof.
    split; [|split; [|split; [|split]]].
    - rewrite (i_cproc _ _ _ _ _ _ _ _ _ I).
      assert (X : exists l, NoDup l /\ map bid l = q_proc (s_q s t) /\
                 forall b, In b l -> held h b /\ b_task b = t).
      { pose proof (i_nproc _ _ _ _ _ _ _ _ _ I t) as ND.
        assert (P : forall i, In i (q_proc (s_q s t)) -> exists b, held h b /\ b_task b = t /\ bid b = i)
          by (intros i; apply (i_proc _ _ _ _ _ _ _ _ _ I)).
        clear -ND P. induction (q_proc (s_q s t)) as [|i l IH].
        - exists []. split; [constructor|]. split; auto. intros b [].
        - inversion ND; subst. destruct IH as [l' [N' [M' H']]]; auto; [intros; apply P; right; auto|].
          destruct (P i) as [b [Hb [Et Ei]]]; [left; auto|]. exists (b :: l'). split; [|split].
          + constructor; auto. intros Hin. apply H1. rewrite <- M', <- Ei. apply in_map; auto.
          + cbn. congruence.
          + intros x [<-|Hx]; auto. }
      destruct X as [l [ND [M P]]]. exists l. split; auto. split; [|rewrite <- M, map_length; auto].
      intros b. split; [apply P|]. intros [Hb Et].
      assert (Hi : In (bid b) (q_proc (s_q s t))).
      { apply (i_proc _ _ _ _ _ _ _ _ _ I). exists b. auto. }
      rewrite <- M in Hi. apply in_map_iff in Hi. destruct Hi as [c [Ec Hc]].
      assert (c = b); [|subst; auto]. apply (gg_ids _ _ _ _ GG); auto.
      + apply (i_held _ _ _ _ _ _ _ _ _ I). apply P; auto.
      + apply (i_held _ _ _ _ _ _ _ _ _ I). auto.
    - apply (i_ccomp _ _ _ _ _ _ _ _ _ I).
    - apply (i_cfail _ _ _ _ _ _ _ _ _ I).
    - rewrite (hi_skips _ _ _ _ _ _ _ _ HI). apply skips_card.
    - apply (i_total _ _ _ _ _ _ _ _ _ I).
  Qed.
  Lemma ready_count : all_roots V up seeds -> forall t,
    card (fun b => In b V /\ b_task b = t /\ (forall a, In a (up b) -> succeeded h a) /\
                   ~ held h b /\ ~ succeeded h b /\ ~ perm_failed h b) (ts_ready (s_st s t)).
  Proof.
    intros AR t. exists (readyl s t). split; [apply (i_nodup _ _ _ _ _ _ _ _ _ I)|].
    split; [|rewrite (i_cready _ _ _ _ _ _ _ _ _ I); auto].
    intros b. apply (ready_iff h s R AR).
  Qed.

  (* C23 *)
  Lemma settled_card : apart (fun b => In b V) up maxr h -> forall t,
    card (fun b => In b V /\ b_task b = t /\ settled h b)
         (ts_completed (s_st s t) + ts_failed (s_st s t) + ts_orphaned (s_st s t)).
  Proof.
    intros T t. destruct (counters t) as [_ [C1 [C2 [_ _]]]]. pose proof (orphan_count T t) as C3.
    assert (C12 : card (fun b => (succeeded h b \/ perm_failed h b) /\ b_task b = t)
                       (ts_completed (s_st s t) + ts_failed (s_st s t))).
    { apply (card_union _ _ _ _ _ C1 C2).
      - intros x [S _] [F _]. destruct (i_S _ _ _ _ _ _ _ _ _ I x S) as [_ [_ NF]]. exact (NF F).
      - intros x. tauto. }
    apply (card_union _ _ _ _ _ C12 C3).
    - intros x [[S|F] _] [_ [_ O]]; [apply (succ_norph x S O)|apply (failed_norph x F O)].
    - intros x. unfold SchedSpec.settled. split.
      + intros [Vx [E [S|[F|O]]]]; auto.
      + intros [[[S|F] E]|[Vx [E O]]]; auto.
        * split; auto. apply (i_S _ _ _ _ _ _ _ _ _ I x S).
        * split; auto. apply (i_F _ _ _ _ _ _ _ _ _ I x F).
  Qed.
  Lemma done_iff : apart (fun b => In b V) up maxr h -> forall t,
    ts_is_done (s_st s t) = true <-> forall b, In b V -> b_task b = t -> settled h b.
  Proof.
    intros T t. pose proof (settled_card T t) as C. destruct (counters t) as [_ [_ [_ [_ Ct]]]].
    unfold ts_is_done. rewrite Z.eqb_eq. split.
    - intros E b Vb Et.
      assert (E' : ts_total (s_st s t) = ts_completed (s_st s t) + ts_failed (s_st s t) + ts_orphaned (s_st s t)) by lia.
      rewrite E' in Ct. apply (card_eq_all _ _ _ C Ct); auto. tauto.
    - intros A. assert (C' : card (fun b => In b V /\ b_task b = t) (ts_completed (s_st s t) + ts_failed (s_st s t) + ts_orphaned (s_st s t))).
      { apply (card_ext _ _ _ C). intros x. specialize (A x). tauto. }
      pose proof (card_unique _ _ _ C' Ct). lia.
  Qed.
  (* without the side condition: never late, but possibly early *)
  Lemma pending_nonneg : apart (fun b => In b V) up maxr h -> forall t, 0 <= ts_pending (s_st s t).
  Proof.
    intros T t. pose proof (settled_card T t) as C. destruct (counters t) as [Cp [_ [_ [_ Ct]]]].
    assert (Cr : card (fun b => In b (readyl s t)) (ts_ready (s_st s t))).
    { exists (readyl s t). split; [apply (i_nodup _ _ _ _ _ _ _ _ _ I)|]. split; [tauto|].
      rewrite (i_cready _ _ _ _ _ _ _ _ _ I). auto. }
    assert (C1 : card (fun b => (In b V /\ b_task b = t /\ settled h b) \/ held h b /\ b_task b = t)
      (ts_completed (s_st s t) + ts_failed (s_st s t) + ts_orphaned (s_st s t) + ts_processing (s_st s t))).
    { apply (card_union _ _ _ _ _ C Cp); [|tauto].
      intros x [_ [_ [S|[F|O]]]] [Hx _].
      - destruct (i_held _ _ _ _ _ _ _ _ _ I x Hx) as [_ [_ [NS NF]]]. exact (NS S).
      - destruct (i_held _ _ _ _ _ _ _ _ _ I x Hx) as [_ [_ [NS NF]]]. exact (NF F).
      - apply (held_norph' x Hx O). }
    assert (C2 : card (fun b => ((In b V /\ b_task b = t /\ settled h b) \/ held h b /\ b_task b = t) \/ In b (readyl s t))
      (ts_completed (s_st s t) + ts_failed (s_st s t) + ts_orphaned (s_st s t) + ts_processing (s_st s t) + ts_ready (s_st s t))).
    { apply (card_union _ _ _ _ _ C1 Cr); [|tauto].
      intros x Hx Rx. destruct (i_ready _ _ _ _ _ _ _ _ _ I t x Rx) as [Vx [E [U [NS [NF NH]]]]].
      destruct Hx as [[_ [_ [S|[F|O]]]]|[Hx _]]; try tauto. apply (ran_norph x Vx U O). }
    assert (Le : ts_completed (s_st s t) + ts_failed (s_st s t) + ts_orphaned (s_st s t) + ts_processing (s_st s t) + ts_ready (s_st s t) <= ts_total (s_st s t)).
    { apply (card_le _ _ _ _ C2 Ct). intros x [[[Vx [E _]]|[Hx E]]|Rx]; auto.
      - split; auto. apply (i_held _ _ _ _ _ _ _ _ _ I x Hx).
      - destruct (i_ready _ _ _ _ _ _ _ _ _ I t x Rx) as [Vx [E _]]. auto. }
    unfold ts_pending. lia.
  Qed.
  (* in general nothing is left out, so is_done may come early but a finished task never has
     blocks missing from the sum *)
  Lemma sum_ge t : (forall b, In b V -> b_task b = t -> settled h b) ->
    ts_total (s_st s t) <= ts_completed (s_st s t) + ts_failed (s_st s t) + ts_orphaned (s_st s t).
  Proof.
    intros A. destruct (counters t) as [_ [C1 [C2 [_ Ct]]]]. destruct (orphan_count_ge t) as [k [C3 Le]].
    assert (C12 : card (fun b => (succeeded h b \/ perm_failed h b) /\ b_task b = t)
                       (ts_completed (s_st s t) + ts_failed (s_st s t))).
    { apply (card_union _ _ _ _ _ C1 C2).
      - intros x [S _] [F _]. destruct (i_S _ _ _ _ _ _ _ _ _ I x S) as [_ [_ NF]]. exact (NF F).
      - intros x. tauto. }
    assert (C : card (fun b => (succeeded h b \/ perm_failed h b) /\ b_task b = t \/ In b V /\ b_task b = t /\ orphan h b)
                  (ts_completed (s_st s t) + ts_failed (s_st s t) + k)).
    { apply (card_union _ _ _ _ _ C12 C3); [|tauto].
      intros x [[S|F] _] [_ [_ O]]; [apply (succ_norph x S O)|apply (failed_norph x F O)]. }
    pose proof (card_le _ _ _ _ Ct C). cbv beta in H. assert (ts_total (s_st s t) <= ts_completed (s_st s t) + ts_failed (s_st s t) + k).
    { apply H. intros x [Vx E]. destruct (A x Vx E) as [S|[F|O]]; auto. }
    lia.
  Qed.

  (* C27 *)
  Lemma surface_sound b : In b (surface (s_surf s)) -> In b V /\ succeeded h b.
  Proof. apply (i_surf _ _ _ _ _ _ _ _ _ I). Qed.
  Lemma surface_complete b d : succeeded h b -> In d (down b) -> ~ settled h d -> In b (surface (s_surf s)).
  Proof.
    intros Sb Hd NS. destruct (i_S _ _ _ _ _ _ _ _ _ I b Sb) as [Vb _].
    apply (i_keep _ _ _ _ _ _ _ _ _ I b d); auto; intros C; apply NS; unfold SchedSpec.settled.
    - left; auto.
    - right. destruct C as [F|O]; [left; auto|]. right. apply (proj1 (Or_orphan _)) in O. tauto.
  Qed.
  Lemma boundary_sound b : In b (boundary (s_surf s)) -> In b V /\ (perm_failed h b \/ orphan h b).
  Proof.
    intros H. apply (i_surf _ _ _ _ _ _ _ _ _ I) in H. destruct H as [Vb [F|O]]; auto.
    apply (proj1 (Or_orphan _)) in O. tauto.
  Qed.

  (* acquire returned None without skipping anything *)
  Lemma none_empty t chk s' : acquire_block up down maxr fuel chk s t = Ok (s', None, []) -> readyl s t = [] /\ s' = s.
  Proof.
    unfold acquire_block. destruct fuel as [|f]; [discriminate|]. cbn [acquire_loop].
    destruct (next_spec V up down seeds maxr _ _ _ s t I) as [[E N]|[q [pb [N _]]]]; rewrite N; cbn [bind].
    - intros E'. injection E' as <-. auto.
    - destruct (precheck _); [|discriminate]. destruct (release_block _ _ _ _ _ _ _); [|discriminate]. cbn [bind].
      destruct (acquire_loop _ _ _ _ _ _ _ _) as [[[? ?] ?]|]; cbn [bind]; discriminate.
  Qed.
  Lemma not_ready_empty t : ts_ready (s_st s t) <= 0 -> readyl s t = [].
  Proof.
    rewrite (i_cready _ _ _ _ _ _ _ _ _ I). destruct (readyl s t); cbn; auto. lia.
  Qed.
  End At2.

  (* C24 *)
  Lemma acquire_total h s chk t : reach h s -> exists s' r sk, acquire_block up down maxr fuel chk s t = Ok (s', r, sk).
  Proof.
    intros R. destruct (acquire_ok V up down seeds maxr fuel GG EN s0 chk t h s) as [s' [r [sk [E _]]]].
    - eapply reach_HInv; eauto.
    - eauto.
  Qed.
  Lemma release_total h s pick pb : reach h s -> held h (pb_block pb) ->
    pb_status pb = SUCCESS \/ pb_status pb = FAILED ->
    exists s', release_block up down maxr fuel pick s pb = Ok s'.
  Proof.
    intros R Hh St. destruct (release_ok V up down seeds maxr fuel GG EN s0 pick pb h s) as [s' [E _]]; eauto.
    eapply reach_HInv; eauto.
  Qed.
End Props.

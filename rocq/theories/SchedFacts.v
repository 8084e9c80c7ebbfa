(* The invariant of the scheduler, over any dependency graph that is good_graph. *)
From Coq Require Import Arith Lia Permutation.
From Verif Require Import VecFacts.
From Verif Require Export SchedSpec SurfFacts.
Open Scope Z_scope.

Lemma bid_eqb_eq a b : bid_eqb a b = true <-> a = b.
Proof.
  destruct a, b. unfold bid_eqb. cbn [fst snd]. rewrite andb_true_iff, Nat.eqb_eq, Z.eqb_eq.
  split; [intros [-> ->]; auto|intros E; injection E; auto].
Qed.
Lemma bid_ok : eqb_on bid_eqb (fun _ => True).
Proof. intros a b _ _. apply bid_eqb_eq. Qed.

Lemma card_add P Q k b : card P k -> ~ P b -> (forall x, Q x <-> P x \/ x = b) -> card Q (k + 1).
Proof.
  intros [l [N [I E]]] Hb HQ. exists (b :: l). split; [constructor; auto; rewrite I; auto|]. split.
  - intros x. cbn [In]. rewrite I, HQ. intuition.
  - cbn [length]. lia.
Qed.
Lemma card_ext P Q k : card P k -> (forall x, P x <-> Q x) -> card Q k.
Proof. intros [l [N [I E]]] H. exists l. split; auto. split; auto. intros x. rewrite I. auto. Qed.
Lemma card_unique P k k' : card P k -> card P k' -> k = k'.
Proof.
  intros [l [N [I E]]] [l' [N' [I' E']]]. subst. f_equal. apply Permutation_length.
  apply NoDup_Permutation; auto. intros x. rewrite I, I'. tauto.
Qed.
Lemma card_empty P : (forall x, ~ P x) -> card P 0.
Proof. intros H. exists []. split; [constructor|]. split; auto. intros x. split; [intros []|intros Hx; exfalso; eapply H; eauto]. Qed.
Lemma card_le P Q k k' : card P k -> card Q k' -> (forall x, P x -> Q x) -> k <= k'.
Proof.
  intros [l [N [I E]]] [l' [N' [I' E']]] H. subst. apply inj_le, NoDup_incl_length; auto.
  intros x Hx. apply I', H, I, Hx.
Qed.
Lemma card_nonneg P k : card P k -> 0 <= k.
Proof. intros [l [_ [_ E]]]. lia. Qed.
Lemma card_union P Q R k k' : card P k -> card Q k' -> (forall x, P x -> Q x -> False) ->
  (forall x, R x <-> P x \/ Q x) -> card R (k + k').
Proof.
  intros [l [N [I E]]] [l' [N' [I' E']]] D H. exists (l ++ l'). split.
  - apply NoDup_app'; auto. intros x Hx Hy. apply (D x); [apply I|apply I']; auto.
  - split; [|rewrite app_length; lia]. intros x. rewrite in_app_iff, I, I', H. tauto.
Qed.
Lemma card_zero P x : card P 0 -> ~ P x.
Proof. intros [l [N [I E]]] H. apply I in H. destruct l; [destruct H|simpl in E; lia]. Qed.
Lemma card_eq_all P Q k : card P k -> card Q k -> (forall x, P x -> Q x) -> forall x, Q x -> P x.
Proof.
  intros [l [N [I E]]] [l' [N' [I' E']]] H x Hx. apply I.
  assert (incl l' l); [|apply H0, I'; auto].
  apply NoDup_length_incl; auto; [lia|]. intros y Hy. apply I', H, I, Hy.
Qed.

Lemma in_map_pb b l : In b (map pb_block l) <-> exists st, In (PB b st) l.
Proof.
  rewrite in_map_iff. split.
  - intros [[c st] [E H]]. simpl in E. subst. eauto.
  - intros [st H]. exists (PB b st). auto.
Qed.

Definition of_task (t : nat) (bs : list block) : list block := filter (fun b => Nat.eqb (b_task b) t) bs.
Lemma sN_of_task t bs b : In b (of_task t bs) <-> In b bs /\ b_task b = t.
Proof. unfold of_task. rewrite filter_In, Nat.eqb_eq. tauto. Qed.

Section SchedFacts.
  Variables (V : list block) (up down : block -> list block) (seeds : nat -> list block).
  Variable maxr : nat -> Z.
  Variable fuel : nat.
  Hypothesis GG : good_graph V up down seeds.
  Hypothesis EN : enough V fuel.

  Lemma eqb_ok : eqb_on block_eqb (fun x => In x V).
  Proof.
    intros a b Ha Hb. unfold block_eqb. rewrite bid_eqb_eq. split; [|intros ->; auto].
    apply (gg_ids _ _ _ _ GG); auto.
  Qed.
  Lemma upV x y : In x V -> In y (up x) -> In y V.
  Proof. intros. eapply (gg_up _ _ _ _ GG); eauto. Qed.
  Lemma downV x y : In x V -> In y (down x) -> In y V.
  Proof. intros. eapply (gg_down _ _ _ _ GG); eauto. Qed.
  Lemma irr x : In x V -> ~ In x (up x).
  Proof. intros Hx H. destruct (gg_acyclic _ _ _ _ GG) as [rank R]. specialize (R x x Hx H). lia. Qed.

  Definition Fl (N : block -> Z) (b : block) : Prop := 0 < N b /\ maxr (b_task b) < N b.
  Definition Or (N : block -> Z) (b : block) : Prop := In b V /\ exists a, Fl N a /\ ancestor up a b.
  Definition Bd (N : block -> Z) (b : block) : Prop := Fl N b \/ Or N b.
  Definition ups (S : block -> Prop) (b : block) : Prop := forall a, In a (up b) -> S a.
  Definition readyl (s : sched) (t : nat) : list block :=
    q_gen (s_q s t) ++ map pb_block (q_ready (s_q s t)).
  Definition seed (b : block) : Prop := In b (seeds (b_task b)).

  Record Inv (S H : block -> Prop) (N : block -> Z) (s : sched) : Prop := {
    i_surf : inv V S (Bd N) (s_surf s);
    i_keep : keep down V S (Bd N) (s_surf s);
    i_roots : forall t, q_roots (s_q s t) = Z.of_nat (length (q_gen (s_q s t)));
    i_nodup : forall t, NoDup (readyl s t);
    i_ready : forall t b, In b (readyl s t) ->
       In b V /\ b_task b = t /\ ups S b /\ ~ S b /\ ~ Fl N b /\ ~ H b;
    i_held : forall b, H b -> In b V /\ ups S b /\ ~ S b /\ ~ Fl N b;
    i_nproc : forall t, NoDup (q_proc (s_q s t));
    i_proc : forall t i, In i (q_proc (s_q s t)) <-> exists b, H b /\ b_task b = t /\ bid b = i;
    i_S : forall b, S b -> In b V /\ ups S b /\ ~ Fl N b;
    i_F : forall b, Fl N b -> In b V /\ ups S b /\ N b = Z.max (maxr (b_task b)) 0 + 1;
    i_N : forall b, 0 <= N b;
    i_retries : forall b, In b V -> ~ Fl N b -> q_retries (s_q s (b_task b)) (bid b) = N b;
    i_complete : forall b, In b V -> ups S b -> (up b = [] -> seed b) ->
       In b (readyl s (b_task b)) \/ H b \/ S b \/ Fl N b;
    i_cready : forall t, ts_ready (s_st s t) = Z.of_nat (length (readyl s t));
    i_cproc : forall t, ts_processing (s_st s t) = Z.of_nat (length (q_proc (s_q s t)));
    i_ccomp : forall t, card (fun b => S b /\ b_task b = t) (ts_completed (s_st s t));
    i_cfail : forall t, card (fun b => Fl N b /\ b_task b = t) (ts_failed (s_st s t));
    i_corph : forall t, exists k, card (fun b => Or N b /\ b_task b = t) k /\ k <= ts_orphaned (s_st s t);
    i_total : forall t, card (fun b => In b V /\ b_task b = t) (ts_total (s_st s t))
  }.

  Lemma Fl_ext N N' b : (forall x, N x = N' x) -> Fl N b -> Fl N' b.
  Proof. intros E [H1 H2]. unfold Fl. rewrite <- E. auto. Qed.
  Lemma Or_ext N N' b : (forall x, N x = N' x) -> Or N b -> Or N' b.
  Proof. intros E [Vb [a [H1 H2]]]. split; auto. exists a. split; auto. eapply Fl_ext; eauto. Qed.
  Lemma Bd_ext N N' b : (forall x, N x = N' x) -> Bd N b -> Bd N' b.
  Proof. intros E [H|H]; [left; eapply Fl_ext; eauto|right; eapply Or_ext; eauto]. Qed.

  Lemma Inv_iff S H N S' H' N' s :
    (forall x, S x <-> S' x) -> (forall x, H x <-> H' x) -> (forall x, N x = N' x) ->
    Inv S H N s -> Inv S' H' N' s.
  Proof.
    intros ES EH EN' I.
    assert (EN2 : forall x, N' x = N x) by auto.
    assert (FE : forall x, Fl N x <-> Fl N' x) by (intros x; split; apply Fl_ext; auto).
    assert (OE : forall x, Or N x <-> Or N' x) by (intros x; split; apply Or_ext; auto).
    assert (BE : forall x, Bd N x <-> Bd N' x) by (intros x; split; apply Bd_ext; auto).
    assert (UE : forall x, ups S x <-> ups S' x)
      by (intros x; split; intros U a Ha; apply ES; auto).
    destruct I as [I1 I2 I3 I4 I5 I6 I7 I8 I9 I10 I11 I12 I13 I14 I15 I16 I17 I18 I19].
    constructor; auto.
    - split; intros x Hx; [rewrite <- ES|rewrite <- BE]; apply I1; auto.
    - intros y d Vy Sy Hd NS NB. rewrite <- ES in *. rewrite <- BE in NB. eapply I2; eauto.
    - intros t b Hb. rewrite <- UE, <- ES, <- FE, <- EH. auto.
    - intros b Hb. rewrite <- UE, <- ES, <- FE. apply I6, EH; auto.
    - intros t i. rewrite I8. split; intros [b [J1 J2]]; exists b; (split; [apply EH|]; auto).
    - intros b Hb. rewrite <- UE, <- FE. apply I9, ES; auto.
    - intros b Hb. rewrite <- UE, EN2. apply I10, FE; auto.
    - intros b. rewrite EN2. auto.
    - intros b Vb NF. rewrite EN2. apply I12; auto. rewrite FE. auto.
    - intros b Vb U R. rewrite <- EH, <- ES, <- FE. apply I13; auto. apply UE; auto.
    - intros t. eapply card_ext; [apply I16|]. intros x. simpl. rewrite ES. tauto.
    - intros t. eapply card_ext; [apply I17|]. intros x. simpl. rewrite FE. tauto.
    - intros t. destruct (I18 t) as [k [J1 J2]]. exists k. split; auto. eapply card_ext; [apply J1|].
      intros x. simpl. rewrite OE. tauto.
  Qed.

  Lemma Inv_same S H N s s' :
    s_surf s' = s_surf s -> (forall t, s_q s' t = s_q s t) ->
    (forall t, ts_ready (s_st s' t) = ts_ready (s_st s t) /\
       ts_processing (s_st s' t) = ts_processing (s_st s t) /\
       ts_completed (s_st s' t) = ts_completed (s_st s t) /\
       ts_failed (s_st s' t) = ts_failed (s_st s t) /\
       ts_orphaned (s_st s' t) = ts_orphaned (s_st s t) /\
       ts_total (s_st s' t) = ts_total (s_st s t)) ->
    Inv S H N s -> Inv S H N s'.
  Proof.
    intros Es Eq Et I.
    assert (ER : forall t, readyl s' t = readyl s t) by (intros t; unfold readyl; rewrite Eq; auto).
    destruct I as [I1 I2 I3 I4 I5 I6 I7 I8 I9 I10 I11 I12 I13 I14 I15 I16 I17 I18 I19].
    constructor; auto.
    - rewrite Es; auto.
    - rewrite Es; auto.
    - intros t; rewrite Eq; auto.
    - intros t; rewrite ER; auto.
    - intros t b; rewrite ER; auto.
    - intros t; rewrite Eq; auto.
    - intros t i; rewrite Eq; auto.
    - intros b; rewrite Eq; auto.
    - intros b; rewrite ER; auto.
    - intros t; destruct (Et t) as [E1 [E2 [E3 [E4 [E5 E6]]]]]; rewrite ER, E1; auto.
    - intros t; destruct (Et t) as [E1 [E2 [E3 [E4 [E5 E6]]]]]; rewrite Eq, E2; auto.
    - intros t; destruct (Et t) as [E1 [E2 [E3 [E4 [E5 E6]]]]]; rewrite E3; auto.
    - intros t; destruct (Et t) as [E1 [E2 [E3 [E4 [E5 E6]]]]]; rewrite E4; auto.
    - intros t; destruct (Et t) as [E1 [E2 [E3 [E4 [E5 E6]]]]]; rewrite E5; auto.
    - intros t; destruct (Et t) as [E1 [E2 [E3 [E4 [E5 E6]]]]]; rewrite E6; auto.
  Qed.

  (* consequences *)
  Section Cons.
    Variables (S H : block -> Prop) (N : block -> Z) (s : sched).
    Hypothesis I : Inv S H N s.

    Lemma S_anc a b : S b -> ancestor up a b -> S a.
    Proof.
      intros Sb A. induction A as [b Ha|b c A IH Hb].
      - apply (i_S _ _ _ _ I b Sb); auto.
      - apply IH. apply (i_S _ _ _ _ I c Sb); auto.
    Qed.
    Lemma ups_anc a b : ups S b -> ancestor up a b -> S a.
    Proof.
      intros U A. inversion A; subst; [apply U; auto|]. eapply S_anc; [|eauto]. apply U; auto.
    Qed.
    Lemma ups_norph b : ups S b -> ~ Or N b.
    Proof.
      intros U [_ [a [Fa A]]]. apply (i_S _ _ _ _ I a); auto. eapply ups_anc; eauto.
    Qed.
    Lemma SBd x : S x -> Bd N x -> False.
    Proof.
      intros Sx [Fx|Ox].
      - apply (i_S _ _ _ _ I x Sx); auto.
      - apply (ups_norph x); auto. apply (i_S _ _ _ _ I x Sx).
    Qed.
    Lemma F_norph x : Fl N x -> ~ Or N x.
    Proof. intros Fx. apply ups_norph. apply (i_F _ _ _ _ I x Fx). Qed.
    Lemma held_norph x : H x -> ~ Or N x.
    Proof. intros Hx. apply ups_norph. apply (i_held _ _ _ _ I x Hx). Qed.
    Lemma ancV a b : In b V -> ancestor up a b -> In a V.
    Proof. intros Vb A. induction A; [eapply upV; eauto|]. apply IHA. eapply upV; eauto. Qed.
  End Cons.
  Lemma Bd_down N x d : In d V -> In x (up d) -> Bd N x -> Bd N d.
  Proof.
    intros Vd Hx [F|[Vx [a [F A]]]]; right; (split; [exact Vd|]).
    - exists x. split; auto. constructor; auto.
    - exists a. split; auto. eapply anc_more; eauto.
  Qed.

  (* the next block of a queue *)
  Lemma next_spec S H N s t : Inv S H N s ->
    (readyl s t = [] /\ get_next (s_q s t) = Ok (s_q s t, None)) \/
    exists q pb, get_next (s_q s t) = Ok (q, Some pb) /\
      readyl s t = pb_block pb :: (q_gen q ++ map pb_block (q_ready q)) /\
      q_proc q = q_proc (s_q s t) /\ q_retries q = q_retries (s_q s t) /\
      q_roots q = Z.of_nat (length (q_gen q)).
  Proof.
    intros I. unfold get_next, num_ready, readyl. pose proof (i_roots _ _ _ _ I t) as R.
    destruct (s_q s t) as [rd pr rt ro ge]. cbn [q_ready q_proc q_retries q_roots q_gen] in *. subst ro.
    destruct ge as [|b ge].
    - destruct rd as [|pb rd].
      + left. auto.
      + right. cbn. eexists _, pb. split; [reflexivity|]. cbn. auto.
    - right. cbn [length]. replace (0 <? _) with true by (symmetry; apply Z.ltb_lt; lia).
      replace (0 <? _) with true by (symmetry; apply Z.ltb_lt; lia).
      eexists _, (PB b CREATED). split; [reflexivity|].
      cbn [q_ready q_proc q_retries q_roots q_gen pb_block map app]. split; auto. split; auto. split; auto. lia.
  Qed.

  Definition take (s : sched) (t : nat) (q : pqueue) (b : block) : sched :=
    upd_q (upd_st (upd_st (upd_q s t (fun _ => q)) t (ts_add_ready (-1))) t (ts_add_processing 1)) t
          (fun q => q_set_proc q (sadd bid_eqb (bid b) (q_proc q))).

  Lemma upd_get {W} (f : nat -> W) k v k' : upd f k v k' = if Nat.eqb k k' then v else f k'.
  Proof. reflexivity. Qed.

  Lemma in_proc_add (l : list (nat * Z)) i j : In j (sadd bid_eqb i l) <-> j = i \/ In j l.
  Proof. apply (in_sadd bid_eqb (fun _ => True) bid_ok); auto. Qed.

  Lemma hand_step S H N s t q pb : Inv S H N s -> get_next (s_q s t) = Ok (q, Some pb) ->
    let b := pb_block pb in
    In b V /\ b_task b = t /\ ups S b /\ ~ S b /\ ~ Fl N b /\ ~ H b /\
    Inv S (fun x => H x \/ x = b) N (take s t q b).
  Proof.
    intros I G b.
    destruct (next_spec S H N s t I) as [[_ E]|[q' [pb' [E [Er [Ep [Et Eo]]]]]]]; [congruence|].
    assert (q' = q /\ pb' = pb) as [-> ->] by (rewrite G in E; injection E; auto). fold b in Er. clear E.
    assert (Rb : In b (readyl s t)) by (rewrite Er; left; auto).
    destruct (i_ready _ _ _ _ I t b Rb) as [Vb [Tb [Ub [NS [NF NH]]]]].
    split; auto. split; auto. split; auto. split; auto. split; auto. split; auto.
    assert (Eq : forall t', s_q (take s t q b) t' =
       if Nat.eqb t t' then q_set_proc q (sadd bid_eqb (bid b) (q_proc q)) else s_q s t').
    { intros t'. unfold take. cbn. rewrite !upd_get, Nat.eqb_refl. destruct (Nat.eqb t t'); auto. }
    assert (Est : forall t', s_st (take s t q b) t' =
       if Nat.eqb t t' then ts_add_processing 1 (ts_add_ready (-1) (s_st s t)) else s_st s t').
    { intros t'. unfold take. cbn. rewrite !upd_get, Nat.eqb_refl. destruct (Nat.eqb t t'); auto. }
    assert (ER : forall t', readyl (take s t q b) t' =
       if Nat.eqb t t' then q_gen q ++ map pb_block (q_ready q) else readyl s t').
    { intros t'. unfold readyl. rewrite Eq. destruct (Nat.eqb t t'); auto. }
    assert (ND : NoDup (b :: q_gen q ++ map pb_block (q_ready q))).
    { rewrite <- Er. apply (i_nodup _ _ _ _ I). }
    inversion ND as [|? ? Nb ND']; subst x l.
    assert (bnp : forall t', ~ In (bid b) (q_proc (s_q s t'))).
    { intros t' Hi. apply (i_proc _ _ _ _ I) in Hi. destruct Hi as [c [Hc [_ Ec]]].
      apply NH. replace b with c; auto. apply (gg_ids _ _ _ _ GG); auto. apply (i_held _ _ _ _ I c Hc). }
    constructor; try apply I.
    - intros t'. rewrite Eq. destruct (Nat.eqb t t'); [cbn; auto|apply I].
    - intros t'. rewrite ER. destruct (Nat.eqb t t'); [auto|apply I].
    - intros t' c Hc. rewrite ER in Hc. destruct (Nat.eqb t t') eqn:Et'.
      + apply Nat.eqb_eq in Et'. subst t'.
        assert (Hc' : In c (readyl s t)) by (rewrite Er; right; auto).
        destruct (i_ready _ _ _ _ I t c Hc') as [J1 [J2 [J3 [J4 [J5 J6]]]]].
        split; auto. split; auto. split; auto. split; auto. split; auto. intros [?| ->]; auto.
      + destruct (i_ready _ _ _ _ I t' c Hc) as [J1 [J2 [J3 [J4 [J5 J6]]]]].
        split; auto. split; auto. split; auto. split; auto. split; auto. intros [?| ->]; auto.
        apply Nat.eqb_neq in Et'. congruence.
    - intros c [Hc| ->]; [apply (i_held _ _ _ _ I); auto|auto].
    - intros t'. rewrite Eq. destruct (Nat.eqb t t'); [|apply I]. cbn.
      apply (NoDup_sadd bid_eqb (fun _ => True) bid_ok); auto. rewrite Ep. apply I.
    - intros t' i. rewrite Eq. destruct (Nat.eqb t t') eqn:Et'.
      + apply Nat.eqb_eq in Et'. subst t'. cbn. rewrite in_proc_add, Ep, (i_proc _ _ _ _ I). split.
        * intros [->|[c [Hc [Tc Ec]]]]; [exists b; auto|exists c; auto].
        * intros [c [[Hc| ->] [Tc Ec]]]; [right; exists c; auto|left; auto].
      + apply Nat.eqb_neq in Et'. rewrite (i_proc _ _ _ _ I). split.
        * intros [c [Hc [Tc Ec]]]; exists c; auto.
        * intros [c [[Hc| ->] [Tc Ec]]]; [exists c; auto|congruence].
    - intros c Vc NFc. rewrite Eq. destruct (Nat.eqb t (b_task c)) eqn:Et'; [|apply I; auto].
      apply Nat.eqb_eq in Et'. cbn. rewrite Et, Et'. apply I; auto.
    - intros c Vc Uc Rc. rewrite ER.
      destruct (i_complete _ _ _ _ I c Vc Uc Rc) as [J|[J|[J|J]]]; auto.
      destruct (Nat.eqb t (b_task c)) eqn:Et'; auto. apply Nat.eqb_eq in Et'. rewrite <- Et', Er in J.
      destruct J as [->|J]; auto.
    - intros t'. rewrite ER, Est. pose proof (i_cready _ _ _ _ I t') as J.
      destruct (Nat.eqb t t') eqn:Et'; auto. apply Nat.eqb_eq in Et'. subst t'.
      cbn. rewrite J, Er. cbn [length]. lia.
    - intros t'. rewrite Eq, Est. pose proof (i_cproc _ _ _ _ I t') as J.
      destruct (Nat.eqb t t') eqn:Et'; auto. apply Nat.eqb_eq in Et'. subst t'.
      cbn. rewrite J, Ep. unfold sadd.
      replace (mem bid_eqb (bid b) (q_proc (s_q s t))) with false.
      + rewrite app_length. cbn [length]. lia.
      + symmetry. apply (mem_nin bid_eqb (fun _ => True) bid_ok); auto.
    - intros t'. rewrite Est. destruct (Nat.eqb t t') eqn:Et'; [|apply I].
      apply Nat.eqb_eq in Et'. subst t'. cbn. apply I.
    - intros t'. rewrite Est. destruct (Nat.eqb t t') eqn:Et'; [|apply I].
      apply Nat.eqb_eq in Et'. subst t'. cbn. apply I.
    - intros t'. rewrite Est. destruct (Nat.eqb t t') eqn:Et'; [|apply I].
      apply Nat.eqb_eq in Et'. subst t'. cbn. apply I.
    - intros t'. rewrite Est. destruct (Nat.eqb t t') eqn:Et'; [|apply I].
      apply Nat.eqb_eq in Et'. subst t'. cbn. apply I.
  Qed.

  Definition after_remove (s : sched) (b : block) : sched :=
    upd_st (upd_q s (b_task b) (fun q => q_set_proc q (sdel bid_eqb (bid b) (q_proc (s_q s (b_task b))))))
           (b_task b) (ts_add_processing (-1)).

  Lemma remove_ok S H N s b : Inv S H N s -> H b -> remove_from_processing s b = Ok (after_remove s b).
  Proof.
    intros I Hb. unfold remove_from_processing, sremove.
    replace (mem bid_eqb (bid b) (q_proc (s_q s (b_task b)))) with true; auto.
    symmetry. apply (mem_in bid_eqb (fun _ => True) bid_ok); auto.
    apply (i_proc _ _ _ _ I). exists b. auto.
  Qed.

  (* facts about the state after removing a block in flight *)
  Lemma rm_q s b t : q_gen (s_q (after_remove s b) t) = q_gen (s_q s t) /\
    q_ready (s_q (after_remove s b) t) = q_ready (s_q s t) /\
    q_roots (s_q (after_remove s b) t) = q_roots (s_q s t) /\
    q_retries (s_q (after_remove s b) t) = q_retries (s_q s t).
  Proof.
    unfold after_remove. cbn. rewrite upd_get. destruct (Nat.eqb (b_task b) t) eqn:E; auto.
    apply Nat.eqb_eq in E. subst. cbn. auto.
  Qed.
  Lemma rm_proc S H N s b t i : Inv S H N s -> H b ->
    (In i (q_proc (s_q (after_remove s b) t)) <-> exists c, (H c /\ c <> b) /\ b_task c = t /\ bid c = i).
  Proof.
    intros I Hb. unfold after_remove. cbn. rewrite upd_get. destruct (Nat.eqb (b_task b) t) eqn:E.
    - apply Nat.eqb_eq in E. subst t. cbn.
      rewrite (in_sdel bid_eqb (fun _ => True) bid_ok) by auto.
      rewrite (i_proc _ _ _ _ I). split.
      + intros [[c [Hc [Tc Ec]]] Ne]. exists c. split; auto. split; auto. intros ->. auto.
      + intros [c [[Hc Nc] [Tc Ec]]]. split; [exists c; auto|]. intros ->. apply Nc.
        apply (gg_ids _ _ _ _ GG); auto; apply (i_held _ _ _ _ I); auto.
    - apply Nat.eqb_neq in E. rewrite (i_proc _ _ _ _ I). split; intros [c Hc].
      + exists c. intuition. subst. auto.
      + exists c. intuition.
  Qed.
  Lemma rm_nproc S H N s b t : Inv S H N s -> NoDup (q_proc (s_q (after_remove s b) t)).
  Proof.
    intros I. unfold after_remove. cbn. rewrite upd_get. destruct (Nat.eqb (b_task b) t) eqn:E; [|apply I].
    cbn. apply NoDup_sdel. apply I.
  Qed.
  Lemma rm_cproc S H N s b t : Inv S H N s -> H b ->
    ts_processing (s_st (after_remove s b) t) = Z.of_nat (length (q_proc (s_q (after_remove s b) t))).
  Proof.
    intros I Hb. pose proof (i_cproc _ _ _ _ I t) as J.
    unfold after_remove. cbn. rewrite !upd_get. destruct (Nat.eqb (b_task b) t) eqn:E; auto.
    apply Nat.eqb_eq in E. subst t. cbn. rewrite J.
    set (l := q_proc (s_q s (b_task b))).
    assert (Hi : In (bid b) l) by (apply (i_proc _ _ _ _ I); exists b; auto).
    assert (P : length (bid b :: sdel bid_eqb (bid b) l) = length l).
    { apply Permutation_length. apply NoDup_Permutation.
      - constructor; [rewrite (in_sdel bid_eqb (fun _ => True) bid_ok) by auto; tauto|].
        apply NoDup_sdel. apply I.
      - apply I.
      - intros x. cbn [In]. rewrite (in_sdel bid_eqb (fun _ => True) bid_ok) by auto.
        split; [intros [<-|[? _]]; auto|]. intros Hx.
        destruct (bid_eqb (bid b) x) eqn:Ex; [left; apply bid_eqb_eq; auto|right; split; auto].
        intros ->. rewrite (proj2 (bid_eqb_eq (bid b) (bid b)) eq_refl) in Ex. discriminate. }
    cbn [length] in P. lia.
  Qed.
  Lemma rm_st s b t : ts_ready (s_st (after_remove s b) t) = ts_ready (s_st s t) /\
    ts_completed (s_st (after_remove s b) t) = ts_completed (s_st s t) /\
    ts_failed (s_st (after_remove s b) t) = ts_failed (s_st s t) /\
    ts_orphaned (s_st (after_remove s b) t) = ts_orphaned (s_st s t) /\
    ts_skipped (s_st (after_remove s b) t) = ts_skipped (s_st s t) /\
    ts_total (s_st (after_remove s b) t) = ts_total (s_st s t).
  Proof.
    unfold after_remove. cbn. rewrite upd_get. destruct (Nat.eqb (b_task b) t) eqn:E; cbn;
      [apply Nat.eqb_eq in E; subst t|]; repeat split; auto.
  Qed.

  (* queueing newly ready blocks *)
  Lemma urq bs : forall s, let s' := update_ready_queue s bs in
    s_surf s' = s_surf s /\ s_order s' = s_order s /\
    forall t, q_gen (s_q s' t) = q_gen (s_q s t) /\
      q_ready (s_q s' t) = q_ready (s_q s t) ++ map (fun b => PB b CREATED) (of_task t bs) /\
      q_roots (s_q s' t) = q_roots (s_q s t) /\ q_retries (s_q s' t) = q_retries (s_q s t) /\
      q_proc (s_q s' t) = q_proc (s_q s t) /\
      ts_ready (s_st s' t) = ts_ready (s_st s t) + Z.of_nat (length (of_task t bs)) /\
      ts_processing (s_st s' t) = ts_processing (s_st s t) /\
      ts_completed (s_st s' t) = ts_completed (s_st s t) /\
      ts_failed (s_st s' t) = ts_failed (s_st s t) /\
      ts_orphaned (s_st s' t) = ts_orphaned (s_st s t) /\
      ts_skipped (s_st s' t) = ts_skipped (s_st s t) /\
      ts_total (s_st s' t) = ts_total (s_st s t).
  Proof.
    unfold update_ready_queue. induction bs as [|b bs IH]; intros s.
    - cbn. split; auto. split; auto. intros t. rewrite app_nil_r. repeat split; auto. lia.
    - cbn [fold_left].
      assert (Q : forall t,
        s_q (queue_ready_block s (PB b CREATED)) t =
          (if Nat.eqb (b_task b) t then q_push (s_q s t) (PB b CREATED) else s_q s t) /\
        s_st (queue_ready_block s (PB b CREATED)) t =
          (if Nat.eqb (b_task b) t then ts_add_ready 1 (s_st s t) else s_st s t)).
      { intros t. unfold queue_ready_block. cbn. rewrite !upd_get.
        destruct (Nat.eqb (b_task b) t) eqn:E; auto. apply Nat.eqb_eq in E. subst t. auto. }
      destruct (IH (queue_ready_block s (PB b CREATED))) as [I1 [I0 I2]]. clear IH.
      split; [rewrite I1; auto|]. split; [rewrite I0; auto|]. intros t.
      destruct (I2 t) as [J1 [J2 [J3 [J4 [J5 [J6 [J7 [J8 [J9 [J10 [J11 J12]]]]]]]]]]]. clear I1 I0 I2.
      destruct (Q t) as [Q1 Q2]. rewrite Q1 in *. rewrite Q2 in *. clear Q Q1 Q2.
      rewrite J1, J2, J3, J4, J5, J6, J7, J8, J9, J10, J11, J12. cbn [of_task filter].
      destruct (Nat.eqb (b_task b) t) eqn:E; [|repeat split; auto].
      cbn [q_gen q_ready q_roots q_retries q_proc q_push ts_ready ts_processing ts_completed ts_failed ts_orphaned ts_skipped ts_total ts_add_ready map length].
      rewrite <- app_assoc. unfold of_task. repeat split; auto. lia.
  Qed.

  Lemma map_created bs : map pb_block (map (fun b => PB b CREATED) bs) = bs.
  Proof. rewrite map_map. cbn. apply map_id. Qed.

  Lemma surfV S H N s y : Inv S H N s -> In y (surface (s_surf s)) -> In y V /\ S y.
  Proof. intros I. apply (i_surf _ _ _ _ I). Qed.

  Lemma ups_surface S H N s b : Inv S H N s -> In b V -> ups S b -> ~ S b -> ~ Fl N b ->
    forall u, In u (up b) -> In u (surface (s_surf s)).
  Proof.
    intros I Vb Ub NS NF u Hu. assert (Vu : In u V) by (eapply upV; eauto).
    apply (i_keep _ _ _ _ I u b); auto.
    - apply (gg_dual _ _ _ _ GG); auto.
    - intros [?|O]; auto. apply (ups_norph S H N s I b Ub O).
  Qed.

  Lemma succ_step S H N s b pick : Inv S H N s -> H b ->
    exists s', release_block up down maxr fuel pick s (PB b SUCCESS) = Ok s' /\
      Inv (fun x => S x \/ x = b) (fun x => H x /\ x <> b) N s' /\
      (forall t, ts_skipped (s_st s' t) = ts_skipped (s_st s t) /\
                 ts_orphaned (s_st s' t) = ts_orphaned (s_st s t)) /\
      (forall x, In x (boundary (s_surf s)) -> ~ In x (boundary (s_surf s')) ->
          exists u, In u (up b) /\ In x (down u)) /\
      s_order s' = s_order s.
  Proof.
    intros I Hb. destruct (i_held _ _ _ _ I b Hb) as [Vb [Ub [NSb NFb]]].
    set (S' := fun x => S x \/ x = b).
    assert (cl : forall x, S' x -> ups S' x).
    { intros x [Sx| ->] a Ha; left; [apply (i_S _ _ _ _ I x Sx); auto|auto]. }
    assert (nf : forall x, S' x -> ~ Fl N x).
    { intros x [Sx| ->]; auto. apply (i_S _ _ _ _ I x Sx). }
    assert (anc' : forall a x, S' x -> ancestor up a x -> S' a).
    { intros a x Sx A. induction A as [x Ha|x c A IH Hx]; [apply (cl x Sx); auto|].
      apply IH. apply (cl c Sx); auto. }
    assert (SB' : forall x, S' x -> Bd N x -> False).
    { intros x Sx [Fx|[_ [a [Fa A]]]]; [apply (nf x); auto|apply (nf a); auto]. eapply anc'; eauto. }
    assert (B' : forall d, ups S' d -> ~ Fl N d -> ~ Bd N d).
    { intros d Ud NFd [Fd|[_ [a [Fa A]]]]; auto. apply (nf a); auto.
      inversion A; subst; [apply Ud; auto|]. eapply anc'; [apply Ud|]; eauto. }
    destruct (mark_success_spec block_eqb up down V eqb_ok upV downV S' (Bd N) SB' (Bd_down N)
                (s_surf s) b Vb (or_intror eq_refl) (gg_nodup_up _ _ _ _ GG b Vb) (irr b Vb))
      as [sf [E [Is [Ik [_ [Bo _]]]]]].
    { split; intros x Hx; [|apply (i_surf _ _ _ _ I); auto].
      destruct (proj1 (i_surf _ _ _ _ I) x Hx). split; auto. left; auto. }
    { apply (ups_surface S H N); auto. }
    { intros y d Vy Ny Sy Hd NSd NBd. destruct Sy as [Sy|]; [|congruence].
      apply (i_keep _ _ _ _ I y d); auto. intros Sd. apply NSd. left; auto. }
    set (news := filter (fun d => forallb (fun u => mem block_eqb u (sadd block_eqb b (surface (s_surf s)))) (up d)) (down b)) in E.
    assert (Hnews : forall d, In d news <-> In d (down b) /\ ups S' d).
    { intros d. unfold news. rewrite filter_In. split; intros [Hd J]; split; auto.
      - intros a Ha. rewrite forallb_forall in J. specialize (J a Ha).
        assert (Va : In a V) by (apply (upV d a); auto; apply (downV b d); auto).
        apply (mem_in block_eqb (fun x => In x V) eqb_ok) in J; auto.
        + apply (in_sadd block_eqb (fun x => In x V) eqb_ok) in J; auto.
          * destruct J as [->|J]; [right; auto|left; apply (surfV S H N s); auto].
          * intros y Hy. apply (surfV S H N s); auto.
        + intros y Hy. apply (in_sadd block_eqb (fun x => In x V) eqb_ok) in Hy; auto.
          * destruct Hy as [->|Hy]; auto. apply (surfV S H N s); auto.
          * intros z Hz. apply (surfV S H N s); auto.
      - assert (Vd : In d V) by (eapply downV; eauto).
        assert (bd : In b (up d)) by (apply (gg_dual _ _ _ _ GG); auto).
        assert (NSd : ~ S d) by (intros Sd; apply NSb, (i_S _ _ _ _ I d Sd); auto).
        assert (NFd : ~ Fl N d) by (intros Fd; apply NSb, (i_F _ _ _ _ I d Fd); auto).
        apply forallb_forall. intros a Ha. assert (Va : In a V) by (eapply upV; eauto).
        assert (sV : forall y, In y (surface (s_surf s)) -> In y V)
          by (intros y Hy; apply (surfV S H N s); auto).
        apply (mem_in block_eqb (fun x => In x V) eqb_ok); auto.
        { intros y Hy. apply (in_sadd block_eqb (fun x => In x V) eqb_ok) in Hy; auto.
          destruct Hy as [->|Hy]; auto. }
        apply (in_sadd block_eqb (fun x => In x V) eqb_ok); auto.
        destruct (J a Ha) as [Sa| ->]; [right|left; auto].
        apply (i_keep _ _ _ _ I a d); auto. apply (gg_dual _ _ _ _ GG); auto. }
    assert (Nnews : NoDup news) by (apply NoDup_filter, (gg_nodup_down _ _ _ _ GG); auto).
    unfold release_block. cbn [pb_block pb_status]. rewrite (remove_ok S H N s b I Hb). cbn [bind].
    change (s_surf (after_remove s b)) with (s_surf s). rewrite E. cbn [bind].
    set (s1 := after_remove s b).
    set (s2 := upd_st (set_surf s1 sf) (b_task b) (ts_add_completed 1)).
    destruct (urq news s2) as [U1 [U0 U2]].
    eexists. split; [reflexivity|].
    set (s3 := update_ready_queue s2 news) in *.
    assert (St2 : forall t, s_st s2 t = if Nat.eqb (b_task b) t then ts_add_completed 1 (s_st s1 t) else s_st s1 t).
    { intros t. unfold s2, upd_st, set_surf. cbn [s_st]. rewrite upd_get.
      destruct (Nat.eqb (b_task b) t) eqn:Et; auto. apply Nat.eqb_eq in Et. subst t. auto. }
    assert (Q2 : forall t, s_q s2 t = s_q s1 t) by (intros; reflexivity).
    assert (ER : forall t, readyl s3 t = readyl s t ++ of_task t news).
    { intros t. unfold readyl. destruct (U2 t) as [J1 [J2 _]]. rewrite J1, J2, Q2.
      destruct (rm_q s b t) as [R1 [R2 _]]. fold s1 in R1, R2. rewrite R1, R2.
      rewrite map_app, map_created, app_assoc. auto. }
    assert (newp : forall d, In d news -> In d V /\ ~ S d /\ ~ Fl N d /\ ~ H d /\ d <> b /\ ~ In d (readyl s (b_task d))).
    { intros d Hd. apply Hnews in Hd. destruct Hd as [Hd Ud].
      assert (Vd : In d V) by (eapply downV; eauto).
      assert (bd : In b (up d)) by (apply (gg_dual _ _ _ _ GG); auto).
      split; auto. split; [intros Sd; apply NSb, (i_S _ _ _ _ I d Sd); auto|].
      split; [intros Fd; apply NSb, (i_F _ _ _ _ I d Fd); auto|].
      split; [intros Fd; apply NSb, (i_held _ _ _ _ I d Fd); auto|].
      split; [intros ->; apply (irr b); auto|].
      intros Hr. apply NSb, (i_ready _ _ _ _ I _ d Hr); auto. }
    split; [|split; [|split]].
    - constructor.
      + rewrite U1. exact Is.
      + rewrite U1. exact Ik.
      + intros t. destruct (U2 t) as [J1 [J2 [J3 _]]]. rewrite J1, J3, Q2.
        destruct (rm_q s b t) as [R1 [R2 [R3 _]]]. fold s1 in R1, R3. rewrite R1, R3. apply I.
      + intros t. rewrite ER. apply NoDup_app'; [apply I|apply NoDup_filter; auto|].
        intros d Hd Hn. apply sN_of_task in Hn. destruct Hn as [Hn <-].
        apply (newp d Hn). auto.
      + intros t d Hd. rewrite ER, in_app_iff in Hd. destruct Hd as [Hd|Hd].
        * destruct (i_ready _ _ _ _ I t d Hd) as [J1 [J2 [J3 [J4 [J5 J6]]]]].
          split; auto. split; auto. split; [intros a Ha; left; auto|].
          split; [intros [?| ->]; auto|]. split; auto. tauto.
        * apply sN_of_task in Hd. destruct Hd as [Hd Td].
          destruct (newp d Hd) as [J1 [J2 [J3 [J4 [J5 J6]]]]]. apply Hnews in Hd.
          split; auto. split; auto. split; [apply Hd|].
          split; [intros [?| ->]; auto|]. split; auto. tauto.
      + intros d [Hd Nd]. destruct (i_held _ _ _ _ I d Hd) as [J1 [J2 [J3 J4]]].
        split; auto. split; [intros a Ha; left; auto|]. split; auto. intros [?| ->]; auto.
      + intros t. destruct (U2 t) as [_ [_ [_ [_ [J _]]]]]. rewrite J, Q2. eapply rm_nproc; eauto.
      + intros t i. destruct (U2 t) as [_ [_ [_ [_ [J _]]]]]. rewrite J, Q2. eapply rm_proc; eauto.
      + intros x Sx. split; [destruct Sx as [Sx| ->]; auto; apply (i_S _ _ _ _ I x Sx)|].
        split; [apply cl; auto|apply nf; auto].
      + intros x Fx. destruct (i_F _ _ _ _ I x Fx) as [J1 [J2 J3]]. split; auto.
        split; auto. intros a Ha; left; auto.
      + apply I.
      + intros x Vx NFx. destruct (U2 (b_task x)) as [_ [_ [_ [J _]]]]. rewrite J, Q2.
        destruct (rm_q s b (b_task x)) as [_ [_ [_ R]]]. fold s1 in R. rewrite R. apply I; auto.
      + intros x Vx Ux Rx. rewrite ER, in_app_iff.
        destruct (block_dec x b) as [->|Nx]; [right; right; left; right; auto|].
        destruct (in_dec block_dec b (up x)) as [Hbx|Hbx].
        * left. right. apply sN_of_task. split; auto. apply Hnews. split; auto.
          apply (gg_dual _ _ _ _ GG); auto.
        * assert (Ux' : ups S x).
          { intros a Ha. destruct (Ux a Ha) as [?| ->]; auto. tauto. }
          destruct (i_complete _ _ _ _ I x Vx Ux' Rx) as [J|[J|[J|J]]]; auto.
          right. right. left. left. auto.
      + intros t. rewrite ER, app_length. destruct (U2 t) as [_ [_ [_ [_ [_ [J _]]]]]]. rewrite J.
        assert (X : ts_ready (s_st s2 t) = ts_ready (s_st s t)).
        { rewrite St2. destruct (Nat.eqb (b_task b) t); apply (rm_st s b t). }
        rewrite X, (i_cready _ _ _ _ I). lia.
      + intros t. destruct (U2 t) as [_ [_ [_ [_ [Jp [_ [J _]]]]]]]. rewrite J, Jp, Q2.
        pose proof (rm_cproc S H N s b t I Hb) as R. fold s1 in R. rewrite <- R.
        rewrite St2. destruct (Nat.eqb (b_task b) t); auto.
      + intros t. destruct (U2 t) as [_ [_ [_ [_ [_ [_ [_ [J _]]]]]]]]. rewrite J.
        pose proof (i_ccomp _ _ _ _ I t) as C.
        destruct (rm_st s b t) as [_ [R _]]. fold s1 in R. rewrite <- R in C.
        rewrite St2. destruct (Nat.eqb (b_task b) t) eqn:Et; cbn [ts_ready ts_processing ts_completed ts_failed ts_orphaned ts_skipped ts_total ts_add_completed].
        * apply Nat.eqb_eq in Et. subst t. eapply (card_add _ _ _ b); [exact C|tauto|].
          intros x. cbv beta. unfold S'. split; [|intros [?| ->]; tauto].
          intros [[?| ->] ?]; auto.
        * apply Nat.eqb_neq in Et. eapply card_ext; [exact C|]. intros x. cbv beta. unfold S'.
          split; [tauto|]. intros [[?| ->] ?]; [tauto|congruence].
      + intros t. destruct (U2 t) as [_ [_ [_ [_ [_ [_ [_ [_ [J _]]]]]]]]]. rewrite J.
        destruct (rm_st s b t) as [_ [_ [R _]]]. fold s1 in R.
        rewrite St2. destruct (Nat.eqb (b_task b) t); cbn [ts_ready ts_processing ts_completed ts_failed ts_orphaned ts_skipped ts_total ts_add_completed]; rewrite R; apply I.
      + intros t. destruct (U2 t) as [_ [_ [_ [_ [_ [_ [_ [_ [_ [J _]]]]]]]]]]. rewrite J.
        destruct (rm_st s b t) as [_ [_ [_ [R _]]]]. fold s1 in R.
        rewrite St2. destruct (Nat.eqb (b_task b) t); cbn [ts_ready ts_processing ts_completed ts_failed ts_orphaned ts_skipped ts_total ts_add_completed]; rewrite R; apply I.
      + intros t. destruct (U2 t) as [_ [_ [_ [_ [_ [_ [_ [_ [_ [_ [_ J]]]]]]]]]]]. rewrite J.
        destruct (rm_st s b t) as [_ [_ [_ [_ [_ R]]]]]. fold s1 in R.
        rewrite St2. destruct (Nat.eqb (b_task b) t); cbn [ts_ready ts_processing ts_completed ts_failed ts_orphaned ts_skipped ts_total ts_add_completed]; rewrite R; apply I.
    - intros t. destruct (U2 t) as [_ [_ [_ [_ [_ [_ [_ [_ [_ [J1 [J2 _]]]]]]]]]]]. rewrite J1, J2.
      destruct (rm_st s b t) as [_ [_ [_ [R1 [R2 _]]]]]. fold s1 in R1, R2.
      rewrite St2. destruct (Nat.eqb (b_task b) t); cbn [ts_ready ts_processing ts_completed ts_failed ts_orphaned ts_skipped ts_total ts_add_completed]; auto.
    - intros x Hx Nx. rewrite U1 in Nx. apply Bo; auto.
    - rewrite U0. reflexivity.
  Qed.

  Definition bump (N : block -> Z) (b x : block) : Z := if block_dec x b then N x + 1 else N x.
  Lemma bump_same N b : bump N b b = N b + 1.
  Proof. unfold bump. destruct (block_dec b b); congruence. Qed.
  Lemma bump_other N b x : x <> b -> bump N b x = N x.
  Proof. unfold bump. destruct (block_dec x b); congruence. Qed.

  (* a failed release with retries left *)
  Lemma retry_step S H N s b pick : Inv S H N s -> H b -> N b < maxr (b_task b) ->
    exists s', release_block up down maxr fuel pick s (PB b FAILED) = Ok s' /\
      Inv S (fun x => H x /\ x <> b) (bump N b) s' /\
      (forall t, ts_skipped (s_st s' t) = ts_skipped (s_st s t) /\
                 ts_orphaned (s_st s' t) = ts_orphaned (s_st s t)) /\
      s_surf s' = s_surf s /\ ~ Fl (bump N b) b /\
      s_order s' = s_order s.
  Proof.
    intros I Hb Hr. destruct (i_held _ _ _ _ I b Hb) as [Vb [Ub [NSb NFb]]].
    unfold release_block. cbn [pb_block pb_status]. rewrite (remove_ok S H N s b I Hb). cbn [bind].
    set (s1 := after_remove s b).
    assert (R1 : q_retries (s_q s1 (b_task b)) (bid b) = N b).
    { destruct (rm_q s b (b_task b)) as [_ [_ [_ R]]]. fold s1 in R. rewrite R. apply I; auto. }
    rewrite R1. replace (maxr (b_task b) <=? N b) with false by (symmetry; apply Z.leb_gt; lia).
    eexists. split; [reflexivity|].
    set (s3 := upd_q _ _ _).
    assert (NF' : ~ Fl (bump N b) b) by (intros [_ F]; rewrite bump_same in F; lia).
    assert (FE : forall x, Fl (bump N b) x <-> Fl N x).
    { intros x. destruct (block_dec x b) as [->|Nx]; [tauto|].
      unfold Fl. rewrite bump_other by auto. tauto. }
    assert (OE : forall x, Or (bump N b) x <-> Or N x).
    { intros x. split; intros [Vx [a [F A]]]; (split; [auto|]); exists a; (split; [apply FE; auto|auto]). }
    assert (BE : forall x, Bd (bump N b) x <-> Bd N x).
    { intros x. unfold Bd. rewrite FE, OE. tauto. }
    assert (EQ : forall t, s_q s3 t = if Nat.eqb (b_task b) t
       then q_inc_retry (q_push (s_q s1 t) (PB b FAILED)) (bid b) else s_q s1 t).
    { intros t. unfold s3, queue_ready_block, upd_q, upd_st. cbn [s_q pb_block]. rewrite !upd_get.
      destruct (Nat.eqb (b_task b) t) eqn:Et; auto. rewrite Nat.eqb_refl.
      apply Nat.eqb_eq in Et. subst t. auto. }
    assert (ET : forall t, s_st s3 t = if Nat.eqb (b_task b) t
       then ts_add_ready 1 (s_st s1 t) else s_st s1 t).
    { intros t. unfold s3, queue_ready_block, upd_q, upd_st. cbn [s_st pb_block]. rewrite !upd_get.
      destruct (Nat.eqb (b_task b) t) eqn:Et; auto.
      apply Nat.eqb_eq in Et. subst t. auto. }
    assert (ER : forall t, readyl s3 t = readyl s t ++ (if Nat.eqb (b_task b) t then [b] else [])).
    { intros t. unfold readyl. rewrite EQ. destruct (rm_q s b t) as [R2 [R3 _]]. fold s1 in R2, R3.
      destruct (Nat.eqb (b_task b) t).
      - cbn [q_inc_retry q_push q_gen q_ready]. rewrite R2, R3, map_app, app_assoc. auto.
      - rewrite R2, R3, app_nil_r. auto. }
    assert (inb : forall t x, In x (if Nat.eqb (b_task b) t then [b] else []) <-> x = b /\ b_task b = t).
    { intros t x. destruct (Nat.eqb (b_task b) t) eqn:Et.
      - apply Nat.eqb_eq in Et. cbn. intuition.
      - apply Nat.eqb_neq in Et. cbn. intuition. }
    split; [|split; [|split; [|split]]]; auto.
    - constructor.
      + destruct (i_surf _ _ _ _ I) as [J1 J2]. split; auto. intros x Hx. rewrite BE. apply J2; auto.
      + intros y d Vy Sy Hd NSd NBd. rewrite BE in NBd. apply (i_keep _ _ _ _ I y d); auto.
      + intros t. rewrite EQ. destruct (rm_q s b t) as [R2 [R3 [R4 _]]]. fold s1 in R2, R3, R4.
        destruct (Nat.eqb (b_task b) t); cbn [q_inc_retry q_push q_gen q_roots]; rewrite R2, R4; apply I.
      + intros t. rewrite ER. apply NoDup_app'; [apply I| |].
        * destruct (Nat.eqb (b_task b) t); constructor; auto. constructor.
        * intros x Hx Hy. apply inb in Hy. destruct Hy as [-> _].
          apply (i_ready _ _ _ _ I t b Hx). auto.
      + intros t x Hx. rewrite ER, in_app_iff, inb in Hx. rewrite FE. destruct Hx as [Hx|[-> Et]].
        * destruct (i_ready _ _ _ _ I t x Hx) as [J1 [J2 [J3 [J4 [J5 J6]]]]]. tauto.
        * repeat split; auto. tauto.
      + intros x [Hx Nx]. rewrite FE. apply I; auto.
      + intros t. rewrite EQ. pose proof (rm_nproc S H N s b t I) as R. fold s1 in R.
        destruct (Nat.eqb (b_task b) t); auto.
      + intros t i. rewrite EQ. pose proof (rm_proc S H N s b t i I Hb) as R. fold s1 in R.
        destruct (Nat.eqb (b_task b) t); auto.
      + intros x Sx. rewrite FE. apply I; auto.
      + intros x Fx. rewrite FE in Fx. rewrite bump_other by (intros ->; auto). apply I; auto.
      + intros x. pose proof (i_N _ _ _ _ I x). unfold bump. destruct (block_dec x b); lia.
      + intros x Vx NFx. rewrite FE in NFx. rewrite EQ.
        destruct (rm_q s b (b_task x)) as [_ [_ [_ R]]]. fold s1 in R.
        pose proof (i_retries _ _ _ _ I x Vx NFx) as J. rewrite <- R in J.
        destruct (Nat.eqb (b_task b) (b_task x)) eqn:Et.
        * cbn [q_inc_retry q_retries q_push]. destruct (bid_eqb (bid b) (bid x)) eqn:Eb.
          { apply bid_eqb_eq in Eb. assert (b = x) as <- by (apply (gg_ids _ _ _ _ GG); auto).
            rewrite J, bump_same. auto. }
          { rewrite bump_other; auto. intros ->. rewrite (proj2 (bid_eqb_eq _ _) eq_refl) in Eb. discriminate. }
        * rewrite bump_other; auto. intros ->. rewrite Nat.eqb_refl in Et. discriminate.
      + intros x Vx Ux Rx. rewrite ER, in_app_iff, inb, FE.
        destruct (block_dec x b) as [->|Nx]; [left; right; auto|].
        destruct (i_complete _ _ _ _ I x Vx Ux Rx) as [J|[J|[J|J]]]; auto.
      + intros t. rewrite ER, app_length, ET. destruct (rm_st s b t) as [R _]. fold s1 in R.
        pose proof (i_cready _ _ _ _ I t) as J.
        destruct (Nat.eqb (b_task b) t); cbn [ts_ready ts_add_ready length]; rewrite R, J; lia.
      + intros t. rewrite EQ, ET. pose proof (rm_cproc S H N s b t I Hb) as R. fold s1 in R.
        destruct (Nat.eqb (b_task b) t); cbn [ts_processing ts_add_ready q_inc_retry q_push q_proc]; auto.
      + intros t. rewrite ET. destruct (rm_st s b t) as [_ [R _]]. fold s1 in R.
        destruct (Nat.eqb (b_task b) t); cbn [ts_completed ts_add_ready]; rewrite R; apply I.
      + intros t. rewrite ET. destruct (rm_st s b t) as [_ [_ [R _]]]. fold s1 in R.
        apply (card_ext (fun x => Fl N x /\ b_task x = t)); [|intros x; rewrite FE; tauto].
        destruct (Nat.eqb (b_task b) t); cbn [ts_failed ts_add_ready]; rewrite R; apply I.
      + intros t. rewrite ET. destruct (rm_st s b t) as [_ [_ [_ [R _]]]]. fold s1 in R.
        destruct (i_corph _ _ _ _ I t) as [k [C Hk]]. exists k.
        split; [apply (card_ext _ _ _ C); intros x; cbv beta; rewrite OE; tauto|].
        destruct (Nat.eqb (b_task b) t); cbn [ts_orphaned ts_add_ready]; rewrite R; auto.
      + intros t. rewrite ET. destruct (rm_st s b t) as [_ [_ [_ [_ [_ R]]]]]. fold s1 in R.
        destruct (Nat.eqb (b_task b) t); cbn [ts_total ts_add_ready]; rewrite R; apply I.
    - intros t. rewrite ET. destruct (rm_st s b t) as [_ [_ [_ [R [R' _]]]]]. fold s1 in R, R'.
      destruct (Nat.eqb (b_task b) t); cbn [ts_orphaned ts_skipped ts_add_ready]; auto.
  Qed.

  (* counting the orphans of one failure *)
  Lemma orph_fold os : forall s, let s' := fold_left (fun s o => upd_st s (b_task o) (ts_add_orphaned 1)) os s in
    s_surf s' = s_surf s /\ s_order s' = s_order s /\ s_q s' = s_q s /\
    forall t, ts_orphaned (s_st s' t) = ts_orphaned (s_st s t) + Z.of_nat (length (of_task t os)) /\
      ts_ready (s_st s' t) = ts_ready (s_st s t) /\
      ts_processing (s_st s' t) = ts_processing (s_st s t) /\
      ts_completed (s_st s' t) = ts_completed (s_st s t) /\
      ts_failed (s_st s' t) = ts_failed (s_st s t) /\
      ts_skipped (s_st s' t) = ts_skipped (s_st s t) /\
      ts_total (s_st s' t) = ts_total (s_st s t).
  Proof.
    induction os as [|o os IH]; intros s.
    - cbn. repeat split; auto. lia.
    - cbn [fold_left].
      assert (Q : forall t, s_st (upd_st s (b_task o) (ts_add_orphaned 1)) t =
          (if Nat.eqb (b_task o) t then ts_add_orphaned 1 (s_st s t) else s_st s t)).
      { intros t. unfold upd_st. cbn [s_st]. rewrite !upd_get.
        destruct (Nat.eqb (b_task o) t) eqn:E; auto. apply Nat.eqb_eq in E. subst t. auto. }
      destruct (IH (upd_st s (b_task o) (ts_add_orphaned 1))) as [I1 [I0 [I3 I2]]]. clear IH.
      split; [rewrite I1; auto|]. split; [rewrite I0; auto|]. split; [rewrite I3; auto|]. intros t.
      destruct (I2 t) as [J1 [J2 [J3 [J4 [J5 [J6 J7]]]]]]. clear I1 I0 I2.
      rewrite J1, J2, J3, J4, J5, J6, J7, Q. clear Q. unfold of_task. cbn [filter].
      destruct (Nat.eqb (b_task o) t) eqn:E; [|repeat split; auto].
      cbn [ts_ready ts_processing ts_completed ts_failed ts_orphaned ts_skipped ts_total ts_add_orphaned length].
      repeat split; auto. lia.
  Qed.

  (* an orphan leaves the boundary only if one of its upstream blocks succeeded *)
  Definition tight (S : block -> Prop) (N : block -> Z) (s : sched) : Prop :=
    forall x, Or N x -> ~ In x (boundary (s_surf s)) -> exists u, In u (up x) /\ S u.
  Definition parted (S : block -> Prop) (N : block -> Z) : Prop :=
    forall x u a b w, In x V -> In u (up x) -> S u -> Fl N a -> Fl N b -> ancestor up a x -> ancestor up b x ->
    In w (up x) -> anc_eq up a w -> anc_eq up b w.

  Lemma fail_step S H N s b pick : Inv S H N s -> H b -> maxr (b_task b) <= N b ->
    exists s' orph sf, release_block up down maxr fuel pick s (PB b FAILED) = Ok s' /\
      mark_failure block_eqb up down pick fuel (s_surf s) b = Ok (sf, orph) /\
      Inv S (fun x => H x /\ x <> b) (bump N b) s' /\ Fl (bump N b) b /\
      NoDup orph /\ (forall x, In x orph -> ancestor up b x) /\
      (forall x, Or (bump N b) x <-> Or N x \/ In x orph) /\
      (forall x, In x V -> ancestor up b x -> Or N x \/ In x orph) /\
      (forall x, In x orph -> ~ In x (boundary (s_surf s))) /\
      (tight S N s -> parted S (bump N b) -> forall x, In x orph -> ~ Or N x) /\
      (forall t, ts_orphaned (s_st s' t) = ts_orphaned (s_st s t) + Z.of_nat (length (of_task t orph))) /\
      (forall t, ts_skipped (s_st s' t) = ts_skipped (s_st s t)) /\
      (forall x, In x (boundary (s_surf s)) \/ In x orph -> ~ In x (boundary (s_surf s')) ->
         x = b \/ exists u, In u (up b) /\ In x (down u)) /\
      s_order s' = s_order s.
  Proof.
    intros I Hb Hr. destruct (i_held _ _ _ _ I b Hb) as [Vb [Ub [NSb NFb]]].
    pose proof (held_norph S H N s I b Hb) as NOb.
    pose proof (i_N _ _ _ _ I b) as Nb0.
    set (N' := bump N b).
    assert (Fb : Fl N' b) by (unfold Fl, N'; rewrite bump_same; lia).
    assert (FE : forall x, Fl N' x <-> Fl N x \/ x = b).
    { intros x. destruct (block_dec x b) as [->|Nx]; [tauto|].
      unfold Fl, N'. rewrite bump_other by auto. tauto. }
    assert (OE : forall x, Or N' x <-> Or N x \/ (In x V /\ ancestor up b x)).
    { intros x. split.
      - intros [Vx [a [F A]]]. apply FE in F. destruct F as [F| ->]; [left; split; auto; exists a; auto|auto].
      - intros [[Vx [a [F A]]]|[Vx A]]; (split; [auto|]); [exists a|exists b]; (split; [apply FE; auto|auto]). }
    assert (clS : forall x, ups S x -> ~ ancestor up b x).
    { intros x U A. apply NSb. eapply ups_anc; eauto. }
    assert (clS2 : forall x, S x -> ~ ancestor up b x).
    { intros x Sx. apply clS. apply (i_S _ _ _ _ I x Sx). }
    assert (SB' : forall x, S x -> Bd N' x -> False).
    { intros x Sx [F|O].
      - apply FE in F. destruct F as [F| ->]; auto. apply (SBd S H N s I x); auto. left; auto.
      - apply OE in O. destruct O as [O|O]; [|apply (clS2 x Sx (proj2 O))].
        apply (SBd S H N s I x); auto. right; auto. }
    assert (BB : forall x, Bd N x -> Bd N' x).
    { intros x [F|O]; [left; apply FE; auto|right; apply OE; auto]. }
    destruct (mark_failure_spec block_eqb up down V eqb_ok upV downV S (Bd N') SB' (Bd_down N') pick fuel
                (s_surf s) b Vb (or_introl Fb) (gg_nodup_up _ _ _ _ GG b Vb) (gg_nodup _ _ _ _ GG)
                (gg_dual _ _ _ _ GG))
      as [sf [orph [E [Is [Ik [No [O1 [O2 [O3 O4]]]]]]]]].
    { unfold enough in EN. lia. }
    { destruct (i_surf _ _ _ _ I) as [J1 J2]. split; auto. intros x Hx. destruct (J2 x Hx). auto. }
    { apply (ups_surface S H N); auto. }
    { intros y d Vy Sy Hd NSd NBd. apply (i_keep _ _ _ _ I y d); auto. }
    assert (blanc : forall Q x, below down Q b x -> In x V /\ ancestor up b x).
    { intros Q x Hx. induction Hx as [d Hd|a d Ha [Va IH] Qa Hd].
      - assert (Vd : In d V) by (apply (downV b d); auto). split; auto.
        apply anc_one. apply (gg_dual _ _ _ _ GG); auto.
      - assert (Vd : In d V) by (apply (downV a d); auto). split; auto.
        eapply anc_more; [exact IH|]. apply (gg_dual _ _ _ _ GG); auto. }
    assert (O5 : forall x, In x orph -> ancestor up b x).
    { intros x Hx. destruct (O1 x Hx) as [_ [J _]]. eapply blanc; eauto. }
    assert (O6 : forall x, In x V -> ancestor up b x -> Or N x \/ In x orph).
    { intros x Vx A. induction A as [x Hx|c x A IH Hc].
      - destruct (O3 b (or_introl eq_refl) x) as [->|[J|J]]; auto.
        + apply (gg_dual _ _ _ _ GG); auto.
        + exfalso. apply (irr b); auto.
        + apply (i_surf _ _ _ _ I) in J. destruct J as [_ [F|O]]; auto.
          exfalso. apply NSb. apply (i_F _ _ _ _ I x F). auto.
      - assert (Vc : In c V) by (apply (upV x c); auto).
        destruct (IH Vc) as [[_ [a [F A']]]|Ho].
        + left. split; auto. exists a. split; auto. eapply anc_more; eauto.
        + destruct (O3 c (or_intror Ho) x) as [->|[J|J]]; auto.
          * apply (gg_dual _ _ _ _ GG); auto.
          * exfalso. apply NSb. eapply ups_anc; eauto.
            eapply (anc_more up b c b); eauto.
          * apply (i_surf _ _ _ _ I) in J. destruct J as [_ [F|O]]; auto.
            exfalso. apply NSb. destruct (i_F _ _ _ _ I x F) as [_ [UF _]].
            eapply ups_anc; eauto. eapply anc_more; eauto. }
    unfold release_block. cbn [pb_block pb_status]. rewrite (remove_ok S H N s b I Hb). cbn [bind].
    set (s1 := after_remove s b).
    assert (R1 : q_retries (s_q s1 (b_task b)) (bid b) = N b).
    { destruct (rm_q s b (b_task b)) as [_ [_ [_ R]]]. fold s1 in R. rewrite R. apply I; auto. }
    rewrite R1. replace (maxr (b_task b) <=? N b) with true by (symmetry; apply Z.leb_le; lia).
    change (s_surf s1) with (s_surf s). rewrite E. cbn [bind].
    set (s2 := upd_st (set_surf s1 sf) (b_task b) (ts_add_failed 1)).
    destruct (orph_fold orph s2) as [U1 [U0 [U3 U2]]].
    set (s3 := fold_left _ orph s2) in *.
    assert (Q2 : forall t, s_q s3 t = s_q s1 t) by (intros; rewrite U3; reflexivity).
    assert (St2 : forall t, s_st s2 t = if Nat.eqb (b_task b) t then ts_add_failed 1 (s_st s1 t) else s_st s1 t).
    { intros t. unfold s2, upd_st, set_surf. cbn [s_st]. rewrite upd_get.
      destruct (Nat.eqb (b_task b) t) eqn:Et; auto. apply Nat.eqb_eq in Et. subst t. auto. }
    assert (ER : forall t, readyl s3 t = readyl s t).
    { intros t. unfold readyl. rewrite Q2. destruct (rm_q s b t) as [R2 [R3 _]]. fold s1 in R2, R3.
      rewrite R2, R3. auto. }
    assert (oV : forall x, In x orph -> In x V) by (intros x Hx; apply O1; auto).
    assert (OE2 : forall x, Or N' x <-> Or N x \/ In x orph).
    { intros x. rewrite OE. split.
      - intros [?|[Vx A]]; auto.
      - intros [?|Ho]; auto. }
    exists s3, orph, sf. split; [reflexivity|]. split; [reflexivity|].
    split; [|split; [exact Fb|split; [exact No|split; [exact O5|split; [exact OE2|split; [exact O6|]]]]]].
    - constructor.
      + rewrite U1. exact Is.
      + rewrite U1. exact Ik.
      + intros t. rewrite Q2. destruct (rm_q s b t) as [R2 [R3 [R4 _]]]. fold s1 in R2, R3, R4.
        rewrite R2, R4. apply I.
      + intros t. rewrite ER. apply I.
      + intros t x Hx. rewrite ER in Hx. rewrite FE.
        destruct (i_ready _ _ _ _ I t x Hx) as [J1 [J2 [J3 [J4 [J5 J6]]]]].
        split; auto. split; auto. split; auto. split; auto. split; [|tauto]. intros [?| ->]; auto.
      + intros x [Hx Nx]. rewrite FE. destruct (i_held _ _ _ _ I x Hx) as [J1 [J2 [J3 J4]]]. tauto.
      + intros t. rewrite Q2. eapply rm_nproc; eauto.
      + intros t i. rewrite Q2. eapply rm_proc; eauto.
      + intros x Sx. destruct (i_S _ _ _ _ I x Sx) as [J1 [J2 J3]]. rewrite FE.
        split; auto. split; auto. intros [?| ->]; auto.
      + intros x Fx. apply FE in Fx. destruct Fx as [Fx| ->].
        * unfold N'. rewrite bump_other by (intros ->; auto). apply I; auto.
        * split; auto. split; auto. unfold N'. rewrite bump_same.
          assert (N b <= 0 \/ N b <= maxr (b_task b)); [|lia].
          unfold Fl in NFb. lia.
      + intros x. pose proof (i_N _ _ _ _ I x). unfold N', bump. destruct (block_dec x b); lia.
      + intros x Vx NFx. rewrite FE in NFx. rewrite Q2.
        destruct (rm_q s b (b_task x)) as [_ [_ [_ R]]]. fold s1 in R.
        rewrite R. unfold N'. rewrite bump_other by (intros ->; tauto). apply I; auto.
      + intros x Vx Ux Rx. rewrite ER, FE.
        destruct (block_dec x b) as [->|Nx]; auto.
        destruct (i_complete _ _ _ _ I x Vx Ux Rx) as [J|[J|[J|J]]]; auto.
      + intros t. rewrite ER. destruct (U2 t) as [_ [J _]]. rewrite J, St2.
        destruct (rm_st s b t) as [R _]. fold s1 in R.
        destruct (Nat.eqb (b_task b) t); cbn [ts_ready ts_add_failed]; rewrite R; apply I.
      + intros t. rewrite Q2. destruct (U2 t) as [_ [_ [J _]]]. rewrite J, St2.
        pose proof (rm_cproc S H N s b t I Hb) as R. fold s1 in R.
        destruct (Nat.eqb (b_task b) t); cbn [ts_processing ts_add_failed]; auto.
      + intros t. destruct (U2 t) as [_ [_ [_ [J _]]]]. rewrite J, St2.
        destruct (rm_st s b t) as [_ [R _]]. fold s1 in R.
        destruct (Nat.eqb (b_task b) t); cbn [ts_completed ts_add_failed]; rewrite R; apply I.
      + intros t. destruct (U2 t) as [_ [_ [_ [_ [J _]]]]]. rewrite J, St2.
        destruct (rm_st s b t) as [_ [_ [R _]]]. fold s1 in R.
        pose proof (i_cfail _ _ _ _ I t) as C. rewrite <- R in C.
        destruct (Nat.eqb (b_task b) t) eqn:Et; cbn [ts_failed ts_add_failed].
        * apply Nat.eqb_eq in Et. subst t. eapply (card_add _ _ _ b); [exact C|tauto|].
          intros x. cbv beta. rewrite FE. split; [|intros [?| ->]; tauto].
          intros [[?| ->] ?]; auto.
        * apply Nat.eqb_neq in Et. apply (card_ext _ _ _ C). intros x. cbv beta. rewrite FE.
          split; [tauto|]. intros [[?| ->] ?]; [tauto|congruence].
      + intros t. destruct (U2 t) as [J _]. rewrite J, St2.
        destruct (rm_st s b t) as [_ [_ [_ [R _]]]]. fold s1 in R.
        destruct (i_corph _ _ _ _ I t) as [k [[l [Nl [Hl El]]] Hk]].
        set (new := filter (fun x => negb (if in_dec block_dec x l then true else false)) (of_task t orph)).
        exists (k + Z.of_nat (length new)). split.
        * exists (l ++ new). split; [|split].
          { apply NoDup_app'; auto.
            - apply NoDup_filter, NoDup_filter; auto.
            - intros x Hx Hy. apply filter_In in Hy. destruct Hy as [_ Hy].
              destruct (in_dec block_dec x l); [discriminate|auto]. }
          { intros x. rewrite in_app_iff, OE2, Hl. unfold new. rewrite filter_In, sN_of_task.
            split.
            - intros [?|[? _]]; tauto.
            - intros [[?|Ho] Tx]; [tauto|]. destruct (in_dec block_dec x l) as [Hx|Hx].
              + left. apply Hl. auto.
              + right. split; auto. }
          { rewrite app_length. lia. }
        * pose proof (filter_length_le' (fun x => negb (if in_dec block_dec x l then true else false)) (of_task t orph)) as Le.
          fold new in Le.
          destruct (Nat.eqb (b_task b) t); cbn [ts_orphaned ts_add_failed]; lia.
      + intros t. destruct (U2 t) as [_ [_ [_ [_ [_ [_ J]]]]]]. rewrite J, St2.
        destruct (rm_st s b t) as [_ [_ [_ [_ [_ R]]]]]. fold s1 in R.
        destruct (Nat.eqb (b_task b) t); cbn [ts_total ts_add_failed]; rewrite R; apply I.
    - split; [intros x Hx; apply O1; auto|]. split; [|split; [|split; [|split]]].
      { intros T P x Hx.
      assert (G : forall x, below down (fun a => ~ In a (boundary (s_surf s))) b x ->
         ~ In x (boundary (s_surf s)) -> ~ Bd N x).
      { intros y Hy. induction Hy as [d Hd|a d Ha IH Qa Hd]; intros Nd [Fd|Od].
        - apply NSb. apply (i_F _ _ _ _ I d Fd). apply (gg_dual _ _ _ _ GG); auto. apply (downV b d); auto.
        - assert (bd : In b (up d)) by (apply (gg_dual _ _ _ _ GG); auto; apply (downV b d); auto).
          destruct (T d Od Nd) as [u [Hu Su]]. destruct Od as [Vd [a [Fa Aa]]].
          destruct (P d u b a b Vd Hu Su Fb (proj2 (FE a) (or_introl Fa)) (anc_one _ _ _ bd) Aa bd (or_introl eq_refl))
            as [->|A]; auto. apply NOb. split; auto. exists a. auto.
        - destruct (blanc _ a Ha) as [Va Aa].
          assert (ad : In a (up d)) by (apply (gg_dual _ _ _ _ GG); auto; apply (downV a d); auto).
          apply (clS2 a); auto. apply (i_F _ _ _ _ I d Fd). auto.
        - destruct (blanc _ a Ha) as [Va Aa].
          assert (ad : In a (up d)) by (apply (gg_dual _ _ _ _ GG); auto; apply (downV a d); auto).
          destruct (T d Od Nd) as [u [Hu Su]]. destruct Od as [Vd [c [Fc Ac]]].
          destruct (P d u b c a Vd Hu Su Fb (proj2 (FE c) (or_introl Fc)) (anc_more _ _ _ _ Aa ad) Ac ad (or_intror Aa))
            as [->|A]; [apply (IH Qa); left; auto|]. apply (IH Qa). right. split; auto. exists c. auto. }
      intros O. destruct (O1 x Hx) as [_ [J1 [J2 _]]]. apply (G x J1 J2). right; auto. }
      { intros t. destruct (U2 t) as [J _]. rewrite J, St2.
      destruct (rm_st s b t) as [_ [_ [_ [R _]]]]. fold s1 in R.
      destruct (Nat.eqb (b_task b) t); cbn [ts_orphaned ts_add_failed]; lia. }
      { intros t. destruct (U2 t) as [_ [_ [_ [_ [_ [J _]]]]]]. rewrite J, St2.
      destruct (rm_st s b t) as [_ [_ [_ [_ [R _]]]]]. fold s1 in R.
      destruct (Nat.eqb (b_task b) t); cbn [ts_skipped ts_add_failed]; auto. }
      { intros x Hx Nx. rewrite U1 in Nx. change (s_surf s2) with sf in Nx.
      destruct (O4 x) as [[? _]|[? _]]; tauto. }
      { rewrite U0. reflexivity. }
  Qed.
End SchedFacts.

(* Every reachable scheduler state satisfies the invariant of SchedFacts; consequences. *)
From Coq Require Import Arith Lia Permutation.
From Verif Require Import VecFacts.
From Verif Require Export SchedFacts.
Open Scope Z_scope.

(* how each event changes what the history says *)
Lemma is_block_same b : is_block b b = true.
Proof. unfold is_block. destruct (block_dec b b); congruence. Qed.
Lemma is_block_other a b : b <> a -> is_block a b = false.
Proof. unfold is_block. destruct (block_dec a b); congruence. Qed.

Lemma succ_cons_skip b h x : succeeded (EvSkip b :: h) x <-> succeeded h x \/ x = b.
Proof.
  unfold succeeded. cbn [In]. split.
  - intros [[E|H]|[E|H]]; auto; [injection E as ->; auto|discriminate].
  - intros [[H|H]| ->]; auto.
Qed.
Lemma succ_cons_succ b h x : succeeded (EvRel (PB b SUCCESS) :: h) x <-> succeeded h x \/ x = b.
Proof.
  unfold succeeded. cbn [In]. split.
  - intros [[E|H]|[E|H]]; auto; [discriminate|injection E as ->; auto].
  - intros [[H|H]| ->]; auto.
Qed.
Lemma succ_cons_fail b h x : succeeded (EvRel (PB b FAILED) :: h) x <-> succeeded h x.
Proof.
  unfold succeeded. cbn [In]. split.
  - intros [[E|H]|[E|H]]; auto; discriminate.
  - intros [H|H]; auto.
Qed.
Lemma succ_cons_hand t pb h x : succeeded (EvHand t pb :: h) x <-> succeeded h x.
Proof.
  unfold succeeded. cbn [In]. split.
  - intros [[E|H]|[E|H]]; auto; discriminate.
  - intros [H|H]; auto.
Qed.
Lemma succ_cons_none t h x : succeeded (EvNone t :: h) x <-> succeeded h x.
Proof.
  unfold succeeded. cbn [In]. split.
  - intros [[E|H]|[E|H]]; auto; discriminate.
  - intros [H|H]; auto.
Qed.

Lemma count_nonneg p h : 0 <= count p h.
Proof. induction h; cbn; [lia|]. destruct (p a); lia. Qed.
Lemma count_app p h1 h2 : count p (h1 ++ h2) = count p h1 + count p h2.
Proof. induction h1; cbn; [lia|]. rewrite IHh1. lia. Qed.

Section SchedFacts2.
  Variables (V : list block) (up down : block -> list block) (seeds : nat -> list block).
  Variable maxr : nat -> Z.
  Variable fuel : nat.
  Hypothesis GG : good_graph V up down seeds.
  Hypothesis EN : enough V fuel.
  Variable s0 : sched.
  Hypothesis FR : fresh V seeds s0.

  Local Notation Inv := (Inv V up down seeds maxr).
  Local Notation Fl := (Fl maxr).
  Local Notation Or := (Or V up maxr).
  Local Notation Bd := (Bd V up maxr).
  Local Notation ups := (ups up).
  Local Notation tight := (tight V up maxr).

  Definition two_up : Prop := forall b, In b V -> (length (up b) <= 2)%nat.

  (* what was true of the history when the event happened *)
  Definition ok_take (h : history) (t : nat) (b : block) : Prop :=
    In b V /\ b_task b = t /\ ups (succeeded h) b /\ ~ succeeded h b /\
    ~ perm_failed maxr h b /\ ~ held h b.
  Definition ok_event (h : history) (e : event) : Prop :=
    match e with
    | EvSkip b => ok_take h (b_task b) b
    | EvHand t pb => ok_take h t (pb_block pb)
    | EvNone t => True
    | EvRel pb => held h (pb_block pb) /\ (pb_status pb = SUCCESS \/ pb_status pb = FAILED)
    end.
  Fixpoint ok_hist (h : history) : Prop :=
    match h with [] => True | e :: r => ok_event r e /\ ok_hist r end.

  Definition n_skips (h : history) (t : nat) : Z :=
    count (fun e => match e with EvSkip b => Nat.eqb (b_task b) t | _ => false end) h.

  Definition single (h : history) : Prop :=
    forall a b, perm_failed maxr h a -> perm_failed maxr h b -> a = b.

  Record HInv (h : history) (s : sched) : Prop := {
    hi_inv : Inv (succeeded h) (held h) (n_failed h) s;
    hi_ok : ok_hist h;
    hi_count : forall b, n_released h b <= n_handed h b <= n_released h b + 1 /\
       0 <= n_failed h b <= n_released h b /\ (~ succeeded h b -> n_released h b = n_failed h b);
    hi_skips : forall t, ts_skipped (s_st s t) = n_skips h t;
    hi_tight : tight (succeeded h) (n_failed h) s;
    hi_exact : apart (fun b => In b V) up maxr h ->
       forall t, card (fun b => Or (n_failed h) b /\ b_task b = t) (ts_orphaned (s_st s t));
    hi_order : s_order s = s_order s0
  }.

  Lemma tight_ext S S' N N' s s' : (forall x, S x <-> S' x) -> (forall x, N x = N' x) ->
    s_surf s' = s_surf s -> tight S N s -> tight S' N' s'.
  Proof.
    intros ES E Es T x Ox Nx. rewrite Es in Nx.
    destruct (T x (Or_ext V up maxr N' N x (fun y => eq_sym (E y)) Ox) Nx) as [u [Hu Su]].
    exists u. split; auto. apply ES. auto.
  Qed.

  Lemma orph_up S H N s x : Inv S H N s -> Or N x -> exists v, In v (up x) /\ Bd N v.
  Proof.
    intros I [Vx [a [Fa A]]]. inversion A; subst.
    - exists a. split; auto. left; auto.
    - exists b. split; auto. right. split; [apply (upV V up down seeds GG x b); auto|]. exists a; auto.
  Qed.

  (* with two upstream blocks, one successful, all failures come through the other *)
  Lemma two_apart S H N s : two_up -> Inv S H N s -> parted V up maxr S N.
  Proof.
    intros T I x u a b w Vx Hu Su Fa Fb Aa Ab Hw Aw.
    assert (Bw : Bd N w).
    { destruct Aw as [->|Aw]; [left; auto|right]. split; [apply (upV V up down seeds GG x w); auto|]. exists a; auto. }
    assert (Nuw : u <> w) by (intros ->; apply (SBd V up down seeds maxr S H N s I w Su Bw)).
    assert (X : exists v, In v (up x) /\ anc_eq up b v).
    { inversion Ab; subst; [exists b; split; auto; left; auto|]. eexists. split; [eassumption|right; auto]. }
    destruct X as [v [Hv Av]].
    destruct (block_dec v w) as [->|Nv]; auto. exfalso.
    assert (Bv : Bd N v).
    { destruct Av as [->|Av]; [left; auto|right]. split; [apply (upV V up down seeds GG x v); auto|]. exists b; auto. }
    assert (Nuv : u <> v) by (intros ->; apply (SBd V up down seeds maxr S H N s I v Su Bv)).
    assert (L : (length [u; v; w] <= length (up x))%nat).
    { apply NoDup_incl_length.
      - constructor; [intros [?|[?|[]]]; congruence|].
        constructor; [intros [?|[]]; congruence|]. constructor; [intros []|constructor].
      - intros y [<-|[<-|[<-|[]]]]; auto. }
    specialize (T x Vx). cbn [length] in L. lia.
  Qed.
  Lemma single_apart h : single h -> apart (fun b => In b V) up maxr h.
  Proof. intros F x u a b w _ _ _ Fa Fb _ _ _ A. rewrite <- (F a b Fa Fb). exact A. Qed.
  Lemma perm_app l h b : perm_failed maxr h b -> perm_failed maxr (l ++ h) b.
  Proof.
    unfold perm_failed, n_failed. rewrite count_app.
    match goal with |- context [count ?p l] => pose proof (count_nonneg p l) end. lia.
  Qed.
  Lemma apart_back l h : apart (fun b => In b V) up maxr (l ++ h) -> apart (fun b => In b V) up maxr h.
  Proof.
    intros A x u a b w Vx Hu Su Fa Fb Aa Ab Hw Aw.
    apply (A x u a b w); auto; try (apply perm_app; auto).
    destruct Su; [left|right]; apply in_or_app; auto.
  Qed.
  Lemma failed_rel_fail h b x : n_failed (EvRel (PB b FAILED) :: h) x = bump (n_failed h) b x.
  Proof.
    unfold n_failed at 1. cbn [count pb_status pb_block status_eqb]. rewrite andb_true_r.
    change (count _ h) with (n_failed h x).
    destruct (block_dec x b) as [->|Nx].
    - rewrite is_block_same, bump_same. lia.
    - rewrite is_block_other, bump_other by auto. lia.
  Qed.
  Lemma apart_fail h b : apart (fun b => In b V) up maxr (EvRel (PB b FAILED) :: h) ->
    parted V up maxr (succeeded h) (bump (n_failed h) b).
  Proof.
    intros A x u c d w Vx Hu Su Fc Fd Ac Ad Hw Aw. apply (A x u c d w); auto.
    - destruct Su; [left|right]; right; auto.
    - eapply Fl_ext; [|exact Fc]. intros z. symmetry. apply failed_rel_fail.
    - eapply Fl_ext; [|exact Fd]. intros z. symmetry. apply failed_rel_fail.
  Qed.

  Lemma init_HInv : HInv [] s0.
  Proof.
    destruct FR as [F1 F2 F3 F4 F5 F6 F7 F8 F9].
    assert (NS : forall x, ~ succeeded [] x) by (intros x [[]|[]]).
    assert (NH : forall x, ~ held [] x) by (intros x Hx; unfold held in Hx; cbn in Hx; lia).
    assert (NF : forall x, ~ Fl (n_failed []) x) by (intros x [Hx _]; cbn in Hx; lia).
    assert (NO : forall x, ~ Or (n_failed []) x) by (intros x [_ [a [Fa _]]]; apply (NF a Fa)).
    assert (RL : forall t, readyl s0 t = seeds t).
    { intros t. unfold readyl. rewrite F2, F5. cbn. apply app_nil_r. }
    constructor.
    - constructor.
      + rewrite F1. split; intros x [].
      + intros y d _ Sy. exfalso. apply (NS y Sy).
      + intros t. rewrite F5, F6. auto.
      + intros t. rewrite RL. apply GG.
      + intros t b Hb. rewrite RL in Hb. destruct (gg_seeds _ _ _ _ GG t b Hb) as [J1 [J2 J3]].
        split; auto. split; auto. split; [intros a Ha; rewrite J3 in Ha; destruct Ha|]. auto.
      + intros b Hb. exfalso. apply (NH b Hb).
      + intros t. rewrite F3. constructor.
      + intros t i. rewrite F3. split; [intros []|]. intros [b [Hb _]]. exfalso. apply (NH b Hb).
      + intros b Hb. exfalso. apply (NS b Hb).
      + intros b Hb. exfalso. apply (NF b Hb).
      + intros b. cbn. lia.
      + intros b _ _. rewrite F4. reflexivity.
      + intros b Vb Ub Rb. left. rewrite RL. destruct (up b) as [|a l] eqn:E.
        * apply Rb. auto.
        * exfalso. apply (NS a). apply Ub. rewrite E. left; auto.
      + intros t. rewrite RL. auto.
      + intros t. rewrite F3. apply F8.
      + intros t. destruct (F8 t) as [_ [-> _]]. apply card_empty. intros x [Hx _]. apply (NS x Hx).
      + intros t. destruct (F8 t) as [_ [_ [_ [-> _]]]]. apply card_empty. intros x [Hx _]. apply (NF x Hx).
      + intros t. exists 0. destruct (F8 t) as [_ [_ [_ [_ ->]]]]. split; [|lia].
        apply card_empty. intros x [Hx _]. apply (NO x Hx).
      + auto.
    - exact Logic.I.
    - intros b. cbn. repeat split; try lia.
    - intros t. destruct (F8 t) as [_ [_ [-> _]]]. reflexivity.
    - intros x Ox. exfalso. apply (NO x Ox).
    - intros _ t. destruct (F8 t) as [_ [_ [_ [_ ->]]]].
      apply card_empty. intros x [Hx _]. apply (NO x Hx).
    - reflexivity.
  Qed.

  (* counting lemmas *)
  Lemma handed_cons t pb h x : n_handed (EvHand t pb :: h) x = (if is_block (pb_block pb) x then 1 else 0) + n_handed h x.
  Proof. reflexivity. Qed.

  Lemma held_hand h t pb x : (forall b, n_released h b <= n_handed h b <= n_released h b + 1) ->
    (held (EvHand t pb :: h) x <-> held h x \/ x = pb_block pb).
  Proof.
    intros C. specialize (C x). unfold held. rewrite handed_cons.
    change (n_released (EvHand t pb :: h) x) with (0 + n_released h x).
    destruct (block_dec x (pb_block pb)) as [->|Nx].
    - rewrite is_block_same. split; auto. intros _. lia.
    - rewrite is_block_other by auto. split; [intros; left; lia|]. intros [?|?]; [lia|contradiction].
  Qed.
  Lemma held_rel h pb x : (forall b, n_released h b <= n_handed h b <= n_released h b + 1) ->
    (held (EvRel pb :: h) x <-> held h x /\ x <> pb_block pb).
  Proof.
    intros C. specialize (C x). unfold held.
    change (n_handed (EvRel pb :: h) x) with (0 + n_handed h x).
    change (n_released (EvRel pb :: h) x) with ((if is_block (pb_block pb) x then 1 else 0) + n_released h x).
    destruct (block_dec x (pb_block pb)) as [->|Nx].
    - rewrite is_block_same. split; [lia|tauto].
    - rewrite is_block_other by auto. split; [intros; split; auto; lia|]. intros [? _]. lia.
  Qed.
  Lemma failed_rel_succ h b x : n_failed (EvRel (PB b SUCCESS) :: h) x = n_failed h x.
  Proof.
    unfold n_failed. cbn [count pb_status status_eqb]. rewrite andb_false_r. reflexivity.
  Qed.

  Lemma none_step h s t : HInv h s -> HInv (EvNone t :: h) s.
  Proof.
    intros [I1 I2 I3 I4 I5 I6 I7]. constructor; auto.
    - eapply Inv_iff; [| | |exact I1].
      + intros x. symmetry. apply succ_cons_none.
      + intros x. reflexivity.
      + intros x. reflexivity.
    - split; auto. exact Logic.I.
    - intros b. destruct (I3 b) as [J1 [J2 J3]]. split; auto. split; auto.
      intros Ns. apply J3. intros Sb. apply Ns, succ_cons_none. auto.
    - eapply tight_ext; [| | |apply I5]; auto.
      intros x. symmetry. apply succ_cons_none.
    - intros T. apply I6. eapply (apart_back [_]). exact T.
  Qed.

  Lemma take_surf s t q b : s_surf (take s t q b) = s_surf s.
  Proof. reflexivity. Qed.
  Lemma take_st s t q b t' : ts_skipped (s_st (take s t q b) t') = ts_skipped (s_st s t') /\
    ts_orphaned (s_st (take s t q b) t') = ts_orphaned (s_st s t').
  Proof.
    unfold take, upd_q, upd_st. cbn [s_st]. rewrite !upd_get, Nat.eqb_refl.
    destruct (Nat.eqb t t') eqn:E; [|auto]. apply Nat.eqb_eq in E. subst t'.
    rewrite ?Nat.eqb_refl. split; reflexivity.
  Qed.

  (* acquire_block hands out a block *)
  Lemma hand_hist h s t q pb s' : HInv h s -> get_next (s_q s t) = Ok (q, Some pb) ->
    s' = upd_q (upd_st (upd_st (upd_st (upd_q s t (fun _ => q)) t (ts_add_ready (-1))) t (ts_add_processing 1)) t ts_set_started) t
           (fun q => q_set_proc q (sadd bid_eqb (bid (pb_block pb)) (q_proc q))) ->
    HInv (EvHand t pb :: h) s'.
  Proof.
    intros [I1 I2 I3 I4 I5 I6 I7] G E.
    destruct (hand_step V up down seeds maxr GG _ _ _ s t q pb I1 G) as [J1 [J2 [J3 [J4 [J5 [J6 J7]]]]]].
    set (b := pb_block pb) in *. set (sh := take s t q b) in *.
    assert (Eq : forall t', s_q s' t' = s_q sh t') by (subst s'; reflexivity).
    assert (Es : s_surf s' = s_surf sh) by (subst s'; reflexivity).
    assert (Et : forall t', s_st s' t' = if Nat.eqb t t' then ts_set_started (s_st sh t') else s_st sh t').
    { intros t'. subst s'. unfold sh, take, upd_q, upd_st. cbn [s_st]. rewrite !upd_get, Nat.eqb_refl.
      destruct (Nat.eqb t t') eqn:X; auto. }
    assert (Et2 : forall t', ts_skipped (s_st s' t') = ts_skipped (s_st s t') /\
       ts_orphaned (s_st s' t') = ts_orphaned (s_st s t')).
    { intros t'. destruct (take_st s t q b t') as [K1 K2]. fold sh in K1, K2. rewrite Et.
      destruct (Nat.eqb t t'); auto. }
    constructor.
    - eapply Inv_same with (s := sh); auto.
      + intros t'. rewrite Et. destruct (Nat.eqb t t'); repeat split; auto.
      + eapply Inv_iff; [| | |exact J7].
        * intros x. symmetry. apply succ_cons_hand.
        * intros x. symmetry. apply held_hand. intros y. apply I3.
        * intros x. reflexivity.
    - split; auto. cbn [ok_event]. fold b. repeat split; auto.
    - intros x. destruct (I3 x) as [K1 [K2 K3]]. rewrite handed_cons.
      change (n_released (EvHand t pb :: h) x) with (0 + n_released h x).
      change (n_failed (EvHand t pb :: h) x) with (0 + n_failed h x).
      rewrite succ_cons_hand. fold b. destruct (block_dec x b) as [->|Nx].
      + rewrite is_block_same. unfold held in J6. specialize (K3 J4). repeat split; lia.
      + rewrite is_block_other by auto. repeat split; try lia. intros K. specialize (K3 K). lia.
    - intros t'. destruct (Et2 t') as [-> _]. apply I4.
    - eapply tight_ext; [| | |apply I5]; auto.
      intros x. symmetry. apply succ_cons_hand.
    - intros T t'. destruct (Et2 t') as [_ ->]. apply I6. eapply (apart_back [_]). exact T.
    - subst s'. exact I7.
  Qed.

  Lemma tight_succ S H N s s' b : Inv S H N s -> tight S N s ->
    (forall a, In a (up b) -> S a) ->
    (forall x, In x (boundary (s_surf s)) -> ~ In x (boundary (s_surf s')) ->
          exists u, In u (up b) /\ In x (down u)) ->
    tight (fun x => S x \/ x = b) N s'.
  Proof.
    intros I Ti Ub Hbd x Ox Nx.
    destruct (in_dec block_dec x (boundary (s_surf s))) as [Hx|Hx].
    - destruct (Hbd x Hx Nx) as [u0 [K1 K2]].
      assert (Su0 : S u0) by auto.
      assert (Vx : In x V) by (destruct Ox; auto).
      assert (K3 : In u0 (up x)).
      { apply (gg_dual _ _ _ _ GG); auto. apply (i_S _ _ _ _ _ _ _ _ _ I u0 Su0). }
      eauto.
    - destruct (Ti x Ox Hx) as [u [? ?]]. eauto.
  Qed.

  (* a check succeeded: the block is skipped *)
  Lemma skip_hist h s t q pb s3 : HInv h s -> get_next (s_q s t) = Ok (q, Some pb) ->
    let b := pb_block pb in
    s3 = upd_q (upd_st (upd_st (upd_st (upd_q s t (fun _ => q)) t (ts_add_ready (-1))) t (ts_add_processing 1)) t (ts_add_skipped 1)) t
           (fun q => q_set_proc q (sadd bid_eqb (bid b) (q_proc q))) ->
    exists s4, release_block up down maxr fuel (fun _ _ => O) s3 (PB b SUCCESS) = Ok s4 /\
      HInv (EvSkip b :: h) s4.
  Proof.
    intros [I1 I2 I3 I4 I5 I6 I7] G b E.
    destruct (hand_step V up down seeds maxr GG _ _ _ s t q pb I1 G) as [J1 [J2 [J3 [J4 [J5 [J6 J7]]]]]].
    fold b in J1, J2, J3, J4, J5, J6, J7. set (sh := take s t q b) in *.
    assert (Eq : forall t', s_q s3 t' = s_q sh t') by (subst s3; reflexivity).
    assert (Es : s_surf s3 = s_surf sh) by (subst s3; reflexivity).
    assert (Et : forall t', s_st s3 t' = if Nat.eqb t t' then ts_add_skipped 1 (s_st sh t') else s_st sh t').
    { intros t'. subst s3. unfold sh, take, upd_q, upd_st. cbn [s_st]. rewrite !upd_get, Nat.eqb_refl.
      destruct (Nat.eqb t t') eqn:X; auto. }
    assert (J8 : Inv (succeeded h) (fun x => held h x \/ x = b) (n_failed h) s3).
    { eapply Inv_same with (s := sh); auto.
      intros t'. rewrite Et. destruct (Nat.eqb t t'); repeat split; auto. }
    destruct (succ_step V up down seeds maxr fuel GG _ _ _ s3 b (fun _ _ => O) J8 (or_intror eq_refl))
      as [s4 [R1 [R2 [R3 [R4 R5]]]]].
    exists s4. split; auto. constructor.
    - eapply Inv_iff; [| | |exact R2].
      + intros x. symmetry. apply succ_cons_skip.
      + intros x. unfold held. change (n_released (EvSkip b :: h) x) with (0 + n_released h x).
        change (n_handed (EvSkip b :: h) x) with (0 + n_handed h x).
        split; [intros [[?|?] ?]; [unfold held in *; lia|contradiction]|].
        intros K. assert (held h x) by (unfold held; lia). split; auto. intros ->. auto.
      + intros x. reflexivity.
    - split; auto. cbn [ok_event]. rewrite J2. repeat split; auto.
    - intros x. destruct (I3 x) as [K1 [K2 K3]].
      change (n_released (EvSkip b :: h) x) with (0 + n_released h x).
      change (n_handed (EvSkip b :: h) x) with (0 + n_handed h x).
      change (n_failed (EvSkip b :: h) x) with (0 + n_failed h x).
      rewrite succ_cons_skip. repeat split; try lia. intros K.
      assert (~ succeeded h x) as K' by tauto. specialize (K3 K'). lia.
    - intros t'. destruct (R3 t') as [-> _]. rewrite Et. destruct (take_st s t q b t') as [K1 _].
      fold sh in K1. unfold n_skips. cbn [count]. change (count _ h) with (n_skips h t').
      rewrite <- I4, <- K1, J2. destruct (Nat.eqb t t'); cbn [ts_skipped ts_add_skipped]; lia.
    - assert (Ti3 : tight (succeeded h) (n_failed h) s3).
      { eapply tight_ext with (s := s); [| | |apply I5; auto]; auto; reflexivity. }
      eapply tight_ext with (s := s4); [| | |eapply tight_succ; [exact J8|exact Ti3|exact J3|exact R4]]; auto.
      intros x. symmetry. apply succ_cons_skip.
    - intros T t'. destruct (R3 t') as [_ ->]. rewrite Et. destruct (take_st s t q b t') as [_ K2].
      fold sh in K2.
      replace (ts_orphaned (if Nat.eqb t t' then ts_add_skipped 1 (s_st sh t') else s_st sh t'))
        with (ts_orphaned (s_st s t')) by (destruct (Nat.eqb t t'); auto).
      apply I6. eapply (apart_back [_]). exact T.
    - rewrite R5. subst s3. exact I7.
  Qed.

  Lemma acquire_hist chk t f : forall h s, HInv h s ->
    (exists L, NoDup L /\ (forall x, In x L -> succeeded h x) /\ (length V - length L < f)%nat) ->
    exists s' r sk, acquire_loop up down maxr fuel chk f s t = Ok (s', r, sk) /\
      HInv (match r with Some pb => EvHand t pb | None => EvNone t end :: rev (map EvSkip sk) ++ h) s' /\
      (r = None -> readyl s' t = []).
  Proof.
    induction f as [|f IH]; intros h s I [L [NL [SL HL]]]; [lia|].
    cbn [acquire_loop].
    destruct (next_spec V up down seeds maxr _ _ _ s t (hi_inv h s I)) as [[Er E]|[q [pb [E _]]]].
    - rewrite E. cbn [bind]. exists s, None, []. split; auto. split; [apply none_step; auto|]. auto.
    - rewrite E. cbn [bind]. destruct (precheck (chk f (pb_block pb))).
      + destruct (skip_hist h s t q pb _ I E eq_refl) as [s4 [R1 R2]].
        rewrite R1. cbn [bind].
        assert (Tk := hi_ok _ _ R2). destruct Tk as [[Vb [_ [_ [NSb _]]]] _].
        destruct (IH (EvSkip (pb_block pb) :: h) s4 R2) as [s' [r [sk [A1 [A2 A3]]]]].
        { exists (pb_block pb :: L). split; [constructor; auto|]. split.
          - intros x [<-|Hx]; apply succ_cons_skip; auto.
          - assert (length (pb_block pb :: L) <= length V)%nat; [|cbn [length] in *; lia].
            apply NoDup_incl_length; [constructor; auto|].
            intros x [<-|Hx]; auto. apply (i_S _ _ _ _ _ _ _ _ _ (hi_inv h s I) x (SL x Hx)). }
        rewrite A1. cbn [bind]. exists s', r, (pb_block pb :: sk). split; auto. split; auto.
        cbn [map rev]. rewrite <- app_assoc. exact A2.
      + eexists _, (Some pb), []. split; [reflexivity|]. split; [|discriminate].
        cbn [map rev app]. eapply hand_hist; eauto.
  Qed.

  Lemma acquire_ok chk t h s : HInv h s ->
    exists s' r sk, acquire_block up down maxr fuel chk s t = Ok (s', r, sk) /\
      HInv (match r with Some pb => EvHand t pb | None => EvNone t end :: rev (map EvSkip sk) ++ h) s' /\
      (r = None -> readyl s' t = []).
  Proof.
    intros I. apply acquire_hist; auto. exists []. split; [constructor|]. split; [intros x []|].
    unfold enough in EN. cbn [length]. lia.
  Qed.

  Lemma release_ok pick pb h s : HInv h s -> held h (pb_block pb) ->
    pb_status pb = SUCCESS \/ pb_status pb = FAILED ->
    exists s', release_block up down maxr fuel pick s pb = Ok s' /\ HInv (EvRel pb :: h) s'.
  Proof.
    intros I Hb St. destruct pb as [b st]. cbn [pb_block pb_status] in *.
    destruct I as [I1 I2 I3 I4 I5 I6 I7].
    assert (I3' : forall b, n_released h b <= n_handed h b <= n_released h b + 1) by (intros x; apply I3).
    destruct (i_held _ _ _ _ _ _ _ _ _ I1 b Hb) as [Vb [Ub [NSb NFb]]].
    assert (okE : ok_hist (EvRel (PB b st) :: h)).
    { split; auto. split; auto. }
    assert (Hh : forall x, held h x /\ x <> b <-> held (EvRel (PB b st) :: h) x).
    { intros x. symmetry. apply (held_rel h (PB b st)). auto. }
    assert (relE : forall x, n_released (EvRel (PB b st) :: h) x = (if is_block b x then 1 else 0) + n_released h x).
    { reflexivity. }
    assert (hanE : forall x, n_handed (EvRel (PB b st) :: h) x = n_handed h x) by reflexivity.
    assert (skE : forall t, n_skips (EvRel (PB b st) :: h) t = n_skips h t) by reflexivity.
    destruct St as [-> | ->].
    - destruct (succ_step V up down seeds maxr fuel GG _ _ _ s b pick I1 Hb) as [s' [R1 [R2 [R3 [R4 R5]]]]].
      exists s'. split; auto. constructor; auto.
      + eapply Inv_iff; [| | |exact R2]; auto.
        * intros x. symmetry. apply succ_cons_succ.
        * intros x. symmetry. apply failed_rel_succ.
      + intros x. destruct (I3 x) as [K1 [K2 K3]]. rewrite relE, hanE, failed_rel_succ, succ_cons_succ.
        unfold held in Hb. destruct (block_dec x b) as [->|Nx].
        * rewrite is_block_same. repeat split; try lia. tauto.
        * rewrite is_block_other by auto. repeat split; try lia. intros K.
          assert (~ succeeded h x) as K' by tauto. specialize (K3 K'). lia.
      + intros t. destruct (R3 t) as [-> _]. apply I4.
      + eapply tight_ext with (s := s');
          [| | |eapply tight_succ; [exact I1|apply I5; auto|exact Ub|exact R4]]; auto.
        * intros x. symmetry. apply succ_cons_succ.
        * intros x. symmetry. apply failed_rel_succ.
      + intros T t. destruct (R3 t) as [_ ->].
        assert (T' := apart_back [_] h T).
        apply (card_ext _ _ _ (I6 T' t)). intros x. cbv beta.
        split; intros [O ?]; (split; auto); (eapply Or_ext; [|exact O]); intros z;
          [symmetry|]; apply failed_rel_succ.
      + congruence.
    - assert (cnt : forall x, n_released (EvRel (PB b FAILED) :: h) x <= n_handed (EvRel (PB b FAILED) :: h) x <=
         n_released (EvRel (PB b FAILED) :: h) x + 1 /\
         0 <= n_failed (EvRel (PB b FAILED) :: h) x <= n_released (EvRel (PB b FAILED) :: h) x /\
         (~ succeeded (EvRel (PB b FAILED) :: h) x ->
          n_released (EvRel (PB b FAILED) :: h) x = n_failed (EvRel (PB b FAILED) :: h) x)).
      { intros x. destruct (I3 x) as [K1 [K2 K3]]. rewrite relE, hanE, failed_rel_fail, succ_cons_fail.
        unfold held in Hb. destruct (block_dec x b) as [->|Nx].
        - rewrite is_block_same, bump_same. repeat split; try lia. intros K. specialize (K3 K). lia.
        - rewrite is_block_other, bump_other by auto. repeat split; try lia. intros K. specialize (K3 K). lia. }
      destruct (Z_lt_le_dec (n_failed h b) (maxr (b_task b))) as [Hr|Hr].
      + destruct (retry_step V up down seeds maxr fuel GG _ _ _ s b pick I1 Hb Hr)
          as [s' [R1 [R2 [R3 [R4 [R6 R5]]]]]].
        assert (FE : forall x, Fl (bump (n_failed h) b) x -> Fl (n_failed h) x).
        { intros x Fx. destruct (block_dec x b) as [->|Nx]; [contradiction|].
          unfold SchedFacts.Fl in *. rewrite bump_other in Fx by auto. auto. }
        assert (FE2 : forall x, Fl (n_failed h) x -> Fl (bump (n_failed h) b) x).
        { intros x Fx. destruct (block_dec x b) as [->|Nx]; [contradiction|].
          unfold SchedFacts.Fl in *. rewrite bump_other by auto. auto. }
        assert (OE : forall x, Or (bump (n_failed h) b) x <-> Or (n_failed h) x).
        { intros x. split; intros [Vx [a [Fa A]]]; (split; [auto|]); exists a; split; auto. }
        exists s'. split; auto. constructor; auto.
        * eapply Inv_iff; [| | |exact R2]; auto.
          { intros x. symmetry. apply succ_cons_fail. }
          { intros x. symmetry. apply failed_rel_fail. }
        * intros t. destruct (R3 t) as [-> _]. apply I4.
        * eapply tight_ext with (s := s) (S := succeeded h) (N := bump (n_failed h) b); auto.
          { intros x. symmetry. apply succ_cons_fail. }
          { intros x. symmetry. apply failed_rel_fail. }
          { intros x Ox Nx. apply OE in Ox. apply (I5 x Ox Nx). }
        * intros T t. destruct (R3 t) as [_ ->].
          assert (T' := apart_back [_] h T).
          apply (card_ext _ _ _ (I6 T' t)). intros x. cbv beta.
          assert (X : Or (n_failed (EvRel (PB b FAILED) :: h)) x <-> Or (bump (n_failed h) b) x).
          { split; apply Or_ext; intros z; [|symmetry]; apply failed_rel_fail. }
          rewrite X, OE. tauto.
        * congruence.
      + destruct (fail_step V up down seeds maxr fuel GG EN _ _ _ s b pick I1 Hb Hr)
          as [s' [orph [sf [R1 [_ [R2 [R3 [R4 [R5 [R6 [R7 [R8 [R9 [R10 [R11 [R12 R13]]]]]]]]]]]]]]]].
        assert (FE2 : forall x, Fl (n_failed h) x -> Fl (bump (n_failed h) b) x).
        { intros x Fx. destruct (block_dec x b) as [->|Nx]; [contradiction|].
          unfold SchedFacts.Fl in *. rewrite bump_other by auto. auto. }
        exists s'. split; auto. constructor; auto.
        * eapply Inv_iff; [| | |exact R2]; auto.
          { intros x. symmetry. apply succ_cons_fail. }
          { intros x. symmetry. apply failed_rel_fail. }
        * intros t. rewrite R11. apply I4.
        * eapply tight_ext with (s := s') (S := succeeded h) (N := bump (n_failed h) b); auto.
          { intros x. symmetry. apply succ_cons_fail. }
          { intros x. symmetry. apply failed_rel_fail. }
          { intros x Ox Nx.
            assert (Hx : (In x (boundary (s_surf s)) \/ In x orph) \/
                         (~ In x (boundary (s_surf s)) /\ ~ In x orph)).
            { destruct (in_dec block_dec x (boundary (s_surf s))), (in_dec block_dec x orph); auto. }
            destruct Hx as [Hx|[Hx Ho]].
            - destruct (R12 x Hx Nx) as [->|[u0 [K1 K2]]].
              + exfalso. eapply (F_norph V up down seeds maxr _ _ _ _ R2 b); eauto.
              + assert (Su0 : succeeded h u0) by auto.
                assert (K3 : In u0 (up x)).
                { apply (gg_dual _ _ _ _ GG); auto;
                   [apply (i_S _ _ _ _ _ _ _ _ _ I1 u0 Su0)|destruct Ox; auto]. }
                eauto.
            - assert (O1 : Or (n_failed h) x) by (apply R6 in Ox; tauto).
              apply (I5 x O1 Hx). }
        * intros T t. rewrite R10.
          assert (X : forall x, Or (n_failed (EvRel (PB b FAILED) :: h)) x <-> Or (bump (n_failed h) b) x).
          { intros x. split; apply Or_ext; intros z; [|symmetry]; apply failed_rel_fail. }
          assert (D : forall x, In x orph -> ~ Or (n_failed h) x).
          { apply R9; auto. apply apart_fail. exact T. }
          assert (T' := apart_back [_] h T).
          apply (card_union _ (fun x => In x (of_task t orph)) _ _ _ (I6 T' t)).
          { exists (of_task t orph). split; [apply NoDup_filter; auto|]. split; auto. intros; reflexivity. }
          { intros x [Ox _] Hx. rewrite sN_of_task in Hx. apply (D x (proj1 Hx) Ox). }
          { intros x. rewrite X, R6, sN_of_task. tauto. }
        * congruence.
  Qed.

  Theorem reach_HInv h s : reach up down maxr fuel s0 h s -> HInv h s.
  Proof.
    intros R. induction R as [|h s t chk s' r sk R IH E|h s pick pb s' R IH Hb St E].
    - apply init_HInv.
    - destruct (acquire_ok chk t h s IH) as [s2 [r2 [sk2 [A1 [A2 _]]]]].
      rewrite E in A1. injection A1 as <- <- <-. exact A2.
    - destruct (release_ok pick pb h s IH Hb St) as [s2 [A1 A2]].
      rewrite E in A1. injection A1 as <-. exact A2.
  Qed.
End SchedFacts2.

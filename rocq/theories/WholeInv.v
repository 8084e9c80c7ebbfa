(* The pools and the workers agree, whatever the pools do. *)
From Coq Require Import Arith Lia.
From Verif Require Import PoolGrow.
From Verif Require Export Whole.
From Verif Require Client Pool P_Pool.
Open Scope Z_scope.

Definition pooledb (ps : Pool.pools) (st : nat) : bool := existsb (fun tp => Pool.has_worker (snd tp) st) (Pool.ps_pools ps).
Lemma pooledb_iff ps st : pooledb ps st = true <-> pooled ps st.
Proof.
  unfold pooledb, pooled. rewrite existsb_exists. unfold Pool.has_worker. split.
  - intros [[t p] [H1 H2]]. cbn in H2. apply existsb_exists in H2. destruct H2 as [w [H2 H3]]. apply Nat.eqb_eq in H3.
    exists t, p. split; auto. rewrite <- H3. apply in_map. auto.
  - intros [t [p [H1 H2]]]. exists (t, p). split; auto. cbn. apply existsb_exists. apply in_map_iff in H2. destruct H2 as [w [<- H2]].
    exists w. rewrite Nat.eqb_refl. auto.
Qed.
Lemma pooledb_not ps st : pooledb ps st = false <-> ~ pooled ps st.
Proof. rewrite <- pooledb_iff. destruct (pooledb ps st); split; congruence. Qed.

Section Inv.
  Variable nw : nat -> Z.
  Variable mbf : Z.
  Variable keys : list nat.
  Hypothesis keys_nodup : NoDup keys.
  Local Notation tb ps := (Pool.tbl (Pool.ps_sys ps)).
  Local Notation nx ps := (Pool.nxt (Pool.ps_sys ps)).

  (* [R]: the tasks workers were recruited for *)
  Record HI (R : list nat) (ps : Pool.pools) (f : nat -> worker) : Prop := {
    hi_wf : forall j, tb ps j = None <-> (nx ps <= j)%nat;
    hi_err : forall t, Pool.ps_err ps t = [];
    hi_keys : map fst (Pool.ps_pools ps) = keys;
    hi_size : forall t p, In (t, p) (Pool.ps_pools ps) -> (In t R /\ Z.of_nat (length p) = nw t) \/ (~ In t R /\ p = []);
    hi_ids : forall t p, In (t, p) (Pool.ps_pools ps) -> NoDup (map Pool.w_id p);
    hi_in : forall t p w, In (t, p) (Pool.ps_pools ps) -> In w p -> exists s, tb ps (Pool.w_id w) = Some (t, s) /\
      (Pool.w_proc w = false -> w_at (f (Pool.w_id w)) = Left /\ s = Pool.Exited 0);
    hi_task : forall j t s, tb ps j = Some (t, s) -> w_task (f j) = t;
    hi_run : forall j t, tb ps j = Some (t, Pool.Running) -> w_at (f j) <> Dead /\
      exists p, In (t, p) (Pool.ps_pools ps) /\ In (fresh_worker j) p;
    hi_exit : forall j t c, tb ps j = Some (t, Pool.Exited c) -> (w_at (f j) = Dead /\ (pooled ps j -> c <> 0)) \/
      (w_at (f j) = Left /\ pooled ps j /\ c = 0);
    hi_bf : forall j pb w, tb ps j <> None -> In (MBlockFailed pb w) (w_out (f j)) ->
      w = j /\ b_task (pb_block pb) = w_task (f j) /\ w_at (f j) <> Dead;
    hi_phase : forall j, tb ps j <> None -> w_at (f j) <> Replaced
  }.
  Lemma hi_known R ps f j : HI R ps f -> (tb ps j <> None <-> (j < nx ps)%nat).
  Proof.
    intros H. pose proof (hi_wf _ _ _ H j). destruct (Nat.lt_ge_cases j (nx ps)) as [L|L].
    - split; auto. intros _ E. apply H0 in E. lia.
    - split; [|lia]. intros N. exfalso. apply N, H0, L.
  Qed.
  Lemma hi_in_lt R ps f t p w : HI R ps f -> In (t, p) (Pool.ps_pools ps) -> In w p -> (Pool.w_id w < nx ps)%nat.
  Proof.
    intros H Hp Hw. apply (hi_known _ _ _ _ H). destruct (hi_in _ _ _ H _ _ _ Hp Hw) as [s [E _]]. congruence.
  Qed.
  Lemma hi_uniq R ps f t p q : HI R ps f -> In (t, p) (Pool.ps_pools ps) -> In (t, q) (Pool.ps_pools ps) -> p = q.
  Proof.
    intros H. pose proof keys_nodup as N. rewrite <- (hi_keys _ _ _ H) in N. clear H. induction (Pool.ps_pools ps) as [|[u r] l IH]; [intros []|].
    cbn in N. apply NoDup_cons_iff in N. destruct N as [N1 N2]. intros [Hp|Hp] [Hq|Hq]; auto; try congruence; exfalso; apply N1.
    - injection Hp as -> ->. apply (in_map fst) in Hq. auto.
    - injection Hq as -> ->. apply (in_map fst) in Hp. auto.
  Qed.
  (* a worker is in the pool of its task *)
  Lemma hi_pooled R ps f j t s : HI R ps f -> tb ps j = Some (t, s) -> pooled ps j ->
    exists p w, In (t, p) (Pool.ps_pools ps) /\ In w p /\ Pool.w_id w = j.
  Proof.
    intros H E [u [p [Hp Hj]]]. apply in_map_iff in Hj. destruct Hj as [w [<- Hw]].
    destruct (hi_in _ _ _ H _ _ _ Hp Hw) as [s' [E' _]]. assert (u = t) by congruence. subst u. eauto.
  Qed.
  (* other states of the workers *)
  Lemma hi_moved R ps f g : HI R ps f -> (forall j, (j < nx ps)%nat -> w_task (g j) = w_task (f j) /\
      (w_at (f j) = Dead -> w_at (g j) = Dead) /\ (w_at (g j) = Dead -> w_at (f j) = Dead) /\ w_at (g j) <> Replaced /\
      (w_at (f j) = Left -> w_at (g j) = Left) /\
      forall pb w, In (MBlockFailed pb w) (w_out (g j)) -> w = j /\ b_task (pb_block pb) = w_task (f j) /\ w_at (g j) <> Dead) -> HI R ps g.
  Proof.
    intros H E.
    assert (K : forall j t s, tb ps j = Some (t, s) -> (j < nx ps)%nat).
    { intros j t s Ej. apply (hi_known _ _ _ _ H). congruence. }
    constructor; try apply H.
    - intros t p w Hp Hw. destruct (hi_in _ _ _ H _ _ _ Hp Hw) as [s [Es P]]. exists s. split; auto. intros Pf. destruct (P Pf) as [P1 P2].
      split; auto. apply E; eauto.
    - intros j t s Ej. destruct (E j (K _ _ _ Ej)) as [-> _]. eapply (hi_task _ _ _ H); eauto.
    - intros j t Ej. destruct (hi_run _ _ _ H j t Ej) as [A B]. split; auto. intros D. apply A. destruct (E j (K _ _ _ Ej)) as [_ [_ [X _]]]. auto.
    - intros j t c Ej. destruct (E j (K _ _ _ Ej)) as [_ [X1 [_ [_ [X2 _]]]]]. destruct (hi_exit _ _ _ H j t c Ej) as [[A B]|[A [B C]]]; [left|right]; auto.
    - intros j pb w Ej Hm. apply (hi_known _ _ _ _ H) in Ej. destruct (E j Ej) as [X1 [_ [_ [_ [_ X2]]]]]. rewrite X1. auto.
    - intros j Ej. apply (hi_known _ _ _ _ H) in Ej. apply E; auto.
  Qed.

  (* new workers *)
  Section Grown.
    Variables (R R' : list nat) (ps ps' : Pool.pools) (f f' : nat -> worker).
    Variable Q : nat -> Pool.pool -> Pool.pool.
    Variable E : nat -> Pool.pool -> list (option nat).
    Let L := news E (Pool.ps_pools ps).
    Record grown : Prop := {
      gn_hi : HI R ps f;
      gn_sys : grows (Pool.ps_sys ps) (Pool.ps_sys ps') L;
      gn_pools : Pool.ps_pools ps' = lay Q E (nx ps) (Pool.ps_pools ps);
      gn_err : Pool.ps_err ps' = Pool.ps_err ps;
      gn_old : forall j, (j < nx ps)%nat -> f' j = f j;
      gn_new : forall k t o, nth_error L k = Some (t, o) -> f' (nx ps + k)%nat = Worker t Unborn [] [];
      gn_size : forall t p, In (t, p) (Pool.ps_pools ps) ->
        (In t R' /\ Z.of_nat (length (Q t p)) + Z.of_nat (length (E t p)) = nw t) \/ (~ In t R' /\ Q t p = [] /\ E t p = []);
      gn_ids : forall t p, In (t, p) (Pool.ps_pools ps) -> NoDup (map Pool.w_id (Q t p));
      gn_in : forall t p w', In (t, p) (Pool.ps_pools ps) -> In w' (Q t p) -> exists w, In w p /\ Pool.w_id w = Pool.w_id w' /\
        (Pool.w_proc w' = false -> Pool.w_proc w = false \/ tb ps (Pool.w_id w) = Some (t, Pool.Exited 0));
      gn_run : forall t p j, In (t, p) (Pool.ps_pools ps) -> In (fresh_worker j) p -> tb ps j = Some (t, Pool.Running) -> In (fresh_worker j) (Q t p);
      gn_drop : forall t p w, In (t, p) (Pool.ps_pools ps) -> In w p ->
        (In (Some (Pool.w_id w)) (E t p) <-> ~ In (Pool.w_id w) (map Pool.w_id (Q t p)));
      gn_dead : forall t p d, In (t, p) (Pool.ps_pools ps) -> In (Some d) (E t p) -> w_at (f d) = Dead /\ In d (map Pool.w_id p)
    }.
    Hypothesis G : grown.
    Lemma gn_nxt : nx ps' = (nx ps + length L)%nat.
    Proof. apply (gr_nxt _ _ _ (gn_sys G)). Qed.
    Lemma gn_cases j : (j < nx ps')%nat -> (j < nx ps)%nat \/ exists k t o, j = (nx ps + k)%nat /\ nth_error L k = Some (t, o).
    Proof.
      rewrite gn_nxt. intros H. destruct (Nat.lt_ge_cases j (nx ps)) as [L1|L1]; auto. right. exists (j - nx ps)%nat.
      destruct (nth_error L (j - nx ps)) as [[t o]|] eqn:X; [|apply nth_error_None in X; lia]. exists t, o. split; [lia|auto].
    Qed.
    Lemma gn_tb_old j : (j < nx ps)%nat -> tb ps' j = tb ps j.
    Proof. apply (gr_old _ _ _ (gn_sys G)). Qed.
    Lemma gn_tb_new k t o : nth_error L k = Some (t, o) -> tb ps' (nx ps + k)%nat = Some (t, Pool.Running).
    Proof. apply (gr_new _ _ _ (gn_sys G)). Qed.
    Lemma gn_wf j : tb ps' j = None <-> (nx ps' <= j)%nat.
    Proof.
      split.
      - intros N. destruct (Nat.lt_ge_cases j (nx ps')) as [X|X]; auto. exfalso. destruct (gn_cases j X) as [H|[k [t [o [-> H]]]]].
        + rewrite gn_tb_old in N by auto. apply (hi_wf _ _ _ (gn_hi G)) in N. lia.
        + rewrite (gn_tb_new _ _ _ H) in N. discriminate.
      - intros H. rewrite (gr_far _ _ _ (gn_sys G)) by auto. apply (hi_wf _ _ _ (gn_hi G)). rewrite gn_nxt in H. lia.
    Qed.
    Lemma gn_pooled_old j : (j < nx ps)%nat -> (pooled ps' j <-> exists t p, In (t, p) (Pool.ps_pools ps) /\ In j (map Pool.w_id (Q t p))).
    Proof.
      intros Hj. unfold pooled. rewrite (gn_pools G). split.
      - intros [t [p' [Hp H]]]. destruct (lay_in _ _ _ _ _ _ Hp) as [p [k [H1 [-> _]]]]. exists t, p. split; auto.
        rewrite map_app in H. apply in_app_or in H. destruct H as [H|H]; auto. rewrite map_map in H. cbn in H. rewrite map_id in H. apply in_seq in H. lia.
      - intros [t [p [Hp H]]]. destruct (in_lay Q E (Pool.ps_pools ps) (nx ps) t p Hp) as [k Hk]. eexists t, _. split; [exact Hk|].
        rewrite map_app. apply in_or_app. auto.
    Qed.
    Lemma gn_lt t p w' : In (t, p) (Pool.ps_pools ps) -> In w' (Q t p) -> (Pool.w_id w' < nx ps)%nat.
    Proof. intros Hp Hw. destruct (gn_in G _ _ _ Hp Hw) as [w [H1 [<- _]]]. eapply hi_in_lt; eauto. apply (gn_hi G). Qed.
    Lemma gn_pooled_new k t o : nth_error L k = Some (t, o) -> pooled ps' (nx ps + k)%nat.
    Proof.
      intros H. destruct (lay_new Q E (Pool.ps_pools ps) (nx ps) k t o H) as [p' [H1 H2]]. exists t, p'. rewrite (gn_pools G). split; auto.
      apply (in_map Pool.w_id) in H2. exact H2.
    Qed.
    Lemma gn_pooled_back j : (j < nx ps)%nat -> pooled ps' j -> pooled ps j.
    Proof.
      intros Hj H. apply gn_pooled_old in H; auto. destruct H as [t [p [Hp H]]]. exists t, p. split; auto.
      apply in_map_iff in H. destruct H as [w' [<- Hw]]. destruct (gn_in G _ _ _ Hp Hw) as [w [H1 [<- _]]]. apply in_map. auto.
    Qed.
    (* who is replaced *)
    Lemma gn_gone j : (j < nx ps)%nat -> (In (Some j) (map snd L) <-> pooled ps j /\ ~ pooled ps' j).
    Proof.
      intros Hj. rewrite in_map_iff. split.
      - intros [[t o] [Eo H]]. cbn in Eo. subst o. apply news_in in H. destruct H as [p [Hp H]].
        destruct (gn_dead G _ _ _ Hp H) as [_ H1]. split; [exists t, p; auto|].
        intros P. apply gn_pooled_old in P; auto. destruct P as [u [q [Hq P]]].
        assert (u = t).
        { apply in_map_iff in P. destruct P as [w' [E1 Hw']]. destruct (gn_in G _ _ _ Hq Hw') as [w [Hw [E2 _]]].
          apply in_map_iff in H1. destruct H1 as [v [E3 Hv]]. destruct (hi_in _ _ _ (gn_hi G) _ _ _ Hq Hw) as [s1 [X1 _]].
          destruct (hi_in _ _ _ (gn_hi G) _ _ _ Hp Hv) as [s2 [X2 _]]. rewrite E3 in X2. rewrite E2, E1 in X1. congruence. }
        subst u. assert (q = p) by (eapply hi_uniq; eauto; apply (gn_hi G)). subst q.
        apply in_map_iff in H1. destruct H1 as [v [E3 Hv]]. subst j. apply (gn_drop G _ _ _ Hp Hv) in H. auto.
      - intros [[t [p [Hp H]]] N]. exists (t, Some j). split; auto. apply news_in. exists p. split; auto.
        apply in_map_iff in H. destruct H as [w [<- Hw]]. apply (gn_drop G _ _ _ Hp Hw). intros X. apply N. apply gn_pooled_old; auto. eauto.
    Qed.
    Lemma grown_hi : HI R' ps' f'.
    Proof.
      pose proof (gn_hi G) as H. constructor.
      - apply gn_wf.
      - intros t. rewrite (gn_err G). apply H.
      - rewrite (gn_pools G), lay_keys. apply H.
      - intros t p' Hp. rewrite (gn_pools G) in Hp. destruct (lay_in _ _ _ _ _ _ Hp) as [p [k [H1 [-> _]]]].
        rewrite app_length, map_length, seq_length. destruct (gn_size G _ _ H1) as [[A B]|[A [B C]]]; [left|right].
        + split; auto. lia.
        + split; auto. rewrite B, C. reflexivity.
      - intros t p' Hp. rewrite (gn_pools G) in Hp. destruct (lay_in _ _ _ _ _ _ Hp) as [p [k [H1 [-> _]]]].
        rewrite map_app, map_map. cbn. rewrite map_id. pose proof (gn_ids G _ _ H1) as N1.
        assert (D : forall j, In j (map Pool.w_id (Q t p)) -> (j < nx ps)%nat).
        { intros j Hj. apply in_map_iff in Hj. destruct Hj as [w' [<- Hw]]. eapply gn_lt; eauto. }
        pose proof (seq_NoDup (length (E t p)) (nx ps + k)) as N2.
        assert (D2 : forall j, In j (seq (nx ps + k) (length (E t p))) -> (nx ps <= j)%nat) by (intros j Hj; apply in_seq in Hj; lia).
        revert N1 N2 D D2. generalize (map Pool.w_id (Q t p)) as a, (seq (nx ps + k) (length (E t p))) as b. intros a b N1 N2 D D2.
        induction N1 as [|x a Nx Na IH]; cbn; auto. constructor.
        + intros Hi. apply in_app_or in Hi. destruct Hi as [Hi|Hi]; auto. apply D2 in Hi. specialize (D x (or_introl eq_refl)). lia.
        + apply IH. intros j Hj. apply D. right. auto.
      - intros t p' w Hp Hw. rewrite (gn_pools G) in Hp. destruct (lay_in _ _ _ _ _ _ Hp) as [p [k [H1 [-> H3]]]].
        apply in_app_or in Hw. destruct Hw as [Hw|Hw].
        + pose proof (gn_lt _ _ _ H1 Hw) as Lt. rewrite gn_tb_old by auto. rewrite (gn_old G) by auto.
          destruct (gn_in G _ _ _ H1 Hw) as [v [Hv [Ev Pv]]]. destruct (hi_in _ _ _ H _ _ _ H1 Hv) as [s [Es Ps]]. rewrite Ev in *.
          exists s. split; auto. intros Pf. destruct (Pv Pf) as [Pf'|X]; [auto|]. rewrite X in Es. injection Es as <-. split; auto.
          destruct (hi_exit _ _ _ H _ _ _ X) as [[_ A]|[A _]]; auto. exfalso. apply A; auto. exists t, p. split; auto.
          rewrite <- Ev. apply in_map. auto.
        + apply in_map_iff in Hw. destruct Hw as [j [<- Hj]]. apply in_seq in Hj. cbn [fresh_worker Pool.w_id Pool.w_proc].
          destruct (H3 (j - (nx ps + k))%nat) as [o Ho]; [lia|]. apply gn_tb_new in Ho.
          replace (nx ps + (k + (j - (nx ps + k))))%nat with j in Ho by lia. exists Pool.Running. split; auto. discriminate.
      - intros j t s Ej. assert (Lt : (j < nx ps')%nat).
        { destruct (Nat.lt_ge_cases j (nx ps')) as [X|X]; auto. apply gn_wf in X. congruence. }
        destruct (gn_cases j Lt) as [X|[k [u [o [-> X]]]]].
        + rewrite gn_tb_old in Ej by auto. rewrite (gn_old G) by auto. eapply (hi_task _ _ _ H); eauto.
        + rewrite (gn_tb_new _ _ _ X) in Ej. rewrite (gn_new G _ _ _ X). cbn. congruence.
      - intros j t Ej. assert (Lt : (j < nx ps')%nat).
        { destruct (Nat.lt_ge_cases j (nx ps')) as [X|X]; auto. apply gn_wf in X. congruence. }
        destruct (gn_cases j Lt) as [X|[k [u [o [-> X]]]]].
        + rewrite gn_tb_old in Ej by auto. rewrite (gn_old G) by auto. destruct (hi_run _ _ _ H _ _ Ej) as [A [p [B C]]]. split; auto.
          destruct (in_lay Q E (Pool.ps_pools ps) (nx ps) t p B) as [k Hk]. eexists. rewrite (gn_pools G). split; [exact Hk|].
          apply in_or_app. left. eapply (gn_run G); eauto.
        + rewrite (gn_tb_new _ _ _ X) in Ej. injection Ej as ->. rewrite (gn_new G _ _ _ X). split; [discriminate|].
          rewrite (gn_pools G). eapply lay_new; eauto.
      - intros j t c Ej. assert (Lt : (j < nx ps')%nat).
        { destruct (Nat.lt_ge_cases j (nx ps')) as [X|X]; auto. apply gn_wf in X. congruence. }
        destruct (gn_cases j Lt) as [X|[k [u [o [-> X]]]]]; [|rewrite (gn_tb_new _ _ _ X) in Ej; discriminate].
        rewrite gn_tb_old in Ej by auto. rewrite (gn_old G) by auto. destruct (hi_exit _ _ _ H _ _ _ Ej) as [[A B]|[A [B C]]]; [left|right].
        + split; auto. intros P. apply B. eapply gn_pooled_back; eauto.
        + split; auto. split; auto. apply gn_pooled_old; auto. destruct B as [u [p [Hp Hj]]]. exists u, p. split; auto.
          destruct (in_dec Nat.eq_dec j (map Pool.w_id (Q u p))) as [Y|Y]; auto. exfalso.
          apply in_map_iff in Hj. destruct Hj as [w [<- Hw]]. apply (gn_drop G _ _ _ Hp Hw) in Y. apply (gn_dead G _ _ _ Hp) in Y. destruct Y. congruence.
      - intros j pb w Ej Hm. assert (Lt : (j < nx ps')%nat).
        { destruct (Nat.lt_ge_cases j (nx ps')) as [X|X]; auto. apply gn_wf in X. congruence. }
        destruct (gn_cases j Lt) as [X|[k [u [o [-> X]]]]].
        + rewrite (gn_old G) in * by auto. eapply (hi_bf _ _ _ H); eauto. rewrite <- gn_tb_old; auto.
        + rewrite (gn_new G _ _ _ X) in Hm. destruct Hm.
      - intros j Ej. assert (Lt : (j < nx ps')%nat).
        { destruct (Nat.lt_ge_cases j (nx ps')) as [X|X]; auto. apply gn_wf in X. congruence. }
        destruct (gn_cases j Lt) as [X|[k [u [o [-> X]]]]].
        + rewrite (gn_old G) by auto. apply (hi_phase _ _ _ H). rewrite <- gn_tb_old; auto.
        + rewrite (gn_new G _ _ _ X). discriminate.
    Qed.
  End Grown.
End Inv.

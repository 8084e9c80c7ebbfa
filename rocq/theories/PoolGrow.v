(* What starts workers does so in the same way: some workers are kept, and new ones are put after
   them (for Whole.v). *)
From Coq Require Import Arith Lia.
From Verif Require Import Pool P_Pool.
Open Scope Z_scope.

Definition fresh_worker (i : nat) : worker := Worker i true.
(* new processes for the tasks in L, one after the other *)
Record grows (s s' : sys) (L : list (nat * option nat)) : Prop := {
  gr_nxt : nxt s' = (nxt s + length L)%nat;
  gr_old : forall i, (i < nxt s)%nat -> tbl s' i = tbl s i;
  gr_new : forall k t o, nth_error L k = Some (t, o) -> tbl s' (nxt s + k) = Some (t, Running);
  gr_far : forall i, (nxt s' <= i)%nat -> tbl s' i = tbl s i
}.
Lemma grows_nil s : grows s s [].
Proof. constructor; auto. intros [|k] t o; discriminate. Qed.
Lemma grows_app s s1 s2 L1 L2 : grows s s1 L1 -> grows s1 s2 L2 -> grows s s2 (L1 ++ L2).
Proof.
  intros A B. pose proof (gr_nxt _ _ _ A) as NA. pose proof (gr_nxt _ _ _ B) as NB. constructor.
  - rewrite app_length. lia.
  - intros i Hi. rewrite (gr_old _ _ _ B) by lia. apply (gr_old _ _ _ A). auto.
  - intros k t o E. destruct (Nat.lt_ge_cases k (length L1)) as [H|H].
    + rewrite nth_error_app1 in E by auto. rewrite (gr_old _ _ _ B) by lia. eapply (gr_new _ _ _ A); eauto.
    + rewrite nth_error_app2 in E by auto. apply (gr_new _ _ _ B) in E. rewrite NA in E.
      replace (nxt s + k)%nat with (nxt s + length L1 + (k - length L1))%nat by lia. auto.
  - intros i Hi. rewrite (gr_far _ _ _ B) by lia. apply (gr_far _ _ _ A). lia.
Qed.
Lemma start_grows t (es : list (option nat)) s s' ws : start_n t (length es) s = (s', ws) ->
  ws = map fresh_worker (seq (nxt s) (length es)) /\ grows s s' (map (pair t) es).
Proof.
  intros E. apply start_n_spec in E. destruct E as [E1 [E2 E3]]. split; auto. constructor.
  - rewrite map_length. auto.
  - intros i Hi. rewrite E3. replace (nxt s <=? i)%nat with false by (symmetry; apply Nat.leb_gt; lia). reflexivity.
  - intros k u o H. assert (L : (k < length es)%nat) by (rewrite <- (map_length (pair t)); apply nth_error_Some; congruence).
    rewrite nth_error_map in H. destruct (nth_error es k); [|discriminate]. cbn in H. injection H as <- <-.
    rewrite E3. replace (nxt s <=? nxt s + k)%nat with true by (symmetry; apply Nat.leb_le; lia).
    replace (nxt s + k <? nxt s + length es)%nat with true by (symmetry; apply Nat.ltb_lt; lia). reflexivity.
  - intros i Hi. rewrite E3. replace (i <? nxt s + length es)%nat with false by (symmetry; apply Nat.ltb_ge; lia).
    rewrite andb_false_r. reflexivity.
Qed.
Definition older (s0 s : sys) : Prop := (nxt s0 <= nxt s)%nat /\ forall i, (i < nxt s0)%nat -> tbl s i = tbl s0 i.
Lemma older_refl s : older s s.
Proof. split; auto. Qed.
Lemma older_grows s0 s s' L : older s0 s -> grows s s' L -> older s0 s'.
Proof.
  intros [A B] G. pose proof (gr_nxt _ _ _ G). split; [lia|]. intros i Hi. rewrite (gr_old _ _ _ G) by lia. auto.
Qed.

Section Grow.
  Variable Q : nat -> pool -> pool.
  Variable E : nat -> pool -> list (option nat).
  Definition news (l : list (nat * pool)) : list (nat * option nat) :=
    flat_map (fun tp => map (pair (fst tp)) (E (fst tp) (snd tp))) l.
  Fixpoint lay (n : nat) (l : list (nat * pool)) : list (nat * pool) :=
    match l with
    | [] => []
    | (t, p) :: r => (t, Q t p ++ map fresh_worker (seq n (length (E t p)))) :: lay (n + length (E t p)) r
    end.
  Definition makes (f : nat -> sys * pool -> sys * pool) (s0 : sys) (l : list (nat * pool)) : Prop :=
    forall t p s, In (t, p) l -> older s0 s -> exists s',
      f t (s, p) = (s', Q t p ++ map fresh_worker (seq (nxt s) (length (E t p)))) /\ grows s s' (map (pair t) (E t p)).
  Lemma each_grows f s0 l : forall s, makes f s0 l -> older s0 s ->
    exists s', each f s l = (s', lay (nxt s) l) /\ grows s s' (news l).
  Proof.
    induction l as [|[t p] l IH]; intros s M O; cbn [each lay news flat_map].
    - exists s. split; auto. apply grows_nil.
    - destruct (M t p s (or_introl eq_refl) O) as [s1 [E1 G1]]. rewrite E1.
      destruct (IH s1) as [s2 [E2 G2]]; [intros u q s' H; apply M; right; auto|eapply older_grows; eauto|].
      rewrite E2. exists s2. split; [|eapply grows_app; eauto].
      rewrite (gr_nxt _ _ _ G1), map_length. reflexivity.
  Qed.
  Lemma lay_keys l : forall n, map fst (lay n l) = map fst l.
  Proof. induction l as [|[t p] l IH]; intros n; cbn; f_equal; auto. Qed.
  Lemma lay_in l : forall n t p', In (t, p') (lay n l) -> exists p k,
    In (t, p) l /\ p' = Q t p ++ map fresh_worker (seq (n + k) (length (E t p))) /\
    forall j, (j < length (E t p))%nat -> exists o, nth_error (news l) (k + j) = Some (t, o).
  Proof.
    induction l as [|[t p] l IH]; intros n u p'; cbn [lay]; [intros []|]. intros [H|H].
    - injection H as <- <-. exists p, 0%nat. split; [left; auto|]. split; [rewrite Nat.add_0_r; auto|].
      intros j Hj. cbn [news flat_map fst snd]. destruct (nth_error (E t p) j) as [o|] eqn:Eo; [|apply nth_error_None in Eo; lia].
      exists o. cbn. rewrite nth_error_app1 by (rewrite map_length; auto). rewrite nth_error_map, Eo. reflexivity.
    - destruct (IH _ _ _ H) as [q [k [H1 [H2 H3]]]]. exists q, (length (E t p) + k)%nat. split; [right; auto|].
      split; [rewrite Nat.add_assoc; auto|]. intros j Hj. destruct (H3 j Hj) as [o Ho]. exists o.
      cbn [news flat_map fst snd]. rewrite nth_error_app2 by (rewrite map_length; lia).
      rewrite map_length. replace (length (E t p) + k + j - length (E t p))%nat with (k + j)%nat by lia. auto.
  Qed.
  Lemma in_lay l : forall n t p, In (t, p) l -> exists k, In (t, Q t p ++ map fresh_worker (seq (n + k) (length (E t p)))) (lay n l).
  Proof.
    induction l as [|[u q] l IH]; intros n t p; [intros []|]. intros [H|H]; cbn [lay].
    - injection H as -> ->. exists 0%nat. rewrite Nat.add_0_r. left. auto.
    - destruct (IH (n + length (E u q))%nat t p H) as [k Hk]. exists (length (E u q) + k)%nat. rewrite Nat.add_assoc. right. auto.
  Qed.
  Lemma lay_new l : forall n k t o, nth_error (news l) k = Some (t, o) ->
    exists p', In (t, p') (lay n l) /\ In (fresh_worker (n + k)) p'.
  Proof.
    induction l as [|[u q] l IH]; intros n k t o H; [destruct k; discriminate|]. cbn [news flat_map fst snd] in H. cbn [lay].
    destruct (Nat.lt_ge_cases k (length (E u q))) as [L|L].
    - rewrite nth_error_app1 in H by (rewrite map_length; auto). rewrite nth_error_map in H.
      destruct (nth_error (E u q) k); [|discriminate]. cbn in H. injection H as <- <-.
      eexists. split; [left; reflexivity|]. apply in_or_app. right. apply in_map, in_seq. lia.
    - rewrite nth_error_app2 in H by (rewrite map_length; auto). rewrite map_length in H.
      destruct (IH (n + length (E u q))%nat _ _ _ H) as [p' [H1 H2]]. exists p'. split; [right; auto|].
      replace (n + k)%nat with (n + length (E u q) + (k - length (E u q)))%nat by lia. auto.
  Qed.
  Lemma news_in l t o : In (t, o) (news l) <-> exists p, In (t, p) l /\ In o (E t p).
  Proof.
    unfold news. rewrite in_flat_map. split.
    - intros [[u p] [H1 H2]]. cbn in H2. apply in_map_iff in H2. destruct H2 as [o' [E2 H2]]. injection E2 as <- <-. eauto.
    - intros [p [H1 H2]]. exists (t, p). split; auto. cbn. apply in_map. auto.
  Qed.
End Grow.

(* task_worker_pools.py:26-34, where no pool is too large *)
Section Events.
  Variable nw : nat -> Z.
  Variable mbf : Z.
  Definition recruit_E (ts : list nat) (t : nat) (p : pool) : list (option nat) :=
    if mem Nat.eqb t ts then repeat None (Z.to_nat (nw t - Z.of_nat (length p))) else [].
  Lemma recruit_grows ts x : (forall t p, In (t, p) (ps_pools x) -> mem Nat.eqb t ts = true -> Z.of_nat (length p) <= nw t) ->
    exists s', pstep nw mbf (PRecruit ts) x = (Pools s' (lay (fun _ p => p) (recruit_E ts) (nxt (ps_sys x)) (ps_pools x)) (ps_err x) (ps_fc x), None) /\
      grows (ps_sys x) s' (news (recruit_E ts) (ps_pools x)).
  Proof.
    intros H. cbn [pstep]. unfold recruit_workers, on_pools.
    destruct (each_grows (fun _ p => p) (recruit_E ts)
      (fun t sp => if mem Nat.eqb t ts then set_num_workers t (nw t) sp else sp) (ps_sys x) (ps_pools x) (ps_sys x)) as [s' [E1 G]].
    - intros t p s Hp O. unfold recruit_E. destruct (mem Nat.eqb t ts) eqn:M.
      2:{ exists s. cbn. rewrite app_nil_r. split; auto. apply grows_nil. }
      specialize (H t p Hp M). unfold set_num_workers. cbn [snd].
      destruct (0 <? nw t - Z.of_nat (length p)) eqn:C.
      + cbn [start_workers]. destruct (start_n t (Z.to_nat (nw t - Z.of_nat (length p))) s) as [s1 ws] eqn:En.
        exists s1. rewrite <- (repeat_length (@None nat) (Z.to_nat (nw t - Z.of_nat (length p)))) in En.
        destruct (start_grows _ _ _ _ _ En) as [-> G]. split; auto.
      + apply Z.ltb_ge in C. replace (nw t - Z.of_nat (length p)) with 0 by lia. cbn. exists s. rewrite app_nil_r. split; auto. apply grows_nil.
    - apply older_refl.
    - rewrite E1. exists s'. auto.
  Qed.

  (* check_worker_health, where no worker has reported an exception *)
  Definition hop (t : nat) (x : sys * pool) : sys * pool :=
    let '(s, p) := x in
    let '(p1, reaped) := reap_dead_workers (s, p) in
    if 0 <? reaped then inc_num_workers t reaped (s, p1) else (s, p1).
  Lemma health_each err l : (forall t, err t = []) -> forall s,
    health s err l = let '(s', l') := each hop s l in (s', err, l', None).
  Proof.
    intros H. induction l as [|[t p] l IH]; intros s; cbn [health each]; auto. rewrite H.
    assert (Eh : hop t (s, p) = let '(p1, reaped) := reap_dead_workers (s, p) in
        if 0 <? reaped then inc_num_workers t reaped (s, p1) else (s, p1)) by reflexivity.
    destruct (hop t (s, p)) as [s1 q1]. destruct (reap_dead_workers (s, p)) as [p1 k]. cbn beta iota in Eh. rewrite <- Eh.
    rewrite IH. destruct (each hop s1 l). reflexivity.
  Qed.
  Definition health_Q (s0 : sys) (t : nat) (p : pool) : pool := map (noticed s0) (filter (fun w => negb (failed_worker s0 w)) p).
  Definition health_E (s0 : sys) (t : nat) (p : pool) : list (option nat) := map (fun w => Some (w_id w)) (filter (failed_worker s0) p).
  Lemma health_grows x : (forall t, ps_err x t = []) ->
    (forall t p, In (t, p) (ps_pools x) -> NoDup (map w_id p) /\ forall w, In w p -> (w_id w < nxt (ps_sys x))%nat) ->
    exists s', pstep nw mbf PHealth x = (Pools s' (lay (health_Q (ps_sys x)) (health_E (ps_sys x)) (nxt (ps_sys x)) (ps_pools x)) (ps_err x) (ps_fc x), None) /\
      grows (ps_sys x) s' (news (health_E (ps_sys x)) (ps_pools x)).
  Proof.
    intros He H. cbn [pstep]. unfold check_worker_health. rewrite health_each by auto.
    destruct (each_grows (health_Q (ps_sys x)) (health_E (ps_sys x)) hop (ps_sys x) (ps_pools x) (ps_sys x)) as [s' [E1 G]].
    - intros t p s Hp O. destruct (H t p Hp) as [N L].
      assert (Ex : forall w, In w p -> exitcode s w = exitcode (ps_sys x) w).
      { intros w Hw. unfold exitcode. destruct O as [_ O]. rewrite O; auto. }
      assert (Ef : filter (failed_worker s) p = filter (failed_worker (ps_sys x)) p).
      { apply filter_ext_in. intros w Hw. unfold failed_worker. rewrite Ex; auto. }
      assert (En : filter (fun w => negb (failed_worker s w)) p = filter (fun w => negb (failed_worker (ps_sys x) w)) p).
      { apply filter_ext_in. intros w Hw. unfold failed_worker. rewrite Ex; auto. }
      assert (Em : map (noticed s) (filter (fun w => negb (failed_worker s w)) p) = health_Q (ps_sys x) t p).
      { rewrite En. unfold health_Q. apply map_ext_in. intros w Hw. apply filter_In in Hw. unfold noticed. rewrite Ex; tauto. }
      unfold hop. rewrite reap_eq by auto. rewrite Em, Ef. unfold health_E at 1 2.
      set (dead := filter (failed_worker (ps_sys x)) p). rewrite map_length.
      destruct (0 <? Z.of_nat (length dead)) eqn:C.
      + unfold inc_num_workers, start_workers. rewrite Nat2Z.id.
        replace (length dead) with (length (map (fun w => Some (w_id w)) dead)) by apply map_length.
        destruct (start_n t (length (map (fun w => Some (w_id w)) dead)) s) as [s1 ws] eqn:Es. destruct (start_grows _ _ _ _ _ Es) as [-> G].
        exists s1. split; auto.
      + apply Z.ltb_ge in C. assert (dead = []) by (destruct dead; auto; cbn in C; lia). exists s. unfold health_E. fold dead. rewrite H0. cbn. rewrite app_nil_r.
        split; auto. apply grows_nil.
    - apply older_refl.
    - rewrite E1. exists s'. auto.
  Qed.

  (* on_block_failure, for a worker of the pool that is still there: it is killed, and another one is started *)
  Definition kill (s : sys) (t w : nat) : sys := set_proc s w t (Exited (-15)).
  Definition restart_Q (t w : nat) (u : nat) (p : pool) : pool := if Nat.eqb u t then del_worker p w else p.
  Definition restart_E (t w : nat) (u : nat) (p : pool) : list (option nat) := if Nat.eqb u t then [Some w] else [].
  Lemma failure_counts t w x : ps_fc x t w + 1 <= mbf -> exists fc,
    pstep nw mbf (PFailure t w) x = (Pools (ps_sys x) (ps_pools x) (ps_err x) fc, None).
  Proof.
    intros H. cbn [pstep]. unfold on_block_failure. replace (mbf <? ps_fc x t w + 1) with false by (symmetry; apply Z.ltb_ge; lia). eauto.
  Qed.
  Lemma failure_grows t w p x : mbf < ps_fc x t w + 1 -> NoDup (map fst (ps_pools x)) -> In (t, p) (ps_pools x) ->
    NoDup (map w_id p) -> In (fresh_worker w) p -> tbl (ps_sys x) w = Some (t, Running) ->
    exists s' fc, pstep nw mbf (PFailure t w) x =
      (Pools s' (lay (restart_Q t w) (restart_E t w) (nxt (ps_sys x)) (ps_pools x)) (ps_err x) fc, None) /\
      grows (kill (ps_sys x) t w) s' (news (restart_E t w) (ps_pools x)).
  Proof.
    intros Hc Nk Hp Np Hw Ht. cbn [pstep]. unfold on_block_failure.
    replace (mbf <? ps_fc x t w + 1) with true by (symmetry; apply Z.ltb_lt; lia).
    replace (existsb (fun tp => Nat.eqb (fst tp) t) (ps_pools x)) with true.
    2:{ symmetry. apply existsb_exists. exists (t, p). cbn. rewrite Nat.eqb_refl. auto. }
    unfold on_pools. cbn [ps_sys ps_pools ps_err ps_fc].
    assert (Ff : find (fun v => Nat.eqb (w_id v) w) p = Some (fresh_worker w)).
    { clear -Np Hw. induction p as [|v p IH]; [destruct Hw|]. cbn [find map] in *. apply NoDup_cons_iff in Np. destruct Np as [N1 N2].
      destruct (Nat.eqb_spec (w_id v) w) as [Ev|Nv].
      - destruct Hw as [->|Hw]; auto. exfalso. apply N1. rewrite Ev. change w with (w_id (fresh_worker w)). apply in_map. auto.
      - destruct Hw as [->|Hw]; [cbn in Nv; congruence|]. auto. }
    set (f := fun u sp => if Nat.eqb u t then inc_num_workers t 1 (pool_stop t (Some w) sp) else sp).
    assert (A : forall l, NoDup (map fst l) -> (forall q, In (t, q) l -> q = p) -> In (t, p) l ->
        each f (ps_sys x) l = each (fun u sp => if Nat.eqb u t then inc_num_workers t 1 (fst sp, del_worker (snd sp) w) else sp) (kill (ps_sys x) t w) l).
    { induction l as [|[u q] l IH]; intros N1 Up H; [destruct H|]. cbn [each map fst] in *. apply NoDup_cons_iff in N1. destruct N1 as [N1 N2].
      unfold f at 1. destruct (Nat.eqb_spec u t) as [->|Nu].
      - assert (q = p) by (apply Up; left; auto). subst q. cbn [pool_stop]. rewrite Ff. unfold stop_worker. cbn [fresh_worker w_proc w_id fst snd].
        rewrite Ht. fold (kill (ps_sys x) t w). destruct (inc_num_workers t 1 (kill (ps_sys x) t w, del_worker p w)) as [s1 p1] eqn:E1.
        assert (B : forall l s, ~ In t (map fst l) -> each f s l =
           each (fun u sp => if Nat.eqb u t then inc_num_workers t 1 (fst sp, del_worker (snd sp) w) else sp) s l).
        { clear. induction l as [|[u q] l IH]; intros s N; cbn [each]; auto. unfold f at 1. cbn in N.
          destruct (Nat.eqb_spec u t) as [->|Nu]; [tauto|]. rewrite IH by tauto. reflexivity. }
        rewrite B by auto. reflexivity.
      - assert (H' : In (t, p) l) by (destruct H as [H|H]; auto; congruence). rewrite (IH N2 (fun q Hq => Up q (or_intror Hq)) H').
        set (g := fun u sp => if Nat.eqb u t then inc_num_workers t 1 (fst sp, del_worker (snd sp) w) else sp). reflexivity. }
    assert (Up : forall q, In (t, q) (ps_pools x) -> q = p).
    { intros q Hq. clear -Nk Hq Hp. induction (ps_pools x) as [|[u r] l IH]; [destruct Hq|]. cbn in Nk. apply NoDup_cons_iff in Nk. destruct Nk as [N1 N2].
      destruct Hq as [Hq|Hq], Hp as [Hp|Hp]; auto; try congruence; exfalso; apply N1.
      - injection Hq as -> ->. apply (in_map fst) in Hp. auto.
      - injection Hp as -> ->. apply (in_map fst) in Hq. auto. }
    rewrite A by auto.
    destruct (each_grows (restart_Q t w) (restart_E t w) (fun u sp => if Nat.eqb u t then inc_num_workers t 1 (fst sp, del_worker (snd sp) w) else sp)
      (kill (ps_sys x) t w) (ps_pools x) (kill (ps_sys x) t w)) as [s' [E1 G]].
    - intros u q s Hq O. unfold restart_Q, restart_E. destruct (Nat.eqb_spec u t) as [->|Nu].
      + cbn [fst snd]. unfold inc_num_workers, start_workers. change (Z.to_nat 1) with (length [Some w]).
        destruct (start_n t (length [Some w]) s) as [s1 ws] eqn:Es. destruct (start_grows _ _ _ _ _ Es) as [-> G]. exists s1. auto.
      + exists s. cbn. rewrite app_nil_r. split; auto. apply grows_nil.
    - apply older_refl.
    - rewrite E1. exists s'. eexists. split; eauto.
  Qed.
End Events.

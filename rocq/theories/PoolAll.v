(* What the pools do to processes, whatever the events; how often they are told about a worker that runs. *)
From Coq Require Import Arith Lia.
From Verif Require PipeFacts.
From Verif Require Import Pool P_Pool.
Open Scope Z_scope.

Definition full (s : sys) : Prop := forall j, tbl s j = None <-> (nxt s <= j)%nat.
(* processes keep their task, may be killed, and new ones are of tasks in P *)
Record chg (P : nat -> Prop) (s s' : sys) : Prop := {
  c_old : forall j t x, tbl s j = Some (t, x) -> tbl s' j = Some (t, x) \/ (x = Running /\ tbl s' j = Some (t, Exited (-15)));
  c_new : forall j, tbl s j = None -> tbl s' j = None \/ exists t x, P t /\ tbl s' j = Some (t, x);
  c_full : full s -> full s'
}.
Definition members (s : sys) (t : nat) (p : pool) : Prop := forall w, In w p -> exists x, tbl s (w_id w) = Some (t, x).
Lemma chg_refl P s : chg P s s.
Proof. constructor; auto. Qed.
Lemma chg_trans P a b c : chg P a b -> chg P b c -> chg P a c.
Proof.
  intros A B. constructor.
  - intros j t x H. destruct (c_old _ _ _ A _ _ _ H) as [H1|[-> H1]]; [exact (c_old _ _ _ B _ _ _ H1)|].
    destruct (c_old _ _ _ B _ _ _ H1) as [H2|[H2 _]]; [auto|discriminate].
  - intros j H. destruct (c_new _ _ _ A _ H) as [H1|[t [x [Pt H1]]]]; [exact (c_new _ _ _ B _ H1)|].
    destruct (c_old _ _ _ B _ _ _ H1) as [H2|[_ H2]]; right; eauto.
  - intros F. apply B, A, F.
Qed.
Lemma chg_weaken (P Q : nat -> Prop) s s' : (forall t, P t -> Q t) -> chg P s s' -> chg Q s s'.
Proof.
  intros H C. constructor; try apply C. intros j Hj. destruct (c_new _ _ _ C j Hj) as [A|[t [x [A B]]]]; [auto|right; eauto].
Qed.
Lemma chg_task P s s' j t x : chg P s s' -> tbl s j = Some (t, x) -> exists y, tbl s' j = Some (t, y).
Proof. intros C H. destruct (c_old _ _ _ C _ _ _ H) as [A|[_ A]]; eauto. Qed.
Lemma chg_members P s s' t p : chg P s s' -> members s t p -> members s' t p.
Proof. intros C M w Hw. destruct (M w Hw) as [x H]. eapply chg_task; eauto. Qed.

Lemma start_chg t n s p s' p' : full s -> members s t p -> start_workers t n (s, p) = (s', p') ->
  chg (eq t) s s' /\ members s' t p' /\ (forall j y, tbl s j = Some y -> tbl s' j = Some y) /\ (n <= 0 -> s' = s /\ p' = p).
Proof.
  intros F M. unfold start_workers. destruct (start_n t (Z.to_nat n) s) as [s1 ws] eqn:E. intros H. injection H as <- <-.
  pose proof (start_n_spec _ _ _ _ _ E) as [E2 [E1 E3]].
  assert (O : forall j y, tbl s j = Some y -> tbl s1 j = Some y).
  { intros j y H. rewrite E3. destruct (nxt s <=? j)%nat eqn:L; cbn [andb]; auto. apply Nat.leb_le in L. apply F in L. congruence. }
  assert (C : chg (eq t) s s1).
  { constructor.
    - intros j u x H. left. auto.
    - intros j H. rewrite E3. destruct (_ && _); eauto 6.
    - intros _ j. rewrite E3, E2. destruct (nxt s <=? j)%nat eqn:L; cbn [andb].
      + destruct (j <? nxt s + Z.to_nat n)%nat eqn:L2; [apply Nat.ltb_lt in L2; split; [discriminate|lia]|]. apply Nat.ltb_ge in L2. apply Nat.leb_le in L.
        split; [lia|]. intros _. apply F. exact L.
      + apply Nat.leb_gt in L. split; [|lia]. intros H. apply F in H. lia. }
  split; [exact C|]. split; [|split; [exact O|]].
  - intros w Hw. apply in_app_or in Hw. destruct Hw as [Hw|Hw]; [eapply chg_members; eauto|].
    rewrite E1 in Hw. apply in_map_iff in Hw. destruct Hw as [i [<- Hi]]. apply in_seq in Hi. cbn [w_id]. rewrite E3.
    replace (nxt s <=? i)%nat with true by (symmetry; apply Nat.leb_le; lia).
    replace (i <? nxt s + Z.to_nat n)%nat with true by (symmetry; apply Nat.ltb_lt; lia). cbn. eauto.
  - intros Hn. replace (Z.to_nat n) with 0%nat in E by lia. cbn in E. injection E as <- <-. rewrite app_nil_r. auto.
Qed.
Lemma stop_chg P t s w x : full s -> tbl s (w_id w) = Some (t, x) -> chg P s (stop_worker t s w).
Proof.
  intros F H. unfold stop_worker. destruct (w_proc w); [|apply chg_refl]. rewrite H. destruct x; [|apply chg_refl].
  constructor; unfold set_proc; cbn [tbl nxt].
  - intros j u x Hj. destruct (Nat.eqb_spec (w_id w) j) as [<-|]; [|auto]. rewrite H in Hj. injection Hj as <- <-. auto.
  - intros j Hj. destruct (Nat.eqb_spec (w_id w) j) as [<-|]; [congruence|auto].
  - intros _ j. cbn [tbl nxt]. destruct (Nat.eqb_spec (w_id w) j) as [<-|]; [|apply F]. split; [discriminate|]. intros L. apply F in L. congruence.
Qed.
Lemma stops_chg P t l : forall s p s' p', full s -> members s t l -> members s t p ->
  fold_left (fun '(s, p) w => (stop_worker t s w, del_worker p (w_id w))) l (s, p) = (s', p') -> chg P s s' /\ members s' t p'.
Proof.
  induction l as [|w l IH]; intros s p s' p' F Ml Mp; cbn [fold_left].
  - intros H. injection H as <- <-. split; [apply chg_refl|exact Mp].
  - destruct (Ml w (or_introl eq_refl)) as [x Hx]. pose proof (stop_chg P t s w x F Hx) as C. intros H.
    apply IH in H.
    + destruct H as [C2 M2]. split; auto. eapply chg_trans; eauto.
    + apply C, F.
    + apply (chg_members _ _ _ _ _ C). intros v Hv. apply Ml. right. exact Hv.
    + apply (chg_members _ _ _ _ _ C). intros v Hv. apply Mp. unfold del_worker in Hv. apply filter_In in Hv. tauto.
Qed.
Lemma set_chg t n s p s' p' : full s -> members s t p -> set_num_workers t n (s, p) = (s', p') -> chg (eq t) s s' /\ members s' t p'.
Proof.
  intros F M. unfold set_num_workers. cbn [snd]. destruct (0 <? _).
  - intros H. apply start_chg in H; auto. tauto.
  - destruct (_ <? 0); [|intros H; injection H as <- <-; split; [apply chg_refl|exact M]].
    unfold stop_workers. apply stops_chg; auto. intros w Hw. apply M. rewrite <- (firstn_skipn (length p - Z.to_nat (- (n - Z.of_nat (length p)))) p). apply in_or_app. auto.
Qed.
Lemma pool_stop_chg t i s p s' p' : full s -> members s t p -> pool_stop t (Some i) (s, p) = (s', p') -> chg (fun _ => False) s s' /\ members s' t p'.
Proof.
  intros F M. cbn [pool_stop]. destruct (find _ p) as [w|] eqn:E.
  - apply find_some in E. destruct E as [Hw _]. destruct (M w Hw) as [x Hx]. intros H. injection H as <- <-.
    pose proof (stop_chg (fun _ => False) t s w x F Hx) as C. split; auto. apply (chg_members _ _ _ _ _ C).
    intros v Hv. apply M. unfold del_worker in Hv. apply filter_In in Hv. tauto.
  - intros H. injection H as <- <-. split; [apply chg_refl|exact M].
Qed.
Definition all_members (x : pools) : Prop := forall t p, In (t, p) (ps_pools x) -> members (ps_sys x) t p.
Definition keeps_all (P : nat -> Prop) (s : sys) (l : list (nat * pool)) (s' : sys) (l' : list (nat * pool)) : Prop :=
  chg P s s' /\ map fst l' = map fst l /\ forall t p, In (t, p) l' -> members s' t p.
Lemma each_chg f (P : nat -> Prop) : forall l s s' l',
  (forall t p s1 s1' p', In (t, p) l -> full s1 -> members s1 t p -> f t (s1, p) = (s1', p') -> chg P s1 s1' /\ members s1' t p') ->
  full s -> (forall t p, In (t, p) l -> members s t p) -> each f s l = (s', l') -> keeps_all P s l s' l'.
Proof.
  induction l as [|[t p] l IH]; intros s s' l' Hf F M; cbn [each].
  - intros H. injection H as <- <-. split; [apply chg_refl|]. split; auto.
  - destruct (f t (s, p)) as [s1 p1] eqn:E1. destruct (each f s1 l) as [s2 l2] eqn:E2. intros H. injection H as <- <-.
    destruct (Hf t p s s1 p1 (or_introl eq_refl) F (M t p (or_introl eq_refl)) E1) as [C1 M1].
    apply IH in E2.
    + destruct E2 as [C2 [K M2]]. split; [eapply chg_trans; eauto|]. split; [cbn; congruence|].
      intros u q [Hq|Hq]; [injection Hq as <- <-; eapply chg_members; eauto|auto].
    + intros u q s3 s3' p' Hq. apply Hf. right. exact Hq.
    + apply C1, F.
    + intros u q Hq. eapply chg_members; [exact C1|]. apply M. right. exact Hq.
Qed.
Lemma health_chg : forall l s err s' err' l' e, full s -> (forall t p, In (t, p) l -> members s t p) ->
  health s err l = (s', err', l', e) -> keeps_all (fun t => exists p, In (t, p) l /\ p <> []) s l s' l' /\
    (forall t, incl (err' t) (err t)) /\ (forall x, e = Some x -> exists t p, In (t, p) l /\ In x (err t)) /\
    (e = None -> forall t p, In (t, p) l -> err t = []) /\ (forall j y, tbl s j = Some y -> tbl s' j = Some y).
Proof.
  induction l as [|[t p] l IH]; intros s err s' err' l' e F M; cbn [health].
  - intros H. injection H as <- <- <- <-. split; [split; [apply chg_refl|auto]|]. split; [intros t a; auto|]. split; [discriminate|split; auto]. intros _ t p [].
  - destruct (err t) as [|x es] eqn:Et.
    + destruct (reap_dead_workers (s, p)) as [p1 k] eqn:Er.
      destruct (if 0 <? k then _ else _) as [s2 p2] eqn:E2. destruct (health s2 err l) as [[[s3 err3] l3] e3] eqn:E3. intros H. injection H as <- <- <- <-.
      assert (M1 : members s t p1).
      { unfold reap_dead_workers in Er. injection Er as <- _. intros w Hw. rewrite del_fold in Hw. apply filter_In in Hw. destruct Hw as [Hw _].
        apply in_map_iff in Hw. destruct Hw as [v [Ev Hv]]. destruct (M t p (or_introl eq_refl) v Hv) as [x Hx]. exists x. subst w. destruct (exitcode s v); exact Hx. }
      assert (NE : 0 <? k = true -> p <> []).
      { intros Hk ->. unfold reap_dead_workers in Er. cbn in Er. injection Er as _ <-. discriminate. }
      assert (X : chg (fun u => exists q, In (u, q) ((t, p) :: l) /\ q <> []) s s2 /\ members s2 t p2 /\ forall j y, tbl s j = Some y -> tbl s2 j = Some y).
      { destruct (0 <? k) eqn:Ek; [|injection E2 as <- <-; split; [apply chg_refl|auto]].
        unfold inc_num_workers in E2. apply start_chg in E2; auto. destruct E2 as [C [M2 [O _]]]. split; [|auto].
        eapply chg_weaken; [|exact C]. intros u <-. exists p. split; [left; auto|auto]. }
      destruct X as [C2 [M2 O2]].
      destruct (IH s2 err s3 err3 l3 e3) as [[C3 [K3 M3]] [I3 [X3 [N3 O3]]]]; auto.
      { apply C2, F. } { intros u q Hq. eapply chg_members; [exact C2|]. apply M. right. exact Hq. }
      split; [split; [|split]|split; [exact I3|split; [|split]]].
      * eapply chg_trans; [exact C2|]. eapply chg_weaken; [|exact C3]. intros u [q [Hq Nq]]. exists q. split; [right|]; auto.
      * cbn. congruence.
      * intros u q [Hq|Hq]; [injection Hq as <- <-; eapply chg_members; eauto|auto].
      * intros y Hy. destruct (X3 y Hy) as [u [q [Hq Hx]]]. exists u, q. split; [right|]; auto.
      * intros He u q [Hq|Hq]; [injection Hq as <- <-; exact Et|eauto].
      * auto.
    + intros H. injection H as <- <- <- <-. split; [split; [apply chg_refl|auto]|]. split; [|split; [|split; [discriminate|auto]]].
      * intros u a. destruct (Nat.eqb_spec t u) as [<-|]; auto. rewrite Et. intros Ha. right. exact Ha.
      * intros y Hy. injection Hy as <-. exists t, p. split; [left; auto|]. rewrite Et. left. auto.
Qed.

Section Step.
  Variable nw : nat -> Z.
  Variable mbf : Z.
  (* of which tasks an event may start workers *)
  Definition starts (e : pevent) (x : pools) (t : nat) : Prop :=
    match e with
    | PRecruit ts => In t ts /\ In t (map fst (ps_pools x))
    | PHealth => exists p, In (t, p) (ps_pools x) /\ p <> []
    | PFailure u _ => u = t /\ In t (map fst (ps_pools x))
    | _ => False
    end.
  Definition sound (x : pools) : Prop := full (ps_sys x) /\ all_members x.
  Lemma pstep_chg e x : sound x -> (forall w c, e <> PExit w c) ->
    chg (starts e x) (ps_sys x) (ps_sys (fst (pstep nw mbf e x))) /\ sound (fst (pstep nw mbf e x)) /\
    map fst (ps_pools (fst (pstep nw mbf e x))) = map fst (ps_pools x).
  Proof.
    intros [F M] N.
    assert (ON : forall f (Q : nat -> Prop) fc er, (forall t p s1 s1' p', In (t, p) (ps_pools x) -> full s1 -> members s1 t p -> f t (s1, p) = (s1', p') -> chg Q s1 s1' /\ members s1' t p') ->
      let y := on_pools f (Pools (ps_sys x) (ps_pools x) er fc) in
      chg Q (ps_sys x) (ps_sys y) /\ sound y /\ map fst (ps_pools y) = map fst (ps_pools x)).
    { intros f Q fc er Hf. unfold on_pools. cbn [ps_sys ps_pools]. destruct (each f (ps_sys x) (ps_pools x)) as [s' l'] eqn:E.
      destruct (each_chg f Q _ _ _ _ Hf F M E) as [C [K M']]. cbn. split; auto. split; auto. split; [apply C, F|exact M']. }
    destruct e as [ts| | |t w|w c|t e]; cbn [pstep fst].
    - destruct x as [s l er fc]. apply ON. intros t p s1 s1' p' Hp F1 M1. destruct (mem Nat.eqb t ts) eqn:Em.
      + intros H. apply set_chg in H; auto. destruct H as [C H]. split; auto. eapply chg_weaken; [|exact C]. intros u <-.
        split; [apply PipeFacts.mem_nat; exact Em|]. apply (in_map fst) in Hp. exact Hp.
      + intros H. injection H as <- <-. split; [apply chg_refl|auto].
    - destruct x as [s l er fc]. apply ON. intros t p s1 s1' p' _ F1 M1 H. cbn [pool_stop] in H. unfold set_num_workers in H. cbn [snd] in H.
      replace (0 <? 0 - Z.of_nat (length p)) with false in H by (symmetry; apply Z.ltb_ge; lia).
      destruct (_ <? 0); [|injection H as <- <-; split; [apply chg_refl|auto]].
      unfold stop_workers in H. eapply stops_chg; [exact F1| |exact M1|exact H]. intros v Hv. apply M1.
      rewrite <- (firstn_skipn (length p - Z.to_nat (- (0 - Z.of_nat (length p)))) p). apply in_or_app. auto.
    - unfold check_worker_health. destruct (health _ _ _) as [[[s err] l] e] eqn:E. cbn [fst].
      destruct (health_chg _ _ _ _ _ _ _ F M E) as [[C [K M']] _]. split; [exact C|]. split; auto. split; [apply C, F|exact M'].
    - unfold on_block_failure. destruct (mbf <? _); [|split; [apply chg_refl|split; [split; assumption|reflexivity]]].
      destruct (existsb _ _); [|split; [apply chg_refl|split; [split; assumption|reflexivity]]]. cbn [fst].
      apply ON. intros u p s1 s1' p' Hp F1 M1. destruct (Nat.eqb_spec u t) as [->|].
      + destruct (pool_stop t (Some w) (s1, p)) as [s2 p2] eqn:E2. apply pool_stop_chg in E2; auto. destruct E2 as [C2 M2].
        unfold inc_num_workers. intros H. apply start_chg in H; auto; [|apply C2, F1]. destruct H as [C3 [M3 _]]. split; auto.
        eapply chg_trans; eapply chg_weaken; [|exact C2| |exact C3]; [intros v []|intros v <-; split; [reflexivity|apply (in_map fst) in Hp; exact Hp]].
      + intros H. injection H as <- <-. split; [apply chg_refl|auto].
    - exfalso. eapply N. reflexivity.
    - split; [apply chg_refl|]. split; [split; assumption|reflexivity].
  Qed.
  Lemma exit_sound w c x : sound x -> sound (fst (pstep nw mbf (PExit w c) x)) /\
    (forall j, tbl (ps_sys (fst (pstep nw mbf (PExit w c) x))) j =
       match tbl (ps_sys x) j with Some (t, Running) => if Nat.eqb w j then Some (t, Exited c) else Some (t, Running) | y => y end) /\
    map fst (ps_pools (fst (pstep nw mbf (PExit w c) x))) = map fst (ps_pools x).
  Proof.
    intros [F M]. cbn [pstep fst ps_sys ps_pools].
    assert (T : forall j, tbl (match tbl (ps_sys x) w with Some (t, Running) => set_proc (ps_sys x) w t (Exited c) | _ => ps_sys x end) j =
       match tbl (ps_sys x) j with Some (t, Running) => if Nat.eqb w j then Some (t, Exited c) else Some (t, Running) | y => y end).
    { intros j. destruct (tbl (ps_sys x) w) as [[t [|c']]|] eqn:E.
      - unfold set_proc. cbn [tbl]. destruct (Nat.eqb_spec w j) as [<-|N]; [rewrite E; reflexivity|]. destruct (tbl (ps_sys x) j) as [[u [|]]|]; reflexivity.
      - destruct (tbl (ps_sys x) j) as [[u [|]]|] eqn:Ej; auto. destruct (Nat.eqb_spec w j) as [<-|N]; congruence.
      - destruct (tbl (ps_sys x) j) as [[u [|]]|] eqn:Ej; auto. destruct (Nat.eqb_spec w j) as [<-|N]; congruence. }
    split; [|auto]. split.
    - intros j. cbn [ps_sys]. rewrite T. assert (Nx : nxt (match tbl (ps_sys x) w with Some (t, Running) => set_proc (ps_sys x) w t (Exited c) | _ => ps_sys x end) = nxt (ps_sys x))
        by (destruct (tbl (ps_sys x) w) as [[t [|]]|]; reflexivity).
      rewrite Nx. pose proof (F j) as Fj. destruct (tbl (ps_sys x) j) as [[u [|]]|]; [destruct (Nat.eqb w j)| |]; try exact Fj; (split; [discriminate|intros L; apply Fj in L; discriminate]).
    - intros t p Hp v Hv. cbn [ps_sys ps_pools] in *. destruct (M t p Hp v Hv) as [y Hy]. rewrite T, Hy. destruct y; [destruct (Nat.eqb _ _)|]; eauto.
  Qed.
End Step.

(* Whatever the whole does is done by the system of Sys.v. *)
From Coq Require Import Arith Lia.
From Verif Require Import VecFacts SchedProps SerialFacts P_Conv ServerFacts ServerSteps PoolGrow WholeSrv.
From Verif Require Export WholeGrow.
From Verif Require Client Pool P_Pool.
Open Scope Z_scope.

Definition efails (es : list Pool.pevent) : list (nat * nat) :=
  flat_map (fun e => match e with Pool.PFailure t w => [(t, w)] | _ => [] end) es.
Definition erecs (es : list Pool.pevent) : list nat :=
  flat_map (fun e => match e with Pool.PRecruit ts => ts | _ => [] end) es.
(* a call of recruit_workers or on_block_failure *)
Definition plain (e : Pool.pevent) : Prop := match e with Pool.PRecruit _ | Pool.PFailure _ _ => True | _ => False end.
Lemma acts_plain l e : In e (pool_acts l) -> plain e.
Proof.
  unfold pool_acts. rewrite in_flat_map. intros [a [_ H]]. destruct a; try (destruct H; fail); [|destruct H as [<-|[]]; exact I].
  destruct n; try (destruct H; fail); destruct H as [<-|[]]; exact I.
Qed.
Lemma acts_fails l : efails (pool_acts l) = map (fun x => (b_task (pb_block (fst x)), snd x)) (fails l).
Proof.
  unfold efails, pool_acts, fails. induction (rev l) as [|a r IH]; [reflexivity|]. cbn [flat_map]. rewrite flat_map_app, map_app, IH. f_equal.
  destruct a; try reflexivity. destruct n; reflexivity.
Qed.
Lemma acts_recs l t : In t (erecs (pool_acts l)) <-> recruited l t.
Proof.
  unfold erecs, pool_acts, recruited. rewrite in_flat_map. split.
  - intros [e [He Ht]]. apply in_flat_map in He. destruct He as [a [Ha He]]. apply in_rev in Ha.
    destruct a; try (destruct He; fail).
    + destruct n; try (destruct He; fail); destruct He as [<-|[]]; destruct Ht.
    + destruct He as [<-|[]]. eauto.
  - intros [ts [Hi Ht]]. exists (Pool.PRecruit ts). split; auto. apply in_flat_map. exists (ARecruit ts). rewrite <- in_rev. split; auto. left. auto.
Qed.

Section Sim.
  Variables (V : list block) (up down : block -> list block) (seeds : nat -> list block).
  Variable maxr : nat -> Z.
  Variable fuel : nat.
  Hypothesis GG : good_graph V up down seeds.
  Hypothesis EN : enough V fuel.
  Variable s0 : sched.
  Hypothesis FR : fresh V seeds s0.
  Variable tasks : list nat.
  Hypothesis known : forall t, In t tasks -> In t (s_order s0).
  Variable init : nat -> res unit.
  Hypothesis init_ok : forall t, init t = Ok tt.
  Local Notation Good := (Good V up down maxr fuel s0 tasks).
  Local Notation step := (step up down maxr fuel init).
  Local Notation runs := (runs up down maxr fuel init).
  Local Notation mu2 := (mu2 V maxr).
  Variable nw : nat -> Z.
  Hypothesis nw_ok : forall t, 0 <= nw t.
  Variable mbf : Z.
  Let keys := dedup Nat.eqb tasks.
  Hypothesis keys_nodup : NoDup keys.
  Local Notation HI := (HI nw keys).
  Local Notation grown := (grown nw keys).
  Local Notation tb ps := (Pool.tbl (Pool.ps_sys ps)).
  Local Notation nx ps := (Pool.nxt (Pool.ps_sys ps)).

  Lemma hi_ext R R' ps ps' f f' : HI R ps f -> (forall t, In t R <-> In t R') -> Pool.ps_sys ps' = Pool.ps_sys ps -> Pool.ps_pools ps' = Pool.ps_pools ps ->
    Pool.ps_err ps' = Pool.ps_err ps -> (forall j, f' j = f j) -> HI R' ps' f'.
  Proof.
    intros H Er E1 E2 E3 E4. constructor; unfold pooled; rewrite ?E1, ?E2, ?E3.
    - apply H.
    - apply H.
    - apply H.
    - intros t p Hp. rewrite <- Er. apply (hi_size _ _ _ _ _ H). auto.
    - apply H.
    - intros t p w Hp Hw. rewrite E4. apply (hi_in _ _ _ _ _ H _ _ _ Hp Hw).
    - intros j t s. rewrite E4. apply H.
    - intros j t. rewrite E4. apply H.
    - intros j t c. rewrite E4. apply (hi_exit _ _ _ _ _ H).
    - intros j pb w. rewrite E4. apply H.
    - intros j. rewrite E4. apply H.
  Qed.
  Lemma mi_ext y sv ps ps' f f' : mirror y sv ps f -> Pool.ps_sys ps' = Pool.ps_sys ps -> Pool.ps_pools ps' = Pool.ps_pools ps ->
    (forall j, f' j = f j) -> mirror y sv ps' f'.
  Proof.
    intros [A B C] E1 E2 E4. constructor; rewrite ?E1; auto. intros st Hst. rewrite C by auto. unfold abs_w, abs_at, pooledb. rewrite E2, E4. reflexivity.
  Qed.
  Lemma hi_started R ps f w t : HI R ps f -> tb ps w = Some (t, Pool.Running) -> In t R.
  Proof.
    intros H Ew. destruct (hi_run _ _ _ _ _ H _ _ Ew) as [_ [p [Hp Hw]]]. destruct (hi_size _ _ _ _ _ H _ _ Hp) as [[A _]|[_ ->]]; auto. destruct Hw.
  Qed.
  Lemma abs_running R ps f j t : HI R ps f -> tb ps j = Some (t, Pool.Running) -> abs_w ps f j = f j.
  Proof.
    intros H Ej. unfold abs_w, abs_at. destruct (hi_run _ _ _ _ _ H _ _ Ej) as [Nd _]. destruct (f j) as [u p o r]. cbn in *. destruct p; congruence.
  Qed.
  Lemma run_pooled R ps f j t : HI R ps f -> tb ps j = Some (t, Pool.Running) -> pooled ps j.
  Proof.
    intros H Ej. destruct (hi_run _ _ _ _ _ H _ _ Ej) as [_ [p [Hp Hw]]]. exists t, p. split; auto. apply (in_map Pool.w_id) in Hw. exact Hw.
  Qed.
  (* where nothing changes but one worker that runs *)
  Lemma mi_put y sv ps f g st t w : HI (sv_started sv) ps f -> mirror y sv ps f -> tb ps st = Some (t, Pool.Running) -> w_at w <> Dead -> w_at w <> Replaced ->
    g st = w -> (forall s, s <> st -> g s = f s) -> mirror (put y st w) sv ps g.
  Proof.
    intros H [A B C] Es Nd Nr Eg Eo. constructor; cbn [put y_sv y_team y_w]; auto. intros s Hs. destruct (Nat.eqb_spec s st) as [->|N].
    - unfold abs_w. rewrite Eg. destruct w as [u p o r]. cbn in *. destruct p; try reflexivity; congruence.
    - rewrite C by auto. unfold abs_w. rewrite Eo by auto. reflexivity.
  Qed.

  (* how many workers are still to be hired *)
  Definition spare (R : list nat) : Z := sum (fun t => if mem Nat.eqb t R then 0 else nw t) keys.
  Lemma mem_ext t R R' : (In t R <-> In t R') -> mem Nat.eqb t R = mem Nat.eqb t R'.
  Proof.
    intros H. destruct (mem Nat.eqb t R) eqn:A, (mem Nat.eqb t R') eqn:B; auto.
    - apply mem_nat, H, mem_nat in A. congruence.
    - apply mem_nat, H, mem_nat in B. congruence.
  Qed.
  Lemma spare_ext R R' : (forall t, In t R <-> In t R') -> spare R = spare R'.
  Proof. intros H. unfold spare. apply sum_same. intros t _. rewrite (mem_ext t R R'); auto. Qed.
  Lemma spare_nonneg R : 0 <= spare R.
  Proof. unfold spare. apply sum_nonneg. intros t. destruct (mem _ _ _); auto. lia. Qed.
  Lemma nones_app l m : nones (l ++ m) = nones l + nones m.
  Proof. unfold nones. apply sum_app. Qed.
  Lemma nones_repeat n : nones (repeat None n) = Z.of_nat n.
  Proof. induction n; [reflexivity|]. cbn [repeat]. change (nones (None :: repeat None n)) with (1 + nones (repeat None n)). lia. Qed.
  Lemma spare_recruit R ts ps f : HI R ps f -> nones (map snd (news (recruit_E nw ts) (Pool.ps_pools ps))) = spare R - spare (R ++ ts).
  Proof.
    intros H. unfold spare. fold keys. rewrite <- (hi_keys _ _ _ _ _ H). pose proof (hi_size _ _ _ _ _ H) as Z. clear H.
    induction (Pool.ps_pools ps) as [|[t p] l IH]; [reflexivity|]. cbn [news flat_map map fst snd sum]. rewrite map_app, nones_app.
    fold (news (recruit_E nw ts) l). rewrite IH by (intros u q Hq; apply Z; right; auto). clear IH.
    rewrite map_map. cbn [snd]. rewrite map_id. unfold recruit_E at 1. specialize (Z t p (or_introl eq_refl)). specialize (nw_ok t).
    destruct (mem Nat.eqb t ts) eqn:M.
    - assert (M2 : mem Nat.eqb t (R ++ ts) = true) by (apply mem_nat, in_or_app; right; apply mem_nat; auto). rewrite M2, nones_repeat.
      destruct (mem Nat.eqb t R) eqn:MR.
      + apply mem_nat in MR. destruct Z as [[_ ->]|[Z _]]; [lia|tauto].
      + assert (~ In t R) by (intros X; apply mem_nat in X; congruence). destruct Z as [[Z _]|[_ ->]]; [tauto|]. cbn. lia.
    - rewrite (mem_ext t (R ++ ts) R); [change (nones []) with 0; lia|]. rewrite in_app_iff. split; auto. intros [X|X]; auto. apply mem_nat in X. congruence.
  Qed.
  Lemma recruit_none R ts ps f : HI R ps f -> incl ts R -> news (recruit_E nw ts) (Pool.ps_pools ps) = [].
  Proof.
    intros H I. pose proof (hi_size _ _ _ _ _ H) as Z. clear H. induction (Pool.ps_pools ps) as [|[t p] l IH]; [reflexivity|]. cbn [news flat_map fst snd].
    fold (news (recruit_E nw ts) l). rewrite IH by (intros u q Hq; apply Z; right; auto). rewrite app_nil_r. unfold recruit_E.
    destruct (mem Nat.eqb t ts) eqn:M; auto. apply mem_nat in M. apply I in M. destruct (Z t p (or_introl eq_refl)) as [[_ Z']|[Z' _]]; [|tauto].
    rewrite Z', Z.sub_diag. reflexivity.
  Qed.
  Lemma osomes_repeat n : osomes (repeat None n) = [].
  Proof. induction n; auto. Qed.

  (* one call *)
  Definition more (e : Pool.pevent) (R : list nat) : list nat := match e with Pool.PRecruit ts => R ++ ts | _ => R end.
  Definition ev_ok (e : Pool.pevent) (ps : Pool.pools) (f : nat -> worker) : Prop :=
    match e with
    | Pool.PRecruit _ | Pool.PHealth => True
    | Pool.PFailure t w => tb ps w = Some (t, Pool.Running) /\ forall pb v, ~ In (MBlockFailed pb v) (w_out (f w))
    | _ => False
    end.
  Definition ev_cost (e : Pool.pevent) : Z := match e with Pool.PFailure _ _ => 7 | _ => 0 end.
  Definition down_in (ps : Pool.pools) (f : nat -> worker) : Prop := exists j, pooled ps j /\ w_at (f j) = Dead.
  Definition ev_quiet (e : Pool.pevent) (R : list nat) (ps : Pool.pools) (f : nat -> worker) : Prop :=
    match e with Pool.PRecruit ts => incl ts R | Pool.PHealth => ~ down_in ps f | _ => False end.

  Lemma health_some R ps f j : HI R ps f -> pooled ps j -> w_at (f j) = Dead ->
    In (Some j) (map snd (news (health_E (Pool.ps_sys ps)) (Pool.ps_pools ps))).
  Proof.
    intros H [t [p [Hp Hj]]] D. apply in_map_iff in Hj. destruct Hj as [w [<- Hw]]. apply in_map_iff. exists (t, Some (Pool.w_id w)). split; auto.
    apply news_in. exists p. split; auto. unfold health_E. apply in_map_iff. exists w. split; auto. apply filter_In. split; auto.
    destruct (hi_in _ _ _ _ _ H _ _ _ Hp Hw) as [s [Es Ps]]. apply (P_Pool.crashed_iff (Pool.ps_sys ps) t w).
    split.
    - destruct (Pool.w_proc w); auto. destruct (Ps eq_refl) as [X _]. congruence.
    - destruct s as [|c]; [destruct (hi_run _ _ _ _ _ H _ _ Es); tauto|]. exists t, c. split; auto.
      destruct (hi_exit _ _ _ _ _ H _ _ _ Es) as [[_ A]|[A _]]; [|congruence]. apply A. exists t, p. split; auto. apply in_map. auto.
  Qed.
  Lemma length_in {A} (x : A) l : In x l -> 1 <= Z.of_nat (length l).
  Proof. destruct l; [intros []|]. intros _. cbn [length]. lia. Qed.

  Lemma ev_sim e cut R ps f y sv : HI R ps f -> mirror y sv ps f -> Good y -> incl R (sv_started sv) -> ev_ok e ps f ->
    exists ps' ms y', Pool.pstep nw mbf e ps = (ps', None) /\ HI (more e R) ps' (sync cut ps ps' f) /\
      (runs y ms y' /\ Forall pool_move ms) /\ mirror y' sv ps' (sync cut ps ps' f) /\ Good y' /\
      mu2 y' + 7 * spare (more e R) <= mu2 y + 7 * spare R + ev_cost e /\
      (ev_quiet e R ps f -> y' = y) /\
      (e = Pool.PHealth -> ~ down_in ps' (sync cut ps ps' f)) /\
      (e = Pool.PHealth -> down_in ps f -> mu2 y' + 1 <= mu2 y) /\
      (forall j, (j < nx ps)%nat -> ev_cost e = 0 -> tb ps' j = tb ps j /\ sync cut ps ps' f j = f j).
  Proof.
    intros H M G I Ok. destruct e as [ts| |  |t w| |]; cbn [ev_ok] in Ok; try tauto; cbn [more ev_cost ev_quiet].
    - destruct (recruit_grown nw nw_ok mbf keys R ps f ts cut H) as [ps' [E Gr]].
      destruct (grown_sim V up down seeds maxr fuel GG EN s0 FR tasks known init init_ok nw keys_nodup _ _ _ _ _ _ _ _ y sv Gr M G) as [ms [y' [Rn [M' [G' [Mu Q]]]]]].
      { intros u p Hp. unfold recruit_E. destruct (mem _ _ _); [rewrite osomes_repeat|]; constructor. }
      exists ps', ms, y'. split; auto. split; [eapply grown_hi; eauto|]. split; auto. split; auto. split; auto.
      rewrite (spare_recruit R ts ps f H) in Mu. split; [lia|]. split; [intros X; apply Q; eapply recruit_none; eauto|].
      split; [discriminate|]. split; [discriminate|]. intros j Hj _.
      split; [eapply gn_tb_old; eauto|eapply gn_old; eauto].
    - destruct (health_grown nw mbf keys R ps f cut H) as [ps' [E [Gr Nd]]].
      destruct (grown_sim V up down seeds maxr fuel GG EN s0 FR tasks known init init_ok nw keys_nodup _ _ _ _ _ _ _ _ y sv Gr M G) as [ms [y' [Rn [M' [G' [Mu Q]]]]]].
      { intros u p Hp. pose proof (hi_ids _ _ _ _ _ H u p Hp) as N. unfold health_E. clear -N.
        assert (Eo : osomes (map (fun w => Some (Pool.w_id w)) (filter (P_Pool.failed_worker (Pool.ps_sys ps)) p)) = map Pool.w_id (filter (P_Pool.failed_worker (Pool.ps_sys ps)) p)).
        { induction (filter _ p); cbn; auto. f_equal. auto. }
        rewrite Eo. clear Eo. induction p as [|v p IH]; cbn in *; [constructor|]. apply NoDup_cons_iff in N. destruct N as [N1 N2].
        destruct (P_Pool.failed_worker _ v); cbn; auto. constructor; auto. intros X. apply N1. apply in_map_iff in X. destruct X as [x [<- X]].
        apply filter_In in X. apply in_map. tauto. }
      assert (Nn : nones (map snd (news (health_E (Pool.ps_sys ps)) (Pool.ps_pools ps))) = 0).
      { clear. induction (Pool.ps_pools ps) as [|[t p] l IH]; [reflexivity|]. cbn [news flat_map map fst snd]. rewrite map_app, nones_app.
        fold (news (health_E (Pool.ps_sys ps)) l). rewrite IH. rewrite map_map. cbn [snd]. rewrite map_id. unfold health_E.
        induction (filter _ p) as [|v q IHq]; [reflexivity|]. cbn [map]. change (nones (Some (Pool.w_id v) :: ?x)) with (0 + nones x). auto. }
      rewrite Nn in Mu. exists ps', ms, y'. split; auto. split; [eapply grown_hi; eauto|]. split; auto. split; auto. split; auto. split; [lia|].
      split; [|split; [|split]].
      + intros X. apply Q. destruct (news (health_E (Pool.ps_sys ps)) (Pool.ps_pools ps)) as [|[t o] l] eqn:N; auto. exfalso.
        assert (Hi : In (t, o) (news (health_E (Pool.ps_sys ps)) (Pool.ps_pools ps))) by (rewrite N; left; auto).
        apply news_in in Hi. destruct Hi as [p [Hp Ho]]. unfold health_E in Ho. pose proof Ho as Ho'. apply in_map_iff in Ho'. destruct Ho' as [v [<- _]].
        destruct (gn_dead _ _ _ _ _ _ _ _ _ _ Gr _ _ _ Hp Ho) as [D Hv]. apply X. exists (Pool.w_id v). split; auto. exists t, p. auto.
      + intros _ [j [Pj Dj]]. apply (Nd j Pj Dj).
      + intros _ [j [Pj Dj]]. pose proof (health_some R ps f j H Pj Dj) as Hi. apply in_osomes in Hi. apply length_in in Hi. lia.
      + intros j Hj _. split; [eapply gn_tb_old; eauto|eapply gn_old; eauto].
    - destruct Ok as [Ew No]. destruct (failure_grown nw mbf keys keys_nodup R ps f t w cut H Ew No) as [ps' [E [[fc Ef]|[fc [Hk Gr]]]]].
      + assert (Sy : forall j, sync cut ps ps' f j = f j) by (intros j; apply sync_same; rewrite Ef; reflexivity).
        exists ps', [], y. split; auto. split; [eapply hi_ext; eauto; try (rewrite Ef; reflexivity); tauto|]. split; [split; constructor|].
        split; [eapply mi_ext; eauto; rewrite Ef; reflexivity|]. split; auto. split; [lia|]. split; [tauto|]. split; [discriminate|]. split; [discriminate|].
        intros; lia.
      + cbn zeta in Hk, Gr. set (psk := Pool.Pools (kill _ _ _) _ _ _) in *. set (fk := upd f w _) in *.
        assert (Lw : (w < nx ps)%nat) by (apply (hi_known _ _ _ _ _ w H); congruence).
        assert (Ey : y_w y w = f w) by (rewrite (mi_w _ _ _ _ M w Lw); eapply abs_running; eauto).
        assert (Td : w_task (f w) = t) by (eapply (hi_task _ _ _ _ _ H); eauto).
        destruct (f w) as [u p o r] eqn:Efw. cbn in Td. subst u.
        assert (Rp : running p).
        { destruct (hi_run _ _ _ _ _ H _ _ Ew) as [Nd _]. pose proof (hi_phase _ _ _ _ _ H w) as Np. rewrite Efw in *. cbn in *.
          assert (p <> Replaced) by (apply Np; congruence). destruct p; cbn; auto; congruence. }
        assert (St : In t (sv_started (y_sv y))) by (rewrite (mi_sv _ _ _ _ M); apply I; exact (hi_started R ps f w t H Ew)).
        assert (Sp := step_die up down maxr fuel init y w t p o r (cut w) (proj2 (mi_in _ _ _ _ w M) Lw) Ey Rp St).
        assert (G1 := step_good V up down seeds maxr fuel GG EN s0 FR tasks known init init_ok _ _ _ G Sp).
        pose proof (die_mu2 V up down seeds maxr fuel GG EN s0 FR tasks known init init_ok _ _ _ _ G Sp) as M1.
        set (y1 := put y w _) in *.
        assert (Mk : mirror y1 sv psk fk).
        { constructor; cbn [y1 put y_sv y_team y_w]; [apply M|apply M|]. intros s Hs. unfold abs_w, fk. destruct (Nat.eqb_spec s w) as [->|N].
          - rewrite upd_at. cbn [w_at w_task w_out w_in abs_at]. assert (Pk : pooledb psk w = true) by (apply pooledb_iff; apply (run_pooled R ps f w t H Ew)). rewrite Pk. reflexivity.
          - rewrite upd_other by auto. rewrite (mi_w _ _ _ _ M s Hs). reflexivity. }
        destruct (grown_sim V up down seeds maxr fuel GG EN s0 FR tasks known init init_ok nw keys_nodup _ _ _ _ _ _ _ _ y1 sv Gr Mk G1) as [ms [y' [Rn [M' [G' [Mu Q]]]]]].
        { intros x q Hq. unfold restart_E. destruct (Nat.eqb x t); cbn; repeat constructor. auto. }
        assert (Ic : In (Some w) (map snd (news (restart_E t w) (Pool.ps_pools psk)))).
        { destruct (hi_run _ _ _ _ _ H _ _ Ew) as [_ [q [Hq _]]]. apply in_map_iff. exists (t, Some w). split; auto. apply news_in. exists q. split; auto.
          unfold restart_E. rewrite Nat.eqb_refl. left. auto. }
        assert (Nn : nones (map snd (news (restart_E t w) (Pool.ps_pools psk))) = 0).
        { clear. induction (Pool.ps_pools psk) as [|[x q] l IH]; [reflexivity|]. cbn [news flat_map map fst snd]. rewrite map_app, nones_app.
          fold (news (restart_E t w) l). rewrite IH. unfold restart_E. destruct (Nat.eqb x t); reflexivity. }
        apply in_osomes in Ic. apply length_in in Ic. rewrite Nn in Mu.
        exists ps', ([Die w (cut w)] ++ ms), y'. split; auto. split; [eapply grown_hi; eauto|].
        split; [destruct Rn as [Rn Pm]; split; [eapply runs_app; [eapply runs_one; exact Sp|exact Rn]|constructor; auto; exact Logic.I]|]. split; auto. split; auto. split; [lia|]. split; [tauto|]. split; [discriminate|].
        split; [discriminate|]. intros; lia.
  Qed.

  (* several calls *)
  Lemma on_all_app cut es es' ps f : on_all nw mbf cut (es ++ es') ps f =
    match on_all nw mbf cut es ps f with Ok (ps', f') => on_all nw mbf cut es' ps' f' | Err x => Err x end.
  Proof.
    revert ps f. induction es as [|e es IH]; intros ps f; [reflexivity|]. cbn [app on_all]. destruct (Pool.pstep nw mbf e ps) as [ps' [x|]]; auto.
  Qed.
  Lemma evs_sim cut es : forall R ps f y sv, (forall e, In e es -> plain e) -> HI R ps f -> mirror y sv ps f -> Good y -> incl (R ++ erecs es) (sv_started sv) ->
    (efails es = [] \/ exists t w, efails es = [(t, w)] /\ ev_ok (Pool.PFailure t w) ps f) ->
    exists ps' f' ms y', on_all nw mbf cut es ps f = Ok (ps', f') /\ HI (R ++ erecs es) ps' f' /\ (runs y ms y' /\ Forall pool_move ms) /\ mirror y' sv ps' f' /\ Good y' /\
      mu2 y' + 7 * spare (R ++ erecs es) <= mu2 y + 7 * spare R + 7 * Z.of_nat (length (efails es)) /\
      (incl (erecs es) R -> efails es = [] -> y' = y /\ forall j, (j < nx ps)%nat -> f' j = f j).
  Proof.
    induction es as [|e es IH]; intros R ps f y sv Pl H M G I Fl.
    - exists ps, f, [], y. cbn [erecs flat_map]. rewrite app_nil_r. split; auto. split; auto. split; [split; constructor|]. split; auto. split; auto. split; [cbn; lia|]. auto.
    - assert (Oe : ev_ok e ps f).
      { assert (P := Pl e (or_introl eq_refl)). destruct e; cbn in P; try tauto.
        destruct Fl as [Fl|[t' [w' [Fl Ok]]]]; [discriminate|]. cbn in Fl. injection Fl as <- <- _. exact Ok. }
      assert (Er : forall t, In t (more e R ++ erecs es) <-> In t (R ++ erecs (e :: es))).
      { intros t. unfold erecs. cbn [flat_map]. destruct e; cbn [more app]; try tauto. rewrite app_assoc. tauto. }
      destruct (ev_sim e cut R ps f y sv H M G) as [ps1 [ms1 [y1 [E1 [H1 [R1 [M1 [G1 [Mu1 [Q1 [_ [_ K1]]]]]]]]]]]]; auto.
      { intros t Ht. apply I. apply in_or_app. auto. }
      destruct (IH (more e R) ps1 (sync cut ps ps1 f) y1 sv) as [ps2 [f2 [ms2 [y2 [E2 [H2 [R2 [M2 [G2 [Mu2 Q2]]]]]]]]]]; auto.
      { intros e' He. apply Pl. right. auto. }
      { intros t Ht. apply I, Er, Ht. }
      { destruct Fl as [Fl|[t [w [Fl Ok]]]].
        - left. unfold efails in *. cbn in Fl. apply app_eq_nil in Fl. apply Fl.
        - assert (Lw : (w < nx ps)%nat) by (apply (hi_known _ _ _ _ _ w H); destruct Ok; congruence).
          destruct e; cbn in Fl; try (destruct (K1 w Lw eq_refl) as [K2 K3]; right; exists t, w; split; [exact Fl|]; cbn [ev_ok]; rewrite K2, K3; exact Ok).
          left. injection Fl as _ _ Fl. exact Fl. }
      exists ps2, f2, (ms1 ++ ms2), y2. split; [cbn [on_all]; rewrite E1; exact E2|]. split; [eapply hi_ext; [exact H2|exact Er|reflexivity..]|].
      split; [destruct R1 as [R1 F1], R2 as [R2 F2]; split; [eapply runs_app; eauto|apply Forall_app; auto]|]. split; auto. split; auto. rewrite (spare_ext (more e R ++ erecs es) (R ++ erecs (e :: es)) Er) in Mu2.
      split.
      + assert (Lf : Z.of_nat (length (efails (e :: es))) * 7 = ev_cost e + 7 * Z.of_nat (length (efails es))).
        { unfold efails. cbn [flat_map]. rewrite app_length. destruct e; cbn [length ev_cost]; lia. }
        lia.
      + intros In1 Fl0. assert (P := Pl e (or_introl eq_refl)). destruct e as [ts| | |t w| |]; cbn in P; try tauto; [|discriminate].
        unfold erecs in In1. cbn [flat_map] in In1. assert (It : incl ts R) by (intros x Hx; apply In1, in_or_app; auto).
        specialize (Q1 It). subst y1. destruct Q2 as [Q2 Q3]; auto.
        { intros x Hx. cbn [more]. apply in_or_app. left. apply In1, in_or_app. right. exact Hx. }
        split; auto. intros j Hj. destruct (K1 j Hj eq_refl) as [T1 K2]. rewrite Q3, K2; auto.
        apply (hi_known _ _ _ _ _ j H1). rewrite T1. apply (hi_known _ _ _ _ _ j H). auto.
  Qed.
End Sim.

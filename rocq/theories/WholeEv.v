(* What each call of the pools does to the workers. *)
From Coq Require Import Arith Lia.
From Verif Require Import PoolGrow SerialFacts.
From Verif Require Export WholeInv.
From Verif Require Client Pool P_Pool.
Open Scope Z_scope.

Definition upd (f : nat -> worker) (st : nat) (w : worker) : nat -> worker := fun s => if Nat.eqb s st then w else f s.
Lemma upd_at f st w : upd f st w st = w.
Proof. unfold upd. rewrite Nat.eqb_refl. reflexivity. Qed.
Lemma upd_other f st w s : s <> st -> upd f st w s = f s.
Proof. intros N. unfold upd. rewrite (proj2 (Nat.eqb_neq _ _) N). reflexivity. Qed.

Section Ev.
  Variable nw : nat -> Z.
  Hypothesis nw_ok : forall t, 0 <= nw t.
  Variable mbf : Z.
  Variable keys : list nat.
  Hypothesis keys_nodup : NoDup keys.
  Local Notation tb ps := (Pool.tbl (Pool.ps_sys ps)).
  Local Notation nx ps := (Pool.nxt (Pool.ps_sys ps)).
  Local Notation HI := (HI nw keys).
  Local Notation grown := (grown nw keys).

  Lemma sync_same cut ps ps' f j : tb ps' j = tb ps j -> sync cut ps ps' f j = f j.
  Proof. intros E. unfold sync. rewrite E. destruct (tb ps j) as [[t [|c]]|]; reflexivity. Qed.
  Lemma sync_new cut ps ps' f j t : tb ps j = None -> tb ps' j = Some (t, Pool.Running) -> sync cut ps ps' f j = Worker t Unborn [] [].
  Proof. intros E E'. unfold sync. rewrite E, E'. reflexivity. Qed.

  Lemma recruit_grown R ps f ts cut : HI R ps f -> exists ps', Pool.pstep nw mbf (Pool.PRecruit ts) ps = (ps', None) /\
    grown R (R ++ ts) ps ps' f (sync cut ps ps' f) (fun _ p => p) (recruit_E nw ts).
  Proof.
    intros H. destruct (recruit_grows nw mbf ts ps) as [s' [E G]].
    { intros t p Hp _. destruct (hi_size _ _ _ _ _ H t p Hp) as [[_ ->]|[_ ->]]; [lia|apply nw_ok]. }
    eexists. split; [exact E|]. constructor; auto; cbn [Pool.ps_sys Pool.ps_pools Pool.ps_err].
    - intros j Hj. apply sync_same. cbn [Pool.ps_sys]. apply (gr_old _ _ _ G). auto.
    - intros k t o Hk. apply sync_new; cbn [Pool.ps_sys]; [|eapply (gr_new _ _ _ G); eauto]. apply (hi_wf _ _ _ _ _ H). lia.
    - intros t p Hp. unfold recruit_E. destruct (mem Nat.eqb t ts) eqn:M.
      + left. apply mem_nat in M. split; [apply in_or_app; auto|]. rewrite repeat_length. specialize (nw_ok t).
        destruct (hi_size _ _ _ _ _ H t p Hp) as [[_ ->]|[_ ->]]; cbn [length]; lia.
      + assert (N : ~ In t ts) by (intros X; apply mem_nat in X; congruence).
        destruct (hi_size _ _ _ _ _ H t p Hp) as [[A B]|[A B]]; [left|right].
        * split; [apply in_or_app; auto|]. cbn. lia.
        * split; auto. intros X. apply in_app_or in X. tauto.
    - apply (hi_ids _ _ _ _ _ H).
    - intros t p w Hp Hw. exists w. auto.
    - intros t p w Hp Hw. unfold recruit_E. split.
      + destruct (mem _ _ _); [|intros []]. intros X. apply repeat_spec in X. discriminate.
      + intros X. exfalso. apply X. apply in_map. auto.
    - intros t p d Hp. unfold recruit_E. destruct (mem _ _ _); [|intros []]. intros X. apply repeat_spec in X. discriminate.
  Qed.

  Lemma same_id p (v w : Pool.worker) : NoDup (map Pool.w_id p) -> In v p -> In w p -> Pool.w_id v = Pool.w_id w -> v = w.
  Proof.
    induction p as [|x p IH]; [intros _ []|]. cbn. intros N Hv Hw Ei. apply NoDup_cons_iff in N. destruct N as [N1 N2].
    destruct Hv as [->|Hv], Hw as [->|Hw]; auto; exfalso; apply N1; [rewrite Ei|rewrite <- Ei]; apply in_map; auto.
  Qed.
  Lemma health_grown R ps f cut : HI R ps f -> exists ps', Pool.pstep nw mbf Pool.PHealth ps = (ps', None) /\
    grown R R ps ps' f (sync cut ps ps' f) (health_Q (Pool.ps_sys ps)) (health_E (Pool.ps_sys ps)) /\
    forall j, pooled ps' j -> w_at (sync cut ps ps' f j) <> Dead.
  Proof.
    intros H. destruct (health_grows nw mbf ps (hi_err _ _ _ _ _ H)) as [s' [E G]].
    { intros t p Hp. split; [eapply (hi_ids _ _ _ _ _ H); eauto|]. intros w Hw. eapply hi_in_lt; eauto. }
    set (s := Pool.ps_sys ps) in *. eexists. split; [exact E|].
    assert (Gr : grown R R ps (Pool.Pools s' (lay (health_Q s) (health_E s) (Pool.nxt s) (Pool.ps_pools ps)) (Pool.ps_err ps) (Pool.ps_fc ps))
      f (sync cut ps (Pool.Pools s' (lay (health_Q s) (health_E s) (Pool.nxt s) (Pool.ps_pools ps)) (Pool.ps_err ps) (Pool.ps_fc ps)) f) (health_Q s) (health_E s)).
    { constructor; auto; cbn [Pool.ps_sys Pool.ps_pools Pool.ps_err].
      - intros j Hj. apply sync_same. cbn [Pool.ps_sys]. apply (gr_old _ _ _ G). auto.
      - intros k t o Hk. apply sync_new; cbn [Pool.ps_sys]; [|eapply (gr_new _ _ _ G); eauto]. apply (hi_wf _ _ _ _ _ H). lia.
      - intros t p Hp. unfold health_Q, health_E. rewrite !map_length.
        assert (Ln : (length (filter (fun w => negb (P_Pool.failed_worker s w)) p) + length (filter (P_Pool.failed_worker s) p) = length p)%nat).
        { clear. induction p as [|w p IH]; cbn; auto. destruct (P_Pool.failed_worker s w); cbn; lia. }
        destruct (hi_size _ _ _ _ _ H t p Hp) as [[A B]|[A ->]]; [left|right; auto]. split; auto. lia.
      - intros t p Hp. unfold health_Q. rewrite map_map.
        rewrite (map_ext _ Pool.w_id) by (intros w; apply P_Pool.noticed_id). pose proof (hi_ids _ _ _ _ _ H t p Hp) as N. clear -N.
        induction p as [|w p IH]; cbn in *; auto. apply NoDup_cons_iff in N. destruct N as [N1 N2]. destruct (negb _); cbn; auto.
        constructor; auto. intros X. apply N1. apply in_map_iff in X. destruct X as [v [<- X]]. apply filter_In in X. apply in_map. tauto.
      - intros t p w' Hp Hw. unfold health_Q in Hw. apply in_map_iff in Hw. destruct Hw as [w [<- Hw]]. apply filter_In in Hw. destruct Hw as [Hw F].
        exists w. split; auto. split; [symmetry; apply P_Pool.noticed_id|]. destruct (hi_in _ _ _ _ _ H _ _ _ Hp Hw) as [x [Ex _]]. fold s in Ex.
        unfold P_Pool.failed_worker in F. unfold P_Pool.noticed. unfold Pool.exitcode in *. destruct (Pool.w_proc w) eqn:Pw; auto.
        rewrite Ex in F |- *. destruct x as [|c]; [intros; congruence|]. rewrite negb_involutive in F. apply Z.eqb_eq in F. subst c. auto.
      - intros t p j Hp Hw Ej. unfold health_Q. apply in_map_iff. exists (fresh_worker j). fold s in Ej.
        assert (X : Pool.exitcode s (fresh_worker j) = None) by (unfold Pool.exitcode; cbn; rewrite Ej; auto).
        split; [unfold P_Pool.noticed; rewrite X; auto|]. apply filter_In. split; auto. unfold P_Pool.failed_worker. rewrite X. reflexivity.
      - intros t p w Hp Hw. unfold health_Q, health_E. rewrite map_map.
        rewrite (map_ext _ Pool.w_id) by (intros v; apply P_Pool.noticed_id). pose proof (hi_ids _ _ _ _ _ H t p Hp) as N. split.
        + intros X Y. apply in_map_iff in X. destruct X as [v [Ev Hv]]. injection Ev as Ev. apply filter_In in Hv. destruct Hv as [Hv Fv].
          apply in_map_iff in Y. destruct Y as [u [Eu Hu]]. apply filter_In in Hu. destruct Hu as [Hu Fu].
          assert (u = v) by (apply (same_id p); auto; congruence). subst u. rewrite Fv in Fu. discriminate.
        + intros X. apply in_map_iff. exists w. split; auto. apply filter_In. split; auto. destruct (P_Pool.failed_worker s w) eqn:F; auto.
          exfalso. apply X. apply in_map. apply filter_In. rewrite F. auto.
      - intros t p d Hp Hd. unfold health_E in Hd. apply in_map_iff in Hd. destruct Hd as [w [Ew Hw]]. injection Ew as <-.
        apply filter_In in Hw. destruct Hw as [Hw F]. split; [|apply in_map; auto]. apply (P_Pool.crashed_iff s t w) in F.
        destruct F as [_ [u [c [Et Nc]]]]. destruct (hi_exit _ _ _ _ _ H _ _ _ Et) as [[A _]|[_ [_ A]]]; [auto|congruence]. }
    split; [exact Gr|]. intros j P.
    set (ps' := Pool.Pools _ _ _ _) in *.
    assert (Lt : (j < nx ps')%nat).
    { pose proof (grown_hi nw keys _ _ _ _ _ _ _ _ Gr) as H'. destruct P as [t [p [Hp Hj]]]. apply in_map_iff in Hj. destruct Hj as [w [<- Hw]].
      eapply hi_in_lt; eauto. }
    destruct (gn_cases _ _ _ _ _ _ _ _ _ _ Gr j Lt) as [X|[k [u [o [-> X]]]]].
    - rewrite (gn_old _ _ _ _ _ _ _ _ _ _ Gr) by auto. apply (gn_pooled_old _ _ _ _ _ _ _ _ _ _ Gr) in P; auto.
      destruct P as [t [p [Hp Hj]]]. unfold health_Q in Hj. rewrite map_map in Hj.
      rewrite (map_ext _ Pool.w_id) in Hj by (intros w; apply P_Pool.noticed_id). apply in_map_iff in Hj. destruct Hj as [w [<- Hw]].
      apply filter_In in Hw. destruct Hw as [Hw F]. destruct (hi_in _ _ _ _ _ H _ _ _ Hp Hw) as [st [Es Ps]]. fold s in Es.
      intros D. assert (Pl : pooled ps (Pool.w_id w)) by (exists t, p; split; auto; apply in_map; auto).
      destruct st as [|c]; [destruct (hi_run _ _ _ _ _ H _ _ Es); tauto|].
      destruct (hi_exit _ _ _ _ _ H _ _ _ Es) as [[_ A]|[A _]]; [|congruence]. specialize (A Pl).
      unfold P_Pool.failed_worker, Pool.exitcode in F. destruct (Pool.w_proc w).
      + rewrite Es in F. rewrite negb_involutive in F. apply Z.eqb_eq in F. auto.
      + destruct (Ps eq_refl) as [Q _]. congruence.
    - rewrite (gn_new _ _ _ _ _ _ _ _ _ _ Gr _ _ _ X). discriminate.
  Qed.

  (* a process ends *)
  Lemma set_proc_tb s i t x j : Pool.tbl (Pool.set_proc s i t x) j = if Nat.eqb i j then Some (t, x) else Pool.tbl s j.
  Proof. reflexivity. Qed.
  Lemma hi_end R ps f w t c o fc : HI R ps f -> tb ps w = Some (t, Pool.Running) -> c <> 0 ->
    (forall pb v, ~ In (MBlockFailed pb v) o) ->
    HI R (Pool.Pools (Pool.set_proc (Pool.ps_sys ps) w t (Pool.Exited c)) (Pool.ps_pools ps) (Pool.ps_err ps) fc)
       (upd f w (Worker (w_task (f w)) Dead o [])).
  Proof.
    intros H Ew Nc No.
    constructor; cbn [Pool.ps_sys Pool.ps_pools Pool.ps_err Pool.nxt Pool.set_proc]; try apply H.
    - intros j. rewrite ?set_proc_tb. destruct (Nat.eqb_spec w j) as [<-|N]; [|apply H]. split; [discriminate|].
      intros X. apply (hi_wf _ _ _ _ _ H) in X. congruence.
    - intros u p v Hp Hv. rewrite ?set_proc_tb. destruct (hi_in _ _ _ _ _ H _ _ _ Hp Hv) as [s [Es Ps]]. destruct (Nat.eqb_spec w (Pool.w_id v)) as [E|N].
      + rewrite <- E in Es. exists (Pool.Exited c). split; [congruence|]. intros Pf. destruct (Ps Pf) as [_ X]. congruence.
      + exists s. split; auto. rewrite upd_other by auto. auto.
    - intros j u s. rewrite ?set_proc_tb. destruct (Nat.eqb_spec w j) as [<-|N].
      + rewrite upd_at. cbn. intros X. injection X as <- _. eapply (hi_task _ _ _ _ _ H); eauto.
      + rewrite upd_other by auto. apply H.
    - intros j u. rewrite ?set_proc_tb. destruct (Nat.eqb_spec w j) as [<-|N]; [discriminate|]. rewrite upd_other by auto. apply H.
    - intros j u d. rewrite ?set_proc_tb. destruct (Nat.eqb_spec w j) as [<-|N].
      + rewrite upd_at. cbn. intros X. injection X as _ <-. left. auto.
      + rewrite upd_other by auto. apply (hi_exit _ _ _ _ _ H).
    - intros j pb v. rewrite ?set_proc_tb. destruct (Nat.eqb_spec w j) as [<-|N].
      + rewrite upd_at. cbn [w_out]. intros _ X. exfalso. eapply No; eauto.
      + rewrite upd_other by auto. apply H.
    - intros j. rewrite ?set_proc_tb. destruct (Nat.eqb_spec w j) as [<-|N].
      + rewrite upd_at. discriminate.
      + rewrite upd_other by auto. apply H.
  Qed.
  Lemma hi_left R ps f w t : HI R ps f -> tb ps w = Some (t, Pool.Running) -> w_at (f w) = Left ->
    HI R (Pool.Pools (Pool.set_proc (Pool.ps_sys ps) w t (Pool.Exited 0)) (Pool.ps_pools ps) (Pool.ps_err ps) (Pool.ps_fc ps)) f.
  Proof.
    intros H Ew Ph.
    constructor; cbn [Pool.ps_sys Pool.ps_pools Pool.ps_err Pool.nxt Pool.set_proc]; try apply H.
    - intros j. rewrite ?set_proc_tb. destruct (Nat.eqb_spec w j) as [<-|N]; [|apply H]. split; [discriminate|].
      intros X. apply (hi_wf _ _ _ _ _ H) in X. congruence.
    - intros u p v Hp Hv. rewrite ?set_proc_tb. destruct (hi_in _ _ _ _ _ H _ _ _ Hp Hv) as [s [Es Ps]]. destruct (Nat.eqb_spec w (Pool.w_id v)) as [E|N].
      + rewrite <- E in Es. exists (Pool.Exited 0). split; [congruence|]. intros Pf. rewrite <- E. auto.
      + exists s. auto.
    - intros j u s. rewrite ?set_proc_tb. destruct (Nat.eqb_spec w j) as [<-|N]; [|apply H].
      intros X. injection X as <- _. eapply (hi_task _ _ _ _ _ H); eauto.
    - intros j u. rewrite ?set_proc_tb. destruct (Nat.eqb_spec w j) as [<-|N]; [discriminate|]. apply H.
    - intros j u d. rewrite ?set_proc_tb. destruct (Nat.eqb_spec w j) as [<-|N]; [|apply (hi_exit _ _ _ _ _ H)].
      intros X. injection X as _ <-. right. split; auto. split; auto. destruct (hi_run _ _ _ _ _ H _ _ Ew) as [_ [p [Hp Hw]]].
      exists t, p. split; auto. apply (in_map Pool.w_id) in Hw. exact Hw.
    - intros j pb v. rewrite ?set_proc_tb. destruct (Nat.eqb_spec w j) as [<-|N]; [|apply H]. intros _. apply (hi_bf _ _ _ _ _ H). congruence.
    - intros j. rewrite ?set_proc_tb. destruct (Nat.eqb_spec w j) as [<-|N]; [|apply H]. intros _. apply (hi_phase _ _ _ _ _ H). congruence.
  Qed.

  (* a failure is reported by a worker that is there *)
  Lemma failure_grown R ps f t w cut : HI R ps f -> tb ps w = Some (t, Pool.Running) ->
    (forall pb v, ~ In (MBlockFailed pb v) (w_out (f w))) ->
    exists ps', Pool.pstep nw mbf (Pool.PFailure t w) ps = (ps', None) /\
      ((exists fc, ps' = Pool.Pools (Pool.ps_sys ps) (Pool.ps_pools ps) (Pool.ps_err ps) fc) \/
       exists fc, let psk := Pool.Pools (kill (Pool.ps_sys ps) t w) (Pool.ps_pools ps) (Pool.ps_err ps) fc in
         let fk := upd f w (Worker (w_task (f w)) Dead (firstn (cut w) (w_out (f w))) []) in
         HI R psk fk /\ grown R R psk ps' fk (sync cut ps ps' f) (restart_Q t w) (restart_E t w)).
  Proof.
    intros H Ew No. destruct (Z.le_gt_cases (Pool.ps_fc ps t w + 1) mbf) as [C|C].
    { destruct (failure_counts nw mbf t w ps C) as [fc E]. eexists. split; [exact E|]. left. eauto. }
    destruct (hi_run _ _ _ _ _ H _ _ Ew) as [Nd [p [Hp Hw]]].
    destruct (failure_grows nw mbf t w p ps) as [s' [fc [E G]]]; auto; try lia.
    { rewrite (hi_keys _ _ _ _ _ H). auto. }
    { eapply (hi_ids _ _ _ _ _ H); eauto. }
    eexists. split; [exact E|]. right. exists fc. cbn zeta.
    set (psk := Pool.Pools (kill (Pool.ps_sys ps) t w) (Pool.ps_pools ps) (Pool.ps_err ps) fc).
    set (fk := upd f w (Worker (w_task (f w)) Dead (firstn (cut w) (w_out (f w))) [])).
    set (ps' := Pool.Pools s' _ _ _).
    assert (Hk : HI R psk fk).
    { apply hi_end; auto; [discriminate|]. intros pb v X. apply (No pb v). rewrite <- (firstn_skipn (cut w)). apply in_or_app. auto. }
    split; auto. constructor; auto; cbn [psk ps' Pool.ps_sys Pool.ps_pools Pool.ps_err].
    - intros j Hj. assert (Eo := gr_old _ _ _ G j Hj). unfold kill in Eo. rewrite set_proc_tb in Eo. unfold fk.
      destruct (Nat.eqb_spec w j) as [<-|N].
      + rewrite upd_at. unfold sync. cbn [ps' Pool.ps_sys]. rewrite Ew, Eo. reflexivity.
      + rewrite upd_other by auto. apply sync_same. exact Eo.
    - intros k u o Hk'. apply sync_new; cbn [Pool.ps_sys]; [|apply (gr_new _ _ _ G _ _ _ Hk')].
      apply (hi_wf _ _ _ _ _ H). cbn. lia.
    - intros u q Hq. unfold restart_Q, restart_E. destruct (Nat.eqb_spec u t) as [->|Nu].
      + assert (q = p) by (eapply hi_uniq; eauto). subst q. left.
        destruct (hi_size _ _ _ _ _ H t p Hp) as [[A B]|[_ ->]]; [|destruct Hw]. split; auto. rewrite <- B.
        pose proof (hi_ids _ _ _ _ _ H t p Hp) as N. clear -N Hw. cbn [length].
        assert (X : S (length (Pool.del_worker p w)) = length p); [|lia].
        apply (in_map Pool.w_id) in Hw. cbn in Hw. unfold Pool.del_worker. induction p as [|v p IH]; [destruct Hw|]. cbn in *. apply NoDup_cons_iff in N. destruct N as [N1 N2].
        destruct (Nat.eqb_spec (Pool.w_id v) w) as [Ev|Nv]; cbn [negb].
        * cbn. f_equal. assert (F : filter (fun w0 : Pool.worker => negb (Pool.w_id w0 =? w)%nat) p = p); [|rewrite F; auto].
          subst w. clear -N1. induction p as [|x p IH]; cbn in *; auto. destruct (Nat.eqb_spec (Pool.w_id x) (Pool.w_id v)); [tauto|]. cbn. f_equal. tauto.
        * cbn. f_equal. apply IH; auto. destruct Hw; [congruence|auto].
      + destruct (hi_size _ _ _ _ _ H u q Hq) as [[A B]|[A B]]; [left|right]; auto. split; auto. cbn. lia.
    - intros u q Hq. unfold restart_Q. pose proof (hi_ids _ _ _ _ _ H u q Hq) as N. destruct (Nat.eqb u t); auto. clear -N. unfold Pool.del_worker.
      induction q as [|v q IH]; cbn in *; auto. apply NoDup_cons_iff in N. destruct N as [N1 N2]. destruct (negb _); cbn; auto.
      constructor; auto. intros X. apply N1. apply in_map_iff in X. destruct X as [x [<- X]]. apply filter_In in X. apply in_map. tauto.
    - intros u q v Hq Hv. exists v. unfold restart_Q in Hv. destruct (Nat.eqb u t); auto. apply filter_In in Hv. tauto.
    - intros u q j Hq Hj. unfold kill. rewrite set_proc_tb. destruct (Nat.eqb_spec w j) as [<-|N]; [discriminate|]. intros _. unfold restart_Q.
      destruct (Nat.eqb u t); auto. apply filter_In. split; auto. cbn. destruct (Nat.eqb_spec j w); [congruence|reflexivity].
    - intros u q v Hq Hv. unfold restart_Q, restart_E. destruct (Nat.eqb_spec u t) as [->|Nu].
      + split.
        * intros [X|[]]. injection X as X. intros Y. apply in_map_iff in Y. destruct Y as [x [Ex Hx]]. apply filter_In in Hx. destruct Hx as [_ Hx].
          rewrite Ex, X, Nat.eqb_refl in Hx. discriminate.
        * intros Y. left. f_equal. destruct (Nat.eq_dec w (Pool.w_id v)) as [|N]; auto. exfalso. apply Y. apply in_map. apply filter_In. split; auto.
          destruct (Nat.eqb_spec (Pool.w_id v) w); [congruence|reflexivity].
      + split; [intros []|]. intros Y. exfalso. apply Y. apply in_map. auto.
    - intros u q d Hq. unfold restart_E. destruct (Nat.eqb_spec u t) as [->|Nu]; [|intros []]. intros [X|[]]. injection X as <-.
      unfold fk. rewrite upd_at. split; auto. assert (q = p) by (eapply hi_uniq; eauto). subst q. apply (in_map Pool.w_id) in Hw. exact Hw.
  Qed.
End Ev.

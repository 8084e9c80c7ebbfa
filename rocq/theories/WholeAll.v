(* Facts about all runs of Whole.v and WholeAny.v: what the pools do to processes and workers. *)
From Coq Require Import Arith Lia.
From Verif Require Import PoolAll P_PoolFail.
From Verif Require Client Pool P_Pool.
From Verif Require Import WholeSrv WholeSim WholeAny.
Open Scope Z_scope.

(* the oldest exception of the first pool that has one *)
Fixpoint first_error (err : nat -> list exn) (l : list nat) : option exn :=
  match l with
  | [] => None
  | t :: r => match err t with e :: _ => Some e | [] => first_error err r end
  end.
Lemma first_error_none err l : first_error err l = None <-> forall t, In t l -> err t = [].
Proof.
  induction l as [|t l IH]; cbn; [split; auto; intros _ t []|]. destruct (err t) eqn:E; [|split; [discriminate|]].
  - rewrite IH. split; [intros H u [<-|Hu]; auto|auto].
  - intros H. specialize (H t (or_introl eq_refl)). congruence.
Qed.
Lemma first_error_some err l x : first_error err l = Some x -> exists t, In t l /\ In x (err t).
Proof.
  induction l as [|t l IH]; cbn; [discriminate|]. destruct (err t) as [|e es] eqn:E.
  - intros H. destruct (IH H) as [u [Hu Hx]]. eauto.
  - intros H. injection H as <-. exists t. split; auto. rewrite E. left. reflexivity.
Qed.
Lemma health_error : forall l s err, snd (Pool.health s err l) = first_error err (map fst l).
Proof.
  induction l as [|[t p] l IH]; intros s err; cbn [Pool.health map fst first_error]; auto. destruct (err t) as [|e es]; [|reflexivity].
  destruct (Pool.reap_dead_workers (s, p)) as [p1 k]. destruct (if 0 <? k then _ else _) as [s2 p2].
  specialize (IH s2 err). destruct (Pool.health s2 err l) as [[[s3 err3] l3] e]. exact IH.
Qed.
Lemma health_err_same : forall l s err, snd (Pool.health s err l) = None -> snd (fst (fst (Pool.health s err l))) = err.
Proof.
  induction l as [|[t p] l IH]; intros s err; cbn [Pool.health]; auto. destruct (err t) as [|e es]; [|discriminate].
  destruct (Pool.reap_dead_workers (s, p)) as [p1 k]. destruct (if 0 <? k then _ else _) as [s2 p2].
  specialize (IH s2 err). destruct (Pool.health s2 err l) as [[[s3 err3] l3] e]. exact IH.
Qed.

Section All.
  Variable nw : nat -> Z.
  Variable mbf : Z.
  Variable keys : list nat.
  Definition no_process : Pool.sys := Pool.Sys (fun _ => None) 0.
  Lemma no_process_ok : no_one_runs no_process.
  Proof. split; [|discriminate]. intros j. cbn. split; auto. intros _. lia. Qed.
  Local Notation tb ps := (Pool.tbl (Pool.ps_sys ps)).
  Local Notation told := (P_PoolFail.told nw mbf keys no_process).
  Local Notation pstep := (Pool.pstep nw mbf).

  (* [S]: the tasks that were started *)
  Definition procs (S : list nat) (ps : Pool.pools) (f : nat -> worker) : Prop :=
    forall j t s, tb ps j = Some (t, s) -> In t S /\ In t keys /\ w_task (f j) = t.
  Definition ev_ok (S : list nat) (ps : Pool.pools) (e : Pool.pevent) : Prop :=
    match e with
    | Pool.PRecruit ts => incl ts S
    | Pool.PFailure t w => In t S /\ In t keys /\ tb ps w <> None
    | Pool.PHealth => True
    | _ => False
    end.
  (* what holds of the workers, whatever becomes of them *)
  Record lasting (W : nat -> worker -> Prop) : Prop := {
    la_new : forall j t, W j (Worker t Unborn [] []);
    la_cut : forall j w n, W j w -> W j (Worker (w_task w) Dead (firstn n (w_out w)) [])
  }.
  Lemma no_exit S ps e : ev_ok S ps e -> forall w c, e <> Pool.PExit w c.
  Proof. intros H w c ->. exact H. Qed.
  Lemma pools_step S W cut es ps f e ps1 : lasting W -> told es ps -> ev_ok S ps e -> procs S ps f -> (forall j, tb ps j <> None -> W j (f j)) ->
    fst (pstep e ps) = ps1 ->
    told (es ++ [e]) ps1 /\ procs S ps1 (sync cut ps ps1 f) /\ (forall j, tb ps1 j <> None -> W j (sync cut ps ps1 f j)) /\
    (forall j t s, tb ps j = Some (t, s) -> exists s', tb ps1 j = Some (t, s')) /\
    (forall j, tb ps j <> None -> w_task (sync cut ps ps1 f j) = w_task (f j)).
  Proof.
    intros [L1 L2] T Ok P Wf E. destruct (told_sound nw mbf keys no_process no_process_ok _ _ T) as [Sd K].
    destruct (pstep_chg nw mbf e ps Sd (no_exit _ _ _ Ok)) as [C [Sd1 K1]]. rewrite E in C, Sd1, K1.
    assert (ST : forall t, PoolAll.starts e ps t -> In t S /\ In t keys).
    { intros t Ht. destruct e as [ts| | |u w|w c|u x]; cbn in Ht, Ok; try tauto.
      - rewrite K in Ht. split; [apply Ok|]; apply Ht.
      - destruct Ht as [p [Hp Np]]. destruct p as [|v p]; [congruence|]. destruct (proj2 Sd t _ Hp v (or_introl eq_refl)) as [s Hs].
        destruct (P _ _ _ Hs) as [A [B _]]. auto.
      - destruct Ht as [-> _]. split; apply Ok. }
    assert (OLD : forall j t s, tb ps j = Some (t, s) -> exists s', tb ps1 j = Some (t, s') /\
      ((s' = s /\ sync cut ps ps1 f j = f j) \/ sync cut ps ps1 f j = Worker (w_task (f j)) Dead (firstn (cut j) (w_out (f j))) [])).
    { intros j t s Hj. unfold sync. rewrite Hj. destruct (c_old _ _ _ C _ _ _ Hj) as [H|[-> H]]; rewrite H; eexists; (split; [reflexivity|]); auto.
      left. split; auto. destruct s; reflexivity. }
    assert (NEW : forall j t s, tb ps j = None -> tb ps1 j = Some (t, s) -> In t S /\ In t keys /\
      (sync cut ps ps1 f j = Worker t Unborn [] [] \/ sync cut ps ps1 f j = Worker t Dead [] [])).
    { intros j t s Hj H. destruct (c_new _ _ _ C j Hj) as [A|[u [x [A B]]]]; [congruence|]. rewrite B in H. injection H as <- <-.
      destruct (ST u A) as [A1 A2]. split; auto. split; auto. unfold sync. rewrite Hj, B. destruct x; auto. }
    split; [|split; [|split; [|split]]].
    - subst ps1. constructor; auto. destruct e as [| | |t w| |]; auto. cbn in Ok. destruct Ok as [_ [_ Ok]].
      destruct (Nat.lt_ge_cases w (Pool.nxt (Pool.ps_sys ps))) as [H|H]; auto. apply (proj1 Sd) in H. congruence.
    - intros j t s Hj. destruct (tb ps j) as [[u x]|] eqn:Ej.
      + destruct (OLD _ _ _ Ej) as [s' [H D]]. rewrite Hj in H. injection H as <- <-. destruct (P _ _ _ Ej) as [A [B D2]]. split; auto. split; auto.
        destruct D as [[_ ->]| ->]; auto.
      + destruct (NEW _ _ _ Ej Hj) as [A [B [D|D]]]; rewrite D; auto.
    - intros j Hj. destruct (tb ps j) as [[u x]|] eqn:Ej.
      + assert (Wj : W j (f j)) by (apply Wf; congruence). destruct (OLD _ _ _ Ej) as [s' [H D]]. destruct D as [[_ ->]| ->]; auto.
      + destruct (tb ps1 j) as [[t s]|] eqn:E1; [|congruence]. destruct (NEW _ _ _ Ej E1) as [A [B [D|D]]]; rewrite D; auto.
        apply (L2 j (Worker t Unborn [] []) 0%nat). auto.
    - intros j t s Hj. destruct (OLD _ _ _ Hj) as [s' [H _]]. eauto.
    - intros j Hj. destruct (tb ps j) as [[u x]|] eqn:Ej; [|congruence]. destruct (OLD _ _ _ Ej) as [s' [_ D]]. destruct D as [[_ ->]| ->]; auto.
  Qed.
  Lemma ev_ok_more S ps ps1 e : (forall j t s, tb ps j = Some (t, s) -> exists s', tb ps1 j = Some (t, s')) -> ev_ok S ps e -> ev_ok S ps1 e.
  Proof.
    intros H. destruct e as [| | |t w| |]; cbn; auto. intros [A [B C]]. split; auto. split; auto.
    destruct (tb ps w) as [[u x]|] eqn:E; [|congruence]. destruct (H _ _ _ E) as [s' E']. congruence.
  Qed.
  Lemma on_all_all S W cut : lasting W -> forall evs es ps f ps' f', told es ps -> Forall (ev_ok S ps) evs -> procs S ps f ->
    (forall j, tb ps j <> None -> W j (f j)) -> on_all nw mbf cut evs ps f = Ok (ps', f') ->
    told (es ++ evs) ps' /\ procs S ps' f' /\ (forall j, tb ps' j <> None -> W j (f' j)) /\
    (forall j t s, tb ps j = Some (t, s) -> exists s', tb ps' j = Some (t, s')) /\
    (forall j, tb ps j <> None -> w_task (f' j) = w_task (f j)).
  Proof.
    intros L. induction evs as [|e evs IH]; intros es ps f ps' f' T Ok P Wf; cbn [on_all].
    - intros H. injection H as <- <-. rewrite app_nil_r. split; auto. split; auto. split; auto. split; eauto.
    - destruct (pstep e ps) as [ps1 [x|]] eqn:E; [discriminate|]. intros H. inversion Ok as [|? ? O1 O2]; subst.
      destruct (pools_step S W cut es ps f e ps1 L T O1 P Wf) as [T1 [P1 [W1 [K1 Q1]]]]; [rewrite E; reflexivity|].
      destruct (IH (es ++ [e]) ps1 (sync cut ps ps1 f) ps' f') as [T2 [P2 [W2 [K2 Q2]]]]; auto.
      { eapply Forall_impl; [|exact O2]. intros a. apply ev_ok_more. exact K1. }
      rewrite <- app_assoc in T2. split; auto. split; auto. split; auto. split.
      + intros j t s Hj. destruct (K1 _ _ _ Hj) as [s1 H1]. eauto.
      + intros j Hj. destruct (tb ps j) as [[t s]|] eqn:Ej; [|congruence]. destruct (K1 _ _ _ Ej) as [s1 H1]. rewrite Q2 by congruence. apply Q1. congruence.
  Qed.
  (* the pools raise nothing but exceptions of workers *)
  Lemma on_all_err S W cut : lasting W -> forall evs es ps f, told es ps -> Forall (ev_ok S ps) evs -> procs S ps f ->
    (forall j, tb ps j <> None -> W j (f j)) -> (forall e, In e evs -> e <> Pool.PHealth) ->
    match first_error (Pool.ps_err ps) keys with
    | None => exists r, on_all nw mbf cut (evs ++ [Pool.PHealth]) ps f = Ok r
    | Some x => on_all nw mbf cut (evs ++ [Pool.PHealth]) ps f = Err x
    end.
  Proof.
    intros L. induction evs as [|e evs IH]; intros es ps f T Ok P Wf NH.
    - cbn [app on_all]. destruct (told_sound nw mbf keys no_process no_process_ok _ _ T) as [Sd K].
      pose proof (health_error (Pool.ps_pools ps) (Pool.ps_sys ps) (Pool.ps_err ps)) as H. rewrite K in H.
      cbn [Pool.pstep]. unfold Pool.check_worker_health. destruct (Pool.health _ _ _) as [[[s err] l] e]. cbn [snd] in H. rewrite <- H.
      destruct e; eauto.
    - cbn [app on_all]. inversion Ok as [|? ? O1 O2]; subst. destruct (told_sound nw mbf keys no_process no_process_ok _ _ T) as [Sd K].
      assert (X : snd (pstep e ps) = None /\ Pool.ps_err (fst (pstep e ps)) = Pool.ps_err ps).
      { destruct e as [ts| | |t w|w c|t x]; cbn [Pool.pstep fst snd]; try (destruct O1; fail).
        - split; auto. unfold Pool.recruit_workers, Pool.on_pools. destruct (Pool.each _ _ _). reflexivity.
        - destruct (NH _ (or_introl eq_refl) eq_refl).
        - unfold Pool.on_block_failure. destruct (mbf <? _); [|auto]. destruct O1 as [_ [O1 _]]. rewrite <- K in O1. apply in_map_iff in O1. destruct O1 as [[t' p] [Et Hp]].
          assert (B : existsb (fun tp => Nat.eqb (fst tp) t) (Pool.ps_pools ps) = true) by (apply existsb_exists; exists (t', p); cbn in *; subst; rewrite Nat.eqb_refl; auto).
          rewrite B. cbn [fst snd]. split; auto. unfold Pool.on_pools. destruct (Pool.each _ _ _). reflexivity. }
      destruct (pstep e ps) as [ps1 ex] eqn:E. cbn [fst snd] in X. destruct X as [-> X]. rewrite <- X.
      destruct (pools_step S W cut es ps f e ps1 L T O1 P Wf) as [T1 [P1 [W1 [K1 Q1]]]]; [rewrite E; reflexivity|].
      apply (IH (es ++ [e])); auto.
      + eapply Forall_impl; [|exact O2]. intros a. apply ev_ok_more. exact K1.
      + intros a Ha. apply NH. right. exact Ha.
  Qed.
  Lemma on_all_no_err cut : forall evs ps f ps' f', on_all nw mbf cut evs ps f = Ok (ps', f') -> (forall t x, ~ In (Pool.PError t x) evs) -> Pool.ps_err ps' = Pool.ps_err ps.
  Proof.
    induction evs as [|e evs IH]; intros ps f ps' f'; cbn [on_all]; [intros H _; injection H as <- _; reflexivity|].
    destruct (pstep e ps) as [ps1 [x|]] eqn:E; [discriminate|]. intros H N. rewrite (IH _ _ _ _ H) by (intros t x Hx; apply (N t x); right; exact Hx).
    clear IH H. destruct e as [ts| | |t w|w c|t x]; cbn [Pool.pstep] in E; try (injection E as <-; reflexivity).
    - injection E as <-. unfold Pool.recruit_workers, Pool.on_pools. destruct (Pool.each _ _ _). reflexivity.
    - injection E as <-. unfold Pool.pools_stop, Pool.on_pools. destruct (Pool.each _ _ _). reflexivity.
    - unfold Pool.check_worker_health in E. pose proof (health_err_same (Pool.ps_pools ps) (Pool.ps_sys ps) (Pool.ps_err ps)) as H.
      destruct (Pool.health _ _ _) as [[[s err] l] e]. injection E as <- ->. cbn in H. auto.
    - unfold Pool.on_block_failure in E. destruct (mbf <? _); [|injection E as <-; reflexivity]. destruct (existsb _ _); [|discriminate].
      injection E as <-. unfold Pool.on_pools. destruct (Pool.each _ _ _). reflexivity.
    - exfalso. apply (N t x). left. reflexivity.
  Qed.
End All.

(* Fair runs of the system end. *)
From Coq Require Import Arith Lia Permutation.
From Verif Require Import VecFacts SchedProps SerialFacts P_Conv ServerFacts ServerSteps.
From Verif Require Export SysLive.
From Verif Require Client.
Open Scope Z_scope.

(* A run without end; [None]: for a moment nothing happens.  Every worker that can do something
   for ever does something; every message is taken; again and again there is an iteration without
   a message in which gone connections are seen and the tasks are looked at, unless messages keep
   coming; workers stop dying, and no more are started than replace dead ones. *)
Record fair_run up down maxr fuel init (r : nat -> sys) (mv : nat -> option move) : Prop := {
  fr_step : forall n, match mv n with Some m => step up down maxr fuel init (r n) m (r (S n)) | None => r (S n) = r n end;
  fr_move : forall n st, can_move (r n) st ->
    exists k, (n <= k)%nat /\ ((exists m, mv k = Some m /\ acts m st) \/ ~ can_move (r k) st);
  fr_msg : forall n st, In st (y_team (r n)) -> w_out (y_w (r n) st) <> [] ->
    exists k, (n <= k)%nat /\ ((exists i m, mv k = Some (Serve i) /\ i_get i = GotMessage st m) \/
      w_out (y_w (r k) st) = [] \/ sv_stop (y_sv (r k)) = true);
  fr_idle : forall n, exists k, (n <= k)%nat /\ ((exists i, mv k = Some (Serve i) /\ idle (r k) i) \/
      (exists st, In st (y_team (r k)) /\ w_out (y_w (r k) st) <> []) \/ sv_stop (y_sv (r k)) = true);
  fr_die : exists N, forall k m, (N <= k)%nat -> mv k = Some m -> upsets m = false
}.

Section Fair.
  Variables (V : list block) (up down : block -> list block) (seeds : nat -> list block).
  Variable maxr : nat -> Z.
  Variable fuel : nat.
  Hypothesis GG : good_graph V up down seeds.
  Hypothesis EN : enough V fuel.
  Variable s0 : sched.
  Hypothesis FR : fresh V seeds s0.
  Variable tasks : list nat.
  Hypothesis known : forall t, In t tasks -> In t (s_order s0).
  Variable init : nat -> res unit.
  Hypothesis init_ok : forall t, init t = Ok tt.
  Hypothesis AR : all_roots V up seeds.
  Hypothesis known_V : forall b, In b V -> In (b_task b) tasks.
  Hypothesis ups_first : forall b a, In b V -> In a (up b) ->
    b_task a = b_task b \/ (pos (dedup Nat.eqb tasks) (b_task a) < pos (dedup Nat.eqb tasks) (b_task b))%nat \/ root_task V up (b_task a).
  Local Notation Good := (Good V up down maxr fuel s0 tasks).
  Local Notation Full := (Full V up down maxr fuel s0 tasks).
  Local Notation step := (step up down maxr fuel init).
  Local Notation fine := (fine V up maxr).
  Local Notation mu2 := (mu2 V maxr).

  Variables (r : nat -> sys) (mv : nat -> option move).
  Hypothesis FA : fair_run up down maxr fuel init r mv.
  Hypothesis F0 : Full (r O).
  Hypothesis FN : forall n, fine (y_sv (r n)).
  Hypothesis MN : forall n, manned tasks (r n).
  Lemma full_at n : Full (r n).
  Proof.
    induction n as [|n IH]; auto. pose proof (fr_step _ _ _ _ _ _ _ FA n) as S. destruct (mv n) as [m|]; [|rewrite S; auto].
    eapply step_full; eauto.
  Qed.
  Section After.
    Variable N : nat.
    Hypothesis ND : forall k m, (N <= k)%nat -> mv k = Some m -> upsets m = false.
    Lemma alive k m : (N <= k)%nat -> mv k = Some m -> upsets m = false.
    Proof. apply ND. Qed.
    Lemma mu2_down n d : (N <= n)%nat -> mu2 (r (n + d)) <= mu2 (r n).
    Proof.
      intros H. induction d as [|d IH]; [rewrite Nat.add_0_r; lia|]. rewrite Nat.add_succ_r.
      pose proof (fr_step _ _ _ _ _ _ _ FA (n + d)) as S. destruct (mv (n + d)) as [m|] eqn:Em; [|rewrite S; auto].
      assert (D : upsets m = false) by (eapply alive; [|exact Em]; lia).
      destruct (step_mu2 V up down seeds maxr fuel GG EN s0 FR tasks known init init_ok _ _ _ (proj1 (full_at (n + d))) S D) as [M _]. lia.
    Qed.
    Lemma mu2_le n k : (N <= n)%nat -> (n <= k)%nat -> mu2 (r k) <= mu2 (r n).
    Proof. intros H1 H2. replace k with (n + (k - n))%nat by lia. apply mu2_down. auto. Qed.
    (* a move is made *)
    Lemma drop_at k m : (N <= k)%nat -> mv k = Some m -> works (r k) m (r (S k)) \/ replaces m = true -> mu2 (r (S k)) < mu2 (r k).
    Proof.
      intros H E W. pose proof (fr_step _ _ _ _ _ _ _ FA k) as S. rewrite E in S.
      destruct (step_mu2 V up down seeds maxr fuel GG EN s0 FR tasks known init init_ok _ _ _ (proj1 (full_at k)) S (alive _ _ H E)) as [_ M].
      specialize (M W). lia.
    Qed.
    Lemma still_or_drop n d : (N <= n)%nat -> (exists k, (n <= k)%nat /\ mu2 (r k) < mu2 (r n)) \/ same (r n) (r (n + d)).
    Proof.
      intros H. induction d as [|d IH]; [right; rewrite Nat.add_0_r; apply same_refl|]. destruct IH as [IH|IH]; auto.
      rewrite Nat.add_succ_r. pose proof (fr_step _ _ _ _ _ _ _ FA (n + d)) as S. destruct (mv (n + d)) as [m|] eqn:Em; [|rewrite S; auto].
      assert (Hd : (N <= n + d)%nat) by lia. pose proof (alive _ _ Hd Em) as D.
      destruct (Z.lt_ge_cases (mu2 (r (Datatypes.S (n + d)))) (mu2 (r (n + d)))) as [L|L].
      - left. exists (Datatypes.S (n + d)). split; [lia|]. pose proof (mu2_down n d H). lia.
      - right. eapply same_trans; [exact IH|].
        assert (Nw : ~ (works (r (n + d)) m (r (Datatypes.S (n + d))) \/ replaces m = true)).
        { intros W. apply (drop_at _ _ Hd Em) in W. lia. }
        apply (calm V up down seeds maxr fuel GG EN s0 FR tasks known init init_ok _ m); auto; [apply full_at|].
        destruct (replaces m); auto. exfalso. auto.
    Qed.
    Lemma stop_or_drop n : (N <= n)%nat -> (exists k, (n <= k)%nat /\ mu2 (r k) < mu2 (r n)) \/ (exists k, sv_stop (y_sv (r k)) = true).
    Proof.
      intros H. destruct (full_at n) as [G _].
      destruct (Exists_dec (fun st => can_move (r n) st) (y_team (r n)) (fun st => can_move_dec maxr fuel (r n) st)) as [Ex|Nx].
      - apply Exists_exists in Ex. destruct Ex as [st [Hst C]].
        destruct (fr_move _ _ _ _ _ _ _ FA n st C) as [k [Hk K]]. replace k with (n + (k - n))%nat in K by lia.
        destruct (still_or_drop n (k - n) H) as [Dp|Sm]; [left; auto|]. left.
        destruct K as [[m [Em A]]|K]; [|exfalso; apply K; eapply same_move; eauto].
        assert (Hd : (N <= n + (k - n))%nat) by lia. exists (S (n + (k - n))). split; [lia|].
        assert (W : works (r (n + (k - n))) m (r (S (n + (k - n)))) \/ replaces m = true).
        { pose proof (alive _ _ Hd Em) as D. destruct m; try (left; exact I); try (right; reflexivity); try discriminate; destruct A. }
        pose proof (drop_at _ _ Hd Em W). pose proof (mu2_down n (k - n) H). lia.
      - assert (Nm : forall st, ~ can_move (r n) st).
        { intros st C. apply Nx. apply Exists_exists. exists st. split; auto. apply C. }
        destruct (Exists_dec (fun st => w_out (y_w (r n) st) <> []) (y_team (r n))
          (fun st => match w_out (y_w (r n) st) as l return {l <> []} + {~ l <> []} with
                     | [] => right (fun K => K eq_refl) | _ :: _ => left (fun E => eq_ind (@nil message) (fun l => match l with [] => True | _ => False end) I _ (eq_sym E)) end)) as [Eo|No].
        + apply Exists_exists in Eo. destruct Eo as [st [Hst Eo]].
          destruct (fr_msg _ _ _ _ _ _ _ FA n st Hst Eo) as [k [Hk K]]. replace k with (n + (k - n))%nat in K by lia.
          destruct K as [[i [m [Em A]]]|[K|K]]; [| |right; eauto].
          * left. assert (Hd : (N <= n + (k - n))%nat) by lia. exists (S (n + (k - n))). split; [lia|].
            assert (W : works (r (n + (k - n))) (Serve i) (r (S (n + (k - n)))) \/ replaces (Serve i) = true) by (left; left; eauto).
            pose proof (drop_at _ _ Hd Em W). pose proof (mu2_down n (k - n) H). lia.
          * destruct (still_or_drop n (k - n) H) as [Dp|Sm]; [left; auto|]. exfalso. apply Eo.
            destruct Sm as [_ [_ [_ [_ Sw]]]]. rewrite <- Sw. exact K.
        + assert (Ne : forall st, In st (y_team (r n)) -> w_out (y_w (r n) st) = []).
          { intros st Hst. destruct (w_out (y_w (r n) st)) eqn:E; auto. exfalso. apply No. apply Exists_exists. exists st. split; auto. rewrite E. discriminate. }
          destruct (fr_idle _ _ _ _ _ _ _ FA n) as [k [Hk K]]. replace k with (n + (k - n))%nat in K by lia.
          destruct (still_or_drop n (k - n) H) as [Dp|Sm]; [left; auto|]. pose proof Sm as [_ [_ [_ [St Sw]]]].
          destruct K as [[i [Em A]]|[[st [Hst K]]|K]]; [| |right; eauto].
          * assert (Hd : (N <= n + (k - n))%nat) by lia.
            pose proof (fr_step _ _ _ _ _ _ _ FA (n + (k - n))) as S. rewrite Em in S.
            destruct (no_deadlock V up down seeds maxr fuel GG EN s0 FR tasks known init init_ok AR known_V ups_first _ _ _ (full_at _) (MN _) S (FN _) A) as [W|W].
            -- intros st C. apply (Nm st). eapply move_same; eauto.
            -- intros st. rewrite St, Sw. auto.
            -- left. exists (Datatypes.S (n + (k - n))). split; [lia|]. pose proof (drop_at _ _ Hd Em (or_introl W)). pose proof (mu2_down n (k - n) H). lia.
            -- right. eauto.
          * exfalso. rewrite St in Hst. rewrite Sw in K. apply K. auto.
    Qed.
    Lemma ends : exists k, sv_stop (y_sv (r k)) = true.
    Proof.
      assert (G : forall z, 0 <= z -> forall n, (N <= n)%nat -> mu2 (r n) < z -> exists k, sv_stop (y_sv (r k)) = true).
      { intros z Hz. pattern z. apply Zlt_0_ind; auto. clear z Hz. intros z IH Hz n Hn L.
        destruct (stop_or_drop n Hn) as [[k [Hk D]]|K]; auto.
        pose proof (mu2_nonneg V up down seeds maxr fuel GG EN s0 FR tasks (r n) (proj1 (full_at n))).
        apply (IH (mu2 (r n))) with (n := k); auto; lia. }
      pose proof (mu2_nonneg V up down seeds maxr fuel GG EN s0 FR tasks (r N) (proj1 (full_at N))).
      apply (G (mu2 (r N) + 1)) with (n := N); lia.
    Qed.
  End After.
  Theorem fair_ends : exists k, sv_stop (y_sv (r k)) = true.
  Proof. destruct (fr_die _ _ _ _ _ _ _ FA) as [N ND]. eapply ends; eauto. Qed.
End Fair.

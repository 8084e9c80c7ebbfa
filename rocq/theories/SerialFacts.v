(* The serial server on any dependency graph that is good_graph. *)
From Coq Require Import Arith Lia Permutation.
From Verif Require Export Serial SchedProps.
Open Scope Z_scope.

Definition quiet (e : event) : Prop := match e with EvSkip _ | EvNone _ => True | _ => False end.
Definition is_hand (e : event) : bool := match e with EvHand _ _ => true | _ => false end.
Definition hands (h : history) : Z := count is_hand h.

Lemma mem_nat x l : mem Nat.eqb x l = true <-> In x l.
Proof.
  unfold mem. rewrite existsb_exists. split.
  - intros [y [Hy E]]. apply Nat.eqb_eq in E. subst; auto.
  - intros H. exists x. split; auto. apply Nat.eqb_refl.
Qed.
Lemma in_sadd_nat x y l : In x (sadd Nat.eqb y l) <-> x = y \/ In x l.
Proof.
  unfold sadd. destruct (mem Nat.eqb y l) eqn:E.
  - apply mem_nat in E. split; auto. intros [->|?]; auto.
  - rewrite in_app_iff. cbn. split; [intros [?|[->|[]]]; auto|intros [->|?]; auto].
Qed.
Lemma in_sdel_nat x y l : In x (sdel Nat.eqb y l) <-> x <> y /\ In x l.
Proof.
  unfold sdel. rewrite filter_In. rewrite Bool.negb_true_iff, Nat.eqb_neq. split; intros [? ?]; split; auto.
Qed.
Lemma in_dedup_nat l x : In x (dedup Nat.eqb l) <-> In x l.
Proof.
  unfold dedup. assert (G : forall acc, In x (dedup_acc Nat.eqb acc l) <-> In x acc \/ In x l).
  { induction l as [|y l IH]; intros acc; cbn; [tauto|]. rewrite IH, in_sadd_nat. split; intros; intuition auto. }
  rewrite G. cbn. tauto.
Qed.
Lemma set_eqb_in a b x : set_eqb a b = true -> In x b -> In x a.
Proof.
  unfold set_eqb. intros E H. apply andb_prop in E. destruct E as [_ E]. rewrite forallb_forall in E.
  apply mem_nat, E, H.
Qed.

Lemma count_rev_skip p sk : (forall b, p (EvSkip b) = false) -> count p (rev (map EvSkip sk)) = 0.
Proof.
  intros N. induction sk as [|b sk IH]; auto. cbn [map rev]. rewrite count_app, IH. cbn. rewrite N. reflexivity.
Qed.
Lemma held_skips sk h b : held (rev (map EvSkip sk) ++ h) b <-> held h b.
Proof.
  unfold held, n_released, n_handed. rewrite !count_app, !count_rev_skip by reflexivity. cbn. reflexivity.
Qed.
Lemma failed_skips sk h b : n_failed (rev (map EvSkip sk) ++ h) b = n_failed h b.
Proof. unfold n_failed. rewrite !count_app, !count_rev_skip by reflexivity. reflexivity. Qed.
Lemma quiet_count p h : (forall e, In e h -> quiet e) -> (forall b, p (EvSkip b) = false) -> (forall t, p (EvNone t) = false) ->
  count p h = 0.
Proof.
  intros Q N1 N2. induction h as [|e h IH]; auto. cbn. rewrite IH by (intros; apply Q; right; auto).
  specialize (Q e (or_introl eq_refl)). destruct e; cbn in Q; try tauto; rewrite ?N1, ?N2; reflexivity.
Qed.
Lemma held_quiet l h b : (forall e, In e l -> quiet e) -> (held (l ++ h) b <-> held h b).
Proof.
  intros Q. unfold held, n_released, n_handed. rewrite !count_app, !(quiet_count _ l) by auto. cbn. reflexivity.
Qed.
Lemma failed_quiet l h b : (forall e, In e l -> quiet e) -> n_failed (l ++ h) b = n_failed h b.
Proof. intros Q. unfold n_failed. rewrite !count_app, !(quiet_count _ l) by auto. reflexivity. Qed.

(* what is settled stays settled *)
Lemma failed_mono l h b : n_failed h b <= n_failed (l ++ h) b.
Proof.
  unfold n_failed. rewrite count_app.
  pose proof (count_nonneg (fun e => match e with EvRel pb => is_block (pb_block pb) b && status_eqb (pb_status pb) FAILED | _ => false end) l).
  lia.
Qed.
Lemma perm_mono maxr l h b : perm_failed maxr h b -> perm_failed maxr (l ++ h) b.
Proof. unfold perm_failed. pose proof (failed_mono l h b). lia. Qed.
Lemma settled_mono up maxr l h b : settled up maxr h b -> settled up maxr (l ++ h) b.
Proof.
  intros [H|[H|[a [H A]]]].
  - left. apply succeeded_app; auto.
  - right; left. apply perm_mono; auto.
  - right; right. exists a. split; auto. apply perm_mono; auto.
Qed.

(* the number of hand-outs is bounded *)
Fixpoint zsum (f : block -> Z) (l : list block) : Z :=
  match l with [] => 0 | b :: r => f b + zsum f r end.
Lemma zsum_le f g l : (forall b, In b l -> f b <= g b) -> zsum f l <= zsum g l.
Proof.
  induction l as [|b l IH]; cbn; [lia|]. intros H. pose proof (H b (or_introl eq_refl)).
  assert (zsum f l <= zsum g l) by (apply IH; auto). lia.
Qed.
Lemma zsum_add f g l : zsum (fun b => f b + g b) l = zsum f l + zsum g l.
Proof. induction l as [|b l IH]; cbn; lia. Qed.
Lemma zsum_one V b : NoDup V -> In b V -> zsum (fun x => if is_block b x then 1 else 0) V = 1.
Proof.
  induction V as [|x V IH]; [intros _ []|]. intros ND H. inversion ND as [|? ? Nx NV]; subst. cbn.
  destruct H as [->|H].
  - rewrite is_block_same. assert (zsum (fun x => if is_block b x then 1 else 0) V = 0); [|lia].
    clear -Nx. induction V as [|y V IH]; auto. cbn. rewrite is_block_other, IH.
    + lia.
    + intros H. apply Nx. right; auto.
    + intros ->. apply Nx. left; auto.
  - rewrite is_block_other, IH; auto. intros ->. auto.
Qed.
Lemma hands_sum V h : NoDup V -> (forall t pb, In (EvHand t pb) h -> In (pb_block pb) V) -> hands h = zsum (n_handed h) V.
Proof.
  intros ND. induction h as [|e h IH]; intros H.
  - clear. induction V; cbn in *; auto.
  - assert (IH' : hands h = zsum (n_handed h) V) by (apply IH; intros; eapply H; right; eauto). clear IH.
    destruct e as [b|t pb|t|pb]; try exact IH'.
    change (hands (EvHand t pb :: h)) with (1 + hands h). rewrite IH'.
    rewrite <- (zsum_one V (pb_block pb) ND) by (apply (H t); left; auto). symmetry. apply zsum_add.
Qed.

Section Serial.
  Variables (V : list block) (up down : block -> list block) (seeds : nat -> list block).
  Variable maxr : nat -> Z.
  Variable fuel : nat.
  Hypothesis GG : good_graph V up down seeds.
  Hypothesis EN : enough V fuel.
  Variable s0 : sched.
  Hypothesis FR : fresh V seeds s0.
  Hypothesis ORD : forall b, In b V -> In (b_task b) (s_order s0).
  Variable all_tasks : list nat.
  Hypothesis ALL : forall b, In b V -> In (b_task b) all_tasks.
  Variable chk : history -> nat -> block -> check_result.
  Variable proc : history -> pyblock -> res status.
  Variable pick : history -> nat -> list block -> nat.

  Local Notation reach := (reach up down maxr fuel s0).
  Local Notation settled := (settled up maxr).
  Local Notation HInv := (HInv V up down seeds maxr s0).

  Lemma HI h s : reach h s -> HInv h s.
  Proof. apply (reach_HInv V up down seeds maxr fuel GG EN s0 FR). Qed.

  Lemma first_block_ok ts : forall h s, reach h s ->
    exists s' r h1 h2, first_block up down maxr fuel chk ts h s = Ok (s', r, h1) /\ reach h1 s' /\ h1 = h2 ++ h /\
      match r with
      | Some pb => exists h3, h2 = EvHand (b_task (pb_block pb)) pb :: h3 /\ (forall e, In e h3 -> quiet e)
      | None => (forall e, In e h2 -> quiet e) /\
                ((forall b, ~ In (EvSkip b) h2) -> s' = s /\ forall t, In t ts -> readyl s t = [])
      end.
  Proof.
    induction ts as [|t ts IH]; intros h s R; cbn [first_block].
    - exists s, None, h, []. repeat (split; auto). intros e []. intros t [].
    - destruct (acquire_ok V up down seeds maxr fuel GG EN s0 (chk h) t h s (HI h s R)) as [s1 [r [sk [E [I1 N]]]]].
      rewrite E. cbn [bind]. pose proof (reach_acquire up down maxr fuel s0 h s t (chk h) s1 r sk R E) as R1.
      destruct r as [pb|].
      + exists s1, (Some pb), (EvHand t pb :: rev (map EvSkip sk) ++ h), (EvHand t pb :: rev (map EvSkip sk)).
        split; auto. split; auto. split; auto.
        destruct (hi_ok _ _ _ _ _ _ _ _ I1) as [[_ [<- _]] _]. exists (rev (map EvSkip sk)). split; auto.
        intros e He. apply in_rev, in_map_iff in He. destruct He as [b [<- _]]. exact I.
      + destruct (IH _ s1 R1) as [s' [r' [h1 [h2 [E2 [R2 [Eh X]]]]]]].
        exists s', r', h1, (h2 ++ EvNone t :: rev (map EvSkip sk)).
        split; auto. split; auto. split; [rewrite Eh, <- app_assoc; reflexivity|].
        assert (Q : forall e, In e (EvNone t :: rev (map EvSkip sk)) -> quiet e).
        { intros e [<-|He]; [exact I|]. apply in_rev, in_map_iff in He. destruct He as [b [<- _]]. exact I. }
        destruct r' as [pb|].
        * destruct X as [h3 [-> Q3]]. exists (h3 ++ EvNone t :: rev (map EvSkip sk)). split; auto.
          intros e He. apply in_app_or in He. destruct He; auto.
        * destruct X as [Q2 X]. split; [intros e He; apply in_app_or in He; destruct He; auto|].
          intros NS. destruct X as [-> X]; [intros b Hb; apply (NS b), in_or_app; auto|].
          assert (sk = []).
          { destruct sk as [|b sk]; auto. exfalso. apply (NS b). apply in_or_app. right. right.
            apply -> in_rev. left; auto. }
          subst sk. destruct (none_empty V up down seeds maxr fuel GG EN s0 FR h s R t _ _ E) as [Er ->].
          split; auto. intros x [<-|Hx]; auto.
  Qed.

  (* the condition for is_done to be right (C23) *)
  Variable bad : block -> Prop.
  Definition counts_right (h : history) : Prop :=
    two_up V up \/ (forall b, 0 < n_failed h b -> bad b) /\ spread_in (fun b => In b V) up bad.
  Lemma counts_right_done h s t : reach h s -> counts_right h -> ts_is_done (s_st s t) = true ->
    forall b, In b V -> b_task b = t -> settled h b.
  Proof.
    intros R C D b Hb Ht. eapply (done_iff V up down seeds maxr fuel GG EN s0 FR h s R); eauto.
    intros x u a c w Vx Hu Su Fa Fc. destruct C as [C|[C C2]].
    - apply (two_apart V up down seeds maxr GG _ _ _ s C (hi_inv _ _ _ _ _ _ _ _ (HI h s R)) x u a c w); auto.
    - apply C2; auto; apply C; [apply Fa|apply Fc].
  Qed.

  Record SInv (x : serial) : Prop := {
    si_reach : reach (ss_h x) (ss_s x);
    si_free : forall b, ~ held (ss_h x) b;
    si_cover : forall t, In t all_tasks -> In t (ss_funcs x) \/ In t (ss_finished x);
    si_settled : forall t b, In t (ss_finished x) -> In b V -> b_task b = t -> settled (ss_h x) b;
    si_counts : counts_right (ss_h x)
  }.

  Hypothesis FC : two_up V up \/ (forall h pb, proc h pb = Ok FAILED -> bad (pb_block pb)) /\ spread_in (fun b => In b V) up bad.
  Hypothesis PR : forall h pb, exists st, proc h pb = Ok st.

  Lemma serial_block_ok x s1 h1 h3 pb : SInv x -> reach h1 s1 ->
    h1 = EvHand (b_task (pb_block pb)) pb :: h3 ++ ss_h x -> (forall e, In e h3 -> quiet e) ->
    exists y st, serial_block up down maxr fuel proc pick x s1 h1 pb = Ok y /\ SInv y /\
      ss_h y = EvRel (PB (pb_block pb) st) :: h1.
  Proof.
    intros [X1 X2 X3 X4 X5] R1 E Q.
    set (b := pb_block pb) in *. set (t := b_task b) in *.
    pose proof (HI _ _ R1) as I1. pose proof (hi_ok _ _ _ _ _ _ _ _ I1) as O. rewrite E in O.
    destruct O as [[Vb [_ [Ub [NSb [NFb NHb]]]]] _]. fold b in Vb, Ub, NSb, NFb, NHb.
    assert (Hb : held h1 b).
    { rewrite E. unfold held, n_released, n_handed. cbn [count]. fold b. rewrite is_block_same, !count_app.
      rewrite !(quiet_count _ h3) by auto. pose proof (hi_count _ _ _ _ _ _ _ _ (HI _ _ X1) b) as [K _].
      unfold n_released, n_handed in K. lia. }
    assert (Only : forall c, held h1 c -> c = b).
    { intros c Hc. destruct (block_dec c b) as [|N]; auto. exfalso. apply (X2 c). rewrite E in Hc.
      unfold held, n_released, n_handed in *. cbn [count] in Hc. fold b in Hc.
      rewrite is_block_other, !count_app, !(quiet_count _ h3) in Hc by auto. lia. }
    assert (NS : ~ settled (ss_h x) b).
    { intros S. apply (settled_mono _ _ (EvHand t pb :: h3)) in S. cbn [app] in S. rewrite <- E in S.
      destruct S as [S|[S|S]].
      - destruct (i_held _ _ _ _ _ _ _ _ _ (hi_inv _ _ _ _ _ _ _ _ I1) b Hb) as [_ [_ [K _]]]; auto.
      - destruct (i_held _ _ _ _ _ _ _ _ _ (hi_inv _ _ _ _ _ _ _ _ I1) b Hb) as [_ [_ [_ K]]]; auto.
      - eapply (held_norph' V up down seeds maxr fuel GG EN s0 FR h1 s1 R1 b Hb); eauto. }
    assert (Ft : In t (ss_funcs x)).
    { destruct (X3 t) as [H|H]; auto; [apply ALL, Vb|]. exfalso. apply NS. eapply X4; eauto. }
    unfold serial_block. fold b. fold t. rewrite (proj2 (mem_nat t (ss_funcs x)) Ft).
    destruct (PR h1 pb) as [st0 Ep]. rewrite Ep. cbn [bind].
    set (st := if status_eqb st0 FAILED then FAILED else SUCCESS).
    assert (St : st = SUCCESS \/ st = FAILED) by (unfold st; destruct (status_eqb st0 FAILED); auto).
    destruct (release_ok V up down seeds maxr fuel GG EN s0 (pick h1) (PB b st) h1 s1 I1 Hb St) as [s2 [Er I2]].
    rewrite Er. cbn [bind].
    pose proof (reach_release up down maxr fuel s0 h1 s1 (pick h1) (PB b st) s2 R1 Hb St Er) as R2.
    assert (Free : forall c, ~ held (EvRel (PB b st) :: h1) c).
    { intros c Hc. apply (held_rel maxr fuel h1 (PB b st)) in Hc.
      - destruct Hc as [Hc N]. apply N. apply Only. exact Hc.
      - intros z. apply (hi_count _ _ _ _ _ _ _ _ I1). }
    assert (CR : counts_right (EvRel (PB b st) :: h1)).
    { destruct FC as [T|[P SP]]; [left; auto|]. destruct X5 as [T|[Z _]]; [left; auto|]. right. split; auto. intros c Hc.
      destruct (block_dec c b) as [->|Nc].
      - destruct (status_eqb st0 FAILED) eqn:E0.
        + apply (P h1). rewrite Ep. destruct st0; try discriminate. reflexivity.
        + unfold st in Hc. rewrite failed_rel_succ, E in Hc. apply Z.
          rewrite <- (failed_quiet h3 (ss_h x) b); auto.
      - apply Z. rewrite <- (failed_quiet h3 (ss_h x) c); auto. rewrite E in Hc. unfold n_failed in *. cbn [count pb_block] in Hc.
        rewrite is_block_other in Hc by auto. exact Hc. }
    assert (Mono : forall c, settled (ss_h x) c -> settled (EvRel (PB b st) :: h1) c).
    { intros c S. apply (settled_mono _ _ (EvRel (PB b st) :: EvHand t pb :: h3)) in S. cbn [app] in S.
      rewrite <- E in S. exact S. }
    destruct (ts_is_done (s_st s2 t)) eqn:D.
    - unfold sremove. rewrite (proj2 (mem_nat t _)) by (apply in_sadd_nat; auto). cbn [bind].
      eexists _, st. split; [reflexivity|]. split; [|reflexivity].
      constructor; cbn [ss_s ss_h ss_funcs ss_finished]; auto.
      + intros u Hu. rewrite in_sadd_nat, in_sdel_nat.
        destruct (Nat.eq_dec u t) as [->|N]; auto. destruct (X3 u Hu); auto.
      + intros u c Hu Vc Tc. apply in_sadd_nat in Hu. destruct Hu as [->|Hu].
        * eapply counts_right_done; eauto.
        * apply Mono. eapply X4; eauto.
    - eexists _, st. split; [reflexivity|]. split; [|reflexivity].
      constructor; cbn [ss_s ss_h ss_funcs ss_finished]; auto.
      intros u c Hu Vc Tc. apply Mono. eapply X4; eauto.
  Qed.

  Lemma skip_task_loop k t f : forall h s s' r sk, reach h s -> acquire_loop up down maxr fuel k f s t = Ok (s', r, sk) ->
    forall c, In c sk -> b_task c = t.
  Proof.
    intros h s s' r sk R. pose proof (HI h s R) as I0. clear R. revert h s s' r sk I0.
    induction f as [|f IH]; intros h s s' r sk I0 E; [discriminate|]. cbn [acquire_loop] in E.
    destruct (next_spec V up down seeds maxr _ _ _ s t (hi_inv _ _ _ _ _ _ _ _ I0)) as [[Er N]|[q [pb [N [Hr _]]]]];
      rewrite N in E; cbn [bind] in E.
    - injection E as <- <- <-. intros c [].
    - destruct (precheck _).
      + destruct (skip_hist V up down seeds maxr fuel GG s0 h s t q pb _ I0 N eq_refl) as [s4 [R1 R2]].
        rewrite R1 in E. cbn [bind] in E.
        destruct (acquire_loop _ _ _ _ _ _ _ _) as [[[s5 r5] sk5]|] eqn:E5; [|discriminate]. cbn [bind] in E.
        injection E as <- <- <-. intros c [<-|Hc]; [|eapply IH; eauto].
        apply (i_ready _ _ _ _ _ _ _ _ _ (hi_inv _ _ _ _ _ _ _ _ I0) t). rewrite Hr. left; auto.
      + injection E as <- <- <-. intros c [].
  Qed.
  Lemma skip_task k t h s s' r sk : reach h s -> acquire_block up down maxr fuel k s t = Ok (s', r, sk) ->
    forall c, In c sk -> b_task c = t.
  Proof. apply skip_task_loop. Qed.

  Definition hand_bound : Z := zsum (fun b => Z.max (maxr (b_task b)) 0 + 1) V.
  Lemma hands_le h s : reach h s -> hands h <= hand_bound.
  Proof.
    intros R. rewrite (hands_sum V).
    - apply zsum_le. intros b _. apply (handed_bound V up down seeds maxr fuel GG EN s0 FR h s R).
    - apply (gg_nodup _ _ _ _ GG).
    - intros t pb H. apply in_split in H. destruct H as [l1 [l2 E]].
      apply (ok_at V up down seeds maxr fuel GG EN s0 FR h s R _ _ _ E).
  Qed.

  Definition ended_by_skips (h : history) : Prop :=
    exists l h0 b, h = l ++ h0 /\ In (EvSkip b) l /\ forall e, In e l -> quiet e.

  Hypothesis AR : all_roots V up seeds.

  (* tasks that do not depend on each other: the round leaves nothing ready *)
  Definition no_cross : Prop := forall a b, In b V -> In a (up b) -> b_task a = b_task b.
  Lemma acquire_others h s t s' sk k : no_cross -> reach h s ->
    acquire_block up down maxr fuel k s t = Ok (s', None, sk) ->
    forall u, u <> t -> readyl s u = [] -> readyl s' u = [].
  Proof.
    intros NX R E u Nu Em.
    destruct (readyl s' u) as [|b l] eqn:El; auto. exfalso.
    assert (Hb : In b (readyl s' u)) by (rewrite El; left; auto).
    pose proof (reach_acquire up down maxr fuel s0 h s t k s' None sk R E) as R1.
    apply (ready_iff V up down seeds maxr fuel GG EN s0 FR _ s' R1 AR) in Hb.
    destruct Hb as [Vb [Tb [U [NH [NS NF]]]]].
    assert (T : forall c, In (EvSkip c) (rev (map EvSkip sk)) -> b_task c = t).
    { intros c Hc.
      apply in_rev, in_map_iff in Hc. destruct Hc as [c' [Ec Hc]]. injection Ec as ->.
      eapply (skip_task k t h s); eauto. }
    assert (X : In b (readyl s u)); [|rewrite Em in X; destruct X].
    apply (ready_iff V up down seeds maxr fuel GG EN s0 FR h s R AR). split; auto. split; auto. split; [|split; [|split]].
    - intros a Ha. destruct (U a Ha) as [K|K].
      + destruct K as [?|K]; [discriminate|]. apply in_app_or in K. destruct K as [K|K]; [|left; auto].
        exfalso. apply T in K. rewrite (NX a b Vb Ha) in K. congruence.
      + destruct K as [?|K]; [discriminate|]. apply in_app_or in K. destruct K as [K|K]; [|right; auto].
        apply in_rev, in_map_iff in K. destruct K as [? [? _]]. discriminate.
    - intros K. apply NH. change (EvNone t :: rev (map EvSkip sk) ++ h) with ([EvNone t] ++ rev (map EvSkip sk) ++ h).
      rewrite held_quiet; [apply held_skips; auto|]. intros e [<-|[]]. exact I.
    - intros K. apply NS. apply (succeeded_app (EvNone t :: rev (map EvSkip sk))) in K. exact K.
    - intros K. apply NF. apply (perm_mono _ (EvNone t :: rev (map EvSkip sk))) in K. exact K.
  Qed.
  Lemma first_drain ts : no_cross -> forall h s s' h1, reach h s -> (forall t, ~ In t ts -> readyl s t = []) ->
    first_block up down maxr fuel chk ts h s = Ok (s', None, h1) -> forall t, readyl s' t = [].
  Proof.
    intros NX. induction ts as [|t ts IH]; intros h s s' h1 R Em; cbn [first_block].
    - intros E. injection E as <- <-. auto.
    - destruct (acquire_ok V up down seeds maxr fuel GG EN s0 (chk h) t h s (HI h s R)) as [s1 [r [sk [E [_ N]]]]].
      rewrite E. cbn [bind]. destruct r as [pb|]; [discriminate|].
      pose proof (reach_acquire up down maxr fuel s0 h s t (chk h) s1 None sk R E) as R1.
      apply IH; auto. intros u Hu. destruct (Nat.eq_dec u t) as [->|Nu]; [apply N; auto|].
      apply (acquire_others h s t s1 sk (chk h) NX R E u Nu), Em. intros [?|?]; auto.
  Qed.

  Lemma serial_loop_ok n : forall x, SInv x -> hand_bound - hands (ss_h x) < Z.of_nat n ->
    exists y, serial_loop up down maxr fuel all_tasks chk proc pick n x = Ok y /\
      reach (ss_h y) (ss_s y) /\ (forall b, ~ held (ss_h y) b) /\
      ((forall b, In b V -> settled (ss_h y) b) \/ ended_by_skips (ss_h y)) /\
      (no_cross -> forall b, In b V -> settled (ss_h y) b) /\ counts_right (ss_h y).
  Proof.
    induction n as [|n IH]; intros x SI L.
    { exfalso. pose proof (hands_le _ _ (si_reach _ SI)). lia. }
    cbn [serial_loop]. destruct (set_eqb (ss_finished x) all_tasks) eqn:Ef.
    - exists x. split; auto. destruct SI as [X1 X2 X3 X4 X5].
      assert (D : forall b, In b V -> settled (ss_h x) b) by (intros b Hb; eapply X4; eauto; eapply set_eqb_in; eauto).
      repeat (split; auto).
    - destruct (first_block_ok (get_ready_tasks (ss_s x)) (ss_h x) (ss_s x) (si_reach _ SI))
        as [s1 [r [h1 [h2 [E [R1 [Eh X]]]]]]].
      rewrite E. cbn [bind]. destruct r as [pb|].
      + destruct X as [h3 [-> Q]]. cbn [app] in Eh.
        destruct (serial_block_ok x s1 h1 h3 pb SI R1 Eh Q) as [y [st [Ey [SY Hy]]]].
        rewrite Ey. cbn [bind]. destruct (ss_funcs y) as [|f fs] eqn:Fy.
        * exists y. split; auto. destruct SY as [X1 X2 X3 X4 X5].
          assert (D : forall b, In b V -> settled (ss_h y) b).
          { intros b Hb. destruct (X3 (b_task b)) as [K|K]; [apply ALL; auto|rewrite Fy in K; destruct K|].
            eapply X4; eauto. }
          repeat (split; auto).
        * apply IH; auto. rewrite Hy, Eh. unfold hands in *. cbn [count is_hand]. rewrite count_app.
          rewrite (quiet_count is_hand h3) by auto. lia.
      + destruct X as [Q X]. eexists. split; [reflexivity|]. cbn [ss_h ss_s].
        split; auto. split.
        { intros b. rewrite Eh, held_quiet by auto. apply (si_free _ SI). }
        assert (Free : forall b, ~ held h1 b).
        { intros b. rewrite Eh, held_quiet by auto. apply (si_free _ SI). }
        assert (Rd : forall t, ~ In t (get_ready_tasks (ss_s x)) -> readyl (ss_s x) t = []).
        { intros t Nt. destruct (readyl (ss_s x) t) as [|b l] eqn:El; auto. exfalso. apply Nt.
          assert (Hb : In b (readyl (ss_s x) t)) by (rewrite El; left; auto).
          pose proof (HI _ _ (si_reach _ SI)) as I0.
          destruct (i_ready _ _ _ _ _ _ _ _ _ (hi_inv _ _ _ _ _ _ _ _ I0) t b Hb) as [Vb [Tb _]].
          unfold get_ready_tasks. apply filter_In.
          rewrite (hi_order _ _ _ _ _ _ _ _ I0). split; [rewrite <- Tb; apply ORD; auto|].
          rewrite (i_cready _ _ _ _ _ _ _ _ _ (hi_inv _ _ _ _ _ _ _ _ I0)), El. reflexivity. }
        split.
        2: { split.
             - intros NX. refine (not_stuck V up down seeds maxr fuel GG EN s0 FR h1 s1 R1 AR Free _).
               apply (first_drain _ NX (ss_h x) (ss_s x) s1 h1 (si_reach _ SI) Rd E).
             - destruct (si_counts _ SI) as [T|[Z SP]]; [left; auto|]. right. split; auto. intros b. rewrite Eh, failed_quiet; auto. }
        assert (D : (exists b, In (EvSkip b) h2) \/ forall b, ~ In (EvSkip b) h2).
        { clear. induction h2 as [|e l IH]; [right; intros b []|]. destruct IH as [[b Hb]|N]; [left; exists b; right; auto|].
          destruct e; [left; eexists; left; reflexivity|right; intros c [?|K]; [discriminate|eapply N; eauto]..]. }
        destruct D as [[b Hb]|N].
        * right. exists h2, (ss_h x), b. auto.
        * left. destruct (X N) as [-> Em].
          refine (not_stuck V up down seeds maxr fuel GG EN s0 FR h1 (ss_s x) R1 AR Free _).
          intros t. destruct (in_dec Nat.eq_dec t (get_ready_tasks (ss_s x))) as [H|H]; auto.
  Qed.

  Lemma serial_init_ok : SInv (serial_init all_tasks s0).
  Proof.
    constructor; cbn [ss_s ss_h ss_funcs ss_finished serial_init].
    - constructor.
    - intros b. unfold held. cbn. lia.
    - intros t Ht. left. apply in_dedup_nat. auto.
    - intros t b [].
    - destruct FC as [T|[_ SP]]; [left; auto|right]. split; auto. intros b Hb. exfalso. unfold n_failed in Hb. cbn in Hb. lia.
  Qed.

  Lemma serial_run_ok : exists N, forall n, (N <= n)%nat -> exists y,
    serial_run up down maxr fuel all_tasks chk proc pick n s0 = Ok y /\
      reach (ss_h y) (ss_s y) /\ (forall b, ~ held (ss_h y) b) /\
      ((forall b, In b V -> settled (ss_h y) b) \/ ended_by_skips (ss_h y)) /\
      (no_cross -> forall b, In b V -> settled (ss_h y) b) /\ counts_right (ss_h y).
  Proof.
    exists (Z.to_nat (hand_bound + 1)). intros n L.
    destruct (serial_loop_ok n _ serial_init_ok) as [y [E Y]].
    - cbn [serial_init ss_h]. unfold hands. cbn [count].
      assert (0 <= hand_bound); [|lia]. unfold hand_bound. clear. induction V; cbn; lia.
    - eexists. unfold serial_run. rewrite E. cbn [bind]. split; [reflexivity|]. exact Y.
  Qed.
End Serial.

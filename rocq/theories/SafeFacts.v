(* Safety of the scheduler needs little of the dependency graph: upstream and downstream may
   disagree, a block may even be queued several times; still nothing is handed out before all
   that upstream() lists for it has succeeded. *)
From Coq Require Import Arith Lia.
From Verif Require Import VecFacts.
From Verif Require Export SchedSpec SurfFacts SchedFacts.
Open Scope Z_scope.

Record safe_graph (V : list block) (up down : block -> list block) (seeds : nat -> list block) : Prop := {
  sg_ids : forall a b, In a V -> In b V -> bid a = bid b -> a = b;
  sg_up : forall a b, In b V -> In a (up b) -> In a V;
  sg_down : forall a b, In a V -> In b (down a) -> In b V;
  sg_seeds : forall t b, In b (seeds t) -> In b V /\ up b = []
}.

Lemma good_safe V up down seeds : good_graph V up down seeds -> safe_graph V up down seeds.
Proof.
  intros G. constructor.
  - apply (gg_ids _ _ _ _ G).
  - apply (gg_up _ _ _ _ G).
  - apply (gg_down _ _ _ _ G).
  - intros t b Hb. destruct (gg_seeds _ _ _ _ G t b Hb) as [? [? ?]]; auto.
Qed.

Section Shrink.
  Context {A : Type}.
  Variable eqb : A -> A -> bool.
  Variables up down : A -> list A.

  Lemma sdel_in x l (y : A) : In y (sdel eqb x l) -> In y l.
  Proof. unfold sdel. intros H. apply filter_In in H. tauto. Qed.
  Lemma sremove_in x l l' (y : A) : sremove eqb x l = Ok l' -> In y l' -> In y l.
  Proof. unfold sremove. destruct (mem eqb x l); [|discriminate]. intros E. injection E as <-. apply sdel_in. Qed.
  Lemma remove_from_boundary_surface s x : surface (remove_from_boundary eqb up s x) = surface s.
  Proof. unfold remove_from_boundary. destruct (_ && _); auto. Qed.
  Lemma add_to_boundary_surface s x : surface (fst (add_to_boundary eqb up s x)) = surface s.
  Proof. unfold add_to_boundary. destruct (_ && _); auto. Qed.
  Lemma retire_surface s u s' y : retire eqb up down s u = Ok s' -> In y (surface s') -> In y (surface s).
  Proof.
    unfold retire. destruct (forallb _ _); [|intros E; injection E as <-; auto].
    destruct (sremove eqb u (surface s)) as [sf|] eqn:E; [|discriminate]. cbn [bind].
    intros E'. injection E' as <-. intros H.
    assert (G : forall l s1, surface (fold_left (fun s' (dc : A * Z) =>
       if snd dc <? 0 then remove_from_boundary eqb up s' (fst dc) else s') l s1) = surface s1).
    { induction l as [|dc l IH]; intros s1; auto. cbn. rewrite IH. destruct (_ <? _); auto.
      apply remove_from_boundary_surface. }
    rewrite G in H. cbn in H. eapply sremove_in; eauto.
  Qed.
  Lemma retires_surface us : forall s s' y, foldM (retire eqb up down) us s = Ok s' ->
    In y (surface s') -> In y (surface s).
  Proof.
    induction us as [|u us IH]; intros s s' y; cbn.
    - intros E. injection E as <-. auto.
    - destruct (retire eqb up down s u) as [s1|] eqn:E; [|discriminate]. cbn [bind].
      intros E' H. eapply retire_surface; eauto.
  Qed.
  Lemma success_surface ds : forall s ready,
    let r := fold_left (success_step eqb up) ds (s, ready) in
    surface (fst r) = surface s /\
    (forall d, In d (snd r) -> In d ready \/ In d ds /\ forallb (in_surface eqb s) (up d) = true).
  Proof.
    induction ds as [|d ds IH]; intros s ready; cbn; [auto|].
    pose proof (add_to_boundary_surface s d) as E.
    destruct (add_to_boundary eqb up s d) as [s1 added]. cbn in E.
    assert (F : forall x, in_surface eqb s1 x = in_surface eqb s x) by (intros; unfold in_surface; rewrite E; auto).
    assert (F' : forall l, forallb (in_surface eqb s1) l = forallb (in_surface eqb s) l)
      by (induction l; cbn; auto; rewrite F, IHl; auto).
    destruct added; [|destruct (forallb (in_surface eqb s1) (up d)) eqn:Ef].
    - destruct (IH s1 ready) as [K1 K2]. split; [congruence|]. intros x Hx.
      apply K2 in Hx. rewrite F' in Hx. intuition.
    - destruct (IH s1 (ready ++ [d])) as [K1 K2]. split; [congruence|]. intros x Hx.
      apply K2 in Hx. rewrite F' in Hx. destruct Hx as [Hx|Hx]; [|intuition].
      apply in_app_iff in Hx. destruct Hx as [Hx|[<-|[]]]; auto. right. rewrite <- F'. auto.
    - destruct (IH s1 ready) as [K1 K2]. split; [congruence|]. intros x Hx.
      apply K2 in Hx. rewrite F' in Hx. intuition.
  Qed.
  Lemma mark_success_surface s n s' ready : mark_success eqb up down s n = Ok (s', ready) ->
    (forall y, In y (surface s') -> In y (sadd eqb n (surface s))) /\
    (forall d, In d ready -> In d (down n) /\ forall u, In u (up d) -> mem eqb u (sadd eqb n (surface s)) = true).
  Proof.
    unfold mark_success. destruct (negb _); [discriminate|].
    set (s1 := Surf (sadd eqb n (surface s)) (boundary s)).
    destruct (success_surface (down n) s1 []) as [K1 K2].
    destruct (fold_left (success_step eqb up) (down n) (s1, [])) as [s2 r2]. cbn in K1, K2.
    destruct (foldM _ _ s2) as [s3|] eqn:E; [|discriminate]. cbn [bind]. intros E'.
    assert (X : ready = r2 /\ forall y, In y (surface s') -> In y (surface s3)).
    { destruct (down n).
      - destruct (sremove eqb n (surface s3)) as [sf|] eqn:Er; [|discriminate]. cbn in E'.
        injection E' as <- <-. split; auto. intros y Hy. cbn in Hy. eapply sremove_in; eauto.
      - injection E' as <- <-. auto. }
    destruct X as [-> X]. split.
    - intros y Hy. apply X in Hy. apply (retires_surface _ _ _ _ E) in Hy. rewrite K1 in Hy. auto.
    - intros d Hd. apply K2 in Hd. destruct Hd as [[]|[Hd F]]. split; auto.
      rewrite forallb_forall in F. apply F.
  Qed.
  Lemma orphan_surface pick f : forall s dn orph s' o', orphan_loop eqb up down pick f s dn orph = Ok (s', o') ->
    surface s' = surface s.
  Proof.
    induction f as [|f IH]; intros s dn orph s' o'; cbn.
    - destruct dn; [intros E; injection E as <- _; auto|discriminate].
    - destruct (pop eqb (pick f dn) dn) as [[d rest]|]; [|intros E; injection E as <- _; auto].
      pose proof (add_to_boundary_surface s d) as E. destruct (add_to_boundary eqb up s d) as [s1 [|]];
        cbn in E; intros E'; rewrite (IH _ _ _ _ _ E'); auto.
  Qed.
  Lemma mark_failure_surface pick f s n s' o : mark_failure eqb up down pick f s n = Ok (s', o) ->
    forall y, In y (surface s') -> In y (surface s).
  Proof.
    unfold mark_failure. destruct (negb _); [discriminate|].
    destruct (orphan_loop _ _ _ _ _ _ _ _) as [[s2 o2]|] eqn:E1; [|discriminate]. cbn [bind].
    destruct (foldM _ _ s2) as [s3|] eqn:E2; [|discriminate]. cbn [bind]. intros E' y Hy.
    apply orphan_surface in E1. cbn in E1. rewrite <- E1. eapply retires_surface; eauto.
    destruct (up n).
    - destruct (sremove eqb n (boundary s3)); [|discriminate]. cbn in E'. injection E' as <- <-. auto.
    - injection E' as <- <-. auto.
  Qed.
End Shrink.

Section Safe.
  Variables (V : list block) (up down : block -> list block) (seeds : nat -> list block).
  Variable maxr : nat -> Z.
  Variable fuel : nat.
  Hypothesis SG : safe_graph V up down seeds.
  Variable s0 : sched.
  Hypothesis FS : s_surf s0 = surf_init.
  Hypothesis FR : forall t, q_ready (s_q s0 t) = [].
  Hypothesis FG : forall t, q_gen (s_q s0 t) = seeds t.

  (* where queued blocks come from *)
  Variable Rb : block -> Prop.
  Hypothesis RbV : forall b, Rb b -> In b V.
  Hypothesis RbD : forall a b, In a V -> In b (down a) -> Rb b.
  Hypothesis RbS : forall t b, In b (seeds t) -> Rb b.
  #[local] Hint Resolve RbV : core.

  Local Notation ups := (ups up).
  Record W (S : block -> Prop) (s : sched) : Prop := {
    w_surf : forall x, In x (surface (s_surf s)) -> In x V /\ S x;
    w_ready : forall t x, In x (readyl s t) -> Rb x /\ ups S x
  }.
  Lemma W_mono (S S' : block -> Prop) s : (forall x, S x -> S' x) -> W S s -> W S' s.
  Proof.
    intros M [W1 W2]. constructor.
    - intros x Hx. apply W1 in Hx. intuition.
    - intros t x Hx. apply W2 in Hx. unfold SchedFacts.ups in *. intuition.
  Qed.
  Lemma W_same S s s' : s_surf s' = s_surf s ->
    (forall t x, In x (readyl s' t) -> In x (readyl s t)) -> W S s -> W S s'.
  Proof.
    intros E1 E2 [W1 W2]. constructor; [rewrite E1; auto|]. intros t x Hx. apply (W2 t), E2, Hx.
  Qed.

  Lemma sadd_eq b l x : In b V -> (forall y, In y l -> In y V) -> In x (sadd block_eqb b l) -> x = b \/ In x l.
  Proof.
    intros Vb Vl. unfold sadd. destruct (mem block_eqb b l); auto. intros H.
    apply in_app_iff in H. destruct H as [H|[H|[]]]; auto.
  Qed.
  Lemma mem_V u l : In u V -> (forall y, In y l -> In y V) -> mem block_eqb u l = true -> In u l.
  Proof.
    intros Vu Vl. unfold mem. rewrite existsb_exists. intros [y [Hy E]].
    unfold block_eqb in E. apply bid_eqb_eq in E.
    rewrite (sg_ids _ _ _ _ SG u y); auto.
  Qed.

  Lemma readyl_push s pb t x : In x (readyl (queue_ready_block s pb) t) -> x = pb_block pb \/ In x (readyl s t).
  Proof.
    unfold readyl, queue_ready_block, upd_st, upd_q, q_push. cbn [s_q]. unfold upd.
    destruct (Nat.eqb_spec (b_task (pb_block pb)) t) as [E|E]; [|auto]. subst t. cbn [q_gen q_ready].
    rewrite map_app. cbn. rewrite !in_app_iff. cbn. intuition.
  Qed.
  Lemma surf_push s pb : s_surf (queue_ready_block s pb) = s_surf s.
  Proof. reflexivity. Qed.
  Lemma urq_W S bs : forall s, W S s -> (forall b, In b bs -> Rb b /\ ups S b) -> W S (update_ready_queue s bs).
  Proof.
    induction bs as [|b bs IH]; intros s Ws H; auto. cbn. apply IH; [|intros; apply H; right; auto].
    destruct Ws as [W1 W2]. constructor; auto. intros t x Hx. apply readyl_push in Hx.
    destruct Hx as [->|Hx]; [apply H; left; auto|eapply W2; eauto].
  Qed.

  Lemma rm_W S s b s1 : W S s -> remove_from_processing s b = Ok s1 -> W S s1.
  Proof.
    intros Ws. unfold remove_from_processing. destruct (sremove _ _ _) as [p|]; [|discriminate]. cbn [bind].
    intros E. injection E as <-. revert Ws. apply W_same; auto. intros t x. unfold readyl. cbn [s_q upd_st upd_q].
    unfold upd. destruct (Nat.eqb_spec (b_task b) t) as [E|E]; auto. subst t. auto.
  Qed.

  Lemma release_succ_W S pick s b s' : W S s -> In b V ->
    release_block up down maxr fuel pick s (PB b SUCCESS) = Ok s' -> W (fun x => S x \/ x = b) s'.
  Proof.
    intros Ws Vb. unfold release_block. cbn [pb_block pb_status].
    destruct (remove_from_processing s b) as [s1|] eqn:E1; [|discriminate]. cbn [bind].
    destruct (mark_success _ _ _ _ _) as [[sf news]|] eqn:E2; [|discriminate]. cbn [bind].
    intros E. injection E as <-. apply (rm_W _ _ _ _ Ws) in E1. destruct E1 as [W1 W2].
    apply mark_success_surface in E2. destruct E2 as [K1 K2].
    assert (SA : forall y, In y (sadd block_eqb b (surface (s_surf s1))) -> In y V /\ (S y \/ y = b)).
    { intros y Hy. apply sadd_eq in Hy; auto; [|intros; apply W1; auto].
      destruct Hy as [->|Hy]; auto. apply W1 in Hy. tauto. }
    apply urq_W.
    - constructor; [intros x Hx; apply SA, K1, Hx|]. intros t x Hx. apply W2 in Hx.
      split; [apply Hx|]. intros a Ha. left. apply Hx; auto.
    - intros d Hd. apply K2 in Hd. destruct Hd as [Hd Hu]. apply RbD in Hd; auto.
      split; auto. intros u Hu'. specialize (Hu u Hu'). apply mem_V in Hu.
      + apply SA in Hu. tauto.
      + eapply (sg_up _ _ _ _ SG); [|eauto]; auto.
      + intros y Hy. apply SA in Hy. tauto.
  Qed.

  Lemma release_fail_W S pick s b s' : W S s -> Rb b -> ups S b ->
    release_block up down maxr fuel pick s (PB b FAILED) = Ok s' -> W S s'.
  Proof.
    intros Ws Vb Ub. unfold release_block. cbn [pb_block pb_status].
    destruct (remove_from_processing s b) as [s1|] eqn:E1; [|discriminate]. cbn [bind].
    apply (rm_W _ _ _ _ Ws) in E1. destruct E1 as [W1 W2].
    destruct (_ <=? _).
    - destruct (mark_failure _ _ _ _ _ _ _) as [[sf orph]|] eqn:E2; [|discriminate]. cbn [bind].
      intros E. injection E as <-. pose proof (mark_failure_surface _ _ _ _ _ _ _ _ _ E2) as K.
      assert (G : W S (upd_st (set_surf s1 sf) (b_task b) (ts_add_failed 1))) by (constructor; auto).
      clear E2. revert G. generalize (upd_st (set_surf s1 sf) (b_task b) (ts_add_failed 1)).
      induction orph as [|o orph IH]; intros s2 G; auto. cbn. apply IH. destruct G as [G1 G2]; constructor; auto.
    - intros E. injection E as <-. constructor; auto. intros t x Hx.
      assert (Hx' : In x (readyl (queue_ready_block s1 (PB b FAILED)) t)).
      { revert Hx. unfold readyl. generalize (queue_ready_block s1 (PB b FAILED)). intros s2.
        cbn [s_q upd_q]. unfold upd. destruct (Nat.eqb_spec (b_task b) t) as [<-|E]; auto. }
      apply readyl_push in Hx'. cbn in Hx'. destruct Hx' as [->|Hx']; auto. eapply W2; eauto.
  Qed.

  Record WH (h : history) (s : sched) : Prop := {
    wh_w : W (succeeded h) s;
    wh_hand : forall t pb, In (EvHand t pb) h -> Rb (pb_block pb) /\ ups (succeeded h) (pb_block pb);
    wh_past : forall h2 e h1, h = h2 ++ e :: h1 ->
       match e with
       | EvSkip b => Rb b /\ ups (succeeded h1) b
       | EvHand _ pb => Rb (pb_block pb) /\ ups (succeeded h1) (pb_block pb)
       | _ => True
       end
  }.
  Lemma WH_init : WH [] s0.
  Proof.
    constructor.
    - constructor; [rewrite FS; intros x []|]. intros t x. unfold readyl. rewrite FG, FR, app_nil_r. intros Hx.
      pose proof (RbS _ _ Hx). apply (sg_seeds _ _ _ _ SG) in Hx. destruct Hx as [Vx E]. split; auto. intros a. rewrite E. intros [].
    - intros t pb [].
    - intros h2 e h1 E. destruct h2; discriminate.
  Qed.
  Lemma succeeded_cons e h x : succeeded h x -> succeeded (e :: h) x.
  Proof. intros [H|H]; [left|right]; right; auto. Qed.
  Lemma WH_cons e h s s' : WH h s -> W (succeeded (e :: h)) s' ->
    match e with
    | EvSkip b => Rb b /\ ups (succeeded h) b
    | EvHand _ pb => Rb (pb_block pb) /\ ups (succeeded h) (pb_block pb)
    | _ => True
    end -> WH (e :: h) s'.
  Proof.
    intros [H1 H2 H3] Hw He. constructor; auto.
    - intros t pb [E|Hin]; [subst e|apply H2 in Hin; clear He; rename Hin into He].
      + split; [apply He|]. intros a Ha. apply succeeded_cons. apply He; auto.
      + split; [apply He|]. intros a Ha. apply succeeded_cons. apply He; auto.
    - intros h2 e' h1 E. destruct h2 as [|x h2]; cbn in E; injection E as E1 E2.
      + subst. exact He.
      + apply (H3 h2 e' h1 E2).
  Qed.

  Lemma next_in q q' pb : get_next q = Ok (q', Some pb) ->
    In (pb_block pb) (q_gen q ++ map pb_block (q_ready q)) /\
    forall x, In x (q_gen q' ++ map pb_block (q_ready q')) -> In x (q_gen q ++ map pb_block (q_ready q)).
  Proof.
    unfold get_next. destruct (0 <? num_ready q); [|discriminate].
    destruct (0 <? q_roots q).
    - destruct (q_gen q) as [|b g]; [discriminate|]. intros E. injection E as <- <-. cbn. split; auto.
    - destruct (q_ready q) as [|b r]; [discriminate|]. intros E. injection E as <- <-. cbn.
      split; [apply in_app_iff; right; left; auto|]. intros x. rewrite !in_app_iff. cbn. intuition.
  Qed.

  Lemma acquire_WH chk f : forall h s t s' r sk, WH h s ->
    acquire_loop up down maxr fuel chk f s t = Ok (s', r, sk) ->
    WH (match r with Some pb => EvHand t pb | None => EvNone t end :: rev (map EvSkip sk) ++ h) s'.
  Proof.
    induction f as [|f IH]; intros h s t s' r sk Hh; cbn; [discriminate|].
    destruct (get_next (s_q s t)) as [[q nb]|] eqn:E; [|discriminate]. cbn [bind].
    destruct nb as [pb|].
    2: { intros E'. injection E' as <- <- <-. cbn. apply (WH_cons _ _ s); auto.
         apply (W_mono (succeeded h)); [intros; apply succeeded_cons; auto|apply Hh]. }
    apply next_in in E. destruct E as [Ein Esub].
    destruct (w_ready _ _ (wh_w _ _ Hh) t _ Ein) as [Vb Ub].
    set (s2 := upd_st (upd_st (upd_q s t (fun _ => q)) t (ts_add_ready (-1))) t (ts_add_processing 1)).
    set (ap := fun q0 : pqueue => q_set_proc q0 (sadd bid_eqb (bid (pb_block pb)) (q_proc q0))).
    assert (Wg : forall f, W (succeeded h) (upd_q (upd_st s2 t f) t ap)).
    { intros g. apply (W_same _ s); [auto| |apply Hh]. intros t' x. unfold readyl, upd_q, upd_st, s2. cbn [s_q].
      unfold upd_st, upd_q. cbn [s_q]. unfold upd. destruct (Nat.eqb_spec t t') as [<-|N]; auto.
      rewrite !Nat.eqb_refl. unfold ap, q_set_proc. cbn [q_gen q_ready]. apply Esub. }
    destruct (precheck (chk f (pb_block pb))).
    - destruct (release_block _ _ _ _ _ _ _) as [s4|] eqn:Er; [|discriminate]. cbn [bind].
      destruct (acquire_loop _ _ _ _ _ f s4 t) as [[[s5 r5] sk5]|] eqn:Ea; [|discriminate]. cbn [bind].
      intros E'. injection E' as <- <- <-.
      apply (release_succ_W (succeeded h)) in Er; auto.
      assert (W4 : WH (EvSkip (pb_block pb) :: h) s4).
      { apply (WH_cons _ _ s); auto. revert Er. apply W_mono. intros x Hx. destruct Hx as [Hx| ->].
        - apply succeeded_cons; auto.
        - left; left; auto. }
      apply (IH _ _ _ _ _ _ W4) in Ea. cbn [map rev]. rewrite <- app_assoc. exact Ea.
    - intros E'. injection E' as <- <- <-. cbn. apply (WH_cons _ _ s); auto.
      apply (W_mono (succeeded h)); [intros; apply succeeded_cons; auto|]. apply Wg.
  Qed.

  Lemma reach_WH h s : reach up down maxr fuel s0 h s -> WH h s.
  Proof.
    induction 1 as [|h s t chk s' r sk R IH E|h s pick pb s' R IH Hh St E].
    - apply WH_init.
    - eapply acquire_WH; eauto.
    - destruct pb as [b st]. cbn [pb_block pb_status] in *.
      assert (HV : Rb b /\ ups (succeeded h) b).
      { assert (P : 0 < n_handed h b).
        { unfold held in Hh. assert (0 <= n_released h b); [|lia]. clear. unfold n_released.
          induction h as [|e h IH]; cbn; [lia|]. destruct (match e with EvRel _ => _ | _ => _ end); lia. }
        assert (Q : exists t pb, In (EvHand t pb) h /\ pb_block pb = b).
        { clear -P. unfold n_handed in P. induction h as [|e h IH]; cbn in P; [lia|].
          destruct e as [c|t pb|t|pb].
          - destruct IH as [t' [pb' [? ?]]]; [lia|]. exists t', pb'. cbn. auto.
          - unfold is_block in P at 1. destruct (block_dec (pb_block pb) b) as [Eb|Nb].
            + exists t, pb. cbn. auto.
            + destruct IH as [t' [pb' [? ?]]]; [lia|]. exists t', pb'. cbn. auto.
          - destruct IH as [t' [pb' [? ?]]]; [lia|]. exists t', pb'. cbn. auto.
          - destruct IH as [t' [pb' [? ?]]]; [lia|]. exists t', pb'. cbn. auto. }
        destruct Q as [t [pb [Hin <-]]]. eapply (wh_hand _ _ IH); eauto. }
      destruct HV as [Vb Ub]. apply (WH_cons _ _ s); auto.
      destruct St as [-> | ->].
      + apply (release_succ_W (succeeded h)) in E; auto; [|apply IH].
        revert E. apply W_mono. intros x Hx. destruct Hx as [Hx| ->].
        * apply succeeded_cons; auto.
        * right; left; auto.
      + apply (release_fail_W (succeeded h)) in E; auto; [|apply IH].
        revert E. apply W_mono. intros; apply succeeded_cons; auto.
  Qed.
End Safe.

Section SafeEnd.
  Variables (V : list block) (up down : block -> list block) (seeds : nat -> list block).
  Variable maxr : nat -> Z.
  Variable fuel : nat.
  Hypothesis SG : safe_graph V up down seeds.
  Variable s0 : sched.
  Hypothesis FR : fresh V seeds s0.

  Lemma reach_past h s : reach up down maxr fuel s0 h s -> forall h2 e h1 b, h = h2 ++ e :: h1 -> takes e b ->
    In b V /\ (forall a, In a (up b) -> succeeded h1 a) /\
    ((exists t, In b (seeds t)) \/ exists a, In a V /\ In b (down a)).
  Proof.
    intros R h2 e h1 b E T.
    pose proof (reach_WH V up down seeds maxr fuel SG s0 (fr_surf _ _ _ FR) (fr_ready _ _ _ FR) (fr_gen _ _ _ FR)
      (fun b => In b V /\ ((exists t, In b (seeds t)) \/ exists a, In a V /\ In b (down a)))) as X.
    destruct X with (h := h) (s := s) as [_ _ P]; auto.
    - tauto.
    - intros a c Ha Hc. split; [eapply (sg_down _ _ _ _ SG); eauto|eauto].
    - intros t c Hc. split; [apply (sg_seeds _ _ _ _ SG) in Hc; tauto|eauto].
    - specialize (P h2 e h1 E). destruct e as [c|t pb|t|pb]; cbn in T; try tauto; subst; unfold ups in P; tauto.
  Qed.
End SafeEnd.

(* C86: what release_block returns *)
From Coq Require Import Arith Lia.
From Verif Require Import SchedProps SchedExec DGFacts2 PipeRun P_SchedCE P_Sched Released.
Open Scope Z_scope.

Lemma bind_ok A B (m : res A) (f : A -> res B) y : bind m f = Ok y -> exists x, m = Ok x /\ f x = Ok y.
Proof. destruct m; cbn; [eauto|discriminate]. Qed.

Lemma dict_in d k x : In x (dict_set d k) <-> In x d \/ x = k.
Proof.
  unfold dict_set. destruct (existsb (Nat.eqb k) d) eqn:E.
  - apply existsb_exists in E. destruct E as [y [Hy Ey]]. apply Nat.eqb_eq in Ey. subst y. split; [auto|]. intros [H| ->]; auto.
  - rewrite in_app_iff. cbn. intuition.
Qed.
Lemma dict_nodup d k : NoDup d -> NoDup (dict_set d k).
Proof.
  intros N. unfold dict_set. destruct (existsb (Nat.eqb k) d) eqn:E; auto. apply NoDup_rev in N. rewrite <- (rev_involutive (d ++ [k])).
  apply NoDup_rev. rewrite rev_app_distr. cbn. constructor; auto. rewrite <- in_rev. intros H.
  assert (existsb (Nat.eqb k) d = true) by (apply existsb_exists; exists k; split; auto using Nat.eqb_refl). congruence.
Qed.
Lemma queue_ready_st s b u : s_st (queue_ready_block s b) u = if Nat.eqb (b_task (pb_block b)) u then ts_add_ready 1 (s_st s u) else s_st s u.
Proof.
  unfold queue_ready_block, upd_st, upd_q, upd. cbn. destruct (Nat.eqb_spec (b_task (pb_block b)) u) as [-> |N]; [rewrite ?Nat.eqb_refl; reflexivity|].
  try (destruct (Nat.eqb_spec u (b_task (pb_block b))); [congruence|]). reflexivity.
Qed.

Lemma update_r bs : forall s up0 s' d, update_ready_queue_r s bs up0 = (s', d) -> NoDup up0 ->
  s' = update_ready_queue s bs /\ NoDup d /\ (forall u, In u d <-> In u up0 \/ exists b, In b bs /\ b_task b = u) /\
  forall u, ts_ready (s_st s u) <= ts_ready (s_st s' u) /\ (ts_ready (s_st s u) < ts_ready (s_st s' u) <-> exists b, In b bs /\ b_task b = u).
Proof.
  induction bs as [|b bs IH]; intros s up0 s' d E N; cbn in E.
  - injection E as <- <-. cbn. repeat split; auto; try lia; [intros [H|[? [[] _]]]; auto|intros [? [[] _]]].
  - apply IH in E; [|apply dict_nodup; exact N]. destruct E as [-> [Nd [D R]]]. split; [reflexivity|]. split; [exact Nd|]. split.
    + intros u. rewrite D, dict_in. split; [intros [[H|H]|[c [Hc H]]]|intros [H|[c [[->|Hc] H]]]]; subst; auto; right; eexists; (split; [|reflexivity]); cbn; auto.
    + intros u. destruct (R u) as [R1 R2]. rewrite (queue_ready_st s (PB b CREATED) u) in *. cbn [pb_block] in *.
      destruct (Nat.eqb_spec (b_task b) u) as [Eb|Nb]; cbn [ts_ready ts_add_ready] in *.
      * split; [lia|]. split; [|lia]. intros _. exists b. split; [left|]; auto.
      * split; [exact R1|]. rewrite R2. split; intros [c [Hc Hu]]; [exists c; split; [right|]; auto|]. destruct Hc as [->|Hc]; [congruence|]. eauto.
Qed.
Lemma orphan_ready os : forall s u, ts_ready (s_st (fold_left (fun s o => upd_st s (b_task o) (ts_add_orphaned 1)) os s) u) = ts_ready (s_st s u).
Proof.
  induction os as [|o os IH]; intros s u; cbn [fold_left]; [reflexivity|]. rewrite IH. unfold upd_st, upd. cbn.
  destruct (Nat.eqb_spec (b_task o) u) as [<-|]; reflexivity.
Qed.
Lemma remove_ready s b s1 u : remove_from_processing s b = Ok s1 -> ts_ready (s_st s1 u) = ts_ready (s_st s u).
Proof.
  unfold remove_from_processing. intros E. apply bind_ok in E. destruct E as [p [_ E]]. injection E as <-. unfold upd_st, upd_q, upd. cbn.
  destruct (Nat.eqb_spec (b_task b) u) as [<-|]; reflexivity.
Qed.

(* the state is that of Sched.v *)
Lemma released_state up down maxr fuel pick s pb :
  release_block up down maxr fuel pick s pb = match release_block_r up down maxr fuel pick s pb with Ok (s', _) => Ok s' | Err e => Err e end.
Proof.
  unfold release_block, release_block_r. destruct (remove_from_processing s (pb_block pb)) as [s1|]; cbn [bind]; [|reflexivity].
  destruct (pb_status pb); try reflexivity.
  - destruct (mark_success _ _ _ _ _) as [[sf news]|]; cbn [bind]; [|reflexivity].
    match goal with |- context [update_ready_queue_r ?a ?b []] => destruct (update_ready_queue_r a b []) as [s2 d] eqn:E end.
    apply update_r in E; [|constructor]. destruct E as [-> _]. reflexivity.
  - destruct (_ <=? _); [|reflexivity]. destruct (mark_failure _ _ _ _ _ _ _) as [[sf os]|]; reflexivity.
Qed.

(* C86: the keys are the tasks with more blocks ready than before, each once; whatever the graph, the state and the block *)
Theorem C86_keys : forall up down maxr fuel pick s pb s' d, release_block_r up down maxr fuel pick s pb = Ok (s', d) ->
  NoDup d /\ forall u, In u d <-> ts_ready (s_st s u) < ts_ready (s_st s' u).
Proof.
  intros up down maxr fuel pick s pb s' d E. unfold release_block_r in E. apply bind_ok in E. destruct E as [s1 [E1 E]].
  pose proof (fun u => remove_ready _ _ _ u E1) as R1.
  destruct (pb_status pb); try discriminate E.
  - apply bind_ok in E. destruct E as [[sf news] [_ E]]. injection E as E. apply update_r in E; [|constructor]. destruct E as [_ [N [D R]]]. split; [exact N|].
    intros u. rewrite D. destruct (R u) as [_ R2]. rewrite <- (R1 u).
    assert (X : ts_ready (s_st (upd_st (set_surf s1 sf) (b_task (pb_block pb)) (ts_add_completed 1)) u) = ts_ready (s_st s1 u)).
    { unfold upd_st, upd, set_surf. cbn. destruct (Nat.eqb_spec (b_task (pb_block pb)) u) as [<-|]; reflexivity. }
    rewrite X in R2. rewrite R2. split; [intros [[]|H]; auto|auto].
  - destruct (_ <=? _).
    + apply bind_ok in E. destruct E as [[sf os] [_ E]]. injection E as <- <-. split; [constructor|]. intros u. rewrite orphan_ready, <- (R1 u).
      unfold upd_st, upd, set_surf. cbn. destruct (Nat.eqb_spec (b_task (pb_block pb)) u) as [<-|]; cbn; (split; [intros []|lia]).
    + injection E as <- <-. split; [constructor; [intros []|constructor]|]. intros u. cbn [upd_q s_st]. rewrite (queue_ready_st s1 pb u), <- (R1 u). cbn.
      destruct (Nat.eqb_spec (b_task (pb_block pb)) u) as [E|N]; cbn; split; try lia; auto.
Qed.
Print Assumptions C86_keys.

(* b can be handed out *)
Definition available up maxr (h : history) (b : block) : Prop :=
  (forall a, In a (up b) -> succeeded h a) /\ ~ held h b /\ ~ succeeded h b /\ ~ perm_failed maxr h b.
Lemma rel_counts pb h x : pb_block pb <> x -> (held (EvRel pb :: h) x <-> held h x) /\ (succeeded (EvRel pb :: h) x <-> succeeded h x) /\
  n_failed (EvRel pb :: h) x = n_failed h x.
Proof.
  intros N.
  assert (B : is_block (pb_block pb) x = false) by (unfold is_block; destruct (block_dec (pb_block pb) x); [contradiction|reflexivity]).
  unfold held, n_released, n_handed, n_failed, succeeded. cbn [count In]. rewrite B. cbn [andb].
  split; [|split]; [split; lia| |lia].
  split; [|tauto]. intros [[H|H]|[H|H]]; auto; [discriminate|]. injection H as ->. cbn in N. congruence.
Qed.

(* C86: in a run of a pipeline the keys are the tasks of the blocks that can be handed out from now on *)
Theorem C86_ready_partial : forall tasks ord ordt d s0 fuel h s pick pb s' ks,
  pipe_run tasks ord ordt d s0 fuel h s -> inverse tasks ord ordt d -> no_lonely tasks ord ordt d -> fuel_ok tasks fuel ->
  held h (pb_block pb) -> pb_status pb = SUCCESS \/ pb_status pb = FAILED ->
  release_block_r (dg_up ord ordt d) (dg_down ord ordt d) (dg_max_retries d) fuel pick s pb = Ok (s', ks) ->
  forall u, In u ks <-> exists b, pipe_block tasks b /\ b_task b = u /\ ~ available (dg_up ord ordt d) (dg_max_retries d) h b /\
                                  available (dg_up ord ordt d) (dg_max_retries d) (EvRel pb :: h) b.
Proof.
  intros tasks ord ordt d s0 fuel h s pick pb s' ks R IV NL FO Hb St E u. destruct (C86_keys _ _ _ _ _ _ _ _ _ E) as [_ K]. rewrite K.
  assert (R' : pipe_run tasks ord ordt d s0 fuel (EvRel pb :: h) s').
  { destruct R as [P1 P2 P3 P4 P5]. constructor; auto. eapply reach_release with (pick := pick); eauto. rewrite released_state, E. reflexivity. }
  destruct (C22_ready_partial _ _ _ _ _ _ _ _ R IV NL FO u) as [l [Nl [Il <-]]].
  destruct (C22_ready_partial _ _ _ _ _ _ _ _ R' IV NL FO u) as [l' [Nl' [Il' <-]]].
  assert (M : incl l l').
  { intros x Hx. apply Il in Hx. apply Il'. destruct Hx as [Px [Tx [Ux [Hx [Sx Fx]]]]].
    assert (Ne : pb_block pb <> x) by (intros Ex; subst x; contradiction). destruct (rel_counts pb h x Ne) as [C1 [C2 C3]].
    split; auto. split; auto. split; [|split; [tauto|split; [tauto|]]].
    - intros a Ha. destruct (Ux a Ha) as [H|H]; [left|right]; right; exact H.
    - unfold perm_failed in *. rewrite C3. exact Fx. }
  unfold available. split.
  - intros L. destruct (List.forallb (fun x => if in_dec block_dec x l then true else false) l') eqn:F.
    + exfalso. assert (I : incl l' l).
      { intros x Hx. rewrite forallb_forall in F. apply F in Hx. destruct (in_dec block_dec x l); [assumption|discriminate]. }
      apply NoDup_incl_length in I; auto. lia.
    + assert (X : exists x, In x l' /\ ~ In x l).
      { clear -F. induction l' as [|y l' IH]; [discriminate|]. cbn in F. destruct (in_dec block_dec y l) as [|n]; [|exists y; split; [left|]; auto].
        destruct IH as [x [H1 H2]]; auto. exists x. split; [right|]; auto. }
      destruct X as [x [Hx Nx]]. apply Il' in Hx. exists x. split; [tauto|]. split; [tauto|]. split; [|tauto].
      intros A. apply Nx, Il. tauto.
  - intros [b [Pb [Tb [Na A]]]].
    assert (Nb : ~ In b l) by (intros H; apply Il in H; apply Na; tauto).
    assert (Hi : In b l') by (apply Il'; tauto).
    assert (L : (length (b :: l) <= length l')%nat).
    { apply NoDup_incl_length; [constructor; auto|]. intros x [<-|H]; auto. }
    cbn in L. lia.
Qed.
Print Assumptions C86_ready_partial.

(* What the dict leaves out: the task of the block itself, though one more of its blocks is completed, and the tasks of
   orphans. ex_u and ex_d (P_Sched.v): the second requires the first, of which blocks 1 and 3 come before blocks 0 and 2. *)
Definition held_b (h : history) (b : block) : bool := n_released h b <? n_handed h b.
Definition ret_b (i : nat * Z) (st : status) (ks : list nat) (more : tstate -> tstate -> tstate -> tstate -> bool) (d : dgraph) (h : history) (s : sched) : bool :=
  some_block (fun b => bid_eqb i (bid b) && held_b h b &&
    match release_block_r (dg_up idl idl d) (dg_down idl idl d) (dg_max_retries d) 100 first s (PB b st) with
    | Ok (s', ks') => (if list_eq_dec Nat.eq_dec ks ks' then true else false) && more (s_st s 1) (s_st s' 1) (s_st s 2) (s_st s' 2)
    | Err _ => false
    end) d.
Lemma ret_b_ok i st ks more d h s : ret_b i st ks more d h s = true -> exists b s', held h b /\ bid b = i /\
  release_block_r (dg_up idl idl d) (dg_down idl idl d) (dg_max_retries d) 100 first s (PB b st) = Ok (s', ks) /\
  more (s_st s 1) (s_st s' 1) (s_st s 2) (s_st s' 2) = true.
Proof.
  intros E. apply existsb_exists in E. destruct E as [b [_ E]]. apply andb_prop in E. destruct E as [E1 E]. apply andb_prop in E1. destruct E1 as [E1 E2].
  apply Z.ltb_lt in E2. apply bid_eqb_eq in E1. symmetry in E1.
  destruct (release_block_r _ _ _ _ _ _ _) as [[s' ks']|] eqn:Er; [|discriminate E]. apply andb_prop in E. destruct E as [E3 E4].
  destruct (list_eq_dec Nat.eq_dec ks ks') as [<-|]; [|discriminate E3]. exists b, s'. auto.
Qed.
(* C86: the block of the first task makes a block of the second ready; the state of the first changes, too *)
Theorem C86_own_task_refuted : exists d s0 fuel h s b s', pipe_run [ex_d] idl idl d s0 fuel h s /\ held h b /\ b_task b = 1%nat /\
  release_block_r (dg_up idl idl d) (dg_down idl idl d) (dg_max_retries d) fuel first s (PB b SUCCESS) = Ok (s', [2%nat]) /\
  ts_completed (s_st s' 1) = ts_completed (s_st s 1) + 1.
Proof.
  destruct (run_ce [ex_d] 100 (acq 1 2 ++ rel 1 SUCCESS [1; 3] ++ acq 1 2)
    (ret_b (1%nat, 0) SUCCESS [2%nat] (fun a a' _ _ => ts_completed a' =? ts_completed a + 1)) ex_d_ok) as [d [s0 [h [s [R E]]]]].
  { vm_compute. reflexivity. }
  apply ret_b_ok in E. destruct E as [b [s' [Hb [Ib [Er E]]]]]. apply Z.eqb_eq in E. exists d, s0, 100%nat, h, s, b, s'.
  repeat (split; [assumption|]). split; [|split; assumption]. unfold bid in Ib. congruence.
Qed.
(* C86: a block of the first task fails for good; orphans are counted in both tasks, and the dict is empty *)
Theorem C86_orphans_refuted : exists d s0 fuel h s b s', pipe_run [ex_d] idl idl d s0 fuel h s /\ held h b /\ b_task b = 1%nat /\
  release_block_r (dg_up idl idl d) (dg_down idl idl d) (dg_max_retries d) fuel first s (PB b FAILED) = Ok (s', []) /\
  ts_orphaned (s_st s 1) < ts_orphaned (s_st s' 1) /\ ts_orphaned (s_st s 2) < ts_orphaned (s_st s' 2).
Proof.
  destruct (run_ce [ex_d] 100 (acq 1 2 ++ rel 1 FAILED [1] ++ acq 1 1)
    (ret_b (1%nat, 1) FAILED [] (fun a a' c c' => (ts_orphaned a <? ts_orphaned a') && (ts_orphaned c <? ts_orphaned c'))) ex_d_ok) as [d [s0 [h [s [R E]]]]].
  { vm_compute. reflexivity. }
  apply ret_b_ok in E. destruct E as [b [s' [Hb [Ib [Er E]]]]]. apply andb_prop in E. destruct E as [E1 E2]. apply Z.ltb_lt in E1, E2. exists d, s0, 100%nat, h, s, b, s'.
  repeat (split; [assumption|]). split; [|auto]. unfold bid in Ib. congruence.
Qed.
(* a block that makes others of its own task ready meets the hypotheses of C86_ready_partial *)
Example C86_example : exists d s0 h s b s', pipe_run [ex_d] idl idl d s0 100 h s /\ inverse [ex_d] idl idl d /\ no_lonely [ex_d] idl idl d /\
  held h b /\ release_block_r (dg_up idl idl d) (dg_down idl idl d) (dg_max_retries d) 100 first s (PB b SUCCESS) = Ok (s', [1%nat]).
Proof.
  destruct (run_ce [ex_d] 100 (acq 1 2 ++ rel 1 SUCCESS [1])
    (ret_b (1%nat, 3) SUCCESS [1%nat] (fun _ _ _ _ => true)) ex_d_ok) as [d [s0 [h [s [R E]]]]].
  { vm_compute. reflexivity. }
  apply ret_b_ok in E. destruct E as [b [s' [Hb [_ [Er _]]]]]. exists d, s0, h, s, b, s'. split; [exact R|].
  split; [apply (run_dual _ _ _ _ _ _ _ _ R ex_d_edges)|]. split; [|auto].
  apply (covered_lonely [ex_d] ex_d_ok d (run_dk _ _ _ _ _ _ _ _ R) idl idl idl_order idl_order).
  apply inside_covered; [apply ex_d_ok|apply ex_d_inside].
Qed.
Print Assumptions C86_own_task_refuted.
Print Assumptions C86_orphans_refuted.
Print Assumptions C86_example.

(* What a task state says of itself (C78) *)
From Coq Require Import DecimalString DecimalZ DecimalFacts.
From Verif Require P_ServerCE.
From Verif Require Import SchedExec PipeRun SchedProps P_SchedCE P_Sched StateText.
Open Scope Z_scope.

(* ---- started ---- *)
(* b was handed out for t *)
Definition handed_for (h : history) (t : nat) : Prop := exists pb, In (EvHand t pb) h.

Lemma handed_cons h t e : handed_for (e :: h) t <-> (exists pb, e = EvHand t pb) \/ handed_for h t.
Proof.
  unfold handed_for. split.
  - intros [pb [E|H]]; eauto.
  - intros [[pb ->]|[pb H]]; [exists pb; left; auto|exists pb; right; auto].
Qed.
Lemma handed_skips h t sk : handed_for (rev (map EvSkip sk) ++ h) t <-> handed_for h t.
Proof.
  unfold handed_for. split; intros [pb H]; exists pb.
  - apply in_app_or in H. destruct H as [H|H]; auto. apply in_rev, in_map_iff in H. destruct H as [b [E _]]. discriminate.
  - apply in_or_app. auto.
Qed.
Definition flag (s : sched) (t : nat) : bool := ts_started (s_st s t).
Lemma flag_upd_q s u f t : flag (upd_q s u f) t = flag s t.
Proof. reflexivity. Qed.
Lemma flag_upd s u f t : (forall x, ts_started (f x) = ts_started x) -> flag (upd_st s u f) t = flag s t.
Proof. intros F. unfold flag, upd_st, upd. cbn. destruct (Nat.eqb u t) eqn:E; auto. rewrite F. apply Nat.eqb_eq in E. subst. auto. Qed.
Lemma flag_queue bs : forall s t, flag (update_ready_queue s bs) t = flag s t.
Proof.
  induction bs as [|b bs IH]; intros s t; [reflexivity|]. cbn. unfold update_ready_queue in IH. rewrite IH.
  unfold queue_ready_block. rewrite flag_upd by reflexivity. reflexivity.
Qed.
Lemma flag_orphans os : forall s t, flag (fold_left (fun s o => upd_st s (b_task o) (ts_add_orphaned 1)) os s) t = flag s t.
Proof. induction os as [|o os IH]; intros s t; [reflexivity|]. cbn. rewrite IH. apply flag_upd. reflexivity. Qed.

Section Flag.
  Variables up down : block -> list block.
  Variable maxr : nat -> Z.
  Variable fuel : nat.

  Lemma flag_release pick s pb s' t : release_block up down maxr fuel pick s pb = Ok s' -> flag s' t = flag s t.
  Proof.
    unfold release_block. unfold remove_from_processing. destruct (sremove _ _ _) as [p|]; [|discriminate]. cbn [bind].
    destruct (pb_status pb); try discriminate.
    - destruct (mark_success _ _ _ _ _) as [[sf news]|]; [|discriminate]. cbn [bind]. intros E. injection E as <-.
      rewrite flag_queue, flag_upd by reflexivity. unfold set_surf, flag at 1. cbn [s_st].
      change (flag (upd_st (upd_q s (b_task (pb_block pb)) (fun q => q_set_proc q p)) (b_task (pb_block pb)) (ts_add_processing (-1))) t = flag s t).
      rewrite flag_upd by reflexivity. reflexivity.
    - destruct (_ <=? _).
      + destruct (mark_failure _ _ _ _ _ _ _) as [[sf os]|]; [|discriminate]. cbn [bind]. intros E. injection E as <-.
        rewrite flag_orphans, flag_upd by reflexivity. unfold set_surf, flag at 1. cbn [s_st].
        change (flag (upd_st (upd_q s (b_task (pb_block pb)) (fun q => q_set_proc q p)) (b_task (pb_block pb)) (ts_add_processing (-1))) t = flag s t).
        rewrite flag_upd by reflexivity. reflexivity.
      + intros E. injection E as <-. rewrite flag_upd_q. unfold queue_ready_block. rewrite flag_upd by reflexivity.
        rewrite flag_upd_q, flag_upd by reflexivity. reflexivity.
  Qed.
  Lemma flag_acquire chk u t f : forall s s' r sk, acquire_loop up down maxr fuel chk f s u = Ok (s', r, sk) ->
    flag s' t = match r with Some _ => flag s t || Nat.eqb u t | None => flag s t end.
  Proof.
    induction f as [|f IH]; intros s s' r sk; [discriminate|]. cbn [acquire_loop].
    destruct (get_next _) as [[q [pb|]]|]; [| |discriminate]; cbn [bind].
    - destruct (precheck _).
      + destruct (release_block _ _ _ _ _ _ _) as [s4|] eqn:Er; [|discriminate]. cbn [bind].
        destruct (acquire_loop _ _ _ _ _ _ _ _) as [[[s5 r5] sk5]|] eqn:Ea; [|discriminate]. cbn [bind].
        intros E. injection E as <- <- <-. rewrite (IH _ _ _ _ Ea). rewrite (flag_release _ _ _ _ t Er).
        rewrite flag_upd_q, !flag_upd by reflexivity. reflexivity.
      + intros E. injection E as <- <- <-. rewrite flag_upd_q. unfold flag at 1, upd_st at 1, upd. cbn [s_st].
        destruct (Nat.eqb u t) eqn:Et.
        * rewrite Bool.orb_true_r. reflexivity.
        * rewrite Bool.orb_false_r. change (flag (upd_st (upd_st (upd_q s u (fun _ => q)) u (ts_add_ready (-1))) u (ts_add_processing 1)) t = flag s t).
          rewrite !flag_upd by reflexivity. reflexivity.
    - intros E. injection E as <- <- <-. reflexivity.
  Qed.
  Lemma flag_reach s0 h s t : reach up down maxr fuel s0 h s -> flag s0 t = false -> (flag s t = true <-> handed_for h t).
  Proof.
    intros R F0. induction R as [|h s u chk s' r sk R IH A|h s pick pb s' R IH Hh St A].
    - rewrite F0. split; [discriminate|]. intros [pb []].
    - rewrite (flag_acquire _ _ t _ _ _ _ _ A), handed_cons, handed_skips, <- IH. destruct r as [pb|].
      + rewrite Bool.orb_true_iff, Nat.eqb_eq. split.
        * intros [K|<-]; eauto.
        * intros [[pb' E]|K]; auto. injection E as -> _. auto.
      + split; auto. intros [[pb' E]|K]; auto. discriminate.
    - rewrite (flag_release _ _ _ _ t A), handed_cons, <- IH. split; auto. intros [[pb' E]|K]; auto. discriminate.
  Qed.
End Flag.

Lemma foldM_keep {A X} (P : X -> Prop) (f : X -> A -> res X) l : forall x y,
  (forall a x y, In a l -> P x -> f x a = Ok y -> P y) -> P x -> foldM f l x = Ok y -> P y.
Proof.
  induction l as [|a l IH]; intros x y S Px; cbn [foldM].
  - intros E. injection E as <-. auto.
  - destruct (f x a) as [z|] eqn:E; [|discriminate]. cbn [bind]. apply IH; [|apply (S a x z); auto; left; auto].
    intros b u v Hb. apply S. right. auto.
Qed.
Lemma init_loop_keep d (P : list nat * sched -> Prop) us : forall acc acc', init_loop d us acc = Ok acc' -> P acc ->
  (forall u x y, In u us -> init_task d u x = Ok y -> P x -> P y) -> P acc'.
Proof.
  induction us as [|u us IH]; intros acc acc' E Pa S; cbn [init_loop] in E.
  - injection E as <-. auto.
  - destruct (init_task d u acc) as [x|] eqn:Eu; [|discriminate]. cbn [bind] in E. apply (IH x acc' E).
    + apply (S u acc x); auto. left. auto.
    + intros v y z Hv. apply S. right. auto.
Qed.
Lemma flag_init_task d : forall t acc acc', init_task d t acc = Ok acc' -> (forall u, flag (snd acc) u = false) ->
  forall u, flag (snd acc') u = false.
Proof.
  induction t as [t IH] using task_ind'. intros [seen s] acc'. rewrite init_task_eq.
  destruct (mem _ _ _); [intros E F; injection E as <-; auto|].
  destruct (get_graph _ _) as [g|]; [|discriminate]. cbn [bind]. destruct (num_blocks g) as [n|]; [|discriminate]. cbn [bind].
  intros E F. cbn [snd] in F.
  apply (init_loop_keep d (fun acc => forall u, flag (snd acc) u = false) _ _ _ E); [|intros u x y Hu Ey Px; apply (IH u Hu x y Ey Px)].
  cbn [snd]. intros u. unfold flag, upd. cbn [s_st]. destruct (Nat.eqb (t_id t) u) eqn:Eu; [|apply F].
  cbn [ts_set_total ts_started]. apply Nat.eqb_eq in Eu. rewrite Eu. apply F.
Qed.
Lemma flag_init tasks d s0 t : sched_init tasks = Ok (d, s0) -> flag s0 t = false.
Proof.
  unfold sched_init. destruct (dgraph_init tasks) as [d'|]; [|discriminate]. cbn [bind].
  destruct (init_roots d' _) as [s1|] eqn:E1; [|discriminate]. cbn [bind].
  destruct (foldM _ _ _) as [[seen s2]|] eqn:E2; [|discriminate]. cbn [bind]. intros E. injection E as <- <-.
  assert (F1 : forall u, flag s1 u = false).
  { unfold init_roots in E1. revert E1. apply (foldM_keep (fun s => forall u, flag s u = false)); [|reflexivity].
    intros r x y _ Fx. destruct (get_graph _ _) as [g|]; [|discriminate]. cbn [bind].
    destruct (num_roots g) as [n|]; [|discriminate]. cbn [bind]. destruct (root_gen g) as [gen|]; [|discriminate]. cbn [bind].
    intros E. injection E as <-. intros u. unfold flag, upd. cbn [s_st]. destruct (Nat.eqb r u) eqn:Eu; [|apply Fx].
    cbn. apply Nat.eqb_eq in Eu. subst. apply Fx. }
  pose proof (fun S => foldM_keep (fun acc : list nat * sched => forall u, flag (snd acc) u = false) _ _ ([], s1) _ S F1 E2) as K.
  apply K. clear K. intros a x y _ Fx Ey. apply (flag_init_task _ _ _ _ Ey Fx).
Qed.

(* C78, started: the flag of a task is set exactly when a block of the task has been handed out. *)
Theorem C78_started : forall tasks ord ordt d s0 fuel h s,
  pipe_run tasks ord ordt d s0 fuel h s ->
  forall t, ts_started (s_st s t) = true <-> exists pb, In (EvHand t pb) h.
Proof.
  intros tasks ord ordt d s0 fuel h s R t.
  exact (flag_reach _ _ _ _ _ _ _ t (pr_reach _ _ _ _ _ _ _ _ R) (flag_init _ _ _ t (pr_init _ _ _ _ _ _ _ _ R))).
Qed.
Print Assumptions C78_started.

(* ---- pending ---- *)
(* b waits: some block it depends on has not succeeded, and none has failed for good *)
Definition waits (up : block -> list block) (maxr : nat -> Z) (h : history) (b : block) : Prop :=
  (exists a, In a (up b) /\ ~ succeeded h a) /\ ~ orphan up maxr h b.

Lemma card_diff P Q k k' : card P k -> card Q k' -> (forall x, P x -> Q x) -> card (fun x => Q x /\ ~ P x) (k' - k).
Proof.
  intros C C' S. destruct C as [l [N [H E]]] eqn:EC. destruct C' as [l' [N' [H' E']]] eqn:EC'. clear EC EC'.
  pose (f := fun b => if in_dec block_dec b l then false else true).
  assert (D : card (fun x => Q x /\ ~ P x) (Z.of_nat (length (filter f l')))).
  { exists (filter f l'). split; [apply NoDup_filter; auto|]. split; auto.
    intros b. rewrite filter_In, H'. unfold f. destruct (in_dec block_dec b l) as [I|I]; rewrite H in I; intuition discriminate. }
  assert (U : card Q (k + Z.of_nat (length (filter f l')))).
  { apply (card_union _ _ _ _ _ C D); [tauto|]. intros x. split; [|intros [K|K]; [auto|tauto]].
    intros K. destruct (in_dec block_dec x l) as [I|I]; rewrite H in I; tauto. }
  pose proof (card_unique _ _ _ C' U) as K. assert (X : k' - k = Z.of_nat (length (filter f l'))) by lia. rewrite X. exact D.
Qed.
(* C78, pending: the number of blocks of the task that wait. *)
Theorem C78_pending_partial : forall tasks ord ordt d s0 fuel h s,
  pipe_run tasks ord ordt d s0 fuel h s -> inverse tasks ord ordt d -> no_lonely tasks ord ordt d -> fuel_ok tasks fuel ->
  apart_failures tasks ord ordt d h ->
  forall t, card (fun b => pipe_block tasks b /\ b_task b = t /\ waits (dg_up ord ordt d) (dg_max_retries d) h b)
                 (ts_pending (s_st s t)).
Proof.
  intros tasks ord ordt d s0 fuel h s R IV NL FO F t.
  pose proof (C22_ready_partial _ _ _ _ _ _ _ _ R IV NL FO t) as Cr.
  pose proof (C22_counters_partial _ _ _ _ _ _ _ _ R IV FO) as CC. destruct (CC t) as [Cp [_ [_ [_ Ct]]]].
  pose proof (run_good _ _ _ _ _ _ _ _ R IV) as GG. pose proof (run_enough _ _ _ _ _ _ _ _ R FO) as EN.
  pose proof (run_fresh _ _ _ _ _ _ _ _ R) as FR. pose proof (pr_reach _ _ _ _ _ _ _ _ R) as RR.
  pose proof (apart_low _ _ _ _ _ _ _ _ R F) as T. pose proof (run_in _ _ _ _ _ _ _ _ R) as RI.
  pose proof (settled_card _ _ _ _ _ _ GG EN _ FR h s RR T t) as Cs.
  pose proof (hi_inv _ _ _ _ _ _ _ _ (reach_HInv _ _ _ _ _ _ GG EN _ FR h s RR)) as I.
  pose proof (held_norph' _ _ _ _ _ _ GG EN _ FR h s RR) as HO. pose proof (ran_norph _ _ _ _ _ _ GG EN _ FR h s RR) as RO.
  set (up := dg_up ord ordt d) in *. set (maxr := dg_max_retries d) in *.
  assert (IH : forall b, held h b -> (forall a, In a (up b) -> succeeded h a) /\ ~ succeeded h b /\ ~ perm_failed maxr h b).
  { intros b Hb. destruct (i_held _ _ _ _ _ _ _ _ _ I b Hb) as [_ [U [A B]]]. auto. }
  assert (IS : forall b, succeeded h b -> forall a, In a (up b) -> succeeded h a).
  { intros b Hb. apply (i_S _ _ _ _ _ _ _ _ _ I b Hb). }
  assert (IF : forall b, perm_failed maxr h b -> forall a, In a (up b) -> succeeded h a).
  { intros b Hb. apply (i_F _ _ _ _ _ _ _ _ _ I b Hb). }
  assert (SD : forall a, succeeded h a \/ ~ succeeded h a).
  { intros a. destruct (CC (b_task a)) as [_ [[l [_ [Hl _]]] _]].
    destruct (in_dec block_dec a l) as [K|K]; rewrite Hl in K; tauto. }
  assert (ED : forall l, (forall a, In a l -> succeeded h a) \/ exists a, In a l /\ ~ succeeded h a).
  { induction l as [|a l [A|[x [A B]]]]; [left; intros a []| |right; exists x; split; auto; right; auto].
    destruct (SD a) as [K|K]; [left; intros x [<-|X]; auto|right; exists a; split; auto; left; auto]. }
  assert (C1 : card (fun b => (In b (pblocks d) /\ b_task b = t /\ settled up maxr h b) \/ held h b /\ b_task b = t)
    (ts_completed (s_st s t) + ts_failed (s_st s t) + ts_orphaned (s_st s t) + ts_processing (s_st s t))).
  { apply (card_union _ _ _ _ _ Cs Cp); [|tauto].
    intros x [_ [_ [S|[Fx|O]]]] [Hx _]; [destruct (IH x Hx) as [_ [A _]]; exact (A S)|destruct (IH x Hx) as [_ [_ A]]; exact (A Fx)|exact (HO x Hx O)]. }
  pose (P := fun b => ((In b (pblocks d) /\ b_task b = t /\ settled up maxr h b) \/ held h b /\ b_task b = t) \/
      pipe_block tasks b /\ b_task b = t /\ (forall a, In a (up b) -> succeeded h a) /\ ~ held h b /\ ~ succeeded h b /\ ~ perm_failed maxr h b).
  assert (C2 : card P
    (ts_completed (s_st s t) + ts_failed (s_st s t) + ts_orphaned (s_st s t) + ts_processing (s_st s t) + ts_ready (s_st s t))).
  { apply (card_union _ _ _ _ _ C1 Cr); [|unfold P; tauto].
    intros x Hx [Vx [_ [U [NH [NS NF]]]]]. destruct Hx as [[_ [_ [S|[Fx|O]]]]|[Hx _]]; try tauto.
    apply RI in Vx. apply (RO x Vx U O). }
  pose proof (card_diff _ _ _ _ C2 Ct) as D.
  assert (E : ts_pending (s_st s t) = ts_total (s_st s t) -
    (ts_completed (s_st s t) + ts_failed (s_st s t) + ts_orphaned (s_st s t) + ts_processing (s_st s t) + ts_ready (s_st s t)))
    by (unfold ts_pending; lia).
  rewrite E. clear E. refine (card_ext _ _ _ (D _) _); clear D.
  { unfold P. intros x [[[Vx [Ex _]]|[Hx Ex]]|[Vx [Ex _]]]; split; auto; apply RI; auto.
    apply (i_held _ _ _ _ _ _ _ _ _ I x Hx). }
  intros b. unfold P, waits. split.
  - intros [[Vb Eb] NP]. split; auto. split; auto. split.
    + destruct (ED (up b)) as [A|A]; auto. exfalso. apply NP. destruct (SD b) as [K|K].
      { left. left. split; [apply RI; auto|]. split; auto. left. auto. }
      assert (HD : held h b \/ ~ held h b) by (unfold held; lia). destruct HD as [HD|HD]; [left; right; auto|].
      right. repeat (split; auto). intros Fb. apply NP. left. left. split; [apply RI; auto|]. split; auto. right. left. auto.
    + intros O. apply NP. left. left. split; [apply RI; auto|]. split; auto. right. right. auto.
  - intros [Vb [Eb [[a [Ha Na]] NO]]]. split; auto. intros [[[_ [_ [S|[Fb|O]]]]|[Hb _]]|[_ [_ [U _]]]]; auto.
    + apply Na, (IS b S a Ha).
    + apply Na, (IF b Fb a Ha).
    + apply Na, (proj1 (IH b Hb) a Ha).
Qed.
Print Assumptions C78_pending_partial.

(* ---- the text ---- *)
Fixpoint has_nl (s : string) : bool :=
  match s with EmptyString => false | String c r => Ascii.eqb c (ascii_of_nat 10) || has_nl r end.
Lemma nl_split v : forall v' r r', has_nl v = false -> has_nl v' = false ->
  (v ++ newline ++ r)%string = (v' ++ newline ++ r')%string -> v = v' /\ r = r'.
Proof.
  induction v as [|c v IH]; intros [|c' v'] r r' N N' E; cbn in *.
  - injection E as ->. auto.
  - injection E as <- _. discriminate.
  - injection E as -> _. discriminate.
  - injection E as <- E. apply Bool.orb_false_elim in N. apply Bool.orb_false_elim in N'.
    destruct (IH v' r r') as [-> ->]; tauto.
Qed.
Lemma int_nl n : has_nl (str_int n) = false.
Proof.
  unfold str_int. assert (H : forall u, has_nl (NilEmpty.string_of_uint u) = false) by (induction u; cbn; auto).
  destruct (Z.to_int n) as [u|u]; destruct u; cbn; auto.
Qed.
Lemma bool_nl b : has_nl (str_bool b) = false.
Proof. destruct b; reflexivity. Qed.
Lemma int_inj n m : str_int n = str_int m -> n = m.
Proof.
  unfold str_int. intros E.
  assert (P : forall k, Z.to_int k <> Decimal.Pos Decimal.Nil /\ Z.to_int k <> Decimal.Neg Decimal.Nil).
  { intros k. pose proof (DecimalZ.of_to k) as O. split; intros X; rewrite X in O; cbn in O; subst k; discriminate. }
  pose proof (NilZero.isi (Z.to_int n) (proj1 (P n)) (proj2 (P n))) as A.
  pose proof (NilZero.isi (Z.to_int m) (proj1 (P m)) (proj2 (P m))) as B.
  rewrite E in A. rewrite A in B. injection B as B. rewrite <- (DecimalZ.of_to n), <- (DecimalZ.of_to m), B. auto.
Qed.
Lemma app_assoc_s (a b c : string) : ((a ++ b) ++ c)%string = (a ++ b ++ c)%string.
Proof. induction a as [|x a IH]; cbn; auto. rewrite IH. auto. Qed.
Lemma app_cancel (a b c : string) : (a ++ b)%string = (a ++ c)%string -> b = c.
Proof. induction a as [|x a IH]; cbn; auto. intros E. injection E as E. auto. Qed.
Lemma line_split x v w r r' : has_nl v = false -> has_nl w = false ->
  (line x v ++ r)%string = (line x w ++ r')%string -> v = w /\ r = r'.
Proof.
  intros Nv Nw E. unfold line in E. rewrite !app_assoc_s in E. apply app_cancel in E. cbn [append] in E. injection E as E.
  apply nl_split; auto.
Qed.
(* C78, text: what is printed for a task state tells every number and the flag: two task states with the same text are
   the same. *)
Theorem C78_text : forall a b, tstate_str a = tstate_str b -> a = b.
Proof.
  intros [a1 a2 a3 a4 a5 a6 a7 a8] [b1 b2 b3 b4 b5 b6 b7 b8] E. unfold tstate_str in E.
  set (pa := ts_pending _) in E. set (pb := ts_pending (TState b1 _ _ _ _ _ _ _)) in E.
  cbn [ts_started ts_total ts_ready ts_processing ts_completed ts_skipped ts_failed ts_orphaned] in E. clearbody pa pb.
  apply line_split in E; auto using bool_nl. destruct E as [E1 E]. 
  apply line_split in E; auto using int_nl. destruct E as [E2 E]. 
  apply line_split in E; auto using int_nl. destruct E as [E3 E]. 
  apply line_split in E; auto using int_nl. destruct E as [E4 E]. 
  apply line_split in E; auto using int_nl. destruct E as [_ E]. 
  apply line_split in E; auto using int_nl. destruct E as [E5 E]. 
  apply line_split in E; auto using int_nl. destruct E as [E6 E]. 
  apply line_split in E; auto using int_nl. destruct E as [E7 E]. 
  assert (X : (line "Orphaned" (str_int a8) ++ "")%string = (line "Orphaned" (str_int b8) ++ "")%string) by (rewrite E; auto).
  apply line_split in X; auto using int_nl. destruct X as [E8 _].
  apply int_inj in E2, E3, E4, E5, E6, E7, E8. subst. f_equal.
  destruct a1, b1; auto; discriminate.
Qed.
Print Assumptions C78_text.

(* C78, progress bar: of the five numbers behind the bar of a task the first is the number of its blocks that wait, then
   come those of blocks in flight, succeeded, failed for good and orphaned; together with the ready ones these are all. *)
Theorem C78_postfix_partial : forall tasks ord ordt d s0 fuel h s,
  pipe_run tasks ord ordt d s0 fuel h s -> inverse tasks ord ordt d -> no_lonely tasks ord ordt d -> fuel_ok tasks fuel ->
  apart_failures tasks ord ordt d h ->
  forall t, exists p q c f o, postfix (s_st s t) = [p; q; c; f; o] /\
    let up := dg_up ord ordt d in let maxr := dg_max_retries d in
    let of (P : block -> Prop) b := pipe_block tasks b /\ b_task b = t /\ P b in
    card (of (waits up maxr h)) p /\ card (of (held h)) q /\ card (of (succeeded h)) c /\
    card (of (perm_failed maxr h)) f /\ card (of (orphan up maxr h)) o /\
    exists r n, card (of (fun b => (forall a, In a (up b) -> succeeded h a) /\ ~ held h b /\ ~ succeeded h b /\ ~ perm_failed maxr h b)) r /\
      card (of (fun _ => True)) n /\ p + q + c + f + o + r = n.
Proof.
  intros tasks ord ordt d s0 fuel h s R IV NL FO F t. unfold postfix. eexists _, _, _, _, _. split; [reflexivity|]. cbv zeta.
  pose proof (C22_ready_partial _ _ _ _ _ _ _ _ R IV NL FO t) as Cr.
  destruct (C22_counters_partial _ _ _ _ _ _ _ _ R IV FO t) as [Cp [Cc [Cf [_ Ct]]]].
  pose proof (hi_inv _ _ _ _ _ _ _ _ (reach_HInv _ _ _ _ _ _ (run_good _ _ _ _ _ _ _ _ R IV) (run_enough _ _ _ _ _ _ _ _ R FO)
    _ (run_fresh _ _ _ _ _ _ _ _ R) h s (pr_reach _ _ _ _ _ _ _ _ R))) as I.
  pose proof (run_in _ _ _ _ _ _ _ _ R) as RI.
  split; [apply (C78_pending_partial _ _ _ _ _ _ _ _ R IV NL FO F)|].
  split; [apply (card_ext _ _ _ Cp); intros b; split; [intros [H E]; split; auto; apply RI, (i_held _ _ _ _ _ _ _ _ _ I b H)|tauto]|].
  split; [apply (card_ext _ _ _ Cc); intros b; split; [intros [H E]; split; auto; apply RI, (i_S _ _ _ _ _ _ _ _ _ I b H)|tauto]|].
  split; [apply (card_ext _ _ _ Cf); intros b; split; [intros [H E]; split; auto; apply RI, (i_F _ _ _ _ _ _ _ _ _ I b H)|tauto]|].
  split; [apply (C21_orphans_counted_partial _ _ _ _ _ _ _ _ R IV FO F)|].
  eexists _, _. split; [exact Cr|]. split; [apply (card_ext _ _ _ Ct); tauto|]. unfold ts_pending. lia.
Qed.
Print Assumptions C78_postfix_partial.

(* A square of sixteen blocks: the first four blocks succeeded, of the next four two succeeded and one failed for good.  The
   text of the task state, and the hypotheses of the theorems. *)
Definition st_calls : list call :=
  acq 1 4 ++ rel 1 SUCCESS [sq 2 2; sq 2 4; sq 4 2; sq 4 4] ++ acq 1 4 ++ rel 1 FAILED [sq 4 3] ++ rel 1 SUCCESS [sq 2 3; sq 2 1].
Definition st_text : string :=
  ("Started: True" ++ newline ++ "Total Blocks: 16" ++ newline ++ "Ready: 2" ++ newline ++ "Processing: 1" ++ newline ++
   "Pending: 2" ++ newline ++ "Completed: 6" ++ newline ++ "Skipped: 0" ++ newline ++ "Failed: 1" ++ newline ++
   "Orphaned: 4" ++ newline)%string.
Example C78_example : exists d s0 h s, pipe_run [ce_sq] idl idl d s0 400 h s /\
  inverse [ce_sq] idl idl d /\ no_lonely [ce_sq] idl idl d /\ fuel_ok [ce_sq] 400 /\ apart_failures [ce_sq] idl idl d h /\
  tstate_str (s_st s 1) = st_text /\ postfix (s_st s 1) = [2; 1; 6; 1; 4].
Proof.
  destruct (run_ce [ce_sq] 400 st_calls (fun d h s => P_ServerCE.enough_b d 400 && Nat.eqb (length (failed_in h)) 1 &&
    String.eqb (tstate_str (s_st s 1)) st_text && if list_eq_dec Z.eq_dec (postfix (s_st s 1)) [2; 1; 6; 1; 4] then true else false) ce_sq_ok)
    as [d [s0 [h [s [R E]]]]].
  { vm_compute. reflexivity. }
  apply andb_prop in E. destruct E as [E E4]. apply andb_prop in E. destruct E as [E E3]. apply andb_prop in E. destruct E as [E1 E2].
  exists d, s0, h, s. split; auto.
  destruct (independent_tasks_ok _ _ _ _ _ _ _ _ R) as [IV NL]; [intros t [<-|[]]; reflexivity|]. split; auto. split; auto.
  split; [apply (P_ServerCE.enough_b_ok _ _ _ _ ce_sq_ok (pr_init _ _ _ _ _ _ _ _ R) E1)|].
  split; [|split; [apply String.eqb_eq; auto|destruct (list_eq_dec _ _ _); [auto|discriminate]]].
  apply one_apart. intros a b A B. apply failed_in_ok in A, B. apply Nat.eqb_eq in E2.
  destruct (failed_in h) as [|x [|y l]]; try discriminate. destruct A as [<-|[]], B as [<-|[]]. auto.
Qed.
(* Without the last hypothesis of the theorems the bar shows a negative number of blocks that wait. *)
Theorem C78_negative_refuted : exists d s0 h s, pipe_run [ce_sq] idl idl d s0 400 h s /\
  inverse [ce_sq] idl idl d /\ no_lonely [ce_sq] idl idl d /\ postfix (s_st s 1) = [-1; 0; 8; 2; 5].
Proof.
  destruct (run_ce [ce_sq] 400 ce_twice (fun d h s => if list_eq_dec Z.eq_dec (postfix (s_st s 1)) [-1; 0; 8; 2; 5] then true else false) ce_sq_ok)
    as [d [s0 [h [s [R E]]]]].
  { vm_compute. reflexivity. }
  exists d, s0, h, s. split; auto.
  destruct (independent_tasks_ok _ _ _ _ _ _ _ _ R) as [IV NL]; [intros t [<-|[]]; reflexivity|]. split; auto. split; auto.
  destruct (list_eq_dec _ _ _); [auto|discriminate].
Qed.
Print Assumptions C78_negative_refuted.

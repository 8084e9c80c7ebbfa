(* C101: what attempts that run on after their block was given up cannot reach. *)
From Coq Require Import Arith Lia Permutation.
From Verif Require Import SchedProps SchedExec DGFacts2 PipeRun P_SchedCE P_Sched SerialFacts P_Conv P_Serial P_ServerCE P_WholeOwnEx.
From Verif Require Import Store StoreFacts P_Store P_StoreEx P_StoreSerial P_StoreLate.
Open Scope Z_scope.

(* b was released as failed, or comes after a block that was *)
Definition touched (up : block -> list block) (h : history) (b : block) : Prop :=
  exists a, In (EvRel (PB a FAILED)) h /\ (a = b \/ ancestor up a b).

Section Reach.
  Variables (tasks : list task) (ord : list block -> list block) (ordt : list nat -> list nat) (d : dgraph) (s0 : sched) (fuel : nat).
  Local Notation up := (dg_up ord ordt d).
  Local Notation pipe_run := (pipe_run tasks ord ordt d s0 fuel).
  Hypothesis IV : inverse tasks ord ordt d.
  Hypothesis FO : fuel_ok tasks fuel.
  Variable V : Type.
  Variable code : block -> prog V.
  Hypothesis KEEP : forall b, pipe_block tasks b -> keeps (may_read tasks b) (may_write b) (code b).
  Variable m0 : store V.
  Variables (h : history) (s : sched).
  Hypothesis PR : pipe_run h s.
  Hypothesis NSK : forall b, touched up h b -> ~ In (EvSkip b) h.
  Local Notation D := (touched up h).

  Lemma take h2 e b h1 : h = h2 ++ e :: h1 -> takes e b -> pipe_block tasks b /\ (forall a, In a (up b) -> ended h1 a) /\ ~ ended h1 b /\ n_handed h1 b = n_released h1 b.
  Proof.
    intros E T. destruct (L14 _ _ _ _ _ _ _ _ PR _ _ _ _ E T) as [L1 L2]. destruct (L16b _ _ _ _ _ _ _ _ PR IV FO _ _ _ _ E T) as [L4 L3].
    split; [exact L1|]. split; [exact L2|]. split; [exact L3|]. assert (E' : h = (h2 ++ [e]) ++ h1) by (rewrite <- app_assoc; exact E).
    destruct (counts_app _ _ _ _ _ _ (run_good _ _ _ _ _ _ _ _ PR IV) (run_enough _ _ _ _ _ _ _ _ PR FO) _ (run_fresh _ _ _ _ _ _ _ _ PR) _ _ (pr_reach _ _ _ _ _ _ _ _ PR) _ _ E' b) as [K _]. unfold held in L4. lia.
  Qed.
  Lemma rw b c : may_read tasks b c -> ~ may_write b c.
  Proof. intros [_ [X _]]. exact X. Qed.
  Lemma touched_after a b : ancestor up a b -> D a -> D b.
  Proof. intros A [x [F [<-|B]]]; exists x; split; auto. right. eapply P_Sched.anc_trans; eauto. Qed.
  Local Notation inv := (minv V code m0 (may_read tasks) may_write).
  Lemma inv_run h1 m r : mrun code m0 h1 m r -> forall h2, h = h2 ++ h1 -> inv h1 m r.
  Proof. exact (minv_run V code m0 up (pipe_block tasks) (may_read tasks) may_write rw KEEP (cells_ordered tasks ord ordt d s0 fuel h s PR) (cells_apart tasks ord ordt d s0 fuel h s PR) h take h1 m r). Qed.
  Lemma handed_in h2 h1 a : h = h2 ++ h1 -> handed_out h1 a -> pipe_block tasks a.
  Proof. intros E H. eapply (out_in _ _ _ take); [exact E|left; exact H]. Qed.

  (* cells that blocks touched by a failure may have written *)
  Definition dirty (h1 : history) (c : cell) : Prop := exists a, handed_out h1 a /\ D a /\ may_write a c.
  Lemma handed_cons e h1 a : handed_out h1 a -> handed_out (e :: h1) a.
  Proof. intros [t [st H]]. exists t, st. right. exact H. Qed.
  Lemma dirty_cons e h1 c : dirty h1 c -> dirty (e :: h1) c.
  Proof. intros [a [H [H1 H2]]]. exists a. split; [apply handed_cons; exact H|auto]. Qed.
  (* a body that reads such a cell is touched itself *)
  Lemma reads_dirty h2 h1 b c : h = h2 ++ h1 -> (forall b, ended h1 b -> out h1 b) -> pipe_block tasks b -> ~ ended h1 b -> may_read tasks b c -> dirty h1 c -> D b.
  Proof.
    intros E EO Pb Ne Rb [a [Ha [Da Wa]]]. destruct (block_dec a b) as [->|N]; [exact Da|].
    destruct (cells_ordered tasks ord ordt d s0 fuel h s PR a b c (handed_in _ _ _ E Ha) Pb N Rb Wa) as [A|A]; [eapply touched_after; eauto|].
    exfalso. apply Ne. eapply (out_anc _ _ _ take); [exact E|exact EO|exact A|left; exact Ha].
  Qed.
  Record sim (h1 : history) (m : store V) (r : block -> option (prog V)) (late : list (prog V)) (m' : store V) (r' : block -> option (prog V)) : Prop := {
    si_run : mrun code m0 h1 m' r';
    si_cell : forall c, m c = m' c \/ dirty h1 c;
    si_body : forall b p, r b = Some p -> keeps (may_read tasks b) (may_write b) p /\ exists p', r' b = Some p' /\ (D b \/ p' = p);
    si_late : forall p, In p late -> exists a, handed_out h1 a /\ D a /\ keeps (may_read tasks a) (may_write a) p
  }.
  Lemma sim_body_none h1 m r late m' r' b e : sim h1 m r late m' r' -> mrun code m0 (e :: h1) m' (body r' b None) -> sim (e :: h1) m (body r b None) late m' (body r' b None).
  Proof.
    intros S Q. constructor; [exact Q| | |].
    - intros c. destruct (si_cell _ _ _ _ _ _ S c) as [H|H]; [left; exact H|right; apply dirty_cons; exact H].
    - intros a p H. rewrite body_at in *. destruct (block_dec a b); [discriminate H|]. apply (si_body _ _ _ _ _ _ S). exact H.
    - intros p H. destruct (si_late _ _ _ _ _ _ S p H) as [a [H1 H2]]. exists a. split; [apply handed_cons; exact H1|exact H2].
  Qed.
  Lemma late_in (l1 l2 : list (prog V)) (p q x : prog V) : In x (l1 ++ q :: l2) -> x = q \/ In x (l1 ++ p :: l2).
  Proof. intros H. apply in_app_or in H. destruct H as [H|[H|H]]; [right; apply in_or_app; auto|left; auto|right; apply in_or_app; right; right; exact H]. Qed.

  Lemma zrun_sim h1 m r late : zrun V code m0 h1 m r late -> forall h2, h = h2 ++ h1 -> exists m' r', sim h1 m r late m' r'.
  Proof.
    intros Q. induction Q as [|h1 m r late t pb Q IH|h1 m r late b Q IH Hs|h1 m r late t Q IH|h1 m r late b Q IH E|h1 m r late b Q IH|h1 m r late b p Q IH E|h1 m r late b c k Q IH E|h1 m r late b c v k Q IH E|h1 m r l1 l2 c k Q IH|h1 m r l1 l2 c v k Q IH]; intros h2 Eh.
    - exists m0, (fun _ => None). constructor; [constructor|auto|discriminate|intros p []].
    - destruct (IH (h2 ++ [EvHand t pb])) as [m' [r' S]]; [rewrite <- app_assoc; exact Eh|]. destruct (take _ _ (pb_block pb) _ Eh) as [Pb _]; [reflexivity|].
      exists m', (body r' (pb_block pb) (Some (code (pb_block pb)))). constructor.
      + apply mr_hand. apply S.
      + intros c. destruct (si_cell _ _ _ _ _ _ S c) as [H|H]; [left; exact H|right; apply dirty_cons; exact H].
      + intros a p H. rewrite body_at in *. destruct (block_dec a (pb_block pb)) as [->|]; [injection H as <-; split; [apply KEEP; exact Pb|eexists; split; [reflexivity|right; reflexivity]]|]. apply (si_body _ _ _ _ _ _ S). exact H.
      + intros p H. destruct (si_late _ _ _ _ _ _ S p H) as [a [H1 H2]]. exists a. split; [apply handed_cons; exact H1|exact H2].
    - destruct (IH (h2 ++ [EvSkip b])) as [m' [r' S]]; [rewrite <- app_assoc; exact Eh|]. destruct (take _ _ b _ Eh) as [Pb [_ [Ne _]]]; [reflexivity|].
      assert (Nd : ~ D b) by (intros X; apply (NSK b X); rewrite Eh; apply in_or_app; right; left; reflexivity).
      assert (E1 : h = (h2 ++ [EvSkip b]) ++ h1) by (rewrite <- app_assoc; exact Eh). pose proof (inv_run _ _ _ (si_run _ _ _ _ _ _ S) _ E1) as I.
      assert (RE : forall c, may_read tasks b c -> m c = m' c).
      { intros c Rc. destruct (si_cell _ _ _ _ _ _ S c) as [H|H]; [exact H|]. exfalso. apply Nd. eapply reads_dirty; eauto. apply (mi_ended _ _ _ _ _ _ _ _ I). }
      exists m', r'. constructor.
      + apply mr_skip; [apply S|]. intros c. destruct (si_cell _ _ _ _ _ _ S c) as [H|[a [Ha [Da Wa]]]].
        * rewrite <- H, <- (exec_ext V (may_read tasks b) (may_write b) (rw b) (code b) m m' c (KEEP b Pb) RE H). apply Hs.
        * apply (exec_out V (may_read tasks b) (may_write b) (rw b)); [apply KEEP; exact Pb|]. intros Wb. assert (N : a <> b) by (intros ->; exact (Nd Da)).
          eapply (cells_apart tasks ord ordt d s0 fuel h s PR a b c); eauto. eapply handed_in; eauto.
      + intros c. destruct (si_cell _ _ _ _ _ _ S c) as [H|H]; [left; exact H|right; apply dirty_cons; exact H].
      + apply (si_body _ _ _ _ _ _ S).
      + intros p H. destruct (si_late _ _ _ _ _ _ S p H) as [a [H1 H2]]. exists a. split; [apply handed_cons; exact H1|exact H2].
    - destruct (IH (h2 ++ [EvNone t])) as [m' [r' S]]; [rewrite <- app_assoc; exact Eh|]. exists m', r'. constructor.
      + apply mr_none. apply S.
      + intros c. destruct (si_cell _ _ _ _ _ _ S c) as [H|H]; [left; exact H|right; apply dirty_cons; exact H].
      + apply (si_body _ _ _ _ _ _ S).
      + intros p H. destruct (si_late _ _ _ _ _ _ S p H) as [a [H1 H2]]. exists a. split; [apply handed_cons; exact H1|exact H2].
    - destruct (IH (h2 ++ [EvRel (PB b SUCCESS)])) as [m' [r' S]]; [rewrite <- app_assoc; exact Eh|]. assert (E1 : h = (h2 ++ [EvRel (PB b SUCCESS)]) ++ h1) by (rewrite <- app_assoc; exact Eh).
      destruct (si_body _ _ _ _ _ _ S _ _ E) as [_ [p' [Ep [Db| ->]]]].
      + pose proof (inv_run _ _ _ (si_run _ _ _ _ _ _ S) _ E1) as I. destruct (mi_run _ _ _ _ _ _ _ _ I _ _ Ep) as [Ho _]. destruct (mi_body _ _ _ _ _ _ _ _ I _ _ Ep) as [Kp _].
        destruct (run_all V code m0 b h1 p' m' r' (si_run _ _ _ _ _ _ S) Ep) as [r'' [Q' [B O]]].
        assert (S' : sim h1 m r late (Store.exec p' m') r'').
        { constructor; [exact Q'| | |apply (si_late _ _ _ _ _ _ S)].
          - intros c. rewrite (exec_trace V (may_read tasks b) (may_write b) (rw b) p' m' Kp). destruct (in_dec cell_dec c (map fst (trace V m' p'))) as [X|X].
            + right. exists b. split; [exact Ho|]. split; [exact Db|]. eapply trace_writes; eauto.
            + rewrite wr_out by exact X. apply (si_cell _ _ _ _ _ _ S).
          - intros a p Ha. destruct (si_body _ _ _ _ _ _ S _ _ Ha) as [K [q [Eq H]]]. split; [exact K|]. destruct (block_dec a b) as [->|N]; [exists Done; auto|]. exists q. rewrite (O a N). auto. }
        exists (Store.exec p' m'), (body r'' b None). apply sim_body_none; [exact S'|]. apply mr_success; auto.
      + exists m', (body r' b None). apply sim_body_none; [exact S|]. apply mr_success; auto. apply S.
    - destruct (IH (h2 ++ [EvRel (PB b FAILED)])) as [m' [r' S]]; [rewrite <- app_assoc; exact Eh|]. exists m', (body r' b None). apply sim_body_none; [exact S|]. apply mr_failed. apply S.
    - destruct (IH (h2 ++ [EvRel (PB b FAILED)])) as [m' [r' S]]; [rewrite <- app_assoc; exact Eh|]. assert (E1 : h = (h2 ++ [EvRel (PB b FAILED)]) ++ h1) by (rewrite <- app_assoc; exact Eh).
      destruct (si_body _ _ _ _ _ _ S _ _ E) as [Kp [p' [Ep _]]]. pose proof (inv_run _ _ _ (si_run _ _ _ _ _ _ S) _ E1) as I. destruct (mi_run _ _ _ _ _ _ _ _ I _ _ Ep) as [Ho _].
      exists m', (body r' b None). assert (S' : sim (EvRel (PB b FAILED) :: h1) m (body r b None) late m' (body r' b None)) by (apply sim_body_none; [exact S|]; apply mr_failed; apply S).
      constructor; try apply S'. intros q [<-|Hq]; [|apply S'; exact Hq]. exists b. split; [apply handed_cons; exact Ho|]. split; [|exact Kp]. exists b. split; [rewrite Eh; apply in_or_app; right; left; reflexivity|auto].
    - destruct (IH h2 Eh) as [m' [r' S]]. pose proof (inv_run _ _ _ (si_run _ _ _ _ _ _ S) _ Eh) as I. destruct (si_body _ _ _ _ _ _ S _ _ E) as [[Rc Kk] [p' [Ep H]]].
      destruct (mi_run _ _ _ _ _ _ _ _ I _ _ Ep) as [Ho Ne].
      assert (G : D b \/ p' = Get c k /\ m c = m' c).
      { destruct H as [H|H]; [left; exact H|]. destruct (si_cell _ _ _ _ _ _ S c) as [X|X]; [right; auto|]. left. eapply reads_dirty; eauto; [apply (mi_ended _ _ _ _ _ _ _ _ I)|eapply handed_in; eauto]. }
      destruct G as [Db|[-> Ec]].
      + exists m', r'. constructor; try apply S. intros a p Ha. rewrite body_at in Ha. destruct (block_dec a b) as [->|]; [injection Ha as <-; split; [apply Kk|exists p'; split; [exact Ep|left; exact Db]]|]. apply (si_body _ _ _ _ _ _ S). exact Ha.
      + exists m', (body r' b (Some (k (m' c)))). constructor; [apply mr_get; [apply S|exact Ep]|apply S| |apply S]. intros a p Ha. rewrite body_at in *.
        destruct (block_dec a b) as [->|]; [injection Ha as <-; split; [apply Kk|]; exists (k (m' c)); split; [reflexivity|right; congruence]|]. apply (si_body _ _ _ _ _ _ S). exact Ha.
    - destruct (IH h2 Eh) as [m' [r' S]]. pose proof (inv_run _ _ _ (si_run _ _ _ _ _ _ S) _ Eh) as I. destruct (si_body _ _ _ _ _ _ S _ _ E) as [[Wc Kk] [p' [Ep H]]].
      destruct (mi_run _ _ _ _ _ _ _ _ I _ _ Ep) as [Ho Ne]. destruct H as [Db| ->].
      + exists m', r'. constructor; try apply S.
        * intros e. unfold Store.put. destruct (cell_dec e c) as [->|]; [right; exists b; auto|apply S].
        * intros a p Ha. rewrite body_at in Ha. destruct (block_dec a b) as [->|]; [injection Ha as <-; split; [exact Kk|exists p'; split; [exact Ep|left; exact Db]]|]. apply (si_body _ _ _ _ _ _ S). exact Ha.
      + exists (Store.put m' c v), (body r' b (Some k)). constructor; [apply mr_put; [apply S|exact Ep]| | |apply S].
        * intros e. unfold Store.put. destruct (cell_dec e c); [left; reflexivity|apply S].
        * intros a p Ha. rewrite body_at in *. destruct (block_dec a b) as [->|]; [injection Ha as <-; split; [exact Kk|exists k; split; [reflexivity|right; reflexivity]]|]. apply (si_body _ _ _ _ _ _ S). exact Ha.
    - destruct (IH h2 Eh) as [m' [r' S]]. exists m', r'. constructor; try apply S. intros x Hx. apply (late_in l1 l2 (Get c k)) in Hx. destruct Hx as [->|Hx]; [|apply S; exact Hx].
      destruct (si_late _ _ _ _ _ _ S (Get c k)) as [a [H1 [H2 [_ H3]]]]; [apply in_or_app; right; left; reflexivity|]. exists a. auto.
    - destruct (IH h2 Eh) as [m' [r' S]]. destruct (si_late _ _ _ _ _ _ S (Put c v k)) as [a [H1 [H2 [H3 H4]]]]; [apply in_or_app; right; left; reflexivity|]. exists m', r'. constructor; try apply S.
      + intros e. unfold Store.put. destruct (cell_dec e c) as [->|]; [right; exists a; auto|apply S].
      + intros x Hx. apply (late_in l1 l2 (Put c v k)) in Hx. destruct Hx as [->|Hx]; [|apply S; exact Hx]. exists a. auto.
  Qed.
End Reach.

(* Cells of blocks that succeeded and neither failed nor come after one that failed are as in a sequential run, whatever attempts that
   were given up do. *)
Theorem C101_out_of_reach : forall tasks ord ordt d s0 fuel V (code : block -> prog V) m0, inverse tasks ord ordt d -> fuel_ok tasks fuel ->
  (forall b, pipe_block tasks b -> keeps (may_read tasks b) (may_write b) (code b)) ->
  forall h s m r late, pipe_run tasks ord ordt d s0 fuel h s -> zrun V code m0 h m r late ->
  (forall b, touched (dg_up ord ordt d) h b -> ~ In (EvSkip b) h) ->
  forall c, (forall b, pipe_block tasks b -> may_write b c -> handed_out h b -> succeeded h b /\ ~ touched (dg_up ord ordt d) h b) ->
  m c = one_by_one code (finished h) m0 c.
Proof.
  intros tasks ord ordt d s0 fuel V code m0 IV FO KEEP h s m r late PR Q NSK c H.
  destruct (zrun_sim tasks ord ordt d s0 fuel IV FO V code KEEP m0 h s PR NSK h m r late Q [] eq_refl) as [m' [r' S]].
  destruct S as [Q' C _ _]. destruct (C c) as [->|[a [Ha [Da Wa]]]].
  - apply (C99_serial tasks ord ordt d s0 fuel IV FO V code KEEP m0 h s m' r' PR Q' c). intros b Hb W Ho. apply H; auto.
  - exfalso. apply (proj2 (H a (handed_in tasks ord ordt d s0 fuel IV FO h s PR [] h a eq_refl Ha) Wa Ha)). exact Da.
Qed.
Print Assumptions C101_out_of_reach.

(* The run of C101_late_refuted: the blocks of the first task and the last one of the second are out of reach. *)
Definition zr_safe (d : dgraph) : list block := filter (fun b => Nat.eqb (b_task b) 1 || bid_eqb (bid b) (2%nat, 3)) (pblocks d).
Definition zr_check (d : dgraph) (y : serial) : bool :=
  zz_check d y && match rel_failed (ss_h y) with [] => false | _ => true end && match skips_of (ss_h y) with [] => true | _ => false end &&
  forallb (fun b => negb (mem_b b (rel_failed (ss_h y))) && forallb (fun a => mem_b a (zr_safe d)) (dg_up idl idl d b)) (zr_safe d) &&
  forallb (fun b => implb (Nat.eqb (b_task b) 2 && (lo b <=? 6) && (6 <? lo b + 2)) (mem_b b (zr_safe d))) (pblocks d) &&
  existsb (fun b => Nat.eqb (b_task b) 2 && (lo b =? 6)) (zr_safe d) &&
  match zplay st_code (zz_moves (ss_h y)) ([], st_m0, fun _ => None, []) with Some (_, m, _, _) => m (2%nat, [6]) =? 8 | _ => false end.
Lemma zr_checked : match serial_of [ow_d; ow_u] 100 (fun _ => no_check) zz_fail 100 with Ok (d, s0, y) => zr_check d y | Err _ => false end = true.
Proof. vm_compute. reflexivity. Qed.
Lemma safe_untouched up h U : forallb (fun b => negb (mem_b b (rel_failed h)) && forallb (fun a => mem_b a U) (up b)) U = true -> forall b, In b U -> ~ touched up h b.
Proof.
  intros H b Hb [a [F A]]. rewrite forallb_forall in H.
  assert (G : In a U).
  { destruct A as [->|A]; [exact Hb|]. revert Hb. induction A as [b Ha|b c A IH Ha]; intros Hb; [|apply IH]; apply H, andb_prop in Hb; destruct Hb as [_ Hb]; rewrite forallb_forall in Hb; apply mem_b_true, Hb, Ha. }
  apply H, andb_prop in G. destruct G as [G _]. apply Bool.negb_true_iff in G. assert (X : In a (rel_failed h)) by (unfold rel_failed; apply in_flat_map; eexists; split; [exact F|left; reflexivity]).
  apply mem_b_true in X. congruence.
Qed.
Example C101_out_of_reach_example : exists d s0 h s m r b, pipe_run [ow_d; ow_u] idl idl d s0 100 h s /\ inverse [ow_d; ow_u] idl idl d /\ fuel_ok [ow_d; ow_u] 100 /\
  (forall b, pipe_block [ow_d; ow_u] b -> keeps (may_read [ow_d; ow_u] b) (may_write b) (st_code b)) /\
  zrun Z st_code st_m0 h m r [Done] /\ (exists a, touched (dg_up idl idl d) h a) /\ (forall a, touched (dg_up idl idl d) h a -> ~ In (EvSkip a) h) /\
  pipe_block [ow_d; ow_u] b /\ may_write b (2%nat, [6]) /\
  (forall b, pipe_block [ow_d; ow_u] b -> may_write b (2%nat, [6]) -> handed_out h b -> succeeded h b /\ ~ touched (dg_up idl idl d) h b) /\
  m (2%nat, [6]) = 8 /\ m (2%nat, [2]) = 84624.
Proof.
  destruct (serial_ce [ow_d; ow_u] 100 (fun _ => no_check) zz_fail 100 zr_check ow_ok zr_checked) as [d [s0 [y [E [_ [R H]]]]]]. unfold zr_check, zz_check in H. set (h := ss_h y) in *. clearbody h.
  apply andb_prop in H. destruct H as [H K7]. apply andb_prop in H. destruct H as [H K6]. apply andb_prop in H. destruct H as [H K5]. apply andb_prop in H. destruct H as [H K4]. apply andb_prop in H. destruct H as [H K3]. apply andb_prop in H. destruct H as [H K2].
  apply andb_prop in H. destruct H as [H H6]. apply andb_prop in H. destruct H as [H H5]. apply andb_prop in H. destruct H as [H H3]. apply andb_prop in H. destruct H as [H1 H2]. clear H5.
  rewrite forallb_forall in H2, H3, K5. pose proof (zz_events h) as He.
  destruct (zplay _ _ _) as [[[[h' m] r] late]|] eqn:E2; [|discriminate H6]. assert (Hl : late = [Done] /\ m (2%nat, [2]) = 84624) by (destruct late as [|[] [|]]; try discriminate H6; apply Z.eqb_eq in H6; auto). destruct Hl as [-> Hm].
  pose proof (zplay_h _ _ _ _ E2) as Eh. cbn [fst] in Eh. rewrite He, rev_involutive, app_nil_r in Eh. subst h'. apply Z.eqb_eq in K7.
  assert (Q : zrun Z st_code st_m0 h m r [Done]) by (apply (zplay_ok st_code st_m0 _ _ _ (zr_init Z st_code st_m0 : zruns st_code st_m0 ([], st_m0, fun _ => None, [])) E2)).
  pose proof (safe_untouched _ _ _ K4) as ST. pose proof (run_in _ _ _ _ _ _ _ _ R) as RI.
  assert (MW : forall b, In b (pblocks d) -> (may_write b (2%nat, [6]) <-> b_task b = 2%nat /\ lo b <= 6 < lo b + 2)).
  { intros b Hb. apply H2 in Hb. unfold st_form, roi_b in Hb. assert (W : b_write b = Roi [lo b] [2]).
    { apply Bool.orb_prop in Hb. destruct Hb as [Hb|Hb]; repeat (apply andb_prop in Hb; destruct Hb as [Hb ?]); destruct (roi_dec (b_write b) _) as [W|]; auto; discriminate. }
    unfold may_write. cbn [fst snd]. rewrite W, pt_one. split; intros [X Y]; split; auto. }
  apply existsb_exists in K6. destruct K6 as [b [Sb Lb]]. apply andb_prop in Lb. destruct Lb as [L1 L2]. apply Nat.eqb_eq in L1. apply Z.eqb_eq in L2. assert (Pb : In b (pblocks d)) by (apply filter_In in Sb; apply Sb).
  exists d, s0, h, (ss_s y), m, r, b. split; [exact R|]. split; [apply (run_dual _ _ _ _ _ _ _ _ R), ow_edges|].
  split; [eapply enough_b_ok; [apply ow_ok|apply (pr_init _ _ _ _ _ _ _ _ R)|exact H1]|]. split; [intros a Ha; apply st_keeps, H2, RI; exact Ha|]. split; [exact Q|].
  split. { destruct (rel_failed h) as [|a k] eqn:Er; [discriminate K2|]. exists a, a. split; [|auto]. assert (X : In a (rel_failed h)) by (rewrite Er; left; reflexivity). unfold rel_failed in X. apply in_flat_map in X.
    destruct X as [e [I X]]. destruct e as [|? ?|?|[a' []]]; try (destruct X; fail). destruct X as [<-|[]]. exact I. }
  split. { intros a _ X. destruct (skips_of h) as [|e k] eqn:Er; [|discriminate K3]. assert (Y : In a (skips_of h)) by (unfold skips_of; apply in_flat_map; eexists; split; [exact X|left; reflexivity]). rewrite Er in Y. destruct Y. }
  split; [apply RI; exact Pb|]. split; [apply MW; [exact Pb|]; split; [exact L1|lia]|].
  split; [|auto]. intros a Ha Wa _. apply RI in Ha. split; [apply succ_b_true, H3; exact Ha|]. apply ST. apply (MW a Ha) in Wa. destruct Wa as [W1 W2]. specialize (K5 a Ha).
  apply mem_b_true. destruct (mem_b a (zr_safe d)); [reflexivity|]. rewrite W1, (proj2 (Z.leb_le _ _) (proj1 W2)), (proj2 (Z.ltb_lt _ _) (proj2 W2)) in K5. discriminate K5.
Qed.
Print Assumptions C101_out_of_reach_example.

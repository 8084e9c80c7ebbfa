(* From the runs of a pipeline to the scheduler theorems. *)
From Coq Require Import Arith Lia Permutation.
From Verif Require Import VecFacts.
From Verif Require Export DGFacts2.
Open Scope Z_scope.

Section None.
  Variables (V : list block) (up down : block -> list block) (seeds : nat -> list block).
  Variable maxr : nat -> Z.
  Variable fuel : nat.
  Hypothesis GG : good_graph V up down seeds.
  Hypothesis EN : enough V fuel.
  Variable s0 : sched.
  Hypothesis FR : fresh V seeds s0.

  (* acquire_block returned None for the tasks ts, with nothing else happening in between *)
  Lemma none_tail ts : forall h0 h s, reach up down maxr fuel s0 h s -> h = map EvNone ts ++ h0 ->
    forall t, In t ts -> readyl s t = [].
  Proof.
    induction ts as [|t ts IH]; intros h0 h s R E x Hx; [destruct Hx|].
    destruct R as [|h s t' chk s' r sk R Ea|h s pick pb s' R Hh St Er]; [discriminate| |discriminate].
    cbn [map app] in E. destruct r as [pb|]; [discriminate|]. injection E as <- E.
    pose proof (reach_HInv V up down seeds maxr fuel GG EN s0 FR h s R) as HI.
    destruct (acquire_ok V up down seeds maxr fuel GG EN s0 chk t' h s HI) as [s1 [r1 [sk1 [Ea' [_ Hn]]]]].
    rewrite Ea' in Ea. injection Ea as -> -> ->. specialize (Hn eq_refl).
    destruct Hx as [<-|Hx]; auto.
    destruct ts as [|t2 ts]; [destruct Hx|].
    assert (sk = []).
    { destruct (rev (map EvSkip sk)) as [|e l] eqn:Er; cbn in E.
      - destruct sk as [|b sk]; auto. apply (f_equal (@length _)) in Er. rewrite rev_length, map_length in Er.
        discriminate.
      - injection E as -> _. assert (In (EvNone t2) (rev (map EvSkip sk))) by (rewrite Er; left; auto).
        apply in_rev, in_map_iff in H. destruct H as [b [H _]]. discriminate. }
    subst sk. cbn in E.
    destruct (none_empty V up down seeds maxr fuel GG EN s0 FR h s R t' chk s' Ea') as [_ ->].
    eapply (IH h0 h s); eauto.
  Qed.
End None.

(* With context in one dimension only, a block has at most two upstream blocks in its task. *)
Section TwoUp.
  Variables (n : nat) (t : task) (g : bgraph).
  Hypothesis bu : built n t g.
  Let wf : wf_graph g n := bu_wf n t g bu.
  Variable ord : list block -> list block.
  Hypothesis Hord : is_order ord.
  Variable j : nat.
  Hypothesis one : t_rwc t = true -> forall i, (i < n)%nat -> i <> j -> ctx_lo t i = 0 /\ ctx_hi t i = 0.

  Lemma NL_one k i : grid n g k -> (i < n)%nat -> i <> j -> NL g i = 1.
  Proof.
    intros Gk Hi Nj. destruct (NL_pos n g wf k i Gk Hi) as [P1 P2]. unfold NL in *.
    rewrite (bu_rwc n t g bu) in *. destruct (t_rwc t); auto.
    destruct (one eq_refl i Hi Nj) as [O1 O2]. rewrite (ctx_lo_eq n t g bu) in O1 by auto.
    rewrite (ctx_hi_eq n t g bu) in O2 by auto. rewrite O1, O2 in *.
    pose proof (wg_w g n wf i Hi). cbn [Z.max Z.compare] in *.
    rewrite (Z.div_small (0 + GridFacts.W g i - 1)) in * by lia. lia.
  Qed.
  Lemma up_two b l : generated g b -> upstream ord g b = Ok l -> (length l <= 2)%nat.
  Proof.
    rewrite (generated_iff n t g bu). intros [k [Gk ->]] El.
    destruct (upstream_spec n g wf ord Hord k Gk) as [l' [El' [Nl Hl]]]. rewrite El' in El. injection El as ->.
    assert (C : forall kx ky, up_idx n g k kx -> up_idx n g k ky -> kx <> ky ->
       kx@j - ky@j = NL g j \/ kx@j - ky@j = - NL g j).
    { intros kx ky [Gx [Nx Lx]] [Gy [Ny Ly]] Nxy.
      assert (Q : forall i, (i < n)%nat -> i <> j -> kx@i = ky@i).
      { intros i Hi Nj. specialize (Nx i Hi). specialize (Ny i Hi). rewrite (NL_one k i Gk Hi Nj) in *. lia. }
      destruct (Nat.lt_ge_cases j n) as [Hj|Hj].
      2: { exfalso. apply Nxy. apply (nth_ext0 _ _ n); [apply Gx|apply Gy|]. intros i Hi. apply Q; auto. lia. }
      assert (Nj : kx@j <> ky@j).
      { intros E. apply Nxy. apply (nth_ext0 _ _ n); [apply Gx|apply Gy|].
        intros i Hi. destruct (Nat.eq_dec i j) as [->|D]; auto. }
      specialize (Nx j Hj). specialize (Ny j Hj).
      assert (L : lvl g kx = lvl g ky) by lia. apply (lvl_eq_levvec n g wf) in L; auto.
      destruct (NL_pos n g wf k j Gk Hj) as [HN _].
      pose proof (levvec_nth n g wf kx j (grid_len n g kx Gx) Hj ltac:(lia)) as A.
      pose proof (levvec_nth n g wf ky j (grid_len n g ky Gy) Hj ltac:(lia)) as B.
      rewrite L in A. rewrite B in A. pose proof (wg_w g n wf j Hj).
      assert (M : ky@j mod NL g j = kx@j mod NL g j) by nia.
      pose proof (Z.div_mod (kx@j) (NL g j) ltac:(lia)). pose proof (Z.div_mod (ky@j) (NL g j) ltac:(lia)).
      rewrite M in *. set (a := kx@j / NL g j) in *. set (b := ky@j / NL g j) in *.
      assert (D : kx@j - ky@j = NL g j * (a - b)) by lia.
      assert (a - b < 2) by nia. assert (-2 < a - b) by nia. assert (a - b <> 0) by nia.
      assert (a - b = 1 \/ a - b = -1) as [F|F] by lia; rewrite F in D; lia. }
    assert (P0 : (j < n)%nat -> 0 < NL g j) by (intros Hj; apply (NL_pos n g wf k j Gk Hj)).
    destruct l as [|x [|y [|z l]]]; cbn; try lia. exfalso.
    inversion Nl as [|? ? N1 N2]; subst. inversion N2 as [|? ? N3 N4]; subst. cbn in N1, N3.
    destruct (proj1 (Hl x)) as [kx [Ux Ex]]; [cbn; auto|].
    destruct (proj1 (Hl y)) as [ky [Uy Ey]]; [cbn; auto|].
    destruct (proj1 (Hl z)) as [kz [Uz Ez]]; [cbn; auto|].
    assert (Dxy : kx <> ky) by (intros ->; apply N1; left; congruence).
    assert (Dxz : kx <> kz) by (intros ->; apply N1; right; left; congruence).
    assert (Dyz : ky <> kz) by (intros ->; apply N3; left; congruence).
    pose proof (C kx ky Ux Uy Dxy). pose proof (C kx kz Ux Uz Dxz). pose proof (C ky kz Uy Uz Dyz).
    destruct (Nat.lt_ge_cases j n) as [Hj|Hj]; [specialize (P0 Hj); lia|].
    apply Dxy. destruct Ux as [Gx [Nx Lx]], Uy as [Gy [Ny Ly]].
    apply (nth_ext0 _ _ n); [apply Gx|apply Gy|]. intros i Hi.
    assert (i <> j) by lia. specialize (Nx i Hi). specialize (Ny i Hi). rewrite (NL_one k i) in * by auto. lia.
  Qed.
End TwoUp.

(* check_function (C25) *)
Section Check.
  Variables up down : block -> list block.
  Variable maxr : nat -> Z.
  Variable fuel : nat.

  (* equal but for the counter of skipped blocks and the flag that the task started *)
  Definition forget (x : tstate) : tstate :=
    TState false (ts_total x) (ts_ready x) (ts_processing x) (ts_completed x) 0 (ts_failed x) (ts_orphaned x).
  Definition alike (a b : sched) : Prop :=
    s_surf a = s_surf b /\ s_q a = s_q b /\ s_order a = s_order b /\ forall t, forget (s_st a t) = forget (s_st b t).

  Lemma alike_upd a b t f g : alike a b -> (forall x y, forget x = forget y -> forget (f x) = forget (g y)) ->
    alike (upd_st a t f) (upd_st b t g).
  Proof.
    intros [A1 [A2 [A3 A4]]] H. repeat (split; [cbn; auto|]). intros i. cbn. unfold upd.
    destruct (Nat.eqb t i); auto.
  Qed.
  Lemma alike_q a b t f : alike a b -> alike (upd_q a t f) (upd_q b t f).
  Proof. intros [A1 [A2 [A3 A4]]]. repeat (split; [cbn; congruence|]). auto. Qed.
  Lemma alike_surf a b sf : alike a b -> alike (set_surf a sf) (set_surf b sf).
  Proof. intros [A1 [A2 [A3 A4]]]. repeat (split; [cbn; congruence|]). auto. Qed.
  Ltac same := let x := fresh in let y := fresh in let H := fresh in
    intros x y H; destruct x, y; unfold forget in *; cbn in *; congruence.
  Lemma alike_queue a b pb : alike a b -> alike (queue_ready_block a pb) (queue_ready_block b pb).
  Proof. intros A. unfold queue_ready_block. apply alike_upd; [apply alike_q; auto|same]. Qed.
  Lemma alike_ready l : forall a b, alike a b -> alike (update_ready_queue a l) (update_ready_queue b l).
  Proof. induction l; intros x y A; auto. cbn. apply IHl, alike_queue, A. Qed.
  Lemma alike_orph l : forall a b, alike a b ->
    alike (fold_left (fun s o => upd_st s (b_task o) (ts_add_orphaned 1)) l a)
          (fold_left (fun s o => upd_st s (b_task o) (ts_add_orphaned 1)) l b).
  Proof. induction l; intros x y A; auto. cbn. apply IHl. apply alike_upd; auto. same. Qed.

  Lemma release_alike pick a b pb a' : alike a b -> release_block up down maxr fuel pick a pb = Ok a' ->
    exists b', release_block up down maxr fuel pick b pb = Ok b' /\ alike a' b'.
  Proof.
    intros A. pose proof A as [A1 [A2 [A3 A4]]]. unfold release_block, remove_from_processing. rewrite <- A2.
    destruct (sremove _ _ _) as [p|]; [|discriminate]. cbn [bind].
    set (a1 := upd_st (upd_q a _ _) _ _). set (b1 := upd_st (upd_q b _ _) _ _).
    assert (B : alike a1 b1) by (apply alike_upd; [apply alike_q; auto|same]).
    pose proof B as [B1 [B2 _]]. rewrite <- B1, <- B2.
    destruct (pb_status pb); try discriminate.
    - destruct (mark_success _ _ _ _ _) as [[sf news]|]; [|discriminate]. cbn [bind].
      intros E. injection E as <-. eexists. split; [reflexivity|]. apply alike_ready.
      apply alike_upd; [apply alike_surf; auto|same].
    - destruct (_ <=? _).
      + destruct (mark_failure _ _ _ _ _ _ _) as [[sf orph]|]; [|discriminate]. cbn [bind].
        intros E. injection E as <-. eexists. split; [reflexivity|]. apply alike_orph.
        apply alike_upd; [apply alike_surf; auto|same].
      + intros E. injection E as <-. eexists. split; [reflexivity|]. apply alike_q, alike_queue, B.
  Qed.

  (* the blocks of task t in [l], each handed out (no check) and released as a success *)
  Inductive worked (t : nat) : list block -> sched -> sched -> Prop :=
  | worked_nil s : worked t [] s s
  | worked_cons b st l s s1 s2 s' :
      acquire_loop up down maxr fuel (fun _ _ => CheckFalse) 1 s t = Ok (s1, Some (PB b st), []) ->
      release_block up down maxr fuel (fun _ _ => O) s1 (PB b SUCCESS) = Ok s2 ->
      worked t l s2 s' -> worked t (b :: l) s s'.

  Lemma skip_alike chk f : forall a b t a' r sk, alike a b ->
    acquire_loop up down maxr fuel chk f a t = Ok (a', r, sk) ->
    exists b1 b2, worked t sk b b1 /\
      acquire_loop up down maxr fuel (fun _ _ => CheckFalse) 1 b1 t = Ok (b2, r, []) /\ alike a' b2.
  Proof.
    induction f as [|f IH]; intros a b t a' r sk A; [discriminate|]. cbn [acquire_loop].
    pose proof A as [A1 [A2 [A3 A4]]].
    destruct (get_next (s_q a t)) as [[q nb]|] eqn:En; [|discriminate]. cbn [bind].
    destruct nb as [pb|].
    2: { intros E. injection E as <- <- <-. exists b, b. split; [constructor|]. cbn [acquire_loop].
         rewrite <- A2, En. auto. }
    set (ap := fun q0 : pqueue => q_set_proc q0 (sadd bid_eqb (bid (pb_block pb)) (q_proc q0))).
    set (m := fun (s : sched) => upd_st (upd_st (upd_q s t (fun _ => q)) t (ts_add_ready (-1))) t (ts_add_processing 1)).
    assert (M : alike (m a) (m b)) by (apply alike_upd; [apply alike_upd; [apply alike_q; auto|same]|same]).
    assert (N : forall f, (forall x y, forget x = forget y -> forget (f x) = forget (ts_set_started y)) ->
       alike (upd_q (upd_st (m a) t f) t ap) (upd_q (upd_st (m b) t ts_set_started) t ap))
      by (intros g Hg; apply alike_q, alike_upd; auto).
    destruct (precheck (chk f (pb_block pb))).
    - change (upd_st (upd_st (upd_q a t (fun _ => q)) t (ts_add_ready (-1))) t (ts_add_processing 1)) with (m a).
      destruct (release_block _ _ _ _ _ _ _) as [s4|] eqn:Er; [|discriminate]. cbn [bind].
      destruct (acquire_loop _ _ _ _ _ f s4 t) as [[[s5 r5] sk5]|] eqn:Ea; [|discriminate]. cbn [bind].
      intros E'. injection E' as <- <- <-.
      destruct (release_alike _ _ _ _ _ (N (ts_add_skipped 1) ltac:(same)) Er) as [b4 [Eb A5]].
      destruct (IH _ _ _ _ _ _ A5 Ea) as [b1 [b2 [W [E2 A6]]]].
      exists b1, b2. split; [|auto]. eapply (worked_cons t _ (pb_status pb)); [| |exact W].
      + cbn [acquire_loop]. rewrite <- A2, En. cbn [bind precheck]. destruct pb. reflexivity.
      + exact Eb.
    - intros E. injection E as <- <- <-.
      exists b, (upd_q (upd_st (m b) t ts_set_started) t ap). split; [constructor|]. split.
      + cbn [acquire_loop]. rewrite <- A2, En. reflexivity.
      + apply N. same.
  Qed.
  Lemma alike_refl s : alike s s. Proof. repeat split; auto. Qed.

  (* every block taken is checked exactly once per hand-out *)
  Lemma check_calls chk f : forall s t s' r sk, acquire_loop up down maxr fuel chk f s t = Ok (s', r, sk) ->
    (forall i b, nth_error sk i = Some b -> chk (f - 1 - i)%nat b = CheckTrue) /\
    (forall pb, r = Some pb -> chk (f - 1 - length sk)%nat (pb_block pb) <> CheckTrue).
  Proof.
    induction f as [|f IH]; intros s t s' r sk; [discriminate|]. cbn [acquire_loop].
    destruct (get_next (s_q s t)) as [[q nb]|] eqn:En; [|discriminate]. cbn [bind].
    destruct nb as [pb|].
    2: { intros E. injection E as <- <- <-. split; [intros [|i] b E; discriminate|discriminate]. }
    destruct (precheck (chk f (pb_block pb))) eqn:Ep.
    - destruct (release_block _ _ _ _ _ _ _) as [s4|] eqn:Er; [|discriminate]. cbn [bind].
      destruct (acquire_loop _ _ _ _ _ f s4 t) as [[[s5 r5] sk5]|] eqn:Ea; [|discriminate]. cbn [bind].
      intros E'. injection E' as <- <- <-. apply IH in Ea. destruct Ea as [K1 K2]. split.
      + intros [|i] b E; cbn in E.
        * injection E as <-. replace (S f - 1 - 0)%nat with f by lia. destruct (chk f (pb_block pb)); auto; discriminate.
        * apply K1 in E. replace (S f - 1 - S i)%nat with (f - 1 - i)%nat by lia. auto.
      + intros pb' E. apply K2 in E. cbn [length]. replace (S f - 1 - S (length sk5))%nat with (f - 1 - length sk5)%nat by lia. auto.
    - intros E. injection E as <- <- <-. split; [intros [|i] b E; discriminate|].
      intros pb' E. injection E as <-. cbn [length]. replace (S f - 1 - 0)%nat with f by lia.
      intros C. rewrite C in Ep. discriminate.
  Qed.
  Lemma check_raise chk f : forall s t,
    acquire_loop up down maxr fuel chk f s t =
    acquire_loop up down maxr fuel (fun k b => match chk k b with CheckRaises => CheckFalse | c => c end) f s t.
  Proof.
    induction f as [|f IH]; intros s t; auto. cbn [acquire_loop].
    destruct (get_next (s_q s t)) as [[q nb]|]; auto. cbn [bind]. destruct nb as [pb|]; auto.
    destruct (chk f (pb_block pb)); cbn [precheck]; auto.
    destruct (release_block _ _ _ _ _ _ _) as [s4|]; auto. cbn [bind]. rewrite IH. auto.
  Qed.
End Check.

(* a run of a pipeline *)
Section Run.
  Variables (tasks : list task) (ord : list block -> list block) (ordt : list nat -> list nat).
  Variables (d : dgraph) (s0 : sched) (fuel : nat) (h : history) (s : sched).
  Hypothesis PR : pipe_run tasks ord ordt d s0 fuel h s.
  Notation Up := (dg_up ord ordt d).
  Notation Down := (dg_down ord ordt d).

  Lemma run_dk : dg_ok tasks d.
  Proof. destruct PR as [A B C D _]. apply (pipe_fresh tasks d s0 A D). Qed.
  Lemma run_room : has_room tasks.
  Proof. destruct PR as [A B C D _]. apply (pipe_fresh tasks d s0 A D). Qed.
  Lemma run_fresh : fresh (pblocks d) (root_seeds d) s0.
  Proof. destruct PR as [A B C D _]. apply (pipe_fresh tasks d s0 A D). Qed.
  Lemma run_in b : In b (pblocks d) <-> pipe_block tasks b.
  Proof. destruct PR as [A B C D _]. apply in_pblocks; auto. apply run_dk. Qed.
  Lemma run_safe : safe_graph (pblocks d) Up Down (root_seeds d).
  Proof. destruct PR as [A B C D _]. eapply pipe_safe; eauto using run_dk, run_room. Qed.
  Lemma run_good : inverse tasks ord ordt d -> good_graph (pblocks d) Up Down (root_seeds d).
  Proof. destruct PR as [A B C D _]. intros I. eapply pipe_good; eauto using run_dk, run_room. Qed.
  Lemma run_enough : fuel_ok tasks fuel -> enough (pblocks d) fuel.
  Proof.
    destruct PR as [A B C D _]. intros F. apply F; [apply (nodup_pblocks tasks); auto using run_dk|].
    intros b. apply run_in.
  Qed.
  Lemma run_roots : no_lonely tasks ord ordt d -> all_roots (pblocks d) Up (root_seeds d).
  Proof. destruct PR as [A B C D _]. eapply pipe_roots; eauto using run_dk, run_room. Qed.
End Run.

Lemma fuel_exists tasks : pipe_ok tasks -> exists N, forall fuel, (N <= fuel)%nat -> fuel_ok tasks fuel.
Proof.
  intros PO. destruct (dgraph_ok tasks PO) as [d [_ DK]].
  exists (length (pblocks d) * (length (pblocks d) + 1) + length (pblocks d) + 1)%nat. intros fuel L l N H.
  assert (length l <= length (pblocks d))%nat.
  { apply NoDup_incl_length; auto. intros b Hb. apply (in_pblocks tasks PO d DK). auto. }
  unfold enough. nia.
Qed.

(* A pipeline whose tasks require nothing: no edge, so the conditions on edges hold. *)
Lemma single_edges tasks : (forall t, In t tasks -> t_ups t = []) -> edges_ok tasks.
Proof.
  intros N t u [x [Hx Hr]] Hu. exfalso. revert Hu.
  assert (G : forall a b, requires a b -> t_ups a = [] -> t_ups b = []).
  { intros a b H. induction H as [|a b c H _ _]; auto. intros E. rewrite E in H. destruct H. }
  rewrite (G x t Hr (N x Hx)). auto.
Qed.
Lemma run_dual tasks ord ordt d s0 fuel h s : pipe_run tasks ord ordt d s0 fuel h s -> edges_ok tasks ->
  inverse tasks ord ordt d.
Proof.
  intros R EO a b Ha Hb. destruct R as [A B C D E]. pose proof (pipe_fresh tasks d s0 A D) as [_ [DK _]].
  apply (pipe_dual tasks A d DK ord ordt B C EO); auto.
Qed.

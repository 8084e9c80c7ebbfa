(* A fair run of run_blockwise, computed (for C67). *)
From Coq Require Import Arith Lia.
From Verif Require Import SchedProps SchedExec DGFacts2 PipeRun P_SchedCE P_Sched SerialFacts P_Conv P_Serial ServerFacts ServerSteps
  ServerIdle P_Server P_ServerCE P_Sys SysFacts SysTrace P_SysEx WholeFair P_Whole PoolAll P_PoolFail.
From Verif Require Client Pool P_Pool P_WholeEx P_WholeCE.
From Verif Require Import Sys WholeAny WholeAll WholeRun P_WholeAny TopInit Top P_Top TopFair P_TopFair.
Open Scope Z_scope.

Section Chain.
  Variables (up down : block -> list block) (maxr : nat -> Z) (fuel : nat) (nw : nat -> Z) (mbf : Z).
  Local Notation astep := (astep up down maxr fuel no_init nw mbf).
  Local Notation aruns := (aruns up down maxr fuel no_init nw mbf).
  Inductive achain (h : whole) : list (amove * whole) -> Prop :=
  | achain_nil : achain h []
  | achain_cons m h' l : astep h m h' -> achain h' l -> achain h ((m, h') :: l).
  Fixpoint arecord (cs : list adeed) (h : whole) : option (list (amove * whole)) :=
    match cs with
    | [] => Some []
    | c :: r => match aperform up down maxr fuel nw mbf c h with
                | Some (m, h') => match arecord r h' with Some l => Some ((m, h') :: l) | None => None end
                | None => None
                end
    end.
  Definition alast (h : whole) (l : list (amove * whole)) : whole := last (map snd l) h.
  Lemma alast_cons h m h' l : alast h ((m, h') :: l) = alast h' l.
  Proof. unfold alast. cbn [map snd]. apply last_cons. Qed.
  Lemma arecord_chain cs : forall h l, arecord cs h = Some l -> achain h l.
  Proof.
    induction cs as [|c r IH]; intros h l H; cbn [arecord] in H; [injection H as <-; constructor|].
    destruct (aperform _ _ _ _ _ _ c h) as [[m h']|] eqn:E; [|discriminate H]. destruct (arecord r h') as [l'|] eqn:El; [|discriminate H]. injection H as <-.
    constructor; eauto. eapply aperform_step; eauto.
  Qed.
  Lemma achain_app l1 l2 : forall h, achain h l1 -> achain (alast h l1) l2 -> achain h (l1 ++ l2).
  Proof.
    induction l1 as [|[m h'] l IH]; intros h C1 C2; [exact C2|]. inversion C1 as [|? ? ? S C']; subst. rewrite alast_cons in C2. cbn [app]. constructor; auto.
  Qed.
  Definition lift (p : hmove * whole) : amove * whole := (AMove (fst p), snd p).
  Lemma lift_chain l : forall h, P_WholeEx.hchain up down maxr fuel nw mbf h l -> achain h (map lift l).
  Proof. induction l as [|[m h'] l IH]; intros h C; [constructor|]. inversion C as [|? ? ? S C']; subst. constructor; [apply as_move; exact S|auto]. Qed.
  Lemma achain_runs l : forall h, achain h l -> aruns h (map fst l) (alast h l).
  Proof.
    induction l as [|[m h'] l IH]; intros h C; [constructor|]. inversion C as [|? ? ? S C']; subst.
    cbn [map fst]. rewrite alast_cons. eapply aruns_cons; eauto.
  Qed.
  Fixpoint abefores (h : whole) (l : list (amove * whole)) : list (whole * amove) :=
    match l with [] => [] | (m, h') :: r => (h, m) :: abefores h' r end.
  Lemma abefores_nth (z : whole) l : forall h n m, nth_error (map fst l) n = Some m -> In (nth n (h :: map snd l) z, m) (abefores h l).
  Proof.
    induction l as [|[m' h'] l IH]; intros h n m H; [destruct n; discriminate H|]. destruct n; cbn in *.
    - injection H as ->. left. reflexivity.
    - right. apply IH. exact H.
  Qed.
  Lemma achain_end h l : nth (length l) (h :: map snd l) (alast h l) = alast h l.
  Proof.
    unfold alast. revert h. induction l as [|[m a] l IH]; intros h; [reflexivity|]. cbn [map snd length]. specialize (IH a). cbn [nth map] in *.
    rewrite last_cons. exact IH.
  Qed.
  Lemma achain_mid l : forall h, achain h l -> forall h1 m, In (h1, m) (abefores h l) -> exists ms, aruns h ms h1.
  Proof.
    induction l as [|[m0 h'] l IH]; intros h C h1 m H; [destruct H|]. inversion C as [|? ? ? S C']; subst. destruct H as [H|H].
    - injection H as <- _. exists []. constructor.
    - destruct (IH _ C' _ _ H) as [ms R]. exists (m0 :: ms). eapply aruns_cons; eauto.
  Qed.
  Definition aprudent_b (h : whole) (m : amove) : bool :=
    match m with
    | AMove m => P_WholeEx.prudent_b h m
    | ABreak st _ n c => negb (c =? 0) && forallb (fun m => match m with MBlockFailed _ _ => false | _ => true end) (firstn n (w_out (h_w h st)))
    | ARaise _ _ _ => true
    end.
  Lemma aprudent_b_ok h m : P_WholeEx.numbered h -> aprudent_b h m = true -> aprudent h m.
  Proof.
    destruct m as [m|st e n|st s n c]; cbn [aprudent_b aprudent]; auto using P_WholeEx.prudent_b_ok.
    intros _ H. apply andb_prop in H. destruct H as [H1 H2]. apply Bool.negb_true_iff, Z.eqb_neq in H1. split; auto.
    intros pb w Hi. rewrite forallb_forall in H2. apply H2 in Hi. discriminate Hi.
  Qed.
End Chain.

Section Numbered.
  Variables (tasks : list task) (ord : list block -> list block) (ordt : list nat -> list nat) (d : dgraph) (s0 : sched) (fuel : nat) (nw : nat -> Z) (mbf : Z) (h0 : whole).
  Local Notation up := (dg_up ord ordt d).
  Local Notation down := (dg_down ord ordt d).
  Local Notation maxr := (dg_max_retries d).
  Hypothesis SE : setup tasks ord ordt d s0 fuel no_init nw mbf h0.
  Lemma aruns_numbered ms h : aruns up down maxr fuel no_init nw mbf h0 ms h -> P_WholeEx.numbered h.
  Proof.
    intros R. pose proof (ai_runs _ _ _ _ _ _ _ _ _ _ SE _ _ R) as A. destruct (ai_told _ _ _ _ _ _ _ _ _ _ _ A) as [evs [T _]].
    assert (Re : exists k, P_Pool.reached nw mbf (dedup Nat.eqb (map t_id tasks)) no_process k (h_ps h)).
    { clear -T. induction T as [|es x e T [k IH] _]; [exists 0; constructor|]. destruct (P_Pool.steps_reached _ _ _ _ [e] k x IH) as [k' H]. exists k'. exact H. }
    destruct Re as [k Re].
    pose proof (P_Pool.reached_GI nw (se_workers _ _ _ _ _ _ _ _ _ _ SE) mbf _ _ (keys_nodup (map t_id tasks)) P_Pool.sys0_clean _ _ Re) as G.
    intros st K. destruct (Nat.lt_ge_cases st (Pool.nxt (Pool.ps_sys (h_ps h)))) as [L|L]; auto.
    exfalso. apply K. exact (P_Pool.gi_wf _ _ _ _ G st L).
  Qed.
  (* a run that has come to its end, and nothing happens any more *)
  Lemma achain_fair l : achain up down maxr fuel nw mbf h0 l -> forallb (fun '(h, m) => aprudent_b h m) (abefores h0 l) = true ->
    sv_stop (h_sv (alast h0 l)) = true -> existsb (P_WholeEx.hcan_b (alast h0 l)) (P_WholeEx.everyone (alast h0 l)) = false ->
    tfair up down maxr fuel no_init nw mbf (fun n => Top (nth n (h0 :: map snd l) (alast h0 l)) false) (fun n => nth_error (map TMove (map fst l)) n).
  Proof.
    intros C Pr St Nm. set (z := alast h0 l) in *.
    assert (Nz : P_WholeEx.numbered z) by (eapply aruns_numbered; apply achain_runs; exact C).
    assert (Nc : forall st, ~ hcan_move z st).
    { intros st M. pose proof (P_WholeEx.hcan_b_ok _ _ M) as B. destruct M as [A _]. apply P_WholeEx.alive_known in A.
      assert (existsb (P_WholeEx.hcan_b z) (P_WholeEx.everyone z) = true) by (apply existsb_exists; exists st; split; auto using P_WholeEx.in_everyone). congruence. }
    assert (E : forall n, (length l <= n)%nat -> nth n (h0 :: map snd l) z = z).
    { intros n Hn. destruct (Nat.eq_dec n (length l)) as [->|]; [apply achain_end|]. apply nth_overflow. cbn. rewrite map_length. lia. }
    assert (Em : forall n m, nth_error (map TMove (map fst l)) n = Some (TMove m) -> nth_error (map fst l) n = Some m).
    { intros n m H. rewrite nth_error_map in H. destruct (nth_error (map fst l) n); [|discriminate H]. injection H as ->. reflexivity. }
    constructor; cbn [tp_h tp_stop].
    - assert (G : forall h l w, achain up down maxr fuel nw mbf h l -> last (map snd l) h = w -> forall n, match nth_error (map fst l) n with
         | Some m => astep up down maxr fuel no_init nw mbf (nth n (h :: map snd l) w) m (nth (S n) (h :: map snd l) w)
         | None => nth (S n) (h :: map snd l) w = nth n (h :: map snd l) w end).
      { clear. intros h l w C. revert w. induction C as [h|h m h' l S C IH]; intros w Hw n.
        - cbn in Hw. subst w. destruct n; cbn; [reflexivity|]. destruct n; reflexivity.
        - destruct n; [exact S|]. cbn [map fst snd nth_error nth]. apply IH. rewrite <- Hw. cbn [map snd]. symmetry. apply last_cons. }
      intros n. specialize (G h0 l z C eq_refl n). rewrite nth_error_map. destruct (nth_error (map fst l) n) as [m|]; cbn [option_map].
      + apply (ts_move _ _ _ _ _ _ _ (Top _ false)); auto.
      + cbn [tp_h] in *. rewrite G. reflexivity.
    - intros n m H. apply Em in H. pose proof (abefores_nth z l h0 n m H) as Hi. destruct (achain_mid _ _ _ _ _ _ _ _ C _ _ Hi) as [ms R].
      rewrite forallb_forall in Pr. apply Pr in Hi. apply aprudent_b_ok; [eapply aruns_numbered; eauto|exact Hi].
    - intros n st _. exists (max n (length l)). split; [lia|]. right. rewrite E by lia. apply Nc.
    - intros n st _ _. exists (max n (length l)). split; [lia|]. right. right. left. rewrite E by lia. exact St.
    - intros n. exists (max n (length l)). split; [lia|]. right. right. left. rewrite E by lia. exact St.
    - exists (length l). intros k m Hk. assert (X : nth_error (map TMove (map fst l)) k = None) by (apply nth_error_None; rewrite !map_length; lia).
      rewrite X. discriminate.
  Qed.
End Numbered.

(* As P_WholeEx.whole_example, but worker 0 is interrupted in its first block, which is left in status PROCESSING and
   returned as failed; it ends with exit code 1. *)
Definition fx_break : list adeed := map EDo ([P_WholeEx.EConnect 0] ++ P_WholeCE.ask 0 []) ++ [EBreak 0 PROCESSING 9 1].
Definition fx_run (steps : nat) (ts : list task) : option (dgraph * sched * whole * list (amove * whole) * list (hmove * whole)) :=
  match sched_init ts with
  | Ok (d, s0) =>
      match whole_init no_init P_WholeEx.wx_nw 3 (map t_id ts) s0 with
      | Ok h =>
          match arecord (dg_up idl idl d) (dg_down idl idl d) (dg_max_retries d) 100 P_WholeEx.wx_nw 3 fx_break h with
          | Some l1 => Some (d, s0, h, l1, P_WholeEx.hauto (dg_up idl idl d) (dg_down idl idl d) (dg_max_retries d) 100 P_WholeEx.wx_nw 3 (fun _ => 0%nat)
                                            P_WholeEx.wx_body steps (alast h l1))
          | None => None end
      | Err _ => None end
  | Err _ => None end.
Definition asincere_b (h : whole) (m : amove) : bool :=
  match m with
  | AMove m => P_WholeEx.hsincere_b h m
  | ABreak _ s _ _ => negb (status_eqb s SUCCESS)
  | _ => true
  end.
Definition quiet_b (m : amove) : bool := match m with ARaise _ _ _ => false | _ => true end.
Definition fx_checks (d : dgraph) (h : whole) (l : list (amove * whole)) : bool :=
  let z := alast h l in
  enough_b d 100 && sv_stop (h_sv z) && negb (existsb (P_WholeEx.hcan_b z) (P_WholeEx.everyone z)) &&
  forallb (fun '(h, m) => aprudent_b h m) (abefores h l) &&
  forallb (fun b => Nat.leb (length (dg_up idl idl d b)) 2) (pblocks d) &&
  forallb (fun b => Nat.eqb (b_task b) 1 || match dg_up idl idl d b with [] => false | _ => true end) (pblocks d) &&
  forallb (fun '(h, m) => asincere_b h m && quiet_b m) (abefores h l) &&
  forallb (fun h => bounded_b (dg_max_retries d) (hist (sv_tr (h_sv h)))) (h :: map snd l) &&
  P_WholeEx.exits z 0 1 1 && existsb (fun p => match fst p with ABreak _ _ _ _ => true | _ => false end) l &&
  some_block (fun b => is_bad b && perm_b d (hist (sv_tr (h_sv z))) b) d.
Definition fx_claim (ts : list task) : Prop := exists d s0 fuel r mv n b,
  let bad := fun b => is_bad b = true in
  begun ts idl idl fuel no_init P_WholeEx.wx_nw ts d s0 (r O) /\ no_lonely ts idl idl d /\ in_order ts /\ few_upstream ts idl idl d /\
  tfair (dg_up idl idl d) (dg_down idl idl d) (dg_max_retries d) fuel no_init P_WholeEx.wx_nw 3 r mv /\
  (forall n m, mv n = Some m -> m <> TStop /\ ~ raising m) /\
  (forall n m, mv n = Some (TMove m) -> asincere bad (tp_h (r n)) m) /\
  (forall n b, ~ bad b -> n_failed (hist (sv_tr (h_sv (tp_h (r n))))) b <= Z.max (dg_max_retries d (b_task b)) 0) /\
  (forall b, bad b \/ ~ bad b) /\
  (exists k st s j c, mv k = Some (TMove (ABreak st s j c))) /\
  sv_stop (h_sv (tp_h (r n))) = true /\ proc (tp_h (r n)) 0 = Some (1%nat, Pool.Exited 1) /\
  pipe_block ts b /\ bad b /\ perm_failed (dg_max_retries d) (hist (sv_tr (h_sv (tp_h (r n))))) b.
Lemma fx_from steps ts k : pipe_ok ts -> edges_ok ts -> in_order ts -> collect_tasks k ts = Ok ts ->
  (forall t, in_pipe ts t -> t_id t = 1%nat -> t_ups t = []) ->
  match fx_run steps ts with Some (d, s0, h, l1, l2) => fx_checks d h (l1 ++ map lift l2) | None => false end = true -> fx_claim ts.
Proof.
  intros PO EO IO Ec First Q. destruct (fx_run steps ts) as [[[[[d s0] h] l1] l2]|] eqn:E; [|discriminate Q]. unfold fx_run in E.
  destruct (sched_init ts) as [[d' s']|] eqn:Es; [|discriminate]. destruct (whole_init _ _ _ _ _) as [h'|] eqn:Ei; [|discriminate].
  destruct (arecord _ _ _ _ _ _ fx_break h') as [l'|] eqn:E1; [|discriminate]. injection E as -> -> -> -> El. set (l := l1 ++ map lift l2) in *. unfold fx_checks in Q.
  apply andb_prop in Q. destruct Q as [Q Q11]. apply andb_prop in Q. destruct Q as [Q Q10].
  apply andb_prop in Q. destruct Q as [Q Q9]. apply andb_prop in Q. destruct Q as [Q Q8]. apply andb_prop in Q. destruct Q as [Q Q7].
  apply andb_prop in Q. destruct Q as [Q Q6]. apply andb_prop in Q. destruct Q as [Q Q5]. apply andb_prop in Q. destruct Q as [Q Q4].
  apply andb_prop in Q. destruct Q as [Q Q3]. apply andb_prop in Q. destruct Q as [Q1 Q2]. apply Bool.negb_true_iff in Q3.
  assert (NW : forall t, 1 <= P_WholeEx.wx_nw t) by (intros t; unfold P_WholeEx.wx_nw; destruct (Nat.eqb t 1); lia).
  assert (CO : company ts idl idl d s0 100 no_init P_WholeEx.wx_nw 3 h) by (eapply P_WholeEx.company_ok; eauto).
  assert (CA : call ts idl idl ts d 100 P_WholeEx.wx_nw).
  { destruct CO. constructor; auto. intros t. specialize (NW t). lia. }
  assert (SE : setup ts idl idl d s0 100 no_init P_WholeEx.wx_nw 3 h).
  { destruct CO. constructor; auto; [|lia]. intros t. specialize (NW t). lia. }
  assert (C : achain (dg_up idl idl d) (dg_down idl idl d) (dg_max_retries d) 100 P_WholeEx.wx_nw 3 h l).
  { apply achain_app; [eapply arecord_chain; eauto|]. apply lift_chain. rewrite <- El. apply P_WholeEx.hauto_chain. }
  pose proof (achain_fair _ _ _ _ _ _ _ _ _ SE l C Q4 Q2 Q3) as FA.
  pose proof (achain_end h l) as Ez.
  apply existsb_exists in Q11. destruct Q11 as [b [Hb Q11]]. apply andb_prop in Q11. destruct Q11 as [Bb Pb]. rewrite perm_b_true in Pb.
  exists d, s0, 100%nat, (fun n => Top (nth n (h :: map snd l) (alast h l)) false), (fun n => nth_error (map TMove (map fst l)) n), (length l), b.
  cbv zeta. cbn [tp_h]. rewrite Ez. pose proof (f_in _ _ _ _ _ _ _ _ _ (w_staffed _ _ _ _ _ _ _ _ _ _ CO)) as FI.
  assert (Em : forall n m, nth_error (map TMove (map fst l)) n = Some m -> exists a, m = TMove a /\ nth_error (map fst l) n = Some a).
  { intros n m H. rewrite nth_error_map in H. destruct (nth_error (map fst l) n) as [a|]; [|discriminate H]. injection H as <-. eauto. }
  rewrite forallb_forall in Q7.
  split; [|split; [|split; [exact IO|split; [|split; [exact FA|split; [|split; [|split; [|split]]]]]]]].
  - constructor; auto; [eauto|]. exists h. auto.
  - intros t g c Ht Nt Et Gc Z. rewrite forallb_forall in Q6.
    assert (Hc : In c (pblocks d)) by (apply FI; exists t, g; auto).
    apply Q6 in Hc. rewrite Z in Hc. rewrite Bool.orb_false_r in Hc. apply Nat.eqb_eq in Hc.
    rewrite (gen_id ts PO t g c Ht Et Gc) in Hc. apply Nt. apply First; auto.
  - intros c Hc. apply FI in Hc. rewrite forallb_forall in Q5. apply Q5 in Hc. apply Nat.leb_le in Hc. exact Hc.
  - intros n m H. destruct (Em _ _ H) as [a [-> Ha]]. split; [discriminate|]. intros R. pose proof (abefores_nth (alast h l) l h n a Ha) as Hi.
    apply Q7 in Hi. apply andb_prop in Hi. destruct Hi as [_ Hi]. destruct a; try destruct R. discriminate Hi.
  - intros n m H. destruct (Em _ _ H) as [a [Ea Ha]]. injection Ea as <-. pose proof (abefores_nth (alast h l) l h n m Ha) as Hi. apply Q7 in Hi. cbn beta iota in Hi.
    apply andb_prop in Hi. destruct Hi as [Hi _]. destruct m as [m|st e j|st s j c]; cbn [asincere asincere_b] in *; auto.
    + destruct m as [| | |st o| | |i k0]; try exact I.
      * intros W pb' Ew. unfold P_WholeEx.hsincere_b in Hi. rewrite Ew in Hi. destruct o as [[]| |]; try contradiction; apply Bool.negb_true_iff in Hi; congruence.
      * intros j c Hj. assert (X : i_chk i = no_check).
        { apply nth_error_In in Ha. apply in_map_iff in Ha. destruct Ha as [[m0 y0] [E0 Ha]]. cbn in E0. subst m0. unfold l in Ha. apply in_app_or in Ha. destruct Ha as [Ha|Ha].
          - clear -E1 Ha. revert h l1 E1 Ha. generalize fx_break. intros cs. induction cs as [|c0 cs IH]; intros h l1 E1 Ha; cbn [arecord] in E1; [injection E1 as <-; destruct Ha|].
            destruct (aperform _ _ _ _ _ _ c0 h) as [[m1 h1]|] eqn:Ep; [|discriminate]. destruct (arecord _ _ _ _ _ _ cs h1) as [l''|] eqn:Er; [|discriminate]. injection E1 as <-.
            destruct Ha as [Ha|Ha]; [|eauto]. injection Ha as -> ->. destruct c0 as [c0|st e n|st s n c]; cbn [aperform] in Ep.
            + destruct (P_WholeEx.hperform _ _ _ _ _ _ _ c0 h) as [[m2 h2]|] eqn:Eh; [|discriminate]. injection Ep as -> _. eapply P_WholeEx.hperform_chk; eauto.
            + destruct (P_WholeEx.alive_b h st); [|discriminate]. discriminate Ep.
            + destruct (P_WholeEx.alive_b h st); [|discriminate]. destruct (w_at (h_w h st)); discriminate Ep.
          - apply in_map_iff in Ha. destruct Ha as [[m1 h1] [E0 Ha]]. injection E0 as -> ->. rewrite <- El in Ha. eapply P_WholeEx.hauto_chk; eauto. }
        rewrite X in Hj. discriminate Hj.
    + intros ->. discriminate Hi.
  - intros n c Nc. apply bounded_b_ok; auto. rewrite forallb_forall in Q8. apply (Q8 (nth n (h :: map snd l) (alast h l))).
    destruct (Nat.lt_ge_cases n (length (h :: map snd l))) as [L|L]; [apply nth_In; exact L|].
    rewrite nth_overflow by exact L. rewrite <- Ez. apply nth_In. cbn. rewrite map_length. lia.
  - intros c. destruct (is_bad c); [left|right]; congruence.
  - split.
    { apply existsb_exists in Q10. destruct Q10 as [[m z] [Hm Q10]]. cbn [fst] in Q10. destruct m as [| |st s j c]; try discriminate Q10.
      apply (in_map fst) in Hm. apply In_nth_error in Hm. destruct Hm as [q Hq]. exists q, st, s, j, c. rewrite nth_error_map, Hq. reflexivity. }
    split; [exact Q2|]. split; [apply P_WholeEx.exits_ok; exact Q9|].
    split; [apply FI; exact Hb|]. split; [exact Bb|exact Pb].
Qed.
Example top_fair_example : fx_claim P_WholeEx.wx_row.
Proof.
  apply (fx_from 300 _ 99 P_WholeEx.wx_row_ok P_WholeEx.wx_row_edges P_WholeEx.wx_row_order); [reflexivity| |vm_compute; reflexivity].
  intros t Ht Hi. unfold P_WholeEx.wx_row, P_WholeEx.wx_r in *. pipe_tac; cbn in Hi; try discriminate Hi; reflexivity.
Qed.
Print Assumptions top_fair_example.

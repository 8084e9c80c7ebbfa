(* C67 with conditions on the tasks only: what a call of run_blockwise does if no block fails for good. *)
From Coq Require Import Arith Lia.
From Verif Require Import SchedProps SchedExec DGFacts2 PipeRun P_SchedCE P_Sched P_Apart SerialFacts P_Conv P_Serial ServerFacts ServerSteps
  ServerIdle P_Server P_ServerCE P_Outcome P_Sys SysFacts SysTrace P_SysEx WholeFair P_Whole PoolAll P_PoolFail.
From Verif Require Client Pool P_Pool P_WholeEx P_WholeCE.
From Verif Require Import Sys WholeAny WholeAll WholeRun P_WholeAny TopInit Top P_Top TopFair P_TopFair P_TopFairEx.
Open Scope Z_scope.

(* Conditions on the tasks given: shapes that fit together (PipeSpec.v), every task that requires others writes where one of
   them does, and either the list has every task after those it requires (or these require none), or no task given is more
   than one step away from tasks that require none. *)
Record plain (tasks : list task) : Prop := {
  pl_ok : pipe_ok tasks;
  pl_edges : edges_ok tasks;
  pl_inside : inside_upstream tasks;
  pl_order : closed_tasks tasks /\ NoDup (map t_id tasks) /\ in_order tasks \/
             (forall t u, In t tasks -> In u (t_ups t) -> t_ups u = [])
}.
(* run_blockwise was called with these tasks and its server has started: any order of sets, init callbacks that do not
   raise, at least one worker for each task *)
Record started tasks (ord : list block -> list block) (ordt : list nat -> list nat) fuel (init : nat -> res unit) nw all d s0 (y : top) : Prop := {
  sd_ord : is_order ord;
  sd_ordt : is_order ordt;
  sd_init : forall u, init u = Ok tt;
  sd_workers : forall u, 1 <= nw u;
  sd_collect : exists k, collect_tasks k tasks = Ok all;
  sd_sched : sched_init all = Ok (d, s0);
  sd_fuel : fuel_ok all fuel;
  sd_start : exists h, whole_init init nw 3 (map t_id all) s0 = Ok h /\ y = Top h false
}.

Lemma collected_in tasks k l : pipe_ok tasks -> collect_tasks k tasks = Ok l -> forall x, in_pipe l x <-> in_pipe tasks x.
Proof.
  intros PO E. destruct (C39_closure tasks (po_ids _ PO)) as [N H].
  assert (M : forall a b ts ids acc x, collect a ts ids acc = Ok x -> (a <= b)%nat -> collect b ts ids acc = Ok x).
  { induction a as [|a IH]; intros b ts ids acc x; cbn [collect]; [discriminate|]. intros E' L. destruct b as [|b]; [lia|].
    cbn [collect]. destruct ts as [|t ts]; auto. destruct (if negb _ then _ else _) as [i' a']. eapply IH; eauto. lia. }
  destruct (H (Nat.max N k)) as [l' [E' [_ HL]]]; [lia|].
  unfold collect_tasks in *. rewrite (M _ (Nat.max N k) _ _ _ _ E) in E' by lia. injection E' as <-.
  intros x. split.
  - intros [t [Ht Hx]]. apply HL in Ht. destruct Ht as [t0 [H0 H1]]. exists t0. split; auto. eapply requires_trans; eauto.
  - intros Hx. apply HL in Hx. exists x. split; auto. constructor.
Qed.
Lemma plain_begun tasks ord ordt fuel init nw all d s0 y : plain tasks -> started tasks ord ordt fuel init nw all d s0 y ->
  begun tasks ord ordt fuel init nw all d s0 y /\ no_lonely all ord ordt d /\ in_order all.
Proof.
  intros [PO EO IU OR] [Ho Hot Hi Hw [k Ec] Es Hf Hs].
  destruct (C39_scheduled _ _ _ _ _ PO Ec Es) as [PA [CA _]]. pose proof (collected_in _ _ _ PO Ec) as IP.
  assert (EA : edges_ok all) by (intros t u Ht Hu; apply IP in Ht; apply (EO t u); auto).
  assert (IA : inside_upstream all) by (intros t Ht; apply IP in Ht; apply (IU t Ht)).
  assert (R : pipe_run all ord ordt d s0 fuel [] s0) by (constructor; auto; constructor).
  split; [|split].
  - constructor; auto; [|exists k; auto]. constructor; auto; [apply (run_dual _ _ _ _ _ _ _ _ R EA)|].
    intros u. specialize (Hw u). lia.
  - apply (covered_lonely all PA d (run_dk _ _ _ _ _ _ _ _ R) ord ordt Ho Hot). apply inside_covered; auto.
  - destruct OR as [[C [N I]]|T]; [|exact (C53_two_levels tasks k all PO T Ec)]. rewrite (C53_order_kept k tasks all C N Ec). exact I.
Qed.

(* C67: if no block fails more than max_retries times, by its process function or with its worker, the call ends, returns True,
   and every block of every task has succeeded. *)
Theorem C67_all_well : forall tasks ord ordt fuel init nw all d s0 r mv,
  let up := dg_up ord ordt d in let down := dg_down ord ordt d in let maxr := dg_max_retries d in
  plain tasks -> started tasks ord ordt fuel init nw all d s0 (r O) ->
  tfair up down maxr fuel init nw 3 r mv -> (forall n m, mv n = Some m -> m <> TStop /\ ~ raising m) ->
  (forall n b, n_failed (hist (sv_tr (h_sv (tp_h (r n))))) b <= Z.max (maxr (b_task b)) 0) ->
  exists n ms ps, run_blockwise tasks ord ordt fuel init nw all d s0 ms (Some (r n)) (Returned true) ps /\
    forall b, pipe_block tasks b -> succeeded (hist (sv_tr (h_sv (tp_h (r n))))) b.
Proof.
  intros tasks ord ordt fuel init nw all d s0 r mv up down maxr PL SD FA No Fw.
  destruct (plain_begun _ _ _ _ _ _ _ _ _ _ PL SD) as [BE [NL IO]].
  assert (NP : forall n a, ~ perm_failed maxr (hist (sv_tr (h_sv (tp_h (r n))))) a).
  { intros n a [P1 P2]. specialize (Fw n a). unfold maxr in *. lia. }
  destruct (C67_ends_partial tasks ord ordt fuel init nw all d s0 r mv) as [n [ms [ps [RB S]]]]; auto.
  { intros n x u a b w _ _ _ Fa. destruct (NP n a Fa). }
  exists n, ms, ps. split; [exact RB|]. intros b Hb. destruct (S b Hb) as [Su|[Pf|[a [Pa _]]]]; auto; exfalso; eapply NP; eauto.
Qed.
Print Assumptions C67_all_well.

(* Three tasks in a row, given in another order than the one they are needed in; the process function
   succeeds on every block, worker 0 is interrupted in its first block, which it returns as failed, and another worker is
   lost in the middle of a block. *)
Definition good_body (st : nat) (pb : pyblock) : option Client.outcome :=
  if Nat.eqb st 1 then None else Some (Client.Finished SUCCESS).
Definition good_run (steps : nat) (ts : list task) : option (dgraph * sched * whole * list (amove * whole) * list (hmove * whole)) :=
  match sched_init ts with
  | Ok (d, s0) =>
      match whole_init no_init P_WholeEx.wx_nw 3 (map t_id ts) s0 with
      | Ok h =>
          match arecord (dg_up idl idl d) (dg_down idl idl d) (dg_max_retries d) 100 P_WholeEx.wx_nw 3 fx_break h with
          | Some l1 => Some (d, s0, h, l1, P_WholeEx.hauto (dg_up idl idl d) (dg_down idl idl d) (dg_max_retries d) 100 P_WholeEx.wx_nw 3 (fun _ => 0%nat)
                                            good_body steps (alast h l1))
          | None => None end
      | Err _ => None end
  | Err _ => None end.
Definition within_b (maxr : nat -> Z) (h : history) : bool :=
  forallb (fun e => match e with EvRel pb => n_failed h (pb_block pb) <=? Z.max (maxr (b_task (pb_block pb))) 0 | _ => true end) h.
Lemma within_b_ok maxr h b : within_b maxr h = true -> n_failed h b <= Z.max (maxr (b_task b)) 0.
Proof.
  intros H. destruct (Z_le_gt_dec (n_failed h b) 0) as [L|G]; [lia|].
  assert (X : exists pb, In (EvRel pb) h /\ pb_block pb = b).
  { clear H. unfold n_failed in G. induction h as [|e h IH]; cbn [count] in G; [lia|]. destruct e as [| | |pb];
      try (destruct IH as [pb' [H1 H2]]; [lia|]; exists pb'; split; [right|]; auto; fail).
    unfold is_block in G at 1. destruct (block_dec (pb_block pb) b) as [E|]; [exists pb; split; [left|]; auto|].
    destruct IH as [pb' [H1 H2]]; [cbn in G; lia|]. exists pb'. split; [right|]; auto. }
  destruct X as [pb [Hp E]]. unfold within_b in H. rewrite forallb_forall in H. apply H in Hp. cbn beta iota in Hp. rewrite E in Hp.
  apply Z.leb_le in Hp. exact Hp.
Qed.
Definition good_checks (d : dgraph) (h : whole) (l : list (amove * whole)) : bool :=
  let z := alast h l in
  enough_b d 100 && sv_stop (h_sv z) && negb (existsb (P_WholeEx.hcan_b z) (P_WholeEx.everyone z)) &&
  forallb (fun '(h, m) => aprudent_b h m) (abefores h l) &&
  forallb (fun '(h, m) => quiet_b m) (abefores h l) &&
  forallb (fun h => within_b (dg_max_retries d) (hist (sv_tr (h_sv h)))) (h :: map snd l) &&
  existsb (fun p => match fst p with ABreak _ _ _ _ => true | _ => false end) l &&
  existsb (fun b => n_failed (hist (sv_tr (h_sv z))) b =? 1) (pblocks d).
Definition good_b (steps : nat) (ts : list task) : bool :=
  match good_run steps ts with Some (x, l2) => let '(d, s0, h, l1) := x in good_checks d h (l1 ++ map lift l2) | None => false end.
Definition good_claim (ts : list task) : Prop := exists d s0 fuel r mv,
  plain ts /\ started ts idl idl fuel no_init P_WholeEx.wx_nw ts d s0 (r O) /\
  tfair (dg_up idl idl d) (dg_down idl idl d) (dg_max_retries d) fuel no_init P_WholeEx.wx_nw 3 r mv /\
  (forall n m, mv n = Some m -> m <> TStop /\ ~ raising m) /\
  (forall n b, n_failed (hist (sv_tr (h_sv (tp_h (r n))))) b <= Z.max (dg_max_retries d (b_task b)) 0) /\
  (exists k st s j c, mv k = Some (TMove (ABreak st s j c))) /\
  (exists n b, pipe_block ts b /\ n_failed (hist (sv_tr (h_sv (tp_h (r n))))) b = 1).
Lemma good_from steps ts k : plain ts -> collect_tasks k ts = Ok ts -> good_b steps ts = true -> good_claim ts.
Proof.
  unfold good_b. intros PL Ec Q. pose proof (pl_ok _ PL) as PO. pose proof (pl_edges _ PL) as EO.
  destruct (good_run steps ts) as [[[[[d s0] h] l1] l2]|] eqn:E; [|discriminate Q]. unfold good_run in E.
  destruct (sched_init ts) as [[d' s']|] eqn:Es; [|discriminate]. destruct (whole_init _ _ _ _ _) as [h'|] eqn:Ei; [|discriminate].
  destruct (arecord _ _ _ _ _ _ fx_break h') as [l'|] eqn:E1; [|discriminate]. injection E as -> -> -> -> El. set (l := l1 ++ map lift l2) in *. unfold good_checks in Q.
  apply andb_prop in Q. destruct Q as [Q Q8]. apply andb_prop in Q. destruct Q as [Q Q10]. apply andb_prop in Q. destruct Q as [Q Q6]. apply andb_prop in Q. destruct Q as [Q Q7].
  apply andb_prop in Q. destruct Q as [Q Q4]. apply andb_prop in Q. destruct Q as [Q Q3]. apply andb_prop in Q. destruct Q as [Q1 Q2]. apply Bool.negb_true_iff in Q3.
  assert (NW : forall u, 1 <= P_WholeEx.wx_nw u) by (intros u; unfold P_WholeEx.wx_nw; destruct (Nat.eqb u 1); lia).
  assert (CO : company ts idl idl d s0 100 no_init P_WholeEx.wx_nw 3 h) by (eapply P_WholeEx.company_ok; eauto).
  assert (SE : setup ts idl idl d s0 100 no_init P_WholeEx.wx_nw 3 h).
  { destruct CO. constructor; auto; [|lia]. intros u. specialize (NW u). lia. }
  assert (C : achain (dg_up idl idl d) (dg_down idl idl d) (dg_max_retries d) 100 P_WholeEx.wx_nw 3 h l).
  { apply achain_app; [eapply arecord_chain; eauto|]. apply lift_chain. rewrite <- El. apply P_WholeEx.hauto_chain. }
  pose proof (achain_fair _ _ _ _ _ _ _ _ _ SE l C Q4 Q2 Q3) as FA. pose proof (achain_end h l) as Ez.
  pose proof (f_in _ _ _ _ _ _ _ _ _ (w_staffed _ _ _ _ _ _ _ _ _ _ CO)) as FI.
  apply existsb_exists in Q10. destruct Q10 as [[m z] [Hm Q10]]. cbn [fst] in Q10. destruct m as [| |st s j c]; try discriminate Q10.
  apply (in_map fst) in Hm. apply In_nth_error in Hm. destruct Hm as [q Hq].
  apply existsb_exists in Q8. destruct Q8 as [b [Hb Q8]]. apply Z.eqb_eq in Q8.
  exists d, s0, 100%nat, (fun n => Top (nth n (h :: map snd l) (alast h l)) false), (fun n => nth_error (map TMove (map fst l)) n).
  rewrite forallb_forall in Q7.
  split; [exact PL|split; [|split; [exact FA|split; [|split; [|split]]]]].
  - destruct CO. constructor; auto; [eauto|]. exists h. auto.
  - intros n m H. rewrite nth_error_map in H. destruct (nth_error (map fst l) n) as [a|] eqn:Ha; [|discriminate H]. injection H as <-. split; [discriminate|].
    intros R. pose proof (abefores_nth (alast h l) l h n a Ha) as Hi. apply Q7 in Hi. destruct a; try destruct R. discriminate Hi.
  - intros n x. apply within_b_ok. cbn [tp_h]. rewrite forallb_forall in Q6. apply (Q6 (nth n (h :: map snd l) (alast h l))).
    destruct (Nat.lt_ge_cases n (length (h :: map snd l))) as [L|L]; [apply nth_In; exact L|].
    rewrite nth_overflow by exact L. rewrite <- Ez. apply nth_In. cbn. rewrite map_length. lia.
  - exists q, st, s, j, c. rewrite nth_error_map, Hq. reflexivity.
  - exists (length l), b. cbn [tp_h]. rewrite Ez. split; [apply FI; exact Hb|exact Q8].
Qed.
Definition good_r (n : nat) (workers : Z) (ups : list task) : task := Task n (Roi [0] [3]) (Roi [0] [2]) (Roi [0] [2]) false Shrink workers 3 ups.
Definition good_row : list task := let a := good_r 1 2 [] in let b := good_r 2 1 [a] in let c := good_r 3 1 [b] in [b; a; c].
Lemma good_row_plain : plain good_row.
Proof.
  constructor.
  - unfold good_row, good_r. pipe_ok_tac.
  - intros t u Ht Hu. unfold good_row, good_r in *. pipe_tac;
      (constructor; try discriminate;
       [intros i Hi; cbn in Hi; destruct i as [|i]; [reflexivity|lia]
       |intros [k [[L _] X]]; specialize (X O); cbn in *; lia..]).
  - intros t Ht Nu. unfold good_row, good_r in *. pipe_tac; cbn in Nu; try tauto; eexists; (split; [left; reflexivity|]); (split; [discriminate|]); auto.
  - left. split; [|split].
    + intros t Ht. unfold good_row in *. pipe_tac; cbn; auto.
    + cbn. repeat constructor; cbn; intuition discriminate.
    + intros l1 t l2 u E Hu. unfold good_row in E.
      destruct l1 as [|a l1]; [injection E as <- _; destruct Hu as [<-|[]]; right; split; [right; left|]; reflexivity|]. injection E as <- E.
      destruct l1 as [|b l1]; [injection E as <- _; destruct Hu|]. injection E as <- E.
      destruct l1 as [|c l1]; [injection E as <- _; destruct Hu as [<-|[]]; left; left; reflexivity|]. injection E as _ E.
      destruct l1; discriminate.
Qed.
Example C67_all_well_example : good_claim good_row.
Proof. apply (good_from 300 _ 99 good_row_plain); [reflexivity|vm_compute; reflexivity]. Qed.
Print Assumptions C67_all_well_example.

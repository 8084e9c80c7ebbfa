(* One task alone: C67 with conditions on the geometry of the task only. *)
From Coq Require Import Arith Lia.
From Verif Require Import SchedProps SchedExec DGFacts2 PipeRun P_SchedCE P_Sched P_Apart SerialFacts P_Conv P_Serial ServerFacts ServerSteps
  ServerIdle P_Server P_ServerCE P_Outcome P_Sys SysFacts SysTrace P_SysEx WholeFair P_Whole PoolAll P_PoolFail.
From Verif Require Client Pool P_Pool P_WholeEx P_WholeCE.
From Verif Require Import Sys WholeAny WholeAll WholeRun P_WholeAny TopInit Top P_Top TopFair P_TopFair P_TopFairEx.
Open Scope Z_scope.

(* A task that requires no other, without read_write_conflict or with context in dimension j only; what run_blockwise
   is called with; the server has started. *)
Record alone (t : task) j (ord : list block -> list block) (ordt : list nat -> list nat) fuel (init : nat -> res unit) nw d s0 (y : top) : Prop := {
  al_ups : t_ups t = [];
  al_geom : geom_ok (tdims t) t;
  al_one : t_rwc t = true -> forall i, (i < tdims t)%nat -> i <> j -> ctx_lo t i = 0 /\ ctx_hi t i = 0;
  al_ord : is_order ord;
  al_ordt : is_order ordt;
  al_init : forall u, init u = Ok tt;
  al_workers : forall u, 1 <= nw u;
  al_sched : sched_init [t] = Ok (d, s0);
  al_fuel : fuel_ok [t] fuel;
  al_start : exists h, whole_init init nw 3 [t_id t] s0 = Ok h /\ y = Top h false
}.
Lemma alone_in t u : t_ups t = [] -> in_pipe [t] u -> u = t.
Proof. intros N [x [[<-|[]] R]]. apply requires_inv in R. destruct R as [<-|[v [Hv _]]]; auto. rewrite N in Hv. destruct Hv. Qed.
Lemma alone_begun t j ord ordt fuel init nw d s0 y : alone t j ord ordt fuel init nw d s0 y ->
  begun [t] ord ordt fuel init nw [t] d s0 y.
Proof.
  intros A. destruct A.
  assert (PO : pipe_ok [t]).
  { constructor.
    - intros u Hu. rewrite (alone_in t u) by auto. auto.
    - intros u v Hu Hv _. rewrite (alone_in t u), (alone_in t v); auto.
    - intros u v Hu Hv. rewrite (alone_in t u) in Hv by auto. rewrite al_ups0 in Hv. destruct Hv. }
  constructor; auto.
  - constructor; auto; [|intros u; specialize (al_workers0 u); lia].
    assert (R : pipe_run [t] ord ordt d s0 fuel [] s0) by (constructor; auto; constructor).
    apply (run_dual _ _ _ _ _ _ _ _ R), single_edges. intros u [<-|[]]. auto.
  - exists 2%nat. cbn. rewrite al_ups0. cbn. reflexivity.
Qed.
Section Alone.
  Context {t : task} {j : nat} {ord : list block -> list block} {ordt : list nat -> list nat} {fuel : nat} {init : nat -> res unit} {nw : nat -> Z}
    {d : dgraph} {s0 : sched} {r : nat -> top} {mv : nat -> option tmove}.
  Context (AL : alone t j ord ordt fuel init nw d s0 (r O)).
  Context (FA : tfair (dg_up ord ordt d) (dg_down ord ordt d) (dg_max_retries d) fuel init nw 3 r mv).
  Lemma alone_lonely : no_lonely [t] ord ordt d.
  Proof. intros u g b Hu N. exfalso. apply N. rewrite (alone_in t u (al_ups _ _ _ _ _ _ _ _ _ _ AL) Hu). apply AL. Qed.
  Lemma alone_order : in_order [t].
  Proof.
    intros l1 u l2 v E Hv. exfalso. destruct l1 as [|x l1].
    - injection E as <- _. rewrite (al_ups _ _ _ _ _ _ _ _ _ _ AL) in Hv. destruct Hv.
    - injection E as _ E. destruct l1; discriminate.
  Qed.
  Lemma alone_apart n : apart_failures [t] ord ordt d (hist (sv_tr (h_sv (tp_h (r n))))).
  Proof.
    pose proof (alone_begun _ _ _ _ _ _ _ _ _ _ AL) as BE. destruct BE as [CA CB CW [k Ec] Es [h [Eh E0]]].
    destruct (tfair_prefix _ _ _ _ _ _ _ _ _ FA n) as [ms R]. rewrite E0 in R.
    pose proof (ca_setup _ _ _ _ _ _ _ _ _ _ _ CA Ec Es Eh) as SE. pose proof (truns_quiet _ _ _ _ _ _ _ _ _ _ R) as Q. cbn [tp_h] in Q.
    destruct (C65_server _ _ _ _ _ _ _ _ _ _ _ _ SE Q) as [S _]. pose proof (a_pipe _ _ _ _ _ _ _ _ _ _ S) as P.
    apply (C21_conditions _ _ _ _ _ _ _ _ P (ca_inverse _ _ _ _ _ _ _ CA) (ca_fuel _ _ _ _ _ _ _ CA)). left.
    apply (C21_context_in_one_dimension _ _ _ _ _ _ _ _ j (al_ups _ _ _ _ _ _ _ _ _ _ AL) P (al_one _ _ _ _ _ _ _ _ _ _ AL)).
  Qed.
End Alone.

(* The call returns True and the fate of every block is decided. *)
Theorem C67_one_task : forall t j ord ordt fuel init nw d s0 r mv,
  let up := dg_up ord ordt d in let down := dg_down ord ordt d in let maxr := dg_max_retries d in
  alone t j ord ordt fuel init nw d s0 (r O) ->
  tfair up down maxr fuel init nw 3 r mv -> (forall n m, mv n = Some m -> m <> TStop /\ ~ raising m) ->
  exists n ms ps, run_blockwise [t] ord ordt fuel init nw [t] d s0 ms (Some (r n)) (Returned true) ps /\
    forall b, pipe_block [t] b -> settled up maxr (hist (sv_tr (h_sv (tp_h (r n))))) b.
Proof.
  intros t j ord ordt fuel init nw d s0 r mv up down maxr AL FA No.
  apply (C67_ends_partial [t] ord ordt fuel init nw [t] d s0 r mv); auto.
  - eapply alone_begun; eauto.
  - exact (alone_lonely AL).
  - exact (alone_order AL).
  - intros n. exact (alone_apart AL FA n).
Qed.
(* Every block succeeds, if none is left FAILED by the process function more than max_retries times, however often workers
   are lost, as long as that, too, counts. *)
Theorem C67_one_task_result : forall t j ord ordt fuel init nw d s0 r mv bad,
  let up := dg_up ord ordt d in let down := dg_down ord ordt d in let maxr := dg_max_retries d in
  alone t j ord ordt fuel init nw d s0 (r O) ->
  tfair up down maxr fuel init nw 3 r mv -> (forall n m, mv n = Some m -> m <> TStop /\ ~ raising m) ->
  (forall n m, mv n = Some (TMove m) -> asincere bad (tp_h (r n)) m) ->
  (forall n b, ~ bad b -> n_failed (hist (sv_tr (h_sv (tp_h (r n))))) b <= Z.max (maxr (b_task b)) 0) ->
  (forall b, bad b \/ ~ bad b) ->
  exists n, sv_stop (h_sv (tp_h (r n))) = true /\ forall b, pipe_block [t] b ->
    let h := hist (sv_tr (h_sv (tp_h (r n)))) in
    (succeeded h b <-> ~ bad b /\ ~ doomed [t] ord ordt d bad b) /\
    (perm_failed maxr h b <-> bad b /\ ~ doomed [t] ord ordt d bad b) /\
    (orphan up maxr h b <-> doomed [t] ord ordt d bad b).
Proof.
  intros t j ord ordt fuel init nw d s0 r mv bad up down maxr AL FA No SI FW Dc.
  apply (C67_result_partial [t] ord ordt fuel init nw [t] d s0 r mv bad); auto.
  - eapply alone_begun; eauto.
  - exact (alone_lonely AL).
  - exact (alone_order AL).
  - intros n. exact (alone_apart AL FA n).
Qed.
Print Assumptions C67_one_task.
Print Assumptions C67_one_task_result.

(* A task with 4 blocks of width 1 that read a voxel more on either side, hence with conflicts; worker 0 is interrupted in
   its first block. *)
Definition one_t : task := Task 1 (Roi [0] [6]) (Roi [0] [3]) (Roi [1] [1]) true Valid 2 3 [].
Definition one_checks (d : dgraph) (h : whole) (l : list (amove * whole)) : bool :=
  let z := alast h l in
  enough_b d 100 && sv_stop (h_sv z) && negb (existsb (P_WholeEx.hcan_b z) (P_WholeEx.everyone z)) &&
  forallb (fun '(h, m) => aprudent_b h m) (abefores h l) &&
  forallb (fun '(h, m) => asincere_b h m && quiet_b m) (abefores h l) &&
  existsb (fun p => match fst p with ABreak _ _ _ _ => true | _ => false end) l &&
  Nat.eqb (length (filter (fun b => negb (Nat.eqb (length (dg_up idl idl d b)) 0)) (pblocks d))) 2.
Definition one_b (steps : nat) (t : task) : bool :=
  match fx_run steps [t] with Some (x, l2) => let '(d, s0, h, l1) := x in one_checks d h (l1 ++ map lift l2) | None => false end.
Definition one_claim (t : task) : Prop := exists d s0 fuel r mv k st s j c n,
  alone t 0 idl idl fuel no_init P_WholeEx.wx_nw d s0 (r O) /\
  tfair (dg_up idl idl d) (dg_down idl idl d) (dg_max_retries d) fuel no_init P_WholeEx.wx_nw 3 r mv /\
  (forall n m, mv n = Some m -> m <> TStop /\ ~ raising m) /\
  mv k = Some (TMove (ABreak st s j c)) /\ sv_stop (h_sv (tp_h (r n))) = true.
Lemma one_from steps t : t_ups t = [] -> geom_ok (tdims t) t -> tdims t = 1%nat -> one_b steps t = true -> one_claim t.
Proof.
  unfold one_b. intros Nu Ge Di Q. destruct (fx_run steps [t]) as [[[[[d s0] h] l1] l2]|] eqn:E; [|discriminate Q]. unfold fx_run in E.
  destruct (sched_init [t]) as [[d' s']|] eqn:Es; [|discriminate]. destruct (whole_init _ _ _ _ _) as [h'|] eqn:Ei; [|discriminate].
  destruct (arecord _ _ _ _ _ _ fx_break h') as [l'|] eqn:E1; [|discriminate]. injection E as -> -> -> -> El. set (l := l1 ++ map lift l2) in *. unfold one_checks in Q.
  apply andb_prop in Q. destruct Q as [Q _]. apply andb_prop in Q. destruct Q as [Q Q10]. apply andb_prop in Q. destruct Q as [Q Q7].
  apply andb_prop in Q. destruct Q as [Q Q4]. apply andb_prop in Q. destruct Q as [Q Q3]. apply andb_prop in Q. destruct Q as [Q1 Q2]. apply Bool.negb_true_iff in Q3.
  assert (NW : forall u, 1 <= P_WholeEx.wx_nw u) by (intros u; unfold P_WholeEx.wx_nw; destruct (Nat.eqb u 1); lia).
  assert (PO : pipe_ok [t]).
  { constructor.
    - intros u Hu. rewrite (alone_in t u) by auto. auto.
    - intros u v Hu Hv _. rewrite (alone_in t u), (alone_in t v); auto.
    - intros u v Hu Hv. rewrite (alone_in t u) in Hv by auto. rewrite Nu in Hv. destruct Hv. }
  assert (EO : edges_ok [t]) by (apply single_edges; intros u [<-|[]]; exact Nu).
  assert (CO : company [t] idl idl d s0 100 no_init P_WholeEx.wx_nw 3 h) by (eapply P_WholeEx.company_ok; eauto).
  assert (SE : setup [t] idl idl d s0 100 no_init P_WholeEx.wx_nw 3 h).
  { destruct CO. constructor; auto; [|lia]. intros u. specialize (NW u). lia. }
  assert (C : achain (dg_up idl idl d) (dg_down idl idl d) (dg_max_retries d) 100 P_WholeEx.wx_nw 3 h l).
  { apply achain_app; [eapply arecord_chain; eauto|]. apply lift_chain. rewrite <- El. apply P_WholeEx.hauto_chain. }
  pose proof (achain_fair _ _ _ _ _ _ _ _ _ SE l C Q4 Q2 Q3) as FA. pose proof (achain_end h l) as Ez.
  apply existsb_exists in Q10. destruct Q10 as [[m z] [Hm Q10]]. cbn [fst] in Q10. destruct m as [| |st s j c]; try discriminate Q10.
  apply (in_map fst) in Hm. apply In_nth_error in Hm. destruct Hm as [q Hq].
  exists d, s0, 100%nat, (fun n => Top (nth n (h :: map snd l) (alast h l)) false), (fun n => nth_error (map TMove (map fst l)) n), q, st, s, j, c, (length l).
  rewrite forallb_forall in Q7.
  split; [|split; [exact FA|split; [|split]]].
  - destruct CO. constructor; auto.
    + intros _ i Hi Ni. lia.
    + exists h. auto.
  - intros n m H. rewrite nth_error_map in H. destruct (nth_error (map fst l) n) as [a|] eqn:Ha; [|discriminate H]. injection H as <-. split; [discriminate|].
    intros R. pose proof (abefores_nth (alast h l) l h n a Ha) as Hi. apply Q7 in Hi. apply andb_prop in Hi. destruct Hi as [_ Hi].
    destruct a; try destruct R. discriminate Hi.
  - rewrite nth_error_map, Hq. reflexivity.
  - cbn [tp_h]. rewrite Ez. exact Q2.
Qed.
Example C67_one_example : one_claim one_t.
Proof.
  apply (one_from 300); [reflexivity| |reflexivity|vm_compute; reflexivity].
  assert (PO : pipe_ok [one_t]) by (unfold one_t; pipe_ok_tac).
  apply (po_geom _ PO). exists one_t. split; [left; reflexivity|constructor].
Qed.

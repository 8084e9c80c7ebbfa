(* C89: fair runs over the network (Wire.v) come to their end. *)
From Coq Require Import Arith Lia.
From Verif Require Import SchedProps SchedExec DGFacts2 PipeRun P_SchedCE P_Sched SerialFacts P_Conv P_Serial ServerFacts ServerSteps
  ServerIdle P_Server P_Server2 P_ServerCE P_Outcome P_Notify PoolAll P_PoolFail P_Sys.
From Verif Require Client Pool P_Pool Net NetFacts P_Net WireNet P_Wire.
From Verif Require Import Sys SysFacts SysMeasure SysTrace WholeSrv WholeFair P_Whole WholeSim WholeAny WholeAll WholeRun Wire WireSim WireFair.
Open Scope Z_scope.

(* Every fair run over the network comes to its end, and then every block has succeeded, failed for good, or cannot run because a
   block it depends on failed (as C61, with threads, queues and sockets). *)
Theorem C89_ends_partial : forall tasks ord ordt d s0 fuel init nw mbf h0 dumps loads last r mv,
  let up := dg_up ord ordt d in let down := dg_down ord ordt d in let maxr := dg_max_retries d in
  company tasks ord ordt d s0 fuel init nw mbf h0 -> 0 <= mbf -> no_lonely tasks ord ordt d -> in_order tasks ->
  P_Net.lossless dumps loads -> r O = wire_init h0 ->
  xfair up down maxr fuel init nw mbf dumps loads last r mv ->
  (forall n, apart_failures tasks ord ordt d (hist (sv_tr (x_sv (r n))))) ->
  exists n, sv_stop (x_sv (r n)) = true /\ forall b, pipe_block tasks b -> settled up maxr (hist (sv_tr (x_sv (r n)))) b.
Proof.
  intros tasks ord ordt d s0 fuel init nw mbf h0 dumps loads last r mv up down maxr CO ML NL UF Lo R0 FA F.
  pose proof (wire_fair _ _ _ _ _ _ _ _ _ _ CO ML _ _ Lo _ _ _ R0 FA) as HF.
  pose proof (wire_sv _ _ _ _ _ _ _ _ _ _ CO ML _ _ Lo _ _ _ R0 FA) as HS.
  destruct (C61_ends_partial tasks ord ordt d s0 fuel init nw mbf _ _ CO NL UF HF) as [n [Sn Hn]].
  { intros n. rewrite HS. apply F. }
  exists n. rewrite HS in Sn, Hn. auto.
Qed.
Print Assumptions C89_ends_partial.

(* the worker says that its block is done: client.py:86-101, task.py:183-189 *)
Definition xwell (o : Client.outcome) : Prop :=
  match o with Client.Finished SUCCESS | Client.Finished PROCESSING | Client.Interrupted SUCCESS => True | _ => False end.
(* no body of a bad block ends well, no check function finds it done *)
Definition xsincere (bad : block -> Prop) (x : wire) (m : xmove) : Prop :=
  match m with
  | XBody st o => xwell o -> forall pb, x_pc x st = PWork pb -> ~ bad (pb_block pb)
  | XServe i => forall k b, i_chk i k b = CheckTrue -> ~ bad b
  | _ => True
  end.
(* The result depends on the bad blocks only, as in C61. *)
Theorem C89_result_partial : forall tasks ord ordt d s0 fuel init nw mbf h0 dumps loads last r mv bad,
  let up := dg_up ord ordt d in let down := dg_down ord ordt d in let maxr := dg_max_retries d in
  company tasks ord ordt d s0 fuel init nw mbf h0 -> 0 <= mbf -> no_lonely tasks ord ordt d -> in_order tasks ->
  P_Net.lossless dumps loads -> r O = wire_init h0 ->
  xfair up down maxr fuel init nw mbf dumps loads last r mv ->
  (forall n, apart_failures tasks ord ordt d (hist (sv_tr (x_sv (r n))))) ->
  (forall n m, mv n = Some m -> xsincere bad (r n) m) ->
  (forall n b, ~ bad b -> n_failed (hist (sv_tr (x_sv (r n)))) b <= Z.max (maxr (b_task b)) 0) ->
  (forall b, bad b \/ ~ bad b) ->
  exists n, sv_stop (x_sv (r n)) = true /\ forall b, pipe_block tasks b ->
    let h := hist (sv_tr (x_sv (r n))) in
    (succeeded h b <-> ~ bad b /\ ~ doomed tasks ord ordt d bad b) /\
    (perm_failed maxr h b <-> bad b /\ ~ doomed tasks ord ordt d bad b) /\
    (orphan up maxr h b <-> doomed tasks ord ordt d bad b).
Proof.
  intros tasks ord ordt d s0 fuel init nw mbf h0 dumps loads last r mv bad up down maxr CO ML NL UF Lo R0 FA F Si Fw Dc.
  pose proof (wire_fair _ _ _ _ _ _ _ _ _ _ CO ML _ _ Lo _ _ _ R0 FA) as HF.
  pose proof (wire_sv _ _ _ _ _ _ _ _ _ _ CO ML _ _ Lo _ _ _ R0 FA) as HS.
  destruct (C61_result_partial tasks ord ordt d s0 fuel init nw mbf _ _ bad CO NL UF HF) as [n [Sn Hn]]; auto.
  - intros n. rewrite HS. apply F.
  - intros n a Ea. unfold am in Ea. destruct (mv n) as [m|] eqn:Em; [|discriminate Ea]. specialize (Si n _ Em).
    pose proof (xf_step _ _ _ _ _ _ _ _ _ _ _ _ FA n) as St. rewrite Em in St.
    destruct m as [s k|s|s|s k|s o|s c|s e|i|]; cbn [amv] in Ea; try discriminate Ea.
    + destruct (x_pc (r n) s), (x_pc (r (S n)) s); try discriminate Ea; injection Ea as <-; exact I.
    + injection Ea as <-. cbn [hsincere]. intros Wo pb Ew. inversion St as [| | | |s' t pb0 o' Ex Ep E1 E2| | | |]; subst.
      pose proof (k_all _ _ _ _ _ _ _ _ _ _ CO ML _ _ Lo _ _ _ R0 FA n) as Kn. apply k_rel in Kn.
      pose proof (l_at _ _ _ _ (r_live _ _ _ _ _ Kn _ _ Ex)) as La.
      rewrite Ep in La. cbn in La. pose proof (eq_trans (eq_sym La) Ew) as Q. injection Q as <-. apply Si; [|exact Ep]. destruct o as [[]|[]|[]]; exact Wo.
    + destruct (_ && _); injection Ea as <-; exact I.
    + injection Ea as <-. exact Si.
  - intros n b Nb. rewrite HS. auto.
  - exists n. rewrite HS in Sn, Hn. auto.
Qed.
Print Assumptions C89_result_partial.

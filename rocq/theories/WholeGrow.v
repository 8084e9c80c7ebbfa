(* The pools and the system of Sys.v: what the pools do is done there worker by worker. *)
From Coq Require Import Arith Lia.
From Verif Require Import VecFacts SchedProps SerialFacts P_Conv ServerFacts ServerSteps PoolGrow.
From Verif Require Export SysLive WholeEv.
From Verif Require Client Pool P_Pool.
Open Scope Z_scope.

Definition osomes (l : list (option nat)) : list nat := flat_map (fun o => match o with Some d => [d] | None => [] end) l.
Lemma osomes_app l m : osomes (l ++ m) = osomes l ++ osomes m.
Proof. apply flat_map_app. Qed.
Lemma in_osomes l d : In d (osomes l) <-> In (Some d) l.
Proof.
  unfold osomes. rewrite in_flat_map. split.
  - intros [[e|] [H1 H2]]; [destruct H2 as [<-|[]]; auto|destruct H2].
  - intros H. exists (Some d). split; auto. left. auto.
Qed.
Definition nones (l : list (option nat)) : Z := sum (fun o => match o with None => 1 | _ => 0 end) l.

(* a dead worker that is no longer in its pool was replaced *)
Definition abs_at (ps : Pool.pools) (st : nat) (p : phase) : phase :=
  match p with Dead => if pooledb ps st then Dead else Replaced | _ => p end.
Definition abs_w (ps : Pool.pools) (f : nat -> worker) (st : nat) : worker :=
  Worker (w_task (f st)) (abs_at ps st (w_at (f st))) (w_out (f st)) (w_in (f st)).
Record mirror (y : sys) (sv : server) (ps : Pool.pools) (f : nat -> worker) : Prop := {
  mi_sv : y_sv y = sv;
  mi_team : y_team y = rev (seq 0 (Pool.nxt (Pool.ps_sys ps)));
  mi_w : forall st, (st < Pool.nxt (Pool.ps_sys ps))%nat -> y_w y st = abs_w ps f st
}.
Lemma mi_in y sv ps f st : mirror y sv ps f -> (In st (y_team y) <-> (st < Pool.nxt (Pool.ps_sys ps))%nat).
Proof. intros M. rewrite (mi_team _ _ _ _ M), <- in_rev, in_seq. lia. Qed.

(* what is done by the pools alone *)
Definition pool_move (m : move) : Prop := match m with Die _ _ | Replace _ _ | Hire _ _ => True | _ => False end.

Section Grow.
  Variables (V : list block) (up down : block -> list block) (seeds : nat -> list block).
  Variable maxr : nat -> Z.
  Variable fuel : nat.
  Hypothesis GG : good_graph V up down seeds.
  Hypothesis EN : enough V fuel.
  Variable s0 : sched.
  Hypothesis FR : fresh V seeds s0.
  Variable tasks : list nat.
  Hypothesis known : forall t, In t tasks -> In t (s_order s0).
  Variable init : nat -> res unit.
  Hypothesis init_ok : forall t, init t = Ok tt.
  Local Notation Good := (Good V up down maxr fuel s0 tasks).
  Local Notation step := (step up down maxr fuel init).
  Local Notation runs := (runs up down maxr fuel init).
  Local Notation mu2 := (mu2 V maxr).

  Lemma runs_one y m y' : step y m y' -> runs y [m] y'.
  Proof. intros S. apply (runs_step _ _ _ _ _ y [] y m y'); [constructor|auto]. Qed.
  Lemma runs_app y ms y1 ms' y2 : runs y ms y1 -> runs y1 ms' y2 -> runs y (ms ++ ms') y2.
  Proof.
    intros R1 R2. induction R2 as [|ms' y1' m y2 R2 IH S]; [rewrite app_nil_r; auto|]. rewrite app_assoc. eapply runs_step; eauto.
  Qed.
  Lemma hire_mu2 y st t y' : Good y -> step y (Hire st t) y' -> mu2 y' <= mu2 y + 7.
  Proof.
    intros G S. destruct (step_mu V up down seeds maxr fuel GG EN s0 FR tasks known init init_ok _ _ _ G S) as [M _]. cbn in M.
    inversion S as [| | | | | | |st' t' Nt Ht|]; subst. unfold mu2. unfold deads at 1. cbn [y_team y_w sum]. rewrite Nat.eqb_refl. cbn [w_at].
    rewrite (sum_same (fun s => match w_at (y_w y s) with Dead => 8 | _ => 0 end)); [unfold deads; lia|].
    intros s Hs. destruct (Nat.eqb_spec s st) as [->|N]; [tauto|reflexivity].
  Qed.
  Lemma die_mu2 y st n y' : Good y -> step y (Die st n) y' -> mu2 y' <= mu2 y + 8.
  Proof.
    intros G S. destruct (step_mu V up down seeds maxr fuel GG EN s0 FR tasks known init init_ok _ _ _ G S) as [M _]. cbn in M.
    inversion S as [| | | | |st' t p o r n' Hst Ew Rn Sd| | |]; subst. unfold mu2. unfold deads at 1. cbn [put y_team y_w] in *.
    pose (g := fun v : worker => match w_at v with Dead => 8 | _ => 0 end).
    assert (Q := sum_one (fun s => g (y_w y s)) (fun s => g (if Nat.eqb s st then Worker t Dead (firstn n o) [] else y_w y s)) (y_team y) st
      (yi_nodup _ _ _ _ _ _ _ _ _ _ _ (proj1 G)) Hst).
    cbv beta in Q. rewrite Nat.eqb_refl in Q. cbn [g w_at] in Q.
    assert (Q' : sum (fun s => g (if Nat.eqb s st then Worker t Dead (firstn n o) [] else y_w y s)) (y_team y) + g (y_w y st) = sum (fun s => g (y_w y s)) (y_team y) + 8).
    { apply Q. intros s _ N. rewrite (proj2 (Nat.eqb_neq _ _) N). reflexivity. }
    assert (Gy : 0 <= g (y_w y st)) by (unfold g; destruct (w_at (y_w y st)); lia).
    change (mus V maxr (put y st (Worker t Dead (firstn n o) [])) + sum (fun s => g (if Nat.eqb s st then Worker t Dead (firstn n o) [] else y_w y s)) (y_team y) <= mus V maxr y + deads y + 8).
    change (deads y) with (sum (fun s => g (y_w y s)) (y_team y)). lia.
  Qed.

  (* new workers, one by one *)
  Lemma runs_grow L : forall y n, y_team y = rev (seq 0 n) -> (forall t o, In (t, o) L -> In t (map fst (sv_pend (y_sv y)))) ->
    NoDup (osomes (map snd L)) ->
    (forall t d, In (t, Some d) L -> (d < n)%nat /\ w_at (y_w y d) = Dead /\ w_task (y_w y d) = t) ->
    exists ms y', (runs y ms y' /\ Forall pool_move ms) /\ y_sv y' = y_sv y /\ y_team y' = rev (seq 0 (n + length L)) /\
      (forall j, (j < n)%nat -> ~ In (Some j) (map snd L) -> y_w y' j = y_w y j) /\
      (forall j, (j < n)%nat -> In (Some j) (map snd L) -> y_w y' j = Worker (w_task (y_w y j)) Replaced (w_out (y_w y j)) (w_in (y_w y j))) /\
      (forall k t o, nth_error L k = Some (t, o) -> y_w y' (n + k)%nat = Worker t Unborn [] []) /\
      (L = [] -> y' = y) /\
      (Good y -> Good y' /\ mu2 y' + Z.of_nat (length (osomes (map snd L))) <= mu2 y + 7 * nones (map snd L)).
  Proof.
    induction L as [|[t o] L IH]; intros y n Et Hk Nd Hd.
    - exists [], y. split; [split; constructor|]. split; auto. cbn [length]. rewrite Nat.add_0_r. split; auto. split; auto. split; [intros j _ []|].
      split; [intros [|k]; discriminate|]. split; auto. intros G. split; auto. cbn. lia.
    - assert (Rs : n :: rev (seq 0 n) = rev (seq 0 (S n))) by (rewrite seq_S, rev_app_distr; reflexivity).
      assert (Nn : ~ In n (y_team y)) by (rewrite Et, <- in_rev, in_seq; lia).
      destruct o as [d|].
      + destruct (Hd t d (or_introl eq_refl)) as [Ld [Dd Td]].
        assert (Id : In d (y_team y)) by (rewrite Et, <- in_rev, in_seq; lia).
        destruct (y_w y d) as [td pd od rd] eqn:Ed. cbn in Dd, Td. subst td pd.
        cbn [map snd osomes flat_map app] in Nd. apply NoDup_cons_iff in Nd. destruct Nd as [Nd1 Nd2].
        assert (Nd1' : ~ In (Some d) (map snd L)) by (intros X; apply Nd1, in_osomes, X).
        assert (Sp := step_replace up down maxr fuel init y d n t od rd Id Ed Nn).
        set (y1 := Sys _ _ _) in Sp.
        assert (W1 : forall j, (j < n)%nat -> j <> d -> y_w y1 j = y_w y j).
        { intros j Lj Nj. cbn. destruct (Nat.eqb_spec j n); [lia|]. rewrite (proj2 (Nat.eqb_neq _ _) Nj). reflexivity. }
        assert (W2 : y_w y1 d = Worker t Replaced od rd).
        { cbn. destruct (Nat.eqb_spec d n); [lia|]. rewrite Nat.eqb_refl. reflexivity. }
        assert (W3 : y_w y1 n = Worker t Unborn [] []) by (cbn; rewrite Nat.eqb_refl; reflexivity).
        destruct (IH y1 (S n)) as [ms [y' [[R Pm] [Sv [Tm [A1 [A2 [A3 [A4 A5]]]]]]]]].
        { cbn [y1 y_team]. rewrite Et. exact Rs. }
        { intros u o Hu. apply (Hk u o). right. auto. }
        { exact Nd2. }
        { intros u e He. destruct (Hd u e (or_intror He)) as [H1 [H2 H3]].
          assert (e <> d) by (intros ->; apply Nd1'; apply (in_map snd) in He; exact He).
          rewrite W1 by auto. auto. }
        exists ([Replace d n] ++ ms), y'. split; [split; [eapply runs_app; [apply runs_one; exact Sp|exact R]|constructor; auto; exact I]|]. split; [exact Sv|].
        split; [rewrite Tm; f_equal; f_equal; cbn; lia|]. cbn [map snd].
        split; [|split; [|split; [|split]]].
        * intros j Lj Nj. rewrite A1; [|lia|intros X; apply Nj; right; auto]. apply W1; auto. intros ->. apply Nj. left. auto.
        * intros j Lj [X|X].
          -- injection X as <-. rewrite A1 by (auto; lia). rewrite W2, Ed. reflexivity.
          -- rewrite A2 by (auto; lia). assert (j <> d) by (intros ->; tauto). rewrite W1 by auto. reflexivity.
        * intros [|k] u o X.
          -- cbn in X. injection X as <- <-. rewrite Nat.add_0_r. rewrite A1; [exact W3|lia|].
             intros X. apply in_map_iff in X. destruct X as [[u o] [X1 X2]]. cbn in X1. subst o.
             destruct (Hd u n (or_intror X2)) as [X1 _]. lia.
          -- cbn in X. rewrite <- (A3 _ _ _ X). f_equal. lia.
        * discriminate.
        * intros G. assert (G1 : Good y1) by (eapply step_good; eauto). destruct (A5 G1) as [G' M]. split; auto.
          destruct (step_mu2 V up down seeds maxr fuel GG EN s0 FR tasks known init init_ok _ _ _ G Sp eq_refl) as [_ M2].
          specialize (M2 (or_intror eq_refl)). change (osomes (Some d :: map snd L)) with (d :: osomes (map snd L)).
          change (nones (Some d :: map snd L)) with (0 + nones (map snd L)). cbn [length]. lia.
      + assert (Ht : In t (map fst (sv_pend (y_sv y)))) by (apply (Hk t None); left; auto).
        assert (Sp := step_hire up down maxr fuel init y n t Nn Ht). set (y1 := Sys _ _ _) in Sp.
        assert (W1 : forall j, (j < n)%nat -> y_w y1 j = y_w y j).
        { intros j Lj. cbn. destruct (Nat.eqb_spec j n); [lia|]. reflexivity. }
        assert (W3 : y_w y1 n = Worker t Unborn [] []) by (cbn; rewrite Nat.eqb_refl; reflexivity).
        destruct (IH y1 (S n)) as [ms [y' [[R Pm] [Sv [Tm [A1 [A2 [A3 [A4 A5]]]]]]]]].
        { cbn [y1 y_team]. rewrite Et. exact Rs. }
        { intros u o Hu. apply (Hk u o). right. auto. }
        { exact Nd. }
        { intros u e He. destruct (Hd u e (or_intror He)) as [H1 [H2 H3]]. rewrite W1 by auto. auto. }
        exists ([Hire n t] ++ ms), y'. split; [split; [eapply runs_app; [apply runs_one; exact Sp|exact R]|constructor; auto; exact I]|]. split; [exact Sv|].
        split; [rewrite Tm; f_equal; f_equal; cbn; lia|]. cbn [map snd].
        split; [|split; [|split; [|split]]].
        * intros j Lj Nj. rewrite A1; [|lia|intros X; apply Nj; right; auto]. apply W1; auto.
        * intros j Lj [X|X]; [discriminate|]. rewrite A2 by (auto; lia). rewrite W1 by auto. reflexivity.
        * intros [|k] u o X.
          -- cbn in X. injection X as <- <-. rewrite Nat.add_0_r. rewrite A1; [exact W3|lia|].
             intros X. apply in_map_iff in X. destruct X as [[u o] [X1 X2]]. cbn in X1. subst o.
             destruct (Hd u n (or_intror X2)) as [X1 _]. lia.
          -- cbn in X. rewrite <- (A3 _ _ _ X). f_equal. lia.
        * discriminate.
        * intros G. assert (G1 : Good y1) by (eapply step_good; eauto). destruct (A5 G1) as [G' M]. split; auto.
          pose proof (hire_mu2 _ _ _ _ G Sp) as M2. change (osomes (None :: map snd L)) with (osomes (map snd L)).
          change (nones (None :: map snd L)) with (1 + nones (map snd L)). lia.
  Qed.

  Variable nw : nat -> Z.
  Hypothesis nw_ok : forall t, 0 <= nw t.
  Variable mbf : Z.
  Let keys := dedup Nat.eqb tasks.
  Hypothesis keys_nodup : NoDup keys.
  Local Notation HI := (HI nw keys).
  Local Notation grown := (grown nw keys).

  Lemma news_nodup R R' ps ps' f f' Q E : grown R R' ps ps' f f' Q E ->
    (forall t p, In (t, p) (Pool.ps_pools ps) -> NoDup (osomes (E t p))) -> NoDup (osomes (map snd (news E (Pool.ps_pools ps)))).
  Proof.
    intros G Hn. pose proof (gn_hi _ _ _ _ _ _ _ _ _ _ G) as H. pose proof keys_nodup as Nk. rewrite <- (hi_keys _ _ _ _ _ H) in Nk.
    assert (P : forall l, incl l (Pool.ps_pools ps) -> NoDup (map fst l) -> NoDup (osomes (map snd (news E l)))).
    { induction l as [|[t p] l IH]; intros I N; [constructor|]. cbn [news flat_map map fst snd] in *. rewrite map_app, osomes_app.
      apply NoDup_cons_iff in N. destruct N as [N1 N2]. assert (Hp : In (t, p) (Pool.ps_pools ps)) by (apply I; left; auto).
      assert (IH' : NoDup (osomes (map snd (news E l)))) by (apply IH; auto; intros x Hx; apply I; right; auto).
      rewrite map_map. cbn [snd]. rewrite map_id. assert (A := Hn t p Hp).
      assert (D : forall d, In d (osomes (E t p)) -> ~ In d (osomes (map snd (news E l)))).
      { intros d X Y. apply in_osomes in X. apply in_osomes in Y. apply in_map_iff in Y. destruct Y as [[u o] [Eo Y]]. cbn in Eo. subst o.
        apply news_in in Y. destruct Y as [q [Hq Y]]. assert (Hq' : In (u, q) (Pool.ps_pools ps)) by (apply I; right; auto).
        destruct (gn_dead _ _ _ _ _ _ _ _ _ _ G _ _ _ Hp X) as [_ X1]. destruct (gn_dead _ _ _ _ _ _ _ _ _ _ G _ _ _ Hq' Y) as [_ Y1].
        apply in_map_iff in X1. destruct X1 as [v [Ev Hv]]. apply in_map_iff in Y1. destruct Y1 as [w [Ew Hw]].
        destruct (hi_in _ _ _ _ _ H _ _ _ Hp Hv) as [s1 [T1 _]]. destruct (hi_in _ _ _ _ _ H _ _ _ Hq' Hw) as [s2 [T2 _]].
        rewrite Ev in T1. rewrite Ew in T2. assert (u = t) by congruence. subst u. apply N1. apply (in_map fst) in Hq. exact Hq. }
      fold (news E l). revert A D IH'. generalize (osomes (E t p)) as a, (osomes (map snd (news E l))) as b. clear. intros a b A D B.
      induction A as [|x a Nx Na IHa]; cbn; auto. constructor.
      - intros X. apply in_app_or in X. destruct X as [X|X]; auto. apply (D x); auto. left. auto.
      - apply IHa. intros d Hd. apply D. right. auto. }
    apply P; auto. apply incl_refl.
  Qed.

  (* the simulation of new workers *)
  Lemma grown_sim R R' ps ps' f f' Q E y sv : grown R R' ps ps' f f' Q E -> mirror y sv ps f -> Good y ->
    (forall t p, In (t, p) (Pool.ps_pools ps) -> NoDup (osomes (E t p))) ->
    let L := news E (Pool.ps_pools ps) in
    exists ms y', (runs y ms y' /\ Forall pool_move ms) /\ mirror y' sv ps' f' /\ Good y' /\
      mu2 y' + Z.of_nat (length (osomes (map snd L))) <= mu2 y + 7 * nones (map snd L) /\ (L = [] -> y' = y).
  Proof.
    intros G M Gy Hn L. pose proof (gn_hi _ _ _ _ _ _ _ _ _ _ G) as H. pose proof (news_nodup _ _ _ _ _ _ _ _ G Hn) as Nd. fold L in Nd.
    set (n := Pool.nxt (Pool.ps_sys ps)) in *.
    destruct (runs_grow L y n (mi_team _ _ _ _ M)) as [ms [y' [Rn [Sv [Tm [A1 [A2 [A3 [A4 A5]]]]]]]]].
    - intros t o Ho. apply news_in in Ho. destruct Ho as [p [Hp _]]. rewrite (si_pend _ _ _ _ _ _ _ _ (yi_sv _ _ _ _ _ _ _ _ _ _ _ (proj1 Gy))).
      fold keys. rewrite <- (hi_keys _ _ _ _ _ H). apply (in_map fst) in Hp. exact Hp.
    - exact Nd.
    - intros t d Hd. apply news_in in Hd. destruct Hd as [p [Hp Hd]]. destruct (gn_dead _ _ _ _ _ _ _ _ _ _ G _ _ _ Hp Hd) as [Dd Ip].
      assert (Pd : pooledb ps d = true) by (apply pooledb_iff; exists t, p; auto).
      apply in_map_iff in Ip. destruct Ip as [w [Ew Hw]].
      assert (Ld : (d < n)%nat) by (rewrite <- Ew; eapply hi_in_lt; eauto).
      destruct (hi_in _ _ _ _ _ H _ _ _ Hp Hw) as [s [Es _]]. rewrite Ew in Es.
      split; auto. rewrite (mi_w _ _ _ _ M d Ld). unfold abs_w. cbn. rewrite Dd. cbn. rewrite Pd. split; auto. eapply (hi_task _ _ _ _ _ H); eauto.
    - exists ms, y'. split; auto. destruct (A5 Gy) as [Gy' M']. split; [|split; [auto|split; auto]].
      pose proof (gn_nxt _ _ _ _ _ _ _ _ _ _ G) as Nx. fold n L in Nx. constructor.
      + rewrite Sv. apply M.
      + rewrite Tm, Nx. reflexivity.
      + intros st Hst. destruct (gn_cases _ _ _ _ _ _ _ _ _ _ G st Hst) as [Lt|[k [t [o [-> X]]]]]; fold n; [fold n in Lt|].
        * pose proof (gn_gone _ _ keys_nodup _ _ _ _ _ _ _ _ G st Lt) as Gg. fold L in Gg.
          unfold abs_w. rewrite (gn_old _ _ _ _ _ _ _ _ _ _ G) by auto.
          destruct (in_dec (fun a b : option nat => ltac:(decide equality; apply Nat.eq_dec)) (Some st) (map snd L)) as [I|I].
          -- rewrite (A2 st Lt I), (mi_w _ _ _ _ M st Lt). unfold abs_w. cbn [w_task w_out w_in].
             destruct (proj1 Gg I) as [_ Np]. apply pooledb_not in Np.
             apply in_map_iff in I. destruct I as [[t o] [Eo I]]. cbn in Eo. subst o. apply news_in in I. destruct I as [p [Hp I]].
             destruct (gn_dead _ _ _ _ _ _ _ _ _ _ G _ _ _ Hp I) as [Dd _]. rewrite Dd. cbn. rewrite Np. reflexivity.
          -- rewrite (A1 st Lt I), (mi_w _ _ _ _ M st Lt). unfold abs_w. f_equal.
             destruct (w_at (f st)); cbn; auto.
             destruct (pooledb ps st) eqn:P1, (pooledb ps' st) eqn:P2; auto; exfalso.
             ++ apply I. apply (proj2 Gg). split; [apply pooledb_iff|apply pooledb_not]; auto.
             ++ apply pooledb_iff in P2. apply (gn_pooled_back _ _ _ _ _ _ _ _ _ _ G st Lt) in P2. apply pooledb_iff in P2. congruence.
        * rewrite (A3 _ _ _ X). unfold abs_w. fold L in X. pose proof (gn_new _ _ _ _ _ _ _ _ _ _ G _ _ _ X) as Nw. fold n in Nw. rewrite Nw. reflexivity.
  Qed.
End Grow.

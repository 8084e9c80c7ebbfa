(* Every move of the system uses something up. *)
From Coq Require Import Arith Lia Permutation.
From Verif Require Import VecFacts SchedProps SerialFacts P_Conv ServerFacts ServerSteps.
From Verif Require Export SysFacts.
From Verif Require Client.
Open Scope Z_scope.

Definition phi (p : phase) : Z :=
  match p with Unborn => 7 | Asking => 6 | Waiting => 1 | Working _ => 16 | _ => 0 end.
Definition m_wt (m : message) : Z := match m with MAcquire _ => 4 | MBlockFailed _ _ => 8 | _ => 1 end.
Definition r_wt (r : Client.reply) : Z :=
  match r with Client.RSend _ => 17 | Client.RShutdown => 2 | _ => 0 end.
Fixpoint sum {A} (f : A -> Z) (l : list A) : Z := match l with [] => 0 | a :: r => f a + sum f r end.
Lemma sum_app {A} (f : A -> Z) l m : sum f (l ++ m) = sum f l + sum f m.
Proof. induction l; cbn; lia. Qed.
Lemma sum_nonneg {A} (f : A -> Z) l : (forall a, 0 <= f a) -> 0 <= sum f l.
Proof. intros H. induction l as [|a l IH]; cbn; [lia|]. specialize (H a). lia. Qed.
Lemma sum_firstn {A} (f : A -> Z) n l : (forall a, 0 <= f a) -> sum f (firstn n l) <= sum f l.
Proof.
  intros H. rewrite <- (firstn_skipn n l) at 2. rewrite sum_app. pose proof (sum_nonneg f (skipn n l) H). lia.
Qed.
Lemma m_wt_nonneg m : 0 <= m_wt m.
Proof. destruct m; cbn; lia. Qed.
Lemma r_wt_nonneg m : 0 <= r_wt m.
Proof. destruct m; cbn; lia. Qed.
Definition hears (p : phase) : bool := match p with Waiting => true | _ => false end.
Definition wt (w : worker) : Z :=
  phi (w_at w) + sum m_wt (w_out w) + (if hears (w_at w) then sum r_wt (w_in w) else 0).
Lemma wt_nonneg w : 0 <= wt w.
Proof.
  unfold wt. pose proof (sum_nonneg _ (w_out w) m_wt_nonneg). pose proof (sum_nonneg _ (w_in w) r_wt_nonneg).
  destruct (w_at w); cbn [phi hears]; lia.
Qed.
Lemma sum_one (f g : nat -> Z) team st : NoDup team -> In st team -> (forall s, In s team -> s <> st -> g s = f s) ->
  sum g team + f st = sum f team + g st.
Proof.
  induction team as [|a team IH]; [intros _ []|]. intros N H E. inversion N as [|? ? N1 N2]; subst. cbn.
  destruct (Nat.eq_dec a st) as [->|Na].
  - assert (S : sum g team = sum f team).
    { clear IH. assert (K : forall s, In s team -> g s = f s) by (intros s Hs; apply E; [right; auto|intros ->; auto]).
      clear -K. induction team as [|a l IHl]; cbn; auto. rewrite K by (left; auto). rewrite IHl; auto. intros; apply K; right; auto. }
    lia.
  - destruct H as [->|H]; [congruence|]. specialize (IH N2 H). rewrite (E a) by (auto; left; auto).
    assert (sum g team + f st = sum f team + g st) by (apply IH; intros; apply E; auto; right; auto). lia.
Qed.
Lemma sum_same (f g : nat -> Z) team : (forall s, In s team -> g s = f s) -> sum g team = sum f team.
Proof.
  intros E. induction team as [|a l IH]; cbn; auto. rewrite E by (left; auto). rewrite IH; auto. intros; apply E; right; auto.
Qed.

Definition is_skip (e : event) : bool := match e with EvSkip _ => true | _ => false end.
Definition skips (h : history) : Z := count is_skip h.
Lemma count_skips_map sk : count is_skip (rev (map EvSkip sk)) = Z.of_nat (length sk).
Proof. induction sk as [|b sk IH]; auto. cbn [map rev length]. rewrite count_app, IH. cbn. lia. Qed.
Lemma hands_calls t r sk h : hands (match r with Some pb => EvHand t pb | None => EvNone t end :: rev (map EvSkip sk) ++ h) =
  (match r with Some _ => 1 | None => 0 end) + hands h.
Proof. unfold hands. cbn [count]. rewrite count_app, count_rev_skip by reflexivity. destruct r; cbn; lia. Qed.
Lemma skips_calls t r sk h : skips (match r with Some pb => EvHand t pb | None => EvNone t end :: rev (map EvSkip sk) ++ h) =
  Z.of_nat (length sk) + skips h.
Proof. unfold skips. cbn [count]. rewrite count_app, count_skips_map. destruct r; cbn; lia. Qed.

Lemma effect_app l m : existsb effect (l ++ m) = existsb effect l || existsb effect m.
Proof. apply existsb_app. Qed.
Lemma effect_aside l : Forall aside l -> existsb effect l = false.
Proof. induction 1 as [|a l H _ IH]; auto. cbn. rewrite IH. destruct a; cbn in *; tauto. Qed.
Lemma effect_calls t sk : existsb effect (calls t None sk) = negb (match sk with [] => true | _ => false end).
Proof.
  unfold calls. destruct sk as [|b sk]; [reflexivity|]. cbn [negb]. apply existsb_exists. exists (ACall (EvSkip b)).
  split; [|reflexivity]. apply in_map. right. apply in_rev. rewrite rev_involutive. left. reflexivity.
Qed.

Lemma filter_le {A} (p : A -> bool) l : (length (filter p l) <= length l)%nat.
Proof. induction l as [|a l IH]; cbn; auto. destruct (p a); cbn; lia. Qed.

Section Mu.
  Variables (V : list block) (up down : block -> list block) (seeds : nat -> list block).
  Variable maxr : nat -> Z.
  Variable fuel : nat.
  Hypothesis GG : good_graph V up down seeds.
  Hypothesis EN : enough V fuel.
  Variable s0 : sched.
  Hypothesis FR : fresh V seeds s0.
  Variable tasks : list nat.
  Hypothesis known : forall t, In t tasks -> In t (s_order s0).
  Variable init : nat -> res unit.
  Hypothesis init_ok : forall t, init t = Ok tt.
  Local Notation SInv := (SInv up down maxr fuel s0 tasks).
  Local Notation reach := (reach up down maxr fuel s0).
  Local Notation YInv := (YInv V up down maxr fuel s0 tasks).
  Local Notation Good := (Good V up down maxr fuel s0 tasks).
  Local Notation acq := (acq up down maxr fuel).
  Local Notation hm := (hm up down maxr fuel s0 tasks init).
  Local Notation step := (step up down maxr fuel init).
  Local Notation hand_bound := (hand_bound V maxr).

  Definition skipped_list (h : history) : list block := flat_map (fun e => match e with EvSkip b => [b] | _ => [] end) h.
  Lemma skips_le h s : reach h s -> skips h <= Z.of_nat (length V).
  Proof.
    intros R. pose proof (hi_ok _ _ _ _ _ _ _ _ (reach_HInv V up down seeds maxr fuel GG EN s0 FR h s R)) as O.
    assert (E : skips h = Z.of_nat (length (skipped_list h))).
    { clear. unfold skips. induction h as [|e h IH]; auto. cbn [count skipped_list flat_map]. rewrite IH. unfold skipped_list.
      rewrite app_length. destruct e; cbn [is_skip length]; lia. }
    rewrite E. apply Nat2Z.inj_le. apply NoDup_incl_length.
    - clear E R. induction h as [|e h IH]; [constructor|]. destruct O as [Oe O]. specialize (IH O).
      destruct e; cbn; auto. constructor; auto. intros H. destruct Oe as [_ [_ [_ [NS _]]]]. apply NS. left.
      apply in_flat_map in H. destruct H as [e [He Hb]]. destruct e; cbn in Hb; try tauto. destruct Hb as [<-|[]]. exact He.
    - clear E R. induction h as [|e h IH]; intros b Hb; [destruct Hb|]. destruct O as [Oe O]. cbn in Hb. apply in_app_or in Hb.
      destruct Hb as [Hb|Hb]; [|apply IH; auto]. destruct e; cbn in Hb; try tauto. destruct Hb as [<-|[]]. apply Oe.
  Qed.

  Definition pot (sv : server) : Z :=
    20 * (hand_bound - hands (hist (sv_tr sv))) + (Z.of_nat (length V) - skips (hist (sv_tr sv))) +
    3 * Z.of_nat (length (flat_map snd (sv_pend sv))) + Z.of_nat (length (sv_book sv)).
  Definition mu (sv : server) (team : list nat) (f : nat -> worker) : Z := pot sv + sum (fun st => wt (f st)) team.
  Lemma pot_nonneg sv : SInv [] sv -> 0 <= pot sv.
  Proof.
    intros Is. pose proof (si_reach _ _ _ _ _ _ _ _ Is) as R.
    pose proof (hands_le V up down seeds maxr fuel GG EN s0 FR _ _ R). pose proof (skips_le _ _ R). unfold pot. lia.
  Qed.
  Lemma mu_nonneg sv team f : SInv [] sv -> 0 <= mu sv team f.
  Proof. intros Is. unfold mu. pose proof (pot_nonneg sv Is). pose proof (sum_nonneg (fun st => wt (f st)) team (fun st => wt_nonneg (f st))). lia. Qed.
  Lemma pot_same x y : hist (sv_tr y) = hist (sv_tr x) -> sv_pend y = sv_pend x -> sv_book y = sv_book x -> pot y = pot x.
  Proof. intros E1 E2 E3. unfold pot. rewrite E1, E2, E3. reflexivity. Qed.
  Lemma pot_check x : pot (check_all x) = pot x.
  Proof. destruct (check_all_spec x) as [B _]. apply pot_same; [apply besides_hist; auto|apply B|apply B]. Qed.

  (* the queue of hm, acq: what an answer costs *)
  Lemma acq_replies t st x y l s : acq t st x y l -> s <> st -> replies s l = [].
  Proof.
    intros A N. destruct A as [chk pb sk now H1 H2 H3 H4|chk sk m H1 H2 H3 H4 H5 H6 H7|chk sk H1 H2 H3 H4 H5 H6].
    - change ([ANote (NAcquire t (s_st (sv_s y) t)); ASend st pb] ++ calls t (Some pb) sk) with
        ([ANote (NAcquire t (s_st (sv_s y) t))] ++ [ASend st pb] ++ calls t (Some pb) sk).
      rewrite !replies_app, (replies_silent s (calls _ _ _)) by apply calls_silent. cbn. rewrite (proj2 (Nat.eqb_neq _ _)) by auto. reflexivity.
    - change (AShutdown t st :: calls t None sk) with ([AShutdown t st] ++ calls t None sk).
      rewrite !replies_app, (replies_silent s (calls _ _ _)) by apply calls_silent.
      rewrite (replies_silent s m) by (apply aside_silent; auto). cbn. rewrite (proj2 (Nat.eqb_neq _ _)) by auto. reflexivity.
    - apply replies_silent. constructor; [exact I|apply calls_silent].
  Qed.
  Lemma acq_mu t st x y l team f : acq t st x y l -> sv_tr y = l ++ sv_tr x -> NoDup team -> In st team ->
    mu y team (fun s => deliver s l (f s)) + (if existsb effect l then 1 else 0) <= mu x team f + 3.
  Proof.
    intros A El Nd Hst.
    assert (S := sum_one (fun s => wt (f s)) (fun s => wt (deliver s l (f s))) team st Nd Hst).
    assert (S' : forall s, In s team -> s <> st -> wt (deliver s l (f s)) = wt (f s)).
    { intros s _ N. unfold deliver. rewrite (acq_replies _ _ _ _ _ s A N), app_nil_r. destruct (f s); reflexivity. }
    specialize (S S'). cbv beta in S. clear S'. unfold mu.
    assert (W : wt (deliver st l (f st)) <= wt (f st) + sum r_wt (replies st l)).
    { unfold wt, deliver. cbn [w_at w_out w_in]. rewrite sum_app. pose proof (sum_nonneg _ (replies st l) r_wt_nonneg).
      destruct (hears (w_at (f st))); lia. }
    assert (P : pot y + sum r_wt (replies st l) + (if existsb effect l then 1 else 0) <= pot x + 3); [|lia]. clear S W.
    destruct A as [chk pb sk now H1 H2 H3 H4|chk sk m H1 H2 H3 H4 H5 H6 H7|chk sk H1 H2 H3 H4 H5 H6].
    - assert (Eh : hist (sv_tr y) = EvHand t pb :: rev (map EvSkip sk) ++ hist (sv_tr x)).
      { rewrite El. cbn [app]. change (hist (ANote _ :: ASend st pb :: calls t (Some pb) sk ++ sv_tr x)) with (hist (calls t (Some pb) sk ++ sv_tr x)).
        apply (hist_call t (Some pb)). }
      assert (Er : replies st ([ANote (NAcquire t (s_st (sv_s y) t)); ASend st pb] ++ calls t (Some pb) sk) = [Client.RSend pb]).
      { change ([ANote (NAcquire t (s_st (sv_s y) t)); ASend st pb] ++ calls t (Some pb) sk) with
          ([ANote (NAcquire t (s_st (sv_s y) t))] ++ [ASend st pb] ++ calls t (Some pb) sk).
        rewrite !replies_app, (replies_silent st (calls _ _ _)) by apply calls_silent. cbn. rewrite Nat.eqb_refl. reflexivity. }
      rewrite Er. unfold pot. rewrite Eh, H2, H3.
      pose proof (hands_calls t (Some pb) sk (hist (sv_tr x))) as Q1. pose proof (skips_calls t (Some pb) sk (hist (sv_tr x))) as Q2.
      cbv beta iota in Q1, Q2. rewrite Q1, Q2. rewrite app_length. cbn [length sum r_wt].
      destruct (existsb effect _); lia.
    - assert (Eh : hist (sv_tr y) = EvNone t :: rev (map EvSkip sk) ++ hist (sv_tr x)).
      { rewrite El, <- app_assoc, hist_app, (hist_aside m) by auto. cbn [app].
        change (hist (AShutdown t st :: calls t None sk ++ sv_tr x)) with (hist (calls t None sk ++ sv_tr x)). apply (hist_call t None). }
      assert (Er : replies st (m ++ AShutdown t st :: calls t None sk) = [Client.RShutdown]).
      { change (AShutdown t st :: calls t None sk) with ([AShutdown t st] ++ calls t None sk).
        rewrite !replies_app, (replies_silent st (calls _ _ _)) by apply calls_silent.
        rewrite (replies_silent st m) by (apply aside_silent; auto). cbn. rewrite Nat.eqb_refl. reflexivity. }
      rewrite Er. unfold pot. rewrite Eh, H2, H3.
      pose proof (hands_calls t None sk (hist (sv_tr x))) as Q1. pose proof (skips_calls t None sk (hist (sv_tr x))) as Q2.
      cbv beta iota in Q1, Q2. rewrite Q1, Q2. cbn [sum r_wt]. destruct (existsb effect _); lia.
    - assert (Eh : hist (sv_tr y) = EvNone t :: rev (map EvSkip sk) ++ hist (sv_tr x)).
      { rewrite El. cbn [app].
        change (hist (ADelay t st :: calls t None sk ++ sv_tr x)) with (hist (calls t None sk ++ sv_tr x)). apply (hist_call t None). }
      rewrite (replies_silent st (ADelay t st :: calls t None sk)) by (constructor; [exact I|apply calls_silent]).
      destruct (pput_qin _ _ _ _ H3) as [Pm _]. apply Permutation_length in Pm. cbn [length] in Pm.
      unfold pot. rewrite Eh, H2, Pm.
      pose proof (hands_calls t None sk (hist (sv_tr x))) as Q1. pose proof (skips_calls t None sk (hist (sv_tr x))) as Q2.
      cbv beta iota in Q1, Q2. rewrite Q1, Q2. cbn [existsb effect orb]. rewrite effect_calls. cbn [sum]. destruct sk; cbn [negb length]; lia.
  Qed.

  Lemma hist_silent_rel i pb st x y : SInv [] x -> In (pb_block pb) V -> st_ok (pb_status pb) ->
    safe_release up down maxr fuel init i pb st x = Ok y ->
    hands (hist (sv_tr y)) = hands (hist (sv_tr x)) /\ skips (hist (sv_tr y)) = skips (hist (sv_tr x)) /\
    sv_pend y = sv_pend x /\ (length (sv_book y) <= length (sv_book x))%nat.
  Proof.
    intros Ix Vb Sb E.
    destruct (safe_release_ok V up down seeds maxr fuel GG EN s0 FR tasks init init_ok i pb st x Ix Vb Sb) as [y' [E' [_ [Hv Hn]]]].
    rewrite E in E'. injection E' as <-. destruct (is_valid_return pb st (sv_book x)); [|rewrite Hn; auto].
    destruct (Hv eq_refl) as [Eb [Ep [l [El Pl]]]]. rewrite El, hist_app, (hist_plain maxr fuel l Pl), Eb. cbn [app].
    change (hist (ACall (EvRel pb) :: sv_tr x)) with (EvRel pb :: hist (sv_tr x)). cbn. split; auto. split; auto. split; auto.
    unfold bdel. apply filter_le.
  Qed.

  Lemma sum_same_mu i x team f : i_get i = GotClosed \/ i_get i = GotNothing /\ pfirst (sv_pend x) = None ->
    mu x team (fun s => deliver s [] (taken (i_get i) s (f s))) = mu x team f.
  Proof.
    intros Ei. unfold mu. f_equal. apply sum_same. intros s _. rewrite deliver_silent by constructor.
    destruct Ei as [->|[-> _]]; reflexivity.
  Qed.
  Lemma hm_mu i x a team f l : YInv None x team f -> hm i x a team f -> sv_tr a = l ++ sv_tr x ->
    mu a team (fun s => deliver s l (taken (i_get i) s (f s))) +
      (match i_get i with GotMessage _ (MBlockFailed _ _) => 8 | GotMessage _ _ => 1 | _ => if existsb effect l then 1 else 0 end) <= mu x team f.
  Proof.
    intros Y Q El. pose proof (yi_nodup _ _ _ _ _ _ _ _ _ _ _ Y) as Nd.
    destruct Q as [st t r a1 l1 Ei Hst Eo Q I1 L1 T1 Ea|st t p a1 l1 Ei P Q I1 L1 T1 Ea|st m r pb a1 n Ei Hst Eo Tm E Hn Ea|Ei Ea].
    - subst a. rewrite Ei.
      assert (M := acq_mu t st _ a1 l1 team (fun s => taken (GotMessage st (MAcquire t)) s (f s)) Q L1 Nd Hst).
      assert (S := sum_one (fun s => wt (f s)) (fun s => wt (taken (GotMessage st (MAcquire t)) s (f s))) team st Nd Hst).
      assert (S' : forall s, In s team -> s <> st -> wt (taken (GotMessage st (MAcquire t)) s (f s)) = wt (f s)).
      { intros s _ N. cbn. rewrite (proj2 (Nat.eqb_neq _ _)) by auto. reflexivity. }
      specialize (S S'). cbv beta in S.
      assert (W : wt (taken (GotMessage st (MAcquire t)) st (f st)) + 4 = wt (f st)).
      { cbn [taken]. rewrite Nat.eqb_refl. unfold wt. cbn [w_at w_out w_in]. rewrite Eo. cbn [tl sum m_wt]. lia. }
      destruct (check_all_spec a1) as [B _]. destruct (be_tr _ _ B) as [lc [Ec Ac]].
      assert (l = lc ++ l1 ++ [ARecv st (MAcquire t)]).
      { apply (app_same _ _ (sv_tr x)). rewrite <- El, Ec, L1, <- !app_assoc. reflexivity. }
      unfold mu in *. rewrite pot_check.
      rewrite (sum_same (fun s => wt (deliver s l1 (taken (GotMessage st (MAcquire t)) s (f s)))) (fun s => wt (deliver s l (taken (GotMessage st (MAcquire t)) s (f s))))).
      2: { intros s _. subst l. rewrite !deliver_app. rewrite (deliver_silent s [ARecv _ _]) by (repeat constructor).
           rewrite (deliver_silent s lc) by (apply aside_silent; auto). reflexivity. }
      assert (P0 : pot (add_tr x [ARecv st (MAcquire t)]) = pot x) by (apply pot_same; reflexivity).
      destruct (existsb effect l1); lia.
    - subst a. rewrite Ei.
      destruct (retry_yinv _ _ _ _ _ _ _ _ _ _ _ _ _ Y P) as [_ [Hst Et]].
      assert (M := acq_mu t st _ a1 l1 team f Q L1 Nd Hst).
      destruct (check_all_spec a1) as [B _]. destruct (be_tr _ _ B) as [lc [Ec Ac]].
      assert (l = lc ++ l1 ++ [ARetry t st]).
      { apply (app_same _ _ (sv_tr x)). rewrite <- El, Ec, L1, <- !app_assoc. reflexivity. }
      unfold mu in *. rewrite pot_check.
      rewrite (sum_same (fun s => wt (deliver s l1 (f s))) (fun s => wt (deliver s l (taken GotNothing s (f s))))).
      2: { intros s _. subst l. rewrite !deliver_app. cbn [taken]. rewrite (deliver_silent s [ARetry _ _]) by (repeat constructor).
           rewrite (deliver_silent s lc) by (apply aside_silent; auto). reflexivity. }
      assert (Ef : existsb effect l = existsb effect l1).
      { subst l. rewrite !effect_app, effect_aside by auto. cbn. apply Bool.orb_false_r. }
      rewrite Ef.
      assert (P0 : pot (add_tr (set_pend x p) [ARetry t st]) + 3 = pot x).
      { unfold pot. cbn [add_tr set_pend sv_tr sv_pend sv_book]. change (hist (ARetry t st :: sv_tr x)) with (hist (sv_tr x)).
        destruct (pfirst_qin _ _ _ _ P) as [Pm _]. apply Permutation_length in Pm. cbn [length] in Pm. cbn [app]. rewrite Pm.
        change (hist (ARetry t st :: sv_tr x)) with (hist (sv_tr x)). lia. }
      lia.
    - subst a. rewrite Ei.
      assert (Y1 : YInv None (add_tr x [ARecv st m]) team f) by (apply yinv_plain; auto; repeat constructor).
      assert (Mk : msg_ok V x (w_task (f st)) m) by (apply (yi_out _ _ _ _ _ _ _ _ _ _ _ Y); auto; rewrite Eo; left; auto).
      destruct (told_ok _ maxr fuel _ _ _ _ Tm Mk) as [Vb Sb].
      destruct (hist_silent_rel _ _ _ _ _ (yi_sv _ _ _ _ _ _ _ _ _ _ _ Y1) Vb Sb E) as [E1 [E2 [E3 E4]]].
      destruct (safe_more up down maxr fuel init _ _ _ _ _ E) as [[l1 [L1 Sl]] _].
      assert (Pn : Forall plain n /\ Forall silent n) by (destruct Hn as [->|[pb' [w ->]]]; split; repeat constructor).
      destruct Pn as [Pn Sn].
      assert (S := sum_one (fun s => wt (f s)) (fun s => wt (taken (GotMessage st m) s (f s))) team st Nd Hst).
      assert (S' : forall s, In s team -> s <> st -> wt (taken (GotMessage st m) s (f s)) = wt (f s)).
      { intros s _ N. cbn. rewrite (proj2 (Nat.eqb_neq _ _)) by auto. reflexivity. }
      specialize (S S'). cbv beta in S.
      assert (W : wt (taken (GotMessage st m) st (f st)) + m_wt m = wt (f st)).
      { cbn [taken]. rewrite Nat.eqb_refl. unfold wt. cbn [w_at w_out w_in]. rewrite Eo. cbn [tl sum]. lia. }
      destruct (check_all_spec (add_tr a1 n)) as [B _]. destruct (be_tr _ _ B) as [lc [Ec Ac]].
      assert (l = lc ++ n ++ l1 ++ [ARecv st m]).
      { apply (app_same _ _ (sv_tr x)). rewrite <- El, Ec. cbn [add_tr sv_tr]. rewrite L1. cbn [add_tr sv_tr].
        rewrite <- !app_assoc. reflexivity. }
      unfold mu in *. rewrite pot_check.
      rewrite (sum_same (fun s => wt (taken (GotMessage st m) s (f s))) (fun s => wt (deliver s l (taken (GotMessage st m) s (f s))))).
      2: { intros s _. subst l. rewrite !deliver_app. rewrite (deliver_silent s [ARecv _ _]) by (repeat constructor).
           rewrite (deliver_silent s lc) by (apply aside_silent; auto). rewrite !deliver_silent by auto. reflexivity. }
      assert (P0 : pot (add_tr a1 n) <= pot x).
      { unfold pot. cbn [add_tr sv_tr sv_pend sv_book]. rewrite hist_app, (hist_plain maxr fuel n Pn). cbn [app].
        rewrite E1, E2, E3. cbn [add_tr sv_tr sv_pend sv_book] in *. cbn [app].
        change (hist (ARecv st m :: sv_tr x)) with (hist (sv_tr x)). lia. }
      destruct m; cbn [told] in Tm; try (destruct Tm; fail); cbn [m_wt] in *; lia.
    - subst a. assert (l = []) by (apply (app_same _ _ (sv_tr x)); symmetry; exact El). subst l.
      rewrite (sum_same_mu i x team f Ei). destruct Ei as [->|[-> _]]; cbn; lia.
  Qed.

  (* a block that is lost leaves the book *)
  Lemma lost_split i x : (length (filter (fun e => negb (i_closed i (lg_stream (snd e)))) (sv_book x)) + length (lost_in i x) = length (sv_book x))%nat.
  Proof.
    unfold lost_in. induction (sv_book x) as [|e b IH]; cbn; auto. destruct (i_closed i (lg_stream (snd e))); cbn; lia.
  Qed.
  Lemma count_rels {A} (p : event -> bool) (g : A -> pyblock) l : (forall a, p (EvRel (g a)) = false) ->
    count p (rev (map (fun a => EvRel (g a)) l)) = 0.
  Proof. intros H. induction l as [|a l IH]; auto. cbn [map rev]. rewrite count_app, IH. cbn. rewrite H. reflexivity. Qed.
  Lemma lost_pot i x y l : SInv [] x -> check_lost up down maxr fuel init i x = Ok y -> sv_tr y = l ++ sv_tr x ->
    pot y + (if existsb effect l then 1 else 0) <= pot x /\ (lost_in i x <> [] -> existsb effect l = true) /\
    (lost_in i x = [] -> y = x).
  Proof.
    intros Ix E El.
    destruct (check_lost_ok V up down seeds maxr fuel GG EN s0 FR tasks init init_ok i x Ix) as [y' [E' [_ [Eb [Ep [Eh _]]]]]].
    rewrite E in E'. injection E' as <-. destruct (lost_start V up down seeds maxr fuel GG EN s0 FR tasks init i x Ix) as [E2 [I2 Pn]].
    pose proof (lost_split i x) as Ls.
    assert (P : pot y + Z.of_nat (length (lost_in i x)) = pot x).
    { unfold pot. rewrite Eh, Ep, Eb. unfold hands, skips. rewrite !count_app, !count_rels by reflexivity. lia. }
    assert (Z0 : lost_in i x = [] -> y = x).
    { intros L0. rewrite E2, L0 in E. cbn [map foldM] in E. injection E as <-.
      assert (K : filter (fun e => negb (i_closed i (lg_stream (snd e)))) (sv_book x) = sv_book x /\
        flat_map (fun e => if i_closed i (lg_stream (snd e)) then [ALost (lg_block (snd e)) (lg_stream (snd e))] else []) (sv_book x) = []).
      { unfold lost_in in L0. clear -L0. induction (sv_book x) as [|e b IH]; cbn in *; auto.
        destruct (i_closed i (lg_stream (snd e))); [discriminate|]. destruct (IH L0) as [K1 K2]. cbn. rewrite K1, K2. auto. }
      destruct K as [K1 K2]. rewrite K1, K2. destruct x. reflexivity. }
    split; [|split; auto].
    - destruct (lost_in i x) as [|e r] eqn:L0; [|cbn [length] in P; destruct (existsb effect l); lia].
      rewrite (Z0 eq_refl) in El. assert (l = []) by (apply (app_same _ _ (sv_tr x)); symmetry; exact El). subst l. cbn. cbn in P. lia.
    - intros N. rewrite E2 in E. destruct (release_lost V up down seeds maxr fuel GG EN s0 FR tasks init init_ok i _ _ I2) as [y2 [Ey2 [_ [_ [_ [_ [m [M1 _]]]]]]]].
      rewrite Ey2 in E. injection E as <-. cbn [add_tr set_book sv_tr] in M1.
      assert (El' : l = m ++ rev (flat_map (fun e => if i_closed i (lg_stream (snd e)) then [ALost (lg_block (snd e)) (lg_stream (snd e))] else []) (sv_book x))).
      { apply (app_same _ _ (sv_tr x)). rewrite <- El, M1, app_assoc. reflexivity. }
      rewrite El', effect_app. apply Bool.orb_true_iff. right. apply existsb_exists.
      destruct (lost_in i x) as [|e r] eqn:F; [congruence|]. unfold lost_in in F.
      assert (He : In e (e :: r)) by (left; auto). rewrite <- F in He. apply filter_In in He. destruct He as [He Hc].
      exists (ALost (lg_block (snd e)) (lg_stream (snd e))). split; [|reflexivity]. apply -> in_rev. apply in_flat_map. exists e. split; auto.
      rewrite Hc. left. reflexivity.
  Qed.

  Lemma iter_mu i x y team f l : YInv None x team f -> input_ok (Sys x team f) i ->
    iteration up down maxr fuel init i x = Ok y -> sv_tr y = l ++ sv_tr x ->
    mu y team (fun s => deliver s l (taken (i_get i) s (f s))) +
      (match i_get i with GotMessage _ (MBlockFailed _ _) => 8 | GotMessage _ _ => 1 | _ => if existsb effect l then 1 else 0 end) <= mu x team f.
  Proof.
    intros Y G E El. destruct (iter_split _ _ _ _ _ _ _ _ E) as [a [b [Ea [Eb Ey]]]].
    pose proof (msgs_hm V up down seeds maxr fuel GG EN s0 FR tasks known init init_ok _ _ _ _ _ Y G Ea) as Q.
    destruct (hm_yinv V up down seeds maxr fuel GG EN s0 FR tasks init init_ok _ _ _ _ _ Y Q) as [l1 [L1 [Y1 _]]].
    destruct (lost_more up down maxr fuel init _ _ _ Eb) as [[l2 [L2 S2]] _].
    pose proof (hm_mu _ _ _ _ _ _ Y Q L1) as M1.
    destruct (lost_pot _ _ _ _ (yi_sv _ _ _ _ _ _ _ _ _ _ _ Y1) Eb L2) as [M2 _].
    assert (Y3 : pot y = pot b /\ exists l3, sv_tr y = l3 ++ sv_tr b /\ Forall aside l3).
    { subst y. destruct (i_tick i); [|split; auto; exists []; auto]. split; [apply pot_check|].
      destruct (check_all_spec b) as [B _]. exact (be_tr _ _ B). }
    destruct Y3 as [P3 [l3 [L3 S3]]].
    assert (l = l3 ++ l2 ++ l1).
    { apply (app_same _ _ (sv_tr x)). rewrite <- El, L3, L2, L1, <- !app_assoc. reflexivity. }
    subst l. unfold mu in *. rewrite !effect_app, (effect_aside l3) by auto. cbn [orb].
    rewrite (sum_same (fun s => wt (deliver s l1 (taken (i_get i) s (f s))))).
    2: { intros s _. rewrite !deliver_app. rewrite (deliver_silent s l3), (deliver_silent s l2); auto. apply aside_silent; auto. }
    destruct (i_get i) as [s m| | |e]; [destruct m| | |]; destruct (existsb effect l1); destruct (existsb effect l2); cbn [orb] in *; lia.
  Qed.

  Lemma put_mu y st w k : Good y -> In st (y_team y) -> wt w + k <= wt (y_w y st) ->
    mu (y_sv (put y st w)) (y_team (put y st w)) (y_w (put y st w)) + k <= mu (y_sv y) (y_team y) (y_w y).
  Proof.
    intros [Y _] Hst W. unfold mu. cbn [put y_sv y_team y_w].
    assert (S := sum_one (fun s => wt (y_w y s)) (fun s => wt (if Nat.eqb s st then w else y_w y s)) (y_team y) st (yi_nodup _ _ _ _ _ _ _ _ _ _ _ Y) Hst).
    cbv beta in S. rewrite Nat.eqb_refl in S.
    assert (sum (fun s => wt (if Nat.eqb s st then w else y_w y s)) (y_team y) + wt (y_w y st) = sum (fun s => wt (y_w y s)) (y_team y) + wt w).
    { apply S. intros s _ N. rewrite (proj2 (Nat.eqb_neq _ _) N). reflexivity. }
    lia.
  Qed.

  Definition mus (y : sys) : Z := mu (y_sv y) (y_team y) (y_w y).
  Lemma mus_nonneg y : Good y -> 0 <= mus y.
  Proof. intros [Y _]. apply mu_nonneg. apply Y. Qed.
  Definition replaces (m : move) : bool := match m with Replace _ _ => true | _ => false end.
  Definition dies (m : move) : bool := match m with Die _ _ => true | _ => false end.
  Definition hires (m : move) : bool := match m with Hire _ _ => true | _ => false end.
  (* a worker is started in place of another one or in addition *)
  Definition starts (m : move) : bool := replaces m || hires m.
  (* what comes from outside: a worker dies, or one more is started *)
  Definition upsets (m : move) : bool := dies m || hires m.
  Lemma step_mu y m y' : Good y -> step y m y' ->
    mus y' <= mus y + (if starts m then 7 else 0) /\
    (works y m y' -> mus y' + 1 <= mus y) /\
    (forall i st pb w, m = Serve i -> i_get i = GotMessage st (MBlockFailed pb w) -> mus y' + 8 <= mus y).
  Proof.
    intros G S. pose proof G as [Y Gf]. pose proof (yi_talk _ _ _ _ _ _ _ _ _ _ _ Y) as T.
    destruct S as [st t o r Hst Ew Hs Fs|st t o r Hst Ew|st t o pb r Hst Ew|st t o r Hst Ew|st t o pb r out Hst Ew No|st t p o r n Hst Ew Rn Sd|st st' t o r Hst Ew Nt|st t Nt Ht|i sv l Sp Io Ei El];
      unfold mus; cbn [starts replaces hires dies orb].
    1-5: match goal with G : Good ?y, T : forall _, _, Hst : In ?st _, Ew : y_w _ _ = _ |- mu (y_sv (put ?y ?st ?w)) _ _ <= _ /\ _ =>
           assert (M : mu (y_sv (put y st w)) (y_team (put y st w)) (y_w (put y st w)) + 1 <= mu (y_sv y) (y_team y) (y_w y));
           [apply put_mu; auto; rewrite Ew; specialize (T st Hst); cbn in T; rewrite Ew in T; unfold talk in T; cbn in T;
            unfold wt; cbn [w_at w_out w_in phi hears]|repeat split; intros; try discriminate; lia] end.
    - lia.
    - destruct T as [-> _]. rewrite sum_app. cbn [sum m_wt]. lia.
    - cbn [sum r_wt]. pose proof (sum_nonneg _ r r_wt_nonneg). lia.
    - cbn [sum r_wt]. pose proof (sum_nonneg _ r r_wt_nonneg). lia.
    - rewrite sum_app. destruct (returned_forms st pb out No) as [[s [E _]]|E]; rewrite E; cbn [sum m_wt]; lia.
    - split; [|split; [intros []|intros; discriminate]].
      pose proof (put_mu y st (Worker t Dead (firstn n o) []) 0 G Hst) as M. rewrite !Z.add_0_r in *. apply M. rewrite Ew. unfold wt. cbn [w_at w_out w_in].
      pose proof (sum_firstn m_wt n o m_wt_nonneg). pose proof (sum_nonneg _ r r_wt_nonneg). destruct p; cbn [phi hears]; lia.
    - split; [|split; [intros []|intros; discriminate]]. unfold mu. cbn [y_sv y_team y_w].
      cbn [sum]. rewrite Nat.eqb_refl. change (wt (Worker t Unborn [] [])) with 7.
      rewrite (sum_same (fun s => wt (y_w y s))); [lia|]. intros s H.
      destruct (Nat.eqb_spec s st') as [->|N]; [tauto|]. destruct (Nat.eqb_spec s st) as [->|N1]; [|reflexivity]. rewrite Ew. reflexivity.
    - split; [|split; [intros []|intros; discriminate]]. unfold mu. cbn [y_sv y_team y_w].
      cbn [sum]. rewrite Nat.eqb_refl. change (wt (Worker t Unborn [] [])) with 7.
      rewrite (sum_same (fun s => wt (y_w y s))); [lia|]. intros s H.
      destruct (Nat.eqb_spec s st) as [->|N]; [tauto|reflexivity].
    - cbn [y_sv y_team y_w]. destruct y as [sy ty fy]. cbn [y_sv y_team y_w] in *.
      pose proof (iter_mu i sy sv ty fy l Y Io Ei El) as M. split; [|split].
      + destruct (i_get i) as [s m| | |e] in M |- *; [destruct m| | |]; destruct (existsb effect l); lia.
      + intros W. cbn in W. destruct W as [[s [m Em]]|[l' [L1 L2]]]; [rewrite Em in M |- *; destruct m; lia|].
        assert (l' = l) by (apply (app_same _ _ (sv_tr sy)); congruence). subst l'. rewrite L2 in M.
        destruct (i_get i) as [s m| | |e] in M |- *; [destruct m| | |]; lia.
      + intros j st pb w Ej Eg. injection Ej as <-. rewrite Eg in M |- *. lia.
  Qed.

  (* runs in which what is done is counted *)
  Inductive counted (y : sys) : nat -> nat -> sys -> Prop :=
  | cn_nil : counted y 0 0 y
  | cn_work k r y1 m y2 : counted y k r y1 -> step y1 m y2 -> works y1 m y2 -> counted y (S k) r y2
  | cn_start k r y1 m y2 : counted y k r y1 -> step y1 m y2 -> starts m = true -> counted y k (S r) y2
  | cn_other k r y1 m y2 : counted y k r y1 -> step y1 m y2 -> starts m = false -> counted y k r y2.
  Lemma counted_mu y k r y' : Good y -> counted y k r y' -> Good y' /\ mus y' + Z.of_nat k <= mus y + 7 * Z.of_nat r.
  Proof.
    intros G C. induction C as [|k r y1 m y2 C [G1 IH] S W|k r y1 m y2 C [G1 IH] S W|k r y1 m y2 C [G1 IH] S W].
    - split; auto. lia.
    - split; [eapply step_good; eauto|]. destruct (step_mu _ _ _ G1 S) as [_ [M _]]. specialize (M W). lia.
    - split; [eapply step_good; eauto|]. destruct (step_mu _ _ _ G1 S) as [M _]. rewrite W in M. lia.
    - split; [eapply step_good; eauto|]. destruct (step_mu _ _ _ G1 S) as [M _]. rewrite W in M. lia.
  Qed.
  Lemma start_mu sv crew : server_init init tasks false s0 = Ok sv ->
    mus (start_of sv crew) = 20 * hand_bound + Z.of_nat (length V) + 7 * Z.of_nat (length crew).
  Proof.
    intros E. unfold server_init in E. destruct (recruit_spec init _ _ E) as [B _]. pose proof (besides_hist _ _ B) as Eh.
    destruct B as [_ Bb Bp _]. cbn in Bb, Bp, Eh. unfold mus, mu, pot. cbn [start_of y_sv y_team y_w]. rewrite Eh, Bb, Bp.
    assert (Q : flat_map snd (map (fun t : nat => (t, @nil nat)) (dedup Nat.eqb tasks)) = []).
    { clear. induction (dedup Nat.eqb tasks) as [|t l IH]; [reflexivity|exact IH]. }
    rewrite Q. cbn [length]. unfold hands, skips. cbn [hist flat_map count].
    assert (S : forall n k, sum (fun st => wt (crew_worker crew st)) (seq k n) = 7 * Z.of_nat n).
    { induction n as [|n IH]; intros k; [reflexivity|]. cbn [seq sum]. rewrite IH. change (wt (crew_worker crew k)) with 7. lia. }
    rewrite S. lia.
  Qed.
End Mu.

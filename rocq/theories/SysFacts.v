(* Invariants of the server together with its workers. *)
From Coq Require Import Arith Lia Permutation.
From Verif Require Import VecFacts SchedProps SerialFacts P_Conv ServerFacts ServerSteps.
From Verif Require Export Sys.
From Verif Require Client.
Open Scope Z_scope.

(* the trace *)
Definition silent (a : act) : Prop := match a with ASend _ _ | AShutdown _ _ => False | _ => True end.
Lemma replies_app st l m : replies st (l ++ m) = replies st m ++ replies st l.
Proof. unfold replies. rewrite rev_app_distr, flat_map_app. reflexivity. Qed.
Lemma replies_silent st l : Forall silent l -> replies st l = [].
Proof.
  unfold replies. intros F. apply Forall_rev in F. induction F as [|a m H _ IH]; auto. cbn. rewrite IH.
  destruct a; cbn in H; tauto.
Qed.
Lemma aside_silent l : Forall aside l -> Forall silent l.
Proof. apply Forall_impl. intros a. destruct a; cbn; tauto. Qed.
Lemma calls_silent t r sk : Forall silent (calls t r sk).
Proof. unfold calls. apply Forall_map. apply Forall_forall. intros e _. exact I. Qed.
Lemma deliver_silent st l w : Forall silent l -> deliver st l w = w.
Proof. intros F. unfold deliver. rewrite replies_silent, app_nil_r by auto. destruct w; reflexivity. Qed.
Lemma deliver_app st l m w : deliver st (l ++ m) w = deliver st l (deliver st m w).
Proof. unfold deliver. cbn. rewrite replies_app, app_assoc. reflexivity. Qed.
Lemma app_same {A} (l m t : list A) : l ++ t = m ++ t -> l = m.
Proof. apply app_inv_tail. Qed.

(* the queues of delayed requests *)
Definition qin (p : list (nat * list nat)) (t st : nat) : Prop := exists q, In (t, q) p /\ In st q.
Lemma pput_qin t st p p' : pput t st p = Ok p' ->
  Permutation (flat_map snd p') (st :: flat_map snd p) /\ forall u s, qin p' u s <-> qin p u s \/ u = t /\ s = st.
Proof.
  revert p'. induction p as [|[u q] p IH]; intros p'; cbn [pput]; [discriminate|].
  destruct (Nat.eqb_spec t u) as [->|N].
  - intros E. injection E as <-. split.
    + cbn. rewrite <- app_assoc. apply Permutation_sym. apply Permutation_middle.
    + intros v s. unfold qin. split.
      * intros [q' [[E|H] Hs]]; [injection E as <- <-|left; exists q'; cbn; auto].
        apply in_app_or in Hs. destruct Hs as [Hs|[<-|[]]]; auto. left. exists q. cbn; auto.
      * intros [[q' [[E|H] Hs]]|[-> ->]].
        -- injection E as <- <-. exists (q ++ [st]). cbn. split; auto. apply in_or_app; auto.
        -- exists q'. cbn; auto.
        -- exists (q ++ [st]). cbn. split; auto. apply in_or_app. right; left; auto.
  - destruct (pput t st p) as [r|] eqn:E; [|discriminate]. cbn [bind]. intros H. injection H as <-.
    destruct (IH r eq_refl) as [P Q]. split.
    + cbn. rewrite P. apply Permutation_sym. apply Permutation_middle.
    + intros v s. specialize (Q v s). unfold qin in *. split.
      * intros [q' [[E'|H] Hs]]; [injection E' as <- <-; left; exists q; cbn; auto|].
        destruct (proj1 Q (ex_intro _ q' (conj H Hs))) as [[q2 [H2 Hs2]]|K]; auto. left. exists q2. cbn; auto.
      * intros K. assert (K' : (v = u /\ In s q) \/ exists q', In (v, q') r /\ In s q').
        { destruct K as [[q' [[E'|H] Hs]]|K].
          - injection E' as <- <-. auto.
          - right. apply Q. left. eauto.
          - right. apply Q. auto. }
        destruct K' as [[-> Hs]|[q' [H Hs]]]; [exists q|exists q']; cbn; auto.
Qed.
Lemma pfirst_qin p t st p' : pfirst p = Some (t, st, p') ->
  Permutation (flat_map snd p) (st :: flat_map snd p') /\ qin p t st /\ forall u s, qin p' u s -> qin p u s.
Proof.
  revert t st p'. induction p as [|[u q] p IH]; intros t st p'; cbn [pfirst]; [discriminate|].
  destruct q as [|a q].
  - destruct (pfirst p) as [[[t1 st1] p1]|]; [|discriminate]. intros E. injection E as <- <- <-.
    destruct (IH _ _ _ eq_refl) as [P [[q [Hq Hs]] Q]]. split; [exact P|]. split.
    + exists q. cbn; auto.
    + intros v s [q' [[E|H] Hs']]; [injection E as <- <-; destruct Hs'|].
      destruct (Q v s (ex_intro _ q' (conj H Hs'))) as [q2 [? ?]]. exists q2. cbn; auto.
  - intros E. injection E as <- <- <-. split; [reflexivity|]. split.
    + exists (a :: q). cbn; auto.
    + intros v s [q' [[E|H] Hs']]; [injection E as <- <-; exists (a :: q)|exists q']; cbn; auto.
Qed.

(* the entries of a stream in the book *)
Definition owner (e : (nat * Z) * blog) : nat := lg_stream (snd e).
Definition blk (e : (nat * Z) * blog) : block := pb_block (lg_block (snd e)).
Definition mine (bk : book) (st : nat) : book := filter (fun e => Nat.eqb (owner e) st) bk.
Definition only (bk : book) (st : nat) (b : block) : Prop := map blk (mine bk st) = [b].
Definition free (bk : book) (st : nat) : Prop := mine bk st = [].
Lemma free_iff bk st : free bk st <-> forall e, In e bk -> owner e <> st.
Proof.
  unfold free, mine. induction bk as [|e bk IH]; cbn; [split; auto; intros _ ? []|].
  destruct (Nat.eqb_spec (owner e) st) as [E|N]; split.
  - discriminate.
  - intros H. exfalso. apply (H e); auto.
  - intros H x [<-|Hx]; auto. apply IH; auto.
  - intros H. apply IH. intros x Hx. apply H. auto.
Qed.
Lemma free_has sv st : free (sv_book sv) st <-> ~ has_block sv st.
Proof.
  rewrite free_iff. unfold has_block. split.
  - intros H [e [He E]]. apply (H e He E).
  - intros H e He E. apply H. exists e. auto.
Qed.
Lemma only_in bk st b : only bk st b -> exists e, In e bk /\ owner e = st /\ blk e = b.
Proof.
  unfold only. destruct (mine bk st) as [|e r] eqn:E; [discriminate|]. cbn. intros H. injection H as H _.
  assert (He : In e (mine bk st)) by (rewrite E; left; auto). apply filter_In in He. destruct He as [He K].
  apply Nat.eqb_eq in K. exists e. auto.
Qed.
Lemma only_all bk st b e : only bk st b -> In e bk -> owner e = st -> blk e = b.
Proof.
  unfold only. intros H He E. assert (K : In (blk e) (map blk (mine bk st))).
  { apply in_map. apply filter_In. split; auto. apply Nat.eqb_eq. auto. }
  rewrite H in K. destruct K as [<-|[]]. reflexivity.
Qed.
Lemma mine_app bk bk' st : mine (bk ++ bk') st = mine bk st ++ mine bk' st.
Proof. unfold mine. apply filter_app. Qed.
Lemma mine_filter p bk st : (forall e, In e bk -> owner e = st -> p e = true) -> mine (filter p bk) st = mine bk st.
Proof.
  intros H. unfold mine. induction bk as [|e bk IH]; auto. cbn.
  destruct (Nat.eqb_spec (owner e) st) as [E|N].
  - rewrite (H e (or_introl eq_refl) E). cbn. rewrite E, Nat.eqb_refl. f_equal. apply IH. intros; apply H; auto. right; auto.
  - destruct (p e); cbn; [rewrite (proj2 (Nat.eqb_neq _ _) N)|]; apply IH; intros; apply H; auto; right; auto.
Qed.
Lemma mine_filter_nil p bk st : (forall e, In e bk -> owner e = st -> p e = false) -> mine (filter p bk) st = [].
Proof.
  intros H. apply free_iff. intros e He. apply filter_In in He. destruct He as [He K]. intros E.
  rewrite (H e He E) in K. discriminate.
Qed.

Section YInv.
  Variables (V : list block) (up down : block -> list block) (seeds : nat -> list block).
  Variable maxr : nat -> Z.
  Variable fuel : nat.
  Hypothesis GG : good_graph V up down seeds.
  Hypothesis EN : enough V fuel.
  Variable s0 : sched.
  Hypothesis FR : fresh V seeds s0.
  Variable tasks : list nat.
  Hypothesis known : forall t, In t tasks -> In t (s_order s0).
  Variable init : nat -> res unit.
  Hypothesis init_ok : forall t, init t = Ok tt.
  Local Notation SInv := (SInv up down maxr fuel s0 tasks).
  Local Notation reach := (reach up down maxr fuel s0).
  Local Notation handle_acquire := (handle_acquire up down maxr fuel init).
  Local Notation sv_release := (sv_release up down maxr fuel init).
  Local Notation safe_release := (safe_release up down maxr fuel init).
  Local Notation check_lost := (check_lost up down maxr fuel init).
  Local Notation step := (step up down maxr fuel init).
  Local Notation runs := (runs up down maxr fuel init).

  (* what is left to the release of a block *)
  Lemma rel_more i pb x y : sv_release i pb x = Ok y ->
    (exists l, sv_tr y = l ++ sv_tr x /\ Forall silent l) /\
    (forall u, In u (sv_started y) <-> In u (sv_started x) \/ In u (get_ready_tasks (sv_s y))) /\
    (sv_stop x = true -> sv_stop y = true).
  Proof.
    unfold Server.sv_release. destruct (release_block _ _ _ _ _ _ _) as [s1|] eqn:E; [|discriminate]. cbn [bind]. intros R.
    set (x1 := add_tr (set_s x s1) _) in *.
    destruct (check_all_spec x1) as [B1 [S1 [T1 _]]]. destruct (recruit_spec init _ _ R) as [B2 [_ [T2 [S2 _]]]].
    destruct (be_tr _ _ B1) as [l1 [E1 A1]]. destruct (be_tr _ _ B2) as [l2 [E2 A2]].
    split; [|split].
    - exists (l2 ++ l1 ++ [ANote (NRelease (b_task (pb_block pb)) (s_st s1 (b_task (pb_block pb)))); ACall (EvRel pb)]).
      rewrite E2, E1. split; [cbn; rewrite <- !app_assoc; reflexivity|].
      repeat (apply Forall_app; split); auto using aside_silent. repeat constructor.
    - intros u. rewrite S2, S1, (be_s _ _ B2), (be_s _ _ B1). reflexivity.
    - intros H. rewrite T2, T1. cbn. rewrite H. reflexivity.
  Qed.

  (* the three ways a request is answered *)
  Inductive acq (t st : nat) (x y : server) : list act -> Prop :=
  | aq_send chk pb sk now : acquire_block up down maxr fuel chk (sv_s x) t = Ok (sv_s y, Some pb, sk) ->
      sv_book y = sv_book x ++ [(bid (pb_block pb), BLog pb st now)] -> sv_pend y = sv_pend x ->
      sv_started y = sv_started x ->
      acq t st x y ([ANote (NAcquire t (s_st (sv_s y) t)); ASend st pb] ++ calls t (Some pb) sk)
  | aq_shut chk sk m : acquire_block up down maxr fuel chk (sv_s x) t = Ok (sv_s y, None, sk) ->
      sv_book y = sv_book x -> sv_pend y = sv_pend x -> ts_ready (s_st (sv_s y) t) = 0 -> ts_pending (s_st (sv_s y) t) = 0 ->
      Forall aside m ->
      (forall u, In u (sv_started y) <-> In u (sv_started x) \/ In u (get_ready_tasks (sv_s y))) ->
      acq t st x y (m ++ AShutdown t st :: calls t None sk)
  | aq_delay chk sk : acquire_block up down maxr fuel chk (sv_s x) t = Ok (sv_s y, None, sk) ->
      sv_book y = sv_book x -> pput t st (sv_pend x) = Ok (sv_pend y) ->
      ts_ready (s_st (sv_s y) t) = 0 -> ts_pending (s_st (sv_s y) t) <> 0 ->
      sv_started y = sv_started x ->
      acq t st x y (ADelay t st :: calls t None sk).
  Lemma acq_ok i t st x y : SInv [] x -> In t tasks -> handle_acquire i t st x = Ok y ->
    SInv [] y /\ sv_stop y = sv_stop x /\ exists l, sv_tr y = l ++ sv_tr x /\ acq t st x y l.
  Proof.
    intros Ix Ht E.
    destruct (handle_acquire_ok V up down seeds maxr fuel GG EN s0 FR tasks known init init_ok i t st x Ix Ht)
      as [y' [s1 [r [sk [Ea [E' [Iy [Es H]]]]]]]].
    rewrite E in E'. injection E' as <-. split; auto. subst s1.
    unfold Server.handle_acquire in E. rewrite (touch_known V up down seeds maxr fuel GG EN s0 FR tasks known x t Ix Ht) in E.
    rewrite Ea in E. cbn [bind] in E. destruct r as [pb|].
    - destruct H as [_ [Hb [Hp Htr]]]. cbn [add_tr set_s sv_book] in E.
      destruct (notify_block_sent _ _ _ _) as [b|]; [|discriminate]. cbn [bind] in E.
      split; [injection E as <-; reflexivity|]. eexists. split; [rewrite Htr, app_assoc; reflexivity|].
      eapply aq_send; eauto. injection E as <-. reflexivity.
    - destruct H as [Hb [Hr H]]. rewrite Hr in E. cbn [Z.eqb negb] in E.
      destruct H as [[Hp [Hq [m [Htr Hm]]]]|[Hp [Hq Htr]]].
      + rewrite Hp in E. cbn [Z.eqb] in E. destruct (recruit_spec init _ _ E) as [B [_ [T [S _]]]].
        split; [rewrite T; reflexivity|]. exists (m ++ AShutdown t st :: calls t None sk).
        split; [rewrite Htr, <- app_assoc; reflexivity|]. eapply aq_shut; eauto.
      + rewrite (proj2 (Z.eqb_neq _ _) Hp) in E. cbn [add_tr set_s sv_pend] in E. rewrite Hq in E. cbn [bind] in E.
        split; [injection E as <-; reflexivity|]. exists (ADelay t st :: calls t None sk).
        split; [rewrite Htr; reflexivity|]. eapply aq_delay; eauto. injection E as <-. reflexivity.
  Qed.
  Lemma acq_started t st x y l : acq t st x y l -> forall u, In u (sv_started x) -> In u (sv_started y).
  Proof.
    intros [chk pb sk now H1 H2 H3 H4|chk sk m H1 H2 H3 H4 H5 H6 H7|chk sk H1 H2 H3 H4 H5 H6] u Hu.
    - rewrite H4; auto.
    - apply H7. auto.
    - rewrite H6; auto.
  Qed.

  (* what a worker still has to say about the block it had *)
  Definition st_ok (s : status) : Prop := s = SUCCESS \/ s = FAILED.
  Definition owes (bk : book) (st : nat) (l : list message) : Prop :=
    match l with
    | [] => free bk st
    | [MRelease pb] => only bk st (pb_block pb) \/ free bk st
    | [MBlockFailed pb _; MRelease pb'] => only bk st (pb_block pb) /\ pb_block pb' = pb_block pb
    | _ => False
    end.
  Definition waits (p : list (nat * list nat)) (st : nat) : nat := count_occ Nat.eq_dec (flat_map snd p) st.
  Definition talk (p : list (nat * list nat)) (bk : book) (st : nat) (w : worker) : Prop :=
    match w_at w with
    | Unborn | Left => w_out w = [] /\ w_in w = [] /\ waits p st = 0%nat /\ free bk st
    | Asking => w_in w = [] /\ waits p st = 0%nat /\ owes bk st (w_out w)
    | Waiting =>
        (exists o, w_out w = o ++ [MAcquire (w_task w)] /\ w_in w = [] /\ waits p st = 0%nat /\ owes bk st o) \/
        (w_out w = [] /\ w_in w = [] /\ waits p st = 1%nat /\ free bk st) \/
        (w_out w = [] /\ w_in w = [Client.RShutdown] /\ waits p st = 0%nat /\ free bk st) \/
        (exists pb, w_out w = [] /\ w_in w = [Client.RSend pb] /\ waits p st = 0%nat /\ only bk st (pb_block pb))
    | Working pb => w_out w = [] /\ w_in w = [] /\ waits p st = 0%nat /\ only bk st (pb_block pb)
    | Dead | Replaced => True
    end.
  (* the server is about to answer *)
  Definition heard (p : list (nat * list nat)) (bk : book) (st : nat) (w : worker) : Prop :=
    match w_at w with
    | Waiting => w_out w = [] /\ w_in w = [] /\ waits p st = 0%nat /\ free bk st
    | Dead | Replaced => True
    | _ => False
    end.
  Definition msg_ok (sv : server) (t : nat) (m : message) : Prop :=
    match m with
    | MAcquire u => u = t
    | MRelease pb => In (pb_block pb) V /\ st_ok (pb_status pb)
    | MBlockFailed pb _ => In (pb_block pb) V /\ exists st' pb', In (ASend st' pb') (sv_tr sv) /\ pb_block pb' = pb_block pb
    | _ => False
    end.

  Record YInv (k : option nat) (sv : server) (team : list nat) (f : nat -> worker) : Prop := {
    yi_sv : SInv [] sv;
    yi_nodup : NoDup team;
    yi_task : forall st, In st team -> In (w_task (f st)) tasks;
    yi_start : forall st, In st team -> w_at (f st) <> Unborn -> In (w_task (f st)) (sv_started sv);
    yi_out : forall st m, In st team -> In m (w_out (f st)) -> msg_ok sv (w_task (f st)) m;
    yi_talk : forall st, In st team ->
      if match k with Some s => Nat.eqb s st | None => false end then heard (sv_pend sv) (sv_book sv) st (f st)
      else talk (sv_pend sv) (sv_book sv) st (f st);
    yi_queue : forall t st, qin (sv_pend sv) t st -> In st team /\ w_task (f st) = t /\ w_at (f st) <> Unborn;
    yi_book : forall e, In e (sv_book sv) -> In (owner e) team /\ w_task (f (owner e)) = b_task (blk e) /\ w_at (f (owner e)) <> Unborn
  }.
  Lemma yinv_ext k sv team f g : (forall st, In st team -> g st = f st) -> YInv k sv team f -> YInv k sv team g.
  Proof.
    intros E [A1 A2 A3 A4 A5 A6 A7 A8]. constructor; auto.
    - intros st H. rewrite E; auto.
    - intros st H. rewrite E; auto.
    - intros st m H. rewrite E by auto. auto.
    - intros st H. rewrite E; auto. apply A6; auto.
    - intros t st H. destruct (A7 t st H) as [H1 H2]. rewrite E; auto.
    - intros e H. destruct (A8 e H) as [H1 H2]. rewrite E; auto.
  Qed.
  Lemma msg_ok_app sv sv' t m : (exists l, sv_tr sv' = l ++ sv_tr sv) -> msg_ok sv t m -> msg_ok sv' t m.
  Proof.
    intros [l E]. destruct m; cbn; auto. intros [H [st' [pb' [H1 H2]]]]. split; auto. exists st', pb'. split; auto.
    rewrite E. apply in_or_app. auto.
  Qed.
  Lemma yinv_same k sv sv' team f : YInv k sv team f -> SInv [] sv' -> sv_book sv' = sv_book sv -> sv_pend sv' = sv_pend sv ->
    (forall u, In u (sv_started sv) -> In u (sv_started sv')) -> (exists l, sv_tr sv' = l ++ sv_tr sv) -> YInv k sv' team f.
  Proof.
    intros [A1 A2 A3 A4 A5 A6 A7 A8] Is Eb Ep Es El. constructor; rewrite ?Eb, ?Ep; auto.
    intros st m H K. eapply msg_ok_app; eauto.
  Qed.
  Lemma yinv_check k sv team f : YInv k sv team f -> YInv k (check_all sv) team f.
  Proof.
    intros Y. destruct (check_all_spec sv) as [B [S _]]. eapply yinv_same; eauto.
    - eapply sinv_besides; [apply Y|exact B].
    - apply B.
    - apply B.
    - rewrite S. auto.
    - destruct (be_tr _ _ B) as [l [E _]]. eauto.
  Qed.
  Lemma yinv_plain k sv team f l : YInv k sv team f -> Forall plain l -> YInv k (add_tr sv l) team f.
  Proof.
    intros Y P. eapply yinv_same; eauto.
    - apply sinv_plain; auto. apply Y.
    - exists l. reflexivity.
  Qed.

  (* a request is answered *)
  Lemma count_perm (l l' : list nat) st : Permutation l l' -> count_occ Nat.eq_dec l st = count_occ Nat.eq_dec l' st.
  Proof. intros P. revert st. apply Permutation_count_occ; auto. Qed.
  Lemma acq_yinv t st x y l team f : YInv (Some st) x team f -> In st team -> w_task (f st) = t ->
    SInv [] y -> sv_tr y = l ++ sv_tr x -> acq t st x y l -> YInv None y team (fun s => deliver s l (f s)).
  Proof.
    intros Y Hst Et Iy El A. pose proof (acq_started _ _ _ _ _ A) as Mono. destruct Y as [A1 A2 A3 A4 A5 A6 A7 A8].
    assert (NU : w_at (f st) <> Unborn).
    { pose proof (A6 st Hst) as H. cbn in H. rewrite Nat.eqb_refl in H. unfold heard in H.
      intros E. rewrite E in H. exact H. }
    constructor; cbn [deliver w_task w_at w_out]; auto.
    - intros s m Hs Hm. eapply msg_ok_app; eauto.
    - intros s Hs. specialize (A6 s Hs). cbn in A6.
      assert (Rs : s <> st -> replies s l = []).
      { intros N. unfold replies. destruct A as [chk pb sk now H1 H2 H3 H4|chk sk m H1 H2 H3 H4 H5 H6 H7|chk sk H1 H2 H3 H4 H5 H6].
        - cbn [app rev]. rewrite <- app_assoc. cbn [app]. rewrite flat_map_app. fold (replies s (calls t (Some pb) sk)).
          rewrite (replies_silent s (calls t (Some pb) sk)) by apply calls_silent. cbn.
          rewrite (proj2 (Nat.eqb_neq _ _)) by auto. reflexivity.
        - rewrite rev_app_distr. cbn [rev]. rewrite <- app_assoc. cbn [app]. rewrite !flat_map_app.
          fold (replies s (calls t None sk)). rewrite (replies_silent s (calls t None sk)) by apply calls_silent.
          cbn [app flat_map]. rewrite (proj2 (Nat.eqb_neq _ _)) by auto. fold (replies s m).
          rewrite replies_silent by (apply aside_silent; auto). reflexivity.
        - apply (replies_silent s (ADelay t st :: calls t None sk)). constructor; [exact I|apply calls_silent]. }
      assert (Same : s <> st -> deliver s l (f s) = f s).
      { intros N. unfold deliver. rewrite Rs, app_nil_r by auto. destruct (f s); reflexivity. }
      destruct (Nat.eqb_spec st s) as [Es|N].
      + subst s. unfold heard in A6. unfold talk. cbn [deliver w_task w_at w_out w_in].
        destruct (w_at (f st)) eqn:Ew; try exact I; try (exfalso; exact A6).
        destruct A6 as [Eo [Ei [Eq Fr]]]. rewrite Eo, Ei. cbn [app].
        destruct A as [chk pb sk now H1 H2 H3 H4|chk sk m H1 H2 H3 H4 H5 H6 H7|chk sk H1 H2 H3 H4 H5 H6].
        * change ([ANote (NAcquire t (s_st (sv_s y) t)); ASend st pb] ++ calls t (Some pb) sk) with
            ([ANote (NAcquire t (s_st (sv_s y) t))] ++ [ASend st pb] ++ calls t (Some pb) sk).
          rewrite !replies_app, (replies_silent st (calls _ _ _)) by apply calls_silent.
          cbn. rewrite Nat.eqb_refl. cbn [app].
          right; right; right. exists pb. rewrite H2, H3. repeat split; auto. unfold only. rewrite mine_app, Fr. cbn.
          unfold owner. cbn. rewrite Nat.eqb_refl. reflexivity.
        * change (AShutdown t st :: calls t None sk) with ([AShutdown t st] ++ calls t None sk).
          rewrite !replies_app, (replies_silent st (calls _ _ _)) by apply calls_silent.
          rewrite (replies_silent st m) by (apply aside_silent; auto). cbn. rewrite Nat.eqb_refl. cbn [app].
          right; right; left. rewrite H2, H3. auto.
        * rewrite (replies_silent st (ADelay t st :: calls t None sk)) by (constructor; [exact I|apply calls_silent]).
          right; left. rewrite H2. repeat split; auto. destruct (pput_qin _ _ _ _ H3) as [P _].
          unfold waits. rewrite (count_perm _ _ st P). cbn. destruct (Nat.eq_dec st st); [|congruence].
          unfold waits in Eq. rewrite Eq. reflexivity.
      + rewrite Same by auto.
        assert (Em : mine (sv_book y) s = mine (sv_book x) s).
        { destruct A as [chk pb sk now H1 H2 H3 H4|chk sk m H1 H2 H3 H4 H5 H6 H7|chk sk H1 H2 H3 H4 H5 H6]; rewrite H2; auto.
          rewrite mine_app. cbn. unfold owner. cbn. rewrite (proj2 (Nat.eqb_neq _ _)) by auto. apply app_nil_r. }
        assert (Eq : waits (sv_pend y) s = waits (sv_pend x) s).
        { destruct A as [chk pb sk now H1 H2 H3 H4|chk sk m H1 H2 H3 H4 H5 H6 H7|chk sk H1 H2 H3 H4 H5 H6]; rewrite ?H3; auto.
          destruct (pput_qin _ _ _ _ H3) as [P _]. unfold waits. rewrite (count_perm _ _ s P). cbn.
          destruct (Nat.eq_dec st s); [congruence|auto]. }
        unfold talk, owes, only, free in *. rewrite Em, Eq. exact A6.
    - intros u s Hq.
      assert (K : qin (sv_pend x) u s \/ u = t /\ s = st).
      { destruct A as [chk pb sk now H1 H2 H3 H4|chk sk m H1 H2 H3 H4 H5 H6 H7|chk sk H1 H2 H3 H4 H5 H6];
          [rewrite H3 in Hq; auto|rewrite H3 in Hq; auto|]. destruct (pput_qin _ _ _ _ H3) as [_ Q]. apply Q. auto. }
      destruct K as [K|[-> ->]]; auto.
    - intros e He.
      assert (K : In e (sv_book x) \/ owner e = st /\ b_task (blk e) = t).
      { destruct A as [chk pb sk now H1 H2 H3 H4|chk sk m H1 H2 H3 H4 H5 H6 H7|chk sk H1 H2 H3 H4 H5 H6];
          [|rewrite H2 in He; auto|rewrite H2 in He; auto].
        rewrite H2 in He. apply in_app_or in He. destruct He as [He|[<-|[]]]; auto. right. split; auto. unfold blk. cbn.
        pose proof (reach_acquire _ _ _ _ _ _ _ _ _ _ _ _ (si_reach _ _ _ _ _ _ _ _ A1) H1) as R.
        apply (ok_at V up down seeds maxr fuel GG EN s0 FR _ _ R [] (EvHand t pb) _ eq_refl). }
      destruct K as [K|[K1 K2]]; auto. rewrite K1, K2. auto.
  Qed.

  (* a block is returned *)
  Lemma safe_more i pb st x y : safe_release i pb st x = Ok y ->
    (exists l, sv_tr y = l ++ sv_tr x /\ Forall silent l) /\
    (forall u, In u (sv_started x) -> In u (sv_started y)) /\
    (sv_stop x = true -> sv_stop y = true) /\
    (sv_tr y = sv_tr x /\ sv_s y = sv_s x /\ sv_started y = sv_started x \/
     (forall u, In u (get_ready_tasks (sv_s y)) -> In u (sv_started y))).
  Proof.
    unfold Server.safe_release. destruct (is_valid_return _ _ _).
    - destruct (Server.sv_release _ _ _ _ _ _ _ _) as [z|] eqn:E; [|discriminate]. cbn [bind].
      destruct (notify_block_returned _ _ _) as [b|]; [|discriminate]. cbn [bind]. intros H. injection H as <-.
      destruct (rel_more _ _ _ _ E) as [H1 [H2 H3]]. cbn. split; auto. split; [intros u Hu; apply H2; auto|split; auto].
      right. intros u Hu. apply H2. auto.
    - intros H. injection H as <-. split; [exists []; auto|]. split; [auto|]. split; [auto|]. left. auto.
  Qed.
  Definition told (m : message) (pb : pyblock) : Prop :=
    match m with
    | MRelease pb' => pb = pb'
    | MBlockFailed pb' _ => pb = PB (pb_block pb') FAILED
    | _ => False
    end.
  Lemma told_ok sv t m pb : told m pb -> msg_ok sv t m -> In (pb_block pb) V /\ st_ok (pb_status pb).
  Proof.
    destruct m; cbn; try tauto; intros ->; auto. intros [H _]. split; auto. right. reflexivity.
  Qed.
  Lemma rel_yinv i pb st m r x y team f : YInv None x team f -> In st team -> w_out (f st) = m :: r -> told m pb ->
    safe_release i pb st x = Ok y -> YInv None y team (fun s => taken (GotMessage st m) s (f s)).
  Proof.
    intros Y Hst Eo Tm E. pose proof Y as [A1 A2 A3 A4 A5 A6 A7 A8].
    assert (Mk : msg_ok x (w_task (f st)) m) by (apply A5; auto; rewrite Eo; left; auto).
    destruct (told_ok _ _ _ _ Tm Mk) as [Vb Sb].
    destruct (safe_release_ok V up down seeds maxr fuel GG EN s0 FR tasks init init_ok i pb st x A1 Vb Sb) as [y' [E' [Iy [Hv Hn]]]].
    rewrite E in E'. injection E' as <-. destruct (safe_more _ _ _ _ _ E) as [[l [El _]] [Mono _]].
    set (g := fun s => taken (GotMessage st m) s (f s)).
    assert (Gt : forall s, w_task (g s) = w_task (f s)) by (intros s; unfold g, taken; destruct (Nat.eqb st s); reflexivity).
    assert (Ga : forall s, w_at (g s) = w_at (f s)) by (intros s; unfold g, taken; destruct (Nat.eqb st s); reflexivity).
    assert (Gi : forall s, w_in (g s) = w_in (f s)) by (intros s; unfold g, taken; destruct (Nat.eqb st s); reflexivity).
    assert (Go : forall s m', In m' (w_out (g s)) -> In m' (w_out (f s))).
    { intros s m'. unfold g, taken. destruct (Nat.eqb_spec st s) as [<-|N]; auto. cbn. rewrite Eo. cbn. auto. }
    assert (Gs : w_out (g st) = r) by (unfold g, taken; rewrite Nat.eqb_refl; cbn; rewrite Eo; reflexivity).
    assert (Gn : forall s, s <> st -> g s = f s).
    { intros s N. unfold g, taken. rewrite (proj2 (Nat.eqb_neq _ _)) by auto. reflexivity. }
    assert (Ep : sv_pend y = sv_pend x).
    { destruct (is_valid_return pb st (sv_book x)); [apply Hv; auto|rewrite Hn; auto]. }
    assert (Hsub : forall e, In e (sv_book y) -> In e (sv_book x)).
    { intros e. destruct (is_valid_return pb st (sv_book x)); [|rewrite Hn; auto].
      destruct (Hv eq_refl) as [-> _]. intros He. apply in_bdel in He. tauto. }
    assert (Keep : forall s, s <> st -> mine (sv_book y) s = mine (sv_book x) s).
    { intros s N. destruct (is_valid_return pb st (sv_book x)) eqn:Va; [|rewrite Hn; auto].
      destruct (Hv eq_refl) as [-> _]. apply mine_filter. intros e He Oe. apply Bool.negb_true_iff.
      destruct (bid_eqb _ _) eqn:Eb; auto. apply (proj1 (bid_eqb_eq _ _)) in Eb. exfalso. apply N.
      destruct (valid_block V up down seeds maxr fuel GG EN s0 FR tasks pb st [] x A1 Vb Va) as [lg [Hl [_ [Es _]]]].
      destruct e as [k lg']. cbn in Eb. subst k.
      rewrite (keys_inj _ _ _ _ (sinv_keys V up down seeds maxr fuel GG EN s0 FR tasks [] x A1) He Hl) in Oe.
      unfold owner in Oe. cbn in Oe. congruence. }
    assert (Valid : only (sv_book x) st (pb_block pb) -> is_valid_return pb st (sv_book x) = true).
    { intros O. apply only_in in O. destruct O as [[k lg] [He [Oe Be]]]. unfold is_valid_return.
      pose proof (si_key _ _ _ _ _ _ _ _ A1 _ He) as K. cbn in K. unfold blk in Be. cbn in Be. rewrite Be in K. subst k.
      rewrite (bget_in _ _ _ (sinv_keys V up down seeds maxr fuel GG EN s0 FR tasks [] x A1) He).
      apply Nat.eqb_eq. exact Oe. }
    assert (Free : only (sv_book x) st (pb_block pb) \/ free (sv_book x) st -> free (sv_book y) st).
    { intros [O|F].
      - destruct (Hv (Valid O)) as [-> _]. apply free_iff. intros e He Oe. apply in_bdel in He. destruct He as [He Ne].
        apply Ne. rewrite (si_key _ _ _ _ _ _ _ _ A1 _ He). f_equal. apply (only_all _ _ _ _ O He Oe).
      - apply free_iff. intros e He. apply (proj1 (free_iff _ _) F). auto. }
    assert (Ow : forall r', owes (sv_book x) st (m :: r') -> owes (sv_book y) st r').
    { intros r'. destruct m as [t|pb'|pb' w|e|]; cbn in Tm; try tauto; subst pb; destruct r' as [|m1 r']; cbn; try tauto.
      destruct m1 as [|pb1| | |]; try tauto. destruct r'; tauto. }
    constructor; rewrite ?Ep; auto.
    - intros s Hs. rewrite Gt. auto.
    - intros s Hs Na. rewrite Gt. rewrite Ga in Na. auto.
    - intros s m' Hs Hm. rewrite Gt. apply Go in Hm. eapply msg_ok_app; eauto.
    - intros s Hs. change (talk (sv_pend x) (sv_book y) s (g s)). destruct (Nat.eq_dec s st) as [->|N].
      + specialize (A6 st Hs). cbn in A6. unfold talk in *. rewrite Ga, Gi, Gt, Gs. rewrite Eo in A6.
        destruct (w_at (f st)); try exact I; try (destruct A6 as [A6 _]; discriminate).
        * destruct A6 as [B1 [B2 B3]]. auto.
        * destruct A6 as [[o [B1 [B2 [B3 B4]]]]|[[B1 _]|[[B1 _]|[pb1 [B1 _]]]]]; try discriminate.
          left. destruct o as [|m1 o]; cbn in B1; injection B1 as -> ->; [destruct Tm|]. exists o. auto.
      + rewrite Gn by auto. specialize (A6 s Hs). cbn in A6. unfold talk, owes, only, free in *. rewrite Keep by auto. exact A6.
    - intros t s Hq. rewrite Gt, Ga. apply A7 in Hq. exact Hq.
    - intros e He. rewrite Gt, Ga. apply A8. auto.
  Qed.

  (* a request arrives, or is taken from its queue *)
  Lemma ask_yinv st t r x team f : YInv None x team f -> In st team -> w_out (f st) = MAcquire t :: r ->
    YInv (Some st) x team (fun s => taken (GotMessage st (MAcquire t)) s (f s)) /\ t = w_task (f st).
  Proof.
    intros Y Hst Eo. pose proof Y as [A1 A2 A3 A4 A5 A6 A7 A8].
    assert (Et : t = w_task (f st)) by (apply (A5 st (MAcquire t)); auto; rewrite Eo; left; auto).
    split; auto.
    set (g := fun s => taken (GotMessage st (MAcquire t)) s (f s)).
    assert (Gt : forall s, w_task (g s) = w_task (f s)) by (intros s; unfold g, taken; destruct (Nat.eqb st s); reflexivity).
    assert (Ga : forall s, w_at (g s) = w_at (f s)) by (intros s; unfold g, taken; destruct (Nat.eqb st s); reflexivity).
    assert (Gi : forall s, w_in (g s) = w_in (f s)) by (intros s; unfold g, taken; destruct (Nat.eqb st s); reflexivity).
    assert (Go : forall s m', In m' (w_out (g s)) -> In m' (w_out (f s))).
    { intros s m'. unfold g, taken. destruct (Nat.eqb_spec st s) as [<-|N]; auto. cbn. rewrite Eo. cbn. auto. }
    assert (Gs : w_out (g st) = r) by (unfold g, taken; rewrite Nat.eqb_refl; cbn; rewrite Eo; reflexivity).
    assert (Gn : forall s, s <> st -> g s = f s).
    { intros s N. unfold g, taken. rewrite (proj2 (Nat.eqb_neq _ _)) by auto. reflexivity. }
    constructor; auto.
    - intros s Hs. rewrite Gt. auto.
    - intros s Hs Na. rewrite Gt. rewrite Ga in Na. auto.
    - intros s m' Hs Hm. rewrite Gt. auto.
    - intros s Hs. destruct (Nat.eqb_spec st s) as [<-|N].
      + specialize (A6 st Hs). cbn in A6. unfold talk, heard in *. rewrite Ga, Gi, Gs. rewrite Eo in A6.
        destruct (w_at (f st)); try exact I; try (destruct A6 as [A6 _]; discriminate).
        * destruct A6 as [_ [_ A6]]. destruct r; exact A6.
        * destruct A6 as [[o [B1 [B2 [B3 B4]]]]|[[B1 _]|[[B1 _]|[pb1 [B1 _]]]]]; try discriminate.
          destruct o as [|m1 o]; cbn in B1.
          -- injection B1 as _ ->. auto.
          -- injection B1 as <- _. destruct o; destruct B4.
      + rewrite Gn by auto. apply (A6 s Hs).
    - intros u s Hq. rewrite Gt, Ga. apply A7 in Hq. exact Hq.
    - intros e He. rewrite Gt, Ga. apply A8. auto.
  Qed.
  Lemma retry_yinv t st p x team f : YInv None x team f -> pfirst (sv_pend x) = Some (t, st, p) ->
    YInv (Some st) (set_pend x p) team f /\ In st team /\ w_task (f st) = t.
  Proof.
    intros Y P. pose proof Y as [A1 A2 A3 A4 A5 A6 A7 A8]. destruct (pfirst_qin _ _ _ _ P) as [Pm [Q1 Q2]].
    destruct (A7 _ _ Q1) as [Hst [Et Na]]. split; [|split; auto].
    assert (Wq : forall s, waits (sv_pend x) s = ((if Nat.eq_dec st s then 1 else 0) + waits p s)%nat).
    { intros s. unfold waits. rewrite (count_perm _ _ s Pm). cbn. destruct (Nat.eq_dec st s); reflexivity. }
    constructor; auto.
    - apply sinv_set_pend; auto. apply (pfirst_keys _ _ _ _ P).
    - intros s Hs. cbn [set_pend sv_pend sv_book]. specialize (A6 s Hs). cbn in A6.
      specialize (Wq s). destruct (Nat.eq_dec st s) as [Es|N].
      + subst s. rewrite Nat.eqb_refl. unfold talk, heard in *. rewrite Wq in A6.
        destruct (w_at (f st)); try exact I.
        * congruence.
        * destruct A6 as [_ [A6 _]]. discriminate.
        * destruct A6 as [[o [_ [_ [A6 _]]]]|[[B1 [B2 [B3 B4]]]|[[_ [_ [A6 _]]]|[pb [_ [_ [A6 _]]]]]]]; try discriminate.
          injection B3 as B3. auto.
        * destruct A6 as [_ [_ [A6 _]]]. discriminate.
        * destruct A6 as [_ [_ [A6 _]]]. discriminate.
      + rewrite (proj2 (Nat.eqb_neq _ _)) by auto. cbn in Wq. unfold talk in *. rewrite Wq in A6. exact A6.
  Qed.

  (* the blocks of streams that are closed *)
  Lemma lost_more i x y : check_lost i x = Ok y ->
    (exists l, sv_tr y = l ++ sv_tr x /\ Forall silent l) /\
    (forall u, In u (sv_started x) -> In u (sv_started y)) /\
    (sv_stop x = true -> sv_stop y = true) /\
    (sv_s y = sv_s x /\ sv_started y = sv_started x \/
     (forall u, In u (get_ready_tasks (sv_s y)) -> In u (sv_started y))).
  Proof.
    unfold Server.check_lost. destruct (get_lost_blocks _ _ _ _) as [[bs b]|]; [|discriminate]. cbn [bind].
    set (nt := rev (flat_map (fun e => if i_closed i (lg_stream (snd e)) then [ALost (lg_block (snd e)) (lg_stream (snd e))] else []) (sv_book x))).
    assert (F : Forall silent nt).
    { eapply Forall_impl; [|apply (lost_notes i (sv_book x))]. intros a; destruct a; cbn; tauto. }
    assert (G : forall bs z, foldM (fun x pb => sv_release i (PB (pb_block pb) FAILED) x) bs z = Ok y ->
      (exists l, sv_tr y = l ++ sv_tr z /\ Forall silent l) /\
      (forall u, In u (sv_started z) -> In u (sv_started y)) /\
      (sv_stop z = true -> sv_stop y = true) /\
      (y = z \/ (forall u, In u (get_ready_tasks (sv_s y)) -> In u (sv_started y)))).
    { clear. induction bs as [|pb bs IH]; intros z; cbn [foldM].
      - intros H. injection H as <-. split; [exists []; auto|]. auto.
      - destruct (Server.sv_release _ _ _ _ _ _ _ _) as [w|] eqn:E; [|discriminate]. cbn [bind]. intros H.
        destruct (rel_more _ _ _ _ E) as [[l [L1 L2]] [S1 T1]]. destruct (IH w H) as [[m [M1 M2]] [S2 [T2 D]]].
        split; [exists (m ++ l); rewrite M1, L1, app_assoc; split; auto; apply Forall_app; auto|].
        split; [intros u Hu; apply S2, S1; auto|]. split; [auto|]. right. intros u.
        destruct D as [->|D]; auto. intros Hu. apply S1. auto. }
    intros H. destruct (G _ _ H) as [[l [L1 L2]] [S1 [T1 D]]]. cbn in *. fold nt in L1.
    split; [exists (l ++ nt); rewrite L1, app_assoc; split; auto; apply Forall_app; auto|].
    split; auto. split; auto. destruct D as [->|D]; auto.
  Qed.
  Lemma lost_yinv i x y team f : YInv None x team f -> (forall st, In st team -> i_closed i st = true -> offline (w_at (f st))) ->
    check_lost i x = Ok y ->
    YInv None y team f /\ sv_book y = filter (fun e => negb (i_closed i (owner e))) (sv_book x).
  Proof.
    intros Y Cl E. pose proof Y as [A1 A2 A3 A4 A5 A6 A7 A8].
    destruct (check_lost_ok V up down seeds maxr fuel GG EN s0 FR tasks init init_ok i x A1) as [y' [E' [Iy [Eb [Ep [_ [l [El _]]]]]]]].
    rewrite E in E'. injection E' as <-. destruct (lost_more _ _ _ E) as [_ [Mono _]].
    split; [|exact Eb]. constructor; rewrite ?Ep; auto.
    - intros s m Hs Hm. eapply msg_ok_app; eauto.
    - intros s Hs. change (talk (sv_pend x) (sv_book y) s (f s)). specialize (A6 s Hs). cbn in A6.
      rewrite Eb. change (fun e => negb (i_closed i (lg_stream (snd e)))) with (fun e => negb (i_closed i (owner e))).
      destruct (i_closed i s) eqn:Ec.
      + pose proof (Cl s Hs Ec) as Of. unfold talk in *. destruct (w_at (f s)); try exact I; destruct Of.
        destruct A6 as [B1 [B2 [B3 B4]]]. repeat split; auto. apply free_iff. intros e He. apply filter_In in He.
        apply (proj1 (free_iff _ _) B4). tauto.
      + assert (Em : mine (filter (fun e => negb (i_closed i (owner e))) (sv_book x)) s = mine (sv_book x) s).
        { apply mine_filter. intros e _ Oe. rewrite Oe, Ec. reflexivity. }
        unfold talk, owes, only, free in *. rewrite Em. exact A6.
    - intros e He. apply A8. rewrite Eb in He. apply filter_In in He. tauto.
  Qed.

  (* one iteration of the event loop *)
  Inductive hm (i : input) (x a : server) (team : list nat) (f : nat -> worker) : Prop :=
  | hm_ask st t r a1 l : i_get i = GotMessage st (MAcquire t) -> In st team -> w_out (f st) = MAcquire t :: r ->
      acq t st (add_tr x [ARecv st (MAcquire t)]) a1 l -> SInv [] a1 -> sv_tr a1 = l ++ ARecv st (MAcquire t) :: sv_tr x ->
      sv_stop a1 = sv_stop x -> a = check_all a1 -> hm i x a team f
  | hm_retry st t p a1 l : i_get i = GotNothing -> pfirst (sv_pend x) = Some (t, st, p) ->
      acq t st (add_tr (set_pend x p) [ARetry t st]) a1 l -> SInv [] a1 -> sv_tr a1 = l ++ ARetry t st :: sv_tr x ->
      sv_stop a1 = sv_stop x -> a = check_all a1 -> hm i x a team f
  | hm_rel st m r pb a1 n : i_get i = GotMessage st m -> In st team -> w_out (f st) = m :: r -> told m pb ->
      safe_release i pb st (add_tr x [ARecv st m]) = Ok a1 -> (n = [] \/ exists pb' w, n = [ANote (NFailure pb' w)]) ->
      a = check_all (add_tr a1 n) -> hm i x a team f
  | hm_none : i_get i = GotClosed \/ i_get i = GotNothing /\ pfirst (sv_pend x) = None -> a = x -> hm i x a team f.
  Lemma msgs_hm i x a team f : YInv None x team f -> input_ok (Sys x team f) i ->
    handle_messages up down maxr fuel init i x = Ok a -> hm i x a team f.
  Proof.
    intros Y [_ [G _]]. cbn in G. unfold handle_messages. destruct (i_get i) as [st m| | |e] eqn:Ei.
    - destruct G as [Hst [r Eo]]. pose proof (yi_out _ _ _ _ Y st m Hst) as Mk. rewrite Eo in Mk. specialize (Mk (or_introl eq_refl)).
      assert (Y1 : YInv None (add_tr x [ARecv st m]) team f) by (apply yinv_plain; auto; repeat constructor).
      unfold handle_message. destruct m as [t|pb|pb w|e|]; try (destruct Mk; fail).
      + destruct (Server.handle_acquire _ _ _ _ _ _ _ _ _) as [a1|] eqn:E; [|discriminate]. cbn [bind]. intros H. injection H as <-.
        assert (Ht : In t tasks) by (cbn in Mk; subst t; apply (yi_task _ _ _ _ Y); auto).
        destruct (acq_ok _ _ _ _ _ (yi_sv _ _ _ _ Y1) Ht E) as [I1 [T1 [l [L1 Q]]]].
        eapply hm_ask; eauto.
      + destruct (Server.safe_release _ _ _ _ _ _ _ _ _) as [a1|] eqn:E; [|discriminate]. cbn [bind]. intros H. injection H as <-.
        eapply (hm_rel _ _ _ _ _ st (MRelease pb) r pb a1 []); eauto; try reflexivity; destruct a1; reflexivity.
      + destruct (Server.safe_release _ _ _ _ _ _ _ _ _) as [a1|] eqn:E; [|discriminate]. cbn [bind]. intros H. injection H as <-.
        eapply (hm_rel _ _ _ _ _ st (MBlockFailed pb w) r _ a1 [_]); eauto. reflexivity.
    - destruct (pfirst (sv_pend x)) as [[[t st] p]|] eqn:P.
      + unfold handle_message. destruct (Server.handle_acquire _ _ _ _ _ _ _ _ _) as [a1|] eqn:E; [|discriminate]. cbn [bind].
        intros H. injection H as <-.
        destruct (retry_yinv _ _ _ _ _ _ Y P) as [Y1 [Hst Et]].
        assert (I0 : SInv [] (add_tr (set_pend x p) [ARetry t st])) by (apply sinv_plain; [apply Y1|repeat constructor]).
        assert (Ht : In t tasks) by (subst t; apply (yi_task _ _ _ _ Y); auto).
        destruct (acq_ok _ _ _ _ _ I0 Ht E) as [I1 [T1 [l [L1 Q]]]].
        eapply hm_retry; eauto.
      + intros H. injection H as <-. apply hm_none; auto.
    - intros H. injection H as <-. apply hm_none; auto.
    - destruct G.
  Qed.
  Lemma hm_yinv i x a team f : YInv None x team f -> hm i x a team f ->
    exists l, sv_tr a = l ++ sv_tr x /\ YInv None a team (fun s => deliver s l (taken (i_get i) s (f s))) /\ (sv_stop x = true -> sv_stop a = true).
  Proof.
    intros Y [st t r a1 l Ei Hst Eo Q I1 L1 T1 Ea|st t p a1 l Ei P Q I1 L1 T1 Ea|st m r pb a1 n Ei Hst Eo Tm E Hn Ea|Ei Ea].
    - subst a. assert (Y1 : YInv None (add_tr x [ARecv st (MAcquire t)]) team f) by (apply yinv_plain; auto; repeat constructor).
      destruct (ask_yinv _ _ _ _ _ _ Y1 Hst Eo) as [Y2 Et].
      assert (Y3 := acq_yinv t st _ a1 l team _ Y2 Hst). cbn in Y3. rewrite Nat.eqb_refl in Y3.
      specialize (Y3 (eq_sym Et) I1 L1 Q). apply yinv_check in Y3.
      destruct (check_all_spec a1) as [B [_ [T _]]]. destruct (be_tr _ _ B) as [lc [Ec Ac]].
      exists (lc ++ l ++ [ARecv st (MAcquire t)]). split; [rewrite Ec, L1, <- !app_assoc; reflexivity|]. split.
      + eapply yinv_ext; [|exact Y3]. intros s Hs. rewrite Ei, !deliver_app.
        rewrite (deliver_silent s [ARecv _ _]) by (repeat constructor). rewrite (deliver_silent s lc) by (apply aside_silent; auto).
        reflexivity.
      + intros H. rewrite T, T1, H. reflexivity.
    - subst a. destruct (retry_yinv _ _ _ _ _ _ Y P) as [Y1 [Hst Et]].
      assert (Y2 : YInv (Some st) (add_tr (set_pend x p) [ARetry t st]) team f) by (apply yinv_plain; auto; repeat constructor).
      assert (Y3 := acq_yinv t st _ a1 l team _ Y2 Hst Et I1 L1 Q). apply yinv_check in Y3.
      destruct (check_all_spec a1) as [B [_ [T _]]]. destruct (be_tr _ _ B) as [lc [Ec Ac]].
      exists (lc ++ l ++ [ARetry t st]). split; [rewrite Ec, L1, <- !app_assoc; reflexivity|]. split.
      + eapply yinv_ext; [|exact Y3]. intros s Hs. rewrite Ei, !deliver_app. cbn [taken].
        rewrite (deliver_silent s [ARetry _ _]) by (repeat constructor). rewrite (deliver_silent s lc) by (apply aside_silent; auto).
        reflexivity.
      + intros H. rewrite T, T1, H. reflexivity.
    - subst a. assert (Y1 : YInv None (add_tr x [ARecv st m]) team f) by (apply yinv_plain; auto; repeat constructor).
      pose proof (rel_yinv _ _ _ _ _ _ _ _ _ Y1 Hst Eo Tm E) as Y2.
      assert (Pn : Forall plain n /\ Forall silent n) by (destruct Hn as [->|[pb' [w ->]]]; split; repeat constructor).
      destruct Pn as [Pn Sn]. apply (yinv_plain _ _ _ _ n) in Y2; auto. apply yinv_check in Y2.
      destruct (safe_more _ _ _ _ _ E) as [[l [El Sl]] [_ [T1 _]]].
      destruct (check_all_spec (add_tr a1 n)) as [B [_ [T _]]]. destruct (be_tr _ _ B) as [lc [Ec Ac]].
      exists (lc ++ n ++ l ++ [ARecv st m]). split; [rewrite Ec; cbn [add_tr sv_tr]; rewrite El; cbn [add_tr sv_tr]; rewrite <- !app_assoc; reflexivity|]. split.
      + eapply yinv_ext; [|exact Y2]. intros s Hs. rewrite Ei, !deliver_app.
        rewrite (deliver_silent s [ARecv _ _]) by (repeat constructor). rewrite (deliver_silent s lc) by (apply aside_silent; auto).
        rewrite !deliver_silent by auto. reflexivity.
      + intros H. rewrite T. cbn [add_tr sv_stop]. rewrite T1; auto.
    - subst a. exists []. split; auto. split; auto. eapply yinv_ext; [|exact Y]. intros s Hs.
      rewrite deliver_silent by constructor. destruct Ei as [->|[-> _]]; reflexivity.
  Qed.
  (* a worker that was replaced has no block, or another one of its task is still to come *)
  Definition gone_free (sv : server) (team : list nat) (f : nat -> worker) : Prop :=
    forall st, In st team -> w_at (f st) = Replaced -> free (sv_book sv) st \/
      exists s, In s team /\ w_task (f s) = w_task (f st) /\ coming (w_at (f s)).
  Lemma at_moved g st l w : w_at (deliver st l (taken g st w)) = w_at w.
  Proof. unfold deliver, taken. destruct g; cbn; auto. destruct (Nat.eqb _ _); reflexivity. Qed.
  Lemma task_moved g st l w : w_task (deliver st l (taken g st w)) = w_task w.
  Proof. unfold deliver, taken. destruct g; cbn; auto. destruct (Nat.eqb _ _); reflexivity. Qed.
  Lemma iter_split i x y : iteration up down maxr fuel init i x = Ok y ->
    exists a b, handle_messages up down maxr fuel init i x = Ok a /\ check_lost i a = Ok b /\
      y = if i_tick i then check_all b else b.
  Proof.
    unfold iteration. destruct (handle_messages _ _ _ _ _ _ _) as [a|]; [|discriminate]. cbn [bind].
    destruct (Server.check_lost _ _ _ _ _ _ _) as [b|] eqn:E; [|discriminate]. cbn [bind].
    destruct (i_health i); [|discriminate]. cbn [bind]. intros H. injection H as <-. exists a, b. auto.
  Qed.
  Lemma iter_yinv i x y l team f : YInv None x team f -> input_ok (Sys x team f) i ->
    iteration up down maxr fuel init i x = Ok y -> sv_tr y = l ++ sv_tr x ->
    YInv None y team (fun s => deliver s l (taken (i_get i) s (f s))) /\
    gone_free y team (fun s => deliver s l (taken (i_get i) s (f s))).
  Proof.
    intros Y G E El. destruct (iter_split _ _ _ E) as [a [b [Ea [Eb Ey]]]].
    pose proof (msgs_hm _ _ _ _ _ Y G Ea) as Q. destruct (hm_yinv _ _ _ _ _ Y Q) as [l1 [L1 [Y1 _]]].
    destruct (lost_more _ _ _ Eb) as [[l2 [L2 S2]] _].
    assert (Cl : forall st, In st team -> i_closed i st = true -> offline (w_at (deliver st l1 (taken (i_get i) st (f st))))).
    { intros st Hst Hc. rewrite at_moved. destruct G as [_ [_ [G _]]]. apply (G st Hc). }
    destruct (lost_yinv _ _ _ _ _ Y1 Cl Eb) as [Y2 Bk].
    assert (Y3 : YInv None y team (fun s => deliver s l1 (taken (i_get i) s (f s))) /\ sv_book y = sv_book b /\
      exists l3, sv_tr y = l3 ++ sv_tr b /\ Forall silent l3).
    { subst y. destruct (i_tick i).
      - split; [apply yinv_check; auto|]. destruct (check_all_spec b) as [B _]. split; [apply B|].
        destruct (be_tr _ _ B) as [lc [Ec Ac]]. exists lc. split; auto. apply aside_silent; auto.
      - split; auto. split; auto. exists []. auto. }
    destruct Y3 as [Y3 [Bk3 [l3 [L3 S3]]]].
    assert (l = l3 ++ l2 ++ l1).
    { apply (app_same _ _ (sv_tr x)). rewrite <- El, L3, L2, L1, <- !app_assoc. reflexivity. }
    subst l. split.
    - eapply yinv_ext; [|exact Y3]. intros s Hs. rewrite !deliver_app. rewrite (deliver_silent s l3), (deliver_silent s l2) by auto. reflexivity.
    - intros st Hst Ra. rewrite at_moved in Ra. rewrite task_moved. destruct G as [_ [_ [_ G]]]. destruct (G st Hst Ra) as [G1|[s [H1 [H2 H3]]]].
      + left. rewrite Bk3, Bk. apply free_iff. intros e He Oe. apply filter_In in He.
        destruct He as [_ He]. rewrite Oe, G1 in He. discriminate.
      + right. exists s. rewrite at_moved, task_moved. auto.
  Qed.

  (* the moves *)
  Definition Good (y : sys) : Prop := YInv None (y_sv y) (y_team y) (y_w y) /\ gone_free (y_sv y) (y_team y) (y_w y).
  Lemma put_at y st w : y_w (put y st w) st = w.
  Proof. unfold put. cbn. rewrite Nat.eqb_refl. reflexivity. Qed.
  Lemma put_other y st w s : s <> st -> y_w (put y st w) s = y_w y s.
  Proof. intros N. unfold put. cbn. rewrite (proj2 (Nat.eqb_neq _ _) N). reflexivity. Qed.
  (* one worker changes *)
  Lemma put_good y st w : Good y -> In st (y_team y) -> w_task w = w_task (y_w y st) ->
    (w_at w <> Unborn -> In (w_task w) (sv_started (y_sv y))) -> w_at w <> Unborn -> w_at w <> Replaced ->
    (forall m, In m (w_out w) -> msg_ok (y_sv y) (w_task w) m) ->
    (talk (sv_pend (y_sv y)) (sv_book (y_sv y)) st (y_w y st) -> talk (sv_pend (y_sv y)) (sv_book (y_sv y)) st w) ->
    (coming (w_at (y_w y st)) -> coming (w_at w) \/
       forall s, In s (y_team y) -> w_task (y_w y s) = w_task w -> w_at (y_w y s) = Replaced -> ~ has_block (y_sv y) s) ->
    Good (put y st w).
  Proof.
    intros [[A1 A2 A3 A4 A5 A6 A7 A8] Gf] Hst Et Hs Nu Nr Ho Tk Cm. split.
    - constructor; auto; cbn [put y_sv y_team].
      + intros s H. destruct (Nat.eq_dec s st) as [->|N]; [rewrite put_at, Et|rewrite put_other by auto]; auto.
      + intros s H. destruct (Nat.eq_dec s st) as [->|N]; [rewrite put_at|rewrite put_other by auto]; auto.
      + intros s m H. destruct (Nat.eq_dec s st) as [->|N]; [rewrite put_at|rewrite put_other by auto]; auto.
      + intros s H. cbn. specialize (A6 s H). cbn in A6. destruct (Nat.eqb_spec s st) as [->|N]; auto.
      + intros t s Hq. specialize (A7 t s Hq). destruct (Nat.eq_dec s st) as [->|N]; [rewrite put_at, Et|rewrite put_other by auto]; tauto.
      + intros e He. specialize (A8 e He). destruct (Nat.eq_dec (owner e) st) as [E|N]; [rewrite E in *; rewrite put_at, Et|rewrite put_other by auto]; tauto.
    - intros s H. cbn [put y_sv y_team]. destruct (Nat.eq_dec s st) as [->|N]; [rewrite put_at; congruence|rewrite put_other by auto].
      intros Ra. destruct (Gf s H Ra) as [F|[s' [H1 [H2 H3]]]]; auto. destruct (Nat.eq_dec s' st) as [->|N']; [|right; exists s'; rewrite put_other; auto].
      destruct (Cm H3) as [C|C]; [right; exists st; rewrite put_at, Et; auto|]. left. apply free_has. apply C; auto. congruence.
  Qed.
  (* a new worker *)
  Lemma new_good y st t w : Good y -> ~ In st (y_team y) -> In t tasks -> w = Worker t Unborn [] [] ->
    Good (Sys (y_sv y) (st :: y_team y) (fun s => if Nat.eqb s st then w else y_w y s)).
  Proof.
    intros [Y Gf] Nt Ht ->. pose proof Y as [A1 A2 A3 A4 A5 A6 A7 A8].
    assert (Nq : forall s, In s (y_team y) -> s <> st) by (intros s H ->; auto).
    assert (Fr : free (sv_book (y_sv y)) st) by (apply free_iff; intros e He E; apply Nt; rewrite <- E; apply A8; auto).
    assert (Wt : waits (sv_pend (y_sv y)) st = 0%nat).
    { unfold waits. apply count_occ_not_In. intros H. apply in_flat_map in H. destruct H as [[t' q] [H1 H2]].
      apply Nt. apply (A7 t' st). exists q. auto. }
    split.
    - constructor; auto; cbn [y_sv y_team y_w].
      + constructor; auto.
      + intros s [<-|H]; [rewrite Nat.eqb_refl; exact Ht|]. rewrite (proj2 (Nat.eqb_neq _ _)) by auto. auto.
      + intros s [<-|H]; [rewrite Nat.eqb_refl; cbn; congruence|]. rewrite (proj2 (Nat.eqb_neq _ _)) by auto. auto.
      + intros s m [<-|H]; [rewrite Nat.eqb_refl; intros []|]. rewrite (proj2 (Nat.eqb_neq _ _)) by auto. auto.
      + intros s [<-|H]; [rewrite Nat.eqb_refl; unfold talk; cbn; auto|]. rewrite (proj2 (Nat.eqb_neq _ _)) by auto. apply (A6 s H).
      + intros u s Hq. destruct (A7 u s Hq) as [H1 [H2 H3]]. rewrite (proj2 (Nat.eqb_neq _ _)) by auto. split; [right; auto|auto].
      + intros e He. destruct (A8 e He) as [H1 [H2 H3]]. rewrite (proj2 (Nat.eqb_neq _ _)) by auto. split; [right; auto|auto].
    - intros s. cbn [y_sv y_team y_w]. intros [<-|H]; [rewrite Nat.eqb_refl; discriminate|].
      rewrite (proj2 (Nat.eqb_neq _ _)) by auto. intros Ra. destruct (Gf s H Ra) as [F|[s' [H1 [H2 H3]]]]; auto.
      right. exists s'. rewrite (proj2 (Nat.eqb_neq s' st)) by auto. split; [right|]; auto.
  Qed.
  Lemma returned_forms st pb out : (forall s, out <> Client.Interrupted s) ->
    (exists s, returned st pb out = [MRelease (PB (pb_block pb) s)] /\ st_ok s) \/
    returned st pb out = [MBlockFailed (PB (pb_block pb) FAILED) st; MRelease (PB (pb_block pb) FAILED)].
  Proof.
    intros N. destruct out as [s|s|s]; [| |exfalso; eapply N; reflexivity].
    - left. destruct s; cbn; eexists; split; try reflexivity; unfold st_ok; auto.
    - right. reflexivity.
  Qed.
  Lemma book_sent x e : SInv [] x -> In e (sv_book x) -> exists pb, In (ASend (owner e) pb) (sv_tr x) /\ pb_block pb = blk e.
  Proof.
    intros Ix He. pose proof (si_sent _ _ _ _ _ _ _ _ Ix e He) as H. fold (blk e) in H. change (lg_stream (snd e)) with (owner e) in H.
    revert H. induction (sv_tr x) as [|a tr IH]; cbn; [discriminate|].
    destruct a; try (intros H; destruct (IH H) as [pb' [? ?]]; exists pb'; auto; fail).
    destruct (block_dec (pb_block pb) (blk e)) as [E|N].
    - rewrite <- E. rewrite is_block_same. intros H. injection H as <-. exists pb. auto.
    - rewrite is_block_other by auto. intros H. destruct (IH H) as [pb' [? ?]]; exists pb'; auto.
  Qed.
  Lemma book_V x e : SInv [] x -> In e (sv_book x) -> In (blk e) V /\ held (hist (sv_tr x)) (blk e).
  Proof.
    intros Ix He. assert (H : held (hist (sv_tr x)) (blk e)).
    { apply (si_held _ _ _ _ _ _ _ _ Ix). apply in_or_app. left. apply in_blocks. exists e. auto. }
    split; auto. eapply sinv_V; eauto.
  Qed.
  Lemma step_good y m y' : Good y -> step y m y' -> Good y'.
  Proof.
    intros G S. pose proof G as [Y Gf].
    destruct S as [st t o r Hst Ew Hs Fs|st t o r Hst Ew|st t o pb r Hst Ew|st t o r Hst Ew|st t o pb r out Hst Ew No|st t p o r n Hst Ew Rn Sd|st st' t o r Hst Ew Nt|st t Nt Ht|i sv l Sp Io Ei El].
    - apply put_good; auto; rewrite ?Ew; cbn; auto; try discriminate.
      + intros m Hm. pose proof (yi_out _ _ _ _ Y st m Hst) as H. rewrite Ew in H. auto.
      + unfold talk. cbn. intros [-> [-> [B1 B2]]]. cbn. auto.
    - assert (Hs : In t (sv_started (y_sv y))).
      { pose proof (yi_start _ _ _ _ Y st Hst) as H. rewrite Ew in H. apply H. discriminate. }
      apply put_good; auto; rewrite ?Ew; cbn; auto; try discriminate.
      + intros m Hm. apply in_app_or in Hm. destruct Hm as [Hm|[<-|[]]]; [|reflexivity].
        pose proof (yi_out _ _ _ _ Y st m Hst) as H. rewrite Ew in H. auto.
      + unfold talk. cbn. intros [-> [B1 B2]]. left. exists o. auto.
    - assert (Hs : In t (sv_started (y_sv y))).
      { pose proof (yi_start _ _ _ _ Y st Hst) as H. rewrite Ew in H. apply H. discriminate. }
      apply put_good; auto; rewrite ?Ew; cbn; auto; try discriminate.
      + intros m Hm. pose proof (yi_out _ _ _ _ Y st m Hst) as H. rewrite Ew in H. auto.
      + unfold talk. cbn. intros [[o' [_ [E _]]]|[[_ [E _]]|[[_ [E _]]|[pb' [-> [E [B1 B2]]]]]]]; try discriminate.
        injection E as <- ->. auto.
    - assert (Hs : In t (sv_started (y_sv y))).
      { pose proof (yi_start _ _ _ _ Y st Hst) as H. rewrite Ew in H. apply H. discriminate. }
      apply put_good; auto; rewrite ?Ew; cbn; auto; try discriminate.
      + intros m Hm. pose proof (yi_out _ _ _ _ Y st m Hst) as H. rewrite Ew in H. auto.
      + unfold talk. cbn. intros [[o' [_ [E _]]]|[[_ [E _]]|[[-> [E [B1 B2]]]|[pb' [-> [E [B1 B2]]]]]]]; try discriminate.
        injection E as ->. auto.
    - assert (Hs : In t (sv_started (y_sv y))).
      { pose proof (yi_start _ _ _ _ Y st Hst) as H. rewrite Ew in H. apply H. discriminate. }
      pose proof (yi_talk _ _ _ _ Y st Hst) as T. cbn in T. rewrite Ew in T. unfold talk in T. cbn in T.
      destruct T as [-> [-> [B1 B2]]]. apply only_in in B2 as B3. destruct B3 as [e [He [Oe Be]]].
      destruct (book_V _ _ (yi_sv _ _ _ _ Y) He) as [Vb _]. rewrite Be in Vb.
      destruct (book_sent _ _ (yi_sv _ _ _ _ Y) He) as [pb2 [Sb Eb]]. rewrite Be in Eb.
      cbn [app].
      apply put_good; auto; rewrite ?Ew; cbn [w_task w_at w_out w_in]; auto; try discriminate.
      + intros m Hm. destruct (returned_forms st pb out No) as [[s [E Ok]]|E]; rewrite E in Hm.
        * destruct Hm as [<-|[]]. cbn. auto.
        * destruct Hm as [<-|[<-|[]]]; cbn; split; auto; [|right; reflexivity]. exists (owner e), pb2. auto.
      + intros _. unfold talk. cbn. repeat split; auto.
        destruct (returned_forms st pb out No) as [[s [E Ok]]|E]; rewrite E; cbn; auto.
    - apply put_good; auto; rewrite ?Ew; cbn; auto; try discriminate.
      intros m Hm. assert (Hm' : In m o).
      { rewrite <- (firstn_skipn n o). apply in_or_app. auto. }
      pose proof (yi_out _ _ _ _ Y st m Hst) as H. rewrite Ew in H. auto.
    - assert (Ns : st <> st') by (intros ->; auto).
      assert (Nq : forall s, In s (y_team y) -> s <> st') by (intros s H ->; auto).
      assert (Ht : In t tasks) by (pose proof (yi_task _ _ _ _ Y st Hst) as H; rewrite Ew in H; exact H).
      destruct (new_good y st' t _ G Nt Ht eq_refl) as [[A1 A2 A3 A4 A5 A6 A7 A8] Gn]. cbn [y_sv y_team y_w] in *.
      assert (Ew' : (if Nat.eqb st st' then Worker t Unborn [] [] else y_w y st) = Worker t Dead o r) by (rewrite (proj2 (Nat.eqb_neq _ _)) by auto; exact Ew).
      split.
      + constructor; auto; cbn [y_sv y_team y_w].
        * intros s H. specialize (A3 s H). destruct (Nat.eqb_spec s st'); auto. destruct (Nat.eqb_spec s st) as [->|N]; auto.
        * intros s H. specialize (A4 s H). destruct (Nat.eqb_spec s st'); auto. destruct (Nat.eqb_spec s st) as [->|N]; auto.
          rewrite Ew in A4. intros _. apply A4. discriminate.
        * intros s m H. specialize (A5 s m H). destruct (Nat.eqb_spec s st'); auto. destruct (Nat.eqb_spec s st) as [->|N]; auto. rewrite Ew in A5. exact A5.
        * intros s H. specialize (A6 s H). cbv beta iota in *. destruct (Nat.eqb_spec s st'); auto. destruct (Nat.eqb_spec s st) as [->|N]; auto. exact I.
        * intros u s Hq. destruct (A7 u s Hq) as [H1 [H2 H3]]. split; auto. destruct (Nat.eqb_spec s st'); auto. destruct (Nat.eqb_spec s st) as [->|N]; auto.
          rewrite Ew in H2. split; auto. discriminate.
        * intros e He. destruct (A8 e He) as [H1 [H2 H3]]. split; auto. destruct (Nat.eqb_spec (owner e) st'); auto.
          destruct (Nat.eqb_spec (owner e) st) as [E|N]; auto. rewrite E, Ew in H2. split; auto. discriminate.
      + intros s. cbn [y_sv y_team y_w]. intros [<-|H]; [rewrite Nat.eqb_refl; discriminate|].
        rewrite (proj2 (Nat.eqb_neq s st')) by auto.
        assert (Me : forall u, w_task (if Nat.eqb s st then Worker t Replaced o r else y_w y s) = u -> u = t -> exists s0, In s0 (st' :: y_team y) /\
          w_task (if Nat.eqb s0 st' then Worker t Unborn [] [] else if Nat.eqb s0 st then Worker t Replaced o r else y_w y s0) = u /\
          coming (w_at (if Nat.eqb s0 st' then Worker t Unborn [] [] else if Nat.eqb s0 st then Worker t Replaced o r else y_w y s0))).
        { intros u _ ->. exists st'. rewrite Nat.eqb_refl. split; [left; auto|]. split; [reflexivity|exact I]. }
        destruct (Nat.eqb_spec s st) as [->|N]; [intros _; right; apply Me; reflexivity|].
        intros Ra. destruct (Gf s H Ra) as [F|[s' [H1 [H2 H3]]]]; auto. right. destruct (Nat.eq_dec s' st) as [->|N']; [apply Me; auto; rewrite <- H2, Ew; reflexivity|].
        exists s'. rewrite (proj2 (Nat.eqb_neq s' st')), (proj2 (Nat.eqb_neq s' st)) by auto. split; [right|]; auto.
    - apply (new_good y st t _ G Nt); auto. rewrite (si_pend _ _ _ _ _ _ _ _ (yi_sv _ _ _ _ Y)) in Ht. apply (proj1 (in_dedup_nat _ _)) in Ht. exact Ht.
    - destruct y as [sy ty fy]. eapply iter_yinv; eauto.
  Qed.
  Lemma runs_good y ms y' : Good y -> runs y ms y' -> Good y'.
  Proof. intros G R. induction R; auto. eapply step_good; eauto. Qed.
  Lemma start_good sv crew : server_init init tasks false s0 = Ok sv -> (forall t, In t crew -> In t tasks) ->
    Good (start_of sv crew).
  Proof.
    intros E Hc. destruct (init_sinv up down maxr fuel s0 tasks init init_ok false) as [sv' [E' Is]].
    rewrite E in E'. injection E' as <-. unfold server_init in E.
    destruct (recruit_spec init _ _ E) as [[_ Bb Bp _] _]. cbn in Bb, Bp.
    split.
    - constructor; cbn [start_of y_sv y_team y_w crew_worker w_task w_at w_out]; auto.
      + apply seq_NoDup.
      + intros st Hst. apply in_seq in Hst. apply Hc. apply nth_In. lia.
      + congruence.
      + intros st m _ [].
      + intros st Hst. unfold talk. cbn. rewrite Bb, Bp. repeat split; auto. unfold waits.
        apply count_occ_not_In. intros H. apply in_flat_map in H. destruct H as [[t q] [H1 H2]].
        apply in_map_iff in H1. destruct H1 as [u [E1 _]]. injection E1 as _ <-. destruct H2.
      + intros t st [q [H1 H2]]. rewrite Bp in H1. apply in_map_iff in H1. destruct H1 as [u [E1 _]]. injection E1 as _ <-. destruct H2.
      + intros e He. rewrite Bb in He. destruct He.
    - intros st _. discriminate.
  Qed.
End YInv.

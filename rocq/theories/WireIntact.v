(* Runs over the network in which connections are lost (WireLoss.v): what the server knows of a worker whose process runs and whose
   connection was not lost. *)
From Coq Require Import Arith Lia.
From Verif Require Import SchedProps SchedExec DGFacts2 PipeRun P_SchedCE P_Sched SerialFacts P_Conv P_Serial ServerFacts ServerSteps
  ServerIdle P_Server P_Server2 P_ServerCE P_Outcome P_Notify PoolAll P_PoolFail P_SysEx P_SysCE.
From Verif Require Client Pool P_Pool P_Whole P_WholeEx P_WholeCE P_Cause Tcp Net NetFacts P_Net P_NetErr WireNet.
From Verif Require Import Sys SysFacts SysMeasure SysTrace WholeFair WholeSrv WholeSim WholeAny WholeAll WholeRun P_WholeAny Wire WireSim P_Wire WireAttr WireLoss P_WireLoss.
Open Scope Z_scope.

(* ---- one conversation of the server ---- *)
Definition about (st : nat) (a : act) : bool := match a with ARecv s _ | ASend s _ | AShutdown _ s => Nat.eqb s st | _ => false end.
Fixpoint latest (st : nat) (tr : list act) : option act := match tr with [] => None | a :: r => if about st a then Some a else latest st r end.
Definition entry (st : nat) (pb : pyblock) (b : book) : Prop := exists e, In e b /\ lg_stream (snd e) = st /\ lg_block (snd e) = pb.
(* the block sent last is in the book, a question asked last waits *)
Definition intact (st : nat) (x : server) : Prop :=
  match latest st (sv_tr x) with
  | Some (ASend _ pb) => entry st pb (sv_book x)
  | Some (ARecv _ (MAcquire _)) => (0 < P_Server2.waiting (fun _ => true) st (sv_pend x))%nat
  | _ => True
  end.
Lemma latest_skip st l tr : Forall (fun a => about st a = false) l -> latest st (l ++ tr) = latest st tr.
Proof. induction 1 as [|a l H _ IH]; auto. cbn. rewrite H. exact IH. Qed.
Definition still (st : nat) (x y : server) : Prop :=
  sv_pend y = sv_pend x /\ sv_book y = sv_book x /\ exists l, sv_tr y = l ++ sv_tr x /\ Forall (fun a => about st a = false) l.
Lemma still_trans st x y z : still st x y -> still st y z -> still st x z.
Proof.
  intros [A [A' [l [B C]]]] [D [D' [m [E F]]]]. split; [congruence|]. split; [congruence|]. exists (m ++ l). rewrite E, B, app_assoc. split; auto. apply Forall_app. auto.
Qed.
Lemma still_refl st x : still st x x.
Proof. split; auto. split; auto. exists []. auto. Qed.
Lemma still_besides st x y : besides x y -> still st x y.
Proof.
  intros [_ B P [l [T A]]]. split; auto. split; auto. exists l. split; auto. eapply Forall_impl; [|exact A]. intros a. destruct a; cbn; tauto.
Qed.
Lemma still_check st x : still st x (check_all x).
Proof. apply still_besides, (check_all_spec x). Qed.
Lemma still_intact st x y : still st x y -> intact st x -> intact st y.
Proof. intros [P [B [l [T F]]]]. unfold intact. rewrite P, B, T, latest_skip by exact F. auto. Qed.

Section Server.
  Variables (up down : block -> list block) (maxr : nat -> Z) (fuel : nat) (init : nat -> res unit).
  Lemma still_release st i pb x y : sv_release up down maxr fuel init i pb x = Ok y -> still st x y.
  Proof.
    unfold sv_release. destruct (release_block _ _ _ _ _ _ _) as [s1|]; [|discriminate]. cbn [bind]. intros R.
    eapply still_trans; [|apply still_besides, (recruit_spec init _ _ R)]. eapply still_trans; [|apply still_check].
    split; auto. split; auto. eexists. split; [reflexivity|]. repeat constructor.
  Qed.
  (* a request is taken *)
  Definition ready (st : nat) (x : server) : Prop := match latest st (sv_tr x) with Some (ASend _ pb) => entry st pb (sv_book x) | _ => True end.
  Lemma intact_ready st x : intact st x -> ready st x.
  Proof. unfold intact, ready. destruct (latest _ _) as [[]|]; auto. Qed.
  Lemma entry_more st pb b e : entry st pb b -> entry st pb (b ++ [e]).
  Proof. intros [f [H1 H2]]. exists f. split; auto. apply in_or_app. auto. Qed.
  Lemma about_calls st l : Forall (fun a => about st a = false) (map ACall l).
  Proof. apply Forall_forall. intros a H. apply in_map_iff in H. destruct H as [e [<- _]]. reflexivity. Qed.
  Lemma acquire_intact st i t s x y : handle_acquire up down maxr fuel init i t s x = Ok y ->
    NoDup (map fst (sv_book x)) -> ready st x -> (s <> st -> intact st x) -> intact st y /\ NoDup (map fst (sv_book y)).
  Proof.
    unfold handle_acquire. intros H ND Rd It. destruct (acquire_block _ _ _ _ _ _ _) as [[[s1 r] sk]|] eqn:E; [|discriminate].
    cbn [bind] in H. destruct r as [pb|].
    - destruct (notify_block_sent _ _ _ _) as [b|] eqn:N; [|discriminate]. cbn [bind] in H. injection H as <-.
      cbn [add_tr set_s sv_book] in N. apply sent_entry in N. destruct N as [-> N]. cbn [add_tr set_book set_s sv_book]. split.
      2:{ rewrite map_app. cbn [map]. rewrite <- (rev_involutive (map fst (sv_book x) ++ _)). apply NoDup_rev. rewrite rev_app_distr. cbn. constructor; [rewrite <- in_rev; exact N|apply NoDup_rev; exact ND]. }
      unfold intact. cbn [add_tr set_book set_s sv_tr sv_book sv_pend app latest about]. destruct (Nat.eqb_spec s st) as [->|Ns].
      + exists (bid (pb_block pb), BLog pb st (i_now i)). split; [apply in_or_app; right; left; reflexivity|auto].
      + specialize (It Ns). unfold intact in It. rewrite latest_skip by apply about_calls.
        destruct (latest st (sv_tr x)) as [[]|]; auto. apply entry_more. exact It.
    - destruct (negb _); [discriminate|]. destruct (ts_pending _ =? 0)%Z.
      + pose proof (still_besides st _ _ (proj1 (recruit_spec init _ _ H))) as S. split; [|destruct S as [_ [-> _]]; exact ND]. eapply still_intact; [exact S|].
        unfold intact. cbn [add_tr set_s sv_tr sv_book sv_pend app latest about]. destruct (Nat.eqb_spec s st) as [->|Ns]; auto.
        rewrite latest_skip by apply about_calls. exact (It Ns).
      + cbn [add_tr set_s sv_pend] in H. destruct (pput t s (sv_pend x)) as [p|] eqn:P; [|discriminate]. cbn [bind] in H. injection H as <-. split; [|exact ND].
        apply (pput_waiting (fun _ => true) st) in P. unfold one in P. rewrite Bool.andb_true_r in P.
        unfold intact. cbn [add_tr set_pend set_s sv_tr sv_book sv_pend app latest about].
        rewrite latest_skip by apply about_calls.
        unfold ready in Rd. unfold intact in It. destruct (latest st (sv_tr x)) as [[? m| | | | | | | | |]|]; auto. destruct m; auto.
        destruct (Nat.eqb_spec s st) as [->|Ns]; [lia|specialize (It Ns); lia].
  Qed.
  (* somebody else returns a block *)
  Lemma safe_intact st i pb s x y : safe_release up down maxr fuel init i pb s x = Ok y -> NoDup (map fst (sv_book x)) ->
    (s = st -> match latest st (sv_tr x) with Some (ARecv _ (MAcquire _)) | Some (ASend _ _) => False | _ => True end) -> (s <> st -> intact st x) ->
    intact st y /\ NoDup (map fst (sv_book y)).
  Proof.
    unfold safe_release. intros H ND Hs Ho. destruct (is_valid_return _ _ _) eqn:V.
    - destruct (sv_release _ _ _ _ _ _ _ _) as [z|] eqn:E; [|discriminate]. cbn [bind] in H. pose proof (still_release st _ _ _ _ E) as S.
      destruct (notify_block_returned _ _ _) as [b|] eqn:N; [|discriminate]. cbn [bind] in H. injection H as <-.
      destruct S as [Sp [Sb [l [St F]]]]. unfold notify_block_returned in N. rewrite Sb in N. unfold is_valid_return in V. destruct (bget _ _) as [g|] eqn:G; [|discriminate].
      apply Nat.eqb_eq in V. destruct (Nat.eqb s (lg_stream g)); [|discriminate]. injection N as <-. cbn [set_book sv_book]. split; [|apply bdel_keys; exact ND].
      unfold intact. cbn [set_book sv_tr sv_book sv_pend]. rewrite St, Sp, latest_skip by exact F.
      destruct (Nat.eq_dec s st) as [Es|Ns].
      + specialize (Hs Es). destruct (latest st (sv_tr x)) as [[? m| | | | | | | | |]|]; auto; try (destruct Hs; fail). destruct m; auto. destruct Hs.
      + specialize (Ho Ns). unfold intact in Ho. destruct (latest st (sv_tr x)) as [[]|]; auto. destruct Ho as [e [He [E1 E2]]]. exists e. split; auto. apply in_bdel. split; auto.
        intros K. apply Ns. destruct e as [k e]. cbn [fst snd] in *. subst k. rewrite (bget_in _ _ _ ND He) in G. congruence.
    - injection H as <-. split; auto. destruct (Nat.eq_dec s st) as [Es|Ns]; auto. specialize (Hs Es). unfold intact.
      destruct (latest st (sv_tr x)) as [[? m| | | | | | | | |]|]; auto; try (destruct Hs; fail). destruct m; auto. destruct Hs.
  Qed.
  Lemma msgs_intact st i x y : handle_messages up down maxr fuel init i x = Ok y -> NoDup (map fst (sv_book x)) -> intact st x ->
    intact st y /\ NoDup (map fst (sv_book y)).
  Proof.
    assert (Ck : forall v, intact st v /\ NoDup (map fst (sv_book v)) -> intact st (check_all v) /\ NoDup (map fst (sv_book (check_all v)))).
    { intros v [A B]. split; [eapply still_intact; [apply still_check|exact A]|]. destruct (still_check st v) as [_ [-> _]]. exact B. }
    unfold handle_messages. intros E ND I. destruct (i_get i) as [s m| | |e] eqn:Eg; try discriminate.
    - assert (Io : s <> st -> intact st (add_tr x [ARecv s m])).
      { intros N. unfold intact. cbn [add_tr sv_tr sv_book sv_pend app latest about]. destruct (Nat.eqb_spec s st); [contradiction|]. exact I. }
      unfold handle_message in E. destruct m as [t|pb|pb wh|e|]; try discriminate.
      + destruct (handle_acquire _ _ _ _ _ _ _ _ _) as [v|] eqn:A; [|discriminate]. cbn [bind] in E. injection E as <-. apply Ck.
        eapply acquire_intact; [exact A|exact ND| |exact Io]. unfold ready. cbn [add_tr sv_tr sv_book app latest about]. destruct (Nat.eqb_spec s st) as [|N]; auto.
        exact (intact_ready _ _ I).
      + destruct (safe_release _ _ _ _ _ _ _ _ _) as [v|] eqn:A; [|discriminate]. cbn [bind] in E. injection E as <-. apply Ck.
        eapply safe_intact; [exact A|exact ND| |exact Io]. intros ->. cbn. rewrite Nat.eqb_refl. exact Logic.I.
      + destruct (safe_release _ _ _ _ _ _ _ _ _) as [v|] eqn:A; [|discriminate]. cbn [bind] in E. injection E as <-. apply Ck.
        assert (Z : intact st v /\ NoDup (map fst (sv_book v))).
        { eapply safe_intact; [exact A|exact ND| |exact Io]. intros ->. cbn. rewrite Nat.eqb_refl. exact Logic.I. }
        exact Z.
    - destruct (pfirst (sv_pend x)) as [[[t s] p]|] eqn:P.
      + unfold handle_message in E. destruct (handle_acquire _ _ _ _ _ _ _ _ _) as [v|] eqn:A; [|discriminate]. cbn [bind] in E. injection E as <-. apply Ck.
        apply (pfirst_waiting (fun _ => true) st) in P. unfold one in P. rewrite Bool.andb_true_r in P.
        eapply acquire_intact; [exact A|exact ND|exact (intact_ready _ _ I)|]. intros N. unfold intact in *. cbn [add_tr set_pend sv_tr sv_book sv_pend app latest about].
        destruct (Nat.eqb_spec s st); [contradiction|]. rewrite Nat.add_0_r in P. rewrite <- P. exact I.
      + injection E as <-. auto.
    - injection E as <-. auto.
  Qed.
  Lemma take_keeps e : forall ids b bs b', take_lost ids b = Ok (bs, b') -> In e b -> ~ In (fst e) ids -> In e b'.
  Proof.
    induction ids as [|i ids IH]; intros b bs b'; cbn [take_lost]; [intros H; injection H as <- <-; auto|].
    destruct (bget i b) as [l|]; [|discriminate]. destruct (take_lost ids (bdel i b)) as [[bs1 b1]|] eqn:E; [|discriminate]. cbn [bind]. intros H He N. injection H as <- <-.
    eapply IH; [exact E| |]; [apply in_bdel; split; auto; intros Q; apply N; left; auto|]. intros Q. apply N. right. exact Q.
  Qed.
  Lemma lost_intact st i x y : check_lost up down maxr fuel init i x = Ok y -> NoDup (map fst (sv_book x)) -> i_closed i st = false -> intact st x -> intact st y.
  Proof.
    unfold check_lost. destruct (get_lost_blocks _ _ _ _) as [[bs b]|] eqn:G; [|discriminate]. cbn [bind]. intros H ND Cl I.
    set (z := add_tr _ _) in H. assert (Iz : intact st z).
    { assert (F : Forall (fun a => about st a = false) (rev (flat_map (fun e : nat * Z * blog => if i_closed i (lg_stream (snd e)) then [ALost (lg_block (snd e)) (lg_stream (snd e))] else []) (sv_book x)))).
      { apply Forall_rev, Forall_forall. intros a Ha. apply in_flat_map in Ha. destruct Ha as [e [_ Ha]]. cbv beta in Ha. destruct (i_closed i (lg_stream (snd e))); [|destruct Ha]. destruct Ha as [<-|[]]. reflexivity. }
      unfold z, intact. cbn [add_tr set_book sv_tr sv_book sv_pend]. rewrite latest_skip by exact F. unfold intact in I.
      destruct (latest st (sv_tr x)) as [[]|]; auto. destruct I as [e [He [E1 E2]]]. exists e. split; auto. unfold get_lost_blocks in G. eapply take_keeps; [exact G|exact He|].
      intros Q. unfold lost_ids in Q. apply in_flat_map in Q. destruct Q as [f [Hf Q]]. rewrite app_nil_r in Q. destruct (i_closed i (lg_stream (snd f))) eqn:Cf; [|destruct Q].
      destruct Q as [Q|[]]. destruct e as [ke e], f as [kf f]. cbn [fst snd] in *. subst kf. pose proof (bget_in _ _ _ ND He) as B1. rewrite (bget_in _ _ _ ND Hf) in B1. congruence. }
    clearbody z. clear G. revert z H Iz. induction bs as [|pb bs IH]; intros z; cbn [foldM].
    - intros H. injection H as <-. auto.
    - destruct (sv_release _ _ _ _ _ _ _ _) as [w|] eqn:E; [|discriminate]. cbn [bind]. intros H Iz. eapply IH; [exact H|]. eapply still_intact; [|exact Iz]. eapply still_release; eauto.
  Qed.
  Lemma iter_intact st i x y : iteration up down maxr fuel init i x = Ok y -> NoDup (map fst (sv_book x)) -> i_closed i st = false -> intact st x -> intact st y.
  Proof.
    unfold iteration. destruct (handle_messages _ _ _ _ _ _ _) as [z|] eqn:E; [|discriminate]. cbn [bind].
    destruct (check_lost _ _ _ _ _ _ _) as [w|] eqn:Lo; [|discriminate]. cbn [bind].
    destruct (i_health i); [|discriminate]. cbn [bind]. intros H ND Cl I. injection H as <-.
    destruct (msgs_intact _ _ _ _ E ND I) as [Iz Nz]. pose proof (lost_intact _ _ _ _ Lo Nz Cl Iz) as Iw.
    destruct (i_tick i); auto. eapply still_intact; [apply still_check|exact Iw].
  Qed.
End Server.

(* ---- parts of a list ---- *)
Inductive sub {A} : list A -> list A -> Prop :=
| sub_nil l : sub [] l
| sub_keep a l m : sub l m -> sub (a :: l) (a :: m)
| sub_skip a l m : sub l m -> sub l (a :: m).
Lemma sub_refl {A} (l : list A) : sub l l.
Proof. induction l; constructor; auto. Qed.
Lemma sub_more {A} (l m k : list A) : sub l m -> sub (l ++ k) (m ++ k).
Proof.
  induction 1 as [m|a l m H IH|a l m H IH]; cbn; try (constructor; auto; fail). induction m as [|a m IH]; cbn; [apply sub_refl|apply sub_skip; exact IH].
Qed.
Lemma sub_drop {A} (b : A) c l m : sub l m -> forall a, l = a ++ b :: c -> sub (a ++ c) m.
Proof.
  induction 1 as [m|x l m H IH|x l m H IH]; intros a E.
  - destruct a; discriminate.
  - destruct a as [|y a]; cbn in *; injection E as -> ->; [apply sub_skip; exact H|apply sub_keep; auto].
  - apply sub_skip. auto.
Qed.
Lemma sub_len {A} (l m : list A) : sub l m -> (length l <= length m)%nat.
Proof. induction 1; cbn; lia. Qed.
Lemma sub_eq {A} (l m : list A) : sub l m -> (length m <= length l)%nat -> l = m.
Proof.
  induction 1 as [m|x l m H IH|x l m H IH]; cbn; intros Le.
  - destruct m; [auto|cbn in Le; lia].
  - f_equal. apply IH. lia.
  - apply sub_len in H. lia.
Qed.
Lemma filter_len {A} (f : A -> bool) l : (length (filter f l) <= length l)%nat.
Proof. induction l as [|a l IH]; cbn; auto. destruct (f a); cbn; lia. Qed.
Lemma filter_same {A} (f : A -> bool) l : (length l <= length (filter f l))%nat -> filter f l = l.
Proof.
  induction l as [|a l IH]; cbn; auto. pose proof (filter_len f l). destruct (f a); cbn; intros Le; [f_equal; apply IH; lia|lia].
Qed.
Lemma asked_filter f l : (asked (filter f l) <= asked l)%nat.
Proof.
  unfold asked. induction l as [|a l IH]; cbn; auto. destruct (f a); cbn; destruct (is_ask a); cbn; lia.
Qed.

Lemma latest_spec st tr :
  match latest st tr with
  | None => received st tr = [] /\ replies st tr = []
  | Some (ARecv _ m) => exists g, received st tr = g ++ [cpay m]
  | Some (ASend _ pb) => exists r, replies st tr = r ++ [Client.RSend pb]
  | Some (AShutdown _ _) => exists r, replies st tr = r ++ [Client.RShutdown]
  | Some _ => False
  end.
Proof.
  induction tr as [|a tr IH]; [split; reflexivity|]. change (a :: tr) with ([a] ++ tr). rewrite replies_app, received_app. cbn [app latest].
  destruct (about st a) eqn:Ab.
  - destruct a; try discriminate Ab; cbn in *; rewrite Ab, ?app_nil_r; eauto.
  - assert (E : received st [a] = [] /\ replies st [a] = []) by (destruct a; cbn in *; rewrite ?Ab; auto). destruct E as [-> ->]. rewrite !app_nil_r. exact IH.
Qed.

(* ---- the program of a worker ---- *)
Definition prog (p : pc) (l : Net.link payload) : Prop :=
  let said := NetFacts.sents (Net.c_rets l) in
  let got := NetFacts.gottens (Net.c_rets l) in
  match p with
  | PNew => said = [] /\ got = []
  | PSend r _ => exists s, said = map ToServer s /\ asked s = length got /\ asked r = 0%nat
  | PWait => exists s t, said = map ToServer (s ++ [MAcquire t]) /\ asked s = length got
  | PWork pb => exists s t g, said = map ToServer (s ++ [MAcquire t]) /\ got = g ++ [spay (Client.RSend pb)] /\ asked s = length g
  | PBye | PEnd => True
  end.
Section Prog.
  Variable dumps : Net.nmsg payload -> option Tcp.bytes.
  Variable loads : Tcp.bytes -> option (Net.nmsg payload).
  Local Notation kstep := (Net.kstep dumps loads).
  Lemma ok_goes t p k l l' ns rs : main_ok t p (Net.c_main l) -> k = Net.KMain \/ k = Net.KTimeout -> kstep k l = Some (l', ns) ->
    Net.c_rets l' = Net.c_rets l ++ rs -> main_ok t (fold_left resume rs p) (Net.c_main l').
  Proof.
    intros M [-> | ->] H Er; cbn [Net.kstep] in H.
    - destruct (Net.main_step l) as [l1|] eqn:Hm; [|discriminate]. apply some_inj, pair_equal_spec in H. destruct H as [<- _].
      unfold Net.main_step in Hm. destruct (Net.c_main l) eqn:Em; try discriminate;
        repeat match type of Hm with context [match ?b with _ => _ end] => destruct b eqn:? end; try discriminate Hm; apply some_inj in Hm; subst l1; cbn in Er |- *;
        first [apply app_inv_head in Er; subst rs|rewrite <- (app_nil_r (Net.c_rets l)) in Er at 1; apply app_inv_head in Er; subst rs]; cbn [fold_left];
        destruct p as [|[|m ml] b| |pb| |]; cbn [main_ok] in M;
        repeat match goal with H : _ \/ _ |- _ => destruct H | H : exists _, _ |- _ => destruct H | H : _ /\ _ |- _ => destruct H end; try discriminate; cbn; auto;
        try (match goal with H : Net.Send0 _ = Net.Send0 _ |- _ => injection H as -> | H : Net.Send1 _ = Net.Send1 _ |- _ => injection H as -> end; right; eexists; split; [eassumption|]; auto; fail);
        try (match goal with x : Net.nmsg payload |- _ => destruct x as [[|[]]| |] end; cbn; auto).
    - destruct (Net.c_main l) eqn:Em; try discriminate. destruct (Net.c_mq l); [|discriminate]. apply some_inj, pair_equal_spec in H. destruct H as [<- _].
      cbn in Er |- *. apply app_inv_head in Er. subst rs. destruct p as [|[|m ml] b| |pb| |]; cbn [main_ok] in M;
        repeat match goal with H : _ \/ _ |- _ => destruct H | H : exists _, _ |- _ => destruct H | H : _ /\ _ |- _ => destruct H end; try discriminate; cbn; auto.
  Qed.
  Lemma prog_goes t p k l l' ns rs : main_ok t p (Net.c_main l) -> k = Net.KMain \/ k = Net.KTimeout -> kstep k l = Some (l', ns) ->
    Net.c_rets l' = Net.c_rets l ++ rs -> prog p l -> prog (fold_left resume rs p) l'.
  Proof.
    intros M K H Er P. unfold prog in *. rewrite Er, NetFacts.sents_app, NetFacts.gottens_app.
    destruct (main_rets _ _ _ _ _ _ _ K H Er) as [->|[r [-> Y]]].
    { cbn [fold_left]. unfold NetFacts.sents at 2 4 6 8. cbn. rewrite !app_nil_r. exact P. }
    cbn [fold_left]. destruct r as [|a|[m|]| |e]; cbn [why] in Y; cbn [NetFacts.sents NetFacts.gottens flat_map app]; rewrite ?app_nil_r.
    - rewrite Y in M. destruct p; cbn [resume]; auto. destruct P as [-> ->]. exists []. auto.
    - rewrite Y in M. destruct p as [|ml b| |pb| |]; cbn [resume]; auto. destruct P as [s [E1 [E2 E3]]]. destruct M as [M|[a' [Rq M]]]; [discriminate|].
      destruct M as [M|[M|M]]; try discriminate. injection M as <-. destruct ml as [|m ml]; cbn in Rq.
      + destruct b; [|discriminate]. injection Rq as <-. exists s, t. rewrite map_app, E1. auto.
      + injection Rq as <-. exists (s ++ [m]). rewrite map_app, E1. split; auto. change (m :: ml) with ([m] ++ ml) in E3. rewrite asked_app in *. split; [rewrite E2|]; lia.
    - rewrite Y in M. destruct p as [|ml b| |pb| |]; cbn [resume]; auto; try (destruct m as [[|[]]| |]; exact Logic.I). destruct P as [s [u [E1 E2]]].
      destruct m as [[|[]]| |]; cbn; auto. exists s, u. eexists. split; [exact E1|]. split; [reflexivity|exact E2].
    - rewrite Y in M. destruct p; cbn [resume]; auto.
    - destruct p; exact Logic.I.
    - destruct p; exact Logic.I.
  Qed.
End Prog.

(* ---- the runs ---- *)
Local Notation link x st := (Net.n_link (x_net x) st).
Local Notation gots x st := (NetFacts.got_from st (Net.n_rets (x_net x))).
Local Notation outs x st := (NetFacts.sent_to st (Net.n_rets (x_net x))).
Local Notation tbx x st := (Pool.tbl (Pool.ps_sys (x_ps x)) st).
Section Runs.
  Variables (tasks : list task) (ord : list block -> list block) (ordt : list nat -> list nat) (d : dgraph) (s0 : sched) (fuel : nat).
  Variables (init : nat -> res unit) (nw : nat -> Z) (mbf : Z) (h0 : whole).
  Variable dumps : Net.nmsg payload -> option Tcp.bytes.
  Variable loads : Tcp.bytes -> option (Net.nmsg payload).
  Hypothesis SE : setup tasks ord ordt d s0 fuel init nw mbf h0.
  Hypothesis L : P_Net.lossless dumps loads.
  Local Notation up := (dg_up ord ordt d).
  Local Notation down := (dg_down ord ordt d).
  Local Notation maxr := (dg_max_retries d).
  Local Notation keys := (dedup Nat.eqb (map t_id tasks)).
  Local Notation xstep := (xstep up down maxr fuel init nw mbf dumps loads).
  Local Notation lstep := (lstep up down maxr fuel init nw mbf dumps loads).
  Local Notation lruns := (lruns up down maxr fuel init nw mbf dumps loads).
  Local Notation nstep := (Net.nstep dumps loads).
  Local Notation kstep := (Net.kstep dumps loads).
  Local Notation trx x := (sv_tr (x_sv x)).

  Definition at_main (x : wire) (st : nat) : Prop :=
    match tbx x st with Some (t, _) => main_ok t (x_pc x st) (Net.c_main (link x st)) | None => x_pc x st = PNew /\ Net.c_main (link x st) = Net.Connecting end.
  Record KI (x : wire) : Prop := {
    ki_prog : forall st, prog (x_pc x st) (link x st);
    ki_main : forall st, at_main x st;
    ki_out : forall st, sub (outs x st ++ map ToWorker (NetFacts.of_conn st (x_todo x))) (map ToWorker (replies st (trx x)));
    ki_recv : forall st, received st (trx x) = gots x st;
    ki_book : forall st, Net.broken (link x st) = false -> (forall t c, tbx x st <> Some (t, Pool.Exited c)) -> intact st (x_sv x)
  }.
  Lemma ki_init : KI (wire_init h0).
  Proof.
    pose proof (a_init _ _ _ _ _ _ _ _ _ _ SE dumps loads) as A.
    assert (Rc : forall st, received st (sv_tr (h_sv h0)) = []) by (intros st; apply (proj2 (a_srv _ A st))).
    assert (Rp : forall st, replies st (sv_tr (h_sv h0)) = []).
    { intros st. destruct (C92_server _ _ _ _ _ _ _ _ _ _ _ _ SE L [] (wire_init h0)) as [Sv _]; [constructor|].
      pose proof (answers_asked _ _ _ _ _ _ _ _ _ _ Sv st [] (Rc st)) as Q. cbn [wire_init x_sv] in Q. destruct (replies st _); [auto|cbn in Q; lia]. }
    constructor; cbn [wire_init x_net x_pc x_sv x_todo x_ps]; auto.
    - intros st. split; reflexivity.
    - intros st. unfold at_main. cbn [wire_init x_net x_pc x_ps]. destruct (Pool.tbl _ _) as [[t s]|]; cbn; auto.
    - intros st. constructor.
    - intros st _ _. unfold intact. pose proof (latest_spec st (sv_tr (h_sv h0))) as Q. rewrite Rc, Rp in Q. destruct (latest _ _) as [[]|]; auto.
      + destruct Q as [g Q]. destruct g; discriminate.
      + destruct Q as [g Q]. destruct g; discriminate.
  Qed.
  (* one connection and its worker move *)
  Lemma ki_one x x' st : KI x -> x_sv x' = x_sv x -> x_ps x' = x_ps x -> x_todo x' = x_todo x -> (forall j, j <> st -> link x' j = link x j /\ x_pc x' j = x_pc x j) ->
    Net.n_rets (x_net x') = Net.n_rets (x_net x) -> (Net.broken (link x' st) = false -> Net.broken (link x st) = false) ->
    prog (x_pc x' st) (link x' st) -> at_main x' st -> KI x'.
  Proof.
    intros [A1 A2 A3 A4 A5] E1 E2 E3 E4 E5 Br P M. constructor.
    - intros j. destruct (Nat.eq_dec j st) as [->|N]; auto. destruct (E4 j N) as [-> ->]. apply A1.
    - intros j. destruct (Nat.eq_dec j st) as [->|N]; auto. unfold at_main. rewrite E2. destruct (E4 j N) as [-> ->]. apply A2.
    - intros j. rewrite E1, E3, E5. apply A3.
    - intros j. rewrite E1, E5. apply A4.
    - intros j. rewrite E1, E2. intros B. apply A5. destruct (Nat.eq_dec j st) as [->|N]; auto. destruct (E4 j N) as [Q _]. rewrite Q in B. exact B.
  Qed.
  Lemma quiet_one x st k n : KI x -> nstep (Net.NLink st k) (x_net x) = Some n ->
    (forall l l' ns, kstep k l = Some (l', ns) -> Net.c_rets l' = Net.c_rets l /\ Net.c_main l' = Net.c_main l /\ NetFacts.n_sent ns = []) -> KI (set_net x n).
  Proof.
    intros I Hn Q. destruct (WireNet.nstep_link _ _ _ _ _ _ Hn) as [l [ns [Hk [El [Eo [_ Er]]]]]]. destruct (Q _ _ _ Hk) as [Q1 [Q2 Q3]].
    apply (ki_one x (set_net x n) st I); cbn [set_net x_sv x_ps x_todo x_net x_pc]; auto.
    - rewrite Er, Q3. cbn. apply app_nil_r.
    - rewrite El. destruct (P_NetErr.k_grows _ _ _ _ _ _ Hk) as [G _]. destruct (Net.broken (link x st)); auto. intros B. rewrite G in B; auto.
    - unfold prog. rewrite El, Q1. apply I.
    - unfold at_main. cbn [set_net x_sv x_ps x_todo x_net x_pc]. rewrite El, Q2. apply I.
  Qed.
  Lemma ki_gone x ps : KI x -> (forall j t s, Pool.tbl (Pool.ps_sys ps) j = Some (t, s) -> exists s', tbx x j = Some (t, s')) ->
    (forall j, Pool.tbl (Pool.ps_sys ps) j = None -> tbx x j = None) -> (forall j t c, tbx x j = Some (t, Pool.Exited c) -> exists c', Pool.tbl (Pool.ps_sys ps) j = Some (t, Pool.Exited c')) -> KI (set_ps x ps).
  Proof.
    intros [A1 A2 A3 A4 A5] K N G. constructor; cbn [set_ps x_sv x_ps x_todo x_net x_pc]; auto.
    - intros j. specialize (A2 j). unfold at_main in *. cbn [set_ps x_sv x_ps x_todo x_net x_pc]. destruct (Pool.tbl (Pool.ps_sys ps) j) as [[t s]|] eqn:E.
      + destruct (K _ _ _ E) as [s' Q]. rewrite Q in A2. exact A2.
      + rewrite (N _ E) in A2. exact A2.
    - intros j B F. apply A5; auto. intros t c Q. destruct (G _ _ _ Q) as [c' Q']. exact (F _ _ Q').
  Qed.
  Lemma exit_gone ps st c j t c0 : Pool.tbl (Pool.ps_sys ps) j = Some (t, Pool.Exited c0) ->
    exists c', Pool.tbl (Pool.ps_sys (fst (Pool.pstep nw mbf (Pool.PExit st c) ps))) j = Some (t, Pool.Exited c').
  Proof.
    intros H. cbn [Pool.pstep fst Pool.ps_sys]. destruct (Pool.tbl (Pool.ps_sys ps) st) as [[u [|c']]|] eqn:E; eauto. unfold Pool.set_proc. cbn [Pool.tbl].
    destruct (Nat.eqb_spec st j) as [->|]; [congruence|eauto].
  Qed.
  Lemma ki_step ms x m x' : lruns (wire_init h0) ms x -> KI x -> lstep x m x' -> KI x'.
  Proof.
    intros R I S. pose proof (li_runs _ _ _ _ _ _ _ _ _ _ _ _ SE L _ _ R) as LI. destruct S as [m x' S|st n Kn Hn].
    2:{ eapply quiet_one; eauto using break_quiet. }
    destruct S as [st k n Io Kn Cs Hn|st t c n Ht Hn|st t c n Ht Rq Hn|st t k n rs Ht Hk Hn Er|st t pb o Ht Hp|st t c Ht|st t e Ht|i n r sv l ps Td Sp Hn Er Eg Eh Ec Ei El Ep|st r todo Td];
      unfold xproc in *.
    - eapply quiet_one; eauto. intros l l' ns. apply WireNet.io_quiet. exact Io.
    - eapply quiet_one; eauto using break_quiet.
    - destruct (WireNet.nstep_link _ _ _ _ _ _ Hn) as [l [ns [Hk [El [Eo [_ Er]]]]]]. destruct (call_step _ _ _ _ _ _ Hk) as [Q1 [Q2 Q3]].
      destruct (calls_quiet _ _ _ _ _ _ (or_introl (ex_intro _ c eq_refl)) Hk) as [_ [_ [_ Bk]]].
      apply (ki_one x (set_net x n) st I); cbn [set_net x_sv x_ps x_todo x_net x_pc]; auto.
      + rewrite Er, Q2. cbn. apply app_nil_r.
      + rewrite El, Bk. auto.
      + unfold prog. rewrite El, Q1. apply I.
      + unfold at_main. cbn [set_net x_sv x_ps x_todo x_net x_pc]. rewrite El, Ht. cbn [Net.kstep] in Hk.
        destruct (Net.c_main (link x st)); try discriminate. apply some_inj, pair_equal_spec in Hk. destruct Hk as [<- _].
        destruct (x_pc x st) as [|[|m ml] []| | | |]; cbn in Rq; try discriminate; injection Rq as <-; cbn; eauto.
    - destruct (WireNet.nstep_link _ _ _ _ _ _ Hn) as [l [ns [Hs [El [Eo [_ En]]]]]]. destruct (main_sends _ _ _ _ _ _ Hk Hs) as [rs' [Q1 [Q2 _]]].
      destruct (calls_quiet _ _ _ _ _ _ (or_intror Hk) Hs) as [_ [_ [_ Bk]]]. rewrite El in Er. unfold rets in Er. pose proof (ki_main _ I st) as M. unfold at_main in M. rewrite Ht in M.
      apply (ki_one x (set_pc (set_net x n) st (fold_left resume rs (x_pc x st))) st I); cbn [set_pc set_net x_sv x_ps x_todo x_net x_pc]; rewrite ?Nat.eqb_refl; auto.
      + intros j Nj. split; auto. destruct (Nat.eqb_spec j st); [contradiction|reflexivity].
      + rewrite En, Q2. cbn. apply app_nil_r.
      + rewrite El, Bk. auto.
      + rewrite El. eapply prog_goes; eauto. apply I.
      + unfold at_main. cbn [set_pc set_net x_sv x_ps x_todo x_net x_pc]. rewrite El, Ht, Nat.eqb_refl. eapply ok_goes; eauto.
    - pose proof (ki_main _ I st) as M. unfold at_main in M. rewrite Ht, Hp in M. cbn in M. pose proof (ki_prog _ I st) as P. rewrite Hp in P. cbn in P.
      apply (ki_one x (set_pc x st (PSend (returned st pb o) (goes_on o))) st I); cbn [set_pc x_sv x_ps x_todo x_net x_pc]; rewrite ?Nat.eqb_refl; auto.
      + intros j Nj. split; auto. destruct (Nat.eqb_spec j st); [contradiction|reflexivity].
      + destruct P as [s [u [g [E1 [E2 E3]]]]]. exists (s ++ [MAcquire u]). split; auto. split; [|apply asked_returned]. rewrite E2, asked_app, app_length, E3. reflexivity.
      + unfold at_main. cbn [set_pc x_sv x_ps x_todo x_net x_pc]. rewrite Ht, Nat.eqb_refl. left. exact M.
    - apply ki_gone; auto; [apply exit_known|apply exit_none|intros j u c0; apply exit_gone].
    - assert (Eq : forall j, Pool.tbl (Pool.ps_sys (queued nw mbf (x_ps x) t e)) j = tbx x j) by (intros j; unfold queued; destruct (_ <? _)%nat; reflexivity).
      apply ki_gone; auto.
      + intros j u s Hj. destruct (exit_known _ _ _ _ _ _ _ _ Hj) as [s' Q]. rewrite Eq in Q. eauto.
      + intros j Hj. apply exit_none in Hj. rewrite Eq in Hj. exact Hj.
      + intros j u c Hj. rewrite <- Eq in Hj. eapply exit_gone. exact Hj.
    - destruct (WireNet.no_get _ _ _ _ _ Hn Er) as [Nl Nr]. destruct (C92_server _ _ _ _ _ _ _ _ _ _ _ _ SE L _ _ R) as [Sv _].
      destruct (li_heard _ _ _ _ _ _ _ _ _ _ _ _ L _ _ _ _ _ LI Hn Er Eg Eh) as [am [h [A [B1 [B2 [B3 [B4 Hd]]]]]]].
      assert (Ei' := Ei). assert (El' := El). assert (Ep' := Ep). rewrite <- B1 in Ei', El'. rewrite <- B2 in Ep'.
      destruct (pools_do_all nw mbf (fun _ => O) _ _ (fun s => deliver s l (taken (i_get i) s (h_w h s))) _ Ep') as [f Eo].
      destruct (ah_events _ _ _ _ _ _ _ _ _ _ _ _ _ _ A Hd Ei' El') as [Ev [NH [NE Pr]]]. destruct (ai_told _ _ _ _ _ _ _ _ _ _ _ A) as [es [T _]].
      destruct (on_all_sync nw mbf keys _ _ _ _ _ _ _ _ T Ev Pr Eo) as [Old _]. rewrite B2 in Old.
      assert (Os : forall s, NetFacts.sent_to s (Net.n_rets n) = outs x s).
      { intros s. rewrite Er. unfold NetFacts.sent_to. rewrite flat_map_app. destruct r; cbn in Nr |- *; try apply app_nil_r. destruct Nr. }
      destruct I as [A1 A2 A3 A4 A5]. constructor; cbn [x_sv x_ps x_net x_pc x_todo].
      + intros s. rewrite Nl. apply A1.
      + intros s. specialize (A2 s). unfold at_main in *. cbn [x_sv x_ps x_net x_pc x_todo]. rewrite Nl. destruct (tbx x s) as [[u q]|] eqn:Eu.
        * destruct (Old _ _ _ Eu) as [Q|[c [_ Q]]]; rewrite Q; exact A2.
        * destruct (Pool.tbl (Pool.ps_sys ps) s) as [[u q]|]; auto. destruct A2 as [-> ->]. reflexivity.
      + intros s. specialize (A3 s). rewrite Td in A3. cbn in A3. rewrite app_nil_r in A3. rewrite Os, El, replies_app, map_app, (replies_of s l). apply sub_more. exact A3.
      + intros s. rewrite (gets_more x n r i s Er Eg), <- A4. destruct (iter_adds _ _ _ _ _ _ _ _ Ei) as [l1 [E1 F1]]. rewrite E1. cbn [add_tr sv_tr].
        rewrite !received_app, (received_none _ _ _ _ F1), app_nil_r. f_equal. unfold recv, gets_in. destruct (i_get i); try reflexivity. cbn. destruct (Nat.eqb _ _); reflexivity.
      + intros s Bk Nx. rewrite Nl in Bk. assert (Nx' : forall t c, tbx x s <> Some (t, Pool.Exited c)).
        { intros t c Q. destruct (Old _ _ _ Q) as [Q'|[c' [Q' _]]]; [exact (Nx _ _ Q')|discriminate]. }
        eapply iter_intact; [exact Ei| | |apply A5; auto].
        * eapply (sinv_keys (pblocks d)); eauto; [eapply a_good|eapply a_enough|eapply a_fresh|eapply a_sinv]; eauto.
        * destruct (i_closed i s) eqn:Cl; auto. exfalso. destruct (Ec _ Cl) as [[_ Q]|[_ [t [c Q]]]]; [congruence|exact (Nx' _ _ Q)].
    - destruct I as [A1 A2 A3 A4 A5]. destruct (nstep (Net.NLink st (Net.KSend (ToWorker r))) (x_net x)) as [n|] eqn:Hn.
      + destruct (WireNet.nstep_link _ _ _ _ _ _ Hn) as [l [ns [Hk [El [Eo [_ En]]]]]]. destruct (send_quiet _ _ _ _ _ _ Hk) as [Q1 [Q2 Q3]]. rewrite Q3 in En. cbn in En.
        destruct (P_NetErr.k_grows _ _ _ _ _ _ Hk) as [Gr _].
        assert (Le : forall j, Net.c_rets (Net.n_link n j) = Net.c_rets (link x j) /\ Net.c_main (Net.n_link n j) = Net.c_main (link x j) /\ (Net.broken (Net.n_link n j) = false -> Net.broken (link x j) = false)).
        { intros j. destruct (Nat.eq_dec j st) as [->|Nj]; [rewrite El|rewrite Eo by auto; auto]. split; auto. split; auto. destruct (Net.broken (link x st)); auto. intros B. rewrite Gr in B; auto. }
        constructor; cbn [x_sv x_ps x_net x_pc x_todo].
        * intros j. specialize (A1 j). unfold prog in *. destruct (Le j) as [-> _]. exact A1.
        * intros j. specialize (A2 j). unfold at_main in *. cbn [x_sv x_ps x_net x_pc x_todo]. destruct (Le j) as [_ [-> _]]. exact A2.
        * intros j. specialize (A3 j). rewrite Td in A3. rewrite En. unfold NetFacts.sent_to, NetFacts.of_conn in *. rewrite flat_map_app. cbn [flat_map fst snd app] in *. rewrite app_nil_r.
          destruct (Nat.eqb st j); cbn [app map] in *; rewrite ?app_nil_r; [rewrite <- app_assoc|]; exact A3.
        * intros j. rewrite A4, En. unfold NetFacts.got_from. rewrite flat_map_app. cbn. rewrite app_nil_r. reflexivity.
        * intros j B. apply A5. apply (Le j). exact B.
      + constructor; cbn [x_sv x_ps x_net x_pc x_todo]; auto. intros j. specialize (A3 j). rewrite Td in A3. unfold NetFacts.of_conn in *. cbn [flat_map fst snd] in A3.
        destruct (Nat.eqb st j); cbn [app map] in *; auto. eapply sub_drop; [exact A3|reflexivity].
  Qed.
  Lemma ki_runs ms x : lruns (wire_init h0) ms x -> KI x.
  Proof. intros R. induction R as [|ms x1 m x2 R IH S]; [apply ki_init|]. eapply ki_step; eauto. Qed.
  (* The program is in the body of a block: the server sent the worker this block last, heard nothing of it since, and has it in its book. *)
  Lemma at_work ms x st pb : lruns (wire_init h0) ms x -> x_pc x st = PWork pb -> intact st (x_sv x) -> entry st pb (sv_book (x_sv x)).
  Proof.
    intros R Ep It. pose proof (ki_runs _ _ R) as K. pose proof (li_run _ _ _ _ _ _ _ _ _ _ _ _ _ _ (li_runs _ _ _ _ _ _ _ _ _ _ _ _ SE L _ _ R)) as [xs Hx].
    destruct (C92_server _ _ _ _ _ _ _ _ _ _ _ _ SE L _ _ R) as [Sv _]. pose proof (ki_prog _ K st) as P. rewrite Ep in P. destruct P as [s [t [g [Es [Eg Ea]]]]].
    destruct (P_Net.C55_to_client dumps loads (P_Net.lossless_pickles _ _ L) _ _ Hx st) as [r1 E1]. destruct (P_Net.C55_to_server dumps loads (P_Net.lossless_pickles _ _ L) _ _ Hx st) as [r2 E2].
    pose proof (ki_out _ K st) as Su. pose proof (ki_recv _ K st) as Rc. set (said := s ++ [MAcquire t]) in *.
    set (f := fun m => NetFacts.fit dumps (cpay m)).
    assert (Ef : P_Net.fits dumps (map ToServer said) = map cpay (filter f said)).
    { unfold P_Net.fits. clearbody said. clear. induction said as [|m l IH]; auto. cbn [map filter]. unfold f at 1. fold (cpay m). destruct (NetFacts.fit dumps (cpay m)) eqn:F.
      - replace (f m) with true by (symmetry; exact F). cbn [map]. rewrite IH. reflexivity.
      - replace (f m) with false by (symmetry; exact F). exact IH. }
    rewrite Es, Ef in E2. apply map_eq_app in E2. destruct E2 as [got [rest [E2 [G1 _]]]]. rewrite <- Rc in G1. symmetry in G1.
    pose proof (answers_asked _ _ _ _ _ _ _ _ _ _ Sv st got G1) as N1. pose proof (asked_filter f said) as N2. pose proof (asked_filter f s) as N3.
    assert (N4 : (length (P_Net.fits dumps (outs x st)) <= length (outs x st))%nat) by (unfold P_Net.fits; rewrite <- (map_length Net.App (outs x st)); apply filter_len).
    pose proof (sub_len _ _ Su) as N5. rewrite app_length, !map_length in N5. pose proof (f_equal (@length _) E1) as N6. rewrite Eg, !app_length in N6. cbn [length] in N6.
    pose proof (f_equal asked E2) as N7. rewrite asked_app in N7. assert (N8 : asked said = (asked s + 1)%nat) by (unfold said; rewrite asked_app; reflexivity).
    (* the question reached the server *)
    assert (Fa : f (MAcquire t) = true).
    { destruct (f (MAcquire t)) eqn:F; auto. exfalso. unfold said in N7. rewrite filter_app in N7. cbn [filter] in N7. rewrite F, app_nil_r in N7. lia. }
    assert (Er : rest = []).
    { unfold said in E2. rewrite filter_app in E2. cbn [filter] in E2. rewrite Fa in E2. destruct rest as [|m rest] using rev_ind; auto. exfalso.
      rewrite app_assoc in E2. apply app_inj_tail in E2. destruct E2 as [E2 <-]. rewrite asked_app in N7. cbn in N7. lia. }
    subst rest. rewrite app_nil_r in E2. unfold said in E2. rewrite filter_app in E2. cbn [filter] in E2. rewrite Fa in E2.
    (* the answer is the last one *)
    assert (Lt : exists r, replies st (trx x) = r ++ [Client.RSend pb]).
    { assert (Z1 : P_Net.fits dumps (outs x st) = map Net.App (outs x st)) by (apply filter_same; fold (P_Net.fits dumps (outs x st)); rewrite map_length; lia).
      assert (Z2 : NetFacts.of_conn st (x_todo x) = []) by (destruct (NetFacts.of_conn st (x_todo x)); [auto|cbn in N5; lia]). rewrite Z2, app_nil_r in Su.
      assert (Z3 : outs x st = map ToWorker (replies st (trx x))) by (apply sub_eq; [exact Su|rewrite map_length; lia]).
      assert (Z4 : Net.c_mq (link x st) ++ r1 = []) by (destruct (Net.c_mq (link x st) ++ r1) eqn:Q; auto; exfalso; apply (f_equal (@length _)) in Q; rewrite app_length in Q; cbn in Q; lia).
      rewrite Z1, Z3, Z4, app_nil_r, Eg in E1. destruct (replies st (trx x)) as [|r rs _] using rev_ind; [destruct g; discriminate|].
      rewrite !map_app in E1. apply app_inj_tail in E1. destruct E1 as [_ E1]. injection E1 as ->. eauto. }
    pose proof (latest_spec st (trx x)) as Ls. unfold intact in It. destruct (latest st (trx x)) as [[j m| | | | | | | | |]|]; try (destruct Ls; fail).
    - destruct Ls as [z Ls]. rewrite G1, <- E2, map_app in Ls. apply app_inj_tail in Ls. destruct Ls as [_ Ls]. injection Ls as <-.
      destruct (a_split _ _ _ _ _ _ _ _ _ _ Sv) as [y [Ex Ey]]. pose proof (C50_answered_once _ _ _ _ _ _ _ _ _ _ _ st Ex Ey) as B. cbv zeta in B.
      rewrite (received_asks _ _ _ G1), <- replies_answers in B. lia.
    - destruct Ls as [z Ls]. destruct Lt as [r Lt]. rewrite Lt in Ls. apply app_inj_tail in Ls. destruct Ls as [_ Ls]. injection Ls as ->. exact It.
    - destruct Ls as [z Ls]. destruct Lt as [r Lt]. rewrite Lt in Ls. apply app_inj_tail in Ls. destruct Ls as [_ Ls]. discriminate.
    - destruct Ls as [_ Ls]. destruct Lt as [r Lt]. rewrite Lt in Ls. destruct r; discriminate.
  Qed.
End Runs.

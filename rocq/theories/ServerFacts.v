(* The server on any dependency graph that is good_graph. *)
From Coq Require Import Arith Lia Permutation.
From Verif Require Import VecFacts.
From Verif Require Export Server SerialFacts P_Conv.
Open Scope Z_scope.

(* the dict of sent blocks *)
Definition bid_dec (a b : nat * Z) : {a = b} + {a <> b}.
Proof. decide equality; [apply Z.eq_dec|apply Nat.eq_dec]. Defined.
Lemma bid_eqb_refl i : bid_eqb i i = true.
Proof. apply bid_eqb_eq. reflexivity. Qed.
Lemma bget_some i b l : bget i b = Some l -> In (i, l) b.
Proof.
  unfold bget. destruct (find _ b) as [[j l']|] eqn:E; [|discriminate]. intros H. injection H as <-.
  apply find_some in E. destruct E as [H E]. cbn in E. apply (proj1 (bid_eqb_eq _ _)) in E. subst j. auto.
Qed.
Lemma bget_none i b : bget i b = None <-> ~ In i (map fst b).
Proof.
  unfold bget. destruct (find _ b) as [[j l']|] eqn:E.
  - apply find_some in E. destruct E as [H E]. cbn in E. apply (proj1 (bid_eqb_eq _ _)) in E. subst j.
    split; [discriminate|]. intros N. exfalso. apply N. apply in_map_iff. exists (i, l'). auto.
  - split; auto. intros _ H. apply in_map_iff in H. destruct H as [e [<- He]].
    apply (find_none _ _ E) in He. rewrite bid_eqb_refl in He. discriminate.
Qed.
Lemma keys_inj {A B} (b : list (A * B)) i l l' : NoDup (map fst b) -> In (i, l) b -> In (i, l') b -> l = l'.
Proof.
  induction b as [|[j k] b IH]; [intros _ []|]. cbn [map fst]. intros N. inversion N as [|? ? N1 N2]; subst.
  intros [E|H] [E'|H']; try congruence; auto.
  - exfalso. apply N1. injection E as -> _. apply (in_map fst) in H'. exact H'.
  - exfalso. apply N1. injection E' as -> _. apply (in_map fst) in H. exact H.
Qed.
Lemma bget_in i b l : NoDup (map fst b) -> In (i, l) b -> bget i b = Some l.
Proof.
  intros N H. destruct (bget i b) as [l'|] eqn:E.
  - apply bget_some in E. f_equal. eapply keys_inj; eauto.
  - apply (proj1 (bget_none _ _)) in E. exfalso. apply E. apply (in_map fst) in H. exact H.
Qed.
Lemma in_bdel e i b : In e (bdel i b) <-> In e b /\ fst e <> i.
Proof.
  unfold bdel. rewrite filter_In, Bool.negb_true_iff. split; intros [H N]; split; auto.
  - intros E. rewrite E, bid_eqb_refl in N. discriminate.
  - destruct (bid_eqb i (fst e)) eqn:E; auto. apply (proj1 (bid_eqb_eq _ _)) in E. congruence.
Qed.
Lemma NoDup_filter_map {A B} (f : A -> B) p l : NoDup (map f l) -> NoDup (map f (filter p l)).
Proof.
  induction l as [|a l IH]; cbn; auto. intros N. inversion N as [|? ? N1 N2]; subst.
  destruct (p a); cbn; auto. constructor; auto. intros H. apply N1. apply in_map_iff in H. destruct H as [x [E Hx]].
  apply filter_In in Hx. rewrite <- E. apply in_map. tauto.
Qed.
Lemma bdel_keys i b : NoDup (map fst b) -> NoDup (map fst (bdel i b)).
Proof. apply NoDup_filter_map. Qed.
Lemma filter_filter {A} (p q : A -> bool) l : filter p (filter q l) = filter (fun x => q x && p x) l.
Proof. induction l as [|a l IH]; cbn; auto. destruct (q a); cbn; rewrite IH; reflexivity. Qed.

Lemma take_lost_ok ids : forall b, NoDup (map fst b) -> NoDup ids -> (forall i, In i ids -> In i (map fst b)) ->
  exists bs, take_lost ids b = Ok (bs, filter (fun e => negb (mem bid_eqb (fst e) ids)) b) /\
    Forall2 (fun i pb => exists l, In (i, l) b /\ lg_block l = pb) ids bs.
Proof.
  induction ids as [|i ids IH]; intros b Nb Ni Hi; cbn [take_lost].
  - exists []. split; [|constructor]. do 2 f_equal. induction b; cbn; auto. f_equal. apply IHb.
    + inversion Nb; auto.
    + intros i [].
  - inversion Ni as [|? ? N1 N2]; subst. destruct (bget i b) as [l|] eqn:E.
    2: { exfalso. apply (proj1 (bget_none _ _)) in E. apply E, Hi. left; auto. }
    destruct (IH (bdel i b)) as [bs [E1 E2]]; auto using bdel_keys.
    { intros j Hj. assert (H : In j (map fst b)) by (apply Hi; right; auto). apply in_map_iff in H.
      destruct H as [e [<- He]]. apply in_map. apply in_bdel. split; auto. intros C. apply N1. rewrite <- C. exact Hj. }
    rewrite E1. cbn [bind]. exists (lg_block l :: bs). split.
    + do 2 f_equal. unfold bdel. rewrite filter_filter. apply filter_ext. intros e. cbn [mem existsb].
      unfold mem. cbn [existsb]. rewrite Bool.negb_orb. f_equal. f_equal. unfold bid_eqb.
      rewrite Nat.eqb_sym, Z.eqb_sym. reflexivity.
    + constructor.
      * exists l. split; auto. apply bget_some; auto.
      * clear -E2. induction E2 as [|j pb js bs [k [Hk Ek]] _ IH]; constructor; auto.
        exists k. split; auto. apply in_bdel in Hk. tauto.
Qed.
Lemma take_lost_dup ids : forall b, ~ NoDup ids -> take_lost ids b = Err KeyError.
Proof.
  assert (A : forall ids i b, In i ids -> ~ In i (map fst b) -> take_lost ids b = Err KeyError).
  { clear ids. induction ids as [|j ids IH]; intros i b; [intros []|]. cbn [take_lost]. intros H N.
    destruct (bget j b) as [l|] eqn:E; auto. destruct H as [->|H].
    - exfalso. apply N. apply bget_some in E. apply (in_map fst) in E. exact E.
    - rewrite (IH i (bdel j b)); auto. intros C. apply in_map_iff in C. destruct C as [e [<- He]].
      apply N. apply in_map. apply in_bdel in He. tauto. }
  induction ids as [|i ids IH]; intros b N; [exfalso; apply N; constructor|]. cbn [take_lost].
  destruct (bget i b) as [l|] eqn:E; auto.
  destruct (in_dec bid_dec i ids) as [H|H].
  - rewrite (A ids i); auto. intros C. apply in_map_iff in C. destruct C as [e [<- He]]. apply in_bdel in He. tauto.
  - rewrite IH; auto. intros C. apply N. constructor; auto.
Qed.
Lemma mem_bid i l : mem bid_eqb i l = true <-> In i l.
Proof.
  unfold mem. rewrite existsb_exists. split.
  - intros [j [Hj E]]. apply (proj1 (bid_eqb_eq _ _)) in E. subst; auto.
  - intros H. exists i. split; auto. apply bid_eqb_refl.
Qed.
Lemma lost_ids_none closed now b :
  lost_ids closed None now b = map fst (filter (fun e => closed (lg_stream (snd e))) b).
Proof.
  unfold lost_ids. induction b as [|e b IH]; cbn; auto. rewrite app_nil_r, IH.
  destruct (closed _); reflexivity.
Qed.
Lemma lost_none closed now b : NoDup (map fst b) ->
  get_lost_blocks closed None now b =
    Ok (map (fun e => lg_block (snd e)) (filter (fun e => closed (lg_stream (snd e))) b),
        filter (fun e => negb (closed (lg_stream (snd e)))) b).
Proof.
  intros N. unfold get_lost_blocks. rewrite lost_ids_none. set (p := fun e : nat * Z * blog => closed (lg_stream (snd e))).
  destruct (take_lost_ok (map fst (filter p b)) b) as [bs [E F]]; auto using NoDup_filter_map.
  { intros i H. apply in_map_iff in H. destruct H as [e [<- He]]. apply filter_In in He. apply in_map. tauto. }
  rewrite E. do 2 f_equal.
  - assert (G : forall l, (forall e, In e l -> In e b) ->
      Forall2 (fun i pb => exists l, In (i, l) b /\ lg_block l = pb) (map fst l) bs -> bs = map (fun e => lg_block (snd e)) l).
    { clear F E. revert bs. intros bs l. revert bs. induction l as [|[i k] l IH]; intros bs Hl F; inversion F; subst; auto.
      cbn. f_equal; [|apply IH; auto; intros; apply Hl; right; auto].
      destruct H1 as [k' [Hk <-]]. cbn in Hk. f_equal. eapply keys_inj; eauto. apply Hl. left; auto. }
    apply G; auto. intros e He. apply filter_In in He. tauto.
  - apply filter_ext_in. intros [i l] He. f_equal. cbn [fst].
    change (closed (lg_stream (snd (i, l)))) with (p (i, l)). destruct (p (i, l)) eqn:Ep.
    + apply mem_bid. apply in_map_iff. exists (i, l). split; auto. apply filter_In. auto.
    + destruct (mem _ _ _) eqn:Em; auto. apply mem_bid in Em. apply in_map_iff in Em.
      destruct Em as [[j l'] [Ej He']]. cbn in Ej. subst j. apply filter_In in He'. destruct He' as [He' Ep'].
      rewrite (keys_inj b i l l') in Ep by auto. congruence.
Qed.

(* what the parts of the server leave alone *)
Definition aside (a : act) : Prop :=
  match a with ANote (NStart _ _) | ANote (NDone _ _) | AInit _ | ARecruit _ => True | _ => False end.
Record besides (x y : server) : Prop := {
  be_s : sv_s y = sv_s x;
  be_book : sv_book y = sv_book x;
  be_pend : sv_pend y = sv_pend x;
  be_tr : exists l, sv_tr y = l ++ sv_tr x /\ Forall aside l
}.
Lemma besides_refl x : besides x x.
Proof. constructor; auto. exists []. auto. Qed.
Lemma besides_trans x y z : besides x y -> besides y z -> besides x z.
Proof.
  intros [A1 A2 A3 [l [A4 A5]]] [B1 B2 B3 [m [B4 B5]]]. constructor; try congruence.
  exists (m ++ l). rewrite B4, A4, app_assoc. split; auto. apply Forall_app; auto.
Qed.
Lemma hist_app l m : hist (l ++ m) = hist l ++ hist m.
Proof. unfold hist. apply flat_map_app. Qed.
Lemma hist_aside l : Forall aside l -> hist l = [].
Proof.
  induction 1 as [|a l H _ IH]; auto. unfold hist in *. cbn. rewrite IH. destruct a; cbn in H; tauto.
Qed.
Lemma besides_hist x y : besides x y -> hist (sv_tr y) = hist (sv_tr x).
Proof. intros [_ _ _ [l [-> H]]]. rewrite hist_app, (hist_aside l H). reflexivity. Qed.
Lemma hist_calls l : hist (map ACall l) = l.
Proof. induction l; cbn; auto. unfold hist in *. cbn. congruence. Qed.

Section Parts.
  Definition all_done (s : sched) : bool := forallb (fun t => ts_is_done (s_st s t)) (s_order s).

  Definition check_step (st : nat -> tstate) : list nat * list act * bool -> nat -> list nat * list act * bool :=
    fun '(fin, tr, all_done) t =>
      if ts_is_done (st t) then
        if mem Nat.eqb t fin then (fin, tr, all_done)
        else (sadd Nat.eqb t fin, ANote (NDone t (st t)) :: tr, all_done)
      else (fin, tr, false).
  Lemma check_fold st ts : forall fin tr a fin' tr' a',
    fold_left (check_step st) ts (fin, tr, a) = (fin', tr', a') ->
    a' = a && forallb (fun t => ts_is_done (st t)) ts /\
    (exists l, tr' = l ++ tr /\
       Forall (fun x => exists t, x = ANote (NDone t (st t)) /\ In t ts /\ ts_is_done (st t) = true /\ ~ In t fin) l) /\
    (forall t, In t fin' <-> In t fin \/ In t ts /\ ts_is_done (st t) = true).
  Proof.
    induction ts as [|t ts IH]; intros fin tr a fin' tr' a'; cbn [fold_left forallb].
    - intros E. injection E as <- <- <-. split; [rewrite Bool.andb_true_r; auto|]. split.
      + exists []. auto.
      + intros t. cbn. tauto.
    - unfold check_step at 2. destruct (ts_is_done (st t)) eqn:D.
      + destruct (mem Nat.eqb t fin) eqn:M.
        * intros E. apply IH in E. destruct E as [E1 [[l [E2 E3]] E5]]. split; auto. split.
          -- exists l. split; auto. eapply Forall_impl; [|exact E3].
             intros x [u [Hu [H1 [H2 H3]]]]. exists u. cbn. auto.
          -- intros u. rewrite E5. cbn. apply mem_nat in M. split; [tauto|]. intros [?|[[<-|?] ?]]; auto.
        * intros E. apply IH in E. destruct E as [E1 [[l [E2 E3]] E5]]. split; auto. split.
          -- exists (l ++ [ANote (NDone t (st t))]). split; [rewrite <- app_assoc; auto|].
             apply Forall_app. split.
             ++ eapply Forall_impl; [|exact E3]. intros x [u [Hu [H1 [H2 H3]]]]. exists u. cbn.
                split; auto. split; auto. split; auto. intros C. apply H3. apply in_sadd_nat. auto.
             ++ constructor; [|constructor]. exists t. cbn. split; auto. split; auto. split; auto.
                intros C. apply mem_nat in C. congruence.
          -- intros u. rewrite E5, in_sadd_nat. cbn. split; [intros [[->|?]|[? ?]]; auto|intros [?|[[<-|?] ?]]; auto].
      + intros E. apply IH in E. destruct E as [E1 [[l [E2 E3]] E5]]. split; [rewrite E1, Bool.andb_false_r; auto|]. split.
        * exists l. split; auto. eapply Forall_impl; [|exact E3].
          intros x [u [Hu [H1 [H2 H3]]]]. exists u. cbn. auto.
        * intros u. rewrite E5. cbn. split; [tauto|]. intros [?|[[<-|?] ?]]; auto. congruence.
  Qed.
  Lemma check_all_spec x : let y := check_all x in
    besides x y /\ sv_started y = sv_started x /\ sv_stop y = sv_stop x || all_done (sv_s x) /\
    (forall t, In t (sv_finished y) <-> In t (sv_finished x) \/ In t (s_order (sv_s x)) /\ ts_is_done (s_st (sv_s x) t) = true) /\
    exists l, sv_tr y = l ++ sv_tr x /\
      Forall (fun a => exists t, a = ANote (NDone t (s_st (sv_s x) t)) /\ In t (s_order (sv_s x)) /\
                ts_is_done (s_st (sv_s x) t) = true /\ ~ In t (sv_finished x)) l.
  Proof.
    unfold check_all. fold (check_step (s_st (sv_s x))).
    destruct (fold_left _ _ _) as [[fin tr] a] eqn:E. apply check_fold in E.
    destruct E as [E1 [[l [E2 E3]] E5]]. cbn. split.
    - constructor; auto. exists l. split; auto. eapply Forall_impl; [|exact E3]. intros a' [t [-> _]]. exact I.
    - split; auto. split; [rewrite E1; reflexivity|]. split; auto. exists l. auto.
  Qed.

  Variable init : nat -> res unit.
  Definition start_step (st : nat -> tstate) : list nat * list act -> nat -> res (list nat * list act) :=
    fun '(started, tr) t =>
        if mem Nat.eqb t started then Ok (started, tr)
        else _ <- init t ;; Ok (sadd Nat.eqb t started, AInit t :: ANote (NStart t (st t)) :: tr).
  Lemma start_fold st ts : forall started tr started' tr',
    foldM (start_step st) ts (started, tr) = Ok (started', tr') ->
    (exists l, tr' = l ++ tr /\ Forall (fun a => exists t, (a = ANote (NStart t (st t)) \/ a = AInit t) /\ In t ts /\ ~ In t started) l) /\
    (forall t, In t started' <-> In t started \/ In t ts).
  Proof.
    induction ts as [|t ts IH]; intros started tr started' tr'; cbn [foldM].
    - intros E. injection E as <- <-. split; [exists []; auto|]. cbn. tauto.
    - cbn [start_step]. destruct (mem Nat.eqb t started) eqn:M.
      + cbn [bind]. intros E. apply IH in E. destruct E as [[l [E1 E2]] E3]. split.
        * exists l. split; auto. eapply Forall_impl; [|exact E2]. intros a [u [Hu [H1 H2]]]. exists u. cbn. auto.
        * intros u. rewrite E3. apply mem_nat in M. cbn. split; [tauto|]. intros [?|[<-|?]]; auto.
      + destruct (init t) as [[]|]; [|discriminate]. cbn [bind]. intros E. apply IH in E.
        destruct E as [[l [E1 E2]] E3]. split.
        * exists (l ++ [AInit t; ANote (NStart t (st t))]). split; [rewrite <- app_assoc; auto|]. apply Forall_app. split.
          -- eapply Forall_impl; [|exact E2]. intros a [u [Hu [H1 H2]]]. exists u. cbn. split; auto. split; auto.
             intros C. apply H2, in_sadd_nat. auto.
          -- assert (~ In t started) by (intros C; apply mem_nat in C; congruence).
             repeat constructor; exists t; cbn; auto.
        * intros u. rewrite E3, in_sadd_nat. cbn. split; [intros [[->|?]|?]; auto|intros [?|[<-|?]]; auto].
  Qed.
  Lemma recruit_spec x y : recruit init x = Ok y ->
    besides x y /\ sv_finished y = sv_finished x /\ sv_stop y = sv_stop x /\
    (forall t, In t (sv_started y) <-> In t (sv_started x) \/ In t (get_ready_tasks (sv_s x))) /\
    exists l, sv_tr y = ARecruit (get_ready_tasks (sv_s x)) :: l ++ sv_tr x /\
      Forall (fun a => exists t, (a = ANote (NStart t (s_st (sv_s x) t)) \/ a = AInit t) /\
                In t (get_ready_tasks (sv_s x)) /\ ~ In t (sv_started x)) l.
  Proof.
    unfold recruit. change (fun '(started, tr) t => _) with (start_step (s_st (sv_s x))).
    destruct (foldM _ _ _) as [[started tr]|] eqn:E; [|discriminate]. cbn [bind]. intros H. injection H as <-.
    apply start_fold in E. destruct E as [[l [E1 E2]] E3]. cbn. split; [|split; [|split; [|split]]]; auto.
    - constructor; auto. exists (ARecruit (get_ready_tasks (sv_s x)) :: l). cbn. rewrite E1. split; auto.
      constructor; [exact I|]. eapply Forall_impl; [|exact E2]. intros a [t [[-> | ->] _]]; exact I.
    - exists l. rewrite E1. auto.
  Qed.
  Lemma recruit_total x : (forall t, init t = Ok tt) -> exists y, recruit init x = Ok y.
  Proof.
    intros IT. unfold recruit.
    change (fun '(started, tr) t => _) with (start_step (s_st (sv_s x))).
    assert (G : forall ts p, exists q, foldM (start_step (s_st (sv_s x))) ts p = Ok q).
    { induction ts as [|t ts IH]; intros [a b]; cbn [foldM]; [eauto|]. cbn [start_step].
      destruct (mem _ _ _); [|rewrite IT]; cbn [bind]; apply IH. }
    destruct (G (get_ready_tasks (sv_s x)) (sv_started x, sv_tr x)) as [[a b] E]. rewrite E. cbn [bind]. eauto.
  Qed.
End Parts.

(* the stream a block was last sent to *)
Fixpoint last_sent (tr : list act) (b : block) : option nat :=
  match tr with
  | [] => None
  | ASend st pb :: r => if is_block (pb_block pb) b then Some st else last_sent r b
  | _ :: r => last_sent r b
  end.
Definition is_send (a : act) : Prop := match a with ASend _ _ => True | _ => False end.
Lemma last_sent_app l tr b : Forall (fun a => ~ is_send a) l -> last_sent (l ++ tr) b = last_sent tr b.
Proof. induction 1 as [|a l H _ IH]; auto. destruct a; cbn in *; auto. tauto. Qed.
Lemma aside_no_send l : Forall aside l -> Forall (fun a => ~ is_send a) l.
Proof. apply Forall_impl. intros a. destruct a; cbn; tauto. Qed.
Lemma calls_no_send l : Forall (fun a => ~ is_send a) (map ACall l).
Proof. induction l; cbn; constructor; auto. Qed.

Definition blocks_of (b : book) : list block := map (fun e => pb_block (lg_block (snd e))) b.

Lemma pput_ok t st p : In t (map fst p) -> exists p', pput t st p = Ok p' /\ map fst p' = map fst p.
Proof.
  induction p as [|[u q] p IH]; [intros []|]. cbn. destruct (Nat.eqb_spec t u) as [->|N].
  - intros _. eexists. split; [reflexivity|]. reflexivity.
  - intros [->|H]; [congruence|]. destruct (IH H) as [p' [-> E]]. cbn. eexists. split; [reflexivity|]. cbn. congruence.
Qed.
Lemma pfirst_keys p t st p' : pfirst p = Some (t, st, p') -> map fst p' = map fst p /\ In t (map fst p).
Proof.
  revert t st p'. induction p as [|[u q] p IH]; intros t st p'; cbn; [discriminate|]. destruct q as [|a q].
  - destruct (pfirst p) as [[[t1 st1] p1]|]; [|discriminate]. intros E. injection E as <- <- <-.
    destruct (IH _ _ _ eq_refl) as [E H]. cbn. split; [congruence|auto].
  - intros E. injection E as <- <- <-. cbn. auto.
Qed.

Section Inv.
  Variables (V : list block) (up down : block -> list block) (seeds : nat -> list block).
  Variable maxr : nat -> Z.
  Variable fuel : nat.
  Hypothesis GG : good_graph V up down seeds.
  Hypothesis EN : enough V fuel.
  Variable s0 : sched.
  Hypothesis FR : fresh V seeds s0.
  Variable tasks : list nat.
  Hypothesis known : forall t, In t tasks -> In t (s_order s0).
  Variable init : nat -> res unit.
  Hypothesis init_ok : forall t, init t = Ok tt.

  (* The server's messages and the environment are as they should be: the blocks in messages are
     blocks of the tasks, returned as SUCCESS or FAILED; requests are for tasks of the server. *)
  Definition honest (m : message) : Prop :=
    match m with
    | MAcquire t => In t tasks
    | MRelease pb => In (pb_block pb) V /\ (pb_status pb = SUCCESS \/ pb_status pb = FAILED)
    | MBlockFailed pb _ => In (pb_block pb) V
    | _ => False
    end.
  Definition good_input (i : input) : Prop :=
    match i_get i with GotMessage _ m => honest m | GotError _ => False | _ => True end /\ i_health i = Ok tt.

  Local Notation reach := (reach up down maxr fuel s0).

  (* [ex]: blocks in flight that were taken from the book already *)
  Record SInv (ex : list block) (x : server) : Prop := {
    si_reach : reach (hist (sv_tr x)) (sv_s x);
    si_key : forall e, In e (sv_book x) -> fst e = bid (pb_block (lg_block (snd e)));
    si_nodup : NoDup (blocks_of (sv_book x) ++ ex);
    si_held : forall b, held (hist (sv_tr x)) b <-> In b (blocks_of (sv_book x) ++ ex);
    si_sent : forall e, In e (sv_book x) -> last_sent (sv_tr x) (pb_block (lg_block (snd e))) = Some (lg_stream (snd e));
    si_pend : map fst (sv_pend x) = dedup Nat.eqb tasks
  }.

  Lemma sinv_hinv ex x : SInv ex x -> HInv V up down seeds maxr s0 (hist (sv_tr x)) (sv_s x).
  Proof. intros I. eapply reach_HInv; eauto. apply (si_reach _ _ I). Qed.
  Lemma sinv_V ex x b : SInv ex x -> held (hist (sv_tr x)) b -> In b V.
  Proof. intros I H. apply (i_held _ _ _ _ _ _ _ _ _ (hi_inv _ _ _ _ _ _ _ _ (sinv_hinv _ _ I)) b H). Qed.
  Lemma sinv_keys ex x : SInv ex x -> NoDup (map fst (sv_book x)).
  Proof.
    intros I. assert (E : map fst (sv_book x) = map bid (blocks_of (sv_book x))).
    { unfold blocks_of. rewrite map_map. apply map_ext_in. intros e He. apply (si_key _ _ I e He). }
    rewrite E. pose proof (si_nodup _ _ I) as N. pose proof (fun b H => sinv_V ex x b I (proj2 (si_held _ _ I b) H)) as HV.
    clear E. revert N HV. generalize (blocks_of (sv_book x)). intros l N HV.
    induction l as [|b l IH]; cbn; [constructor|]. cbn in N. inversion N as [|? ? N1 N2]; subst. constructor.
    - intros H. apply in_map_iff in H. destruct H as [c [E Hc]].
      assert (c = b). { apply (gg_ids _ _ _ _ GG); auto; apply HV; [right|left; auto]. apply in_or_app; auto. }
      subst c. apply N1. apply in_or_app; auto.
    - apply IH; auto. intros c Hc. apply HV. right; auto.
  Qed.
  Lemma sinv_order ex x : SInv ex x -> s_order (sv_s x) = s_order s0.
  Proof. intros I. apply (hi_order _ _ _ _ _ _ _ _ (sinv_hinv _ _ I)). Qed.

  (* actions that change nothing relevant *)
  Lemma sinv_besides ex x y : SInv ex x -> besides x y -> SInv ex y.
  Proof.
    intros I B. pose proof (besides_hist _ _ B) as EH. destruct B as [B1 B2 B3 [l [B4 B5]]].
    constructor; rewrite ?EH, ?B1, ?B2, ?B3; try apply I.
    intros e He. rewrite B4, last_sent_app by (apply aside_no_send; auto). apply (si_sent _ _ I). auto.
  Qed.
  Definition plain (a : act) : Prop := match a with ACall _ | ASend _ _ => False | _ => True end.
  Lemma hist_plain l : Forall plain l -> hist l = [].
  Proof. induction 1 as [|a l H _ IH]; auto. unfold hist in *. cbn. rewrite IH. destruct a; cbn in H; tauto. Qed.
  Lemma sinv_plain ex x l : SInv ex x -> Forall plain l -> SInv ex (add_tr x l).
  Proof.
    intros I P. assert (EH : hist (sv_tr (add_tr x l)) = hist (sv_tr x)).
    { unfold add_tr. cbn [sv_tr]. rewrite hist_app, (hist_plain l P). reflexivity. }
    constructor; rewrite ?EH; try apply I.
    intros e He. cbn [add_tr sv_tr]. rewrite last_sent_app; [apply (si_sent _ _ I); auto|].
    eapply Forall_impl; [|exact P]. intros a. destruct a; cbn; tauto.
  Qed.

  (* _release_block *)
  Lemma sv_release_ok i pb ex x : SInv ex x -> held (hist (sv_tr x)) (pb_block pb) ->
    pb_status pb = SUCCESS \/ pb_status pb = FAILED ->
    exists y l, sv_release up down maxr fuel init i pb x = Ok y /\
      sv_book y = sv_book x /\ sv_pend y = sv_pend x /\
      sv_tr y = l ++ ACall (EvRel pb) :: sv_tr x /\ Forall plain l /\
      reach (EvRel pb :: hist (sv_tr x)) (sv_s y).
  Proof.
    intros I H St. unfold sv_release.
    destruct (release_total V up down seeds maxr fuel GG EN s0 FR _ _ (i_pick i (pb_block pb)) pb (si_reach _ _ I) H St) as [s1 E].
    rewrite E. cbn [bind].
    set (x1 := add_tr (set_s x s1) _).
    destruct (check_all_spec x1) as [[B1 B2 B3 [l [B4 B5]]] _].
    destruct (recruit_total init (check_all x1) init_ok) as [y Ey]. rewrite Ey.
    destruct (recruit_spec init _ _ Ey) as [[C1 C2 C3 [m [C4 C5]]] _].
    exists y, (m ++ l ++ [ANote (NRelease (b_task (pb_block pb)) (s_st s1 (b_task (pb_block pb))))]).
    split; auto. split; [rewrite C2, B2; reflexivity|]. split; [rewrite C3, B3; reflexivity|].
    split; [rewrite C4, B4; unfold x1; cbn; rewrite <- !app_assoc; reflexivity|]. split.
    - apply Forall_app. split; [|apply Forall_app; split].
      + eapply Forall_impl; [|exact C5]. intros a; destruct a; cbn; tauto.
      + eapply Forall_impl; [|exact B5]. intros a; destruct a; cbn; tauto.
      + repeat constructor.
    - rewrite C1, B1. cbn. eapply reach_release; eauto. apply I.
  Qed.
  Lemma plain_sent l pb tr b : Forall plain l -> last_sent (l ++ ACall (EvRel pb) :: tr) b = last_sent tr b.
  Proof.
    intros P. rewrite last_sent_app; auto. eapply Forall_impl; [|exact P]. intros a; destruct a; cbn; tauto.
  Qed.
  Lemma counts_ok ex x : SInv ex x -> forall b, n_released (hist (sv_tr x)) b <= n_handed (hist (sv_tr x)) b <= n_released (hist (sv_tr x)) b + 1.
  Proof. intros I b. apply (hi_count _ _ _ _ _ _ _ _ (sinv_hinv _ _ I) b). Qed.

  Lemma in_blocks b bk : In b (blocks_of bk) <-> exists e, In e bk /\ pb_block (lg_block (snd e)) = b.
  Proof. unfold blocks_of. rewrite in_map_iff. split; intros [e [H1 H2]]; exists e; auto. Qed.

  (* a valid return *)
  Lemma valid_block pb st ex x : SInv ex x -> In (pb_block pb) V -> is_valid_return pb st (sv_book x) = true ->
    exists l, In (bid (pb_block pb), l) (sv_book x) /\ pb_block (lg_block l) = pb_block pb /\ lg_stream l = st /\
      bget (bid (pb_block pb)) (sv_book x) = Some l.
  Proof.
    intros I Vb. unfold is_valid_return. destruct (bget _ _) as [l|] eqn:E; [|discriminate]. intros H.
    apply Nat.eqb_eq in H. exists l. apply bget_some in E as E'. split; auto. split; auto.
    pose proof (si_key _ _ I _ E') as K. cbn in K. symmetry in K. apply (gg_ids _ _ _ _ GG); auto.
    apply (sinv_V ex x _ I). apply (si_held _ _ I). apply in_or_app. left. apply in_blocks. exists (bid (pb_block pb), l). auto.
  Qed.
  Lemma blocks_bdel b bk : (forall e, In e bk -> fst e = bid (pb_block (lg_block (snd e)))) -> In b V ->
    (forall e, In e bk -> In (pb_block (lg_block (snd e))) V) ->
    blocks_of (bdel (bid b) bk) = filter (fun c => negb (is_block b c)) (blocks_of bk).
  Proof.
    intros K Vb Ve. unfold blocks_of, bdel. induction bk as [|e bk IH]; auto. cbn.
    rewrite (K e (or_introl eq_refl)). destruct (block_dec b (pb_block (lg_block (snd e)))) as [<-|N].
    - rewrite bid_eqb_refl, is_block_same. cbn. apply IH; intros; [apply K|apply Ve]; right; auto.
    - rewrite is_block_other by auto. destruct (bid_eqb _ _) eqn:E.
      + apply (proj1 (bid_eqb_eq _ _)) in E. exfalso. apply N. apply (gg_ids _ _ _ _ GG); auto. apply Ve. left; auto.
      + cbn. f_equal. apply IH; intros; [apply K|apply Ve]; right; auto.
  Qed.
  Lemma safe_release_ok i pb st x : SInv [] x -> In (pb_block pb) V -> pb_status pb = SUCCESS \/ pb_status pb = FAILED ->
    exists y, safe_release up down maxr fuel init i pb st x = Ok y /\ SInv [] y /\
      (is_valid_return pb st (sv_book x) = true ->
        sv_book y = bdel (bid (pb_block pb)) (sv_book x) /\ sv_pend y = sv_pend x /\
        exists l, sv_tr y = l ++ ACall (EvRel pb) :: sv_tr x /\ Forall plain l) /\
      (is_valid_return pb st (sv_book x) = false -> y = x).
  Proof.
    intros I Vb St. unfold safe_release. destruct (is_valid_return pb st (sv_book x)) eqn:Va.
    2: { exists x. split; auto. split; auto. split; [discriminate|auto]. }
    destruct (valid_block pb st [] x I Vb Va) as [lg [Hl [El [Es Eg]]]].
    assert (Hh : held (hist (sv_tr x)) (pb_block pb)).
    { apply (si_held _ _ I). apply in_or_app. left. apply in_blocks. exists (bid (pb_block pb), lg). auto. }
    destruct (sv_release_ok i pb [] x I Hh St) as [y [l [Ey [Y1 [Y2 [Y3 [Y4 Y5]]]]]]]. rewrite Ey. cbn [bind].
    unfold notify_block_returned. rewrite Y1, Eg, Es, Nat.eqb_refl. cbn [bind].
    eexists. split; [reflexivity|].
    assert (EH : hist (sv_tr y) = EvRel pb :: hist (sv_tr x)).
    { rewrite Y3, hist_app, (hist_plain l Y4). reflexivity. }
    split; [|split; [|discriminate]].
    2: { intros _. cbn. split; auto. split; auto. exists l. auto. }
    assert (Ve : forall e, In e (sv_book x) -> In (pb_block (lg_block (snd e))) V).
    { intros e He. apply (sinv_V [] x _ I). apply (si_held _ _ I). apply in_or_app. left. apply in_blocks. eauto. }
    assert (Ebl : blocks_of (bdel (bid (pb_block pb)) (sv_book x)) = filter (fun c => negb (is_block (pb_block pb) c)) (blocks_of (sv_book x))).
    { apply blocks_bdel; auto. apply (si_key _ _ I). }
    pose proof (si_nodup _ _ I) as Nd. rewrite app_nil_r in Nd.
    constructor; cbn [set_book sv_s sv_book sv_pend sv_tr]; rewrite ?EH.
    - exact Y5.
    - intros e He. apply in_bdel in He. apply (si_key _ _ I). tauto.
    - rewrite app_nil_r, Ebl. apply NoDup_filter; auto.
    - intros b. rewrite (held_rel maxr fuel) by (apply (counts_ok _ _ I)). rewrite (si_held _ _ I), !app_nil_r, Ebl, filter_In.
      destruct (block_dec b (pb_block pb)) as [->|N].
      + rewrite is_block_same. cbn. intuition congruence.
      + rewrite is_block_other by auto. cbn. intuition congruence.
    - intros e He. apply in_bdel in He. rewrite Y3, plain_sent by auto. apply (si_sent _ _ I). tauto.
    - rewrite Y2. apply I.
  Qed.

  Lemma touch_known x t : SInv [] x -> In t tasks -> touch (sv_s x) t = sv_s x.
  Proof.
    intros I Ht. unfold touch, sadd. apply known in Ht. rewrite <- (sinv_order _ _ I) in Ht. apply mem_nat in Ht.
    rewrite Ht. destruct (sv_s x). reflexivity.
  Qed.
  Definition calls t (r : option pyblock) (sk : list block) : history :=
    match r with Some pb => EvHand t pb | None => EvNone t end :: rev (map EvSkip sk).
  Lemma handle_acquire_ok i t st x : SInv [] x -> In t tasks ->
    exists y s1 r sk, acquire_block up down maxr fuel (i_chk i) (sv_s x) t = Ok (s1, r, sk) /\
      handle_acquire up down maxr fuel init i t st x = Ok y /\ SInv [] y /\ sv_s y = s1 /\
      match r with
      | Some pb =>
          ~ In (bid (pb_block pb)) (map fst (sv_book x)) /\
          sv_book y = sv_book x ++ [(bid (pb_block pb), BLog pb st (i_now i))] /\ sv_pend y = sv_pend x /\
          sv_tr y = [ANote (NAcquire t (s_st s1 t)); ASend st pb] ++ map ACall (calls t r sk) ++ sv_tr x
      | None =>
          sv_book y = sv_book x /\ ts_ready (s_st s1 t) = 0 /\
          (ts_pending (s_st s1 t) = 0 /\ sv_pend y = sv_pend x /\
             (exists l, sv_tr y = l ++ AShutdown t st :: map ACall (calls t r sk) ++ sv_tr x /\ Forall aside l) \/
           ts_pending (s_st s1 t) <> 0 /\ pput t st (sv_pend x) = Ok (sv_pend y) /\
             sv_tr y = ADelay t st :: map ACall (calls t r sk) ++ sv_tr x)
      end.
  Proof.
    intros I Ht. unfold handle_acquire. rewrite (touch_known x t I Ht).
    destruct (acquire_ok V up down seeds maxr fuel GG EN s0 (i_chk i) t _ _ (sinv_hinv _ _ I)) as [s1 [r [sk [E [HI Hn]]]]].
    rewrite E. cbn [bind].
    assert (R1 : reach (calls t r sk ++ hist (sv_tr x)) s1).
    { unfold calls. cbn [app]. eapply reach_acquire; [apply (si_reach _ _ I)|exact E]. }
    assert (EH : hist (sv_tr (add_tr (set_s x s1) (map ACall (calls t r sk)))) = calls t r sk ++ hist (sv_tr x)).
    { cbn [add_tr set_s sv_tr]. rewrite hist_app, hist_calls. reflexivity. }
    destruct r as [pb|].
    - assert (Hq : forall b, held (calls t (Some pb) sk ++ hist (sv_tr x)) b <-> held (hist (sv_tr x)) b \/ b = pb_block pb).
      { intros b. unfold calls. cbn [app]. rewrite held_hand.
        - rewrite held_skips. tauto.
        - intros c. pose proof (counts_ok _ _ I c) as C. unfold n_released, n_handed in *.
          rewrite !count_app, !count_rev_skip by reflexivity. exact C. }
      assert (OK : ok_event V up maxr (rev (map EvSkip sk) ++ hist (sv_tr x)) (EvHand t pb)).
      { pose proof (hi_ok _ _ _ _ _ _ _ _ HI) as O. apply O. }
      destruct OK as [Vb [_ [_ [_ [_ NH]]]]]. rewrite held_skips in NH.
      assert (Nk : ~ In (bid (pb_block pb)) (map fst (sv_book x))).
      { intros H. apply in_map_iff in H. destruct H as [e [Ee He]]. rewrite (si_key _ _ I e He) in Ee.
        assert (Hb : held (hist (sv_tr x)) (pb_block (lg_block (snd e)))).
        { apply (si_held _ _ I). apply in_or_app. left. apply in_blocks. eauto. }
        apply NH. replace (pb_block pb) with (pb_block (lg_block (snd e))); auto.
        apply (gg_ids _ _ _ _ GG); auto. apply (sinv_V [] x _ I); auto. }
      change (match Some pb with Some pb0 => EvHand t pb0 | None => EvNone t end :: rev (map EvSkip sk)) with (calls t (Some pb) sk).
      unfold notify_block_sent. cbn [add_tr set_s sv_book].
      rewrite (proj2 (bget_none _ _) Nk). cbn [bind]. eexists _, s1, (Some pb), sk. split; [reflexivity|].
      split; [reflexivity|]. split; [|split; [reflexivity|split; [exact Nk|split; [reflexivity|split; reflexivity]]]].
      pose proof (si_nodup _ _ I) as Nd. rewrite app_nil_r in Nd.
      assert (Eb : blocks_of (sv_book x ++ [(bid (pb_block pb), BLog pb st (i_now i))]) = blocks_of (sv_book x) ++ [pb_block pb]).
      { unfold blocks_of. rewrite map_app. reflexivity. }
      constructor; cbn [add_tr set_book set_s sv_s sv_book sv_pend sv_tr].
      + change (hist _) with (hist (map ACall (calls t (Some pb) sk) ++ sv_tr x)). rewrite hist_app, hist_calls. exact R1.
      + intros e He. apply in_app_or in He. destruct He as [He|[<-|[]]]; [apply (si_key _ _ I e He)|reflexivity].
      + rewrite app_nil_r, Eb. apply NoDup_app'; auto; [constructor; [intros []|constructor]|].
        intros c Hc [<-|[]]. apply NH. apply (si_held _ _ I). apply in_or_app. auto.
      + intros b. change (hist _) with (hist (map ACall (calls t (Some pb) sk) ++ sv_tr x)).
        rewrite hist_app, hist_calls, Hq, Eb, app_nil_r, in_app_iff, (si_held _ _ I), app_nil_r. cbn. intuition congruence.
      + intros e He. cbn [app last_sent]. rewrite last_sent_app by apply calls_no_send.
        apply in_app_or in He. destruct He as [He|[<-|[]]].
        * rewrite is_block_other; [apply (si_sent _ _ I e He)|].
          intros C. apply NH. rewrite <- C. apply (si_held _ _ I). apply in_or_app. left. apply in_blocks. eauto.
        * cbn. rewrite is_block_same. reflexivity.
      + apply (si_pend _ _ I).
    - specialize (Hn eq_refl).
      assert (Rd : ts_ready (s_st s1 t) = 0).
      { rewrite (i_cready _ _ _ _ _ _ _ _ _ (hi_inv _ _ _ _ _ _ _ _ HI)), Hn. reflexivity. }
      change (match None with Some pb0 => EvHand t pb0 | None => EvNone t end :: rev (map EvSkip sk)) with (calls t None sk).
      rewrite Rd. cbn [Z.eqb negb].
      assert (Hq : forall b, held (calls t None sk ++ hist (sv_tr x)) b <-> held (hist (sv_tr x)) b).
      { intros b. apply held_quiet. intros e [<-|He]; [exact Logic.I|]. apply in_rev, in_map_iff in He. destruct He as [c [<- _]]. exact Logic.I. }
      set (y := add_tr (set_s x s1) _) in *.
      assert (Iy : SInv [] y).
      { constructor; rewrite ?EH; try apply I.
        - exact R1.
        - intros b. rewrite Hq. apply (si_held _ _ I).
        - intros e He. unfold y. cbn [add_tr set_s sv_tr]. rewrite last_sent_app by apply calls_no_send. apply (si_sent _ _ I e He). }
      destruct (ts_pending (s_st s1 t) =? 0) eqn:Ep.
      + assert (Iy2 : SInv [] (add_tr y [AShutdown t st])) by (apply sinv_plain; auto; repeat constructor).
        destruct (recruit_total init (add_tr y [AShutdown t st]) init_ok) as [z Ez]. rewrite Ez.
        destruct (recruit_spec init _ _ Ez) as [B _]. pose proof B as [C1 C2 C3 [m [C4 C5]]].
        apply Z.eqb_eq in Ep.
        exists z, s1, None, sk. split; [reflexivity|]. split; [reflexivity|]. split; [eapply sinv_besides; eauto|].
        split; [rewrite C1; reflexivity|]. split; [rewrite C2; reflexivity|]. split; [exact Rd|]. left. split; [exact Ep|].
        split; [rewrite C3; reflexivity|]. exists m. split; auto.
      + destruct (pput_ok t st (sv_pend y)) as [p [Ep2 Kp]].
        { change (sv_pend y) with (sv_pend x). rewrite (si_pend _ _ I). apply in_dedup_nat. exact Ht. }
        rewrite Ep2. cbn [bind]. apply Z.eqb_neq in Ep.
        exists (add_tr (set_pend y p) [ADelay t st]), s1, None, sk. split; [reflexivity|]. split; [reflexivity|]. split.
        * apply sinv_plain; [|repeat constructor]. destruct Iy as [Y1 Y2 Y3 Y4 Y5 Y6].
          constructor; auto. cbn [set_pend sv_pend]. rewrite Kp. exact Y6.
        * split; [reflexivity|]. split; [reflexivity|]. split; [exact Rd|]. right. split; [exact Ep|]. split; [exact Ep2|reflexivity].
  Qed.

  Lemma handle_message_ok i st m x : SInv [] x -> honest m ->
    exists y, handle_message up down maxr fuel init i st m x = Ok y /\ SInv [] y.
  Proof.
    intros I Hm. unfold handle_message.
    assert (C : forall y, SInv [] y -> SInv [] (check_all y)).
    { intros y Iy. eapply sinv_besides; eauto. apply (check_all_spec y). }
    destruct m as [t|pb|pb w|e|]; try (destruct Hm).
    - destruct (handle_acquire_ok i t st x I Hm) as [y [s1 [r [sk [_ [E [Iy _]]]]]]]. rewrite E. cbn [bind]. eauto.
    - destruct (safe_release_ok i pb st x I H H0) as [y [E [Iy _]]]. rewrite E. cbn [bind]. eauto.
    - destruct (safe_release_ok i (PB (pb_block pb) FAILED) st x I Hm (or_intror eq_refl)) as [y [E [Iy _]]].
      rewrite E. cbn [bind]. eexists. split; [reflexivity|]. apply C. apply sinv_plain; auto. repeat constructor.
  Qed.
  Lemma sinv_set_pend ex x p : SInv ex x -> map fst p = map fst (sv_pend x) -> SInv ex (set_pend x p).
  Proof. intros [Y1 Y2 Y3 Y4 Y5 Y6] E. constructor; auto. cbn [set_pend sv_pend]. congruence. Qed.
  Lemma handle_messages_ok i x : SInv [] x -> good_input i ->
    exists y, handle_messages up down maxr fuel init i x = Ok y /\ SInv [] y.
  Proof.
    intros I [G _]. unfold handle_messages. destruct (i_get i) as [st m| | |e]; eauto; [| |destruct G].
    - apply handle_message_ok; auto. apply sinv_plain; auto. repeat constructor.
    - destruct (pfirst (sv_pend x)) as [[[t st] p]|] eqn:E; eauto.
      apply pfirst_keys in E. destruct E as [E Ht]. apply handle_message_ok.
      + apply sinv_plain; [|repeat constructor]. apply sinv_set_pend; auto.
      + cbn. rewrite (si_pend _ _ I) in Ht. apply in_dedup_nat. exact Ht.
  Qed.

  (* the blocks given up by _check_for_lost_blocks *)
  Lemma release_one i pb ex x : SInv (pb_block pb :: ex) x ->
    exists y l, sv_release up down maxr fuel init i (PB (pb_block pb) FAILED) x = Ok y /\ SInv ex y /\
      held (hist (sv_tr x)) (pb_block pb) /\
      sv_book y = sv_book x /\ sv_pend y = sv_pend x /\
      sv_tr y = l ++ ACall (EvRel (PB (pb_block pb) FAILED)) :: sv_tr x /\ Forall plain l.
  Proof.
    intros I.
    assert (H : held (hist (sv_tr x)) (pb_block pb)).
    { apply (si_held _ _ I). apply in_or_app. right. left. reflexivity. }
    destruct (sv_release_ok i (PB (pb_block pb) FAILED) _ x I H (or_intror eq_refl)) as [y [l [Ey [Y1 [Y2 [Y3 [Y4 Y5]]]]]]].
    exists y, l. split; auto. split; [|auto].
    assert (EH : hist (sv_tr y) = EvRel (PB (pb_block pb) FAILED) :: hist (sv_tr x)).
    { rewrite Y3, hist_app, (hist_plain l Y4). reflexivity. }
    pose proof (si_nodup _ _ I) as Nd. apply NoDup_remove in Nd. destruct Nd as [Nd Nb].
    constructor; rewrite ?EH, ?Y1, ?Y2; auto.
    - apply (si_key _ _ I).
    - intros b. rewrite (held_rel maxr fuel) by (apply (counts_ok _ _ I)). cbn [pb_block].
      rewrite (si_held _ _ I), !in_app_iff. cbn [In]. split.
      + intros [[?|[?|?]] N]; auto. congruence.
      + intros Hb. split; [tauto|]. intros ->. apply Nb. apply in_or_app. exact Hb.
    - intros e He. rewrite Y3, plain_sent by auto. apply (si_sent _ _ I e He).
    - apply I.
  Qed.
  Lemma release_lost i bs : forall x, SInv (map pb_block bs) x ->
    exists y, foldM (fun x pb => sv_release up down maxr fuel init i (PB (pb_block pb) FAILED) x) bs x = Ok y /\
      SInv [] y /\ sv_book y = sv_book x /\ sv_pend y = sv_pend x /\
      hist (sv_tr y) = rev (map (fun pb => EvRel (PB (pb_block pb) FAILED)) bs) ++ hist (sv_tr x) /\
      (exists l, sv_tr y = l ++ sv_tr x /\ Forall (fun a => plain a \/ exists b, a = ACall (EvRel (PB b FAILED))) l).
  Proof.
    induction bs as [|pb bs IH]; intros x I; cbn [foldM].
    - exists x. split; auto. split; auto. split; auto. split; auto. split; auto. exists []. auto.
    - destruct (release_one i pb _ x I) as [y [l [Ey [Iy [_ [Y1 [Y2 [Y3 Y4]]]]]]]]. rewrite Ey. cbn [bind].
      assert (EH : hist (sv_tr y) = EvRel (PB (pb_block pb) FAILED) :: hist (sv_tr x)).
      { rewrite Y3, hist_app, (hist_plain l Y4). reflexivity. }
      destruct (IH y Iy) as [z [Ez [Iz [Z1 [Z2 [Z3 [m [Z4 Z5]]]]]]]].
      exists z. split; auto. split; auto. split; [congruence|]. split; [congruence|]. split.
      + rewrite Z3, EH. cbn [map rev]. rewrite <- app_assoc. reflexivity.
      + exists (m ++ l ++ [ACall (EvRel (PB (pb_block pb) FAILED))]). split.
        * rewrite Z4, Y3, <- !app_assoc. reflexivity.
        * apply Forall_app. split; auto. apply Forall_app. split.
          -- eapply Forall_impl; [|exact Y4]. auto.
          -- constructor; [|constructor]. right. eexists. reflexivity.
  Qed.
  Definition lost_in (i : input) (x : server) : book := filter (fun e => i_closed i (lg_stream (snd e))) (sv_book x).
  Lemma perm_split {A} (p : A -> bool) l : Permutation l (filter (fun a => negb (p a)) l ++ filter p l).
  Proof.
    induction l as [|a l IH]; cbn; auto. destruct (p a); cbn.
    - eapply perm_trans; [apply perm_skip, IH|]. apply Permutation_middle.
    - apply perm_skip, IH.
  Qed.
  Lemma lost_start i x : SInv [] x ->
    let b := filter (fun e => negb (i_closed i (lg_stream (snd e)))) (sv_book x) in
    let bs := map (fun e => lg_block (snd e)) (lost_in i x) in
    let note := rev (flat_map (fun e => if i_closed i (lg_stream (snd e))
                                        then [ALost (lg_block (snd e)) (lg_stream (snd e))] else []) (sv_book x)) in
    check_lost up down maxr fuel init i x =
      foldM (fun x pb => sv_release up down maxr fuel init i (PB (pb_block pb) FAILED) x) bs (add_tr (set_book x b) note) /\
    SInv (map pb_block bs) (add_tr (set_book x b) note) /\ Forall plain note.
  Proof.
    intros I b bs note.
    assert (Pn : Forall plain note).
    { unfold note. apply Forall_rev. apply Forall_forall. intros a Ha. apply in_flat_map in Ha.
      destruct Ha as [e [_ Ha]]. destruct (i_closed i _); [destruct Ha as [<-|[]]; exact Logic.I|destruct Ha]. }
    assert (Eb : map pb_block bs = blocks_of (lost_in i x)).
    { unfold bs, blocks_of. rewrite map_map. reflexivity. }
    assert (Pm : Permutation (blocks_of (sv_book x)) (blocks_of b ++ blocks_of (lost_in i x))).
    { unfold blocks_of. rewrite <- map_app. apply Permutation_map. apply perm_split. }
    split; [|split; auto].
    - unfold check_lost. rewrite lost_none by (eapply sinv_keys; eauto). reflexivity.
    - apply sinv_plain; auto. rewrite Eb. pose proof (si_nodup _ _ I) as Nd. rewrite app_nil_r in Nd.
      constructor; cbn [set_book sv_s sv_book sv_pend sv_tr]; try apply I.
      + intros e He. apply filter_In in He. apply (si_key _ _ I). tauto.
      + apply (Permutation_NoDup Pm). exact Nd.
      + intros c. rewrite (si_held _ _ I), app_nil_r. split; apply Permutation_in; auto. apply Permutation_sym; auto.
      + intros e He. apply filter_In in He. apply (si_sent _ _ I). tauto.
  Qed.
  Lemma check_lost_ok i x : SInv [] x ->
    exists y, check_lost up down maxr fuel init i x = Ok y /\ SInv [] y /\
      sv_book y = filter (fun e => negb (i_closed i (lg_stream (snd e)))) (sv_book x) /\ sv_pend y = sv_pend x /\
      hist (sv_tr y) = rev (map (fun e => EvRel (PB (pb_block (lg_block (snd e))) FAILED)) (lost_in i x)) ++ hist (sv_tr x) /\
      (exists l, sv_tr y = l ++ sv_tr x /\ Forall (fun a => plain a \/ exists b, a = ACall (EvRel (PB b FAILED))) l).
  Proof.
    intros I. destruct (lost_start i x I) as [E [I1 Pn]]. rewrite E.
    destruct (release_lost i _ _ I1) as [y [Ey [Iy [Y1 [Y2 [Y3 [l [Y4 Y5]]]]]]]].
    rewrite Ey. exists y. split; auto. split; auto. split; [rewrite Y1; reflexivity|]. split; [rewrite Y2; reflexivity|]. split.
    - rewrite Y3. cbn [add_tr set_book sv_tr]. rewrite hist_app, (hist_plain _ Pn), map_map. reflexivity.
    - eexists. split; [rewrite Y4; cbn [add_tr set_book sv_tr]; rewrite app_assoc; reflexivity|].
      apply Forall_app. split; auto. eapply Forall_impl; [|exact Pn]. auto.
  Qed.

  Lemma iteration_ok i x : SInv [] x -> good_input i ->
    exists y, iteration up down maxr fuel init i x = Ok y /\ SInv [] y.
  Proof.
    intros I G. unfold iteration. destruct (handle_messages_ok i x I G) as [y [Ey Iy]]. rewrite Ey. cbn [bind].
    destruct (check_lost_ok i y Iy) as [z [Ez [Iz _]]]. rewrite Ez. cbn [bind]. destruct G as [_ G]. rewrite G. cbn [bind].
    eexists. split; [reflexivity|]. destruct (i_tick i); auto. eapply sinv_besides; [exact Iz|]. apply (check_all_spec z).
  Qed.
  Lemma loop_ok ins : forall x, SInv [] x -> Forall good_input ins ->
    exists y, event_loop up down maxr fuel init ins x = Ok y /\ SInv [] y.
  Proof.
    induction ins as [|i ins IH]; intros x I G; cbn [event_loop]; destruct (sv_stop x); eauto.
    inversion G; subst. destruct (iteration_ok i x I) as [y [Ey Iy]]; auto. rewrite Ey. cbn [bind]. auto.
  Qed.
  Lemma init_sinv stopped : exists x, server_init init tasks stopped s0 = Ok x /\ SInv [] x.
  Proof.
    unfold server_init. set (x0 := Server s0 _ _ _ _ _ _). destruct (recruit_total init x0 init_ok) as [x Ex].
    exists x. split; auto. apply (sinv_besides [] x0); [|apply (recruit_spec init _ _ Ex)].
    constructor; cbn.
    - constructor.
    - intros e [].
    - constructor.
    - intros b. unfold held. cbn. split; [lia|tauto].
    - intros e [].
    - rewrite map_map. cbn. apply map_id.
  Qed.
End Inv.

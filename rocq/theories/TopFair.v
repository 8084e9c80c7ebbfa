(* Fair runs with interrupted workers: the interruption of a worker is the end of its body followed by the end of its process. *)
From Coq Require Import Arith Lia.
From Verif Require Import SchedProps SerialFacts P_Conv ServerFacts P_Sys WholeFair P_Whole.
From Verif Require Client Pool.
From Verif Require Import Sys Whole WholeAny Top.
Open Scope Z_scope.

(* cf. Whole.prudent, WholeFair.hacts, hends *)
Definition aprudent (h : whole) (m : amove) : Prop :=
  match m with
  | AMove m => prudent h m
  | ABreak st _ n c => c <> 0 /\ forall pb w, ~ In (MBlockFailed pb w) (firstn n (w_out (h_w h st)))
  | ARaise _ _ _ => True
  end.
Definition aacts (m : amove) (st : nat) : Prop :=
  match m with AMove m => hacts m st | ARaise s _ _ | ABreak s _ _ _ => s = st end.
Definition aends (m : amove) : Prop := match m with AMove m => hends m | _ => True end.
Definition raising (m : tmove) : Prop := match m with TMove (ARaise _ _ _) => True | _ => False end.

(* A call without end, as in WholeFair.hfair. *)
Record tfair up down maxr fuel init nw mbf (r : nat -> top) (mv : nat -> option tmove) : Prop := {
  tf_step : forall n, match mv n with Some m => tstep up down maxr fuel init nw mbf (r n) m (r (S n)) | None => r (S n) = r n end;
  tf_prudent : forall n m, mv n = Some (TMove m) -> aprudent (tp_h (r n)) m;
  tf_move : forall n st, hcan_move (tp_h (r n)) st ->
    exists k, (n <= k)%nat /\ ((exists m, mv k = Some (TMove m) /\ aacts m st) \/ ~ hcan_move (tp_h (r k)) st);
  tf_msg : forall n st, known (tp_h (r n)) st -> w_out (h_w (tp_h (r n)) st) <> [] ->
    exists k, (n <= k)%nat /\ ((exists i cut m, mv k = Some (TMove (AMove (HServe i cut))) /\ i_get i = GotMessage st m) \/
      w_out (h_w (tp_h (r k)) st) = [] \/ sv_stop (h_sv (tp_h (r k))) = true \/ tp_stop (r k) = true);
  tf_idle : forall n, exists k, (n <= k)%nat /\ ((exists i cut, mv k = Some (TMove (AMove (HServe i cut))) /\ hidle (tp_h (r k)) i) \/
      (exists st, known (tp_h (r k)) st /\ w_out (h_w (tp_h (r k)) st) <> []) \/ sv_stop (h_sv (tp_h (r k))) = true \/ tp_stop (r k) = true);
  tf_end : exists N, forall k m, (N <= k)%nat -> mv k = Some (TMove m) -> ~ aends m
}.

(* what the status of an interrupted block becomes (client.py:95-101) *)
Definition left_as (s : status) : Client.outcome := Client.Finished (if status_eqb s SUCCESS then SUCCESS else FAILED).
Lemma returned_left st pb s : returned st pb (Client.Interrupted s) = returned st pb (left_as s).
Proof. destruct s; reflexivity. Qed.
Lemma returned_no_fail st pb s pb' w : ~ In (MBlockFailed pb' w) (returned st pb (left_as s)).
Proof. destruct s; cbn; intros [H|[]]; discriminate. Qed.

(* k = 2 n + (0 or 1) *)
Fixpoint half (k : nat) : nat * bool :=
  match k with O => (O, false) | S k => let (n, b) := half k in if b then (S n, false) else (n, true) end.
Lemma half_is k : k = (2 * fst (half k) + if snd (half k) then 1 else 0)%nat.
Proof. induction k as [|k IH]; [reflexivity|]. cbn [half]. destruct (half k) as [n []]; cbn in *; lia. Qed.
Lemma half_even n : half (2 * n) = (n, false).
Proof. pose proof (half_is (2 * n)) as H. destruct (half (2 * n)) as [m []]; cbn [fst snd] in H; [lia|]. f_equal. lia. Qed.
Lemma half_odd n : half (S (2 * n)) = (n, true).
Proof. cbn [half]. rewrite half_even. reflexivity. Qed.

Section Split.
  Variables (up down : block -> list block) (maxr : nat -> Z) (fuel : nat) (init : nat -> res unit) (nw : nat -> Z) (mbf : Z).
  Variables (r : nat -> top) (mv : nat -> option tmove).
  Hypothesis FA : tfair up down maxr fuel init nw mbf r mv.
  Hypothesis No : forall n m, mv n = Some m -> m <> TStop /\ ~ raising m.
  Hypothesis St : tp_stop (r O) = false.
  Local Notation H n := (tp_h (r n)).

  Definition r1 (n : nat) : whole :=
    match mv n with
    | Some (TMove (ABreak st s _ _)) => match w_at (h_w (H n) st) with Working pb => broken (H n) st pb s | _ => H n end
    | _ => H (S n)
    end.
  Definition r2 (k : nat) : whole := let (n, b) := half k in if b then r1 n else H n.
  Definition mv2 (k : nat) : option hmove :=
    let (n, b) := half k in
    match mv n with
    | Some (TMove (AMove m)) => if b then None else Some m
    | Some (TMove (ABreak st s n c)) => if b then Some (HEnd st n c) else Some (HFinish st (left_as s))
    | _ => None
    end.
  Lemma r2_even n : r2 (2 * n) = H n.
  Proof. unfold r2. rewrite half_even. reflexivity. Qed.
  Lemma mv2_even n m : mv n = Some (TMove (AMove m)) -> mv2 (2 * n) = Some m.
  Proof. intros E. unfold mv2. rewrite half_even, E. reflexivity. Qed.
  Lemma no_stop n : tp_stop (r n) = false.
  Proof.
    induction n as [|n IH]; auto. pose proof (tf_step _ _ _ _ _ _ _ _ _ FA n) as S. destruct (mv n) as [m|] eqn:E; [|rewrite S; exact IH].
    destruct (No _ _ E) as [N _]. inversion S; subst; [exact IH|congruence].
  Qed.
  (* a broken worker *)
  Lemma at_break n st s k c : mv n = Some (TMove (ABreak st s k c)) -> exists pb, alive (H n) st /\ w_at (h_w (H n) st) = Working pb /\
    r1 n = broken (H n) st pb s /\ H (S n) = leave nw mbf (broken (H n) st pb s) (h_ps (H n)) st c (firstn k (w_out (h_w (H n) st) ++ returned st pb (Client.Interrupted s))).
  Proof.
    intros E. pose proof (tf_step _ _ _ _ _ _ _ _ _ FA n) as S. rewrite E in S. inversion S as [m h A _ Em Eh|]; subst. inversion A as [| |st' s' n' c' pb Al At]; subst.
    exists pb. split; auto. split; auto. unfold r1. rewrite E, At. split; reflexivity.
  Qed.
  Lemma broken_other h st pb s j : j <> st -> h_w (broken h st pb s) j = h_w h j.
  Proof. intros N. unfold broken, hput. cbn [h_w]. destruct (Nat.eqb_spec j st); [contradiction|reflexivity]. Qed.
  Lemma broken_self h st pb s : h_w (broken h st pb s) st =
    Worker (w_task (h_w h st)) Asking (w_out (h_w h st) ++ returned st pb (Client.Interrupted s)) (w_in (h_w h st)).
  Proof. unfold broken, hput. cbn [h_w]. rewrite Nat.eqb_refl. reflexivity. Qed.
  Lemma leave_other h ps st c o j : j <> st -> h_w (leave nw mbf h ps st c o) j = h_w h j.
  Proof. intros N. unfold leave. cbn [h_w]. destruct (Nat.eqb_spec j st); [contradiction|reflexivity]. Qed.
  (* nobody else can tell *)
  Lemma broken_gone h st pb s pb' j : w_at (h_w h st) = Working pb' -> gone (broken h st pb s) j <-> gone h j.
  Proof.
    intros W. unfold gone, known, proc. cbn [broken hput h_ps]. destruct (Nat.eq_dec j st) as [->|N]; [|rewrite broken_other by exact N; reflexivity].
    rewrite broken_self, W. cbn [w_at]. split; intros [_ [X _]]; discriminate X.
  Qed.
  Lemma broken_can h st pb s pb' j : w_at (h_w h st) = Working pb' -> j <> st -> hcan_move (broken h st pb s) j -> hcan_move h j.
  Proof.
    intros W N [A B]. split; [exact A|]. rewrite broken_other in B by exact N. destruct (w_at (h_w h j)); auto. intros x G Et.
    assert (Tx : w_task (h_w (broken h st pb s) x) = w_task (h_w h x)).
    { destruct (Nat.eq_dec x st) as [->|Nx]; [rewrite broken_self; reflexivity|rewrite broken_other by exact Nx; reflexivity]. }
    apply (B x); [apply (broken_gone h st pb s pb'); auto|rewrite Tx; exact Et].
  Qed.

  Lemma split_step k : match mv2 k with Some m => hstep up down maxr fuel init nw mbf (r2 k) m (r2 (S k)) | None => r2 (S k) = r2 k end.
  Proof.
    unfold mv2, r2. cbn [half]. destruct (half k) as [n b]. pose proof (tf_step _ _ _ _ _ _ _ _ _ FA n) as S.
    destruct (mv n) as [[[m|st e q|st s q c]|]|] eqn:E.
    - inversion S as [m' h A _ Em Eh|]; subst. inversion A as [m'' h' S'| |]; subst. destruct b; unfold r1; rewrite E; rewrite <- Eh; [reflexivity|exact S'].
    - destruct (No _ _ E) as [_ X]. destruct X. exact I.
    - destruct (at_break _ _ _ _ _ E) as [pb [Al [W [E1 E2]]]]. destruct b.
      + rewrite E1, E2. replace (w_out (h_w (H n) st) ++ returned st pb (Client.Interrupted s)) with (w_out (h_w (broken (H n) st pb s) st)) by (rewrite broken_self; reflexivity).
        apply (hs_end up down maxr fuel init nw mbf (broken (H n) st pb s) st q c (w_task (h_w (broken (H n) st pb s) st)) Asking
          (w_out (h_w (broken (H n) st pb s) st)) (w_in (h_w (broken (H n) st pb s) st))).
        * exact Al.
        * rewrite broken_self. reflexivity.
        * right. discriminate.
      + rewrite E1. unfold broken. rewrite returned_left.
        destruct (h_w (H n) st) as [t p o i] eqn:Ew. cbn [w_at w_task w_out w_in] in *. subst p. eapply hs_finish; eauto. intros s'. unfold left_as. discriminate.
    - destruct (No _ _ E) as [X _]. congruence.
    - destruct b; unfold r1; rewrite E; [reflexivity|f_equal; exact S].
  Qed.
  Lemma split_fair : hfair up down maxr fuel init nw mbf r2 mv2.
  Proof.
    assert (LE : forall k n b, half k = (n, b) -> (2 * n <= k <= 2 * n + 1)%nat).
    { intros k n b E. pose proof (half_is k) as X. rewrite E in X. cbn [fst snd] in X. destruct b; lia. }
    constructor.
    - exact split_step.
    - intros k m E. unfold mv2, r2 in *. destruct (half k) as [n b]. destruct (mv n) as [[[m'|st e q|st s q c]|]|] eqn:Em; try discriminate E.
      + destruct b; [discriminate E|]. injection E as ->. apply (tf_prudent _ _ _ _ _ _ _ _ _ FA n (AMove m)). exact Em.
      + pose proof (tf_prudent _ _ _ _ _ _ _ _ _ FA _ _ Em) as [P1 P2]. destruct b; injection E as <-; [|exact I].
        destruct (at_break _ _ _ _ _ Em) as [pb [Al [W [E1 _]]]]. rewrite E1. split; auto. intros pb' w. rewrite broken_self. cbn [w_out]. rewrite firstn_app, in_app_iff.
        intros [X|X]; [exact (P2 _ _ X)|]. rewrite returned_left in X. apply (returned_no_fail st pb s pb' w). rewrite <- (firstn_skipn (q - length (w_out (h_w (H n) st)))).
        apply in_or_app. left. exact X.
    - assert (EV : forall n k st, (k <= 2 * n)%nat -> hcan_move (H n) st -> exists k', (k <= k')%nat /\ ((exists m, mv2 k' = Some m /\ hacts m st) \/ ~ hcan_move (r2 k') st)).
      { intros n k st L C. destruct (tf_move _ _ _ _ _ _ _ _ _ FA _ _ C) as [j [Lj [[m [Em Am]]|Nc]]]; exists (2 * j)%nat; (split; [lia|]); [left|right; rewrite r2_even; exact Nc].
        destruct m as [m|s e q|s x q c]; cbn [aacts] in Am.
        - exists m. split; auto. apply mv2_even. exact Em.
        - destruct (No _ _ Em) as [_ X]. destruct X. exact I.
        - subst s. exists (HFinish st (left_as x)). unfold mv2. rewrite half_even, Em. split; reflexivity. }
      intros k st C. unfold r2 in C. destruct (half k) as [n b] eqn:Eh. pose proof (LE _ _ _ Eh) as L. destruct b; [|].
      + unfold r1 in C. destruct (mv n) as [[[m|s e q|s x q c]|]|] eqn:Em; try (apply (EV (S n) k st); [lia|exact C]).
        destruct (at_break _ _ _ _ _ Em) as [pb [Al [W [E1 E2]]]]. rewrite W in C. destruct (Nat.eq_dec st s) as [->|Ns].
        * exists k. split; auto. left. exists (HEnd s q c). unfold mv2. rewrite Eh, Em. split; reflexivity.
        * apply broken_can with (pb' := pb) in C; auto.
          destruct (tf_move _ _ _ _ _ _ _ _ _ FA _ _ C) as [j [Lj X]]. destruct (Nat.eq_dec j n) as [->|Nj].
          -- destruct X as [[m [Em' Am]]|Nc]; [|contradiction]. rewrite Em in Em'. injection Em' as <-. cbn in Am. congruence.
          -- destruct X as [[m [Em' Am]]|Nc]; exists (2 * j)%nat; (split; [lia|]); [left|right; rewrite r2_even; exact Nc].
             destruct m as [m|s' e q'|s' x' q' c']; cbn [aacts] in Am.
             ++ exists m. split; auto. apply mv2_even. exact Em'.
             ++ destruct (No _ _ Em') as [_ X]. destruct X. exact I.
             ++ subst s'. exists (HFinish st (left_as x')). unfold mv2. rewrite half_even, Em'. split; reflexivity.
      + pose proof (half_is k) as X. rewrite Eh in X. cbn [fst snd] in X. apply (EV n k st); [lia|exact C].
    - assert (EV : forall n k st, (k <= 2 * n)%nat -> known (H n) st -> w_out (h_w (H n) st) <> [] ->
        exists k', (k <= k')%nat /\ ((exists i cut m, mv2 k' = Some (HServe i cut) /\ i_get i = GotMessage st m) \/ w_out (h_w (r2 k') st) = [] \/ sv_stop (h_sv (r2 k')) = true)).
      { intros n k st L K O. destruct (tf_msg _ _ _ _ _ _ _ _ _ FA _ _ K O) as [j [Lj X]]. exists (2 * j)%nat. split; [lia|]. rewrite r2_even.
        destruct X as [[i [cut [m [Em Eg]]]]|[X|[X|X]]]; auto.
        - left. exists i, cut, m. split; auto. apply mv2_even. exact Em.
        - rewrite no_stop in X. discriminate X. }
      intros k st K O. unfold r2 in K, O. destruct (half k) as [n b] eqn:Eh. pose proof (LE _ _ _ Eh) as L. destruct b.
      + unfold r1 in K, O. destruct (mv n) as [[[m|s e q|s x q c]|]|] eqn:Em; try (apply (EV (S n) k st); [lia|exact K|exact O]).
        destruct (at_break _ _ _ _ _ Em) as [pb [Al [W [E1 E2]]]]. rewrite W in K, O. destruct (Nat.eq_dec st s) as [->|Ns].
        * destruct (w_out (h_w (H (S n)) s)) as [|m l] eqn:Ew.
          -- exists (2 * S n)%nat. split; [lia|]. right. left. rewrite r2_even. exact Ew.
          -- apply (EV (S n) k s); [lia| |rewrite Ew; discriminate]. unfold known, proc. rewrite E2. cbn [leave h_ps Pool.pstep fst Pool.ps_sys].
             destruct Al as [t Al]. unfold proc in Al. rewrite Al. unfold Pool.set_proc. cbn [Pool.tbl]. rewrite Nat.eqb_refl. discriminate.
        * rewrite broken_other in O by exact Ns. assert (K' : known (H n) st) by exact K.
          destruct (tf_msg _ _ _ _ _ _ _ _ _ FA _ _ K' O) as [j [Lj X]]. destruct (Nat.eq_dec j n) as [->|Nj].
          -- destruct X as [[i [cut [m [Em' _]]]]|[X|[X|X]]]; [congruence|contradiction| |rewrite no_stop in X; discriminate X].
             exists (2 * S n)%nat. split; [lia|]. right. right. rewrite r2_even, E2. exact X.
          -- exists (2 * j)%nat. split; [lia|]. rewrite r2_even. destruct X as [[i [cut [m [Em' Eg]]]]|[X|[X|X]]]; auto; [|rewrite no_stop in X; discriminate X].
             left. exists i, cut, m. split; auto. apply mv2_even. exact Em'.
      + pose proof (half_is k) as X. rewrite Eh in X. cbn [fst snd] in X. apply (EV n k st); [lia|exact K|exact O].
    - intros k. destruct (half k) as [n b] eqn:Eh. pose proof (LE _ _ _ Eh) as L.
      destruct (tf_idle _ _ _ _ _ _ _ _ _ FA (S n)) as [j [Lj X]]. exists (2 * j)%nat. split; [lia|]. rewrite r2_even.
      destruct X as [[i [cut [Em Hi]]]|[X|[X|X]]]; auto; [|rewrite no_stop in X; discriminate X]. left. exists i, cut. split; auto. apply mv2_even. exact Em.
    - destruct (tf_end _ _ _ _ _ _ _ _ _ FA) as [N HN]. exists (2 * S N)%nat. intros k m L E Hm. unfold mv2 in E. destruct (half k) as [n b] eqn:Eh. pose proof (LE _ _ _ Eh) as L'.
      destruct (mv n) as [[[m'|s e q|s x q c]|]|] eqn:Em; try discriminate E.
      + destruct b; [discriminate E|]. injection E as ->. apply (HN n (AMove m)); [lia|exact Em|exact Hm].
      + apply (HN n (ABreak s x q c)); [lia|exact Em|exact I].
  Qed.
  Lemma split_at k : exists n, h_sv (r2 k) = h_sv (H n) .
  Proof.
    unfold r2. destruct (half k) as [n b]. destruct b; [|eauto]. unfold r1. destruct (mv n) as [[[m|s e q|s x q c]|]|]; eauto.
    exists n. destruct (w_at _); reflexivity.
  Qed.
End Split.

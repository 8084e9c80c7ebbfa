(* Init callbacks that raise exceptions: the server does what it does with callbacks that do not, until one raises. *)
From Coq Require Import Arith Lia.
From Verif Require Import SerialFacts ServerFacts ServerSteps.
From Verif Require Export Server.
Open Scope Z_scope.

Definition quiet : nat -> res unit := fun _ => Ok tt.

Section Init.
  Variables up down : block -> list block.
  Variable maxr : nat -> Z.
  Variable fuel : nat.
  Variable init : nat -> res unit.

  (* a: with the callbacks of the tasks; b: with callbacks that do nothing *)
  Definition alike (a b : res server) : Prop :=
    a = b \/ exists e t, a = Err e /\ init t = Err e /\ forall y, b = Ok y -> In (AInit t) (sv_tr y).
  Definition longer (f : server -> res server) : Prop := forall x y, f x = Ok y -> incl (sv_tr x) (sv_tr y).
  Lemma alike_refl a : alike a a.
  Proof. left. reflexivity. Qed.
  Lemma alike_bind a b f g : alike a b -> (forall x, alike (f x) (g x)) -> longer g -> alike (bind a f) (bind b g).
  Proof.
    intros [->|[e [t [-> [I H]]]]] F L.
    - destruct b as [x|]; cbn [bind]; [apply F|left; reflexivity].
    - right. exists e, t. split; [reflexivity|]. split; auto. intros y. destruct b as [x|]; cbn [bind]; [|discriminate].
      intros G. apply (L _ _ G). apply H. reflexivity.
  Qed.
  Lemma longer_bind f g : longer f -> longer g -> longer (fun x => bind (f x) g).
  Proof. intros F G x y. destruct (f x) as [z|] eqn:E; cbn [bind]; [|discriminate]. intros H a Ha. apply (G _ _ H), (F _ _ E), Ha. Qed.
  Lemma incl_add l (x y : server) : sv_tr y = l ++ sv_tr x -> incl (sv_tr x) (sv_tr y).
  Proof. intros -> a Ha. apply in_or_app. auto. Qed.
  Lemma besides_incl x y : besides x y -> incl (sv_tr x) (sv_tr y).
  Proof. intros B. destruct (be_tr _ _ B) as [l [E _]]. eapply incl_add; eauto. Qed.
  Lemma longer_check x : incl (sv_tr x) (sv_tr (check_all x)).
  Proof. apply besides_incl, check_all_spec. Qed.
  Lemma longer_recruit i : longer (recruit i).
  Proof. intros x y H. apply recruit_spec in H. apply besides_incl, H. Qed.

  Lemma start_alike st ts : forall p,
    foldM (start_step init st) ts p = foldM (start_step quiet st) ts p \/
    exists e t, foldM (start_step init st) ts p = Err e /\ init t = Err e /\
      forall q, foldM (start_step quiet st) ts p = Ok q -> In (AInit t) (snd q).
  Proof.
    induction ts as [|t ts IH]; intros [a b]; cbn [foldM]; [left; reflexivity|]. cbn [start_step].
    destruct (mem Nat.eqb t a); cbn [bind]; [apply IH|]. destruct (init t) as [[]|e] eqn:E; cbn [bind quiet]; [apply IH|].
    right. exists e, t. split; [reflexivity|]. split; auto. intros [a' b'] H. apply start_fold in H. destruct H as [[l [-> _]] _]. cbn.
    apply in_or_app. right. left. reflexivity.
  Qed.
  Lemma recruit_alike x : alike (recruit init x) (recruit quiet x).
  Proof.
    unfold recruit, alike.
    change (fun '(started, tr) t => if mem Nat.eqb t started then _ else _ <- init t ;; _) with (start_step init (s_st (sv_s x))).
    change (fun '(started, tr) t => if mem Nat.eqb t started then _ else _ <- quiet t ;; _) with (start_step quiet (s_st (sv_s x))).
    destruct (start_alike (s_st (sv_s x)) (get_ready_tasks (sv_s x)) (sv_started x, sv_tr x)) as [->|[e [t [-> [I H]]]]]; [left; reflexivity|].
    right. exists e, t. split; [reflexivity|]. split; auto. intros y. destruct (foldM (start_step quiet _) _ _) as [[a b]|] eqn:E; [|discriminate].
    cbn [bind]. intros Y. injection Y as <-. cbn. right. apply (H (a, b)). reflexivity.
  Qed.
  Lemma release_alike i pb x : alike (sv_release up down maxr fuel init i pb x) (sv_release up down maxr fuel quiet i pb x).
  Proof. unfold sv_release. destruct (release_block _ _ _ _ _ _ _); cbn [bind]; [apply recruit_alike|apply alike_refl]. Qed.
  Lemma longer_release init' i pb : longer (sv_release up down maxr fuel init' i pb).
  Proof.
    intros x y. unfold sv_release. destruct (release_block _ _ _ _ _ _ _) as [s|]; cbn [bind]; [|discriminate]. intros H a Ha.
    apply (longer_recruit _ _ _ H), longer_check. cbn [add_tr sv_tr]. apply in_or_app. right. exact Ha.
  Qed.
  Lemma safe_alike i pb st x : alike (safe_release up down maxr fuel init i pb st x) (safe_release up down maxr fuel quiet i pb st x).
  Proof.
    unfold safe_release. destruct (is_valid_return _ _ _); [|apply alike_refl]. apply alike_bind; [apply release_alike|intros y; apply alike_refl|].
    intros y z. destruct (notify_block_returned _ _ _); cbn [bind]; [|discriminate]. intros H. injection H as <-. apply incl_refl.
  Qed.
  Lemma acquire_alike i t st x : alike (handle_acquire up down maxr fuel init i t st x) (handle_acquire up down maxr fuel quiet i t st x).
  Proof.
    unfold handle_acquire. destruct (acquire_block _ _ _ _ _ _ _) as [[[s1 r] sk]|]; cbn [bind]; [|apply alike_refl]. destruct r; [apply alike_refl|].
    destruct (negb _); [apply alike_refl|]. destruct (_ =? 0); [apply recruit_alike|apply alike_refl].
  Qed.
  Lemma message_alike i st m x : alike (handle_message up down maxr fuel init i st m x) (handle_message up down maxr fuel quiet i st m x).
  Proof.
    unfold handle_message. apply alike_bind; [|intros y; apply alike_refl|].
    - destruct m as [t|pb|pb w|e|]; try apply alike_refl; [apply acquire_alike|apply safe_alike|].
      apply alike_bind; [apply safe_alike|intros y; apply alike_refl|]. intros y z H. injection H as <-. apply (incl_add [ANote (NFailure (PB (pb_block pb) FAILED) w)]). reflexivity.
    - intros y z H. injection H as <-. apply longer_check.
  Qed.
  Lemma messages_alike i x : alike (handle_messages up down maxr fuel init i x) (handle_messages up down maxr fuel quiet i x).
  Proof.
    unfold handle_messages. destruct (i_get i); try apply alike_refl; [apply message_alike|].
    destruct (pfirst _) as [[[t st] p]|]; [apply message_alike|apply alike_refl].
  Qed.
  Lemma fold_longer {A} (f : server -> A -> res server) : (forall a, longer (fun x => f x a)) -> forall l, longer (foldM f l).
  Proof.
    intros F l. induction l as [|a l IH]; intros x y; cbn [foldM]; [intros H; injection H as <-; apply incl_refl|].
    destruct (f x a) as [z|] eqn:E; cbn [bind]; [|discriminate]. intros H c Hc. apply (IH _ _ H), (F a _ _ E), Hc.
  Qed.
  Lemma fold_alike {A} (f g : server -> A -> res server) : (forall x a, alike (f x a) (g x a)) -> (forall a, longer (fun x => g x a)) -> forall l x,
    alike (foldM f l x) (foldM g l x).
  Proof.
    intros F L l. induction l as [|a l IH]; intros x; cbn [foldM]; [apply alike_refl|].
    apply alike_bind; auto. apply fold_longer, L.
  Qed.
  Lemma lost_alike i x : alike (check_lost up down maxr fuel init i x) (check_lost up down maxr fuel quiet i x).
  Proof.
    unfold check_lost. destruct (get_lost_blocks _ _ _ _) as [[bs b]|]; cbn [bind]; [|apply alike_refl].
    apply fold_alike; [intros y pb; apply release_alike|intros pb; apply longer_release].
  Qed.
  Lemma longer_lost init' i : longer (check_lost up down maxr fuel init' i).
  Proof.
    intros x y. unfold check_lost. destruct (get_lost_blocks _ _ _ _) as [[bs b]|]; cbn [bind]; [|discriminate].
    intros H. apply (fold_longer _ (fun pb => longer_release init' i (PB (pb_block pb) FAILED))) in H. intros a Ha. apply H.
    cbn [add_tr sv_tr]. apply in_or_app. right. exact Ha.
  Qed.
  Lemma iteration_alike i x : alike (iteration up down maxr fuel init i x) (iteration up down maxr fuel quiet i x).
  Proof.
    assert (T : longer (fun z => _ <- i_health i ;; Ok (if i_tick i then check_all z else z))).
    { intros z y. destruct (i_health i); cbn [bind]; [|discriminate]. intros H. injection H as <-. destruct (i_tick i); [apply longer_check|apply incl_refl]. }
    unfold iteration. apply alike_bind; [apply messages_alike| |].
    - intros y. apply alike_bind; [apply lost_alike|intros z; apply alike_refl|exact T].
    - apply longer_bind; [apply longer_lost|exact T].
  Qed.
  Lemma iteration_quiet i x y : iteration up down maxr fuel init i x = Ok y -> iteration up down maxr fuel quiet i x = Ok y.
  Proof. intros E. destruct (iteration_alike i x) as [H|[e [t [H _]]]]; congruence. Qed.
  Lemma init_alike ts stopped s0 : alike (server_init init ts stopped s0) (server_init quiet ts stopped s0).
  Proof. apply recruit_alike. Qed.
End Init.

(* The worker context and the environment variable (C43). *)
From Coq Require Import DecimalString DecimalNat.
From Verif Require Import Ctx.
Open Scope string_scope.

(* a string without the two separators *)
Definition clean (s : string) : Prop := has "=" s = false /\ has ":" s = false.
(* what a context looks like after a trip through the environment: all values are strings *)
Definition strs (c : context) : context := map (fun kv => (fst kv, VStr (str (snd kv)))) c.

Lemma has_app x a b : has x (a ++ b) = has x a || has x b.
Proof. induction a as [|y a IH]; cbn; auto. rewrite IH, orb_assoc. auto. Qed.
Lemma sapp_nil s : (s ++ "")%string = s.
Proof. induction s as [|y a IH]; cbn; congruence. Qed.
Lemma split_nonempty x s : split x s <> [].
Proof. destruct s as [|y s]; cbn; [discriminate|]. destruct (Ascii.eqb x y); [discriminate|]. destruct (split x s); discriminate. Qed.
Lemma split_clean x s : forall w, In w (split x s) -> has x w = false.
Proof.
  induction s as [|y s IH]; cbn; intros w.
  - intros [<-|[]]. auto.
  - destruct (Ascii.eqb x y) eqn:E; [intros [<-|H]; auto|].
    destruct (split x s) as [|v vs]; [intros [<-|[]]; cbn; rewrite E; auto|].
    intros [<-|H]; [cbn; rewrite E; apply IH; left; auto|apply IH; right; auto].
Qed.
Lemma split_pre x a s : has x a = false -> split x (a ++ s) = match split x s with [] => [] | w :: ws => (a ++ w)%string :: ws end.
Proof.
  induction a as [|y a IH]; cbn; intros H.
  - destruct (split x s); auto.
  - apply orb_false_elim in H. destruct H as [-> H]. rewrite IH by auto.
    pose proof (split_nonempty x s). destruct (split x s); [congruence|]. auto.
Qed.
Lemma split_none x a : has x a = false -> split x a = [a].
Proof. intros H. pose proof (split_pre x a "" H) as K. rewrite sapp_nil in K. rewrite K. cbn. rewrite sapp_nil. auto. Qed.
Lemma split_sep x a s : has x a = false -> split x (a ++ String x s) = a :: split x s.
Proof. intros H. rewrite split_pre by auto. cbn. rewrite Ascii.eqb_refl, sapp_nil. auto. Qed.
Lemma sapp_assoc a b c : ((a ++ b) ++ c = a ++ (b ++ c))%string.
Proof. induction a; cbn; congruence. Qed.

Lemma split_concat l : l <> [] -> (forall w, In w l -> has ":" w = false) -> split ":" (String.concat ":" l) = l.
Proof.
  induction l as [|w l IH]; intros N H; [congruence|]. cbn [String.concat]. destruct l as [|v l].
  - apply split_none. apply H. left; auto.
  - change (w ++ ":" ++ String.concat ":" (v :: l))%string with (w ++ String ":" (String.concat ":" (v :: l)))%string.
    rewrite split_sep by (apply H; left; auto). rewrite IH; auto; [discriminate|]. intros u Hu. apply H. right; auto.
Qed.

Definition token (kv : string * value) : string := (fst kv ++ "=" ++ str (snd kv))%string.
Lemma token_clean kv : clean (fst kv) -> clean (str (snd kv)) -> has ":" (token kv) = false.
Proof. intros [_ H1] [_ H2]. unfold token. rewrite !has_app, H1, H2. reflexivity. Qed.
Lemma token_set c kv : clean (fst kv) -> clean (str (snd kv)) -> ctx_token c (token kv) = Ok (set c (fst kv) (VStr (str (snd kv)))).
Proof.
  destruct kv as [k v]. cbn [fst snd]. intros [H1 H2] [H3 H4]. unfold ctx_token, token. cbn [fst snd].
  change (k ++ "=" ++ str v)%string with (k ++ String "=" (str v))%string.
  rewrite split_sep, (split_none "=" (str v)) by auto. unfold ctx_set. cbn [str]. rewrite H1, H2, H3, H4. reflexivity.
Qed.
Lemma set_new c k v : ~ In k (map fst c) -> set c k v = (c ++ [(k, v)])%list.
Proof.
  induction c as [|[k' v'] c IH]; cbn; intros N; auto. destruct (String.eqb_spec k k') as [->|]; [tauto|].
  rewrite IH by tauto. auto.
Qed.
Lemma fold_sets c : forall acc, NoDup (map fst (acc ++ c)) ->
  (forall kv, In kv c -> clean (fst kv) /\ clean (str (snd kv))) ->
  foldM ctx_token (map token c) acc = Ok (acc ++ strs c)%list.
Proof.
  induction c as [|kv c IH]; intros acc ND H; cbn [map foldM].
  - unfold strs. cbn. rewrite app_nil_r. auto.
  - destruct (H kv (or_introl eq_refl)) as [H1 H2]. rewrite token_set by auto. cbn [bind].
    rewrite map_app in ND. cbn [map] in ND. rewrite set_new.
    + rewrite IH.
      * rewrite <- app_assoc. reflexivity.
      * rewrite !map_app. cbn [map fst]. rewrite <- app_assoc. exact ND.
      * intros; apply H; right; auto.
    + apply NoDup_remove in ND. intros X. apply (proj2 ND), in_or_app. auto.
Qed.

(* everything ctx_set puts into a context is clean *)
Definition all_clean (c : context) : Prop := forall k v, In (k, v) c -> clean k /\ clean (str v).
Lemma in_set c k v x : In x (set c k v) -> x = (k, v) \/ In x c.
Proof.
  induction c as [|[k' v'] c IH]; cbn; [intros [<-|[]]; auto|]. destruct (String.eqb_spec k k') as [->|].
  - intros [<-|H]; auto.
  - intros [<-|H]; auto. apply IH in H. destruct H; auto.
Qed.
Lemma set_clean c c' k v : all_clean c -> ctx_set c k v = Ok c' -> all_clean c'.
Proof.
  intros A. unfold ctx_set. destruct (has "=" k || has ":" k) eqn:E1; [discriminate|].
  destruct (has "=" (str v) || has ":" (str v)) eqn:E2; [discriminate|]. intros E. injection E as <-.
  apply orb_false_elim in E1, E2. intros k' v' H. apply in_set in H. destruct H as [H|H]; auto.
  injection H as -> ->. split; [exact E1|exact E2].
Qed.
Lemma token_keeps c c' t : all_clean c -> ctx_token c t = Ok c' -> all_clean c'.
Proof.
  intros A. unfold ctx_token. destruct (split "=" t) as [|k [|v [|? ?]]]; try discriminate. apply set_clean, A.
Qed.
Lemma fold_keeps ts : forall c c', all_clean c -> foldM ctx_token ts c = Ok c' -> all_clean c'.
Proof.
  induction ts as [|t ts IH]; cbn [foldM]; intros c c' A E; [injection E as <-; auto|].
  destruct (ctx_token c t) as [c1|] eqn:E1; [|discriminate]. cbn [bind] in E. eapply IH; [|exact E]. eapply token_keeps; eauto.
Qed.

(* C43: exactly when no key and no value contains ':' or '=' (the check is only in __setitem__,
   the constructor does not make it) *)
Theorem C43_round_trip_iff : forall logdir kwargs here, NoDup (map fst (ctx_init logdir kwargs)) ->
  (from_env here (to_env (ctx_init logdir kwargs)) = Ok (strs (ctx_init logdir kwargs)) <->
   clean (str logdir) /\ forall k v, In (k, v) kwargs -> clean k /\ clean (str v)).
Proof.
  intros logdir kwargs here ND. set (c := ctx_init logdir kwargs) in *. split.
  - intros E.
    assert (A : all_clean (strs c)).
    { unfold from_env in E. unfold to_env in E. fold token in E.
      assert (X : exists w ws, split ":" (String.concat ":" (map token c)) = ("logdir=" ++ w)%string :: ws).
      { unfold c, ctx_init. cbn [map String.concat]. destruct (map token kwargs) as [|t ts].
        - unfold token. cbn [fst snd]. change ("logdir" ++ "=" ++ str logdir)%string with ("logdir=" ++ str logdir)%string.
          rewrite split_pre by reflexivity. pose proof (split_nonempty ":" (str logdir)).
          destruct (split ":" (str logdir)) as [|w ws]; [congruence|]. eauto.
        - unfold token at 1. cbn [fst snd]. change ("logdir" ++ "=" ++ str logdir)%string with ("logdir=" ++ str logdir)%string.
          rewrite sapp_assoc. rewrite split_pre by reflexivity.
          match goal with |- context [split ":" ?s] => pose proof (split_nonempty ":" s); destruct (split ":" s) as [|w ws]; [congruence|] end.
          eauto. }
      destruct X as [w [ws X]].
      change (map (fun kv : string * value => (fst kv ++ "=" ++ str (snd kv))%string) c) with (map token c) in E.
      rewrite X in E. cbn [foldM] in E.
      destruct (ctx_token (ctx_init here []) ("logdir=" ++ w)) as [c1|] eqn:E1; [|discriminate]. cbn [bind] in E.
      apply fold_keeps in E; auto. unfold ctx_token in E1.
      change ("logdir=" ++ w)%string with ("logdir" ++ String "=" w)%string in E1. rewrite split_sep in E1 by reflexivity.
      destruct (split "=" w) as [|v [|? ?]]; try discriminate. unfold ctx_set in E1.
      destruct (has "=" "logdir" || has ":" "logdir"); [discriminate|]. cbn [str] in E1.
      destruct (has "=" v || has ":" v) eqn:Hv; [discriminate|]. injection E1 as <-. apply orb_false_elim in Hv.
      intros k' v' [H|[]]. injection H as <- <-. split; [split; reflexivity|]. exact Hv. }
    unfold c, ctx_init, strs in A. cbn [map fst snd] in A. split.
    + apply (A "logdir" (VStr (str logdir))). left; auto.
    + intros k v H. apply (A k (VStr (str v))). right. apply in_map_iff. exists (k, v). auto.
  - intros [H1 H2].
    assert (CL : forall kv, In kv c -> clean (fst kv) /\ clean (str (snd kv))).
    { intros [k v] [H|H]; [injection H as <- <-; split; auto; split; reflexivity|]. apply (H2 k v H). }
    unfold from_env, to_env.
    change (map (fun kv : string * value => (fst kv ++ "=" ++ str (snd kv))%string) c) with (map token c).
    rewrite split_concat; [| |].
    + unfold c at 1, ctx_init at 1. cbn [map foldM].
      rewrite token_set by (apply (CL ("logdir", logdir)); left; auto). cbn [bind fst snd ctx_init set].
      rewrite String.eqb_refl. rewrite fold_sets.
      * reflexivity.
      * exact ND.
      * intros kv H. apply CL. right; auto.
    + discriminate.
    + intros t H. apply in_map_iff in H. destruct H as [kv [<- H]]. apply token_clean; apply CL; auto.
Qed.
Print Assumptions C43_round_trip_iff.

(* numbers never contain a separator *)
Lemma number_clean n : clean (str (VNat n)).
Proof.
  cbn [str]. assert (H : forall u, clean (NilEmpty.string_of_uint u)).
  { induction u as [|u IH|u IH|u IH|u IH|u IH|u IH|u IH|u IH|u IH|u IH]; cbn; try (split; reflexivity);
      destruct IH as [IH1 IH2]; (split; cbn; [exact IH1|exact IH2]). }
  unfold NilZero.string_of_uint. destruct (Nat.to_uint n); try apply H. split; reflexivity.
Qed.

(* the contexts daisy builds: only log directory, host name and task id matter *)
Theorem C43_worker_context : forall logdir hostname task_id port worker_id here, exists c,
  worker_context logdir hostname task_id port worker_id = Ok c /\
  (from_env here (to_env c) = Ok (strs c) <-> clean (str logdir) /\ clean (str hostname) /\ clean (str task_id)).
Proof.
  intros logdir hostname task_id port wid here. unfold worker_context, ctx_set.
  destruct (number_clean wid) as [H1 H2]. rewrite H1, H2. cbn [has Ascii.eqb orb bool_dec]. cbn -[str].
  eexists. split; [reflexivity|].
  change [("logdir", logdir); ("hostname", hostname); ("port", VNat port); ("task_id", task_id); ("worker_id", VStr (str (VNat wid)))]
    with (ctx_init logdir [("hostname", hostname); ("port", VNat port); ("task_id", task_id); ("worker_id", VStr (str (VNat wid)))]).
  rewrite C43_round_trip_iff.
  - split.
    + intros [A B]. split; auto. split; [apply (B "hostname" hostname)|apply (B "task_id" task_id)]; cbn; auto.
    + intros [A [B C]]. split; auto. intros k v [H|[H|[H|[H|[]]]]]; injection H as <- <-;
        (split; [split; reflexivity|auto]); try apply number_clean.
  - cbn. repeat (constructor; [cbn; intuition discriminate|]). constructor.
Qed.
Print Assumptions C43_worker_context.

(* C43 fails: a task id or a log directory with a separator is accepted and the worker then
   fails with an exception or sees other values. *)
Theorem C43_refuted : exists c c' : context,
  worker_context (VStr "./daisy_logs") (VStr "10.0.0.1") (VStr "predict:0") 4000 3 = Ok c /\
  from_env (VStr "./daisy_logs") (to_env c) = Err ValueError /\
  worker_context (VStr "/data/run=7/logs") (VStr "10.0.0.1") (VStr "predict") 4000 3 = Ok c' /\
  from_env (VStr "/data/run=7/logs") (to_env c') = Err ValueError.
Proof. eexists _, _. vm_compute. repeat split. Qed.
Theorem C43_other_value_refuted : exists c c' : context,
  worker_context (VStr "logs") (VStr "10.0.0.1") (VStr "predict:worker_id=1") 4000 3 = Ok c /\
  from_env VNone (to_env c) = Ok c' /\ get c' "task_id" = Some (VStr "predict") /\
  get c "task_id" = Some (VStr "predict:worker_id=1").
Proof. eexists _, _. vm_compute. repeat split. Qed.
(* None comes back as the string "None" *)
Example context_example : exists c,
  worker_context VNone (VStr "10.0.0.1") (VStr "predict") 4000 3 = Ok c /\
  to_env c = "logdir=None:hostname=10.0.0.1:port=4000:task_id=predict:worker_id=3" /\
  from_env VNone (to_env c) = Ok [("logdir", VStr "None"); ("hostname", VStr "10.0.0.1"); ("port", VStr "4000");
                                  ("task_id", VStr "predict"); ("worker_id", VStr "3")].
Proof. eexists. vm_compute. repeat split. Qed.
Print Assumptions C43_refuted.

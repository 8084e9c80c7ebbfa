(* What tasks make of their functions (C71), what bodies do to their block (C72), check functions (C73), log files (C74). *)
From Coq Require Import Arith Lia DecimalString DecimalNat.
From Verif Require Import P_Ctx P_Freeze P_Client TaskFn.
Open Scope string_scope.
Open Scope list_scope.

(* ---- C71 ---- *)
(* a function of the kind the documentation speaks of: no defaults, no *args, no keyword-only arguments; the first argument of a
   method, and nothing else, is called self *)
Record plain (f : signature) : Prop := {
  pl_defaults : sg_defaults f = O;
  pl_varargs : sg_varargs f = false;
  pl_kwonly : sg_kwonly f = O;
  pl_self : if sg_bound f then exists r, sg_args f = "self" :: r /\ ~ In "self" r else ~ In "self" (sg_args f)
}.
Lemma no_self l : ~ In "self" l -> existsb (String.eqb "self") l = false.
Proof.
  intros N. destruct (existsb (String.eqb "self") l) eqn:E; auto. apply existsb_exists in E. destruct E as [x [Hx E]].
  apply String.eqb_eq in E. subst x. tauto.
Qed.
Lemma leb_0 n : Nat.leb n 0 = true <-> n = O.
Proof. rewrite Nat.leb_le. lia. Qed.
(* A function is accepted in a role exactly if it can be called the way that role calls it, and refused exactly if it can be
   called neither way. *)
Theorem C71_roles_partial : forall f, plain f ->
  (forall r, task_role f = Ok r <-> takes f (worker_passes r) = true) /\
  (task_role f = Err ValueError <-> takes f 0 = false /\ takes f 1 = false) /\
  (* with multiprocessing=False every function is given the block *)
  (takes f serial_passes = true <-> task_role f = Ok ProcessesBlock).
Proof.
  intros f [D V K S]. unfold task_role, takes, serial_passes, worker_passes. rewrite D, V, K.
  assert (X : exists r, (if existsb (String.eqb "self") (sg_args f) then remove_arg "self" (sg_args f) else sg_args f) = r /\
    length (sg_args f) = ((if sg_bound f then 1 else 0) + length r)%nat).
  { destruct (sg_bound f).
    - destruct S as [r [-> N]]. exists r. split; [|reflexivity]. reflexivity.
    - exists (sg_args f). rewrite no_self by auto. split; reflexivity. }
  destruct X as [r [-> ->]].
  assert (T : forall n, ((((if sg_bound f then 1 else 0) + n) <=? ((if sg_bound f then 1 else 0) + length r))%nat || false) &&
    (((if sg_bound f then 1 else 0) + length r) <=? ((if sg_bound f then 1 else 0) + n + 0))%nat && (0 =? 0)%nat = Nat.eqb n (length r)).
  { intros n. rewrite Bool.orb_false_r, Bool.andb_true_r. destruct (Nat.eqb_spec n (length r)) as [->|N].
    - apply andb_true_intro. split; apply Nat.leb_le; lia.
    - apply Bool.andb_false_iff. destruct (Nat.lt_ge_cases n (length r)) as [H|H]; [right|left]; apply Nat.leb_gt; lia. }
  rewrite !T. destruct r as [|a [|b r]]; cbn; (split; [intros [|]; rewrite ?T; cbn; split; congruence|]);
    (split; split; try congruence; try (intros [? ?]; congruence); auto).
Qed.
Print Assumptions C71_roles_partial.
(* For other functions the claim fails in every direction.
   A class method and a method whose first argument has another name, which could be called with a block, are refused; so is a
   function with an optional second argument.  A function with only *args is accepted, to be
   called without the block.  A function whose only argument is called self is taken for one without arguments, and one with a
   required keyword-only argument for one of a block: calling them raises TypeError. *)
Theorem C71_other_functions_refuted :
  (let f := Sig ["cls"; "block"] true 0 false 0 in task_role f = Err ValueError /\ takes f 1 = true) /\
  (let f := Sig ["block"; "verbose"] false 1 false 0 in task_role f = Err ValueError /\ takes f 1 = true) /\
  (let f := Sig [] false 0 true 0 in task_role f = Ok SpawnsWorker /\ takes f 1 = true) /\
  (let f := Sig ["self"] false 0 false 0 in task_role f = Ok SpawnsWorker /\ takes f 0 = false /\ takes f 1 = true) /\
  (let f := Sig ["block"] false 0 false 1 in task_role f = Ok ProcessesBlock /\ takes f 1 = false).
Proof. vm_compute. repeat split. Qed.
Print Assumptions C71_other_functions_refuted.
Example C71_example : plain (Sig ["block"] false 0 false 0) /\ plain (Sig ["self"; "block"] true 0 false 0) /\ plain (Sig ["self"] true 0 false 0) /\
  task_role (Sig ["self"; "block"] true 0 false 0) = Ok ProcessesBlock /\ task_role (Sig ["self"] true 0 false 0) = Ok SpawnsWorker /\
  task_role (Sig ["a"; "b"] false 0 false 0) = Err ValueError.
Proof.
  split; [constructor; cbn; auto; intros [H|[]]; discriminate H|].
  split; [constructor; cbn; auto; exists ["block"]; split; auto; intros [H|[]]; discriminate H|].
  split; [constructor; cbn; auto; exists []; split; auto|]. vm_compute. auto.
Qed.

(* ---- C72 ---- *)
(* the names a block has *)
Definition known (class_attrs : list string) (k : string) : Prop := In k (block_attrs ++ [flag]) \/ In k class_attrs.
(* the status after some assignments *)
Definition last_status {value} (to_status : value -> status) (l : list (string * value)) (s : status) : status :=
  fold_left (fun s kv => if String.eqb (fst kv) "status" then to_status (snd kv) else s) l s.
Section Body.
  Variable value : Type.
  Variables vfalse vtrue : value.
  Variable truthy : value -> bool.
  Variable class_attrs : list string.
  Variable of_status : status -> value.
  Variable to_status : value -> status.
  Hypothesis VF : truthy vfalse = false.
  Hypothesis VT : truthy vtrue = true.
  Hypothesis OS : forall s, to_status (of_status s) = s.
  Local Notation run := (body_run value vfalse truthy class_attrs to_status).
  Local Notation setattr := (setattr value vfalse truthy class_attrs).
  Local Notation hasattr := (hasattr value vfalse class_attrs).
  Local Notation isfrozen := (isfrozen value vfalse truthy).
  Local Notation status_of := (status_of value vfalse to_status).
  (* a block as constructed, up to the values of its attributes *)
  Definition shaped (o : obj value) : Prop := isfrozen o = true /\ forall k, hasattr k o = true <-> known class_attrs k.

  Lemma received_ok val : exists o, received value vfalse vtrue truthy class_attrs of_status val = Ok o /\ shaped o /\ status_of o = PROCESSING.
  Proof.
    destruct (C47_frozen_partial value vfalse vtrue truthy class_attrs val VF VT) as [o [E [_ H]]].
    destruct (H [] ltac:(intros ? ? [])) as [H1 H2]. cbn [assigns fold_left] in H1, H2.
    unfold received. rewrite E. cbn [bind]. destruct (H2 "status" (of_status PROCESSING)) as [_ [b' [Eb [Gb Ob]]]].
    { left. cbn. auto 10. }
    exists b'. split; auto. split; [|unfold TaskFn.status_of; rewrite Gb; apply OS].
    pose proof (new_ok value vfalse vtrue truthy class_attrs VF VT val) as [o' [E' [F' _]]]. rewrite E in E'. injection E' as <-.
    unfold Freeze.setattr in Eb. rewrite F' in Eb. assert (Hs : hasattr "status" o = true) by (apply H1; left; cbn; auto 10).
    rewrite Hs in Eb. cbn in Eb. injection Eb as <-. split.
    - rewrite frozen_store; auto. discriminate.
    - intros k. rewrite hasattr_store by auto. apply H1.
  Qed.
  Lemma set_known k v o : shaped o -> known class_attrs k -> k <> flag ->
    exists o', setattr k v o = Ok o' /\ shaped o' /\ status_of o' = if String.eqb k "status" then to_status v else status_of o.
  Proof.
    intros [F H] K N. unfold Freeze.setattr. rewrite F, (proj2 (H k) K). cbn. eexists. split; [reflexivity|]. split; [split|].
    - rewrite frozen_store; auto.
    - intros j. rewrite hasattr_store by (apply H; auto). apply H.
    - unfold TaskFn.status_of. rewrite getattr_store. rewrite String.eqb_sym. destruct (String.eqb k "status"); reflexivity.
  Qed.
  Lemma set_unknown k v o : shaped o -> ~ known class_attrs k -> setattr k v o = Err TypeError.
  Proof.
    intros [F H] K. unfold Freeze.setattr. rewrite F. destruct (hasattr k o) eqn:E; [apply H in E; tauto|reflexivity].
  Qed.
  Lemma run_known l r : forall o, shaped o -> (forall k v, In (k, v) l -> known class_attrs k /\ k <> flag) ->
    exists o', shaped o' /\ status_of o' = last_status to_status l (status_of o) /\ forall m, run (l ++ m) r o = run m r o'.
  Proof.
    induction l as [|[k v] l IH]; intros o S K; [exists o; auto|]. destruct (K k v (or_introl eq_refl)) as [K1 K2].
    destruct (set_known k v o S K1 K2) as [o1 [E [S1 T1]]]. destruct (IH o1 S1) as [o' [S' [T' E']]]; [intros j w Hj; apply (K j w); right; auto|].
    exists o'. split; auto. split; [rewrite T', T1; reflexivity|]. intros m. cbn [app body_run]. rewrite E. apply E'.
  Qed.
End Body.

(* C72: a worker's body that assigns attributes of its block.  If it assigns only names a block has (not the flag of
   freezable.py) and ends without an exception, the block is reported done if the last status assigned is SUCCESS or
   PROCESSING or none was assigned, and failed otherwise.  The first name a block does not have ends the body; the block is
   reported failed, whatever status was assigned before and whatever would have followed, and the worker carries on. *)
Theorem C72_body : forall value vfalse vtrue truthy class_attrs of_status to_status val t pb l,
  truthy vfalse = false -> truthy vtrue = true -> (forall s, to_status (of_status s) = s) ->
  (forall k v, In (k, v) l -> known class_attrs k /\ k <> flag) ->
  exists o, received value vfalse vtrue truthy class_attrs of_status val = Ok o /\
  let run m raises := acquire_block t Up (RSend pb) (fun b => match b with Some _ => body_run value vfalse truthy class_attrs to_status m raises o | None => Finished CREATED end) no_drops in
  let last := last_status to_status l PROCESSING in
  (cr_sent (run l false) = [CAcquire t; CRelease (PB (pb_block pb) (if status_eqb last PROCESSING || status_eqb last SUCCESS then SUCCESS else FAILED))] /\
   cr_exn (run l false) = None) /\
  forall k v m raises, ~ known class_attrs k ->
    cr_sent (run (l ++ (k, v) :: m) raises) = [CAcquire t; CBlockFailed (PB (pb_block pb) FAILED); CRelease (PB (pb_block pb) FAILED)] /\
    cr_exn (run (l ++ (k, v) :: m) raises) = None /\ cr_conn (run (l ++ (k, v) :: m) raises) = Up.
Proof.
  intros value vfalse vtrue truthy class_attrs of_status to_status val t pb l VF VT OS K.
  destruct (received_ok value vfalse vtrue truthy class_attrs of_status to_status VF VT OS val) as [o [E [S P]]]. exists o. split; auto.
  cbv zeta. split.
  - destruct (run_known value vfalse truthy class_attrs to_status l false o S K) as [o' [S' [T' E']]]. rewrite P in T'.
    specialize (E' []). rewrite app_nil_r in E'. unfold acquire_block, run_block. cbn [lose no_drops d_before d_body d_between tcp_send].
    rewrite E'. cbn [body_run]. rewrite T'. destruct (last_status to_status l PROCESSING); cbn; auto.
  - intros k v m raises N. destruct (run_known value vfalse truthy class_attrs to_status l raises o S K) as [o' [S' [T' E']]].
    unfold acquire_block, run_block. cbn [lose no_drops d_before d_body d_between tcp_send]. rewrite E'. cbn [body_run].
    rewrite (set_unknown value vfalse truthy class_attrs k v o' S' N). cbn. auto.
Qed.
Print Assumptions C72_body.

Lemma raised_all t process replies drop : (forall i pb, exists s, process i pb = Raised s) ->
  forall n i c, Forall (fun pb => pb_status pb = FAILED) (releases (fst (process_blocks n t i c replies process drop))).
Proof.
  intros R. induction n as [|n IH]; intros i c; cbn [process_blocks]; [constructor|].
  match goal with |- context [acquire_block ?a ?b ?c ?d ?e] => set (r := acquire_block a b c d e) end.
  assert (X : Forall (fun pb => pb_status pb = FAILED) (releases (cr_sent r))).
  { unfold r, acquire_block. destruct (tcp_send (lose (d_before (drop i)) c)) as [c1 [x|]]; [constructor|].
    destruct (replies i) as [pb| | |]; try (cbn; constructor). unfold run_block. destruct (R i (PB (pb_block pb) PROCESSING)) as [s ->].
    destruct (tcp_send (lose (d_body (drop i)) Up)) as [c2 e2]. cbn. destruct (tcp_send (lose (d_between (drop i)) c2)) as [c3 [e3|]], e2; cbn;
      repeat constructor. }
  destruct (cr_exn r); [exact X|]. destruct (cr_yield r) as [[pb|]|]; try exact X.
  specialize (IH (S i) (cr_conn r)). destruct (process_blocks n t (S i) (cr_conn r) replies process drop) as [l e]. cbn [fst] in *.
  unfold releases. rewrite flat_map_app. apply Forall_app. split; auto.
Qed.
(* dir(Block), without what every object has *)
Definition block_class : list string := ["copy"; "freeze"; "thaw"; "_Block__compute_block_id"; "__setattr__"; "__repr__"; "__eq__"; "__hash__"].
(* The worker of the documentation (client.py:29-39) ends every block with  block.state = BlockStatus.SUCCESS.  A block has no
   such attribute: all blocks of such a worker are reported failed, whatever it did with them before, whichever answers it gets and
   whatever happens to its connection. *)
Theorem C72_documented_worker_refuted : forall value vfalse vtrue truthy of_status to_status val,
  truthy vfalse = false -> truthy vtrue = true -> (forall s, to_status (of_status s) = s) ->
  exists o, received value vfalse vtrue truthy block_class of_status val = Ok o /\
  forall blockwise_process : nat -> pyblock -> list (string * value),
  (forall i pb k v, In (k, v) (blockwise_process i pb) -> known block_class k /\ k <> flag) ->
  forall n t replies drop, Forall (fun pb => pb_status pb = FAILED)
    (releases (fst (process_blocks n t 0 Up replies
      (fun i pb => body_run value vfalse truthy block_class to_status (blockwise_process i pb ++ [("state", of_status SUCCESS)]) false o) drop))).
Proof.
  intros value vfalse vtrue truthy of_status to_status val VF VT OS.
  destruct (received_ok value vfalse vtrue truthy block_class of_status to_status VF VT OS val) as [o [E [S P]]]. exists o. split; auto.
  intros bp K n t replies drop. apply raised_all. intros i pb.
  destruct (run_known value vfalse truthy block_class to_status (bp i pb) false o S) as [o' [S' [T' E']]]; [intros; eauto|].
  exists (status_of value vfalse to_status o'). rewrite E'. cbn [body_run].
  rewrite (set_unknown value vfalse truthy block_class "state" (of_status SUCCESS) o' S'); auto.
  intros [H|H]; cbn in H; intuition discriminate.
Qed.
Print Assumptions C72_documented_worker_refuted.
(* what the attributes of a block may hold *)
Inductive pyval := PBool (b : bool) | PStatus (s : status) | PNum (z : Z).
Definition py_true (v : pyval) : bool := match v with PBool b => b | PNum z => negb (Z.eqb z 0) | PStatus _ => true end.
Definition py_status (v : pyval) : status := match v with PStatus s => s | _ => FAILED end.
Example C72_example : exists o, received pyval (PBool false) (PBool true) py_true block_class PStatus (fun _ => PNum 0) = Ok o /\
  let body l := body_run pyval (PBool false) py_true block_class py_status l false o in
  body [] = Finished PROCESSING /\ body [("started_processing", PNum 5)] = Finished PROCESSING /\
  body [("status", PStatus FAILED); ("status", PStatus SUCCESS)] = Finished SUCCESS /\
  body [("status", PStatus SUCCESS); ("state", PStatus SUCCESS); ("status", PStatus SUCCESS)] = Raised SUCCESS.
Proof. eexists. vm_compute. repeat split. Qed.

(* ---- C74 ---- *)
(* the last component of a path *)
Definition name (p : path) : string := last (p_parts p) "".
Lemma number_has x n : (x = "/" \/ x = ".")%char -> has x (str (VNat n)) = false.
Proof.
  intros Hx. assert (H : forall u, has x (NilEmpty.string_of_uint u) = false) by (destruct Hx as [-> | ->]; induction u; cbn; auto).
  cbn. unfold NilZero.string_of_uint. destruct (Nat.to_uint n); try apply H. destruct Hx as [-> | ->]; reflexivity.
Qed.
Lemma number_inj i j : str (VNat i) = str (VNat j) -> i = j.
Proof.
  intros E. cbn in E. assert (N : forall n, Nat.to_uint n <> Decimal.Nil).
  { intros n. destruct n; [discriminate|]. intros X. pose proof (Unsigned.of_to (S n)) as Y. rewrite X in Y. discriminate. }
  pose proof (NilZero.usu (Nat.to_uint i) (N i)) as A. pose proof (NilZero.usu (Nat.to_uint j) (N j)) as B. rewrite E in A. rewrite A in B.
  injection B as B. rewrite <- (Unsigned.of_to i), <- (Unsigned.of_to j). congruence.
Qed.
Definition worker_name (w : nat) : string := ("worker_" ++ str (VNat w))%string.
Lemma worker_has x w : (x = "/" \/ x = ".")%char -> has x (worker_name w) = false.
Proof. intros Hx. unfold worker_name. rewrite has_app, (number_has x w Hx). destruct Hx as [-> | ->]; reflexivity. Qed.
Lemma join_worker p w : joinpath p (worker_name w) = Path (p_root p) (p_parts p ++ [worker_name w]).
Proof.
  unfold joinpath, to_path. rewrite split_none by (apply worker_has; auto). reflexivity.
Qed.
Lemma suffix_worker p w suf : with_suffix (Path (p_root p) (p_parts p ++ [worker_name w])) suf = Ok (Path (p_root p) (p_parts p ++ [(worker_name w ++ suf)%string])).
Proof.
  unfold with_suffix. cbn [p_parts p_root]. rewrite rev_app_distr. cbn [rev app]. rewrite rev_involutive.
  unfold stem. rewrite split_none by (apply worker_has; auto). reflexivity.
Qed.
Lemma ok_pair {A B} (a c : A) (b d : B) : Ok (Some (a, b)) = Ok (Some (c, d)) -> a = c /\ b = d.
Proof. intros E. injection E as -> ->. auto. Qed.
Lemma name_last r l x : name (Path r (l ++ [x])) = x.
Proof. unfold name. cbn [p_parts]. apply last_last. Qed.
Lemma sapp_inj_r a b c : (a ++ c = b ++ c -> a = b)%string.
Proof.
  revert b. assert (L : forall s t, String.length (s ++ t) = (String.length s + String.length t)%nat) by (induction s; cbn; congruence).
  induction a as [|x a IH]; intros [|y b] E; auto.
  - exfalso. apply (f_equal String.length) in E. rewrite !L in E. cbn in E. lia.
  - exfalso. apply (f_equal String.length) in E. rewrite !L in E. cbn in E. lia.
  - cbn in E. injection E as -> E. f_equal. auto.
Qed.
Lemma sapp_inj_l a b c : (c ++ a = c ++ b -> a = b)%string.
Proof. induction c as [|x c IH]; cbn; intros E; auto. injection E as E. auto. Qed.
Fixpoint last_char (s : string) : option ascii := match s with EmptyString => None | String x EmptyString => Some x | String _ r => last_char r end.
Lemma last_app a x s : last_char (a ++ String x s) = last_char (String x s).
Proof. induction a as [|y a IH]; auto. cbn [append last_char]. destruct (a ++ String x s)%string eqn:E; [destruct a; discriminate|exact IH]. Qed.
Lemma out_err a b : (a ++ ".out" <> b ++ ".err")%string.
Proof. intros E. apply (f_equal last_char) in E. rewrite !last_app in E. discriminate E. Qed.

(* C74: the context a worker gets (see C43_worker_context); the directory and the task id are any strings.  Without a log
   directory nothing is redirected.  Otherwise the output goes to <directory>/<task id>/worker_<n>.out and .err; no two workers of
   any two tasks and pools share a file, whatever their directories and tasks are called. *)
Definition the_context (logdir : value) (task_id : string) (w : nat) : context :=
  [("logdir", logdir); ("hostname", VStr "localhost"); ("port", VNat 4000); ("task_id", VStr task_id); ("worker_id", VStr (str (VNat w)))].
Theorem C74_log_files : 
  (forall t w here, worker_logs (the_context VNone t w) here w = Ok None) /\
  (forall dir t w here, exists out err, worker_logs (the_context (VStr dir) t w) here w = Ok (Some (out, err)) /\
     name out = ("worker_" ++ str (VNat w) ++ ".out")%string /\ name err = ("worker_" ++ str (VNat w) ++ ".err")%string /\
     (root_of t = "" -> out = Path (root_of dir) (p_parts (to_path dir) ++ p_parts (to_path t) ++ [name out]) /\
                        err = Path (root_of dir) (p_parts (to_path dir) ++ p_parts (to_path t) ++ [name err]))) /\
  (forall dir dir' t t' w w' here here' out err out' err', 
     worker_logs (the_context (VStr dir) t w) here w = Ok (Some (out, err)) ->
     worker_logs (the_context (VStr dir') t' w') here' w' = Ok (Some (out', err')) ->
     out <> err /\ out <> err' /\ err <> out' /\ (w <> w' -> out <> out' /\ err <> err')).
Proof.
  assert (X : forall dir t w here, exists p, joinpath (to_path dir) t = p /\ worker_logs (the_context (VStr dir) t w) here w =
    Ok (Some (Path (p_root p) (p_parts p ++ [(worker_name w ++ ".out")%string]), Path (p_root p) (p_parts p ++ [(worker_name w ++ ".err")%string])))).
  { intros dir t w here. exists (joinpath (to_path dir) t). split; auto. unfold worker_logs, the_context.
    cbn [Ctx.get String.eqb Ascii.eqb Bool.eqb set_log_basedir bind log_basename].
    change (("worker_" ++ str (VNat w))%string) with (worker_name w). rewrite join_worker. cbn [redirect].
    rewrite !suffix_worker. reflexivity. }
  split; [reflexivity|]. split.
  - intros dir t w here. destruct (X dir t w here) as [p [Ep E]]. eexists _, _. split; [exact E|].
    rewrite !name_last. unfold worker_name. rewrite !sapp_assoc. split; auto. split; auto.
    intros Rt. unfold joinpath in Ep. cbn [p_root to_path] in Ep. rewrite Rt in Ep. cbn in Ep. subst p. cbn [p_root p_parts]. rewrite <- !app_assoc. auto.
  - intros dir dir' t t' w w' here here' out err out' err' E E'.
    destruct (X dir t w here) as [p [_ Y]]. destruct (X dir' t' w' here') as [p' [_ Y']]. rewrite E in Y. rewrite E' in Y'.
    apply ok_pair in Y, Y'. destruct Y as [-> ->], Y' as [-> ->].
    split; [|split; [|split; [|intros W]]]; try (intros N; apply (f_equal name) in N; rewrite !name_last in N; eapply out_err; (exact N || (symmetry; exact N))).
    split; intros N; apply (f_equal name) in N; rewrite !name_last in N; apply sapp_inj_r in N; unfold worker_name in N;
      apply sapp_inj_l, number_inj in N; congruence.
Qed.
Print Assumptions C74_log_files.
(* the context is the one of C43 *)
Lemma the_context_ok logdir t w : worker_context logdir (VStr "localhost") (VStr t) 4000 w = Ok (the_context logdir t w).
Proof. unfold worker_context, ctx_set. destruct (number_clean w) as [H1 H2]. rewrite H1, H2. reflexivity. Qed.
(* A task id that is an absolute path takes the log files out of the log directory. *)
Theorem C74_absolute_task_refuted : exists out err,
  worker_logs (the_context (VStr "./daisy_logs") "/home/x/predict" 7) VNone 7 = Ok (Some (out, err)) /\
  out = Path "/" ["home"; "x"; "predict"; "worker_7.out"] /\ p_parts (to_path "./daisy_logs") = ["daisy_logs"].
Proof. eexists _, _. vm_compute. repeat split. Qed.
(* set_log_basedir(None) is documented to show all output on the command line; a worker that creates a Client has the log
   directory "None" from then on. *)
Theorem C74_no_directory_refuted : exists c, worker_context VNone (VStr "localhost") (VStr "predict") 4000 7 = Ok c /\
  client_basedir VNone (to_env c) = Ok (Some (Path "" ["None"])).
Proof. eexists. vm_compute. split; reflexivity. Qed.
Print Assumptions C74_absolute_task_refuted.
Print Assumptions C74_no_directory_refuted.
Example C74_example :
  worker_logs (the_context (VStr "./daisy_logs") "predict.v2/affs" 12) VNone 12 =
    Ok (Some (Path "" ["daisy_logs"; "predict.v2"; "affs"; "worker_12.out"], Path "" ["daisy_logs"; "predict.v2"; "affs"; "worker_12.err"])) /\
  stem "a.tar.gz" = "a.tar" /\ stem ".bashrc" = ".bashrc" /\ stem "x." = "x.".
Proof. vm_compute. repeat split. Qed.

(* The log files named in the execution summary (C79) *)
From Coq Require Import Arith Lia.
From Verif Require Import P_Ctx P_TaskFn LogNames.
Open Scope string_scope.
Open Scope list_scope.

(* ---- paths ---- *)
Definition part_ok (w : string) : Prop := w <> "" /\ w <> "." /\ has "/" w = false.
Definition path_ok (p : path) : Prop := (p_root p = "" \/ p_root p = "/" \/ p_root p = "//") /\ Forall part_ok (p_parts p).

Lemma to_path_ok s : path_ok (to_path s).
Proof.
  split.
  - cbn [to_path p_root]. unfold root_of. destruct (slashes s) as [|[|[|n]]]; auto.
  - cbn [to_path p_parts]. apply Forall_forall. intros w Hw. apply filter_In in Hw. destruct Hw as [Hw E].
    apply andb_prop in E. destruct E as [E1 E2]. apply Bool.negb_true_iff in E1, E2. apply String.eqb_neq in E1, E2.
    split; auto. split; auto. apply (split_clean "/" s w Hw).
Qed.
Lemma join_ok p s : path_ok p -> path_ok (joinpath p s).
Proof.
  intros [A B]. unfold joinpath. destruct (String.eqb (p_root (to_path s)) "").
  - split; auto. cbn [p_parts]. apply Forall_app. split; auto. apply (to_path_ok s).
  - apply to_path_ok.
Qed.
Lemma split_concat' x l : l <> [] -> (forall w, In w l -> has x w = false) -> Ctx.split x (String.concat (String x "") l) = l.
Proof.
  induction l as [|w l IH]; intros N H; [congruence|]. cbn [String.concat]. destruct l as [|v l].
  - apply split_none. apply H. left; auto.
  - change (w ++ String x "" ++ String.concat (String x "") (v :: l))%string with (w ++ String x (String.concat (String x "") (v :: l)))%string.
    rewrite split_sep by (apply H; left; auto). f_equal. apply IH; [discriminate|]. intros u Hu. apply H. right. auto.
Qed.
Lemma slashes_part w s : part_ok w -> slashes (w ++ s) = 0%nat.
Proof.
  intros [N [_ H]]. destruct w as [|c w]; [congruence|]. cbn [has] in H. apply Bool.orb_false_elim in H. destruct H as [H _].
  cbn [append slashes]. destruct c as [[] [] [] [] [] [] [] []]; cbn in *; auto; discriminate.
Qed.
Lemma slashes_concat l : Forall part_ok l -> slashes (String.concat "/" l) = 0%nat.
Proof.
  intros F. destruct F as [|w l Hw F]; [reflexivity|]. cbn [String.concat]. destruct l as [|v l].
  - rewrite <- (sapp_nil w). apply slashes_part. auto.
  - apply slashes_part. auto.
Qed.
Lemma filter_parts l : Forall part_ok l -> filter (fun w => negb (String.eqb w "") && negb (String.eqb w ".")) l = l.
Proof.
  induction 1 as [|w l [A [B _]] F IH]; [reflexivity|]. cbn [filter].
  apply String.eqb_neq in A, B. rewrite A, B. cbn. rewrite IH. auto.
Qed.
Lemma concat_nil l : Forall part_ok l -> String.concat "/" l = "" -> l = [].
Proof.
  intros F E. destruct F as [|w l [Hw _] F]; auto. cbn [String.concat] in E. destruct l as [|v l]; [congruence|].
  destruct w; [congruence|]. discriminate.
Qed.
Lemma slashes_root r : r = "" \/ r = "/" \/ r = "//" -> forall s, slashes s = 0%nat -> root_of (r ++ s) = r.
Proof. intros [-> | [-> | ->]] s E; unfold root_of; cbn; rewrite E; auto. Qed.
(* the string of a path is read as the same path *)
Lemma path_round p : path_ok p -> to_path (path_str p) = p.
Proof.
  intros [R F]. destruct p as [r l]. cbn [p_root p_parts] in *. unfold path_str. cbn [p_root p_parts].
  destruct l as [|w l].
  - destruct R as [-> | [-> | ->]]; reflexivity.
  - assert (E : (match r ++ String.concat "/" (w :: l) with EmptyString => "." | s => s end = r ++ String.concat "/" (w :: l))%string).
    { destruct (r ++ String.concat "/" (w :: l))%string eqn:E; auto. exfalso.
      assert (X : String.concat "/" (w :: l) = "") by (destruct R as [-> | [-> | ->]]; try discriminate E; exact E).
      apply concat_nil in X; auto. discriminate. }
    rewrite E. clear E. unfold to_path. rewrite (slashes_root r R _ (slashes_concat _ F)). f_equal.
    assert (S : Ctx.split "/" (String.concat "/" (w :: l)) = w :: l).
    { apply (split_concat' "/"); [discriminate|]. intros u Hu. rewrite Forall_forall in F. apply (F u Hu). }
    destruct R as [-> | [-> | ->]]; cbn [append Ctx.split Ascii.eqb Bool.eqb]; rewrite S; exact (filter_parts _ F).
Qed.
Lemma concat_suffix l x suf : (String.concat "/" (l ++ [x]) ++ suf = String.concat "/" (l ++ [(x ++ suf)%string]))%string.
Proof.
  induction l as [|w l IH]; [reflexivity|]. cbn [app String.concat]. destruct l as [|v l]; cbn [app] in *.
  - rewrite !sapp_assoc. reflexivity.
  - rewrite <- IH. rewrite !sapp_assoc. reflexivity.
Qed.
Lemma str_suffix r l x suf : x <> "" -> (path_str (Path r (l ++ [x])) ++ suf = path_str (Path r (l ++ [(x ++ suf)%string])))%string.
Proof.
  intros N. unfold path_str. cbn [p_root p_parts].
  assert (E : forall y, y <> "" -> (match r ++ String.concat "/" (l ++ [y]) with EmptyString => "." | s => s end = r ++ String.concat "/" (l ++ [y]))%string).
  { intros y Ny. destruct (r ++ String.concat "/" (l ++ [y]))%string eqn:E; auto. exfalso. destruct r; [|discriminate].
    cbn [append] in E. destruct l as [|w l]; cbn [app String.concat] in E; [congruence|].
    destruct (l ++ [y]) eqn:El; [destruct l; discriminate|]. destruct w; discriminate. }
  rewrite (E x N), (E (x ++ suf)%string) by (destruct x; [congruence|discriminate]). rewrite <- concat_suffix, sapp_assoc. reflexivity.
Qed.

Lemma worker_ok w : part_ok (worker_name w).
Proof. split; [discriminate|]. split; [discriminate|]. apply worker_has. auto. Qed.
Lemma worker_suffix_ok w suf : has "/" suf = false -> part_ok (worker_name w ++ suf)%string.
Proof.
  intros H. split; [discriminate|]. split; [discriminate|]. rewrite has_app, H. rewrite worker_has by auto. reflexivity.
Qed.
Lemma reads r l w suf : path_ok (Path r l) -> has "/" suf = false ->
  to_path (path_str (Path r (l ++ [worker_name w])) ++ suf) = Path r (l ++ [(worker_name w ++ suf)%string]).
Proof.
  intros [A B] H. rewrite str_suffix by discriminate. apply path_round. split; auto. cbn [p_parts] in *. apply Forall_app. split; auto.
  constructor; [apply worker_suffix_ok; auto|constructor].
Qed.

(* C79.  The log directory of the server's process was set to [dir]; a worker has the context the task's pool gives it, in which
   str(LOG_BASEDIR) stands, and reports failures with the context it read from its environment.  For such a failure the
   summary prints "<name>.err / .out", and <name>.err and <name>.out, read as paths, are the two files the worker opened. *)
Theorem C79_names_the_logs : forall dir t w port host here here' c cc,
  clean (path_str (to_path dir)) -> clean t -> clean host ->
  worker_context (VStr (path_str (to_path dir))) (VStr host) (VStr t) port w = Ok c ->
  from_env here (to_env c) = Ok cc ->
  exists id base out err,
    reported_worker cc = Ok (VStr id) /\
    log_line (Some (to_path dir)) id t = (base ++ ".err / .out")%string /\
    worker_logs c here' w = Ok (Some (out, err)) /\
    out = to_path (base ++ ".out") /\ err = to_path (base ++ ".err").
Proof.
  intros dir t w port host here here' c cc Cd Ct Ch Ec Er.
  destruct (C43_worker_context (VStr (path_str (to_path dir))) (VStr host) (VStr t) port w here) as [c' [Ec' R]].
  rewrite Ec in Ec'. injection Ec' as <-. destruct R as [_ R]. rewrite R in Er by auto. injection Er as <-. clear R.
  unfold worker_context, ctx_set in Ec. destruct (number_clean w) as [H1 H2]. rewrite H1, H2 in Ec.
  cbn [has Ascii.eqb orb Bool.eqb] in Ec. cbn -[str path_str to_path] in Ec. injection Ec as <-.
  set (p := joinpath (to_path dir) t).
  assert (P : path_ok p) by (apply join_ok, to_path_ok).
  exists (str (VNat w)), (path_str (Path (p_root p) (p_parts p ++ [worker_name w]))), 
    (Path (p_root p) (p_parts p ++ [(worker_name w ++ ".out")%string])), (Path (p_root p) (p_parts p ++ [(worker_name w ++ ".err")%string])).
  split; [reflexivity|]. split.
  { unfold log_line, log_basename_for, opt_str. change ("worker_" ++ str (VNat w))%string with (worker_name w). fold p.
    rewrite join_worker. reflexivity. }
  split.
  { unfold worker_logs. cbn -[str path_str to_path joinpath append with_suffix]. change ("worker_" ++ str (VNat w))%string with (worker_name w).
    rewrite (path_round _ (to_path_ok dir)). fold p. rewrite join_worker. cbn [redirect]. rewrite !suffix_worker. reflexivity. }
  destruct p as [r l]. split; symmetry; apply reads; auto.
Qed.
Print Assumptions C79_names_the_logs.

(* Up to ten failures get one line each, in their order; beyond that ten lines and an ellipsis are printed.  Lines of different
   workers differ. *)
Theorem C79_lines : forall dir t ws,
  let lines := log_lines (Some (to_path dir)) t (map (fun w => str (VNat w)) ws) in
  (forall i w, (i < 10)%nat -> nth_error ws i = Some w -> nth_error lines i = Some (log_line (Some (to_path dir)) (str (VNat w)) t)) /\
  ((List.length ws <= 10)%nat -> List.length lines = List.length ws) /\
  ((10 < List.length ws)%nat -> List.length lines = 11%nat /\ nth_error lines 10 = Some "...") /\
  forall w w', log_line (Some (to_path dir)) (str (VNat w)) t = log_line (Some (to_path dir)) (str (VNat w')) t -> w = w'.
Proof.
  intros dir t ws lines. unfold lines. clear lines. unfold log_lines. rewrite map_length. split; [|split; [|split]].
  - intros i w Hi E. rewrite nth_error_app1.
    + rewrite firstn_map, map_map. apply map_nth_error with (f := fun w => log_line (Some (to_path dir)) (str (VNat w)) t).
      revert ws E Hi. generalize 10%nat as n. revert i. clear. induction i as [|i IH]; intros [|n] [|x ws] E H; try lia; try discriminate; auto.
      cbn in *. apply IH; [auto|lia].
    + rewrite map_length, firstn_length, map_length. assert (nth_error ws i <> None) by congruence. apply nth_error_Some in H. lia.
  - intros L. destruct (Nat.ltb_spec 10 (List.length ws)); [lia|]. rewrite app_nil_r, map_length, firstn_length, map_length. lia.
  - intros L. destruct (Nat.ltb_spec 10 (List.length ws)); [|lia].
    assert (E : List.length (map (fun w => log_line (Some (to_path dir)) w t) (firstn 10 (map (fun w => str (VNat w)) ws))) = 10%nat).
    { rewrite map_length, firstn_length, map_length. lia. }
    rewrite app_length, E. split; [reflexivity|]. rewrite nth_error_app2 by lia. rewrite E. reflexivity.
  - intros w w' E. unfold log_line in E. apply sapp_inj_r in E. unfold log_basename_for, opt_str in E.
    change ("worker_" ++ str (VNat w))%string with (worker_name w) in E. change ("worker_" ++ str (VNat w'))%string with (worker_name w') in E.
    set (p := joinpath (to_path dir) t) in *. assert (P : path_ok p) by (apply join_ok, to_path_ok).
    apply (f_equal to_path) in E. rewrite !path_round in E by (apply join_ok; auto). rewrite !join_worker in E.
    apply (f_equal name) in E. rewrite !name_last in E. unfold worker_name in E. apply sapp_inj_l, number_inj in E. auto.
Qed.
Print Assumptions C79_lines.

(* Without a log directory the output of the workers is not redirected, and yet the summary refers to a file: *)
Theorem C79_no_directory_refuted : forall t w here,
  worker_logs (the_context VNone t w) here w = Ok None /\ log_line None (str (VNat w)) t = "None.err / .out".
Proof. intros. split; reflexivity. Qed.
Print Assumptions C79_no_directory_refuted.

Example C79_example : exists c cc,
  worker_context (VStr (path_str (to_path "//data/./logs/"))) (VStr "10.0.0.1") (VStr "predict.v2/affs") 4000 12 = Ok c /\
  from_env (VStr "daisy_logs") (to_env c) = Ok cc /\ reported_worker cc = Ok (VStr "12") /\
  log_line (Some (to_path "//data/./logs/")) "12" "predict.v2/affs" = "//data/logs/predict.v2/affs/worker_12.err / .out" /\
  worker_logs c VNone 12 = Ok (Some (Path "//" ["data"; "logs"; "predict.v2"; "affs"; "worker_12.out"],
                                     Path "//" ["data"; "logs"; "predict.v2"; "affs"; "worker_12.err"])) /\
  log_lines (Some (to_path "./daisy_logs")) "t" ["3"; "4"; "3"] =
    ["daisy_logs/t/worker_3.err / .out"; "daisy_logs/t/worker_4.err / .out"; "daisy_logs/t/worker_3.err / .out"].
Proof. eexists _, _. vm_compute. repeat split. Qed.

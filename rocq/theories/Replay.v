(* Tests (not proofs): what the tests of /repo/tests assert of the scheduler holds of the model. *)
From Verif Require Import DGraph Sanity.
Open Scope Z_scope.

Definition rp_idt (l : list nat) : list nat := l.
(* a call of scheduler.acquire_block, or of scheduler.release_block for a block acquired before *)
Inductive rp_call := Get (t : nat) | Put (t : nat) (n : Z) (s : status).
(* the numbers of the blocks acquired, None for None; the state at the end *)
Definition rp_step (d : dgraph) (acc : sched * list (option Z) * list block) (c : rp_call) : res (sched * list (option Z) * list block) :=
  let '(s, out, got) := acc in
  let up := dg_up idl rp_idt d in let down := dg_down idl rp_idt d in let maxr := dg_max_retries d in
  match c with
  | Get t => '(s', r, _) <- acquire_block up down maxr 1000 (fun _ _ => CheckFalse) s t ;;
             match r with
             | None => Ok (s', out ++ [None], got)
             | Some pb => Ok (s', out ++ [Some (b_num (pb_block pb))], pb_block pb :: got)
             end
  | Put t n st => match List.find (fun b => Nat.eqb (b_task b) t && (b_num b =? n)) got with
                  | Some b => s' <- release_block up down maxr 1000 (fun _ _ => O) s (PB b st) ;; Ok (s', out, got)
                  | None => Err KeyError
                  end
  end.
Definition rp_run (tasks : list task) (cs : list rp_call) : res (sched * list (option Z)) :=
  '(d, s) <- sched_init tasks ;;
  '(s', out, _) <- foldM (fun a c => rp_step d a c) cs (s, [], []) ;;
  Ok (s', out).
Definition rp_got tasks cs : res (list (option Z)) := '(_, o) <- rp_run tasks cs ;; Ok o.
Definition rp_state tasks cs t : res tstate := '(s, _) <- rp_run tasks cs ;; Ok (s_st s t).
Definition gets (t n : nat) : list rp_call := repeat (Get t) n.
Definition puts (t : nat) (s : status) (l : list Z) : list rp_call := map (fun n => Put t n s) l.
Definition somes (l : list Z) : list (option Z) := map Some l.

(* test_scheduler.py:39-67, 177-196, 199-210 *)
Definition rp_1d (conflict : bool) : task := Task 1 (Roi [0] [4]) (Roi [0] [3]) (Roi [1] [1]) conflict Valid 1 2 [].
Example rp_no_conflicts : rp_got [rp_1d false] (gets 1 2) = Ok [Some 1; Some 2].
Proof. vm_compute. reflexivity. Qed.
Example rp_simple_acquire : rp_got [rp_1d true] (gets 1 1) = Ok [Some 2].
Proof. vm_compute. reflexivity. Qed.
(* 213-236; the second block is tried three times *)
Definition rp_retry_calls : list rp_call :=
  [Get 1; Put 1 2 FAILED; Get 1; Put 1 2 SUCCESS; Get 1; Put 1 1 FAILED; Get 1; Put 1 1 FAILED; Get 1; Put 1 1 FAILED; Get 1].
Example rp_retries : rp_got [rp_1d true] rp_retry_calls = Ok [Some 2; Some 2; Some 1; Some 1; Some 1; None] /\
  rp_state [rp_1d true] rp_retry_calls 1 = Ok (TState true 2 0 0 1 0 1 0).
Proof. vm_compute. auto. Qed.
(* 239-252 *)
Definition rp_orphan_calls : list rp_call := [Get 1; Put 1 2 FAILED; Get 1; Put 1 2 FAILED; Get 1; Put 1 2 FAILED; Get 1].
Example rp_orphans : rp_got [rp_1d true] rp_orphan_calls = Ok [Some 2; Some 2; Some 2; None] /\
  rp_state [rp_1d true] rp_orphan_calls 1 = Ok (TState true 2 0 0 0 0 1 1).
Proof. vm_compute. auto. Qed.
(* 255-269 *)
Example rp_simple_release : rp_got [rp_1d true] [Get 1; Put 1 2 SUCCESS; Get 1] = Ok [Some 2; Some 1].
Proof. vm_compute. reflexivity. Qed.
(* 272-331 *)
Definition rp_level (l : list Z) : list rp_call := gets 1 5 ++ puts 1 SUCCESS l.
Definition rp_2d_calls : list rp_call :=
  rp_level [12; 23; 25; 40] ++ rp_level [8; 17; 19; 32] ++ rp_level [7; 16; 18; 31] ++ rp_level [4; 11; 13; 24].
Example rp_complete_task :
  rp_got [tst_2d] rp_2d_calls = Ok (somes [12; 23; 25; 40] ++ [None] ++ somes [8; 17; 19; 32] ++ [None] ++
                                    somes [7; 16; 18; 31] ++ [None] ++ somes [4; 11; 13; 24] ++ [None]) /\
  bind (rp_state [tst_2d] rp_2d_calls 1) (fun s => Ok (ts_is_done s)) = Ok true.
Proof. vm_compute. auto. Qed.

(* 96-125 chained_task *)
Definition rp_second : task := Task 2 (Roi [1; 1] [4; 4]) (Roi [0; 0] [3; 3]) (Roi [1; 1] [1; 1]) true Valid 1 2 [tst_2d].
(* 334-361 and 364-385 *)
Definition rp_test_block (total : roi) (t : nat) : block := mk_block total (Roi [2; 2] [3; 3]) (Roi [3; 3] [1; 1]) t.
(* the tests compare sets *)
Definition rp_same (l m : list (nat * Z)) : bool :=
  Nat.eqb (length l) (length m) && forallb (fun x => existsb (bid_eqb x) m) l && forallb (fun x => existsb (bid_eqb x) l) m.
Example rp_downstream :
  ('(d, _) <- sched_init [rp_second] ;; Ok (rp_same (map bid (dg_up idl rp_idt d (rp_test_block (Roi [1; 1] [4; 4]) 2)))
     (map (fun n => (1%nat, n)) [12; 17; 23; 18; 24; 31; 25; 32; 40]))) = Ok true.
Proof. vm_compute. reflexivity. Qed.
Example rp_upstream :
  ('(d, _) <- sched_init [rp_second] ;; Ok (rp_same (map bid (dg_down idl rp_idt d (rp_test_block (Roi [0; 0] [6; 6]) 1)))
     (map (fun n => (2%nat, n)) [4; 7; 8; 12]))) = Ok true.
Proof. vm_compute. reflexivity. Qed.
(* 388-478; the test does not look at the number of the block that releasing (first, 13) frees *)
Definition rp_lvl (l : list Z) : list rp_call := gets 1 4 ++ puts 1 SUCCESS l ++ [Get 2].
Definition rp_chain_1 : list rp_call :=
  rp_lvl [12; 23; 25; 40] ++ rp_lvl [8; 17; 19; 32] ++ rp_lvl [7; 16; 18; 31] ++ gets 1 4 ++
  [Put 1 24 SUCCESS; Get 2; Put 2 12 SUCCESS; Put 1 13 SUCCESS; Get 2; Put 2 8 SUCCESS; Put 1 11 SUCCESS; Get 2; Put 2 7 SUCCESS; Put 1 4 SUCCESS].
Definition rp_chain_2 : list rp_call := rp_chain_1 ++ [Get 2; Put 2 4 SUCCESS].
Example rp_chained :
  rp_got [rp_second] rp_chain_2 = Ok (somes [12; 23; 25; 40] ++ [None] ++ somes [8; 17; 19; 32] ++ [None] ++ somes [7; 16; 18; 31] ++ [None] ++
    somes [4; 11; 13; 24] ++ somes [12; 8; 7; 4]) /\
  bind (rp_state [rp_second] rp_chain_1 1) (fun s => Ok (ts_is_done s)) = Ok true /\
  bind (rp_state [rp_second] rp_chain_2 2) (fun s => Ok (ts_is_done s)) = Ok true.
Proof. vm_compute. auto. Qed.

(* loops of the tests: acquire from the first of the tasks that has a block, release it with this status; at most n times.
   The number of blocks done, and the state. *)
Fixpoint rp_first (d : dgraph) (ts : list nat) (s : sched) : res (sched * option pyblock) :=
  match ts with
  | [] => Ok (s, None)
  | t :: r => '(s', o, _) <- acquire_block (dg_up idl rp_idt d) (dg_down idl rp_idt d) (dg_max_retries d) (100 * 100) (fun _ _ => CheckFalse) s t ;;
              match o with None => rp_first d r s' | Some pb => Ok (s', Some pb) end
  end.
Fixpoint rp_loop (d : dgraph) (ts : list nat) (st : status) (n : nat) (s : sched) (k : Z) : res (Z * sched) :=
  match n with
  | O => Ok (k, s)
  | S n => '(s', o) <- rp_first d ts s ;;
           match o with
           | None => Ok (k, s')
           | Some pb => s'' <- release_block (dg_up idl rp_idt d) (dg_down idl rp_idt d) (dg_max_retries d) (100 * 100) (fun _ _ => O) s' (PB (pb_block pb) st) ;;
                        rp_loop d ts st n s'' (k + 1)
           end
  end.
Definition rp_all (tasks : list task) (ts : list nat) (st : status) (n : nat) : res (Z * list tstate) :=
  '(d, s) <- sched_init tasks ;; '(k, s') <- rp_loop d ts st n s 0 ;; Ok (k, map (s_st s') ts).

(* 128-156, 481-502 *)
Definition rp_o (n : nat) (ups : list task) : task := Task n (Roi [0] [100]) (Roi [0] [10]) (Roi [1] [8]) true Valid 1 2 ups.
Example rp_overlapping : rp_all [rp_o 2 [rp_o 1 []]] [1; 2]%nat SUCCESS 24 = Ok (24, [TState true 12 0 0 12 0 0 0; TState true 12 0 0 12 0 0 0]).
Proof. vm_compute. reflexivity. Qed.

(* 17-36, 505-518 and 521-540 *)
Definition rp_zero : task := Task 1 (Roi [0; 0] [10; 10]) (Roi [0; 0] [9; 9]) (Roi [4; 4] [1; 1]) true Overhang 1 0 [].
Example rp_zero_levels :
  map (fun n => bind (rp_all [rp_zero] [1%nat] SUCCESS n) (fun r => Ok (fst r, map ts_ready (snd r)))) [0; 1; 2; 3; 4; 5]%nat =
  [Ok (0, [1]); Ok (1, [1]); Ok (2, [1]); Ok (3, [1]); Ok (4, [0]); Ok (4, [0])].
Proof. vm_compute. reflexivity. Qed.
Example rp_zero_levels_failure : rp_all [rp_zero] [1%nat] FAILED 5 = Ok (1, [TState true 4 0 0 0 0 1 3]).
Proof. vm_compute. reflexivity. Qed.

(* 543-574: every attempt of every block fails *)
Definition rp_double : task := Task 1 (Roi [0; 0] [25; 25]) (Roi [0; 0] [7; 7]) (Roi [3; 3] [1; 1]) true Valid 1 2 [].
Example rp_double_counting : rp_all [rp_double] [1%nat] FAILED 2000 = Ok (48, [TState true 361 0 0 0 0 16 345]).
Proof. vm_compute. reflexivity. Qed.

(* test_dependency_graph.py:86-130 *)
Definition rp_sub : task := Task 1 (Roi [0; 0] [16; 16]) (Roi [0; 0] [4; 4]) (Roi [1; 1] [2; 2]) true Valid 1 2 [].
Example rp_subgraph :
  (g <- task_graph rp_sub ;; Ok (map (fun b => (b_read b, b_write b)) (get_subgraph_blocks g (Roi [6; 6] [3; 3]) false))) =
  Ok [(Roi [4; 4] [4; 4], Roi [5; 5] [2; 2]); (Roi [4; 6] [4; 4], Roi [5; 7] [2; 2]);
      (Roi [6; 4] [4; 4], Roi [7; 5] [2; 2]); (Roi [6; 6] [4; 4], Roi [7; 7] [2; 2])].
Proof. vm_compute. reflexivity. Qed.
(* 133-155, for all blocks, not just the first level *)
Definition rp_shrink : task := Task 1 (Roi [0] [100]) (Roi [0] [7]) (Roi [1] [5]) true Shrink 1 2 [].
Example rp_equivalence :
  (g <- task_graph rp_shrink ;;
   bs <- mapM (level_blocks g) (seq 0 (num_levels g)) ;;
   bad <- mapM (fun b => ds <- downstream idl g b ;; us <- mapM (upstream idl g) ds ;;
            Ok (@length (list block) (filter (fun u : list block => negb (existsb (fun x => bid_eqb (bid x) (bid b)) u)) us), @length block ds)) (concat bs) ;;
   Ok (map (@length block) bs, map fst bad, fold_left Nat.add (map snd bad) O)) =
  Ok ([10; 10]%nat, repeat O 20, 19%nat).
Proof. vm_compute. reflexivity. Qed.

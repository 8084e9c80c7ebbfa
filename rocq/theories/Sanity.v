(* Tests (not proofs): the model reproduces numbers quoted in /repo/tests. *)
From Verif Require Import DGraph.
Open Scope Z_scope.

Definition idl (l : list block) : list block := l.

(* tests/test_scheduler.py:70-93 task_2d *)
Definition tst_2d : task :=
  Task 1 (Roi [0; 0] [6; 6]) (Roi [0; 0] [3; 3]) (Roi [1; 1] [1; 1]) true Valid 1 2 [].
Example tst_2d_levels :
  (g <- task_graph tst_2d ;;
   a <- level_blocks g 0 ;; b <- level_blocks g 1 ;; c <- level_blocks g 2 ;;
   d <- level_blocks g 3 ;;
   n <- num_blocks g ;;
   Ok (map (map b_num) [a; b; c; d], n))
  = Ok ([[12; 23; 25; 40]; [8; 17; 19; 32]; [7; 16; 18; 31]; [4; 11; 13; 24]], 16).
Proof. vm_compute. reflexivity. Qed.

(* tests/test_dependency_graph.py:12-56 *)
Definition tst_dg (small : bool) (f : fit) : task :=
  Task 1 (Roi [0] [12]) (Roi [0] [5]) (if small then Roi [2] [1] else Roi [1] [3])
       true f 1 2 [].
Example tst_dg_counts :
  map (fun t => g <- task_graph t ;;
                n <- num_blocks g ;;
                e <- enumerate_all_dependencies idl g ;;
                Ok (n, length e))
      [tst_dg true Valid; tst_dg false Valid; tst_dg true Overhang; tst_dg false Overhang;
       tst_dg true Shrink; tst_dg false Shrink]
  = [Ok (8, 8%nat); Ok (3, 3%nat); Ok (8, 8%nat); Ok (4, 4%nat); Ok (8, 8%nat); Ok (4, 4%nat)].
Proof. vm_compute. reflexivity. Qed.

(* Model of BlockwiseDependencyGraph, daisy/dependency_graph.py:16-554. *)
From Verif Require Export Py Geom Block.
Open Scope Z_scope.

(* The three legal values of the [fit] argument (dependency_graph.py:50-85).  Any other
   string makes inclusion_criteria raise KeyError; not modelled. *)
Inductive fit := Valid | Overhang | Shrink.

Definition fit_eqb (a b : fit) : bool :=
  match a, b with
  | Valid, Valid | Overhang, Overhang | Shrink, Shrink => true
  | _, _ => false
  end.

(* The attributes set by __init__ (dependency_graph.py:97-145). *)
Record bgraph := BGraph {
  g_tid : nat;
  g_bread : roi;
  g_bwrite : roi;
  g_ctx : coord * coord;           (* read_write_context *)
  g_tread : roi;                   (* total_read_roi *)
  g_twrite : roi;                  (* total_write_roi *)
  g_rwc : bool;                    (* read_write_conflict *)
  g_fit : fit;
  g_round : coord;                 (* rounding_term *)
  g_stride : coord;                (* _level_stride *)
  g_loffs : list coord;            (* _level_offsets *)
  g_lconf : list (list coord)      (* _level_conflicts *)
}.

(* dependency_graph.py:312-374 compute_level_stride *)
Definition compute_level_stride (bread bwrite twrite : roi) (rwc : bool) (f : fit) : res coord :=
  if negb rwc then Ok (shape bwrite)                                    (* 317-318 *)
  else if negb (contains_roi bread bwrite) then Err AssertionError      (* 326-328 *)
  else
    let context_ul := csub (rbegin bwrite) (rbegin bread) in            (* 330 *)
    let context_lr := csub (rend bread) (rend bwrite) in                (* 331 *)
    let max_context := cmax context_ul context_lr in                    (* 333-335 *)
    let min_level_stride := cadd max_context (shape bwrite) in          (* 341 *)
    let level_stride :=
      map2 (fun l w => ((l - 1) / w + 1) * w) min_level_stride (shape bwrite) in  (* 347-353 *)
    let write_roi_shape :=                                              (* 358-366 *)
      if fit_eqb f Valid then
        csub (shape twrite) (cmod (shape twrite) (shape bwrite))
      else
        cadd (shape twrite) (cmod (cmod (cneg (shape twrite)) (shape bwrite)) (shape bwrite)) in
    Ok (cmin level_stride write_roi_shape).                             (* 368-374 *)

(* dependency_graph.py:376-397 compute_level_offsets *)
Definition compute_level_offsets (bwrite : roi) (stride : coord) : list coord :=
  rev (product (map2 (fun e step => py_range 0 e step) stride (shape bwrite))).

(* dependency_graph.py:462-468 get_offsets *)
Definition get_offsets (op ls : Z) : list Z :=
  if op <? 0 then [op; op + ls]
  else if op =? 0 then [op]
  else [op - ls; op].

(* dependency_graph.py:455-477 get_conflict_offsets *)
Definition get_conflict_offsets (level_offset prev_level_offset stride : coord) : list coord :=
  product (map2 get_offsets (csub prev_level_offset level_offset) stride).

(* dependency_graph.py:407-417: the loop, with prev_level_offset as argument *)
Fixpoint level_conflicts_from (rwc : bool) (stride : coord) (prev : option coord)
  (offs : list coord) : list (list coord) :=
  match offs with
  | [] => []
  | lo :: r =>
      (match prev with
       | Some p => if rwc then get_conflict_offsets lo p stride else []
       | None => []
       end) :: level_conflicts_from rwc stride (Some lo) r
  end.

(* dependency_graph.py:399-419 compute_level_conflicts *)
Definition compute_level_conflicts (rwc : bool) (stride : coord) (offs : list coord)
  : list (list coord) := level_conflicts_from rwc stride None offs.

(* dependency_graph.py:97-145 once total_read_roi and total_write_roi are known *)
Definition finish_graph (tid : nat) (bread bwrite : roi) (rwc : bool) (f : fit)
  (ctx : coord * coord) (tread twrite : roi) : res bgraph :=
  let round :=                                                          (* 135-140 *)
    match f with
    | Overhang | Shrink => map (fun _ => 1) (shape bwrite)
    | Valid => shape bwrite
    end in
  stride <- compute_level_stride bread bwrite twrite rwc f ;;           (* 143 *)
  let offs := compute_level_offsets bwrite stride in                    (* 144 *)
  let conf := compute_level_conflicts rwc stride offs in                (* 145 *)
  Ok (BGraph tid bread bwrite ctx tread twrite rwc f round stride offs conf).

(* dependency_graph.py:87-145 __init__ *)
Definition bgraph_init (tid : nat) (bread bwrite : roi) (rwc : bool) (f : fit)
  (total_read total_write : option roi) : res bgraph :=
  let ctx := (csub (rbegin bwrite) (rbegin bread), csub (rend bread) (rend bwrite)) in (* 99-102 *)
  match total_read, total_write with                                    (* 104-127 *)
  | Some tr, Some tw =>
      let tctx := (csub (rbegin tw) (rbegin tr), csub (rend tr) (rend tw)) in
      if coord_eqb (fst tctx) (fst ctx) && coord_eqb (snd tctx) (snd ctx)
      then finish_graph tid bread bwrite rwc f ctx tr (grow tr (cneg (fst ctx)) (cneg (snd ctx)))
      else Err AssertionError
  | Some tr, None =>
      finish_graph tid bread bwrite rwc f ctx tr (grow tr (cneg (fst ctx)) (cneg (snd ctx)))
  | None, Some tw =>
      finish_graph tid bread bwrite rwc f ctx (grow tw (fst ctx) (snd ctx)) tw
  | None, None => Err ValueError
  end.

(* dependency_graph.py:147-149 *)
Definition num_levels (g : bgraph) : nat := length (g_loffs g).

(* dependency_graph.py:479-480 shrink_possible *)
Definition shrink_possible (g : bgraph) (b : block) : bool :=
  contains_pt (g_twrite g) (rbegin (b_write b)).

(* dependency_graph.py:158-166 inclusion_criteria *)
Definition inclusion (g : bgraph) (b : block) : bool :=
  match g_fit g with
  | Valid => contains_roi (g_twrite g) (b_write b)
  | Overhang => contains_pt (g_twrite g) (rbegin (b_write b))
  | Shrink => shrink_possible g b
  end.

(* dependency_graph.py:482-493 shrink *)
Definition shrink (g : bgraph) (b : block) : block :=
  Block (b_task b) (b_num b)
        (intersect (g_tread g) (b_read b))
        (intersect (g_twrite g) (b_write b))
        (b_req b).

(* dependency_graph.py:168-177 fit_block *)
Definition fit_block (g : bgraph) (b : block) : block :=
  match g_fit g with
  | Valid => b
  | Overhang => b
  | Shrink => shrink g b
  end.

(* dependency_graph.py:182-206 _num_level_blocks *)
Definition num_level_blocks (g : bgraph) (level : nat) : res Z :=
  lo <- py_nth (g_loffs g) level ;;
  Ok (fold_left Z.mul
        (map4 (fun lo e s r => (e - lo + s - r) / s)
              lo (shape (g_twrite g)) (g_stride g) (g_round g)) 1).

(* dependency_graph.py:151-156 num_blocks *)
Definition num_blocks (g : bgraph) : res Z :=
  foldM (fun n level => k <- num_level_blocks g level ;; Ok (n + k)) (seq 0 (num_levels g)) 0.

(* dependency_graph.py:179-180 *)
Definition num_roots (g : bgraph) : res Z := num_level_blocks g 0.

(* dependency_graph.py:421-441 _compute_level_block_offsets *)
Definition level_block_offsets (g : bgraph) (level : nat) : res (list coord) :=
  lo <- py_nth (g_loffs g) level ;;
  Ok (map (fun o => cadd o (csub (rbegin (g_tread g)) (rbegin (g_bread g))))
          (product (map4 (fun lo e s r => py_range lo (e + 1 - r) s)
                         lo (shape (g_twrite g)) (g_stride g) (g_round g)))).

(* dependency_graph.py:210-215: the block at a given offset *)
Definition block_at (g : bgraph) (block_offset : coord) : block :=
  mk_block (g_tread g) (rshift (g_bread g) block_offset) (rshift (g_bwrite g) block_offset)
           (g_tid g).

(* dependency_graph.py:208-222 level_blocks (the generator's output as a list) *)
Definition level_blocks (g : bgraph) (level : nat) : res (list block) :=
  offs <- level_block_offsets g level ;;
  mapM (fun o => let b := block_at g o in
                 if inclusion g b then Ok (fit_block g b) else Err RuntimeError) offs.

(* dependency_graph.py:224-227 root_gen *)
Definition root_gen (g : bgraph) : res (list block) :=
  bs <- level_blocks g 0 ;;
  Ok (map (fit_block g) bs).

(* dependency_graph.py:229-232 _block_offset *)
Definition block_offset (g : bgraph) (b : block) : coord :=
  csub (offset (b_read b)) (offset (g_tread g)).

Fixpoint find_index (x : coord) (l : list coord) (i : nat) : option nat :=
  match l with
  | [] => None
  | y :: r => if coord_eqb x y then Some i else find_index x r (S i)
  end.

(* dependency_graph.py:234-243 _level *)
Definition level_of (g : bgraph) (b : block) : res nat :=
  match find_index (cmod (block_offset g b) (g_stride g)) (g_loffs g) 0 with
  | Some i => Ok i
  | None => Err NotImplementedError
  end.

Section WithOrder.
  (* The order in which Python iterates over set(conflicts); see DESIGN.md. *)
  Variable ord : list block -> list block.

  (* dependency_graph.py:257-268 / 285-296: the block displaced by [c] (op = csub or cadd) *)
  Definition conflict_block (g : bgraph) (op : coord -> coord -> coord) (b : block) (c : coord)
    : block :=
    mk_block (g_tread g)
             (Roi (op (offset (b_read b)) c) (shape (g_bread g)))
             (Roi (op (offset (b_write b)) c) (shape (g_bwrite g)))
             (g_tid g).

  (* dependency_graph.py:255-274 / 283-302: the common loop *)
  Definition conflict_blocks (g : bgraph) (op : coord -> coord -> coord) (b : block)
    (confs : list coord) : list block :=
    ord (dedup block_eqb
           (map (fit_block g)
                (filter (inclusion g) (map (conflict_block g op b) confs)))).

  (* dependency_graph.py:245-274 downstream *)
  Definition downstream (g : bgraph) (b : block) : res (list block) :=
    level <- level_of g b ;;
    if (num_levels g <=? S level)%nat then Ok []
    else
      confs <- py_nth (g_lconf g) (S level) ;;
      Ok (conflict_blocks g csub b confs).

  (* dependency_graph.py:276-302 upstream *)
  Definition upstream (g : bgraph) (b : block) : res (list block) :=
    level <- level_of g b ;;
    confs <- py_nth (g_lconf g) level ;;
    Ok (conflict_blocks g cadd b confs).

  (* dependency_graph.py:304-310 enumerate_all_dependencies *)
  Definition enumerate_all_dependencies (g : bgraph) : res (list (block * list block)) :=
    foldM (fun acc level =>
             bs <- level_blocks g level ;;
             ps <- mapM (fun b => u <- upstream g b ;; Ok (b, u)) bs ;;
             Ok (acc ++ ps))
          (seq 0 (num_levels g)) [].
End WithOrder.

(* dependency_graph.py:495-554 get_subgraph_blocks *)
Definition get_subgraph_blocks (g : bgraph) (sub : roi) (read_roi : bool) : list block :=
  let sub := if read_roi then grow sub (fst (g_ctx g)) (snd (g_ctx g)) else sub in   (* 503-510 *)
  let sub := intersect sub (g_twrite g) in                                           (* 515 *)
  let b := csub (rbegin sub) (offset (g_twrite g)) in                                (* 518 *)
  let e := csub (rend sub) (offset (g_twrite g)) in                                  (* 519 *)
  let w := shape (g_bwrite g) in
  let lo := cfloordiv b w in                                                         (* 523 *)
  let hi := cneg (cfloordiv (cneg e) w) in                                           (* 524 *)
  let ranges := map3 (fun lo e s => py_range lo e s) (cmul lo w) (cmul hi w) w in    (* 528-535 *)
  let offs := map (fun o => cadd o (offset (g_tread g))) (product ranges) in         (* 538-541 *)
  let blocks :=                                                                      (* 543-553 *)
    map (fun o => fit_block g
           (mk_block (g_tread g)
              (rshift_neg (rshift (g_bread g) o) (offset (g_bread g)))
              (rshift_neg (rshift (g_bwrite g) o) (offset (g_bread g)))
              (g_tid g))) offs in
  filter (inclusion g) blocks.                                                       (* 554 *)

(* Model of daisy/ready_surface.py (class ReadySurface). *)
From Verif Require Export Py.
Open Scope Z_scope.

Section Surface.
  (* Nodes, their __eq__, and the two functions given to __init__
     (ready_surface.py:22-24).  [up]/[down] return lists and do not raise; for the
     daisy dependency graph see DGraph.v. *)
  Context {A : Type}.
  Variable eqb : A -> A -> bool.
  Variables up down : A -> list A.

  (* ready_surface.py:26-27 *)
  Record surf := Surf { surface : list A; boundary : list A }.

  Definition surf_init : surf := Surf [] [].

  Definition in_surface (s : surf) (n : A) : bool := mem eqb n (surface s).
  Definition in_boundary (s : surf) (n : A) : bool := mem eqb n (boundary s).

  (* ready_surface.py:136-144 __add_to_boundary *)
  Definition add_to_boundary (s : surf) (n : A) : surf * bool :=
    if negb (in_boundary s n) && existsb (in_boundary s) (up n)
    then (Surf (surface s) (sadd eqb n (boundary s)), true)
    else (s, false).

  (* ready_surface.py:146-154 __remove_from_boundary; boundary.remove cannot raise here
     because membership was just tested *)
  Definition remove_from_boundary (s : surf) (n : A) : surf :=
    if in_boundary s n && forallb (fun u => negb (in_surface s u)) (up n)
    then Surf (surface s) (sdel eqb n (boundary s))
    else s.

  (* ready_surface.py:63-66 / 120-123 *)
  Definition contained (s : surf) (d : A) : Z :=
    Z.b2z (in_surface s d) - Z.b2z (in_boundary s d).

  (* ready_surface.py:61-72 / 118-129: body of the loop over up_nodes *)
  Definition retire (s : surf) (u : A) : res surf :=
    let down_nodes := down u in
    let cs := map (contained s) down_nodes in
    if forallb (fun x => 0 <? Z.abs x) cs then
      sf <- sremove eqb u (surface s) ;;
      Ok (fold_left (fun s' (dc : A * Z) =>
                       if snd dc <? 0 then remove_from_boundary s' (fst dc) else s')
                    (combine down_nodes cs) (Surf sf (boundary s)))
    else Ok s.

  (* ready_surface.py:54-57: body of the loop over downstream nodes *)
  Definition success_step (acc : surf * list A) (d : A) : surf * list A :=
    let '(s, ready) := acc in
    let '(s', added) := add_to_boundary s d in
    if added then (s', ready)
    else if forallb (in_surface s') (up d) then (s', ready ++ [d])
    else (s', ready).

  (* ready_surface.py:29-77 mark_success *)
  Definition mark_success (s : surf) (n : A) : res (surf * list A) :=
    let up_nodes := up n in
    if negb (forallb (in_surface s) up_nodes) then Err AssertionError
    else
      let s1 := Surf (sadd eqb n (surface s)) (boundary s) in
      let '(s2, ready) := fold_left success_step (down n) (s1, []) in
      s3 <- foldM retire up_nodes s2 ;;
      match down n with
      | [] => sf <- sremove eqb n (surface s3) ;; Ok (Surf sf (boundary s3), ready)
      | _ :: _ => Ok (s3, ready)
      end.

  (* set.pop(): removes and returns an arbitrary element; [k] selects it *)
  Definition pop (k : nat) (l : list A) : option (A * list A) :=
    match nth_error l (k mod length l)%nat with
    | Some x => Some (x, sdel eqb x l)
    | None => None
    end.

  (* ready_surface.py:107-114: the while loop.  [pick] chooses the popped element. *)
  Fixpoint orphan_loop (pick : nat -> list A -> nat) (fuel : nat) (s : surf)
    (down_nodes orphans : list A) : res (surf * list A) :=
    match fuel with
    | O => match down_nodes with [] => Ok (s, orphans) | _ => Err OutOfFuel end
    | S f =>
        match pop (pick f down_nodes) down_nodes with
        | None => Ok (s, orphans)
        | Some (d, rest) =>
            let '(s', added) := add_to_boundary s d in
            if added then
              let new_nodes := sminus eqb (dedup eqb (down d)) orphans in
              orphan_loop pick f s' (sunion eqb rest new_nodes) (sadd eqb d orphans)
            else orphan_loop pick f s' rest orphans
        end
    end.

  (* ready_surface.py:79-134 mark_failure; the argument count_all_orphans is never read *)
  Definition mark_failure (pick : nat -> list A -> nat) (fuel : nat) (s : surf) (n : A)
    : res (surf * list A) :=
    let up_nodes := up n in
    if negb (forallb (in_surface s) up_nodes) then Err AssertionError
    else
      let s1 := Surf (surface s) (sadd eqb n (boundary s)) in
      '(s2, orphans) <- orphan_loop pick fuel s1 (dedup eqb (down n)) [] ;;
      s3 <- foldM retire up_nodes s2 ;;
      match up n with
      | [] => bd <- sremove eqb n (boundary s3) ;; Ok (Surf (surface s3) bd, orphans)
      | _ :: _ => Ok (s3, orphans)
      end.
End Surface.
Arguments surf A : clear implicits.

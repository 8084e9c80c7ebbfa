(* Model of logging.py:45-72 (redirect_stdouterr, _file_reopen): the file descriptors of a process and python's file
   objects.  The process has one thread while it is redirected.  That the files can be opened is assumed; mkdir (60-61) is
   left out. *)
From Verif Require Export Py.
From Coq Require String.
Open Scope nat_scope.
Notation string := String.string.

(* what a call raises *)
Inductive ferr := OSErr | AttrErr | ValErr.
Inductive fres (A : Type) := Fine (a : A) | Exc (e : ferr).
Arguments Fine {A} a.
Arguments Exc {A} e.
Definition fbind {A B} (x : fres A) (k : A -> fres B) : fres B := match x with Fine a => k a | Exc e => Exc e end.
Notation "x <~ m ;; k" := (fbind m (fun x => k)) (at level 61, m at next level, right associativity).
Notation "' p <~ m ;; k" := (fbind m (fun p => k)) (at level 61, p pattern, m at next level, right associativity).

Definition data := list Z.
(* An open file description: the file, the position, O_APPEND.  The table of descriptors has an index into the list of
   descriptions for every descriptor that is open. *)
Record desc := Desc { de_file : string; de_off : nat; de_app : bool }.
Record os := OS { fds : list (option nat); descs : list desc; files : string -> option data }.
Definition lookup (s : os) (fd : nat) : option nat := nth fd (fds s) None.
Fixpoint set_fd (l : list (option nat)) (i : nat) (v : option nat) : list (option nat) :=
  match i, l with
  | O, [] => [v]
  | O, _ :: r => v :: r
  | S i, [] => None :: set_fd [] i v
  | S i, x :: r => x :: set_fd r i v
  end.
(* the lowest descriptor that is not open *)
Fixpoint first_free (l : list (option nat)) : nat :=
  match l with Some _ :: r => S (first_free r) | _ => O end.
Definition set_file (f : string) (c : data) (g : string -> option data) : string -> option data :=
  fun x => if String.eqb x f then Some c else g x.

(* open(2): "w" truncates, "a" appends *)
Inductive mode := MW | MA.
Definition os_open (f : string) (m : mode) (s : os) : nat * os :=
  let fd := first_free (fds s) in
  let c := match m, files s f with MA, Some c => c | _, _ => [] end in
  (fd, OS (set_fd (fds s) fd (Some (length (descs s))))
          (descs s ++ [Desc f 0 (match m with MA => true | MW => false end)]) (set_file f c (files s))).
(* close(2), dup2(2): EBADF if not open *)
Definition os_close (fd : nat) (s : os) : fres os :=
  match lookup s fd with
  | None => Exc OSErr
  | Some _ => Fine (OS (set_fd (fds s) fd None) (descs s) (files s))
  end.
Definition os_dup2 (a b : nat) (s : os) : fres os :=
  match lookup s a with
  | None => Exc OSErr
  | Some d => Fine (OS (set_fd (fds s) b (Some d)) (descs s) (files s))
  end.
(* write(2) of all of [x]: at the position of the description, or at the end; a gap is filled with zeros *)
Definition put (c : data) (off : nat) (x : data) : data :=
  firstn off c ++ repeat 0%Z (off - length c) ++ x ++ skipn (off + length x) c.
Fixpoint set_nth {A} (i : nat) (v : A) (l : list A) : list A :=
  match i, l with O, _ :: r => v :: r | S i, x :: r => x :: set_nth i v r | _, [] => [] end.
Definition os_write (fd : nat) (x : data) (s : os) : fres os :=
  match lookup s fd with
  | None => Exc OSErr
  | Some d =>
      match nth_error (descs s) d with
      | None => Exc OSErr
      | Some e =>
          let c := match files s (de_file e) with Some c => c | None => [] end in
          let off := if de_app e then length c else de_off e in
          Fine (OS (fds s) (set_nth d (Desc (de_file e) (off + length x) (de_app e)) (descs s)) (set_file (de_file e) (put c off x) (files s)))
      end
  end.

(* python's text files: a descriptor and what is not flushed yet *)
Record fobj := FObj { fo_fd : nat; fo_buf : data; fo_closed : bool }.
(* [p_out], [p_err]: sys.stdout, sys.stderr; [p_out0], [p_err0]: sys.__stdout__, sys.__stderr__, which may be None.
   Objects are numbered in the order of their creation. *)
Record py := PyS { p_os : os; p_objs : list fobj; p_out : nat; p_err : nat; p_out0 : option nat; p_err0 : option nat }.
Definition obj (p : py) (i : nat) : fobj := nth i (p_objs p) (FObj 0 [] true).
Definition with_os (s : os) (p : py) : py := PyS s (p_objs p) (p_out p) (p_err p) (p_out0 p) (p_err0 p).
Definition with_obj (i : nat) (o : fobj) (p : py) : py := PyS (p_os p) (set_nth i o (p_objs p)) (p_out p) (p_err p) (p_out0 p) (p_err0 p).

(* flush writes the first n bytes of the buffer *)
Definition flush (i n : nat) (p : py) : fres py :=
  let o := obj p i in
  s <~ os_write (fo_fd o) (firstn n (fo_buf o)) (p_os p) ;;
  Fine (with_obj i (FObj (fo_fd o) (skipn n (fo_buf o)) (fo_closed o)) (with_os s p)).
(* Reference counting: an object is closed when the last reference to it is gone.  [kept i]: there are other references to
   object i than the four in sys.  Exceptions in destructors are ignored. *)
Definition finalise (kept : nat -> bool) (i : nat) (p : py) : py :=
  let refd := Nat.eqb i (p_out p) || Nat.eqb i (p_err p) || match p_out0 p with Some j => Nat.eqb i j | None => false end ||
              match p_err0 p with Some j => Nat.eqb i j | None => false end || kept i in
  if refd || fo_closed (obj p i) then p
  else
    let p1 := match fo_buf (obj p i) with [] => p | b => match flush i (length b) p with Fine p1 => p1 | Exc _ => p end end in
    let o := obj p1 i in
    let p2 := with_obj i (FObj (fo_fd o) [] true) p1 in
    match os_close (fo_fd o) (p_os p2) with Fine s => with_os s p2 | Exc _ => p2 end.

(* logging.py:66-72; the object returned is the last one *)
Definition file_reopen (f : string) (m : mode) (file_obj : option nat) (p : py) : fres (nat * py) :=
  let '(newfd, s) := os_open f m (p_os p) in                                    (* 66-67 *)
  let n := length (p_objs p) in
  match file_obj with
  | None => Exc AttrErr                                                  (* 68 *)
  | Some i =>
      let o := obj p i in
      if fo_closed o then Exc ValErr
      else
        s1 <~ os_close (fo_fd o) s ;;                                           (* 69 *)
        s2 <~ os_dup2 newfd (fo_fd o) s1 ;;                                     (* 70 *)
        Fine (n, PyS s2 (p_objs p ++ [FObj newfd [] false]) (p_out p) (p_err p) (p_out0 p) (p_err0 p))
  end.
(* logging.py:45-63, [out], [err]: basename with suffix .out and .err (see LogNames.v, TaskFn.v); None: basename is None *)
Definition redirect (kept : nat -> bool) (names : option (string * string)) (m : mode) (p : py) : fres py :=
  match names with
  | None => Fine p                                                                (* 52-53 *)
  | Some (out, err) =>
      '(n, p1) <~ file_reopen out m (p_out0 p) p ;;                             (* 62 *)
      let p2 := finalise kept (p_out p) (PyS (p_os p1) (p_objs p1) n (p_err p1) (p_out0 p1) (p_err0 p1)) in
      '(n, p3) <~ file_reopen err m (p_err0 p2) p2 ;;                           (* 63 *)
      Fine (finalise kept (p_err p) (PyS (p_os p3) (p_objs p3) (p_out p3) n (p_out0 p3) (p_err0 p3)))
  end.

(* What a process does afterwards: print to a file object, flush part of a buffer (when the buffer is full, or by request),
   write to a descriptor (C code, child processes, which have the descriptors in common), open and close other files. *)
Inductive act := Print (i : nat) (x : data) | Flush (i n : nat) | Raw (fd : nat) (x : data) | Open (f : string) (m : mode) | Close (fd : nat).
Definition act_step (a : act) (p : py) : fres py :=
  match a with
  | Print i x => let o := obj p i in
                 if fo_closed o then Exc ValErr else Fine (with_obj i (FObj (fo_fd o) (fo_buf o ++ x) false) p)
  | Flush i n => if fo_closed (obj p i) then Exc ValErr else flush i n p
  | Raw fd x => s <~ os_write fd x (p_os p) ;; Fine (with_os s p)
  | Open f m => Fine (with_os (snd (os_open f m (p_os p))) p)
  | Close fd => s <~ os_close fd (p_os p) ;; Fine (with_os s p)
  end.
Fixpoint act_run (l : list act) (p : py) : fres py :=
  match l with [] => Fine p | a :: r => p1 <~ act_step a p ;; act_run r p1 end.

(* Model of the logging handlers a CLMonitor installs: cl_monitor.py:8-26 (TqdmLoggingHandler) and 54-75; and of the parts of
   the standard library's logging they are called from (Logger.callHandlers, Handler.handle, StreamHandler.emit,
   Logger.removeHandler).  The text of a record is what the handler's format returns. *)
From Verif Require Export Py.
From Coq Require String.
Open Scope Z_scope.
Notation string := String.string.

(* a handler of the user, or a TqdmLoggingHandler around one *)
Inductive handler := Plain (i : nat) | Wrapped (h : handler).
Fixpoint base (h : handler) : nat := match h with Plain i => i | Wrapped h => base h end.
(* the calls of __getattr__ (cl_monitor.py:19-20) it takes to get at an attribute of the user's handler *)
Fixpoint depth (h : handler) : nat := match h with Plain _ => O | Wrapped h => S (depth h) end.

(* The user's handlers.  [u_stream]: the stream of a handler that has one; [u_tty]: its isatty(); [u_format]: None if it
   raises; [u_term]: StreamHandler.terminator *)
Record user (R : Type) := User {
  u_level : nat -> Z; u_filter : nat -> R -> bool; u_format : nat -> R -> option string;
  u_stream : nat -> option nat; u_tty : nat -> bool; u_term : nat -> string
}.
Arguments u_level {R}. Arguments u_filter {R}. Arguments u_format {R}. Arguments u_stream {R}. Arguments u_tty {R}. Arguments u_term {R}.
(* what handlers do: write to a stream (of user handler i), or, in handleError, print a traceback *)
Inductive effect := Wrote (i : nat) (text : string) | Complained (i : nat) | Passed (i : nat).
Inductive lexn := RecursionErr | FormatErr.

Section Handlers.
  Context {R : Type} (u : user R) (levelno : R -> Z).
  Variable lim : nat.                 (* how many nested calls of __getattr__ python allows *)
  Definition newline : string := String.String (Ascii.ascii_of_nat 10) String.EmptyString.

  (* an attribute of the user's handler, through the wrappers *)
  Definition attr {A} (h : handler) (f : nat -> A) : A + lexn := if (depth h <=? lim)%nat then inl (f (base h)) else inr RecursionErr.

  (* Handler.handle with self.filter, self.acquire and self.emit; StreamHandler.emit catches what format raises; a handler
     without stream does something of its own (Passed).  Simplified: a handler with a stream is a StreamHandler with its
     own emit, and writing to a stream does not fail.  cl_monitor.py:26 takes handle from logging.Handler. *)
  Definition emit (h : handler) (r : R) : list effect * option lexn :=
    match h with
    | Plain i => match u_stream u i with
                 | None => ([Passed i], None)
                 | Some _ => match u_format u i r with
                             | Some m => ([Wrote i (String.append m (u_term u i))], None)
                             | None => ([Complained i], None)
                             end
                 end
    | Wrapped h' =>                                                             (* cl_monitor.py:22-24 *)
        match attr h' (fun i => u_format u i r) with
        | inr e => ([], Some e)
        | inl None => ([], Some FormatErr)
        | inl (Some m) => ([Wrote (base h') (String.append m newline)], None)
        end
    end.
  Definition handle (h : handler) (r : R) : list effect * option lexn :=
    match attr h (fun i => u_filter u i r) with
    | inr e => ([], Some e)
    | inl false => ([], None)
    | inl true => emit h r
    end.
  (* Logger.callHandlers for the root logger: [Some e] leaves the call of the user *)
  Fixpoint call_handlers (hs : list handler) (r : R) : list effect * option lexn :=
    match hs with
    | [] => ([], None)
    | h :: rest =>
        match attr h (u_level u) with
        | inr e => ([], Some e)
        | inl l =>
            let '(es, x) := if l <=? levelno r then handle h r else ([], None) in
            match x with
            | Some e => (es, Some e)
            | None => let '(es', x') := call_handlers rest r in (es ++ es', x')
            end
        end
    end.

  (* cl_monitor.py:70-75 *)
  Definition is_tty (h : handler) : bool + lexn :=
    attr h (fun i => match u_stream u i with Some _ => u_tty u i | None => false end).
  (* cl_monitor.py:56-68, run by the constructor of every CLMonitor (54).  Simplified: when it raises, the handlers before
     the one it raised at are already wrapped; here only the exception is kept *)
  Fixpoint wrap (hs : list handler) : list handler + lexn :=
    match hs with
    | [] => inl []
    | h :: rest =>
        match is_tty h with
        | inr e => inr e
        | inl t => match wrap rest with inr e => inr e | inl rest' => inl ((if t then Wrapped h else h) :: rest') end
        end
    end.
  (* n monitors, one after the other (one for every run_blockwise, convenience.py:40 and 58) *)
  Fixpoint monitors (n : nat) (hs : list handler) : list handler + lexn :=
    match n with O => inl hs | S n => match wrap hs with inr e => inr e | inl hs' => monitors n hs' end end.

  (* Logger.removeHandler: identity, the wrapper has no __eq__ *)
  Fixpoint handler_eqb (a b : handler) : bool :=
    match a, b with Plain i, Plain j => Nat.eqb i j | Wrapped a, Wrapped b => handler_eqb a b | _, _ => false end.
  Fixpoint remove_handler (h : handler) (hs : list handler) : list handler :=
    match hs with [] => [] | x :: r => if handler_eqb x h then r else x :: remove_handler h r end.
End Handlers.

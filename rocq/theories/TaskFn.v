(* What a task makes of the functions it is given (task.py:160-174, scheduler.py:190-200), how a body changes its block, and where
   worker processes write their output (logging.py, worker.py:86-100). *)
From Coq Require Export String Ascii.
From Verif Require Export Ctx Freeze.
From Verif Require Export Sched Client.
Open Scope string_scope.
Open Scope list_scope.

(* ---- task.py:160-174: the process function ---- *)
(* What Python knows of a function: the names getfullargspec(f).args (which has the first one even if it is bound), whether the
   first one is bound (a method of an instance or of a class), how many of the last ones have defaults, whether there is an
   *args, how many keyword-only arguments have no default. *)
Record signature := Sig {
  sg_args : list string;
  sg_bound : bool;
  sg_defaults : nat;
  sg_varargs : bool;
  sg_kwonly : nat
}.
(* the call f(x1, ..., xn) does not raise TypeError before the body of f is entered *)
Definition takes (f : signature) (n : nat) : bool :=
  let n := ((if sg_bound f then 1 else 0) + n)%nat in
  (Nat.leb n (length (sg_args f)) || sg_varargs f) && Nat.leb (length (sg_args f)) (n + sg_defaults f) && Nat.eqb (sg_kwonly f) 0.
(* list.remove: the first occurrence *)
Fixpoint remove_arg (x : string) (l : list string) : list string :=
  match l with [] => [] | y :: r => if String.eqb x y then r else y :: remove_arg x r end.
Inductive role := SpawnsWorker | ProcessesBlock.
Definition task_role (f : signature) : res role :=
  let args := if existsb (String.eqb "self") (sg_args f) then remove_arg "self" (sg_args f) else sg_args f in
  match length args with
  | O => Ok SpawnsWorker                                                        (* 163-165 *)
  | 1%nat => Ok ProcessesBlock                                                  (* 166-168 *)
  | _ => Err ValueError                                                         (* 169-170 *)
  end.
(* how many arguments the function is called with: worker.py:100 (self.spawn_function()) and task.py:181; with
   multiprocessing=False serial_server.py:48 always passes the block *)
Definition worker_passes (r : role) : nat := match r with SpawnsWorker => 0 | ProcessesBlock => 1 end.
Definition serial_passes : nat := 1.

(* ---- scheduler.py:190-200: the check function ---- *)
(* None, a function (its k-th call), or a tuple of two functions (documented in task.py:50-52) *)
Inductive check_fn := NoCheck | Check (f : nat -> block -> check_result) | CheckPair (before after : nat -> block -> check_result).
(* a tuple cannot be called: TypeError, caught in __precheck *)
Definition ask (c : check_fn) (k : nat) (b : block) : check_result :=
  match c with NoCheck => CheckFalse | Check f => f k b | CheckPair _ _ => CheckRaises end.

(* ---- what a body does to the block it got (client.py:83-101) ---- *)
Section Body.
  Variable value : Type.
  Variables vfalse vtrue : value.
  Variable truthy : value -> bool.
  Variable class_attrs : list string.
  Variable of_status : status -> value.         (* the members of BlockStatus *)
  Variable to_status : value -> status.         (* what an attribute is compared with: any other object counts as FAILED, client.py:99 *)
  Local Notation obj := (obj value).
  Local Notation setattr := (setattr value vfalse truthy class_attrs).
  Definition status_of (o : obj) : status :=
    match getattr value vfalse "status" o with Some v => to_status v | None => FAILED end.
  (* the assignments of a body, in order, until one raises; the user's code may raise at the end itself *)
  Fixpoint body_run (l : list (string * value)) (raises : bool) (o : obj) : outcome :=
    match l with
    | [] => if raises then Raised (status_of o) else Finished (status_of o)
    | (k, v) :: r => match setattr k v o with Ok o' => body_run r raises o' | Err _ => Raised (status_of o) end
    end.
  (* the block as the body gets it: constructed, pickled (which keeps __dict__), and marked (client.py:85) *)
  Definition received (val : string -> value) : res obj :=
    o <- new_block value vfalse vtrue truthy class_attrs val ;;
    setattr "status" (of_status PROCESSING) o.
End Body.

(* ---- logging.py ---- *)
(* pathlib.PurePosixPath: the root ("", "/" or "//") and the components *)
Record path := Path { p_root : string; p_parts : list string }.
Fixpoint slashes (s : string) : nat := match s with String "/" r => S (slashes r) | _ => O end.
Definition root_of (s : string) : string := match slashes s with O => "" | 2%nat => "//" | _ => "/" end.
Definition to_path (s : string) : path :=
  Path (root_of s) (filter (fun w => negb (String.eqb w "") && negb (String.eqb w ".")) (Ctx.split "/" s)).
(* p / s *)
Definition joinpath (p : path) (s : string) : path :=
  let q := to_path s in if String.eqb (p_root q) "" then Path (p_root p) (p_parts p ++ p_parts q) else q.
(* p.with_suffix(suf) *)
Definition stem (name : string) : string :=
  match rev (Ctx.split "." name) with
  | [] | [_] => name
  | l :: r => let s := String.concat "." (rev r) in if String.eqb l "" || String.eqb s "" then name else s
  end.
Definition with_suffix (p : path) (suf : string) : res path :=
  match rev (p_parts p) with
  | [] => Err ValueError
  | n :: r => Ok (Path (p_root p) (rev r ++ [(stem n ++ suf)%string]))
  end.
(* logging.py:10-23: LOG_BASEDIR after set_log_basedir(v); a number is not accepted by Path *)
Definition set_log_basedir (v : value) : res (option path) :=
  match v with VNone => Ok None | VStr s => Ok (Some (to_path s)) | VNat _ => Err TypeError end.
(* logging.py:32-43; joining with something that is not a string raises TypeError *)
Definition log_basename (base : option path) (worker_id : nat) (task_id : value) : res (option path) :=
  match base with
  | None => Ok None
  | Some p =>
      p <- match task_id with VStr t => Ok (joinpath p t) | VNone => Ok p | VNat _ => Err TypeError end ;;
      Ok (Some (joinpath p ("worker_" ++ str (VNat worker_id))%string))
  end.
(* logging.py:46-62: the two files that are opened for writing *)
Definition redirect (b : option path) : res (option (path * path)) :=
  match b with
  | None => Ok None
  | Some p => o <- with_suffix p ".out" ;; e <- with_suffix p ".err" ;; Ok (Some (o, e))
  end.
(* worker.py:91-98 in the process of a worker; [c] is its context, [here] LOG_BASEDIR as inherited *)
Definition worker_logs (c : context) (here : value) (worker_id : nat) : res (option (path * path)) :=
  base <- set_log_basedir (match Ctx.get c "logdir" with Some v => v | None => here end) ;;
  b <- log_basename base worker_id (match Ctx.get c "task_id" with Some v => v | None => VNone end) ;;
  redirect b.
(* client.py:55-60: LOG_BASEDIR in the worker once it created a Client from its environment *)
Definition client_basedir (here : value) (env : string) : res (option path) :=
  c <- from_env here env ;;
  match Ctx.get c "logdir" with Some v => set_log_basedir v | None => Err KeyError end.

(* Model of daisy/context.py.  Python strings are Coq strings, a dictionary is a list of pairs
   in insertion order. *)
From Coq Require Export String Ascii.
From Coq Require Import DecimalString DecimalNat.
From Verif Require Export Py.
Open Scope string_scope.

(* The values daisy puts into a context: strings, port and worker numbers, None. *)
Inductive value := VStr (s : string) | VNat (n : nat) | VNone.
(* str(v), "%s" % v *)
Definition str (v : value) : string :=
  match v with
  | VStr s => s
  | VNat n => NilZero.string_of_uint (Nat.to_uint n)
  | VNone => "None"
  end.
Definition context := list (string * value).

(* dict lookup and assignment *)
Fixpoint get (c : context) (k : string) : option value :=
  match c with [] => None | (k', v) :: r => if String.eqb k k' then Some v else get r k end.
Fixpoint set (c : context) (k : string) (v : value) : context :=
  match c with
  | [] => [(k, v)]
  | (k', v') :: r => if String.eqb k k' then (k', v) :: r else (k', v') :: set r k v
  end.

(* "=" in s *)
Fixpoint has (x : ascii) (s : string) : bool :=
  match s with EmptyString => false | String y r => Ascii.eqb x y || has x r end.

(* context.py:12-13; dict(logdir=..., **kwargs): kwargs cannot contain logdir again (TypeError) *)
Definition ctx_init (logdir : value) (kwargs : context) : context := ("logdir", logdir) :: kwargs.

(* context.py:21-30 *)
Definition ctx_set (c : context) (k : string) (v : value) : res context :=
  let v := str v in
  if has "=" k || has ":" k then Err RuntimeError else
  if has "=" v || has ":" v then Err RuntimeError else
  Ok (set c k (VStr v)).

(* s.split(x) for a single character *)
Fixpoint split (x : ascii) (s : string) : list string :=
  match s with
  | EmptyString => [""]
  | String y r =>
      if Ascii.eqb x y then "" :: split x r
      else match split x r with [] => [String y ""] | w :: ws => String y w :: ws end
  end.

(* context.py:18-19 *)
Definition to_env (c : context) : string :=
  String.concat ":" (map (fun kv => (fst kv ++ "=" ++ str (snd kv))%string) c).

(* context.py:52-54: k, v = token.split("=") raises ValueError unless there are two parts *)
Definition ctx_token (c : context) (token : string) : res context :=
  match split "=" token with
  | [k; v] => ctx_set c k (VStr v)
  | _ => Err ValueError
  end.
(* context.py:41-56; [here] is get_log_basedir() in the worker *)
Definition from_env (here : value) (env : string) : res context :=
  foldM ctx_token (split ":" env) (ctx_init here []).

(* task_worker_pools.py:17-19 and worker.py:46-47: the context of a worker; [logdir] is
   get_log_basedir() in the server *)
Definition worker_context (logdir hostname task_id : value) (port worker_id : nat) : res context :=
  ctx_set (ctx_init logdir [("hostname", hostname); ("port", VNat port); ("task_id", task_id)])
          "worker_id" (VNat worker_id).

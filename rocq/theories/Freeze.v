(* Attribute assignment on blocks: freezable.py and the attributes set by Block.__init__. *)
From Coq Require Export String.
From Verif Require Export Py.
Open Scope string_scope.

Section Freeze.
  Variable value : Type.                      (* Python objects *)
  Variables vfalse vtrue : value.
  Variable truthy : value -> bool.
  (* dir(Block) without the flag: methods and what is inherited from object.  __class__, __dict__
     and __weakref__, whose assignment is special in Python, are not considered as keys. *)
  Variable class_attrs : list string.

  (* an instance: its __dict__ *)
  Definition obj := list (string * value).
  (* freezable.py:2: __isfrozen, with Python's name mangling; a class attribute with value False *)
  Definition flag : string := "_Freezable__isfrozen".

  Fixpoint lookup (k : string) (o : obj) : option value :=
    match o with
    | [] => None
    | (k', v) :: r => if String.eqb k k' then Some v else lookup k r
    end.
  (* getattr, for attributes stored in the instance and for the flag *)
  Definition getattr (k : string) (o : obj) : option value :=
    match lookup k o with
    | Some v => Some v
    | None => if String.eqb k flag then Some vfalse else None
    end.
  Definition hasattr (k : string) (o : obj) : bool :=
    match getattr k o with Some _ => true | None => existsb (String.eqb k) class_attrs end.
  (* object.__setattr__ *)
  Fixpoint store (k : string) (v : value) (o : obj) : obj :=
    match o with
    | [] => [(k, v)]
    | (k', v') :: r => if String.eqb k k' then (k, v) :: r else (k', v') :: store k v r
    end.
  Definition isfrozen (o : obj) : bool := match getattr flag o with Some v => truthy v | None => false end.
  (* freezable.py:4-7 *)
  Definition setattr (k : string) (v : value) (o : obj) : res obj :=
    if isfrozen o && negb (hasattr k o) then Err TypeError else Ok (store k v o).
  (* freezable.py:9-13 *)
  Definition freeze (o : obj) : res obj := setattr flag vtrue o.
  Definition thaw (o : obj) : res obj := setattr flag vfalse o.

  (* block.py:70-82 Block.__init__: the assignments in order *)
  Definition block_attrs : list string :=
    ["read_roi"; "write_roi"; "requested_write_roi"; "task_id"; "block_id"; "status";
     "started_processing"; "stopped_processing"].
  Definition new_block (val : string -> value) : res obj :=
    o <- foldM (fun o k => setattr k (val k) o) block_attrs [] ;;
    freeze o.

  (* a caller that assigns attributes and catches the TypeErrors *)
  Definition assign (o : obj) (kv : string * value) : obj :=
    match setattr (fst kv) (snd kv) o with Ok o' => o' | Err _ => o end.
  Definition assigns (l : list (string * value)) (o : obj) : obj := fold_left assign l o.
End Freeze.

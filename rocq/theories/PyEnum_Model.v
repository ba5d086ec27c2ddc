(** * Enumerations and single objects in Python: [python_t::defineEnum] (python_epilogue.h
    49-56) and [addPythonObject] (python_base.h 1171-1190)

    boost::python::enum_: the constructor makes a new Python type and sets it as an
    attribute of the current scope; [value] sets an attribute of the type; [export_values]
    sets every name again as an attribute of the current scope. *)
From Verif Require Import Base SMap Desc_Model PyScope_Model.
Import ListNotations.

(** ** defineEnum *)
(** objects with attributes: the scope current before, the scopes of namespaces and
    classes ([PyScope_Model.named]), the types made for enumerations *)
Inductive pobj := OTop | OScope (n : nat) | OEnum (n : nat).
Inductive pval := PType (c : nat) | PVal (c : nat) (z : Z).
Definition obj_eqb (a b : pobj) : bool :=
  match a, b with
  | OTop, OTop => true
  | OScope n, OScope m => n =? m
  | OEnum n, OEnum m => n =? m
  | _, _ => false
  end.
Record est := mkest { scopes : named; binds : list ((pobj * list ascii) * pval); count : nat }.
Definition start : est := mkest ([], 0) [] 0.
(** PyObject_SetAttr, PyObject_GetAttr *)
Definition bind (o : pobj) (n : list ascii) (v : pval) (b : list ((pobj * list ascii) * pval)) := ((o, n), v) :: b.
Fixpoint look (o : pobj) (n : list ascii) (b : list ((pobj * list ascii) * pval)) : option pval :=
  match b with
  | [] => None
  | ((o', n'), v) :: b' => if obj_eqb o o' && beq n n' then Some v else look o n b'
  end.
(** the scope that [ExtractClassNameAndSetScope] makes current, python_base.h 518-551 *)
Definition scope_of (s : est) (name : list ascii) : pobj :=
  match entered (scopes s) name with Some o => OScope o | None => OTop end.
(** python_epilogue.h 50-56: [keys] is enum_keysData<E>::keysData *)
Definition defineEnum (name : list ascii) (keys : list (list ascii * Z)) (s : est) : est :=
  let sc := scope_of s name in
  let c := count s in
  let b1 := bind sc (fst (extract name)) (PType c) (binds s) in                       (* 52 *)
  let b2 := fold_left (fun b k => bind (OEnum c) (fst k) (PVal c (snd k)) b) keys b1 in (* 53-54 *)
  let b3 := fold_left (fun b k => bind sc (fst k) (PVal c (snd k)) b) keys b2 in        (* 55 *)
  mkest (set_scope (scopes s) name) b3 (S c).
Definition defineAll (l : list (list ascii * list (list ascii * Z))) (s : est) : est :=
  fold_left (fun s e => defineEnum (fst e) (snd e) s) l s.

(** ** addPythonObject *)
(** the modules that can be imported, each with its __dict__; an object is its address *)
Definition modules := list (list ascii * list (list ascii * nat)).
Definition main_ : list ascii := bs "__main__".
(** [path.rfind('.')] and the two names, python_base.h 1174-1185 *)
Definition split_path (path : list ascii) : list ascii * list ascii :=
  match rfind dot path with
  | None => (main_, path)
  | Some i => (firstn i path, skipn (S i) path)
  end.
(** 1186-1187; [None]: [import] throws error_already_set *)
Definition addPythonObject (path : list ascii) (o : nat) (ms : modules) : option modules :=
  let (m, n) := split_path path in
  match mfind bcmp m ms with
  | Some d => Some (mset bcmp m (mset bcmp n o d) ms)
  | None => None
  end.
(** what Python finds as attribute [n] of module [m] *)
Definition pyfind (m n : list ascii) (ms : modules) : option nat :=
  match mfind bcmp m ms with Some d => mfind bcmp n d | None => None end.

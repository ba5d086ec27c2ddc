(** * PythonBuffer: pythonBuffer.h 54-406, on a heap of counted Python objects

    Part of CPython that the header relies on (trusted): an object carries a count of
    the references held to it; [Py_INCREF] and [Py_DECREF] change the count, and the
    object is deallocated, giving up the references it holds itself, when the count
    reaches 0.  [PyList_SetItem] and [PyModule_AddObject] take over the caller's reference;
    [PyDict_SetItemString] and [PyList_Append] make a reference of their own.

    Simplifications: the keys of a dict are byte strings and not counted objects; True,
    False, small integers and interned strings are separate objects each time (only None
    is a singleton); the counts are unbounded and None is counted like everything else, as
    it is before Python 3.12 (the header says so at line 286); objects other than None,
    bool, int, float, str, list and dict are left out.  A str is the list of the bytes of
    its UTF-8 form. *)
From Verif Require Import Base SMap Desc_Model Json_Model.

(** ** Objects and the heap *)
Inductive pobj : Type :=
| PNone
| PBool (b : bool)
| PInt (z : Z)
| PFloat (d : N)
| PStr (s : list ascii)
| PList (l : list nat)
| PDict (kvs : list (list ascii * nat)).
Record cell := Cell { rc : nat; ob : pobj }.
Definition heap := list (nat * cell).
(** the references an object holds *)
Definition kids (o : pobj) : list nat :=
  match o with PList l => l | PDict kvs => map snd kvs | _ => [] end.
Definition slots (h : heap) : list nat := flat_map (fun p => kids (ob (snd p))) h.

Fixpoint look (h : heap) (x : nat) : option cell :=
  match h with
  | [] => None
  | (y, c) :: h' => if y =? x then Some c else look h' x
  end.
Definition upd (h : heap) (x : nat) (c : cell) : heap :=
  map (fun p => if fst p =? x then (x, c) else p) h.
Definition del (h : heap) (x : nat) : heap := filter (fun p => negb (fst p =? x)) h.
(** an address not in use *)
Definition newid (h : heap) : nat := S (fold_right Nat.max 0 (map fst h)).

(** Outcome: [HUb] is a use of a freed object or of a null pointer, [HLoop] a recursion
    that does not end (an object that contains itself). *)
Inductive hr (A : Type) : Type := HOk (a : A) (h : heap) | HUb | HLoop.
Arguments HOk {A} a h.
Arguments HUb {A}.
Arguments HLoop {A}.
Definition hbind {A B} (m : hr A) (f : A -> heap -> hr B) : hr B :=
  match m with HOk a h => f a h | HUb => HUb | HLoop => HLoop end.

(** Py_None *)
Definition none : nat := 0.

(** Py_INCREF *)
Definition incref (x : nat) (h : heap) : hr nat :=
  match look h x with
  | Some c => HOk x (upd h x (Cell (S (rc c)) (ob c)))
  | None => HUb
  end.
(** Py_DECREF of the references in [w]; a deallocated object adds its own.  Every step uses
    up a reference in [w] or in the heap. *)
Fixpoint decs (fuel : nat) (w : list nat) (h : heap) : hr unit :=
  match w with
  | [] => HOk tt h
  | x :: w' =>
      match fuel with
      | O => HLoop
      | S f =>
          match look h x with
          | None => HUb
          | Some c =>
              match rc c with
              | O => HUb
              | 1 => decs f (kids (ob c) ++ w') (del h x)
              | S n => decs f w' (upd h x (Cell n (ob c)))
              end
          end
      end
  end.
Definition decref (x : nat) (h : heap) : hr unit := decs (S (length (slots h))) [x] h.
(** a new object with one reference, returned to the caller *)
Definition alloc (o : pobj) (h : heap) : hr nat := let x := newid h in HOk x ((x, Cell 1 o) :: h).

Fixpoint increfs (l : list nat) (h : heap) : hr unit :=
  match l with [] => HOk tt h | x :: l' => hbind (incref x h) (fun _ h => increfs l' h) end.
Fixpoint decrefs (l : list nat) (h : heap) : hr unit :=
  match l with [] => HOk tt h | x :: l' => hbind (decref x h) (fun _ h => decrefs l' h) end.

Section PyBuf.
(** is a byte string UTF-8?  PyUnicode_FromString returns null otherwise *)
Variable valid : list ascii -> bool.

(** PyUnicode_FromString(s.c_str()), 60.  A null result is passed on unchecked, to
    Py_DECREF or to a container. *)
Definition new_str (s : list ascii) (h : heap) : hr nat :=
  if valid (cstr s) then alloc (PStr (cstr s)) h else HUb.
(** PyDict_SetItemString on a dict with the entries [d] *)
Fixpoint dfind (k : list ascii) (d : list (list ascii * nat)) : option nat :=
  match d with [] => None | (k', y) :: d' => if beq k' k then Some y else dfind k d' end.
Fixpoint dset (k : list ascii) (x : nat) (d : list (list ascii * nat)) : list (list ascii * nat) :=
  match d with
  | [] => [(k, x)]
  | (k', y) :: d' => if beq k' k then (k', x) :: d' else (k', y) :: dset k x d'
  end.
Definition dict_set (k : list ascii) (x : nat) (d : list (list ascii * nat)) (h : heap)
  : hr (list (list ascii * nat)) :=
  if valid (cstr k) then
    hbind (incref x h) (fun _ h =>
      match dfind (cstr k) d with
      | None => HOk (dset (cstr k) x d) h
      | Some y => hbind (decref y h) (fun _ h => HOk (dset (cstr k) x d) h)
      end)
  else HOk d h.

(** newPyObjectJson, 64-95.  The containers are filled before they are entered in the heap:
    nobody else can see them until the function returns.  The loop of 78-79: *)
Definition new_list {A} (g : A -> heap -> hr nat) : list A -> heap -> hr (list nat) :=
  fix go (l : list A) (h : heap) : hr (list nat) :=
    match l with
    | [] => HOk [] h
    | a :: l' => hbind (g a h) (fun x h => hbind (go l' h) (fun xs h => HOk (x :: xs) h))
    end.
(** the loop of 70-71 *)
Definition new_dict {A} (g : A -> heap -> hr nat)
  : list (list ascii * A) -> list (list ascii * nat) -> heap -> hr (list (list ascii * nat)) :=
  fix go (l : list (list ascii * A)) (d : list (list ascii * nat)) (h : heap) : hr (list (list ascii * nat)) :=
    match l with
    | [] => HOk d h
    | (k, a) :: l' => hbind (g a h) (fun x h => hbind (dict_set k x d h) (fun d h => go l' d h))
    end.
Fixpoint newj (j : jv) (h : heap) {struct j} : hr nat :=
  match j with
  | JNull => incref none h
  | JBool b => alloc (PBool b) h
  | JInt z => alloc (PInt (wrap true 64 z)) h
  | JReal d => alloc (PFloat d) h
  | JStr s => new_str s h
  | JArr l => hbind (new_list newj l h) (fun xs h => alloc (PList xs) h)
  | JObj kvs => hbind (new_dict newj kvs [] h) (fun d h => alloc (PDict d) h)
  end.

(** PyLong_AsLongLong, 209: -1 when the value does not fit *)
Definition as_ll (o : pobj) : Z :=
  match o with
  | PBool b => if b then 1%Z else 0%Z
  | PInt z => if ((- 2 ^ 63 <=? z) && (z <? 2 ^ 63))%Z then z else (-1)%Z
  | _ => (-1)%Z
  end.

(** array(), 188-196: [r.push_back(PythonBuffer(PySequence_GetItem(pyObject,i)))] *)
Fixpoint arr (l : list nat) (h : heap) : hr unit :=
  match l with
  | [] => HOk tt h
  | x :: l' =>
      hbind (incref x h) (fun _ h =>     (* PySequence_GetItem: a new reference *)
      hbind (incref x h) (fun _ h =>     (* the constructor of 173-179 *)
      hbind (incref x h) (fun _ h =>     (* the copy in the deque *)
      hbind (decref x h) (fun _ h =>     (* the temporary is destroyed *)
      arr l' h))))
  end.

(** the loop of 233-234 *)
Fixpoint get_list (g : nat -> heap -> hr jv) (l : list nat) (h : heap) : hr (list jv) :=
  match l with
  | [] => HOk [] h
  | y :: l' => hbind (g y h) (fun j h => hbind (get_list g l' h) (fun js h => HOk (j :: js) h))
  end.
(** the loop of 243-249 *)
Fixpoint get_dict (g : nat -> heap -> hr jv) (l : list (list ascii * nat)) (m : list (list ascii * jv))
    (h : heap) : hr (list (list ascii * jv)) :=
  match l with
  | [] => HOk m h
  | (k, y) :: l' =>
      hbind (incref y h) (fun _ h =>           (* PySequence_GetItem *)
      hbind (incref y h) (fun _ h =>           (* PythonBuffer(PyObject* ) *)
      hbind (g y h) (fun j h =>
      hbind (decref y h) (fun _ h =>           (* ~PythonBuffer *)
      get_dict g l' (mset bcmp (cstr k) j m) h))))
  end.
(** get<json_pack_t>, 216-267.  [fuel]: nesting deeper than the number of objects means
    that an object contains itself. *)
Fixpoint getj (fuel : nat) (x : nat) (h : heap) {struct fuel} : hr jv :=
  match fuel with
  | O => HLoop
  | S f =>
      match look h x with
      | None => HUb
      | Some c =>
          match ob c with
          | PNone => HOk JNull h
          | PBool b => HOk (JBool (negb (as_ll (PBool b) =? 0)%Z)) h
          | PInt z => HOk (JInt (as_ll (PInt z))) h
          | PFloat d => HOk (JReal d) h
          | PStr s => HOk (JStr (cstr s)) h
          | PList l =>
              hbind (arr l h) (fun _ h =>
              hbind (get_list (getj f) l h) (fun js h =>
              hbind (decrefs l h) (fun _ h => HOk (JArr js) h)))  (* the deque is destroyed *)
          | PDict kvs =>
              hbind (increfs (map snd kvs) h) (fun _ h =>            (* PyMapping_Items *)
              hbind (get_dict (getj f) kvs [] h) (fun m h =>
              hbind (decrefs (map snd kvs) h) (fun _ h => HOk (JObj m) h)))
          end
      end
  end.
Definition get_json (x : nat) (h : heap) : hr jv := getj (S (length h)) x h.

(** PyList_Append *)
Definition list_append (x y : nat) (h : heap) : hr unit :=
  hbind (incref y h) (fun _ h =>
    match look h x with
    | Some c => match ob c with
                | PList l => HOk tt (upd h x (Cell (rc c) (PList (l ++ [y]))))
                | _ => HUb
                end
    | None => HUb
    end).
Definition is_list (x : nat) (h : heap) : option bool :=
  match look h x with
  | Some c => Some (match ob c with PList _ => true | _ => false end)
  | None => None
  end.

(** ** A program using PythonBuffer variables *)
(** the object each variable refers to; [None] once the variable is destroyed *)
Record pst := mkpst { hp : heap; vars : list (option nat) }.
Inductive pop : Type :=
| ODefault                    (* PythonBuffer b;  155 *)
| OJson (j : jv)              (* PythonBuffer b(json);  171 *)
| OCopy (k : nat)             (* PythonBuffer b(v_k);  183 *)
| OWrap (k : nat)             (* PythonBuffer b(p), [p] the PyObject* of v_k, borrowed;  173-179 *)
| ONull                       (* PythonBuffer b((PyObject* )nullptr);  173-179 *)
| OAssign (k m : nat)         (* v_k = v_m;  184-185 *)
| ODestroy (k : nat)          (* the end of v_k's life;  181 *)
| OArray (k : nat)            (* auto a=v_k.array(); the elements become variables;  188-196 *)
| OPush (k m : nat)           (* v_k.push_back(v_m);  269-276 *)
| OPushJson (k : nat) (j : jv)(* v_k.push_back(json);  269-276 *)
| OGet (k : nat).             (* v_k.get<json_pack_t>();  216-267 *)

Definition var (s : pst) (k : nat) : option nat := match nth_error (vars s) k with Some (Some x) => Some x | _ => None end.
Fixpoint setv (l : list (option nat)) (k : nat) (o : option nat) : list (option nat) :=
  match l, k with
  | [], _ => []
  | _ :: l', O => o :: l'
  | a :: l', S k' => a :: setv l' k' o
  end.
Inductive pres := POk (s : pst) | PUb | PLoop.
Definition lift {A} (m : hr A) (f : A -> heap -> pst) : pres :=
  match m with HOk a h => POk (f a h) | HUb => PUb | HLoop => PLoop end.
(** a declaration, or a statement about variables that exist; a statement about others is
    not a C++ program and leaves the state as it is *)
Definition pstep (s : pst) (o : pop) : pres :=
  let add x h := mkpst h (vars s ++ [Some x]) in
  let only (_ : unit) h := mkpst h (vars s) in
  match o with
  | ODefault => lift (incref none (hp s)) add
  | OJson j => lift (newj j (hp s)) add
  | OCopy k | OWrap k =>
      match var s k with Some x => lift (incref x (hp s)) add | None => POk s end
  | ONull => POk (add none (hp s))                        (* Py_XINCREF(x) with x null *)
  | OAssign k m =>
      match var s k, var s m with
      | Some _, Some y => lift (incref y (hp s)) (fun _ h => mkpst h (setv (vars s) k (Some y)))
      | _, _ => POk s
      end
  | ODestroy k =>
      match var s k with
      | Some x => lift (decref x (hp s)) (fun _ h => mkpst h (setv (vars s) k None))
      | None => POk s
      end
  | OArray k =>
      match var s k with
      | Some x =>
          match look (hp s) x with
          | None => PUb
          | Some c =>
              match ob c with
              | PList l => lift (arr l (hp s)) (fun _ h => mkpst h (vars s ++ map Some l))
              | PStr t =>                                   (* a sequence too: its characters, not modelled *)
                  POk s
              | _ => lift (incref x (hp s)) add             (* 194: the object itself *)
              end
          end
      | None => POk s
      end
  | OPush k m =>
      match var s k, var s m with
      | Some x, Some y =>
          match is_list x (hp s) with
          | None => PUb
          | Some false => POk s
          | Some true =>
              lift (hbind (incref y (hp s)) (fun _ h =>       (* pb *)
                    hbind (list_append x y h) (fun _ h => decref y h))) only
          end
      | _, _ => POk s
      end
  | OPushJson k j =>
      match var s k with
      | Some x =>
          match is_list x (hp s) with
          | None => PUb
          | Some false => POk s
          | Some true =>
              lift (hbind (newj j (hp s)) (fun y h =>         (* pb *)
                    hbind (list_append x y h) (fun _ h => decref y h))) only
          end
      | None => POk s
      end
  | OGet k =>
      match var s k with
      | Some x => lift (get_json x (hp s)) (fun _ h => mkpst h (vars s))
      | None => POk s
      end
  end.
Fixpoint prun (ops : list pop) (s : pst) : pres :=
  match ops with
  | [] => POk s
  | o :: ops' => match pstep s o with POk s' => prun ops' s' | r => r end
  end.
(** the interpreter holds a reference to None *)
Definition pinit : pst := mkpst [(none, Cell 1 PNone)] [].
End PyBuf.

(** ** The streaming operators, 293-406 *)
Section Typed.
Variable valid : list ascii -> bool.
Variable klt : nat -> jval -> jval -> bool.
Variable narrow : N -> N.
Variable i2d : Z -> N.
(** json5_parser::write *)
Variable wr : jv -> list ascii.

(** a char is signed *)
Definition schar (c : ascii) : Z := wrap true 8 (Z.of_N (N_of_ascii c)).
(** newPyObject, 55-61 and 99-120, for a value of the type: a char is an integral type, so
    line 57 applies to it; everything but numbers, strings and sequences goes through JSON.
    [pack] fails only on a value that is not of the type. *)
Fixpoint newpy (t : jty) (v : jval) (h : heap) {struct t} : hr nat :=
  match t, v with
  | TBool, VB b => alloc (PBool b) h
  | TChar, VC c => alloc (PInt (schar c)) h
  | TInt _ _ _, VI z => alloc (PInt (wrap true 64 z)) h
  | TFlt, VD d | TDbl, VD d => alloc (PFloat d) h
  | TStr, VS s => new_str valid s h
  | TSeq _ t', VL l => hbind (new_list (newpy t') l h) (fun xs h => alloc (PList xs) h)
  | _, _ => match pack t fresh [] v with JOk s => newj valid (jo s) h | _ => HUb end
  end.
(** [b=PythonBuffer(...)]: the assignment operator makes a reference for [b], which forgets
    the object it had; the temporary is destroyed *)
Definition assign_temp (m : hr nat) : hr nat :=
  hbind m (fun y h => hbind (incref y h) (fun _ h => hbind (decref y h) (fun _ h => HOk y h))).
(** the loop of 357-360 *)
Fixpoint push_all (g : jval -> heap -> hr nat) (x : nat) (l : list jval) (h : heap) : hr unit :=
  match l with
  | [] => HOk tt h
  | v :: l' => hbind (g v h) (fun y h => hbind (list_append x y h) (fun _ h =>
               hbind (decref y h) (fun _ h => push_all g x l' h)))
  end.
(** [b<<v]: the object [b] refers to afterwards *)
Definition shl (t : jty) (v : jval) (h : heap) : hr nat :=
  match t, v with
  | TChar, VC c => assign_temp (new_str valid [c] h)                              (* 296-297 *)
  | (TBool | TInt _ _ _ | TFlt | TDbl | TStr), _ => assign_temp (newpy t v h)      (* 311, 322 *)
  | TEnum ks, VI z => assign_temp (new_str valid (ek_sym (ek_make ks) z) h)        (* 332-333 *)
  | TSeq _ t', VL l =>                                                            (* 354-362 *)
      hbind (assign_temp (alloc (PList []) h)) (fun x h =>
      hbind (push_all (newpy t') x l h) (fun _ h => HOk x h))
  | _, _ => match pack t fresh [] v with                                          (* 400-406 *)
            | JOk s => assign_temp (new_str valid (wr (jo s)) h)
            | _ => HUb
            end
  end.

(** the bits of -1.0, PyFloat_AsDouble's result on an error *)
Definition minus1 : N := 0xbff0000000000000%N.
(** PyFloat_AsDouble, 211 *)
Definition as_dbl (o : pobj) : N :=
  match o with
  | PFloat d => d
  | PInt z => i2d z
  | PBool b => i2d (if b then 1%Z else 0%Z)
  | _ => minus1
  end.
(** get<string>, 214: a null pointer unless the object is a str *)
Definition get_str (o : pobj) : option (list ascii) := match o with PStr s => Some (cstr s) | _ => None end.
(** the loop of 343-348: [e] starts as a default-constructed element *)
Fixpoint shr_all (g : nat -> heap -> hr (option jval)) (l : list nat) (h : heap) : hr (option (list jval)) :=
  match l with
  | [] => HOk (Some []) h
  | y :: l' => hbind (g y h) (fun r h => match r with
                 | None => HOk None h
                 | Some v => hbind (shr_all g l' h) (fun rs h => HOk (option_map (cons v) rs) h)
                 end)
  end.
(** [b>>v] for a default-constructed [v], [b] referring to [x]; [None]: an exception.
    (After an exception in the loop the references of [arr] are given up as well.) *)
Fixpoint shr (t : jty) (x : nat) (h : heap) {struct t} : hr (option jval) :=
  match look h x with
  | None => HUb
  | Some c =>
      match t with
      | TBool => HOk (Some (VB (negb (as_ll (ob c) =? 0)%Z))) h
      | TInt _ sgn bits => HOk (Some (VI (wrap sgn bits (as_ll (ob c))))) h
      | TFlt => HOk (Some (VD (narrow (as_dbl (ob c))))) h
      | TDbl => HOk (Some (VD (as_dbl (ob c)))) h
      | TChar => match get_str (ob c) with Some s => HOk (Some (VC (hd nul s))) h | None => HUb end
      | TStr => match get_str (ob c) with Some s => HOk (Some (VS s)) h | None => HUb end
      | TEnum ks => match get_str (ob c) with Some s => HOk (Some (VI (ek_val (ek_make ks) s))) h | None => HUb end
      | TSeq None t' =>
          match ob c with
          | PList l =>
              hbind (arr l h) (fun _ h =>
              hbind (shr_all (shr t') l h) (fun r h =>
              hbind (decrefs l h) (fun _ h => HOk (option_map VL r) h)))
          | _ => HOk (Some (VL [])) h
          end
      | _ => hbind (get_json x h) (fun j h =>
               match unpack klt narrow i2d false t j [] (dflt t) with
               | JOk v => HOk (Some v) h
               | JErr _ => HOk None h
               | JUB => HUb
               end)
      end
  end.
End Typed.

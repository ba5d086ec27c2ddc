(** * Calls, indexing and attributes of a wrapped C++ object in Python: pythonBuffer.h 421-439,
    454-459, 545-565, 571-605, 617-641

    The heap of counted Python objects is that of PyBuf_Model.  What the C++ side does with a
    request is given by the command; it does not touch the Python heap.  The wrapper that
    is returned for an object or an array is an object that holds no counted reference (its
    attributes are those of PyReg_Model).  Not modelled: keyword arguments, which the code
    ignores; arguments that are neither None, bool, int, float, str, list nor dict. *)
From Verif Require Import Base SMap Desc_Model Json_Model PyBuf_Model.

(** ** Calls *)
(** a command: isObject(), asBuffer(), and the asBuffer() of the result of process(remainder,
    arguments), [None] if it throws *)
Record command := mkcmd {
  c_obj : bool; c_buf : jv; c_proc : list ascii -> jv -> option jv;
  c_get : jv -> option jv }.      (* getElem(key) *)
(** what the caller gets: an exception, a Python value, or a wrapper of the result *)
Inductive cres : Type := CExc | CVal (x : nat) | CWrap (w : nat).

Section Call.
Variable valid : list ascii -> bool.
(** json5_parser::write *)
Variable wr : jv -> list ascii.

(** arguments.push_back(PySequence_GetItem(args,i)), 558 and 269-276 *)
Definition push_arg (a x : nat) (h : heap) : hr unit :=
  hbind (incref x h) (fun _ h =>              (* PySequence_GetItem: a new reference *)
  hbind (incref x h) (fun _ h =>              (* pb *)
  hbind (list_append a x h) (fun _ h =>
  decref x h))).                               (* ~pb *)
Fixpoint push_args (a : nat) (l : list nat) (h : heap) : hr unit :=
  match l with [] => HOk tt h | x :: l' => hbind (push_arg a x h) (fun _ h => push_args a l' h) end.

(** 551-558: the remainder and the PythonBuffer [arguments] *)
Definition prepare (special : bool) (args : list nat) (h : heap) : hr (list ascii * nat) :=
  match args with
  | [] => hbind (incref none h) (fun _ h => HOk ([], none) h)
  | x :: _ =>
      hbind (alloc (PList []) h) (fun a h =>
      if special then
        hbind (incref x h) (fun _ h =>         (* PySequence_GetItem *)
        hbind (incref x h) (fun _ h =>         (* PythonBuffer(PyObject* ) *)
        hbind (get_json x h) (fun j h =>
        hbind (decref x h) (fun _ h => HOk (wr j, a) h))))
      else hbind (push_args a args h) (fun _ h => HOk ([], a) h))
  end.
(** returnResult, 421-439: [j] is result->asBuffer() *)
Definition return_result (j : jv) (h : heap) : hr cres :=
  hbind (newj valid j h) (fun x h =>           (* resultBuffer *)
  hbind (incref x h) (fun _ h =>               (* pyResult *)
  match look h x with
  | None => HUb
  | Some c =>
      match ob c with
      | PList _ | PDict _ =>
          hbind (alloc (PInt 0) h) (fun w h =>
          hbind (decref x h) (fun _ h => hbind (decref x h) (fun _ h => HOk (CWrap w) h)))
      | _ => hbind (decref x h) (fun _ h => HOk (CVal x) h)
      end
  end)).
(** PythonBuffer(j).getPyObject().release(), 457 *)
Definition to_python (j : jv) (h : heap) : hr cres :=
  hbind (newj valid j h) (fun x h => hbind (incref x h) (fun _ h => hbind (decref x h) (fun _ h => HOk (CVal x) h))).
(** CppWrapperType::call, 545-565.  [args]: the elements of the tuple of arguments *)
Definition call (c : command) (special : bool) (args : list nat) (h : heap) : hr cres :=
  if c_obj c && (match args with [] => true | _ => false end) then to_python (c_buf c) h
  else
    hbind (prepare special args h) (fun ra h =>
    hbind (get_json (snd ra) h) (fun j h =>
    hbind (match c_proc c (fst ra) j with
           | None => HOk CExc h
           | Some r => return_result r h
           end) (fun r h =>
    hbind (decref (snd ra) h) (fun _ h => HOk r h)))).   (* ~arguments *)

(** ** Indexing *)
(** PythonBuffer(p).get<json_pack_t>(), [p] borrowed or null: 173-179 *)
Definition read_arg (p : option nat) (h : heap) : hr jv :=
  match p with
  | Some x => hbind (incref x h) (fun _ h => hbind (get_json x h) (fun j h => hbind (decref x h) (fun _ h => HOk j h)))
  | None => hbind (get_json none h) (fun j h => hbind (decref none h) (fun _ h => HOk j h))
  end.
(** w[key], 617-625 *)
Definition get_item (c : command) (key : nat) (h : heap) : hr cres :=
  hbind (read_arg (Some key) h) (fun k h =>
  match c_get c k with None => HOk CExc h | Some r => return_result r h end).
(** w[key]=val and del w[key] ([val] null), 627-641: the arguments of setElem *)
Definition set_item (key : nat) (val : option nat) (h : heap) : hr (jv * jv) :=
  hbind (read_arg (Some key) h) (fun k h => hbind (read_arg val h) (fun v h => HOk (k, v) h)).
End Call.

(** ** Attributes *)
(** What an attribute gives: an object put there by [w.n=x] (or when the registry was attached),
    the member or method [.n] that the command lists, or what type CppWrapperType has. *)
Inductive attr : Type := AObj (x : nat) | AMember (key : list ascii) | AType (n : list ascii) | AError.
(** getAttro, 571-590 *)
Definition get_attr (listed types : list (list ascii)) (ms : list (list ascii * nat)) (n : list ascii) : attr :=
  match mfind bcmp n ms with
  | Some x => AObj x
  | None =>
      let key := dot :: n in
      if in_dec (list_eq_dec ascii_dec) key listed then AMember key
      else if in_dec (list_eq_dec ascii_dec) n types then AType n else AError
  end.
(** setAttro, 592-605 *)
Inductive aop : Type := ASet (n : list ascii) (x : nat) | ADel (n : list ascii).
Definition astep (ms : list (list ascii * nat)) (o : aop) : list (list ascii * nat) :=
  match o with ASet n x => mset bcmp n x ms | ADel n => filter (fun p => negb (beq (fst p) n)) ms end.

(** * The Python module built from a registry: pythonBuffer.h 416, 480-494, 571-605, 676-691, 724-745

    Not modelled here: the calls themselves, the mapping methods and the fallback of getAttro on
    the command's own list (581-588), see PyCall_Model; attribute names that are not UTF-8. *)
From Verif Require Import Base SMap Desc_Model PyBuf_Model.

(** ** Attaching the registry *)
(** RESTProcess_t: the sorted map from names to commands, [None] a null pointer.  A command
    is a number. *)
Definition registry := list (list ascii * option nat).
(** a CppWrapper: command, [special], [methods] *)
Inductive wrapper : Type := Wrap (cmd : nat) (special : bool) (methods : list (list ascii * wrapper)).
Definition cmd (w : wrapper) : nat := let '(Wrap c _ _) := w in c.
Definition special (w : wrapper) : bool := let '(Wrap _ s _) := w in s.
Definition methods (w : wrapper) : list (list ascii * wrapper) := let '(Wrap _ _ m) := w in m.

Definition at_ : ascii := "@"%char.
Definition under : ascii := "_"%char.
(** [key.substr(0,prefix.length())==prefix]: what follows the prefix *)
Fixpoint after (prefix key : list ascii) : option (list ascii) :=
  match prefix, key with
  | [], _ => Some key
  | a :: p', b :: k' => if ascii_dec a b then after p' k' else None
  | _ :: _, [] => None
  end.
Definition hasdot (s : list ascii) : bool := if in_dec ascii_dec dot s then true else false.
(** 678-687, one entry of the registry: attribute name, key, command, special *)
Definition entry (prefix : list ascii) (kv : list ascii * option nat)
  : option (list ascii * list ascii * nat * bool) :=
  match snd kv, after prefix (fst kv) with
  | Some c, Some m =>
      if hasdot m then None
      else match m with
           | x :: m' => if ascii_dec x at_ then Some (cstr (under :: m'), fst kv, c, true)
                        else Some (cstr m, fst kv, c, false)
           | [] => Some ([], fst kv, c, false)
           end
  | _, _ => None
  end.
(** attachRegistryObjects, 676-691: the attributes given to the wrapper.  [None]: out of fuel. *)
Fixpoint attach_f (fuel : nat) (reg : registry) (prefix : list ascii) {struct fuel}
  : option (list (list ascii * wrapper)) :=
  match fuel with
  | O => None
  | S f =>
      fold_left (fun acc kv =>
        match acc, entry prefix kv with
        | Some a, Some (name, key, c, sp) =>
            match attach_f f reg (key ++ [dot]) with
            | Some ms => Some (mset bcmp name (Wrap c sp ms) a)
            | None => None
            end
        | _, _ => acc
        end) reg (Some [])
  end.
Definition maxlen (reg : registry) : nat := fold_right Nat.max 0 (map (fun kv => length (fst kv)) reg).
Definition attach (reg : registry) (prefix : list ascii) : option (list (list ascii * wrapper)) :=
  attach_f (S (S (maxlen reg))) reg prefix.

(** ** The module: initModule, 724-745 *)
Inductive mobj : Type := MObj (w : wrapper) | MEnum.
Definition toplevel (kv : list ascii * option nat) : option (list ascii * nat) :=
  match snd kv, fst kv with
  | Some c, x :: _ => if hasdot (fst kv) then None else if ascii_dec x at_ then None else Some (fst kv, c)
  | _, _ => None
  end.
Definition init_module (reg : registry) : option (list (list ascii * mobj)) :=
  match fold_left (fun acc kv =>
        match acc, toplevel kv with
        | Some a, Some (key, c) =>
            match attach reg (key ++ [dot]) with
            | Some ms => Some (mset bcmp (cstr key) (MObj (Wrap c false ms)) a)   (* PyModule_AddObject *)
            | None => None
            end
        | _, _ => acc
        end) reg (Some []) with
  | Some a => Some (mset bcmp (bs "enum") MEnum a)                                 (* 735-744 *)
  | None => None
  end.

(** Python: [w.n1.n2...] through getAttro, 571-580 *)
Fixpoint walk (ms : list (list ascii * wrapper)) (names : list (list ascii)) : option wrapper :=
  match names with
  | [] => None
  | n :: ns =>
      match mfind bcmp n ms with
      | None => None
      | Some w => match ns with [] => Some w | _ => walk (methods w) ns end
      end
  end.
(** Python: [module.n1.n2...] *)
Definition module_walk (md : list (list ascii * mobj)) (names : list (list ascii)) : option wrapper :=
  match names with
  | [] => None
  | n :: ns =>
      match mfind bcmp n md with
      | Some (MObj w) => match ns with [] => Some w | _ => walk (methods w) ns end
      | _ => None
      end
  end.

(** ** Attributes of one wrapper, with reference counts *)
(** [mths]: the [methods] map of the wrapper; [pyv]: variables of the Python program *)
Record wst := mkwst { whp : heap; pyv : list (option nat); mths : list (list ascii * nat) }.
Inductive wop : Type :=
| WNew                          (* x=object() *)
| WDel (k : nat)                (* del x *)
| WAttach (n : list ascii)      (* 685-688: create, then PyObject_SetAttrString *)
| WSet (n : list ascii) (k : nat)  (* w.n=x: setAttro, 592-605 *)
| WDelAttr (n : list ascii)     (* del w.n: setAttro with a null value, 603 *)
| WGet (n : list ascii)         (* y=w.n: getAttro, 575-580 *)
| WInsert.                      (* w.insert(v), w.erase(v), the result dropped: 480-494 *)
Definition pvar (s : wst) (k : nat) : option nat :=
  match nth_error (pyv s) k with Some (Some x) => Some x | _ => None end.
Fixpoint mdel {V} (n : list ascii) (m : list (list ascii * V)) : list (list ascii * V) :=
  match m with [] => [] | (k, v) :: m' => if beq k n then m' else (k, v) :: mdel n m' end.
Inductive wres := WOk (s : wst) | WUb.
(** [methods[key]=PyObjectRef(attr)]: the map takes over a reference to [x] and gives up the
    one it had *)
Definition set_attr (n : list ascii) (x : nat) (s : wst) : wres :=
  match mfind bcmp n (mths s) with
  | None => WOk (mkwst (whp s) (pyv s) (mset bcmp n x (mths s)))
  | Some y => match decref y (whp s) with
              | HOk _ h => WOk (mkwst h (pyv s) (mset bcmp n x (mths s)))
              | _ => WUb
              end
  end.
Definition wstep (s : wst) (o : wop) : wres :=
  match o with
  | WNew => match alloc (PInt 0) (whp s) with
            | HOk x h => WOk (mkwst h (pyv s ++ [Some x]) (mths s)) | _ => WUb end
  | WDel k => match pvar s k with
              | Some x => match decref x (whp s) with
                          | HOk _ h => WOk (mkwst h (setv (pyv s) k None) (mths s)) | _ => WUb end
              | None => WOk s
              end
  | WAttach n => match alloc (PInt 0) (whp s) with
                 | HOk x h => set_attr n x (mkwst h (pyv s) (mths s)) | _ => WUb end
  | WSet n k => match pvar s k with Some x => set_attr n x s | None => WOk s end
  | WDelAttr n => match mfind bcmp n (mths s) with
                  | Some y => match decref y (whp s) with
                              | HOk _ h => WOk (mkwst h (pyv s) (mdel n (mths s))) | _ => WUb end
                  | None => WOk s
                  end
  | WGet n => match mfind bcmp n (mths s) with
              | Some y => match incref y (whp s) with
                          | HOk _ h => WOk (mkwst h (pyv s ++ [Some y]) (mths s)) | _ => WUb end
              | None => WOk s
              end
  | WInsert => match decref none (whp s) with HOk _ h => WOk (mkwst h (pyv s) (mths s)) | _ => WUb end
  end.
Fixpoint wrun (ops : list wop) (s : wst) : wres :=
  match ops with [] => WOk s | o :: ops' => match wstep s o with WOk s' => wrun ops' s' | WUb => WUb end end.
(** [n] references to None are held elsewhere *)
Definition winit (n : nat) : wst := mkwst [(none, Cell n PNone)] [] [].

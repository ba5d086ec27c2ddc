(** * python_base.h: registering classes, the class registry, and containers seen from Python *)
From Verif Require Import Base SMap Desc_Model.

(** ** which classes get defined *)
(** types as the overloads of [python<T>(p,d)] tell them apart: fundamental types and strings, classes,
    sequences, associative containers, shared_ptr *)
Inductive ty := TBasic | TCls (n : nat) | TSeq (t : ty) | TMap (k v : ty) | TPtr (t : ty).
Definition ty_dec : forall a b : ty, {a = b} + {a <> b}.
Proof. decide equality; apply Nat.eq_dec. Defined.

(** a member that [addMember] registers: its name and the types [DefineArgClasses] looks at, 753-780, the last
    argument first, the return type or the type of the object last.  Members that are C arrays are left out. *)
Definition member := (list ascii * list ty)%type.
(** the classes of the program: whether abstract, and the members its descriptor lists *)
Definition env := list (bool * list member).
Definition members (e : env) (n : nat) : list member := snd (nth n e (false, [])).
Definition abstract (e : env) (t : ty) : bool := match t with TCls n => fst (nth n e (false, [])) | _ => false end.

(** the switches [classDefStarted<T>()], 288-296; the classes with [completed] set; the attributes added to
    classes, the latest first; the types for which [python<T>] has returned (not in the C++, for the statements) *)
Record st := mkst { started : list ty; completed : list nat; defs : list (nat * list ascii); returned : list ty }.
Definition st0 : st := mkst [] [] [] [].
Definition set_started (t : ty) (s : st) : st := mkst (t :: started s) (completed s) (defs s) (returned s).
Definition set_completed (n : nat) (s : st) : st := mkst (started s) (n :: completed s) (defs s) (returned s).
Definition set_returned (t : ty) (s : st) : st := mkst (started s) (completed s) (defs s) (t :: returned s).
(** [if (!c.completed) c.addProperty(tail(d),m);] and the like, 820-870 *)
Definition add_def (n : nat) (x : list ascii) (s : st) : st :=
  if in_dec Nat.eq_dec n (completed s) then s else mkst (started s) (completed s) ((n, x) :: defs s) (returned s).

Section Loops.
  Variable dfn : ty -> st -> option st.
  (** [DefineArgClasses<F,N>::define], 753-780, and [defineClass], 985-991: nothing for abstract classes *)
  Definition guarded (e : env) (t : ty) (s : st) : option st :=
    if in_dec ty_dec t (started s) then Some s
    else if abstract e t then Some (set_started t s) else dfn t (set_started t s).
  Fixpoint guarded_all (e : env) (ts : list ty) (s : st) : option st :=
    match ts with
    | [] => Some s
    | t :: ts' => match guarded e t s with Some s' => guarded_all e ts' s' | None => None end
    end.
  (** the calls made by the descriptor of class [n] *)
  Fixpoint add_members (e : env) (n : nat) (ms : list member) (s : st) : option st :=
    match ms with
    | [] => Some s
    | (x, ts) :: ms' => match guarded_all e ts (add_def n x s) with Some s' => add_members e n ms' s' | None => None end
    end.
End Loops.
(** [python<T>(p,d)]: classes, python_epilogue.h 27-38; sequences, 995-1011; associative containers, 1013-1026;
    [pythonSharedPtr], 1058-1080; anything else, 54-56.  [None]: out of fuel *)
Fixpoint define (fuel : nat) (e : env) (t : ty) (s : st) : option st :=
  match fuel with
  | O => None
  | S f =>
      match t with
      | TBasic => Some (set_returned t s)
      | TCls n => match add_members (define f e) e n (members e n) s with
                  | Some s' => Some (set_returned t (set_completed n s'))
                  | None => None
                  end
      | TSeq u | TPtr u => match define f e u s with Some s' => Some (set_returned t s') | None => None end
      | TMap k v => match define f e v s with
                    | Some s1 => match define f e k s1 with Some s2 => Some (set_returned t s2) | None => None end
                    | None => None
                    end
      end
  end.
Fixpoint define_all (fuel : nat) (e : env) (ts : list ty) (s : st) : option st :=
  match ts with
  | [] => Some s
  | t :: ts' => match define fuel e t s with Some s' => define_all fuel e ts' s' | None => None end
  end.

(** ** [getClass], 699-728 *)
(** the types of the objects in [classes()]; the static [id] of each type that has one *)
Record reg := mkreg { classes : list nat; ids : list (nat * nat) }.
Inductive got := Got (i : nat) | Invalid | BadCast.
Fixpoint id_of (l : list (nat * nat)) (t : nat) : option nat :=
  match l with [] => None | (u, i) :: l' => if (t =? u)%nat then Some i else id_of l' t end.
Definition getClass (t : nat) (r : reg) : got * reg :=
  let '(i, r1) := match id_of (ids r) t with
                  | Some i => (i, r)
                  | None => (length (classes r), mkreg (classes r) ((t, length (classes r)) :: ids r))
                  end in
  if (length (classes r1) <? i)%nat then (Invalid, r1)
  else let r2 := if (i =? length (classes r1))%nat then mkreg (classes r1 ++ [t]) (ids r1) else r1 in
       match nth_error (classes r2) i with
       | Some u => if (u =? t)%nat then (Got i, r2) else (BadCast, r2)
       | None => (Invalid, r2)
       end.
(** [classes().clear()], which the comment at 690-692 allows *)
Definition clear (r : reg) : reg := mkreg [] (ids r).
Inductive call := CGet (t : nat) | CClear.
Fixpoint calls (cs : list call) (r : reg) : list got * reg :=
  match cs with
  | [] => ([], r)
  | CGet t :: cs' => let '(g, r1) := getClass t r in let '(gs, r2) := calls cs' r1 in (g :: gs, r2)
  | CClear :: cs' => calls cs' (clear r)
  end.

(** ** containers seen from Python *)
(** [getItemRef], 199-207; [None]: std::out_of_range, which boost turns into IndexError *)
Definition getItem {A} (c : list A) (n : nat) : option A :=
  if (length c <=? n)%nat then None else nth_error c n.
Fixpoint upd {A} (c : list A) (n : nat) (v : A) : list A :=
  match c, n with
  | [], _ => []
  | _ :: c', O => v :: c'
  | x :: c', S n' => x :: upd c' n' v
  end.
(** [setItem], 222-232; [basic]: [PythonBasicType<value_type>] *)
Definition setItem {A} (basic : bool) (c : list A) (n : nat) (v : A) : option (list A) :=
  if basic then if (length c <=? n)%nat then None else Some (upd c n v) else Some c.
(** Python's iteration over an object with [__getitem__] only: 0, 1, … until IndexError *)
Fixpoint py_iter {A} (fuel : nat) (get : nat -> option A) (i : nat) : option (list A) :=
  match fuel with
  | O => None
  | S f => match get i with
           | None => Some []
           | Some x => match py_iter f get (S i) with Some r => Some (x :: r) | None => None end
           end
  end.
(** [convertListTo], 974-981: [ex] is [extract<value_type>], [None]: TypeError *)
Fixpoint convertListTo {A B} (ex : B -> option A) (ys : list B) (x : list A) : option (list A) :=
  match ys with
  | [] => Some x
  | y :: ys' => match ex y with Some a => convertListTo ex ys' (x ++ [a]) | None => None end
  end.
(** [assignList], 983-985: the container afterwards, and whether an exception was thrown *)
Definition assignList {A B} (ex : B -> option A) (x : list A) (ys : list B) : list A * bool :=
  match convertListTo ex ys [] with Some x' => (x', false) | None => (x, true) end.
(** [getMapItem], 234-254: [None] is the exception; [setMapItem], 256-259 *)
Definition getMapItem {V} (x : list (list ascii * V)) (k : list ascii) : option V := mfind bcmp k x.
Definition setMapItem {V} (x : list (list ascii * V)) (k : list ascii) (v : V) : list (list ascii * V) := mset bcmp k v x.
(** [Iterator], 261-282: what is left to come; [None]: StopIteration *)
Definition next {V} (it : list (list ascii * V)) : option (list ascii * list (list ascii * V)) :=
  match it with [] => None | (k, _) :: r => Some (k, r) end.
Fixpoint keys_of {V} (fuel : nat) (it : list (list ascii * V)) : option (list (list ascii)) :=
  match fuel with
  | O => None
  | S f => match next it with
           | None => Some []
           | Some (k, r) => match keys_of f r with Some ks => Some (k :: ks) | None => None end
           end
  end.

(** [ArrayGet], 131-149: the memory at [x], the index into the memory reached so far and the extents.  The
    index is not tested: what is beyond the extent is undefined behaviour *)
Inductive ares := AElem (v : Z) | AView (off : nat) (dims : list nat) | AUB | AThrow.
Definition prod (l : list nat) : nat := fold_right Nat.mul 1%nat l.
Definition aget (mem : list Z) (off : nat) (dims : list nat) (i : nat) : ares :=
  match dims with
  | [] => AThrow
  | d :: ds =>
      if (i <? d)%nat then
        match ds with
        | [] => match nth_error mem (off + i) with Some v => AElem v | None => AUB end
        | _ => AView (off + i * prod ds) ds
        end
      else AUB
  end.
(** [__setitem__] is defined for rank 1 only, python_epilogue.h 46-52 *)
Inductive aset_res := ASet (mem : list Z) | ASetUB | ASetThrow.
Definition aset (mem : list Z) (off : nat) (dims : list nat) (i : nat) (v : Z) : aset_res :=
  match dims with
  | [d] => if (i <? d)%nat && (off + i <? length mem)%nat then ASet (upd mem (off + i) v) else ASetUB
  | _ => ASetThrow
  end.
(** [a[i][j]…] *)
Fixpoint aindex (mem : list Z) (off : nat) (dims : list nat) (is : list nat) : ares :=
  match is with
  | [] => AView off dims
  | i :: is' => match aget mem off dims i with
                | AView o ds => aindex mem o ds is'
                | AElem v => match is' with [] => AElem v | _ => AThrow end
                | r => r
                end
  end.
(** [a[i][j]… = v] *)
Fixpoint aassign (mem : list Z) (off : nat) (dims : list nat) (is : list nat) (v : Z) : aset_res :=
  match is with
  | [] => ASetThrow
  | [i] => aset mem off dims i v
  | i :: is' => match aget mem off dims i with
                | AView o ds => aassign mem o ds is' v
                | AUB => ASetUB
                | _ => ASetThrow
                end
  end.
(** Python's iteration over the array, which has no [__iter__]: it ends with an exception *)
Inductive iter_res := IDone (l : list ares) | IUB | IFuel.
Fixpoint a_iter (fuel : nat) (mem : list Z) (off : nat) (dims : list nat) (i : nat) : iter_res :=
  match fuel with
  | O => IFuel
  | S f => match aget mem off dims i with
           | AThrow => IDone []
           | AUB => IUB
           | r => match a_iter f mem off dims (S i) with IDone rs => IDone (r :: rs) | x => x end
           end
  end.

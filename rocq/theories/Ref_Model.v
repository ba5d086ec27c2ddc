(** * Model of the reference counting handles: PtrStoreRef and ref<T>

    Sources: /repo/pack_base.h 100-132 (PtrStoreBase, PtrStoreRef), /repo/ref.h 23-88.
    Handle variables are numbered; a variable is either not alive or alive holding a
    pointer.  Objects are numbered in order of allocation.  Touching a freed object, or
    freeing it again, is [UB].  Simplifications: counts are unbounded (C++ int); an
    operation that no program can express (using a variable that is not alive,
    constructing one that is) and the dereferences that assert on null are skipped. *)
From Verif Require Import Base.

Inductive cell : Type := Dead | Live (p : option nat).
Definition vars := list cell.

Fixpoint set_cell (i : nat) (c : cell) (l : vars) : vars :=
  match l, i with
  | [], _ => []
  | _ :: l', O => c :: l'
  | x :: l', S i' => x :: set_cell i' c l'
  end.
Definition cell_at (l : vars) (i : nat) : option cell := nth_error l i.
Fixpoint upd {A} (i : nat) (x : A) (l : list A) : list A :=
  match l, i with
  | [], _ => []
  | _ :: l', O => x :: l'
  | y :: l', S i' => y :: upd i' x l'
  end.

(** ** PtrStoreRef: pack_base.h 100-132 *)
Record pobj : Type := mk_po { po_cnt : Z; po_live : bool }.
Record pst : Type := mk_ps { ps_objs : list pobj; ps_vars : vars }.

Inductive pop : Type :=
| PNew (v : nat)            (* PtrStoreRef v(new PtrStore<T>) *)
| PNull (v : nat)           (* PtrStoreRef v *)
| PCopy (v w : nat)         (* PtrStoreRef v(w) *)
| PAssign (v w : nat)       (* v=w *)
| PUse (v : nat)            (* v.data() *)
| PDestroy (v : nat).       (* ~PtrStoreRef *)

(** d && d->cnt++ *)
Definition p_inc (d : option nat) (s : pst) : option pst :=
  match d with
  | None => Some s
  | Some k =>
      match nth_error (ps_objs s) k with
      | Some o => if po_live o
                  then Some (mk_ps (upd k (mk_po (po_cnt o + 1) true) (ps_objs s)) (ps_vars s))
                  else None
      | None => None
      end
  end.
Definition p_set (v : nat) (c : cell) (s : pst) : pst := mk_ps (ps_objs s) (set_cell v c (ps_vars s)).

(** [None] is undefined behaviour *)
Definition pstep (op : pop) (s : pst) : option pst :=
  match op with
  | PNew v =>                                             (* pack_base.h 102-103, 128 *)
      match cell_at (ps_vars s) v with
      | Some Dead => Some (mk_ps (ps_objs s ++ [mk_po 0 true])
                                 (set_cell v (Live (Some (length (ps_objs s)))) (ps_vars s)))
      | _ => Some s
      end
  | PNull v =>                                            (* pack_base.h 128 *)
      match cell_at (ps_vars s) v with
      | Some Dead => Some (p_set v (Live None) s)
      | _ => Some s
      end
  | PCopy v w =>                                          (* pack_base.h 129 *)
      match cell_at (ps_vars s) v, cell_at (ps_vars s) w with
      | Some Dead, Some (Live d) => p_inc d (p_set v (Live d) s)
      | _, _ => Some s
      end
  | PAssign v w =>                                        (* pack_base.h 130 *)
      match cell_at (ps_vars s) v, cell_at (ps_vars s) w with
      | Some (Live _), Some (Live d) => p_inc d (p_set v (Live d) s)
      | _, _ => Some s
      end
  | PUse v =>                                             (* pack_base.h 127 *)
      match cell_at (ps_vars s) v with
      | Some (Live (Some k)) =>
          match nth_error (ps_objs s) k with
          | Some o => if po_live o then Some s else None
          | None => None
          end
      | _ => Some s
      end
  | PDestroy v =>                                         (* pack_base.h 131 *)
      match cell_at (ps_vars s) v with
      | Some (Live None) => Some (p_set v Dead s)
      | Some (Live (Some k)) =>
          match nth_error (ps_objs s) k with
          | Some o =>
              if po_live o
              then Some (mk_ps (upd k (mk_po (po_cnt o - 1) (negb (po_cnt o =? 0)%Z)) (ps_objs s))
                               (set_cell v Dead (ps_vars s)))
              else None
          | None => None
          end
      | _ => Some s
      end
  end.
Fixpoint prun (ops : list pop) (s : pst) : option pst :=
  match ops with
  | [] => Some s
  | o :: ops' => match pstep o s with Some s' => prun ops' s' | None => None end
  end.
Definition pinit (n : nat) : pst := mk_ps [] (repeat Dead n).

(** ** ref<T>: ref.h 23-88 *)
Section Ref.
Variable V : Type.
Variable dflt : V.       (* T() *)

Record robj : Type := mk_ro { ro_val : V; ro_count : Z; ro_live : bool }.
Record rst : Type := mk_rs { rs_objs : list robj; rs_vars : vars }.

Inductive rop : Type :=
| RDefault (v : nat)             (* ref<T> v *)
| RCopy (v w : nat)              (* ref<T> v(w) *)
| RFrom (v : nat) (x : V)        (* ref<T> v(x) *)
| RAssign (v w : nat)            (* v=w *)
| RAssignVal (v : nat) (x : V)   (* v=x, x a value outside the heap *)
| RAssignRef (v w : nat)         (* v= *w *)
| RDestroy (v : nat)             (* ~ref *)
| RDeref (v : nat)               (* *v, non-const: creates *)
| RWrite (v : nat) (x : V)       (* *v=x *)
| RRead (v : nat)                (* *v, const *)
| RNullify (v : nat)
| RSwap (v w : nat)
| RCount (v : nat)               (* v.refCount() *)
| REqual (v w : nat).            (* v==w *)

Inductive robs : Type :=
| ONone | OVal (x : V) | ONum (n : Z) | OBool (b : bool).

Definition r_set (v : nat) (p : option nat) (s : rst) : rst :=
  mk_rs (rs_objs s) (set_cell v (Live p) (rs_vars s)).
(** refdec, ref.h 32; [None] is undefined behaviour (freed object touched) *)
Definition refdec (p : option nat) (s : rst) : option rst :=
  match p with
  | None => Some s
  | Some k =>
      match nth_error (rs_objs s) k with
      | Some o => if ro_live o
                  then let c := (ro_count o - 1)%Z in
                       Some (mk_rs (upd k (mk_ro (ro_val o) c (negb (c =? 0)%Z)) (rs_objs s)) (rs_vars s))
                  else None
      | None => None
      end
  end.
(** asg, ref.h 33-39 *)
Definition asg (v : nat) (p : option nat) (s : rst) : option rst :=
  match p with
  | None => Some (r_set v None s)
  | Some k =>
      match nth_error (rs_objs s) k with
      | Some o => if ro_live o
                  then Some (mk_rs (upd k (mk_ro (ro_val o) (ro_count o + 1) true) (rs_objs s))
                                   (set_cell v (Live (Some k)) (rs_vars s)))
                  else None
      | None => None
      end
  end.
(** newitem, ref.h 40-41 *)
Definition newitem (v : nat) (x : V) (s : rst) : rst :=
  mk_rs (rs_objs s ++ [mk_ro x 1 true])
        (set_cell v (Live (Some (length (rs_objs s)))) (rs_vars s)).
(** reading the object itself *)
Definition readobj (k : nat) (s : rst) : option V :=
  match nth_error (rs_objs s) k with
  | Some o => if ro_live o then Some (ro_val o) else None
  | None => None
  end.
Definition writeobj (k : nat) (x : V) (s : rst) : option rst :=
  match nth_error (rs_objs s) k with
  | Some o => if ro_live o
              then Some (mk_rs (upd k (mk_ro x (ro_count o) true) (rs_objs s)) (rs_vars s))
              else None
  | None => None
  end.
Definition noobs (r : option rst) : option (robs * rst) :=
  match r with Some s => Some (ONone, s) | None => None end.

Definition rstep (op : rop) (s : rst) : option (robs * rst) :=
  match op with
  | RDefault v =>                                              (* ref.h 44 *)
      match cell_at (rs_vars s) v with
      | Some Dead => Some (ONone, r_set v None s)
      | _ => Some (ONone, s)
      end
  | RCopy v w =>                                               (* ref.h 45 *)
      match cell_at (rs_vars s) v, cell_at (rs_vars s) w with
      | Some Dead, Some (Live p) => noobs (asg v p s)
      | _, _ => Some (ONone, s)
      end
  | RFrom v x =>                                               (* ref.h 46 *)
      match cell_at (rs_vars s) v with
      | Some Dead => Some (ONone, newitem v x s)
      | _ => Some (ONone, s)
      end
  | RAssign v w =>                                             (* ref.h 47 *)
      match cell_at (rs_vars s) v, cell_at (rs_vars s) w with
      | Some (Live p), Some (Live q) =>
          if match p, q with
             | Some a, Some b => (a =? b)%nat | None, None => true | _, _ => false end
          then Some (ONone, s)
          else match refdec p s with Some s1 => noobs (asg v q s1) | None => None end
      | _, _ => Some (ONone, s)
      end
  | RAssignVal v x =>                                          (* ref.h 48 *)
      match cell_at (rs_vars s) v with
      | Some (Live p) => match refdec p s with Some s1 => Some (ONone, newitem v x s1) | None => None end
      | _ => Some (ONone, s)
      end
  | RAssignRef v w =>                  (* ref.h 48: the argument is a reference into w's object *)
      match cell_at (rs_vars s) v, cell_at (rs_vars s) w with
      | Some (Live p), Some (Live (Some k)) =>
          match refdec p s with
          | Some s1 => match readobj k s1 with
                       | Some x => Some (ONone, newitem v x s1) | None => None end
          | None => None
          end
      | _, _ => Some (ONone, s)
      end
  | RDestroy v =>                                              (* ref.h 49 *)
      match cell_at (rs_vars s) v with
      | Some (Live p) => match refdec p s with
                         | Some s1 => Some (ONone, mk_rs (rs_objs s1) (set_cell v Dead (rs_vars s1)))
                         | None => None end
      | _ => Some (ONone, s)
      end
  | RDeref v =>                                                (* ref.h 60-61 *)
      match cell_at (rs_vars s) v with
      | Some (Live None) => Some (OVal dflt, newitem v dflt s)
      | Some (Live (Some k)) => match readobj k s with Some x => Some (OVal x, s) | None => None end
      | _ => Some (ONone, s)
      end
  | RWrite v x =>                                              (* ref.h 60-61 *)
      match cell_at (rs_vars s) v with
      | Some (Live None) => 
          let s1 := newitem v dflt s in noobs (writeobj (length (rs_objs s)) x s1)
      | Some (Live (Some k)) => noobs (writeobj k x s)
      | _ => Some (ONone, s)
      end
  | RRead v =>                                                 (* ref.h 62-65 *)
      match cell_at (rs_vars s) v with
      | Some (Live (Some k)) => match readobj k s with Some x => Some (OVal x, s) | None => None end
      | _ => Some (ONone, s)
      end
  | RNullify v =>                                              (* ref.h 67 *)
      match cell_at (rs_vars s) v with
      | Some (Live p) => match refdec p s with Some s1 => Some (ONone, r_set v None s1) | None => None end
      | _ => Some (ONone, s)
      end
  | RSwap v w =>                                               (* ref.h 82 *)
      match cell_at (rs_vars s) v, cell_at (rs_vars s) w with
      | Some (Live p), Some (Live q) => Some (ONone, r_set v q (r_set w p s))
      | _, _ => Some (ONone, s)
      end
  | RCount v =>                                                (* ref.h 73 *)
      match cell_at (rs_vars s) v with
      | Some (Live None) => Some (ONum 0, s)
      | Some (Live (Some k)) =>
          match nth_error (rs_objs s) k with
          | Some o => if ro_live o then Some (ONum (ro_count o), s) else None
          | None => None
          end
      | _ => Some (ONone, s)
      end
  | REqual v w =>                                              (* ref.h 74 *)
      match cell_at (rs_vars s) v, cell_at (rs_vars s) w with
      | Some (Live p), Some (Live q) =>
          Some (OBool (match p, q with
             | Some a, Some b => (a =? b)%nat | None, None => true | _, _ => false end), s)
      | _, _ => Some (ONone, s)
      end
  end.
Fixpoint rrun (ops : list rop) (s : rst) : option (list robs * rst) :=
  match ops with
  | [] => Some ([], s)
  | o :: ops' =>
      match rstep o s with
      | Some (b, s1) => match rrun ops' s1 with Some (bs, s2) => Some (b :: bs, s2) | None => None end
      | None => None
      end
  end.
Definition rinit (n : nat) : rst := mk_rs [] (repeat Dead n).
End Ref.
Arguments rop : clear implicits.
Arguments robs : clear implicits.

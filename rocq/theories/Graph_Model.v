(** * Model of pointer serialisation: trees and graphs

    Source: /repo/pack_graph.h, /repo/pack_base.h 533-579 (dispatch on ptr_flag).
    Simplification: the buffer is represented by the bytes appended so far (packing) and
    by the bytes still to be read (unpacking); PackBuf_Props.v relates this to the
    actual buffer.  Running out of input is [None] (an exception in the code). *)
From Verif Require Import Base.

(** [int]s and [unsigned]s take four bytes *)
Definition put32 (n : N) : list ascii := le 4 n.
Definition get (k : nat) (s : list ascii) : option (list ascii * list ascii) :=
  if (length s <? k)%nat then None else Some (firstn k s, skipn k s).
Definition get32 (s : list ascii) : option (N * list ascii) :=
  match get 4 s with Some (b, s') => Some (unle b, s') | None => None end.

(** ** Trees: pack_graph.h 26-57 *)
(** A pointer to a tree node.  [TOther] stands for any other pointer value the
    destination may happen to hold (an old object, an uninitialised pointer). *)
Inductive tree : Type :=
| TNull
| TOther (z : N)
| TNode (fs : tfields)
with tfields : Type :=
| TFNil
| TFData (b : list ascii) (fs : tfields)
| TFPtr (p : tree) (fs : tfields).

(** layout of the node class: sizes of the data members, pointer members *)
Inductive fkind : Type := KData (n : nat) | KPtr.

(** pack_graph.h 26-38 *)
Fixpoint tpk (t : tree) : list ascii :=
  match t with
  | TNode fs => put32 1 ++ tpk_fs fs
  | _ => put32 0      (* TOther: packing a wild pointer is outside the model *)
  end
with tpk_fs (fs : tfields) : list ascii :=
  match fs with
  | TFNil => []
  | TFData b fs' => b ++ tpk_fs fs'
  | TFPtr p fs' => tpk p ++ tpk_fs fs'
  end.

(** pack_graph.h 42-57: [old] is the previous value of the destination.  [newptr] is what a
    pointer member of a freshly allocated node holds (null if the class has a constructor
    that says so, otherwise indeterminate).  Recursion is on fuel; [None] also stands for
    fuel exhaustion. *)
Section TreeUnpack.
Variable layout : list fkind.
Variable newptr : tree.
Fixpoint tup (fuel : nat) (old : tree) (s : list ascii) {struct fuel} : option (tree * list ascii) :=
  match fuel with
  | O => None
  | S fuel' =>
      match get32 s with
      | None => None
      | Some (valid, s1) =>
          if (valid =? 0)%N then Some (old, s1)
          else match tup_fs fuel' layout s1 with
               | Some (fs, s2) => Some (TNode fs, s2)
               | None => None
               end
      end
  end
with tup_fs (fuel : nat) (ks : list fkind) (s : list ascii) {struct fuel}
  : option (tfields * list ascii) :=
  match fuel with
  | O => None
  | S fuel' =>
      match ks with
      | [] => Some (TFNil, s)
      | KData n :: ks' =>
          match get n s with
          | Some (b, s1) => match tup_fs fuel' ks' s1 with
                            | Some (fs, s2) => Some (TFData b fs, s2) | None => None end
          | None => None
          end
      | KPtr :: ks' =>
          match tup fuel' newptr s with
          | Some (p, s1) => match tup_fs fuel' ks' s1 with
                            | Some (fs, s2) => Some (TFPtr p fs, s2) | None => None end
          | None => None
          end
      end
  end.
End TreeUnpack.

(** ** Graphs: pack_graph.h 83-164 *)
(** Nodes live in a heap and are named by natural numbers.  [ty] numbers the C++ pointer
    types: each instantiation of pack_graph/unpack_graph has its own static variables. *)
Inductive field : Type :=
| FData (b : list ascii)
| FPtr (ty : nat) (p : option nat).
Notation node := (list field).
Definition heap : Type := nat -> option node.

(** static variables of pack_graph<T> (pack_graph.h 86-88); [gp_restart] holds the
    values of the saved references (packing does not change them) *)
Record gpst : Type := mk_gp
  { gp_map : list (nat * N); gp_restart : list (option nat); gp_level : N }.
Definition upd_ty {A} (f : nat -> A) (k : nat) (a : A) : nat -> A :=
  fun x => if (x =? k)%nat then a else f x.
Fixpoint lookup {A} (k : nat) (m : list (nat * A)) : option A :=
  match m with
  | [] => None
  | (x, a) :: m' => if (x =? k)%nat then Some a else lookup k m'
  end.
Definition gp_init : nat -> gpst := fun _ => mk_gp [] [] 0.
Definition pout : Type := list ascii * (nat -> gpst).

Section GraphPack.
Variable h : heap.
Variable recur_max : N.

(** pack_graph.h 83-120.  [None]: fuel exhausted, or a dangling pointer was followed.
    [ID] is an [int]: graphs of 2^31 nodes or more are not considered. *)
Fixpoint pg (fuel : nat) (ty : nat) (p : option nat) (o : pout) {struct fuel} : option pout :=
  match fuel with
  | O => None
  | S fuel' =>
      let '(out, st) := o in
      let s0 := st ty in
      let out := if (gp_level s0 =? 0)%N then out ++ put32 recur_max else out in
      let s1 := mk_gp (gp_map s0) (gp_restart s0) ((gp_level s0 + 1) mod 2^32)%N in
      let r :=
        if (gp_level s1 =? recur_max)%N
        then Some (out, upd_ty st ty (mk_gp (gp_map s1) (p :: gp_restart s1) (gp_level s1)))
        else match p with
        | None => Some (out ++ put32 0, upd_ty st ty s1)
        | Some n =>
            match lookup n (gp_map s1) with
            | None =>
                let id := (len (gp_map s1) + 1)%N in
                let s2 := mk_gp ((n, id) :: gp_map s1) (gp_restart s1) (gp_level s1) in
                match h n with
                | None => None
                | Some nd => pg_fields fuel' nd (out ++ put32 id, upd_ty st ty s2)
                end
            | Some id => Some (out ++ put32 id, upd_ty st ty s1)
            end
        end in
      match r with
      | None => None
      | Some (out, st) =>
          let s := st ty in
          let s' := mk_gp (gp_map s) (gp_restart s) ((gp_level s + (2^32 - 1)) mod 2^32)%N in
          let st := upd_ty st ty s' in
          if (gp_level s' =? 0)%N then pg_drain fuel' ty (out, st) else Some (out, st)
      end
  end
(** members of *arg in declaration order *)
with pg_fields (fuel : nat) (fs : list field) (o : pout) {struct fuel} : option pout :=
  match fuel with
  | O => None
  | S fuel' =>
      match fs with
      | [] => Some o
      | FData b :: fs' => pg_fields fuel' fs' (fst o ++ b, snd o)
      | FPtr ty p :: fs' =>
          match pg fuel' ty p o with
          | Some o' => pg_fields fuel' fs' o'
          | None => None
          end
      end
  end
(** the while loop of lines 111-118 *)
with pg_drain (fuel : nat) (ty : nat) (o : pout) {struct fuel} : option pout :=
  match fuel with
  | O => None
  | S fuel' =>
      let '(out, st) := o in
      let s := st ty in
      match gp_restart s with
      | [] => Some (out, upd_ty st ty (mk_gp [] [] (gp_level s)))
      | p :: rs =>
          match pg fuel' ty p (out, upd_ty st ty (mk_gp (gp_map s) rs (gp_level s))) with
          | Some o' => pg_drain fuel' ty o'
          | None => None
          end
      end
  end.
End GraphPack.

(** where a pointer being unpacked is stored *)
Inductive slot : Type :=
| SRoot                       (* the caller's variable *)
| SField (a : nat) (j : nat).  (* member [j] of the object at address [a] *)

(** static variables of unpack_graph<T> (pack_graph.h 125-127) *)
Record gust : Type := mk_gu
  { gu_map : list (N * nat); gu_restart : list slot; gu_level : N }.
Definition gu_init : nat -> gust := fun _ => mk_gu [] [] 0.
(** objects allocated so far (addresses are indices), the caller's variable, statics *)
Record uenv : Type := mk_ue
  { u_heap : list node; u_root : option nat; u_st : nat -> gust }.

Fixpoint lookupN {A} (k : N) (m : list (N * A)) : option A :=
  match m with
  | [] => None
  | (x, a) :: m' => if (x =? k)%N then Some a else lookupN k m'
  end.
Fixpoint set_nth {A} (j : nat) (a : A) (l : list A) : list A :=
  match l, j with
  | [], _ => []
  | _ :: l', O => a :: l'
  | x :: l', S j' => x :: set_nth j' a l'
  end.
(** store a member / a pointer *)
Definition set_field (a j : nat) (f : field) (hp : list node) : list node :=
  match nth_error hp a with
  | Some nd => set_nth a (set_nth j f nd) hp
  | None => hp
  end.
Definition set_slot (sl : slot) (ty : nat) (p : option nat) (e : uenv) : uenv :=
  match sl with
  | SRoot => mk_ue (u_heap e) p (u_st e)
  | SField a j => mk_ue (set_field a j (FPtr ty p) (u_heap e)) (u_root e) (u_st e)
  end.
Definition set_st (ty : nat) (s : gust) (e : uenv) : uenv :=
  mk_ue (u_heap e) (u_root e) (upd_ty (u_st e) ty s).

(** class layouts: for each pointer type the members of the pointed-to class *)
Inductive gkind : Type := GData (n : nat) | GPtr (ty : nat).
Definition new_field (k : gkind) : field :=
  match k with GData n => FData (repeat zero n) | GPtr ty => FPtr ty None end.

Section GraphUnpack.
Variable layout : nat -> list gkind.

(** pack_graph.h 122-164; [rm] is buf.recur_max, which is itself read from the stream *)
Fixpoint ug (fuel : nat) (ty : nat) (sl : slot) (rm : N) (s : list ascii) (e : uenv) {struct fuel}
  : option (N * list ascii * uenv) :=
  match fuel with
  | O => None
  | S fuel' =>
      let s0 := u_st e ty in
      match (if (gu_level s0 =? 0)%N then get32 s else Some (rm, s)) with
      | None => None
      | Some (rm, s) =>
      let s1 := mk_gu (gu_map s0) (gu_restart s0) ((gu_level s0 + 1) mod 2^32)%N in
      let r :=
        if (gu_level s1 =? rm)%N
        then Some (rm, s, set_st ty (mk_gu (gu_map s1) (sl :: gu_restart s1) (gu_level s1)) e)
        else match get32 s with
        | None => None
        | Some (myid, s) =>
            if (myid =? 0)%N then Some (rm, s, set_slot sl ty None (set_st ty s1 e))
            else match lookupN myid (gu_map s1) with
            | Some a => Some (rm, s, set_slot sl ty (Some a) (set_st ty s1 e))
            | None =>
                let a := length (u_heap e) in
                let s2 := mk_gu ((myid, a) :: gu_map s1) (gu_restart s1) (gu_level s1) in
                let e1 := mk_ue (u_heap e ++ [map new_field (layout ty)]) (u_root e) (u_st e) in
                ug_fields fuel' (layout ty) a 0 rm s (set_slot sl ty (Some a) (set_st ty s2 e1))
            end
        end in
      match r with
      | None => None
      | Some (rm, s, e) =>
          let t := u_st e ty in
          let t' := mk_gu (gu_map t) (gu_restart t) ((gu_level t + (2^32 - 1)) mod 2^32)%N in
          let e := set_st ty t' e in
          if (gu_level t' =? 0)%N then ug_drain fuel' ty rm s e else Some (rm, s, e)
      end
      end
  end
with ug_fields (fuel : nat) (ks : list gkind) (a j : nat) (rm : N) (s : list ascii) (e : uenv)
  {struct fuel} : option (N * list ascii * uenv) :=
  match fuel with
  | O => None
  | S fuel' =>
      match ks with
      | [] => Some (rm, s, e)
      | GData n :: ks' =>
          match get n s with
          | None => None
          | Some (b, s1) =>
              ug_fields fuel' ks' a (S j) rm s1
                (mk_ue (set_field a j (FData b) (u_heap e)) (u_root e) (u_st e))
          end
      | GPtr ty :: ks' =>
          match ug fuel' ty (SField a j) rm s e with
          | Some (rm', s', e') => ug_fields fuel' ks' a (S j) rm' s' e'
          | None => None
          end
      end
  end
with ug_drain (fuel : nat) (ty : nat) (rm : N) (s : list ascii) (e : uenv) {struct fuel}
  : option (N * list ascii * uenv) :=
  match fuel with
  | O => None
  | S fuel' =>
      let t := u_st e ty in
      match gu_restart t with
      | [] => Some (rm, s, set_st ty (mk_gu [] [] (gu_level t)) e)
      | sl :: rs =>
          match ug fuel' ty sl rm s (set_st ty (mk_gu (gu_map t) rs (gu_level t)) e) with
          | Some (rm', s', e') => ug_drain fuel' ty rm' s' e'
          | None => None
          end
      end
  end.
End GraphUnpack.

(** ** top level: pack.. into an empty buffer from rest, unpack with no objects yet *)
Definition pack_root h recur_max fuel ty p : option (list ascii) :=
  match pg h recur_max fuel ty p ([], gp_init) with Some (out, _) => Some out | None => None end.
(** [rm0] is the receiving buffer's own recur_max, [old] the previous value of the
    destination, [hp0] objects that already exist *)
Definition unpack_root layout fuel ty rm0 s hp0 old : option (list node * option nat * list ascii) :=
  match ug layout fuel ty SRoot rm0 s (mk_ue hp0 old gu_init) with
  | Some (_, s', e) => Some (u_heap e, u_root e, s')
  | None => None
  end.

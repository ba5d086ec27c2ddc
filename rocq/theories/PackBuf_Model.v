(** * Model of the in-memory serialisation buffer [classdesc::pack_t]

    Source: /repo/pack_base.h lines 137-304, /repo/Realloc.h lines 21-31.
    Only [mode==buf] is modelled here (file modes: PackFile_Model.v). *)
From Verif Require Import Base.

(** pack_base.h:158-162 fields [m_data], [m_size], [m_pos].
    [pb_mem] is the block [m_data] points at ([[]] when NULL); its length is the
    length of the heap block, so an access beyond it is undefined behaviour.
    Simplification: bytes that the C++ leaves uninitialised have an arbitrary value,
    supplied as a parameter of the operation that creates them. *)
Record pack_buf : Type := mk_pb
  { pb_mem : list ascii; pb_size : N; pb_pos : N }.

(** Realloc.h:21-31 and pack_base.h:172-179: [realloc(d,s)] keeps the common prefix.
    [junk] provides the (indeterminate) new bytes, zero-padded to the right length.
    Simplification: allocation never fails. *)
Definition realloc_blk (junk mem : list ascii) (s : N) : list ascii :=
  firstn (N.to_nat s) (mem ++ junk ++ repeat zero (N.to_nat s)).

(** [memcpy] of [x] to offset [off] of a block, caller checks the bounds *)
Definition write_at (mem : list ascii) (off : N) (x : list ascii) : list ascii :=
  firstn (N.to_nat off) mem ++ x ++ skipn (N.to_nat (off + len x)) mem.

(** [memcpy] of [s] bytes from offset [off] of a block, caller checks the bounds *)
Definition read_at (mem : list ascii) (off s : N) : list ascii :=
  firstn (N.to_nat s) (skipn (N.to_nat off) mem).

(** pack_base.h:216-220 constructor [pack_t(size_t sz=0)]: allocates [sz]
    uninitialised bytes and declares them all valid. *)
Definition pb_new (sz : N) (junk : list ascii) : pack_buf :=
  mk_pb (realloc_blk junk [] sz) sz 0.
Definition pb_empty : pack_buf := pb_new 0 [].

(** pack_base.h:251-262 [packraw], mode==buf *)
Definition packraw (x : list ascii) : M pack_buf unit := fun st =>
  let sz' := ((pb_size st + len x) mod W)%N in
  let mem' := realloc_blk [] (pb_mem st) sz' in
  if (pb_size st + len x <=? len mem')%N
  then Ok tt (mk_pb (write_at mem' (pb_size st) x) sz' (pb_pos st))
  else UB.

(** pack_base.h:189-202 [append], mode==buf *)
Definition append (x : list ascii) : M pack_buf unit := fun st =>
  let sz' := ((pb_size st + len x) mod W)%N in
  let mem' := realloc_blk [] (pb_mem st) sz' in
  if (sz' =? 0)%N then Throw BadAlloc (mk_pb [] (pb_size st) (pb_pos st))
  else if (pb_size st + len x <=? len mem')%N
  then Ok tt (mk_pb (write_at mem' (pb_size st) x) sz' (pb_pos st))
  else UB.

(** pack_base.h:269-281 [unpackraw], mode==buf *)
Definition unpackraw (s : N) : M pack_buf (list ascii) := fun st =>
  if (pb_size st <? (s + pb_pos st) mod W)%N then Throw PackError st
  else if (pb_pos st + s <=? len (pb_mem st))%N
  then Ok (read_at (pb_mem st) (pb_pos st) s)
          (mk_pb (pb_mem st) (pb_size st) ((pb_pos st + s) mod W)%N)
  else UB.

(** pack_base.h:203-214 [popoff], mode==buf *)
Definition popoff (s : N) : M pack_buf (list ascii) := fun st =>
  if (pb_size st <? (pb_pos st + s) mod W)%N then Throw PackError st
  else if (pb_pos st + s <=? len (pb_mem st))%N
  then Ok (read_at (pb_mem st) (pb_pos st) s)
          (mk_pb (pb_mem st) (pb_size st) ((pb_pos st + s) mod W)%N)
  else UB.

(** conversion of a [long] offset added to a [size_t] *)
Definition addoff (n : N) (z : Z) : N := Z.to_N ((Z.of_N n + z) mod Z.of_N W).

(** pack_base.h:238-249 *)
Definition reseti : M pack_buf unit := fun st => Ok tt (mk_pb (pb_mem st) 0 (pb_pos st)).
Definition reseto : M pack_buf unit := fun st => Ok tt (mk_pb (pb_mem st) (pb_size st) 0).
(** a failed [assert] is classed with undefined behaviour *)
Definition seeki (offs : Z) : M pack_buf unit := fun st =>
  if (offs <=? 0)%Z then Ok tt (mk_pb (pb_mem st) (addoff (pb_size st) offs) (pb_pos st))
  else UB.
Definition seeko (offs : Z) : M pack_buf unit := fun st =>
  Ok tt (mk_pb (pb_mem st) (pb_size st) (addoff (pb_pos st) offs)).
(** pack_base.h:250 *)
Definition clear : M pack_buf unit := fun st => Ok tt (mk_pb [] 0 0).
(** pack_base.h:183-187; with [s==0] the block is freed and [bad_alloc] thrown
    before [m_size] is updated *)
Definition resize (s : N) (junk : list ascii) : M pack_buf unit := fun st =>
  let mem' := realloc_blk junk (pb_mem st) s in
  if (s =? 0)%N then Throw BadAlloc (mk_pb [] (pb_size st) (pb_pos st))
  else Ok tt (mk_pb mem' s (pb_pos st)).

(** pack_base.h:237 [operator bool] *)
Definition pb_more (st : pack_buf) : bool := (pb_pos st <? pb_size st)%N.
(** pack_base.h:166-169 [data()], restricted to the [size()] valid bytes *)
Definition pb_data (st : pack_buf) : list ascii :=
  firstn (N.to_nat (pb_size st)) (pb_mem st).

(** C library [memcmp] on equally long ranges: sign of the difference of the first
    differing bytes compared as unsigned char.  The C standard fixes only the sign,
    so the magnitude is a parameter [mag] (positive, otherwise arbitrary). *)
Fixpoint memcmp (mag : N -> N -> positive) (x y : list ascii) : Z :=
  match x, y with
  | a :: x', b :: y' =>
      if (N_of_ascii a =? N_of_ascii b)%N then memcmp mag x' y'
      else if (N_of_ascii a <? N_of_ascii b)%N
           then Zneg (mag (N_of_ascii a) (N_of_ascii b))
           else Zpos (mag (N_of_ascii a) (N_of_ascii b))
  | _, _ => 0
  end.
(** pack_base.h:293-298 [cmp] *)
Definition pb_cmp mag (x y : pack_buf) : Z :=
  if (pb_size x =? pb_size y)%N then memcmp mag (pb_data x) (pb_data y)
  else if (pb_size x <? pb_size y)%N then (-1) else 1.
(** pack_base.h:300-303 *)
Definition pb_lt mag x y : bool := (pb_cmp mag x y =? -1)%Z.
Definition pb_gt mag x y : bool := (pb_cmp mag x y =? 1)%Z.
Definition pb_eq mag x y : bool := (pb_cmp mag x y =? 0)%Z.
Definition pb_ne mag x y : bool := negb (pb_cmp mag x y =? 0)%Z.

(** Public operations of the class, for quantifying over histories *)
Inductive op : Type :=
| OPackRaw (x : list ascii) | OAppend (x : list ascii)
| OUnpackRaw (s : N) | OPopoff (s : N)
| OReseti | OReseto | OSeeki (z : Z) | OSeeko (z : Z)
| OClear | OResize (s : N) (junk : list ascii).

(** what the caller observes *)
Inductive out : Type := RUnit | RBytes (x : list ascii) | RThrow (e : exn) | RUB.

Definition obs {A} (f : A -> out) (r : res pack_buf A) : out * option pack_buf :=
  match r with
  | Ok a s => (f a, Some s)
  | Throw e s => (RThrow e, Some s)
  | UB => (RUB, None)
  end.
Definition step (st : pack_buf) (o : op) : out * option pack_buf :=
  match o with
  | OPackRaw x => obs (fun _ => RUnit) (packraw x st)
  | OAppend x => obs (fun _ => RUnit) (append x st)
  | OUnpackRaw s => obs RBytes (unpackraw s st)
  | OPopoff s => obs RBytes (popoff s st)
  | OReseti => obs (fun _ => RUnit) (reseti st)
  | OReseto => obs (fun _ => RUnit) (reseto st)
  | OSeeki z => obs (fun _ => RUnit) (seeki z st)
  | OSeeko z => obs (fun _ => RUnit) (seeko z st)
  | OClear => obs (fun _ => RUnit) (clear st)
  | OResize s junk => obs (fun _ => RUnit) (resize s junk st)
  end.
(** a caller that catches every exception and carries on *)
Fixpoint run (st : pack_buf) (os : list op) : list out * option pack_buf :=
  match os with
  | [] => ([], Some st)
  | o :: os' =>
      let '(r, st') := step st o in
      match st' with
      | None => ([r], None)
      | Some s => let '(rs, e) := run s os' in (r :: rs, e)
      end
  end.

(** pack_base.h:148-156 [swap_base] and 286-290 [swap] exchange the three modelled
    fields; [recur_max] is not exchanged.  The object state with the two public
    settings: *)
Record pack_obj : Type := mk_po
  { po_buf : pack_buf; po_ptr_flag : N; po_recur_max : N }.
Definition swap_base (a b : pack_obj) : pack_obj * pack_obj :=
  (mk_po (po_buf b) (po_ptr_flag b) (po_recur_max a),
   mk_po (po_buf a) (po_ptr_flag a) (po_recur_max b)).
(** pack_base.h:233: the move constructor initialises only [f] and [m_data] and then
    swaps; [uninit] are the indeterminate other fields of the new object. *)
Definition move_ctor (uninit : pack_obj) (x : pack_obj) : pack_obj * pack_obj :=
  swap_base (mk_po (mk_pb [] (pb_size (po_buf uninit)) (pb_pos (po_buf uninit)))
                   (po_ptr_flag uninit) (po_recur_max uninit)) x.
(** pack_base.h:234 *)
Definition move_assign (a x : pack_obj) : pack_obj * pack_obj := swap_base a x.

(** * Model of binary serialisation: [pack]/[unpack] of every kind of type

    Source: /repo/pack_base.h 599-765, /repo/pack_stl.h 81-331,
    /repo/polyAccessPack.h 16-171.  The generated descriptors call [pack] on each base
    and member in declaration order. *)
From Verif Require Import Base PackBuf_Model.

(** how a class member is described *)
Inductive mkind : Type :=
| MNormal
| MSkip    (* Exclude<T>, unserialisable<T>, const static: pack_base.h 581-595, 733-746, 764-765 *)
| MConst.  (* const member: packed, but read and discarded on unpack:
              pack_base.h 637-643, pack_stl.h 148-156, 177-188, 253 *)

(** Serialisable C++ types. *)
Inductive ty : Type :=
| TBasic (n : nat)          (* fundamental type with sizeof = n *)
| TEnum                     (* enum, via Enum_handle *)
| TStr (k : N)              (* std::basic_string with sizeof(charT) = k *)
| TCharArr (n : nat)        (* char x[n] (n = product of the dimensions) *)
| TSeq (t : ty)             (* vector, deque, list *)
| TArr (n : nat) (t : ty)   (* std::array<t,n> *)
| TCArr (n : nat) (t : ty)  (* t x[..][..], n = product of the dimensions *)
| TAssoc (multi : bool) (c : nat) (t : ty)
    (* (multi)set/map; [t] is the value_type with const removed from the key
       (pack_stl.h 31-39), [c] identifies the comparator *)
| TPair (a b : ty)
| TTup (ts : tys)
| TStruct (fs : flds)
| TOpt (t : ty)             (* shared_ptr/unique_ptr/auto_ptr to non-polymorphic t *)
| TPoly (p : ptab)          (* smart pointer to a PolyPack hierarchy *)
| TRawPtr                   (* T*, with ptr_flag==DEFAULT *)
with tys : Type := tnil | tcons (t : ty) (ts : tys)
with flds : Type := FNil | FCons (k : mkind) (t : ty) (fs : flds)
with ptab : Type := PNil | PCons (tag : N) (t : ty) (p : ptab).

(** Values.  A fundamental value is its object representation. *)
Inductive val : Type :=
| VRaw (b : list ascii)
| VEnum (z : Z)
| VStr (b : list ascii)
| VList (l : list val)       (* sequences, arrays, ordered containers, tuples, classes *)
| VPair (a b : val)
| VOpt (o : option val)
| VPoly (o : option (N * val))
| VPtr.

Definition as_list (v : val) : list val := match v with VList l => l | _ => [] end.

(** run [f] on each element in turn (the range-for loops) *)
Fixpoint forM {S A} (f : A -> M S unit) (l : list A) : M S unit :=
  match l with
  | [] => ret tt
  | a :: l' => f a ;;; forM f l'
  end.

(** [n] iterations of a loop whose bound was read from the stream; recursion on the
    binary representation so that a huge bound with an early exception still computes *)
Fixpoint iter_pos {S A} (p : positive) (f : A -> M S A) (a : A) : M S A :=
  match p with
  | xH => f a
  | xO q => b <- iter_pos q f a ;; iter_pos q f b
  | xI q => b <- f a ;; c <- iter_pos q f b ;; iter_pos q f c
  end.
Definition iterM {S A} (n : N) (f : A -> M S A) (a : A) : M S A :=
  match n with N0 => ret a | Npos p => iter_pos p f a end.

(** overwrite the first [k] of the given elements in place (pack_stl.h 138-139,
    pack_base.h 675) *)
Fixpoint up_list (f : val -> M pack_buf val) (k : N) (olds : list val) : M pack_buf (list val) :=
  match olds with
  | [] => ret []
  | o :: os => if (k =? 0)%N then ret olds
               else x <- f o ;; r <- up_list f (k - 1)%N os ;; ret (x :: r)
  end.

(** reading of a [uint64], a [bool], an [int]; loading a bool whose byte is neither 0
    nor 1 is undefined behaviour *)
Definition up64 : M pack_buf N := b <- popoff 8 ;; ret (unle b).
Definition up_bool : M pack_buf bool :=
  b <- popoff 1 ;;
  match unle b with 0%N => ret false | 1%N => ret true | _ => ub end.
Definition sext32 (n : N) : Z :=
  if (n <? 2^31)%N then Z.of_N n else (Z.of_N n - 2^32)%Z.
Definition enc_int (z : Z) : list ascii := le 4 (Z.to_N (z mod 2^32)).
Definition enc_bool (b : bool) : list ascii := le 1 (if b then 1 else 0).

Section Codec.
(** comparators of the ordered containers, acting on whole elements *)
Variable klt : nat -> val -> val -> bool.

(** [std::set/map::insert] ([multi=false]: no-op if an equivalent element exists) and
    [std::multiset/multimap::insert] (after the equivalent ones), on the in-order
    element list.  C++ standard library, trusted. *)
Fixpoint ins (multi : bool) (c : nat) (x : val) (l : list val) : list val :=
  match l with
  | [] => [x]
  | y :: l' => if klt c x y then x :: l
               else if klt c y x || multi then y :: ins multi c x l'
               else l
  end.

(** value of a default-constructed object.  Fundamental members of a freshly declared
    local are really indeterminate; every theorem shows they are overwritten. *)
Fixpoint dflt (t : ty) : val :=
  match t with
  | TBasic n | TCharArr n => VRaw (repeat zero n)
  | TEnum => VEnum 0
  | TStr _ => VStr []
  | TSeq _ | TAssoc _ _ _ => VList []
  | TArr n t' | TCArr n t' => VList (repeat (dflt t') n)
  | TPair a b => VPair (dflt a) (dflt b)
  | TTup ts => VList (dflt_tys ts)
  | TStruct fs => VList (dflt_flds fs)
  | TOpt _ => VOpt None
  | TPoly _ => VPoly None
  | TRawPtr => VPtr
  end
with dflt_tys (ts : tys) : list val :=
  match ts with tnil => [] | tcons t ts' => dflt t :: dflt_tys ts' end
with dflt_flds (fs : flds) : list val :=
  match fs with FNil => [] | FCons _ t fs' => dflt t :: dflt_flds fs' end.

(** [pack]: pack_base.h 613-627 (fundamental), 749-754 (enum), 656-665 (array), 678-688
    (char array), pack_stl.h 105-112 (containers), 238-247 (string), 287-295 (pair),
    307-316 (tuple), polyAccessPack.h 16-44 (smart pointers), pack_base.h 552-553 (raw
    pointers).  Ill-typed arguments, which C++ excludes, are mapped to [ub]. *)
Fixpoint pk (t : ty) (v : val) {struct t} : M pack_buf unit :=
  match t, v with
  | TBasic _, VRaw b => append b
  | TEnum, VEnum z => append (enc_int z)
  | TStr k, VStr b => append (le 8 (len b / k)) ;;; packraw b
  | TCharArr _, VRaw b => packraw b
  | TSeq te, VList vs => append (le 8 (len vs)) ;;; forM (pk te) vs
  | TArr _ te, VList vs => append (le 8 (len vs)) ;;; forM (pk te) vs
  | TAssoc _ _ te, VList vs => append (le 8 (len vs)) ;;; forM (pk te) vs
  | TCArr _ te, VList vs => forM (pk te) vs
  | TPair a b, VPair x y => pk a x ;;; pk b y
  | TTup ts, VList vs => pk_tys ts vs
  | TStruct fs, VList vs => pk_flds fs vs
  | TOpt _, VOpt None => append (enc_bool false)
  | TOpt te, VOpt (Some x) => append (enc_bool true) ;;; pk te x
  | TPoly _, VPoly None => append (enc_bool false)
  | TPoly p, VPoly (Some (tag, x)) =>
      append (enc_bool true) ;;; append (le 4 tag) ;;; pk_tab p tag x
  | TRawPtr, _ => throw PackError
  | _, _ => ub
  end
with pk_tys (ts : tys) (vs : list val) {struct ts} : M pack_buf unit :=
  match ts, vs with
  | tnil, [] => ret tt
  | tcons t ts', v :: vs' => pk t v ;;; pk_tys ts' vs'
  | _, _ => ub
  end
with pk_flds (fs : flds) (vs : list val) {struct fs} : M pack_buf unit :=
  match fs, vs with
  | FNil, [] => ret tt
  | FCons MSkip _ fs', _ :: vs' => pk_flds fs' vs'
  | FCons _ t fs', v :: vs' => pk t v ;;; pk_flds fs' vs'
  | _, _ => ub
  end
with pk_tab (p : ptab) (tag : N) (v : val) {struct p} : M pack_buf unit :=
  match p with   (* virtual call a->pack: the dynamic type's descriptor *)
  | PNil => ub
  | PCons tg t p' => if (tg =? tag)%N then pk t v else pk_tab p' tag v
  end.

(** [unpack] into a destination currently holding [old]: pack_base.h 629-643, 667-676,
    690-699, 756-762, pack_stl.h 118-188, 249-268, 297-305, 318-331,
    polyAccessPack.h 46-81, pack_base.h 575-576.
    Simplifications: the unused iterator [j] of pack_stl.h:124 is dropped; memory
    exhaustion is not modelled except [std::vector]'s length_error. *)
Fixpoint up (t : ty) (old : val) {struct t} : M pack_buf val :=
  match t with
  | TBasic n => b <- popoff (N.of_nat n) ;; ret (VRaw b)
  | TEnum => b <- popoff 4 ;; ret (VEnum (sext32 (unle b)))
  | TStr k =>
      size <- up64 ;;
      let n1 := ((size + 1) mod W)%N in      (* std::vector<cT> buf(size+1) *)
      if ((2^63 - 1) / k <? n1)%N then throw LengthError
      else b <- unpackraw ((k * size) mod W)%N ;;
           if (k * n1 <? len b)%N then ub    (* buf overrun *)
           else if (n1 =? 0)%N then ret old
           else ret (VStr (firstn (N.to_nat (k * (n1 - 1))) b))
  | TCharArr n => b <- unpackraw (N.of_nat n) ;; ret (VRaw b)
  | TSeq te =>
      sz <- up64 ;;
      vs <- iterM sz (fun acc => x <- up te (dflt te) ;; ret (acc ++ [x])) [] ;;
      ret (VList vs)
  | TArr n te =>
      sz <- up64 ;;
      vs <- up_list (up te) sz (as_list old) ;;
      ret (VList vs)
  | TCArr n te =>
      vs <- up_list (up te) (N.of_nat n) (as_list old) ;;
      ret (VList vs)
  | TAssoc multi c te =>
      sz <- up64 ;;
      vs <- iterM sz (fun acc => x <- up te (dflt te) ;; ret (ins multi c x acc)) [] ;;
      ret (VList vs)
  | TPair a b =>
      match old with
      | VPair oa ob => x <- up a oa ;; y <- up b ob ;; ret (VPair x y)
      | _ => ub
      end
  | TTup ts => vs <- up_tys ts (as_list old) ;; ret (VList vs)
  | TStruct fs => vs <- up_flds fs (as_list old) ;; ret (VList vs)
  | TOpt te =>
      valid <- up_bool ;;
      if (valid : bool) then x <- up te (dflt te) ;; ret (VOpt (Some x))
      else ret (VOpt None)
  | TPoly p =>
      valid <- up_bool ;;
      if (valid : bool) then tg <- popoff 4 ;; up_tab p (unle tg)
      else ret (VPoly None)
  | TRawPtr => throw PackError
  end
with up_tys (ts : tys) (olds : list val) {struct ts} : M pack_buf (list val) :=
  match ts, olds with
  | tnil, [] => ret []
  | tcons t ts', o :: os => x <- up t o ;; r <- up_tys ts' os ;; ret (x :: r)
  | _, _ => ub
  end
with up_flds (fs : flds) (olds : list val) {struct fs} : M pack_buf (list val) :=
  match fs, olds with
  | FNil, [] => ret []
  | FCons MSkip _ fs', o :: os => r <- up_flds fs' os ;; ret (o :: r)
  | FCons MConst t fs', o :: os =>
      match t with
      | TSeq te | TArr _ te =>      (* pack_stl.h 148-156 *)
          sz <- up64 ;; iterM sz (fun x => up te x) (dflt te) ;;; ret tt
      | _ => up t (dflt t) ;;; ret tt
      end ;;; r <- up_flds fs' os ;; ret (o :: r)
  | FCons MNormal t fs', o :: os => x <- up t o ;; r <- up_flds fs' os ;; ret (x :: r)
  | _, _ => ub
  end
with up_tab (p : ptab) (tag : N) {struct p} : M pack_buf val :=
  match p with
  | PNil => throw OtherExn          (* T::element_type::create of an unknown type *)
  | PCons tg t p' =>
      if (tg =? tag)%N then x <- up t (dflt t) ;; ret (VPoly (Some (tag, x)))
      else up_tab p' tag
  end.

(** pack_base.h 306-317 [deepCmp]/[deepEq] *)
Definition deepCmp mag (t : ty) (x y : val) : option Z :=
  match pk t x pb_empty, pk t y pb_empty with
  | Ok _ bx, Ok _ by_ => Some (pb_cmp mag bx by_)
  | _, _ => None
  end.
Definition deepEq mag t x y : option bool :=
  match deepCmp mag t x y with Some z => Some (z =? 0)%Z | None => None end.
End Codec.

(** * Model of Java class files (/repo/javaClass.h, /repo/javaClass_serialisation.h)

    [u2], [u4] and [u8] (javaClass.h 44-79) are modelled by their field [v].  The
    conversion of a [u2] to an integer goes through [operator short] (javaClass.h 47), so
    it is signed; that conversion is written out wherever the C++ performs it.

    The output is the list of bytes appended to the buffer; [None] stands for a call of
    [packraw] with a length of more than 2^64 - 2^15 bytes, or for reading the payload of
    a constant pool entry at the wrong type: neither has a defined result.  The reader
    runs in the monad [M] over the bytes not yet read, and throws [PackError] when they
    run out (pack_base.h, [unpackraw]).

    The descriptors of [Ref], [NameAndTypeInfo], [field_info], [method_info] and
    [ClassFile] are the ones classdesc generates from javaClass.h: the members in
    declaration order. *)
From Verif Require Import Base.

(** bytes written and read in turn: [u1 b = a.v >> 8*i] for [i] from [k-1] down to 0
    (javaClass_serialisation.h 84-96, 112-123, 137-146) *)
Fixpoint put_be (k : nat) (v : N) : list ascii :=
  match k with
  | O => []
  | S k' => ascii_of_N (N.shiftr v (8 * N.of_nat k') mod 256) :: put_be k' v
  end.

Definition rd := M (list ascii).
(** one byte: [unpack(buf,d,b)] for [u1] *)
Definition get1 : rd N :=
  fun l => match l with
           | c :: l' => Ok (N_of_ascii c) l'
           | [] => Throw PackError []
           end.
(** [a.v=(a.v<<8) | (0xFF&b)], [k] times (javaClass_serialisation.h 68-82, 98-110,
    125-135); [w] is the width of [v] in bits *)
Fixpoint get_be (w : N) (k : nat) (v : N) : rd N :=
  match k with
  | O => ret v
  | S k' => b <- get1 ;; get_be w k' (N.lor (N.shiftl v 8 mod 2 ^ w) (N.land 255 b))
  end.
Definition put_u2 := put_be 2.
Definition put_u4 := put_be 4.
Definition put_u8 := put_be 8.
Definition get_u2 : rd N := get_be 16 2 0.
Definition get_u4 : rd N := get_be 32 4 0.
Definition get_u8 : rd N := get_be 64 8 0.

(** a [size_t] stored in a [u2]: converted to [short], then to [unsigned short]
    (javaClass.h 49) *)
Definition to_u2 (n : N) : N := (n mod 2 ^ 16)%N.
(** [operator short] (javaClass.h 47) *)
Definition short_of (n : N) : Z :=
  if (n <? 2 ^ 15)%N then Z.of_N n else (Z.of_N n - 2 ^ 16)%Z.
(** a [short] converted to [size_t] or [uint64] *)
Definition size_of_short (z : Z) : N := Z.to_N (z mod 2 ^ 64)%Z.

(** std::string, javaClass_serialisation.h 41-66.  Packing: the length as [u2], then
    [packraw(a.c_str(), length)] where [length] is converted to [short], then [size_t];
    for lengths that are not below 2^16 the remaining characters are dropped. *)
Definition put_str (s : list ascii) : option (list ascii) :=
  let n := to_u2 (len s) in
  if (short_of n <? 0)%Z then None
  else Some (put_u2 n ++ firstn (N.to_nat n) s).
(** [packraw]/[unpackraw] of [n] bytes *)
Definition getraw (n : N) : rd (list ascii) :=
  fun l => if (len l <? n)%N then Throw PackError l
           else Ok (firstn (N.to_nat n) l) (skipn (N.to_nat n) l).
(** [new char[length]] with a negative length throws [std::bad_array_new_length] *)
Definition get_str : rd (list ascii) :=
  n <- get_u2 ;;
  if (short_of n <? 0)%Z then throw LengthError
  else getraw (size_of_short (short_of n)).

(** payload of a constant pool entry: the object behind [shared_ptr<void> info]
    (javaClass.h 617-655) *)
Inductive payload : Type :=
| PNone                         (* no object *)
| PU2 (v : N)                   (* u2 *)
| PRef (a b : N)                (* Ref *)
| PU4 (v : N)                   (* u4 *)
| PU8 (v : N)                   (* u8 *)
| PNT (a b : N)                 (* NameAndTypeInfo *)
| PStr (s : list ascii).        (* std::string *)
Record cp_info := Cp { tag : N; info : payload }.
(** default constructor, javaClass.h 623 *)
Definition cp0 := Cp 0 PNone.

(** which payload the [switch] statements select for a tag
    (javaClass_serialisation.h 156-177, 189-211; tags from javaClass.h 128-141) *)
Inductive kind := KNone | KU2 | KRef | KU4 | KU8 | KNT | KStr.
Definition kind_of (t : N) : kind :=
  match t with
  | 7%N | 8%N => KU2
  | 9%N | 10%N | 11%N => KRef
  | 3%N | 4%N => KU4
  | 5%N | 6%N => KU8
  | 12%N => KNT
  | 1%N => KStr
  | _ => KNone
  end.

(** javaClass_serialisation.h 148-179; [a.get<T>()] of an object of another type is
    undefined *)
Definition put_cp (c : cp_info) : option (list ascii) :=
  option_map (cons (ascii_of_N (tag c)))
    match kind_of (tag c), info c with
    | KNone, _ => Some []
    | KU2, PU2 v => Some (put_u2 v)
    | KRef, PRef a b => Some (put_u2 a ++ put_u2 b)
    | KU4, PU4 v => Some (put_u4 v)
    | KU8, PU8 v => Some (put_u8 v)
    | KNT, PNT a b => Some (put_u2 a ++ put_u2 b)
    | KStr, PStr s => put_str s
    | _, _ => None
    end.
(** javaClass_serialisation.h 181-213 and 316-320.  [a] is the entry as it was: an
    unknown tag leaves it alone. *)
Definition get_cp (a : cp_info) : rd cp_info :=
  t <- get1 ;;
  match kind_of t with
  | KNone => ret a
  | KU2 => v <- get_u2 ;; ret (Cp t (PU2 v))
  | KRef => x <- get_u2 ;; y <- get_u2 ;; ret (Cp t (PRef x y))
  | KU4 => v <- get_u4 ;; ret (Cp t (PU4 v))
  | KU8 => v <- get_u8 ;; ret (Cp t (PU8 v))
  | KNT => x <- get_u2 ;; y <- get_u2 ;; ret (Cp t (PNT x y))
  | KStr => s <- get_str ;; ret (Cp t (PStr s))
  end.

(** concatenation of outputs *)
Definition cat (x y : option (list ascii)) : option (list ascii) :=
  match x, y with Some a, Some b => Some (a ++ b) | _, _ => None end.
Definition cats {A} (f : A -> option (list ascii)) (l : list A) : option (list ascii) :=
  fold_right (fun x r => cat (f x) r) (Some []) l.

(** the constant pool, javaClass_serialisation.h 215-228: [for (int i=1; i<size; i++)]
    compares with [size] converted to [short] *)
Definition put_pool (p : list cp_info) : option (list ascii) :=
  let n := to_u2 (len p) in
  cat (Some (put_u2 n))
      (cats put_cp (firstn (Z.to_nat (short_of n) - 1) (tl p))).
(** [vector::resize] *)
Definition resize {A} (d : A) (n : nat) (l : list A) : list A :=
  firstn n l ++ repeat d (n - length l).
(** entry after entry, each into the place where it belongs *)
Fixpoint get_into (p : list cp_info) : rd (list cp_info) :=
  match p with
  | [] => ret []
  | a :: p' => c <- get_cp a ;; r <- get_into p' ;; ret (c :: r)
  end.
(** javaClass_serialisation.h 230-241: [a.resize(size)] of a negative [short] throws
    [std::length_error]; element 0 is not read *)
Definition get_pool (a : list cp_info) : rd (list cp_info) :=
  n <- get_u2 ;;
  if (short_of n <? 0)%Z then throw LengthError
  else match resize cp0 (Z.to_nat (short_of n)) a with
       | [] => ret []
       | z :: p => r <- get_into p ;; ret (z :: r)
       end.

(** javaClass.h 663-672; the content of [InfoVector] as bytes *)
Record attribute_info := At { attribute_name_index : N; ainfo : list ascii }.
(** javaClass.h 674-696 ([field_info] and [method_info] have the same members) *)
Record member_info := Mi { access_flags : N; name_index : N; descriptor_index : N;
                           mattributes : list attribute_info }.
(** javaClass.h 698-711 *)
Record class_file := Cf {
  magic : N; minor_version : N; major_version : N; constant_pool : list cp_info;
  cflags : N; this_class : N; super_class : N; interfaces : list N;
  fields : list member_info; methods : list member_info;
  attributes : list attribute_info }.

(** javaClass_serialisation.h 243-256 ([u4 length=a.info.size()] drops the upper half) *)
Definition put_at (a : attribute_info) : option (list ascii) :=
  Some (put_u2 (attribute_name_index a) ++ put_u4 (len (ainfo a) mod 2 ^ 32) ++ ainfo a).
(** javaClass_serialisation.h 258-271 *)
Definition get_at : rd attribute_info :=
  n <- get_u2 ;; l <- get_u4 ;; i <- getraw l ;; ret (At n i).

(** [JavaClassVector<T>] is a sequence (javaClass.h 82-89), so it is written by the
    generic function for containers (pack_stl.h 101-108): [b << uint64(a.size())], the
    native representation of a 64 bit number, where [size()] is a [u2]; then all
    elements. *)
Definition put_vec {A} (f : A -> option (list ascii)) (l : list A) : option (list ascii) :=
  cat (Some (le 8 (size_of_short (short_of (to_u2 (len l)))))) (cats f l).
(** pack_stl.h 115-127.  Every element takes at least one byte, so the number of bytes
    left bounds the number of elements that can be read; when it is exhausted the next
    element throws. *)
Fixpoint get_seq {A} (f : rd A) (fuel : nat) (n : N) : rd (list A) :=
  if (n =? 0)%N then ret []
  else match fuel with
       | O => throw PackError
       | S fuel' => x <- f ;; r <- get_seq f fuel' (n - 1) ;; ret (x :: r)
       end.
Definition get_vec {A} (f : rd A) : rd (list A) :=
  n <- (b <- getraw 8 ;; ret (unle b)) ;;
  (fun l => get_seq f (length l) n l).

(** generated descriptors of [field_info], [method_info] (javaClass.h 674-696) *)
Definition put_mem (m : member_info) : option (list ascii) :=
  cat (Some (put_u2 (access_flags m) ++ put_u2 (name_index m) ++ put_u2 (descriptor_index m)))
      (put_vec put_at (mattributes m)).
Definition get_mem : rd member_info :=
  a <- get_u2 ;; n <- get_u2 ;; d <- get_u2 ;; l <- get_vec get_at ;; ret (Mi a n d l).

(** generated descriptor of [ClassFile] (javaClass.h 698-711) *)
Definition put_class (c : class_file) : option (list ascii) :=
  cat (Some (put_u4 (magic c) ++ put_u2 (minor_version c) ++ put_u2 (major_version c)))
 (cat (put_pool (constant_pool c))
 (cat (Some (put_u2 (cflags c) ++ put_u2 (this_class c) ++ put_u2 (super_class c)))
 (cat (put_vec (fun v => Some (put_u2 v)) (interfaces c))
 (cat (put_vec put_mem (fields c))
 (cat (put_vec put_mem (methods c))
      (put_vec put_at (attributes c))))))).
(** [old] is the constant pool of the object read into *)
Definition get_class (old : list cp_info) : rd class_file :=
  m <- get_u4 ;; mi <- get_u2 ;; ma <- get_u2 ;; p <- get_pool old ;;
  f <- get_u2 ;; t <- get_u2 ;; s <- get_u2 ;; i <- get_vec get_u2 ;;
  fs <- get_vec get_mem ;; ms <- get_vec get_mem ;; a <- get_vec get_at ;;
  ret (Cf m mi ma p f t s i fs ms a).

(** [ClassFile::addMethod], javaClass.h 721-731 *)
Definition add_method (name desc : list ascii) (c : class_file) : class_file :=
  let p := constant_pool c in
  let p1 := p ++ [Cp 1 (PStr name)] in
  Cf (magic c) (minor_version c) (major_version c) (p1 ++ [Cp 1 (PStr desc)])
     (cflags c) (this_class c) (super_class c) (interfaces c) (fields c)
     (methods c ++ [Mi 0 (to_u2 (len p)) (to_u2 (len p1)) []]) (attributes c).
(** [javaClass_t], javaClass_base.h 292-298, with the pool of javaClass.h 711 *)
Definition class0 : class_file := Cf 3405691582 0 50 [cp0] 0 0 0 [] [] [] [].

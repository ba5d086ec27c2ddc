(** * Model of xdr_pack

    Source: /repo/xdr_pack.cc (all of it), /repo/pack_base.h 322-358.
    The XDR library itself is not part of the repository: [enc]/[dec] below are its
    filters as specified by ONC RPC (RFC 4506 encodings, memory streams that refuse to go
    beyond the size given to xdrmem_create, stdio streams over a file).  The behaviour of
    xdr_long on a 64 bit value that does not fit in 32 bits differs between libraries
    (refused by glibc, truncated by libtirpc) and is the parameter [refuse_big].
    Simplifications: bool is represented by the char it is encoded as; memory obtained by
    realloc but not yet written reads as zero; only the default buffer size BUFCHUNK. *)
From Verif Require Import Base.

Inductive xkind : Type :=
| KChar | KUChar | KShort | KUShort | KInt | KUInt | KLong | KULong | KHyper | KUHyper
| KFloat | KDouble          (* bit patterns *)
| KLongDouble.              (* no filter: xdr_pack.cc 145-148 *)

Definition be (k : nat) (n : N) : list ascii := rev (le k n).
Definition unbe (l : list ascii) : N := unle (rev l).
(** two's complement *)
Definition wrapN (bits : N) (z : Z) : N := Z.to_N (z mod 2 ^ Z.of_N bits).
Definition signed (bits : N) (n : N) : Z :=
  if (n <? 2 ^ (bits - 1))%N then Z.of_N n else (Z.of_N n - 2 ^ Z.of_N bits)%Z.
Definition trunc_s (bits : N) (z : Z) : Z := signed bits (wrapN bits z).

Section Lib.
Variable refuse_big : bool.
(** the encoding filters (xdr_char, xdr_int, ...) *)
Definition enc (k : xkind) (z : Z) : option (list ascii) :=
  match k with
  | KChar | KShort | KInt => Some (be 4 (wrapN 32 z))
  | KUChar | KUShort | KUInt | KFloat => Some (be 4 (wrapN 32 z))
  | KLong => if refuse_big && negb ((- 2^31 <=? z) && (z <? 2^31))%Z
             then None else Some (be 4 (wrapN 32 z))
  | KULong => if refuse_big && negb (z <? 2^32)%Z
              then None else Some (be 4 (wrapN 32 z))
  | KHyper | KUHyper | KDouble => Some (be 8 (wrapN 64 z))
  | KLongDouble => None
  end.
Definition width (k : xkind) : nat :=
  match k with KHyper | KUHyper | KDouble => 8 | _ => 4 end.
(** the decoding filters *)
Definition dec (k : xkind) (b : list ascii) : Z :=
  match k with
  | KChar => trunc_s 8 (signed 32 (unbe b))
  | KUChar => Z.of_N (unbe b mod 2^8)
  | KShort => trunc_s 16 (signed 32 (unbe b))
  | KUShort => Z.of_N (unbe b mod 2^16)
  | KInt | KLong => signed 32 (unbe b)
  | KUInt | KULong | KFloat => Z.of_N (unbe b)
  | KHyper => signed 64 (unbe b)
  | KUHyper | KDouble => Z.of_N (unbe b)
  | KLongDouble => 0
  end.
(** xdr_opaque: the bytes, then zeros up to a multiple of four *)
Definition pad4 (n : nat) : nat := ((4 - n mod 4) mod 4)%nat.
Definition enc_raw (b : list ascii) : list ascii := b ++ repeat "000"%char (pad4 (length b)).

(** ** in memory: xdr_pack(size_t) *)
Definition BUFCHUNK : nat := 1024.       (* pack_base.h 323 *)
Record xst : Type := mk_x
  { x_data : list ascii;      (* the whole allocation *)
    x_asize : nat;
    x_in : nat;               (* xdr_getpos(input), relative to asize *)
    x_out : nat;              (* xdr_getpos(output), the stream covers BUFCHUNK bytes *)
    x_size : nat;             (* m_size *)
    x_pos : nat }.            (* m_pos *)
(** xdr_pack.cc 150-155; pack_base.h 211 sets m_size to the size allocated *)
Definition x_init : xst := mk_x (repeat "000"%char BUFCHUNK) 0 0 0 BUFCHUNK 0.

Definition overwrite (pos : nat) (b l : list ascii) : list ascii :=
  firstn pos l ++ b ++ skipn (pos + length b) l.
(** xdrmem stream: encode at the input position *)
Definition x_put (b : list ascii) (s : xst) : option xst :=
  if (BUFCHUNK - x_in s <? length b)%nat then None
  else Some (mk_x (overwrite (x_asize s + x_in s) b (x_data s)) (x_asize s)
                  (x_in s + length b) (x_out s) (x_asize s + (x_in s + length b)) (x_pos s)).
(** xdr_pack.cc 189-197, 249-257 *)
Definition x_grow (s : xst) : xst :=
  let a := (x_asize s + x_in s)%nat in
  mk_x (firstn (a + BUFCHUNK) (x_data s) ++ repeat "000"%char (a + BUFCHUNK - length (x_data s)))
       a 0 0 (x_size s) (x_pos s).
(** append, xdr_pack.cc 187-202; [None] is pack_error *)
Definition x_append (k : xkind) (z : Z) (s : xst) : option xst :=
  let s := if (BUFCHUNK - x_in s <? 8)%nat then x_grow s else s in
  match enc k z with
  | None => None
  | Some b => x_put b s
  end.
(** packraw, xdr_pack.cc 247-262 *)
Definition x_packraw (b : list ascii) (s : xst) : option xst :=
  let s := if (BUFCHUNK - x_in s <? length b)%nat then x_grow s else s in
  x_put (enc_raw b) s.
(** xdrmem stream: decode; popoff and unpackraw set m_pos to the position of the stream *)
Definition x_get (n : nat) (s : xst) : option (list ascii * xst) :=
  if (BUFCHUNK - x_out s <? n)%nat then None
  else Some (firstn n (skipn (x_out s) (x_data s)),
             mk_x (x_data s) (x_asize s) (x_in s) (x_out s + n) (x_size s) (x_out s + n)).
(** popoff, xdr_pack.cc 204-209 *)
Definition x_popoff (k : xkind) (s : xst) : option (Z * xst) :=
  match k with
  | KLongDouble => None
  | _ => match x_get (width k) s with
         | Some (b, s') => Some (dec k b, s')
         | None => None
         end
  end.
(** unpackraw, xdr_pack.cc 264-269 *)
Definition x_unpackraw (n : nat) (s : xst) : option (list ascii * xst) :=
  match x_get (n + pad4 n) s with
  | Some (b, s') => Some (firstn n b, s')
  | None => None
  end.

(** reseti, xdr_pack.cc 210-219: with one chunk only the position of the stream changes *)
Definition x_reseti (s : xst) : xst :=
  if (x_asize s =? 0)%nat then mk_x (x_data s) 0 0 (x_out s) (x_size s) (x_pos s)
  else mk_x (x_data s) 0 0 (x_out s) 0 (x_pos s).
(** reseto, xdr_pack.cc 221-225: m_pos stays *)
Definition x_reseto (s : xst) : xst :=
  mk_x (x_data s) (x_asize s) (x_in s) 0 (x_size s) (x_pos s).
(** xdr_setpos on a memory stream: the new position (a 32 bit unsigned number), or the old one if the
    new one is beyond the end *)
Definition setpos (p : Z) (old : nat) : nat :=
  let q := (p mod 2 ^ 32)%Z in if (q <=? Z.of_nat BUFCHUNK)%Z then Z.to_nat q else old.
(** seeki, xdr_pack.cc 228-243; [None]: the assertion fails, or the position lies before the
    beginning, where the division has no meaning the code relies on *)
Definition x_seeki (offs : Z) (s : xst) : option xst :=
  if (0 <? offs)%Z then None else
  let p := (Z.of_nat (x_in s) + offs)%Z in
  if (p <? 0)%Z then
    let q := (p + Z.of_nat (x_asize s))%Z in
    if (q <? 0)%Z then None else
    let a := Z.to_nat (q / Z.of_nat BUFCHUNK) in
    let r := (q mod Z.of_nat BUFCHUNK)%Z in
    Some (mk_x (x_data s) a (setpos r 0) (x_out s) (a + Z.to_nat r) (x_pos s))
  else Some (mk_x (x_data s) (x_asize s) (setpos p (x_in s)) (x_out s) (x_asize s + Z.to_nat p) (x_pos s)).
(** seeko, xdr_pack.cc 245-249 *)
Definition x_seeko (offs : Z) (s : xst) : xst :=
  mk_x (x_data s) (x_asize s) (x_in s) (setpos (Z.of_nat (x_out s) + offs) (x_out s)) (x_size s) (x_pos s).
(** [operator bool], pack_base.h 237 *)
Definition x_more (s : xst) : bool := (x_pos s <? x_size s)%nat.

Inductive xitem : Type := XVal (k : xkind) (z : Z) | XRaw (b : list ascii).
Inductive xreq : Type := QVal (k : xkind) | QRaw (n : nat).
Definition req (i : xitem) : xreq :=
  match i with XVal k _ => QVal k | XRaw b => QRaw (length b) end.
Definition x_write (i : xitem) (s : xst) : option xst :=
  match i with XVal k z => x_append k z s | XRaw b => x_packraw b s end.
Definition x_read (q : xreq) (s : xst) : option (xitem * xst) :=
  match q with
  | QVal k => match x_popoff k s with Some (z, s') => Some (XVal k z, s') | None => None end
  | QRaw n => match x_unpackraw n s with Some (b, s') => Some (XRaw b, s') | None => None end
  end.
Fixpoint x_writes (l : list xitem) (s : xst) : option xst :=
  match l with
  | [] => Some s
  | i :: l' => match x_write i s with Some s' => x_writes l' s' | None => None end
  end.
Fixpoint x_reads (l : list xreq) (s : xst) : option (list xitem * xst) :=
  match l with
  | [] => Some ([], s)
  | q :: l' => match x_read q s with
               | Some (i, s') => match x_reads l' s' with
                                 | Some (is, s'') => Some (i :: is, s'') | None => None end
               | None => None end
  end.

(** ** on files: xdr_pack(fname, rw), xdrstdio streams (xdr_pack.cc 157-171): no chunks *)
Definition f_write (i : xitem) (f : list ascii) : option (list ascii) :=
  match i with
  | XVal k z => match enc k z with Some b => Some (f ++ b) | None => None end
  | XRaw b => Some (f ++ enc_raw b)
  end.
Fixpoint f_writes (l : list xitem) (f : list ascii) : option (list ascii) :=
  match l with
  | [] => Some f
  | i :: l' => match f_write i f with Some f' => f_writes l' f' | None => None end
  end.
Definition f_get (n : nat) (f : list ascii) : option (list ascii * list ascii) :=
  if (length f <? n)%nat then None else Some (firstn n f, skipn n f).
Definition f_read (q : xreq) (f : list ascii) : option (xitem * list ascii) :=
  match q with
  | QVal KLongDouble => None
  | QVal k => match f_get (width k) f with Some (b, f') => Some (XVal k (dec k b), f') | None => None end
  | QRaw n => match f_get (n + pad4 n) f with
              | Some (b, f') => Some (XRaw (firstn n b), f') | None => None end
  end.
Fixpoint f_reads (l : list xreq) (f : list ascii) : option (list xitem * list ascii) :=
  match l with
  | [] => Some ([], f)
  | q :: l' => match f_read q f with
               | Some (i, f') => match f_reads l' f' with
                                 | Some (is, f'') => Some (i :: is, f'') | None => None end
               | None => None end
  end.
End Lib.

(** * Specification of XDR serialisation (RFC 4506) *)
From Verif Require Import Base Xdr_Model.

(** range of each C++ type on LP64 *)
Definition xrange (k : xkind) : Z * Z :=
  match k with
  | KChar => (-128, 127)
  | KUChar => (0, 255)
  | KShort => (-32768, 32767)
  | KUShort => (0, 65535)
  | KInt => (- 2^31, 2^31 - 1)
  | KUInt | KFloat => (0, 2^32 - 1)
  | KLong | KHyper => (- 2^63, 2^63 - 1)
  | KULong | KUHyper | KDouble => (0, 2^64 - 1)
  | KLongDouble => (1, 0)
  end%Z.
Definition in_range (k : xkind) (z : Z) : Prop := (fst (xrange k) <= z <= snd (xrange k))%Z.
(** longs must fit in the 32 bits XDR gives them *)
Definition portable (k : xkind) (z : Z) : Prop :=
  in_range k z /\
  match k with
  | KLong => (- 2^31 <= z < 2^31)%Z
  | KULong => (z < 2^32)%Z
  | _ => True
  end.
Definition item_ok (i : xitem) : Prop :=
  match i with XVal k z => portable k z | XRaw _ => True end.
Definition chunk_ok (i : xitem) : Prop :=
  match i with XVal k z => portable k z | XRaw b => (length b <= 1024)%nat end.

(** most significant byte first, two's complement on the bytes present *)
Fixpoint bigendian (acc : Z) (l : list ascii) : Z :=
  match l with
  | [] => acc
  | c :: l' => bigendian (256 * acc + Z.of_N (N_of_ascii c)) l'
  end.
Definition rfc4506 (signedness : bool) (b : list ascii) : Z :=
  let v := bigendian 0 b in
  let m := (256 ^ Z.of_nat (length b))%Z in
  if signedness && (m / 2 <=? v)%Z then (v - m)%Z else v.
Definition is_signed (k : xkind) : bool :=
  match k with KChar | KShort | KInt | KLong | KHyper => true | _ => false end.

(** bytes on the wire for a whole sequence *)
Definition wire (refuse : bool) (i : xitem) : list ascii :=
  match i with
  | XVal k z => match enc refuse k z with Some b => b | None => [] end
  | XRaw b => enc_raw b
  end.
Definition wires (refuse : bool) (l : list xitem) : list ascii := concat (map (wire refuse) l).

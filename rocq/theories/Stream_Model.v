(** * Models of [BinStream], serialisable [Iterator] and file-backed buffers

    Source: /repo/pack_base.h 371-438, /repo/pack_stl.h 50-102, 197-223,
    /repo/pack_base.h 189-281 (file branches). *)
From Verif Require Import Base PackBuf_Model Codec_Model.

(** ** BinStream: raw streaming of PODs and of containers of them *)
Inductive bty : Type :=
| BRaw (n : nat)                        (* POD of size n: pack_base.h 376-390 *)
| BVec (n : nat)                        (* std::vector of PODs of size n: pack_stl.h 81-102 *)
| BSeq (t : bty)                        (* other sequences: pack_base.h 392-414 *)
| BAssoc (multi : bool) (c : nat) (t : bty).   (* pack_base.h 416-429 *)

Definition raw_of (v : val) : list ascii := match v with VRaw b => b | _ => [] end.

(** pack_base.h 376-382, 392-400; pack_stl.h 81-88.  Ill-typed arguments: [ub]. *)
Fixpoint bpk (t : bty) (v : val) {struct t} : M pack_buf unit :=
  match t, v with
  | BRaw _, VRaw b => packraw b
  | BVec _, VList vs =>
      packraw (le 8 (len vs)) ;;;
      match vs with [] => ret tt | _ => packraw (concat (map raw_of vs)) end
  | BSeq te, VList vs | BAssoc _ _ te, VList vs =>
      packraw (le 8 (len vs)) ;;; forM (bpk te) vs
  | _, _ => ub
  end.

(** the elements of a memory block of [k] objects of size [n] *)
Fixpoint chunks (n k : nat) (b : list ascii) : list val :=
  match k with
  | O => []
  | S k' => VRaw (firstn n b) :: chunks n k' (skipn n b)
  end.

(** value of the local [v] of pack_base.h:407,422 before its first use *)
Definition bdflt (t : bty) : val :=
  match t with BRaw n => VRaw (repeat zero n) | _ => VList [] end.

Section BinStream.
Variable klt : nat -> val -> val -> bool.

(** pack_base.h 383-390, 402-429; pack_stl.h 89-102.  [v] is declared outside the loop
    and is not cleared between elements; nor is the destination. *)
Fixpoint bup (t : bty) (old : val) {struct t} : M pack_buf val :=
  match t with
  | BRaw n => b <- unpackraw (N.of_nat n) ;; ret (VRaw b)
  | BVec n =>
      s8 <- unpackraw 8 ;;
      let sz := unle s8 in
      fun st =>
      if ((pb_size st + (W - pb_pos st)) mod W <? (sz * N.of_nat n) mod W)%N
      then Throw PackError st
      else if ((2^63 - 1) / N.of_nat n <? sz)%N then Throw LengthError st  (* resize *)
      else if (sz =? 0)%N then Ok (VList []) st
      else (b <- unpackraw ((sz * N.of_nat n) mod W) ;;
            if (sz * N.of_nat n <? len b)%N then ub
            else ret (VList (chunks n (N.to_nat sz) b))) st
  | BSeq te =>
      s8 <- unpackraw 8 ;;
      r <- iterM (unle s8) (fun '(acc, v) => x <- bup te v ;; ret (acc ++ [x], x))
             (as_list old, bdflt te) ;;
      ret (VList (fst r))
  | BAssoc multi c te =>
      s8 <- unpackraw 8 ;;
      r <- iterM (unle s8) (fun '(acc, v) => x <- bup te v ;; ret (ins klt multi c x acc, x))
             (as_list old, bdflt te) ;;
      ret (VList (fst r))
  end.
End BinStream.

(** ** Iterator: pack_stl.h 50-79, 197-223.  An iterator is its distance from [begin()];
    [cont] is the attached container's elements, if any.  [size_type] has 8 bytes. *)
Definition it_pack (cont : option (list val)) (dist : N) : M pack_buf unit :=
  append (le 8 (match cont with Some _ => dist | None => 0 end)).
(** result: the new distance; advancing past [end()] is undefined behaviour *)
Definition it_unpack (cont : option (list val)) (old : N) : M pack_buf N :=
  i <- up64 ;;
  match cont with
  | None => ret old
  | Some l => if (i <=? len l)%N then ret i else ub
  end.

(** ** file-backed buffers *)
Inductive fmode := Writef | Readf.
(** [f_data]: contents of the file, [f_off]: C stream position *)
Record file_buf : Type := mk_fb
  { f_mode : fmode; f_data : list ascii; f_off : N; f_size : N; f_pos : N }.

(** pack_base.h 221-230 with [fopen]: "w" truncates, "r" starts at offset 0 *)
Definition f_create : file_buf := mk_fb Writef [] 0 0 0.
Definition f_open (content : list ascii) : file_buf := mk_fb Readf content 0 0 0.

(** [fwrite]/[fread] of one item of [s>0] bytes.  C library, trusted: a short read leaves
    the stream position at the end of the file. *)
Definition fwrite (x : list ascii) (fb : file_buf) : bool * file_buf :=
  match f_mode fb with
  | Readf => (false, fb)
  | Writef =>
      let base := firstn (N.to_nat (f_off fb)) (f_data fb ++ repeat zero (N.to_nat (f_off fb))) in
      (true, mk_fb Writef (base ++ x ++ skipn (N.to_nat (f_off fb + len x)) (f_data fb))
                   (f_off fb + len x)%N (f_size fb) (f_pos fb))
  end.
Definition fread (s : N) (fb : file_buf) : option (list ascii) * file_buf :=
  match f_mode fb with
  | Writef => (None, fb)
  | Readf =>
      if (f_off fb + s <=? len (f_data fb))%N
      then (Some (read_at (f_data fb) (f_off fb) s),
            mk_fb Readf (f_data fb) (f_off fb + s)%N (f_size fb) (f_pos fb))
      else (None, mk_fb Readf (f_data fb) (N.max (f_off fb) (len (f_data fb)))
                        (f_size fb) (f_pos fb))
  end.
Definition fseek (o : N) (fb : file_buf) : file_buf :=
  mk_fb (f_mode fb) (f_data fb) o (f_size fb) (f_pos fb).

(** pack_base.h 189-202 [append], file branch; sizes of basic types are positive *)
Definition f_append (x : list ascii) : M file_buf unit := fun fb =>
  match x with
  | [] => Throw PackError fb
  | _ => match fwrite x fb with
         | (true, fb') => Ok tt (mk_fb (f_mode fb') (f_data fb') (f_off fb')
                                   ((f_size fb' + len x) mod W)%N (f_pos fb'))
         | (false, fb') => Throw PackError fb'
         end
  end.
(** pack_base.h 251-262 [packraw], file branch: [m_size] is not updated *)
Definition f_packraw (x : list ascii) : M file_buf unit := fun fb =>
  match x with
  | [] => Ok tt fb
  | _ => match fwrite x fb with
         | (true, fb') => Ok tt fb'
         | (false, fb') => Throw PackError fb'
         end
  end.
(** pack_base.h 203-214 [popoff] and 269-281 [unpackraw], file branches *)
Definition f_popoff (s : N) : M file_buf (list ascii) := fun fb =>
  if (s =? 0)%N then Throw PackError fb
  else match fread s fb with
       | (Some b, fb') => Ok b (mk_fb (f_mode fb') (f_data fb') (f_off fb') (f_size fb')
                                  ((f_pos fb' + s) mod W)%N)
       | (None, fb') => Throw PackError fb'
       end.
Definition f_unpackraw (s : N) : M file_buf (list ascii) := fun fb =>
  if (s =? 0)%N then Ok [] fb
  else match fread s fb with
       | (Some b, fb') => Ok b (mk_fb (f_mode fb') (f_data fb') (f_off fb') (f_size fb')
                                  ((f_pos fb' + s) mod W)%N)
       | (None, fb') => Throw PackError fb'
       end.
(** pack_base.h 238-239 *)
Definition f_reseti : M file_buf unit := fun fb =>
  Ok tt (fseek 0 (mk_fb (f_mode fb) (f_data fb) (f_off fb) 0 (f_pos fb))).
Definition f_reseto : M file_buf unit := fun fb =>
  Ok tt (fseek 0 (mk_fb (f_mode fb) (f_data fb) (f_off fb) (f_size fb) 0)).

(** calls on a writing and on a reading buffer *)
Inductive wcall := WTyped (x : list ascii) | WRaw (x : list ascii).
Inductive rcall := RTyped (s : N) | RRaw (s : N) | RReset.
Fixpoint f_write_all (cs : list wcall) : M file_buf unit :=
  match cs with
  | [] => ret tt
  | WTyped x :: cs' => f_append x ;;; f_write_all cs'
  | WRaw x :: cs' => f_packraw x ;;; f_write_all cs'
  end.
Fixpoint f_read_all (cs : list rcall) : M file_buf (list (list ascii)) :=
  match cs with
  | [] => ret []
  | RTyped s :: cs' => x <- f_popoff s ;; r <- f_read_all cs' ;; ret (x :: r)
  | RRaw s :: cs' => x <- f_unpackraw s ;; r <- f_read_all cs' ;; ret (x :: r)
  | RReset :: cs' => f_reseto ;;; r <- f_read_all cs' ;; ret ([] :: r)
  end.

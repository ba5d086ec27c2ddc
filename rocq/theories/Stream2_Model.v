(** * File-backed buffers: moving about in the file *)
(** /repo/pack_base.h 237-249, file branches *)
From Verif Require Import Base PackBuf_Model Stream_Model.

(** [fseek(f,offs,SEEK_CUR)].  C library, trusted: a position before the beginning is refused
    and leaves the stream where it is; one beyond the end is accepted. *)
Definition fseek_cur (o : Z) (fb : file_buf) : file_buf :=
  let p := (Z.of_N (f_off fb) + o)%Z in if (p <? 0)%Z then fb else fseek (Z.to_N p) fb.
(** 237 [operator bool] *)
Definition f_more (fb : file_buf) : bool := (f_pos fb <? f_size fb)%N.
(** 240-244; a failed [assert] is classed with undefined behaviour *)
Definition f_seeki (o : Z) : M file_buf unit := fun fb =>
  if (o <=? 0)%Z
  then Ok tt (fseek_cur o (mk_fb (f_mode fb) (f_data fb) (f_off fb) (addoff (f_size fb) o) (f_pos fb)))
  else UB.
(** 245-249 *)
Definition f_seeko (o : Z) : M file_buf unit := fun fb =>
  Ok tt (fseek_cur o (mk_fb (f_mode fb) (f_data fb) (f_off fb) (f_size fb) (addoff (f_pos fb) o))).

(** calls on a writing and on a reading buffer *)
Inductive wop := PTyped (x : list ascii) | PRaw (x : list ascii) | PReset | PSeek (o : Z).
Inductive rop := GTyped (s : N) | GRaw (s : N) | GReset | GSeek (o : Z).
Fixpoint f_puts (cs : list wop) : M file_buf unit :=
  match cs with
  | [] => ret tt
  | PTyped x :: cs' => f_append x ;;; f_puts cs'
  | PRaw x :: cs' => f_packraw x ;;; f_puts cs'
  | PReset :: cs' => f_reseti ;;; f_puts cs'
  | PSeek o :: cs' => f_seeki o ;;; f_puts cs'
  end.
Fixpoint f_gets (cs : list rop) : M file_buf (list (list ascii)) :=
  match cs with
  | [] => ret []
  | GTyped s :: cs' => x <- f_popoff s ;; r <- f_gets cs' ;; ret (x :: r)
  | GRaw s :: cs' => x <- f_unpackraw s ;; r <- f_gets cs' ;; ret (x :: r)
  | GReset :: cs' => f_reseto ;;; r <- f_gets cs' ;; ret ([] :: r)
  | GSeek o :: cs' => f_seeko o ;;; r <- f_gets cs' ;; ret ([] :: r)
  end.

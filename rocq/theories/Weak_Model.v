(** * Model of binary serialisation of [weak_ptr] (/repo/polyAccessPack.h 105-125)

    A [weak_ptr] is modelled by what it currently refers to: [None] when it is empty or
    expired.  Only non-polymorphic targets (assignment through a base reference slices,
    which is outside the value model). *)
From Verif Require Import Base PackBuf_Model Codec_Model.

(** polyAccessPack.h 105-111: packs [a.lock()] as a [shared_ptr] *)
Definition pk_weak (t : ty) (target : option val) : M pack_buf unit :=
  pk (TOpt t) (VOpt target).
(** polyAccessPack.h 113-125: unpack to a temporary [shared_ptr], then assign through
    the pointer if it is live; [*tmp] of an empty pointer is undefined behaviour *)
Definition up_weak klt (t : ty) (target : option val) : M pack_buf (option val) :=
  tmp <- up klt (TOpt t) (VOpt None) ;;
  match target with
  | None => ret None
  | Some _ => match tmp with
              | VOpt (Some x) => ret (Some x)
              | _ => ub
              end
  end.

(** * Properties of the reference counting handles: C15, C16 *)
From Verif Require Import Base Base_Proofs Ref_Model Ref_Spec Ref_Proofs.

(** ** C15: PtrStoreRef *)
(** For every history whatsoever: no freed object is touched or freed again (the run is
    defined), and the object of every live handle is still there. *)
Theorem C15_no_early_free : forall n ops,
  exists s, prun ops (pinit n) = Some s /\
    forall v k, nth_error (ps_vars s) v = Some (Live (Some k)) ->
      exists o, nth_error (ps_objs s) k = Some o /\ po_live o = true.
Proof.
  intros n ops. destruct (prun_ok false ops (pinit n) (PInv_init _ n)) as (s & E & I); [discriminate|].
  exists s. split; auto. intros v k. now apply (PInv_live false).
Qed.
(** If handles are assigned to only while they hold nothing, an object is alive exactly as
    long as some handle holds it: no leak either. *)
Theorem C15_exact_partial : forall n ops, history_ok ops (pinit n) ->
  exists s, prun ops (pinit n) = Some s /\
    forall k o, nth_error (ps_objs s) k = Some o ->
      (po_live o = true <-> (refs k (ps_vars s) > 0)%nat).
Proof.
  intros n ops H. destruct (prun_ok true ops (pinit n) (PInv_init _ n)) as (s & E & I); [auto|].
  exists s. split; auto. intros k o N. specialize (I k). rewrite N in I. unfold cnt_ok in I.
  destruct (po_live o); split; intros; try lia; discriminate.
Qed.
Example C15_example :
  let ops := [PNew 0; PCopy 1 0; PNull 2; PAssign 2 1; PDestroy 0; PUse 2; PDestroy 1; PDestroy 2] in
  history_ok ops (pinit 3) /\ prun ops (pinit 3) = Some (mk_ps [mk_po (-1) false] [Dead; Dead; Dead]).
Proof. split; [repeat split|reflexivity]. Qed.
(** Assignment to a handle that holds something does not release it (pack_base.h 130):
    the object is never destroyed. *)
Theorem C15_assign_leaks_refuted : exists n ops s o,
  prun ops (pinit n) = Some s /\ ps_vars s = repeat Dead n /\
  nth_error (ps_objs s) 0 = Some o /\ po_live o = true.
Proof.
  exists 2%nat, [PNew 0; PNew 1; PAssign 0 1; PDestroy 0; PDestroy 1]. eexists _, _.
  split; [vm_compute; reflexivity|]. split; [reflexivity|]. split; [reflexivity|]. reflexivity.
Qed.
(** the same for self assignment *)
Theorem C15_self_assign_leaks_refuted : exists n ops s o,
  prun ops (pinit n) = Some s /\ ps_vars s = repeat Dead n /\
  nth_error (ps_objs s) 0 = Some o /\ po_live o = true.
Proof.
  exists 1%nat, [PNew 0; PAssign 0 0; PDestroy 0]. eexists _, _.
  split; [vm_compute; reflexivity|]. split; [reflexivity|]. split; [reflexivity|]. reflexivity.
Qed.

(** ** C16: ref<T> *)
(** Every history (without [v = *v]) behaves like handles into a store from which nothing is
    ever freed: same values read, refCount() is the number of live handles designating the
    object, and the objects that have been freed are exactly those no handle designates. *)
Theorem C16_ref_partial : forall V dflt n ops, Forall (no_self V) ops ->
  exists s, rrun V dflt ops (rinit V n) = Some (fst (srun V dflt ops (sinit V n)), s) /\
    rs_vars V s = ss_vars V (snd (srun V dflt ops (sinit V n))) /\
    forall k o, nth_error (rs_objs V s) k = Some o ->
      (ro_live V o = true <-> (refs k (rs_vars V s) > 0)%nat).
Proof.
  intros V dflt n ops H. destruct (rrun_ok V dflt ops _ _ (RInv_init V n) H) as (s & E & I).
  exists s. split; auto. split; [apply I|]. intros k o N. destruct I as (_ & _ & I). specialize (I k).
  rewrite N in I. destruct (ro_live V o); split; intros; try lia; discriminate.
Qed.
Example C16_example :
  let ops := [RFrom nat 0 7; RCopy nat 1 0; RCount nat 0; RWrite nat 1 8; RRead nat 0; RAssignVal nat 0 9;
              RCount nat 1; RSwap nat 0 1; RRead nat 0; RNullify nat 1; RDeref nat 1; RAssignRef nat 1 0;
              RRead nat 1; REqual nat 0 1; RDestroy nat 0]%nat in
  Forall (no_self nat) ops /\
  option_map fst (rrun nat 0%nat ops (rinit nat 2)) =
    Some [ONone nat; ONone nat; ONum nat 2; ONone nat; OVal nat 8; ONone nat; ONum nat 1; ONone nat;
          OVal nat 8; ONone nat; OVal nat 0; ONone nat; OVal nat 8; OBool nat false; ONone nat]%nat.
Proof. split; [repeat constructor; discriminate|vm_compute; reflexivity]. Qed.
(** [v = *v] when [v] is the only handle: operator=(const T&) frees the object before
    copying from it (ref.h 48). *)
Theorem C16_self_value_refuted : exists ops, rrun nat 0%nat ops (rinit nat 1) = None.
Proof. exists [RFrom nat 0 5; RAssignRef nat 0 0]%nat. reflexivity. Qed.

Print Assumptions C15_no_early_free.
Print Assumptions C15_exact_partial.
Print Assumptions C15_assign_leaks_refuted.
Print Assumptions C15_self_assign_leaks_refuted.
Print Assumptions C16_ref_partial.
Print Assumptions C16_self_value_refuted.

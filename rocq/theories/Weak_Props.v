(** * Properties of weak pointers in binary streams: C46 *)
From Verif Require Import Base Base_Proofs PackBuf_Model PackBuf_Spec PackBuf_Proofs.
From Verif Require Import Codec_Model Codec_Spec Codec_Proofs Codec_Proofs2 Codec_Proofs3 Weak_Model.

(** The record of a weak pointer is consumed exactly; an expired destination stays
    expired, a live one receives the contents provided the source was live.
    Missing: a null source with a live destination (refuted below). *)
Theorem C46_weak_ptr_partial : forall klt t src dst,
  plain t = true ->
  match src with None => true | Some x => has_ty klt t x end = true ->
  (len (enc (TOpt t) (VOpt src)) < 2^63)%N ->
  (dst <> None -> src <> None) ->
  exists st1 st2, pk_weak t src pb_empty = Ok tt st1 /\
    up_weak klt t dst st1 = Ok (match dst with None => None | Some _ => src end) st2 /\
    pb_pos st2 = pb_size st2.
Proof.
  intros klt t src dst Hp Hv HL Hl.
  assert (HT : has_ty klt (TOpt t) (VOpt src) = true) by (destruct src; exact Hv).
  destruct (recs_roundtrip klt [(TOpt t, VOpt src)] [VOpt None]) as (st1 & st2 & E1 & E2 & E3).
  - constructor; auto.
  - constructor; auto.
  - cbn [enc_recs]. rewrite app_nil_r. exact HL.
  - cbn [pk_recs up_recs combine map fst] in E1, E2.
    apply bind_ok in E1 as ([] & s1 & E1 & E1'). injection E1' as <-.
    apply bind_ok in E2 as (x & s2 & E2 & E2').
    apply bind_ok in E2' as (r & s3 & E2b & E2'). injection E2b as <- <-.
    injection E2' as E <-. exists s1, s2. split; [exact E1|]. split; [|exact E3].
    unfold up_weak, bind. rewrite E2, E.
    pose proof (proj1 (upd_plain_all klt) (TOpt t) (VOpt None) (VOpt src) Hp HT eq_refl) as U.
    cbn [upd] in U.
    destruct dst; [|reflexivity]. destruct src; [|exfalso; apply Hl; congruence].
    injection U as ->. reflexivity.
Qed.
Print Assumptions C46_weak_ptr_partial.
Example C46_weak_ex : let klt := fun (_ : nat) (_ _ : val) => false in
  plain (TSeq TEnum) = true /\ has_ty klt (TSeq TEnum) (VList [VEnum 3]) = true /\
  exists st1 st2, pk_weak (TSeq TEnum) (Some (VList [VEnum 3])) pb_empty = Ok tt st1 /\
  up_weak klt (TSeq TEnum) (Some (VList [])) st1 = Ok (Some (VList [VEnum 3])) st2.
Proof.
  split; [reflexivity|]. split; [vm_compute; reflexivity|].
  eexists _, _. split; [vm_compute; reflexivity|]. vm_compute. reflexivity.
Qed.

(** Packing an expired weak pointer and unpacking it into a live one dereferences null. *)
Theorem C46_weak_null_refuted : exists klt t dst st1,
  pk_weak t None pb_empty = Ok tt st1 /\ up_weak klt t (Some dst) st1 = UB.
Proof.
  exists (fun _ _ _ => false), (TBasic 1), (VRaw (bs "x")). eexists.
  split; [vm_compute; reflexivity|]. vm_compute. reflexivity.
Qed.
Print Assumptions C46_weak_null_refuted.

(** * Properties of xdr_pack: C17, C18 *)
From Verif Require Import Base Base_Proofs Xdr_Model Xdr_Spec Xdr_Proofs.

(** ** C18: the encoding *)
(** Every value of every supported type whose value fits the XDR type is encoded in a
    multiple of four bytes which, read as RFC 4506 says, denote the value; decoding on
    this machine gives the value back.  (Partial: longs outside 32 bits, see below.) *)
Theorem C18_encoding_partial : forall refuse k z, portable k z ->
  exists b, enc refuse k z = Some b /\ (length b mod 4 = 0)%nat /\
    rfc4506 (is_signed k) b = z /\ dec k b = z.
Proof.
  intros refuse k z H. destruct (enc_ok refuse k z H) as (b & E & L & D & _).
  exists b. split; auto. split; [rewrite L; destruct k; reflexivity|]. split; auto.
  eapply rfc_ok; eauto.
Qed.
Example C18_example : portable KShort (-2) /\
  enc true KShort (-2) = Some (map ascii_of_nat [255;255;255;254]%nat).
Proof. split; [unfold portable, in_range; cbn; lia|vm_compute; reflexivity]. Qed.
(** raw blocks occupy a multiple of four bytes and start with the block itself *)
Theorem C18_raw : forall b, (length (enc_raw b) mod 4 = 0)%nat /\ firstn (length b) (enc_raw b) = b.
Proof.
  intro b. split; [rewrite enc_raw_length; apply pad4_mod|]. unfold enc_raw. now apply firstn_app_l.
Qed.
(** A 64 bit long that does not fit in 32 bits is either refused or silently truncated,
    depending on the XDR library: xdr_pack.cc uses xdr_long for long. *)
Theorem C18_long_refuted : forall refuse, exists z, in_range KLong z /\
  match enc refuse KLong z with Some b => dec KLong b <> z | None => True end.
Proof.
  intro refuse. exists (2^32)%Z. split; [unfold in_range; cbn; lia|].
  destruct refuse; [exact I|]. vm_compute. discriminate.
Qed.

(** ** C17: round trip *)
(** In memory, up to 1024 bytes in total. *)
Theorem C17_memory_partial : forall refuse l,
  Forall chunk_ok l -> (length (wires refuse l) <= 1024)%nat ->
  exists s s', x_writes refuse l x_init = Some s /\ x_reads (map req l) s = Some (l, s').
Proof.
  intros rf l HF HL. destruct (writes_ok rf l [] x_init (xw_init rf) HF) as (s & E & HW).
  cbn [app] in HW. destruct (reads_ok rf l s (skipn (x_asize s + x_in s) (x_data s))) as (s' & E2).
  - eapply Forall_impl; [|exact HF]. apply chunk_item.
  - rewrite (xw_out _ _ _ HW), <- (xw_data _ _ _ HW). cbn [skipn]. symmetry. apply firstn_skipn.
  - rewrite (xw_out _ _ _ HW). exact HL.
  - eauto.
Qed.
Example C17_memory_example :
  let l := [XVal KChar (-3); XRaw (bs "hello"); XVal KUHyper 12345678901234; XVal KULong 5] in
  Forall chunk_ok l /\ (length (wires true l) <= 1024)%nat.
Proof.
  split; [|vm_compute; lia].
  repeat constructor; unfold portable, in_range; cbn; try lia.
Qed.
(** Whatever the total size, the bytes written are the right ones: data() .. data()+size()
    is the concatenation of the encodings. *)
Theorem C17_bytes_partial : forall refuse l, Forall chunk_ok l -> l <> [] ->
  exists s, x_writes refuse l x_init = Some s /\ firstn (x_size s) (x_data s) = wires refuse l.
Proof.
  intros rf l HF NE. destruct (writes_ok rf l [] x_init (xw_init rf) HF) as (s & E & HW).
  exists s. split; auto. rewrite (xw_size _ _ _ HW NE). apply (xw_data _ _ _ HW).
Qed.
(** A buffer to which nothing has been written claims to hold 1024 bytes: pack_base.h 211 takes the size
    of the allocation for the size of the contents. *)
Theorem C17_fresh_refuted : exists s, s = x_init /\ x_size s = 1024%nat /\ x_more s = true.
Proof. exists x_init. repeat split. Qed.
(** On files the round trip holds at any size, for any raw blocks. *)
Theorem C17_file : forall refuse l rest, Forall item_ok l ->
  exists f, f_writes refuse l [] = Some f /\ f_reads (map req l) (f ++ rest) = Some (l, rest).
Proof.
  intros rf l rest HF. exists (wires rf l). split; [now rewrite f_writes_ok|]. now apply f_reads_ok.
Qed.
Example C17_file_example : Forall item_ok (repeat (XVal KInt (-1)) 2000 ++ [XRaw (repeat "x"%char 3000)]).
Proof.
  apply Forall_app. split; [|repeat constructor]. apply Forall_forall. intros x H.
  apply repeat_spec in H. subst. unfold item_ok, portable, in_range. cbn. lia.
Qed.
(** In memory, beyond 1024 bytes, reading back always fails: xdr_pack.cc 196 recreates the
    output stream with BUFCHUNK bytes although the buffer has grown. *)
Theorem C17_large_fails : forall refuse l, Forall chunk_ok l -> (length (wires refuse l) > 1024)%nat ->
  exists s, x_writes refuse l x_init = Some s /\ x_reads (map req l) s = None.
Proof.
  intros rf l HF HL. destruct (writes_ok rf l [] x_init (xw_init rf) HF) as (s & E & HW).
  exists s. split; auto. cbn [app] in HW.
  apply (reads_fail rf l s (skipn (x_asize s + x_in s) (x_data s))).
  - eapply Forall_impl; [|exact HF]. apply chunk_item.
  - rewrite (xw_out _ _ _ HW), <- (xw_data _ _ _ HW). cbn [skipn]. symmetry. apply firstn_skipn.
  - rewrite (xw_out _ _ _ HW). lia.
  - rewrite (xw_out _ _ _ HW). exact HL.
Qed.
Theorem C17_large_refuted : exists l s, Forall item_ok l /\
  x_writes true l x_init = Some s /\ x_reads (map req l) s = None.
Proof.
  exists (repeat (XVal KInt 7) 257). eexists. split.
  - apply Forall_forall. intros x H. apply repeat_spec in H. subst. unfold item_ok, portable, in_range. cbn. lia.
  - split; [vm_compute; reflexivity|]. vm_compute. reflexivity.
Qed.
(** A raw block of more than 1024 bytes cannot be written at all. *)
Theorem C17_big_raw_refuted : exists l, Forall item_ok l /\ x_writes true l x_init = None.
Proof. exists [XRaw (repeat "x"%char 1025)]. split; [repeat constructor|vm_compute; reflexivity]. Qed.
(** Reading part of the buffer and then writing across a chunk boundary rewinds the reader:
    the item already read is returned again. *)
Theorem C17_interleaved_refuted : exists a b s1 s2 s3 s4,
  x_writes true [a; b] x_init = Some s1 /\ x_read (req a) s1 = Some (a, s2) /\
  x_writes true (repeat a 300) s2 = Some s3 /\ x_read (req b) s3 = Some (a, s4) /\ a <> b.
Proof.
  exists (XVal KInt 1), (XVal KInt 2). eexists _, _, _, _.
  split; [vm_compute; reflexivity|]. split; [vm_compute; reflexivity|]. split; [vm_compute; reflexivity|].
  split; [vm_compute; reflexivity|]. discriminate.
Qed.

Print Assumptions C18_encoding_partial.
Print Assumptions C18_raw.
Print Assumptions C18_long_refuted.
Print Assumptions C17_memory_partial.
Print Assumptions C17_bytes_partial.
Print Assumptions C17_file.
Print Assumptions C17_large_fails.
Print Assumptions C17_large_refuted.
Print Assumptions C17_big_raw_refuted.
Print Assumptions C17_interleaved_refuted.

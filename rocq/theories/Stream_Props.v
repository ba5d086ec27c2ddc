(** * Properties of BinStream, iterators and file-backed buffers: C20, C59, C60, C09 *)
From Verif Require Import Base Base_Proofs PackBuf_Model PackBuf_Spec PackBuf_Proofs.
From Verif Require Import Codec_Model Codec_Spec Codec_Proofs Codec_Proofs2 Codec_Proofs3.
From Verif Require Import Stream_Model Stream_Spec Stream_Proofs.

Definition bex_klt (_ : nat) (x y : val) : bool :=
  match x, y with
  | VRaw (a :: _), VRaw (b :: _) => (N_of_ascii a <? N_of_ascii b)%N
  | _, _ => false
  end.

(** C20: vectors replace whatever the destination held *)
Theorem C20_vector : forall klt n vs old,
  bhas klt (BVec n) (VList vs) = true -> (len (benc (BVec n) (VList vs)) < 2^63)%N ->
  exists st1 st2, bpk (BVec n) (VList vs) pb_empty = Ok tt st1 /\
    bup klt (BVec n) old st1 = Ok (VList vs) st2 /\ pb_pos st2 = pb_size st2.
Proof.
  intros klt n vs old H HL.
  destruct (write_read _ _ _ _ _ (bpk_writes klt _ _ H) (reads_vec klt n vs old H) HL)
    as (s1 & s2 & A & B & C & _). eauto 6.
Qed.
Print Assumptions C20_vector.
(** sequences of PODs, or of vectors of PODs, are appended to the destination *)
Theorem C20_sequence : forall klt t vs olds,
  flat t = true -> bhas klt (BSeq t) (VList vs) = true ->
  (len (benc (BSeq t) (VList vs)) < 2^63)%N ->
  exists st1 st2, bpk (BSeq t) (VList vs) pb_empty = Ok tt st1 /\
    bup klt (BSeq t) (VList olds) st1 = Ok (VList (olds ++ vs)) st2 /\ pb_pos st2 = pb_size st2.
Proof.
  intros klt t vs olds Hf H HL.
  destruct (write_read _ _ _ _ _ (bpk_writes klt _ _ H) (reads_seq_flat klt t vs olds Hf H) HL)
    as (s1 & s2 & A & B & C & _). eauto 6.
Qed.
Print Assumptions C20_sequence.
Theorem C20_associative : forall klt multi c t vs,
  flat t = true -> bhas klt (BAssoc multi c t) (VList vs) = true ->
  (len (benc (BAssoc multi c t) (VList vs)) < 2^63)%N ->
  exists st1 st2, bpk (BAssoc multi c t) (VList vs) pb_empty = Ok tt st1 /\
    bup klt (BAssoc multi c t) (VList []) st1 = Ok (VList vs) st2 /\ pb_pos st2 = pb_size st2.
Proof.
  intros klt m c t vs Hf H HL.
  destruct (write_read _ _ _ _ _ (bpk_writes klt _ _ H) (reads_assoc_flat klt m c t vs Hf H) HL)
    as (s1 & s2 & A & B & C & _). eauto 6.
Qed.
Print Assumptions C20_associative.
(** any bytes, in particular any stored length, for any of the types: no access outside
    the buffer, which is left as it was *)
Theorem C20_any_length_safe : forall klt t old d n,
  bty_ok t = true -> (n <= len d)%N -> (len d < 2^63)%N ->
  exists st', pb_data st' = d /\ (pb_pos st' <= len d)%N /\
   ((exists v, bup klt t old (buf_with d n) = Ok v st') \/
    (exists e, bup klt t old (buf_with d n) = Throw e st')).
Proof.
  intros klt t old d n Ht Hn Hd.
  assert (DD : pb_data (buf_with d n) = d).
  { unfold pb_data, buf_with; cbn [pb_size pb_mem]. apply firstn_all2. unfold len. Lia.lia. }
  destruct (has_buf_with d n Hn Hd) as [Hok _].
  pose proof (bup_safe klt t Ht old (buf_with d n) Hok) as S.
  destruct (bup klt t old (buf_with d n)) as [v s|e s|]; [| |contradiction].
  - destruct S as ((S1 & S2 & S3) & S4 & S5 & _). exists s. split; [|split].
    + unfold pb_data in *. now rewrite S4, S5.
    + rewrite S5 in S1. exact S1.
    + left; exists v; auto.
  - destruct S as ((S1 & S2 & S3) & S4 & S5). exists s. split; [|split].
    + unfold pb_data in *. now rewrite S4, S5.
    + rewrite S5 in S1. exact S1.
    + right; exists e; auto.
Qed.
Print Assumptions C20_any_length_safe.
Example C20_ex :
  bhas bex_klt (BVec 2) (VList [VRaw (bs "ab"); VRaw (bs "cd")]) = true /\
  bhas bex_klt (BSeq (BVec 1)) (VList [VList [VRaw (bs "x")]; VList []]) = true /\
  bhas bex_klt (BAssoc false 0 (BRaw 2)) (VList [VRaw (bs "ab"); VRaw (bs "cd")]) = true.
Proof. vm_compute. auto. Qed.
Example C20_hostile_ex : exists st', bup bex_klt (BVec 8) (VList [])
  (buf_with (le 8 (2^61) ++ bs "12345678") 0) = Throw LengthError st'.
Proof. eexists. vm_compute. reflexivity. Qed.
(** Beyond the claim: a sequence of growing containers does not round trip, because the
    element variable is not cleared between elements. *)
Theorem C20_nested_not_restored : exists klt v st1 w st2,
  v = VList [VList [VRaw (bs "a")]; VList [VRaw (bs "b")]] /\
  bhas klt (BSeq (BSeq (BRaw 1))) v = true /\
  bpk (BSeq (BSeq (BRaw 1))) v pb_empty = Ok tt st1 /\
  bup klt (BSeq (BSeq (BRaw 1))) (VList []) st1 = Ok w st2 /\
  w = VList [VList [VRaw (bs "a")]; VList [VRaw (bs "a"); VRaw (bs "b")]].
Proof.
  exists bex_klt. do 4 eexists. split; [reflexivity|]. split; [vm_compute; reflexivity|].
  split; [vm_compute; reflexivity|]. split; [vm_compute; reflexivity|]. reflexivity.
Qed.
Print Assumptions C20_nested_not_restored.

(** C60: an object holding a container and then an iterator into it *)
Theorem C60_iterator : forall klt t vs dist old_cont old_dist,
  has_ty klt t (VList vs) = true -> plain t = true -> shape t old_cont = true ->
  (dist <= len vs)%N -> (len vs < W)%N -> (len (enc t (VList vs)) + 8 < 2^63)%N ->
  exists st1 st2,
    (pk t (VList vs) ;;; it_pack (Some vs) dist) pb_empty = Ok tt st1 /\
    (c <- up klt t old_cont ;; d <- it_unpack (Some (as_list c)) old_dist ;; ret (c, d)) st1
      = Ok (VList vs, dist) st2 /\
    pb_pos st2 = pb_size st2.
Proof.
  intros klt t vs dist oc od Hv Hp Ho Hd HW HL.
  assert (WR : writes (pk t (VList vs) ;;; it_pack (Some vs) dist) (enc t (VList vs) ++ le 8 dist)).
  { apply writes_bind; [now apply (proj1 (pk_writes_all klt))|]. apply writes_le; Lia.lia. }
  assert (RD : reads (c <- up klt t oc ;; d <- it_unpack (Some (as_list c)) od ;; ret (c, d))
                     (enc t (VList vs) ++ le 8 dist) (VList vs, dist)).
  { eapply reads_bind.
    - apply (proj1 (proj1 (up_reads_all klt) t)); eauto.
    - rewrite (proj1 (upd_plain_all klt) t oc (VList vs)) by auto. cbn [as_list].
      eapply reads_bind0; [now apply reads_it|apply reads_ret]. }
  destruct (write_read _ _ _ _ _ WR RD) as (s1 & s2 & A & B & C & _);
    [rewrite len_app, le_len; exact HL|]. eauto 6.
Qed.
Print Assumptions C60_iterator.
Example C60_ex :
  let t := TSeq (TStr 1) in let vs := [VStr (bs "a"); VStr (bs "bc")] in
  has_ty bex_klt t (VList vs) = true /\ plain t = true /\ (2 <= len vs)%N.
Proof. vm_compute. repeat split; discriminate. Qed.
(** An iterator with no container packs as zero and is left alone on unpacking. *)
Theorem C60_detached : forall dist old,
  exists st1 st2, it_pack None dist pb_empty = Ok tt st1 /\
    it_unpack None old st1 = Ok old st2 /\ pb_pos st2 = pb_size st2.
Proof.
  intros dist old.
  assert (WR : writes (it_pack None dist) (le 8 0)) by (apply writes_le; Lia.lia).
  destruct (write_read _ _ _ _ _ WR (reads_it_none old)) as (s1 & s2 & A & B & C & _);
    [rewrite le_len, P63; Lia.lia|]. eauto 6.
Qed.
Print Assumptions C60_detached.
(** A stored distance larger than the container walks past its end. *)
Theorem C09_iterator_refuted : exists l d, it_unpack (Some l) 0 (buf_with d 0) = UB.
Proof. exists [VRaw (bs "a")], (le 8 2). vm_compute. reflexivity. Qed.
Print Assumptions C09_iterator_refuted.

(** C59 *)
(** Any history of typed and raw writes followed, on a buffer opened on that file, by any
    history of reads and rewinds that stays inside the data: every byte comes back in
    place, and pos() is right.  Missing: size() (refuted below) and the position after a
    failed read (refuted below). *)
Theorem C59_file_roundtrip_partial : forall ws rs r q,
  forallb wtyped_ok ws = true -> forallb typed_ok rs = true ->
  (len (concat (map wbytes ws)) < W)%N ->
  slices (concat (map wbytes ws)) 0 rs = Some (r, q) ->
  exists fw fr, f_write_all ws f_create = Ok tt fw /\
    f_data fw = concat (map wbytes ws) /\
    f_read_all rs (f_open (f_data fw)) = Ok r fr /\ f_pos fr = q.
Proof.
  intros ws rs r q Hw Hr HL HS.
  destruct (f_write_spec ws f_create Hw eq_refl eq_refl) as (fw & E & _ & D & _); [exact W_pos|].
  cbn [f_data f_create app] in D.
  destruct (f_read_spec _ rs (f_open (concat (map wbytes ws))) r q Hr eq_refl eq_refl eq_refl HL HS)
    as (fr & E' & _ & _ & _ & Q).
  exists fw, fr. rewrite D. auto.
Qed.
Print Assumptions C59_file_roundtrip_partial.
Example C59_ex :
  let ws := [WTyped (bs "abcd"); WRaw (bs "xyz"); WRaw []] in
  let rs := [RTyped 4; RRaw 2; RReset; RRaw 7] in
  forallb wtyped_ok ws = true /\ forallb typed_ok rs = true /\
  slices (concat (map wbytes ws)) 0 rs =
    Some ([bs "abcd"; bs "xy"; []; bs "abcdxyz"], 7%N).
Proof. vm_compute. auto. Qed.
(** size() counts only the typed writes *)
Theorem C59_size_partial : forall ws, forallb wtyped_ok ws = true ->
  exists fw, f_write_all ws f_create = Ok tt fw /\
    f_size fw = (sum (map typed_len ws) mod W)%N.
Proof.
  intros ws Hw.
  destruct (f_write_spec ws f_create Hw eq_refl eq_refl) as (fw & E & _ & _ & _ & S); [exact W_pos|].
  exists fw. split; [exact E|]. rewrite S. reflexivity.
Qed.
Print Assumptions C59_size_partial.
Theorem C59_size_refuted : exists ws fw, f_write_all ws f_create = Ok tt fw /\
  f_size fw <> len (concat (map wbytes ws)).
Proof.
  exists [WRaw (bs "abc")]. eexists. split; [vm_compute; reflexivity|]. vm_compute. discriminate.
Qed.
Print Assumptions C59_size_refuted.
(** a failed read moves the file to its end while pos() stays, so a shorter retry that
    fits also fails *)
Theorem C59_failed_read_refuted : exists d st,
  f_unpackraw 5 (f_open d) = Throw PackError st /\ f_pos st = 0%N /\
  (exists st2, f_unpackraw 2 (f_open d) = Ok (bs "ab") st2) /\
  (exists st2, f_unpackraw 2 st = Throw PackError st2).
Proof.
  exists (bs "abc"). eexists. split; [vm_compute; reflexivity|]. split; [reflexivity|].
  split; eexists; vm_compute; reflexivity.
Qed.
Print Assumptions C59_failed_read_refuted.

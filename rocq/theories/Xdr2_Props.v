(** * xdr_pack: rewinding, seeking, swapping *)
From Coq Require Import Permutation.
From Verif Require Import Base Base_Proofs Xdr_Model Xdr_Spec Xdr_Proofs Xdr2_Model.

(** ** C19: swap and move *)
(** an xdr_pack in working order: writes go to its own memory, reads come from it *)
Definition works (x : xdr_obj) : Prop :=
  xo_append x = WritesMem (xo_mem x) /\ xo_popoff x = WritesVar (xo_mem x).
(** The memory, size and position are exchanged, and every stream is still owned by exactly one of the two. *)
Theorem C19_xdr_fields_partial : forall a b, let '(a', b') := xo_swap a b in
  xo_mem a' = xo_mem b /\ xo_size a' = xo_size b /\ xo_pos a' = xo_pos b /\ xo_asize a' = xo_asize b
  /\ xo_mem b' = xo_mem a /\ xo_size b' = xo_size a /\ xo_pos b' = xo_pos a /\ xo_asize b' = xo_asize a
  /\ Permutation (xo_frees a' ++ xo_frees b') (xo_frees a ++ xo_frees b).
Proof.
  intros [ma sa pa za ia oa] [mb sb pb zb ib ob]. cbn. repeat (split; [reflexivity|]).
  unfold xo_frees. cbn [xo_in xo_out].
  assert (P : forall o1 o2 i1 i2 : list nat, Permutation ((o1 ++ o2) ++ i2 ++ i1) ((o1 ++ i1) ++ o2 ++ i2)).
  { intros. rewrite <- !app_assoc. apply Permutation_app_head. rewrite app_assoc. apply Permutation_app_comm. }
  apply P.
Qed.
Print Assumptions C19_xdr_fields_partial.
(** After a swap of two working buffers neither works: what is packed into the first overwrites the
    variable given instead, unpacking from the first reads what now belongs to the second, packing into
    the second writes what now belongs to the first, and unpacking from the second overwrites it. *)
Theorem C19_xdr_broken : forall a b a' b', works a -> works b -> xo_swap a b = (a', b') ->
  xo_append a' = WritesVar (xo_mem a') /\ xo_popoff a' = WritesVar (xo_mem b')
  /\ xo_append b' = WritesMem (xo_mem b') /\ xo_popoff b' = WritesMem (xo_mem a').
Proof.
  intros [ma sa pa za ia oa] [mb sb pb zb ib ob] a' b' [A1 A2] [B1 B2] E.
  injection E as <- <-. unfold xo_append, xo_popoff in *. cbn in *. auto.
Qed.
Print Assumptions C19_xdr_broken.
Example C19_xdr_broken_ex : works (xo_new 1 10 11) /\ works (xo_new 2 12 13).
Proof. repeat split. Qed.
(** So swapping does not exchange two xdr_packs: pack_base.h 356 says [input] where [output] is meant. *)
Theorem C19_xdr_refuted : exists a b, works a /\ works b /\ fst (xo_swap a b) <> b /\ ~ works (fst (xo_swap a b)).
Proof.
  exists (xo_new 1 10 11), (xo_new 2 12 13). repeat split; try discriminate. intros [E _]. discriminate.
Qed.
Print Assumptions C19_xdr_refuted.
(** Reading from an xdr_pack that was moved into dereferences a null pointer, and packing into it
    overwrites the variable. *)
Theorem C19_xdr_move : forall asize0 x y z, works x -> xo_move asize0 x = (y, z) ->
  xo_mem y = xo_mem x /\ xo_popoff y = Crash /\ xo_append y = WritesVar (xo_mem x) /\ xo_append z = Crash.
Proof.
  intros n [m s p a i o] y z [A B] E. injection E as <- <-. unfold xo_append, xo_popoff in *. cbn in *. auto.
Qed.
Print Assumptions C19_xdr_move.
(** Swapping twice does not restore the buffers either. *)
Theorem C19_xdr_twice_refuted : exists a b a1 b1, works a /\ works b /\ xo_swap a b = (a1, b1) /\ xo_swap a1 b1 <> (a, b).
Proof.
  exists (xo_new 1 10 11), (xo_new 2 12 13). eexists _, _. split; [split; reflexivity|]. split; [split; reflexivity|].
  split; [reflexivity|]. discriminate.
Qed.
Print Assumptions C19_xdr_twice_refuted.

(** ** C17: rewinding and seeking *)
Lemma wires_app rf l1 l2 : wires rf (l1 ++ l2) = wires rf l1 ++ wires rf l2.
Proof. unfold wires. now rewrite map_app, concat_app. Qed.
Lemma wires_mod rf l : Forall item_ok l -> (length (wires rf l) mod 4 = 0)%nat.
Proof.
  induction 1 as [|i l Hi Hl IH]; [reflexivity|]. unfold wires in *. cbn [map concat]. rewrite app_length.
  pose proof (wire_mod rf i Hi). rewrite Nat.add_mod, H, IH by lia. reflexivity.
Qed.
Lemma chunk_items l : Forall chunk_ok l -> Forall item_ok l.
Proof. intro H. eapply Forall_impl; [|exact H]. apply chunk_item. Qed.
Lemma reads_frame : forall qs s l s', x_reads qs s = Some (l, s') ->
  x_data s' = x_data s /\ x_asize s' = x_asize s /\ x_in s' = x_in s /\ x_size s' = x_size s.
Proof.
  induction qs as [|q qs IH]; intros s l s' E; cbn [x_reads] in E; [injection E as <- <-; auto|].
  destruct (x_read q s) as [[i s1]|] eqn:R; [|discriminate].
  assert (F : x_data s1 = x_data s /\ x_asize s1 = x_asize s /\ x_in s1 = x_in s /\ x_size s1 = x_size s).
  { destruct q as [k|n]; cbn [x_read] in R; unfold x_popoff, x_unpackraw, x_get in R.
    - destruct k; try discriminate R; destruct (_ <? _)%nat in R; try discriminate R; injection R as <- <-; auto.
    - destruct (_ <? _)%nat in R; try discriminate R; injection R as <- <-; auto. }
  destruct (x_reads qs s1) as [[l2 s2]|] eqn:R2; [|discriminate]. injection E as <- <-.
  destruct (IH _ _ _ R2) as (A & B & C & D). destruct F as (F1 & F2 & F3 & F4). now rewrite A, B, C, D.
Qed.
Lemma reads_pos rf : forall l s r, Forall item_ok l -> skipn (x_out s) (x_data s) = wires rf l ++ r ->
  (x_out s + length (wires rf l) <= 1024)%nat -> l <> [] ->
  exists s', x_reads (map req l) s = Some (l, s') /\ x_pos s' = (x_out s + length (wires rf l))%nat.
Proof.
  induction l as [|i l IH]; intros s r HF HS HL NE; [congruence|]. clear NE. inversion HF; subst.
  unfold wires in *. cbn [map concat] in *. rewrite app_length in *. cbn [x_reads].
  rewrite <- app_assoc in HS. rewrite (read_ok rf i s _ H1 HS) by lia.
  destruct l as [|j l].
  - cbn. eexists. split; [reflexivity|]. cbn. lia.
  - destruct (IH (mk_x (x_data s) (x_asize s) (x_in s) (x_out s + length (wire rf i)) (x_size s) (x_out s + length (wire rf i))) r H2) as (s' & E & P).
    + cbn [x_out x_data]. rewrite Nat.add_comm, <- skipn_skipn, HS. now apply skipn_app_l.
    + cbn [x_out]. lia.
    + discriminate.
    + rewrite E. eexists. split; [reflexivity|]. rewrite P. cbn [x_out]. lia.
Qed.
Lemma reads_out rf : forall l s r, Forall item_ok l -> skipn (x_out s) (x_data s) = wires rf l ++ r ->
  (x_out s + length (wires rf l) <= 1024)%nat ->
  exists s', x_reads (map req l) s = Some (l, s') /\ x_out s' = (x_out s + length (wires rf l))%nat.
Proof.
  induction l as [|i l IH]; intros s r HF HS HL; [exists s; split; [reflexivity|cbn; lia]|]. inversion HF; subst.
  unfold wires in *. cbn [map concat] in *. rewrite app_length in *. cbn [x_reads].
  rewrite <- app_assoc in HS. rewrite (read_ok rf i s _ H1 HS) by lia.
  destruct (IH (mk_x (x_data s) (x_asize s) (x_in s) (x_out s + length (wire rf i)) (x_size s) (x_out s + length (wire rf i))) r H2) as (s' & E & P).
  - cbn [x_out x_data]. rewrite Nat.add_comm, <- skipn_skipn, HS. now apply skipn_app_l.
  - cbn [x_out]. lia.
  - rewrite E. eexists. split; [reflexivity|]. rewrite P. cbn [x_out]. lia.
Qed.
Lemma written rf l s : XW rf l s -> skipn 0 (x_data s) = wires rf l ++ skipn (x_asize s + x_in s) (x_data s).
Proof. intros [W1 W2 W3 W4 W5 W6]. cbn [skipn]. rewrite <- W5. symmetry. apply firstn_skipn. Qed.

(** What was read can be read again after [reseto]... *)
Theorem C17_reread : forall refuse l, Forall chunk_ok l -> (length (wires refuse l) <= 1024)%nat ->
  exists s s1 s2, x_writes refuse l x_init = Some s /\ x_reads (map req l) s = Some (l, s1)
    /\ x_reads (map req l) (x_reseto s1) = Some (l, s2).
Proof.
  intros rf l HF HL. destruct (writes_ok rf l [] x_init (xw_init rf) HF) as (s & E & HW). cbn [app] in HW.
  pose proof (written _ _ _ HW) as WR. pose proof (xw_out _ _ _ HW) as O.
  destruct (reads_ok rf l s (skipn (x_asize s + x_in s) (x_data s)) (chunk_items l HF)) as (s1 & E1).
  { now rewrite O. } { now rewrite O. }
  destruct (reads_frame _ _ _ _ E1) as (D & _).
  destruct (reads_ok rf l (x_reseto s1) (skipn (x_asize s + x_in s) (x_data s)) (chunk_items l HF)) as (s2 & E2).
  { cbn [x_reseto x_out x_data]. now rewrite D. } { cbn [x_reseto x_out]. exact HL. }
  exists s, s1, s2. auto.
Qed.
Print Assumptions C17_reread.
(** ...but [pos()] still says that everything has been read, so a loop [while (buf)] stops at once:
    xdr_pack.cc 221-225 does not set m_pos. *)
Theorem C17_reseto_end : forall refuse l s l1 s1, Forall chunk_ok l -> l <> [] -> (length (wires refuse l) <= 1024)%nat ->
  x_writes refuse l x_init = Some s -> x_reads (map req l) s = Some (l1, s1) ->
  x_more s1 = false /\ x_more (x_reseto s1) = false.
Proof.
  intros rf l s l1 s1 HF NE HL E E1. destruct (writes_ok rf l [] x_init (xw_init rf) HF) as (s' & E' & HW). cbn [app] in HW.
  rewrite E in E'. injection E' as <-. pose proof (written _ _ _ HW) as WR. pose proof (xw_out _ _ _ HW) as O.
  destruct (reads_pos rf l s (skipn (x_asize s + x_in s) (x_data s)) (chunk_items l HF)) as (s2 & E2 & P); auto.
  { now rewrite O. } { now rewrite O. }
  rewrite E1 in E2. injection E2 as <- <-. destruct (reads_frame _ _ _ _ E1) as (_ & _ & _ & Z).
  unfold x_more, x_reseto. cbn [x_pos x_size]. rewrite P, Z, (xw_size _ _ _ HW NE), O, <- (xw_data _ _ _ HW), firstn_length_le.
  - rewrite Nat.add_0_l, Nat.ltb_irrefl. auto.
  - pose proof (xw_len _ _ _ HW). pose proof (xw_in _ _ _ HW). lia.
Qed.
Print Assumptions C17_reseto_end.
Example C17_reseto_end_ex : let l := [XVal KInt 5; XRaw (bs "ab")] in
  Forall chunk_ok l /\ l <> [] /\ (length (wires true l) <= 1024)%nat.
Proof. split; [|split; [discriminate|vm_compute; lia]]. repeat constructor; unfold portable, in_range; cbn; try lia. Qed.
(** So after [reseto] a buffer with contents says that it is at its end. *)
Theorem C17_reseto_refuted : exists l s l1 s1, x_writes true l x_init = Some s /\ x_reads (map req l) s = Some (l1, s1)
  /\ (x_size s1 > 0)%nat /\ x_pos (x_reseto s1) <> 0%nat.
Proof.
  exists [XVal KInt 5]. eexists _, _, _. split; [vm_compute; reflexivity|]. split; [vm_compute; reflexivity|].
  split; [cbn; lia|discriminate].
Qed.
Print Assumptions C17_reseto_refuted.

Lemma xw_reseti rf l s : XW rf l s -> XW rf [] (x_reseti s).
Proof.
  intros [W1 W2 W3 W4 W5 W6]. unfold x_reseti.
  destruct (x_asize s =? 0)%nat; constructor; cbn [x_size x_asize x_in x_data x_out]; try lia; try congruence; try reflexivity.
Qed.
(** After [reseti] the buffer is written from the beginning: its contents are what is written next... *)
Theorem C17_reseti : forall refuse l l', Forall chunk_ok l -> Forall chunk_ok l' -> l' <> [] ->
  exists s s', x_writes refuse l x_init = Some s /\ x_writes refuse l' (x_reseti s) = Some s'
    /\ firstn (x_size s') (x_data s') = wires refuse l'
    /\ ((length (wires refuse l') <= 1024)%nat -> exists s2, x_reads (map req l') s' = Some (l', s2)).
Proof.
  intros rf l l' HF HF' NE. destruct (writes_ok rf l [] x_init (xw_init rf) HF) as (s & E & HW). cbn [app] in HW.
  destruct (writes_ok rf l' [] (x_reseti s) (xw_reseti _ _ _ HW) HF') as (s' & E' & HW'). cbn [app] in HW'.
  exists s, s'. split; [exact E|]. split; [exact E'|]. split; [rewrite (xw_size _ _ _ HW' NE); apply (xw_data _ _ _ HW')|].
  intro HL. eapply reads_ok; [apply chunk_items, HF'| |].
  - rewrite (xw_out _ _ _ HW'). apply (written _ _ _ HW').
  - rewrite (xw_out _ _ _ HW'). exact HL.
Qed.
Print Assumptions C17_reseti.
(** ...but as long as nothing is written its size is the old one if it has one chunk, and 0 if it has more. *)
Lemma write_one rf l s i s' : XW rf l s -> chunk_ok i -> x_write rf i s = Some s' ->
  (x_asize s = 0%nat \/ (1024 <= length (wires rf l))%nat) -> (x_asize s' = 0%nat \/ (1024 <= length (wires rf (l ++ [i])))%nat).
Proof.
  intros HW Hi E C. rewrite wires_app, app_length. destruct C as [C|C]; [|right; lia].
  pose proof (wire_length rf i (chunk_item i Hi)) as WL.
  assert (T : length (wires rf l) = (x_asize s + x_in s)%nat) by (destruct HW as [W1 W2 W3 W4 W5 W6]; rewrite <- W5; apply firstn_length_le; lia).
  assert (WI : length (wires rf [i]) = length (wire rf i)) by (unfold wires; cbn [map concat]; now rewrite app_nil_r).
  pose proof (xw_in _ _ _ HW) as IN. pose proof (xw_mod _ _ _ HW) as MO.
  assert (P : forall b t, x_put b t = Some s' -> x_asize s' = x_asize t).
  { intros b t. unfold x_put. destruct (_ <? _)%nat; [discriminate|]. intros [= <-]. reflexivity. }
  destruct i as [k z|b]; cbn [x_write chunk_ok req] in *.
  - unfold x_append in E. destruct (enc_ok rf k z Hi) as (b & EE & L & _). rewrite EE in E. apply P in E. rewrite E. unfold BUFCHUNK.
    assert (WK : (4 <= width k)%nat) by (destruct k; cbn; lia).
    destruct (Nat.ltb_spec (1024 - x_in s) 8) as [A|A]; [right|left; exact C]. rewrite WI, WL. lia.
  - unfold x_packraw in E. apply P in E. rewrite E. unfold BUFCHUNK.
    destruct (Nat.ltb_spec (1024 - x_in s) (length b)) as [A|A]; [right|left; exact C]. rewrite WI, WL. lia.
Qed.
Lemma writes_one rf : forall l l0 s s', XW rf l0 s -> Forall chunk_ok l -> x_writes rf l s = Some s' ->
  (x_asize s = 0%nat \/ (1024 <= length (wires rf l0))%nat) -> (x_asize s' = 0%nat \/ (1024 <= length (wires rf (l0 ++ l)))%nat).
Proof.
  induction l as [|i l IH]; intros l0 s s' HW HF E C; [injection E as <-; now rewrite app_nil_r|]. inversion HF; subst. cbn [x_writes] in E.
  destruct (write_ok rf l0 s i HW) as (s1 & E1 & W1); auto. rewrite E1 in E.
  replace (l0 ++ i :: l) with ((l0 ++ [i]) ++ l) by now rewrite <- app_assoc. eapply IH; eauto. eapply write_one; eauto.
Qed.
Theorem C17_reseti_size : forall refuse l s, Forall chunk_ok l -> l <> [] -> x_writes refuse l x_init = Some s ->
  ((length (wires refuse l) < 1024)%nat -> x_size (x_reseti s) = length (wires refuse l))
  /\ ((length (wires refuse l) > 1024)%nat -> x_size (x_reseti s) = 0%nat).
Proof.
  intros rf l s HF NE E. destruct (writes_ok rf l [] x_init (xw_init rf) HF) as (s' & E' & HW). cbn [app] in HW.
  rewrite E in E'. injection E' as <-.
  assert (T : length (wires rf l) = (x_asize s + x_in s)%nat).
  { rewrite <- (xw_data _ _ _ HW). apply firstn_length_le. pose proof (xw_len _ _ _ HW). pose proof (xw_in _ _ _ HW). lia. }
  pose proof (writes_one rf l [] x_init s (xw_init rf) HF E ltac:(now left)) as C. cbn [app] in C. pose proof (xw_in _ _ _ HW).
  unfold x_reseti. destruct (Nat.eqb_spec (x_asize s) 0) as [Z|Z]; cbn [x_size]; (split; intro L); try lia; try reflexivity.
  rewrite (xw_size _ _ _ HW NE). lia.
Qed.
Print Assumptions C17_reseti_size.
(** xdr_pack.cc 211-212 *)
Theorem C17_reseti_refuted : exists l s, Forall chunk_ok l /\ x_writes true l x_init = Some s /\ x_size (x_reseti s) <> 0%nat.
Proof.
  exists [XVal KInt 5]. eexists. split; [repeat constructor; unfold portable, in_range; cbn; lia|].
  split; [vm_compute; reflexivity|discriminate].
Qed.
Print Assumptions C17_reseti_refuted.

(** ** going back while writing *)
Lemma setpos_in p old : (0 <= p <= 1024)%Z -> setpos p old = Z.to_nat p.
Proof.
  intro H. unfold setpos. rewrite Z.mod_small by lia. change (Z.of_nat BUFCHUNK) with 1024%Z.
  replace (p <=? 1024)%Z with true by (symmetry; apply Z.leb_le; lia). reflexivity.
Qed.
Lemma xw_total rf l s : XW rf l s -> length (wires rf l) = (x_asize s + x_in s)%nat.
Proof.
  intros [W1 W2 W3 W4 W5 W6]. rewrite <- W5. apply firstn_length_le. lia.
Qed.
(** Taking back what was written last, within the current chunk or to a place in the first 1024 bytes:
    the buffer is as if it had not been written. *)
Theorem C17_seeki : forall refuse l1 l2 l3 s, Forall chunk_ok (l1 ++ l2) -> Forall chunk_ok l3 ->
  x_writes refuse (l1 ++ l2) x_init = Some s ->
  (length (wires refuse l2) <= x_in s)%nat \/ (length (wires refuse l1) < 1024)%nat ->
  exists s1 s2, x_seeki (- Z.of_nat (length (wires refuse l2))) s = Some s1 /\ x_size s1 = length (wires refuse l1)
    /\ x_writes refuse l3 s1 = Some s2 /\ (l1 ++ l3 <> [] -> x_size s2 = length (wires refuse (l1 ++ l3)))
    /\ firstn (length (wires refuse (l1 ++ l3))) (x_data s2) = wires refuse (l1 ++ l3).
Proof.
  intros rf l1 l2 l3 s HF HF3 E C. destruct (writes_ok rf (l1 ++ l2) [] x_init (xw_init rf) HF) as (s' & E' & HW). cbn [app] in HW.
  rewrite E in E'. injection E' as <-. pose proof (xw_total _ _ _ HW) as T. rewrite wires_app, app_length in T.
  apply Forall_app in HF as [HF1 HF2]. pose proof (wires_mod rf l1 (chunk_items _ HF1)) as M1. pose proof (wires_mod rf l2 (chunk_items _ HF2)) as M2.
  assert (G : exists s1, x_seeki (- Z.of_nat (length (wires rf l2))) s = Some s1 /\ x_size s1 = length (wires rf l1) /\ XW rf l1 s1).
  { destruct HW as [W1 W2 W3 W4 W5 W6]. unfold x_seeki.
    replace (0 <? - Z.of_nat (length (wires rf l2)))%Z with false by (symmetry; apply Z.ltb_ge; lia). cbv zeta.
    rewrite wires_app in W5.
    assert (D : firstn (length (wires rf l1)) (x_data s) = wires rf l1).
    { assert (D : firstn (length (wires rf l1)) (wires rf l1 ++ wires rf l2) = wires rf l1) by now apply firstn_app_l.
      rewrite <- W5, firstn_firstn in D. rewrite <- D at 2. f_equal. lia. }
    destruct (Z.ltb_spec (Z.of_nat (x_in s) + - Z.of_nat (length (wires rf l2))) 0) as [A|A].
    - destruct C as [C|C]; [lia|].
      replace (Z.of_nat (x_in s) + - Z.of_nat (length (wires rf l2)) + Z.of_nat (x_asize s))%Z with (Z.of_nat (length (wires rf l1))) by lia.
      replace (Z.of_nat (length (wires rf l1)) <? 0)%Z with false by (symmetry; apply Z.ltb_ge; lia).
      change (Z.of_nat BUFCHUNK) with 1024%Z. rewrite Z.div_small, Z.mod_small by lia. rewrite setpos_in, Nat2Z.id by lia.
      eexists. split; [reflexivity|]. split; [reflexivity|].
      constructor; cbn [x_size x_asize x_in x_data x_out]; try lia. exact D.
    - rewrite setpos_in by lia. eexists. split; [reflexivity|]. cbn [x_size]. split; [lia|].
      replace (Z.to_nat (Z.of_nat (x_in s) + - Z.of_nat (length (wires rf l2)))) with (x_in s - length (wires rf l2))%nat by lia.
      constructor; cbn [x_size x_asize x_in x_data x_out]; try lia.
      replace (x_asize s + (x_in s - length (wires rf l2)))%nat with (length (wires rf l1)) by lia. exact D. }
  destruct G as (s1 & E1 & Z1 & HW1). destruct (writes_ok rf l3 l1 s1 HW1 HF3) as (s2 & E2 & HW2).
  exists s1, s2. split; [exact E1|]. split; [exact Z1|]. split; [exact E2|]. split.
  - intro NE. rewrite (xw_size _ _ _ HW2 NE). symmetry. apply xw_total, HW2.
  - rewrite (xw_total _ _ _ HW2). apply (xw_data _ _ _ HW2).
Qed.
Print Assumptions C17_seeki.
Example C17_seeki_ex : let l1 := [XVal KInt 1] in let l2 := [XVal KInt 2] in
  Forall chunk_ok (l1 ++ l2) /\ (length (wires true l1) < 1024)%nat /\ exists s, x_writes true (l1 ++ l2) x_init = Some s.
Proof.
  split; [repeat constructor; unfold portable, in_range; cbn; lia|]. split; [cbn; lia|]. eexists. vm_compute. reflexivity.
Qed.
(** Going back over the boundary of a chunk to a place beyond the first 1024 bytes always ends at the
    wrong place: xdr_pack.cc 236 sets [asize] to the number of chunks instead of the number of bytes. *)
Theorem C17_seeki_far : forall refuse l1 l2 s s1, Forall chunk_ok (l1 ++ l2) -> x_writes refuse (l1 ++ l2) x_init = Some s ->
  (length (wires refuse l2) > x_in s)%nat -> (length (wires refuse l1) >= 1024)%nat ->
  x_seeki (- Z.of_nat (length (wires refuse l2))) s = Some s1 ->
  x_size s1 = (length (wires refuse l1) / 1024 + length (wires refuse l1) mod 1024)%nat /\ (x_size s1 < length (wires refuse l1))%nat.
Proof.
  intros rf l1 l2 s s1 HF E C1 C2 E1. destruct (writes_ok rf (l1 ++ l2) [] x_init (xw_init rf) HF) as (s' & E' & HW). cbn [app] in HW.
  rewrite E in E'. injection E' as <-. pose proof (xw_total _ _ _ HW) as T. rewrite wires_app, app_length in T.
  unfold x_seeki in E1. replace (0 <? - Z.of_nat (length (wires rf l2)))%Z with false in E1 by (symmetry; apply Z.ltb_ge; lia). cbv zeta in E1.
  destruct (Z.ltb_spec (Z.of_nat (x_in s) + - Z.of_nat (length (wires rf l2))) 0) as [A|A]; [|lia].
  replace (Z.of_nat (x_in s) + - Z.of_nat (length (wires rf l2)) + Z.of_nat (x_asize s))%Z with (Z.of_nat (length (wires rf l1))) in E1 by lia.
  replace (Z.of_nat (length (wires rf l1)) <? 0)%Z with false in E1 by (symmetry; apply Z.ltb_ge; lia).
  change (Z.of_nat BUFCHUNK) with (Z.of_nat 1024) in E1. rewrite <- Nat2Z.inj_div, <- Nat2Z.inj_mod, !Nat2Z.id in E1. apply (f_equal (fun o => match o with Some t => x_size t | None => 0%nat end)) in E1. cbn [x_size] in E1.
  split; [symmetry; exact E1|]. rewrite <- E1. clear - C2. set (n := length _) in *. clearbody n.
  pose proof (Nat.div_mod n 1024 ltac:(lia)) as DM. assert (Q : (1 <= n / 1024)%nat) by (apply Nat.div_le_lower_bound; lia).
  revert DM Q. generalize (n / 1024)%nat (n mod 1024)%nat. intros q r DM Q. lia.
Qed.
Print Assumptions C17_seeki_far.
(** So taking back what was written last does not in general restore the buffer. *)
Theorem C17_seeki_refuted : exists l1 l2 s s1, Forall chunk_ok (l1 ++ l2) /\ x_writes true (l1 ++ l2) x_init = Some s
  /\ x_seeki (- Z.of_nat (length (wires true l2))) s = Some s1 /\ x_size s1 <> length (wires true l1).
Proof.
  exists (repeat (XVal KInt 7) 400), (repeat (XVal KInt 8) 200). eexists _, _. split.
  - apply Forall_app. split; apply Forall_forall; intros x H; apply repeat_spec in H; subst; unfold chunk_ok, portable, in_range; cbn; lia.
  - split; [vm_compute; reflexivity|]. split; [vm_compute; reflexivity|]. vm_compute. discriminate.
Qed.
Print Assumptions C17_seeki_refuted.

(** ** skipping while reading *)
(** [seeko] skips records, and goes back over them, within the first 1024 bytes. *)
Theorem C17_seeko : forall refuse l1 l2, Forall chunk_ok (l1 ++ l2) -> (length (wires refuse (l1 ++ l2)) <= 1024)%nat ->
  exists s, x_writes refuse (l1 ++ l2) x_init = Some s
    /\ (exists s1, x_reads (map req l2) (x_seeko (Z.of_nat (length (wires refuse l1))) s) = Some (l2, s1))
    /\ exists s1 s2, x_reads (map req l1) s = Some (l1, s1)
       /\ x_reads (map req (l1 ++ l2)) (x_seeko (- Z.of_nat (x_out s1)) s1) = Some (l1 ++ l2, s2)
       /\ (l1 <> [] -> x_out s1 = length (wires refuse l1)).
Proof.
  intros rf l1 l2 HF HL. destruct (writes_ok rf (l1 ++ l2) [] x_init (xw_init rf) HF) as (s & E & HW). cbn [app] in HW.
  pose proof (written _ _ _ HW) as WR. cbn [skipn] in WR. pose proof (xw_out _ _ _ HW) as O. pose proof (chunk_items _ HF) as HI.
  pose proof HI as HI'. apply Forall_app in HI' as [HI1 HI2]. rewrite wires_app in WR. rewrite wires_app, app_length in HL. rewrite <- app_assoc in WR.
  exists s. split; [exact E|]. split.
  - eapply reads_ok; [exact HI2| |]; unfold x_seeko; cbn [x_out x_data]; rewrite O, setpos_in by lia;
      replace (Z.to_nat (Z.of_nat 0 + Z.of_nat (length (wires rf l1)))) with (length (wires rf l1)) by lia; [|exact HL].
    rewrite WR. apply skipn_app_l. reflexivity.
  - destruct (reads_ok rf l1 s (wires rf l2 ++ skipn (x_asize s + x_in s) (x_data s)) HI1) as (s1 & E1); [rewrite O; exact WR|lia|].
    destruct (reads_frame _ _ _ _ E1) as (D & _).
    assert (B : (x_out s1 <= 1024)%nat /\ (l1 <> [] -> x_out s1 = length (wires rf l1))).
    { clear - E1 O HI1 HL WR. destruct l1 as [|i l]; [cbn in E1; injection E1 as <-; split; [lia|congruence]|].
      destruct (reads_out rf (i :: l) s (wires rf l2 ++ skipn (x_asize s + x_in s) (x_data s)) HI1) as (s2 & E2 & P); [rewrite O; exact WR|lia|].
      rewrite E1 in E2. injection E2 as <-. rewrite P, O. split; [lia|auto]. }
    destruct B as [B1 B2].
    destruct (reads_ok rf (l1 ++ l2) (x_seeko (- Z.of_nat (x_out s1)) s1) (skipn (x_asize s + x_in s) (x_data s)) HI) as (s2 & E2).
    + unfold x_seeko. cbn [x_out x_data]. rewrite setpos_in by lia. replace (Z.to_nat _) with 0%nat by lia. rewrite D, wires_app, <- app_assoc. exact WR.
    + unfold x_seeko. cbn [x_out]. rewrite setpos_in by lia. replace (Z.to_nat _) with 0%nat by lia. rewrite wires_app, app_length. lia.
    + exists s1, s2. auto.
Qed.
Print Assumptions C17_seeko.
Example C17_seeko_ex : Forall chunk_ok ([XVal KInt 1] ++ [XVal KInt 2]) /\ (length (wires true ([XVal KInt 1] ++ [XVal KInt 2])) <= 1024)%nat.
Proof. split; [repeat constructor; unfold portable, in_range; cbn; lia|cbn; lia]. Qed.

(** A position outside of the chunk being read is ignored: [seeko] then changes nothing at all. *)
Theorem C17_seeko_outside : forall offs s, (- 2 ^ 31 < offs < 2 ^ 31)%Z -> (x_out s <= 1024)%nat ->
  (Z.of_nat (x_out s) + offs < 0 \/ Z.of_nat (x_out s) + offs > 1024)%Z -> x_seeko offs s = s.
Proof.
  intros offs s H O C. unfold x_seeko, setpos. change (Z.of_nat BUFCHUNK) with 1024%Z. cbv zeta.
  destruct (Z.leb_spec ((Z.of_nat (x_out s) + offs) mod 2 ^ 32) 1024) as [A|A]; [|now destruct s]. exfalso.
  destruct C as [C|C].
  - assert (E : ((Z.of_nat (x_out s) + offs) mod 2 ^ 32 = Z.of_nat (x_out s) + offs + 2 ^ 32)%Z).
    { symmetry. apply Z.mod_unique with (q := (-1)%Z); [left|]; lia. }
    lia.
  - rewrite Z.mod_small in A by lia. lia.
Qed.
Print Assumptions C17_seeko_outside.
Example C17_seeko_outside_ex : (- 2 ^ 31 < -1 < 2 ^ 31)%Z /\ (x_out x_init <= 1024)%nat /\ (Z.of_nat (x_out x_init) + -1 < 0)%Z.
Proof. vm_compute. repeat split; intros; try discriminate; lia. Qed.
(** Moving forwards while writing, or back to before the beginning, is never reported as done. *)
Theorem C17_seeki_bounds : forall offs s s1, x_seeki offs s = Some s1 ->
  (offs <= 0 /\ 0 <= Z.of_nat (x_asize s + x_in s) + offs)%Z.
Proof.
  intros offs s s1 E. unfold x_seeki in E. destruct (Z.ltb_spec 0 offs) as [A|A]; [discriminate|]. cbv zeta in E. split; [exact A|].
  destruct (Z.ltb_spec (Z.of_nat (x_in s) + offs) 0) as [B|B]; [|lia].
  destruct (Z.ltb_spec (Z.of_nat (x_in s) + offs + Z.of_nat (x_asize s)) 0) as [D|D]; [discriminate|lia].
Qed.
Print Assumptions C17_seeki_bounds.
Example C17_seeki_bounds_ex : exists s1, x_seeki 0 x_init = Some s1.
Proof. eexists. vm_compute. reflexivity. Qed.

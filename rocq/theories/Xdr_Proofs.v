From Verif Require Import Base Base_Proofs Xdr_Model Xdr_Spec.
Ltac Zify.zify_post_hook ::= Z.div_mod_to_equations.

Lemma be_length k n : length (be k n) = k.
Proof. unfold be. rewrite rev_length. apply le_length. Qed.
Lemma unbe_be k n : (n < 256 ^ N.of_nat k)%N -> unbe (be k n) = n.
Proof. intro H. unfold unbe, be. rewrite rev_involutive. now apply unle_le. Qed.
Lemma P32z : (2 ^ 32 = 4294967296)%Z. Proof. reflexivity. Qed.
Lemma P31z : (2 ^ 31 = 2147483648)%Z. Proof. reflexivity. Qed.
Lemma P64z : (2 ^ 64 = 18446744073709551616)%Z. Proof. reflexivity. Qed.
Lemma P63z : (2 ^ 63 = 9223372036854775808)%Z. Proof. reflexivity. Qed.
Lemma wrap_lt b z : (wrapN b z < 2 ^ b)%N.
Proof.
  unfold wrapN. assert (0 < 2 ^ Z.of_N b)%Z by (apply Z.pow_pos_nonneg; lia).
  pose proof (Z.mod_pos_bound z (2 ^ Z.of_N b) H).
  apply N2Z.inj_lt. rewrite Z2N.id by lia. rewrite N2Z.inj_pow. lia.
Qed.
Lemma unbe32 z : unbe (be 4 (wrapN 32 z)) = wrapN 32 z.
Proof. apply unbe_be. exact (wrap_lt 32 z). Qed.
Lemma unbe64 z : unbe (be 8 (wrapN 64 z)) = wrapN 64 z.
Proof. apply unbe_be. exact (wrap_lt 64 z). Qed.

Lemma signed_wrap b z : (0 < b)%N ->
  (- 2 ^ (Z.of_N b - 1) <= z < 2 ^ (Z.of_N b - 1))%Z -> signed b (wrapN b z) = z.
Proof.
  intros Hb Hz. unfold signed, wrapN.
  assert (E : (2 ^ Z.of_N b = 2 * 2 ^ (Z.of_N b - 1))%Z).
  { rewrite <- Z.pow_succ_r by lia. f_equal. lia. }
  set (h := (2 ^ (Z.of_N b - 1))%Z) in *. rewrite E.
  assert (EN : Z.of_N (2 ^ (b - 1)) = h).
  { unfold h. rewrite N2Z.inj_pow, N2Z.inj_sub by lia. reflexivity. }
  destruct (Z.lt_ge_cases z 0) as [L|L].
  - replace (z mod (2 * h))%Z with (z + 2 * h)%Z by (apply Z.mod_unique_pos with (q := (-1)%Z); lia).
    destruct (N.ltb_spec (Z.to_N (z + 2 * h)) (2 ^ (b - 1))) as [A|A]; [apply N2Z.inj_lt in A|apply N2Z.inj_le in A];
      rewrite EN, Z2N.id in A by lia; [lia|]. rewrite Z2N.id by lia. lia.
  - replace (z mod (2 * h))%Z with z by (symmetry; apply Z.mod_small; lia).
    destruct (N.ltb_spec (Z.to_N z) (2 ^ (b - 1))) as [A|A]; [apply N2Z.inj_lt in A|apply N2Z.inj_le in A];
      rewrite EN, Z2N.id in A by lia; [|lia]. rewrite Z2N.id by lia. lia.
Qed.
Lemma unsigned_wrap b z : (0 <= z < 2 ^ Z.of_N b)%Z -> Z.of_N (wrapN b z) = z.
Proof. intro H. unfold wrapN. rewrite Z.mod_small by lia. rewrite Z2N.id; lia. Qed.

Lemma enc_ok rf k z : portable k z ->
  exists b, enc rf k z = Some b /\ length b = width k /\ dec k b = z /\
            b = be (width k) (wrapN (8 * N.of_nat (width k)) z).
Proof.
  intros [Hr Hp]. unfold in_range in Hr. pose proof P32z. pose proof P31z. pose proof P63z. pose proof P64z.
  destruct k; cbn [xrange fst snd] in Hr; cbn [enc width dec] in *;
    try (eexists; split; [reflexivity|]; split; [apply be_length|]; split; [|reflexivity];
         rewrite ?unbe32, ?unbe64; cbn [dec]).
  - rewrite signed_wrap by (cbn; lia). apply signed_wrap; cbn; lia.
  - rewrite N2Z.inj_mod, unsigned_wrap by (cbn; lia). change (Z.of_N (2^8)) with 256%Z. apply Z.mod_small. lia.
  - rewrite signed_wrap by (cbn; lia). apply signed_wrap; cbn; lia.
  - rewrite N2Z.inj_mod, unsigned_wrap by (cbn; lia). change (Z.of_N (2^16)) with 65536%Z. apply Z.mod_small. lia.
  - apply signed_wrap; cbn; lia.
  - apply unsigned_wrap; cbn; lia.
  - replace (negb ((- 2 ^ 31 <=? z) && (z <? 2 ^ 31))%Z) with false by (symmetry; apply negb_false_iff; lia).
    rewrite andb_false_r.
    eexists; split; [reflexivity|]; split; [apply be_length|]; split; [|reflexivity].
    rewrite unbe32. apply signed_wrap; cbn; lia.
  - replace (negb (z <? 2 ^ 32)%Z) with false by (symmetry; apply negb_false_iff; lia).
    rewrite andb_false_r.
    eexists; split; [reflexivity|]; split; [apply be_length|]; split; [|reflexivity].
    rewrite unbe32. apply unsigned_wrap; cbn; lia.
  - apply signed_wrap; cbn; lia.
  - apply unsigned_wrap; cbn; lia.
  - apply unsigned_wrap; cbn; lia.
  - apply unsigned_wrap; cbn; lia.
  - lia.
Qed.
Lemma not_longdouble k z : portable k z -> k <> KLongDouble.
Proof. intros [Hr _] ->. unfold in_range in Hr. cbn in Hr. lia. Qed.

(** ** big endian *)
Lemma bigendian_app a l c : bigendian a (l ++ [c]) = (256 * bigendian a l + Z.of_N (N_of_ascii c))%Z.
Proof. revert a. induction l; intro b; cbn; auto. Qed.
Lemma bigendian_rev l : bigendian 0 (rev l) = Z.of_N (unle l).
Proof.
  induction l as [|c l IH]; [reflexivity|]. cbn [rev unle]. rewrite bigendian_app, IH.
  rewrite N2Z.inj_add, N2Z.inj_mul. change (Z.of_N 256) with 256%Z. lia.
Qed.
Lemma bigendian_be k n : (n < 256 ^ N.of_nat k)%N -> bigendian 0 (be k n) = Z.of_N n.
Proof. intro H. unfold be. rewrite bigendian_rev, unle_le; auto. Qed.

Lemma rfc_ok rf k z b : portable k z -> enc rf k z = Some b -> rfc4506 (is_signed k) b = z.
Proof.
  intros Hp He. destruct (enc_ok rf k z Hp) as (b' & E1 & E2 & E3 & E4).
  rewrite He in E1. injection E1 as <-. unfold rfc4506. rewrite E2, E4.
  rewrite bigendian_be.
  2:{ pose proof (wrap_lt (8 * N.of_nat (width k)) z). replace (256 ^ N.of_nat (width k))%N with (2 ^ (8 * N.of_nat (width k)))%N; auto.
      rewrite N.pow_mul_r. reflexivity. }
  set (w := wrapN _ z) in *.
  assert (M : (256 ^ Z.of_nat (width k) = 2 * 2 ^ (8 * Z.of_nat (width k) - 1))%Z).
  { change 256%Z with (2 ^ 8)%Z. rewrite <- Z.pow_mul_r by lia. rewrite <- Z.pow_succ_r by (destruct k; cbn; lia).
    f_equal. lia. }
  assert (S : is_signed k = true -> signed (8 * N.of_nat (width k)) w = z).
  { intro Hs. destruct k; try discriminate Hs; unfold w; apply signed_wrap; try (cbn; lia);
      destruct Hp as [Hr Hx]; unfold in_range in Hr; cbn [xrange fst snd] in Hr;
      pose proof P32z; pose proof P31z; pose proof P63z; pose proof P64z; cbn; lia. }
  assert (U : is_signed k = false -> Z.of_N w = z).
  { intro Hs. destruct k; try discriminate Hs; unfold w; apply unsigned_wrap; try (cbn; lia);
      destruct Hp as [Hr Hx]; unfold in_range in Hr; cbn [xrange fst snd] in Hr;
      pose proof P32z; pose proof P31z; pose proof P63z; pose proof P64z; cbn; lia. }
  destruct (is_signed k); cbn [andb]; [|auto]. rewrite <- S by reflexivity. unfold signed.
  replace (Z.of_N (8 * N.of_nat (width k))) with (8 * Z.of_nat (width k))%Z by lia.
  rewrite M. replace (2 * 2 ^ (8 * Z.of_nat (width k) - 1) / 2)%Z with (2 ^ (8 * Z.of_nat (width k) - 1))%Z by (symmetry; rewrite (Z.mul_comm 2); apply Z.div_mul; discriminate).
  assert (E : Z.of_N (2 ^ (8 * N.of_nat (width k) - 1)) = (2 ^ (8 * Z.of_nat (width k) - 1))%Z).
  { rewrite N2Z.inj_pow. f_equal. destruct k; reflexivity. }
  replace (2 ^ (8 * Z.of_nat (width k)))%Z with (2 * 2 ^ (8 * Z.of_nat (width k) - 1))%Z.
  2:{ rewrite <- Z.pow_succ_r by (destruct k; cbn; lia). f_equal. lia. }
  destruct (N.ltb_spec w (2 ^ (8 * N.of_nat (width k) - 1))) as [A|A]; [apply N2Z.inj_lt in A|apply N2Z.inj_le in A]; rewrite E in A.
  - destruct (Z.leb_spec (2 ^ (8 * Z.of_nat (width k) - 1)) (Z.of_N w)); [lia|reflexivity].
  - destruct (Z.leb_spec (2 ^ (8 * Z.of_nat (width k) - 1)) (Z.of_N w)); [reflexivity|lia].
Qed.

(** ** raw blocks *)
Lemma pad4_mod n : ((n + pad4 n) mod 4 = 0)%nat.
Proof. unfold pad4. lia. Qed.
Lemma pad4_lt n : (pad4 n < 4)%nat.
Proof. unfold pad4. lia. Qed.
Lemma enc_raw_length b : length (enc_raw b) = (length b + pad4 (length b))%nat.
Proof. unfold enc_raw. now rewrite app_length, repeat_length. Qed.
Lemma wire_length rf i : item_ok i ->
  length (wire rf i) = match i with XVal k _ => width k | XRaw b => (length b + pad4 (length b))%nat end.
Proof.
  destruct i as [k z|b]; cbn [item_ok wire]; intro H.
  - destruct (enc_ok rf k z H) as (b & -> & L & _). exact L.
  - apply enc_raw_length.
Qed.
Lemma wire_mod rf i : item_ok i -> (length (wire rf i) mod 4 = 0)%nat.
Proof.
  intro H. rewrite wire_length by exact H. destruct i as [k z|b]; [destruct k; reflexivity|apply pad4_mod].
Qed.
Lemma chunk_item i : chunk_ok i -> item_ok i.
Proof. destruct i; cbn; auto. Qed.

(** ** memory mode *)
Record XW (rf : bool) (l : list xitem) (s : xst) : Prop := {
  xw_size : l <> [] -> x_size s = (x_asize s + x_in s)%nat;
  xw_in : (x_in s <= 1024)%nat;
  xw_mod : (x_in s mod 4 = 0)%nat;
  xw_len : (x_asize s + 1024 <= length (x_data s))%nat;
  xw_data : firstn (x_asize s + x_in s) (x_data s) = wires rf l;
  xw_out : x_out s = 0%nat }.
Lemma xw_init rf : XW rf [] x_init.
Proof. constructor; try reflexivity; cbn [x_in x_init]; try lia. congruence. Qed.

Lemma put_ok rf l s b i : XW rf l s -> wire rf i = b -> (length b mod 4 = 0)%nat ->
  (length b <= 1024 - x_in s)%nat ->
  exists s', x_put b s = Some s' /\ XW rf (l ++ [i]) s'.
Proof.
  intros [W1 W2 W3 W4 W5 W6] Hb Hm Hl. unfold x_put, BUFCHUNK.
  replace (1024 - x_in s <? length b)%nat with false by (symmetry; apply Nat.ltb_ge; exact Hl).
  eexists. split; [reflexivity|].
  assert (HL : length (firstn (x_asize s + x_in s) (x_data s)) = (x_asize s + x_in s)%nat)
    by (apply firstn_length_le; lia).
  constructor; cbn [x_size x_asize x_in x_data x_out]; try lia.
  - unfold overwrite. rewrite !app_length, HL, skipn_length. lia.
  - unfold overwrite, wires. rewrite map_app, concat_app. cbn [map concat]. rewrite app_nil_r, Hb.
    rewrite W5. fold (wires rf l). rewrite app_assoc. apply firstn_app_l.
    rewrite app_length, <- W5, HL. lia.
Qed.
Lemma grow_ok rf l s : XW rf l s -> XW rf l (x_grow s) /\ x_in (x_grow s) = 0%nat.
Proof.
  intros [W1 W2 W3 W4 W5 W6]. unfold x_grow. split; [|reflexivity].
  constructor; cbn [x_size x_asize x_in x_data x_out]; try lia; try reflexivity.
  - rewrite app_length, repeat_length, firstn_length. unfold BUFCHUNK. lia.
  - rewrite firstn_app. rewrite firstn_firstn.
    rewrite Nat.add_0_r.
    replace (x_asize s + x_in s - length (firstn (x_asize s + x_in s + BUFCHUNK) (x_data s)))%nat with 0%nat.
    2:{ rewrite firstn_length. unfold BUFCHUNK. lia. }
    cbn [firstn]. rewrite app_nil_r.
    replace (Nat.min (x_asize s + x_in s) (x_asize s + x_in s + BUFCHUNK)) with (x_asize s + x_in s)%nat by lia. exact W5.
Qed.
Lemma write_ok rf l s i : XW rf l s -> chunk_ok i ->
  exists s', x_write rf i s = Some s' /\ XW rf (l ++ [i]) s'.
Proof.
  intros HW Hi. pose proof (wire_mod rf i (chunk_item i Hi)) as Hm.
  destruct i as [k z|b]; cbn [x_write chunk_ok] in *.
  - unfold x_append. destruct (enc_ok rf k z Hi) as (b & E & L & _).
    cbn [wire] in Hm. rewrite E in *.
    assert (WK : (width k <= 8)%nat) by (destruct k; cbn; lia).
    unfold BUFCHUNK. destruct (Nat.ltb_spec (1024 - x_in s) 8) as [A|A].
    + destruct (grow_ok rf l s HW) as [G1 G2]. apply put_ok with (rf := rf); auto.
      * cbn [wire]. now rewrite E.
      * rewrite G2. lia.
    + apply put_ok with (rf := rf); auto; [cbn [wire]; now rewrite E|lia].
  - unfold x_packraw, BUFCHUNK. pose proof (enc_raw_length b) as LR. cbn [wire] in Hm.
    pose proof (pad4_mod (length b)). pose proof (pad4_lt (length b)).
    destruct (Nat.ltb_spec (1024 - x_in s) (length b)) as [A|A].
    + destruct (grow_ok rf l s HW) as [G1 G2]. apply put_ok with (rf := rf); auto.
      rewrite G2. lia.
    + apply put_ok with (rf := rf); auto. pose proof (xw_mod _ _ _ HW). lia.
Qed.
Lemma writes_ok rf : forall l l0 s, XW rf l0 s -> Forall chunk_ok l ->
  exists s', x_writes rf l s = Some s' /\ XW rf (l0 ++ l) s'.
Proof.
  induction l as [|i l IH]; intros l0 s HW HF.
  - exists s. rewrite app_nil_r. auto.
  - inversion HF; subst. cbn [x_writes]. destruct (write_ok rf l0 s i HW) as (s1 & E & W1); auto.
    rewrite E. destruct (IH (l0 ++ [i]) s1 W1) as (s2 & E2 & W2); auto.
    exists s2. rewrite <- app_assoc in W2. auto.
Qed.

(** reading the first 1024 bytes *)
Lemma read_val rf k z : portable k z -> forall b, enc rf k z = Some b -> dec k b = z /\ length b = width k.
Proof. intros H b E. destruct (enc_ok rf k z H) as (b' & E1 & L & D & _). rewrite E in E1. injection E1 as <-. auto. Qed.
Lemma get_ok s w b r : skipn (x_out s) (x_data s) = b ++ r -> (x_out s + length b <= 1024)%nat -> w = length b ->
  x_get w s = Some (b, mk_x (x_data s) (x_asize s) (x_in s) (x_out s + w) (x_size s) (x_out s + w)).
Proof.
  intros H L ->. unfold x_get, BUFCHUNK.
  replace (1024 - x_out s <? length b)%nat with false by (symmetry; apply Nat.ltb_ge; lia).
  now rewrite H, firstn_app_l by reflexivity.
Qed.
Lemma read_ok rf i s r : item_ok i -> skipn (x_out s) (x_data s) = wire rf i ++ r ->
  (x_out s + length (wire rf i) <= 1024)%nat ->
  x_read (req i) s = Some (i, mk_x (x_data s) (x_asize s) (x_in s) (x_out s + length (wire rf i)) (x_size s) (x_out s + length (wire rf i))).
Proof.
  intros Hi HS HL. pose proof (wire_length rf i Hi) as WL. destruct i as [k z|b]; cbn [req x_read].
  - cbn [item_ok wire] in *. destruct (enc_ok rf k z Hi) as (b & E & L & D & _). rewrite E in *.
    pose proof (not_longdouble _ _ Hi). unfold x_popoff.
    rewrite (get_ok s (width k) b r); auto. rewrite D, L. destruct k; try reflexivity. congruence.
  - cbn [wire] in *. unfold x_unpackraw. rewrite (get_ok s _ (enc_raw b) r); auto.
    rewrite WL. unfold enc_raw. now rewrite firstn_app_l.
Qed.
Lemma reads_ok rf : forall l s r, Forall item_ok l -> skipn (x_out s) (x_data s) = wires rf l ++ r ->
  (x_out s + length (wires rf l) <= 1024)%nat ->
  exists s', x_reads (map req l) s = Some (l, s').
Proof.
  induction l as [|i l IH]; intros s r HF HS HL; [cbn; eauto|]. inversion HF; subst.
  unfold wires in *. cbn [map concat] in *. rewrite app_length in HL. cbn [x_reads].
  rewrite <- app_assoc in HS.
  rewrite (read_ok rf i s _ H1 HS) by lia.
  destruct (IH (mk_x (x_data s) (x_asize s) (x_in s) (x_out s + length (wire rf i)) (x_size s) (x_out s + length (wire rf i))) r H2) as (s' & E).
  - cbn [x_out x_data]. rewrite Nat.add_comm, <- skipn_skipn, HS. now apply skipn_app_l.
  - cbn [x_out]. lia.
  - rewrite E. eauto.
Qed.

(** ** file mode *)
Lemma f_writes_ok rf l : forall f, Forall item_ok l -> f_writes rf l f = Some (f ++ wires rf l).
Proof.
  induction l as [|i l IH]; intros f H.
  - unfold wires. cbn. now rewrite app_nil_r.
  - inversion H; subst. cbn [f_writes]. unfold wires. cbn [map concat]. fold (wires rf l).
    assert (E : f_write rf i f = Some (f ++ wire rf i)).
    { destruct i as [k z|b]; cbn [f_write wire item_ok] in *; [|reflexivity].
      destruct (enc_ok rf k z H2) as (b & -> & _). reflexivity. }
    rewrite E, IH by auto. now rewrite <- app_assoc.
Qed.
Lemma f_get_app n b r : n = length b -> f_get n (b ++ r) = Some (b, r).
Proof.
  intros ->. unfold f_get. rewrite app_length.
  replace (length b + length r <? length b)%nat with false by (symmetry; apply Nat.ltb_ge; lia).
  now rewrite firstn_app_l, skipn_app_l by reflexivity.
Qed.
Lemma f_reads_ok rf l : forall r, Forall item_ok l -> f_reads (map req l) (wires rf l ++ r) = Some (l, r).
Proof.
  induction l as [|i l IH]; intros r H; [reflexivity|].
  inversion H; subst. unfold wires. cbn [map concat f_reads]. fold (wires rf l). rewrite <- app_assoc.
  assert (E : forall r, f_read (req i) (wire rf i ++ r) = Some (i, r)).
  { intro r0. pose proof (wire_length rf i H2) as WL. destruct i as [k z|b]; cbn [req f_read].
    - cbn [item_ok wire] in *. destruct (enc_ok rf k z H2) as (b & E & L & D & _). rewrite E in *.
      pose proof (not_longdouble _ _ H2).
      rewrite (f_get_app (width k) b r0) by auto. rewrite D. destruct k; try reflexivity. congruence.
    - cbn [wire] in *. rewrite (f_get_app _ (enc_raw b) r0) by auto. unfold enc_raw. now rewrite firstn_app_l. }
  rewrite E, IH by auto. reflexivity.
Qed.

(** the reading stream covers 1024 bytes only *)
Lemma reads_fail rf : forall l s r, Forall item_ok l -> skipn (x_out s) (x_data s) = wires rf l ++ r ->
  (x_out s <= 1024)%nat -> (x_out s + length (wires rf l) > 1024)%nat ->
  x_reads (map req l) s = None.
Proof.
  induction l as [|i l IH]; intros s r HF HS HO HL; [cbn in HL; lia|]. inversion HF; subst.
  unfold wires in *. cbn [map concat] in *. rewrite app_length in HL. cbn [x_reads].
  rewrite <- app_assoc in HS.
  destruct (Nat.le_gt_cases (x_out s + length (wire rf i)) 1024) as [A|A].
  - rewrite (read_ok rf i s _ H1 HS) by lia.
    rewrite (IH (mk_x (x_data s) (x_asize s) (x_in s) (x_out s + length (wire rf i)) (x_size s) (x_out s + length (wire rf i))) r H2); auto.
    + cbn [x_out x_data]. rewrite Nat.add_comm, <- skipn_skipn, HS. now apply skipn_app_l.
    + cbn [x_out]. lia.
  - rewrite (wire_length rf i H1) in A.
    assert (E : x_read (req i) s = None).
    { destruct i as [k z|b]; cbn [req x_read]; unfold x_popoff, x_unpackraw, x_get, BUFCHUNK.
      - replace (1024 - x_out s <? width k)%nat with true by (symmetry; apply Nat.ltb_lt; lia). now destruct k.
      - replace (1024 - x_out s <? _)%nat with true by (symmetry; apply Nat.ltb_lt; lia). reflexivity. }
    now rewrite E.
Qed.

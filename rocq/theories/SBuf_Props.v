(** * Properties of SimpleBuffer: C110 *)
From Verif Require Import Base Base_Proofs SMap Desc_Model Desc_Props Json_Model Json_Spec Json_Proofs Json_Proofs2 Json_Props SBuf_Model.
Import ListNotations.

(** ** Integers up to 2^53 pass through a double unchanged *)
Lemma pow_split : forall e, (e <= 52)%N -> (2 ^ 52 = 2 ^ e * 2 ^ (52 - e))%N.
Proof. intros e H. rewrite <- N.pow_add_r. f_equal. lia. Qed.
Lemma mag_small : forall m, (0 < m < 2 ^ 53)%N ->
  exists e, (e <= 52)%N /\ (2 ^ 52 <= m * 2 ^ (52 - e) < 2 ^ 53)%N /\
    mag2d m = ((e + 1023) * 2 ^ 52 + (m * 2 ^ (52 - e) - 2 ^ 52))%N.
Proof.
  intros m H. exists (N.log2 m).
  assert (B : (2 ^ N.log2 m <= m < 2 ^ N.succ (N.log2 m))%N) by (apply N.log2_spec; lia).
  assert (E : (N.log2 m <= 52)%N).
  { assert (N.log2 m < 53)%N; [|lia]. apply N.log2_lt_pow2; lia. }
  split; [exact E|]. pose proof (pow_split _ E) as P.
  rewrite N.pow_succ_r' in B.
  assert (Q : (2 ^ 53 = 2 * 2 ^ 52)%N) by reflexivity.
  assert (K : (0 < 2 ^ (52 - N.log2 m))%N) by (apply N.neq_0_lt_0, N.pow_nonzero; lia).
  split.
  - rewrite Q, P. nia.
  - unfold mag2d. destruct (N.eqb_spec m 0) as [Z|_]; [lia|].
    destruct (N.leb_spec (N.log2 m) 52) as [_|X]; [reflexivity|lia].
Qed.
Lemma mag_bound : forall m, (m <= 2 ^ 53)%N -> (mag2d m < 2 ^ 63)%N.
Proof.
  intros m H. destruct (N.eq_dec m 0) as [->|Z]; [reflexivity|].
  destruct (N.eq_dec m (2 ^ 53)) as [->|W]; [reflexivity|].
  destruct (mag_small m) as (e & E & B & ->); [lia|].
  assert (Q : (2 ^ 53 = 2 * 2 ^ 52)%N) by reflexivity.
  assert (R : (2 ^ 63 = 2048 * 2 ^ 52)%N) by reflexivity.
  rewrite R. clear H Z W R. set (k := (2 ^ 52)%N) in *. nia.
Qed.
Lemma d2z_sign : forall m (s : bool), (m <= 2 ^ 53)%N ->
  d2z ((if s then 2 ^ 63 else 0) + mag2d m) = Some (if s then (- Z.of_N m)%Z else Z.of_N m).
Proof.
  intros m s H. pose proof (mag_bound m H) as B. unfold d2z.
  assert (D : (((if s then 2 ^ 63 else 0) + mag2d m) / 2 ^ 63 =? 0)%N = negb s).
  { destruct s.
    - replace (2 ^ 63 + mag2d m)%N with (mag2d m + 1 * 2 ^ 63)%N by lia.
      rewrite N.div_add by discriminate. rewrite (N.div_small _ _ B). reflexivity.
    - rewrite N.add_0_l, (N.div_small _ _ B). reflexivity. }
  assert (M : (((if s then 2 ^ 63 else 0) + mag2d m) mod 2 ^ 63 = mag2d m)%N).
  { destruct s.
    - replace (2 ^ 63 + mag2d m)%N with (mag2d m + 1 * 2 ^ 63)%N by lia.
      rewrite N.mod_add by discriminate. now apply N.mod_small.
    - rewrite N.add_0_l. now apply N.mod_small. }
  cbv zeta. rewrite D, M. clear D M B.
  assert (G : forall u, (if negb s then Z.of_N u else (- Z.of_N u)%Z) = if s then (- Z.of_N u)%Z else Z.of_N u) by (now destruct s).
  destruct (N.eq_dec m 0) as [->|Z]; [now destruct s|].
  destruct (N.eq_dec m (2 ^ 53)) as [->|W]; [now destruct s|].
  destruct (mag_small m) as (e & E & B & ->); [lia|].
  assert (Q : (2 ^ 53 = 2 * 2 ^ 52)%N) by reflexivity.
  assert (F : (m * 2 ^ (52 - e) - 2 ^ 52 < 2 ^ 52)%N) by lia.
  assert (X1 : (((e + 1023) * 2 ^ 52 + (m * 2 ^ (52 - e) - 2 ^ 52)) / 2 ^ 52 = e + 1023)%N).
  { rewrite N.div_add_l by discriminate. rewrite (N.div_small _ _ F). lia. }
  assert (X2 : (((e + 1023) * 2 ^ 52 + (m * 2 ^ (52 - e) - 2 ^ 52)) mod 2 ^ 52 = m * 2 ^ (52 - e) - 2 ^ 52)%N).
  { rewrite N.add_comm, N.mod_add by discriminate. now apply N.mod_small. }
  rewrite X1, X2.
  destruct (N.eqb_spec (e + 1023) 2047) as [Y|_]; [lia|].
  destruct (N.eqb_spec (e + 1023) 0) as [Y|_]; [lia|].
  replace (2 ^ 52 + (m * 2 ^ (52 - e) - 2 ^ 52))%N with (m * 2 ^ (52 - e))%N by lia.
  destruct (N.leb_spec 1075 (e + 1023)) as [Y|Y].
  - replace e with 52%N by lia. change (2 ^ (52 - 52))%N with 1%N. change (52 + 1023 - 1075)%N with 0%N.
    rewrite N.pow_0_r, !N.mul_1_r. now rewrite G.
  - replace (1075 - (e + 1023))%N with (52 - e)%N by lia.
    rewrite N.div_mul by (apply N.pow_nonzero; discriminate). now rewrite G.
Qed.
Theorem C110_exact : forall z, (- 2 ^ 53 <= z <= 2 ^ 53)%Z -> d2z (i2d z) = Some z.
Proof.
  intros z H. unfold i2d. rewrite d2z_sign.
  - f_equal. destruct (Z.ltb_spec z 0); rewrite N2Z.inj_abs_N; lia.
  - apply N2Z.inj_le. rewrite N2Z.inj_abs_N, N2Z.inj_pow. change (Z.of_N 2 ^ Z.of_N 53)%Z with (2 ^ 53)%Z. lia.
Qed.
Print Assumptions C110_exact.
Example C110_exact_ex : (- 2 ^ 53 <= -5 <= 2 ^ 53)%Z /\ i2d 1 = 0x3ff0000000000000%N /\ i2d (-5) = 0xc014000000000000%N.
Proof. split; [lia|]. split; reflexivity. Qed.

(** ** The round trip *)
(** types whose JSON form is an object *)
Fixpoint objlike (t : jty) : Prop :=
  match t with
  | TPair _ _ | TStruct _ | TPoly _ | TMap _ => True
  | TPtr t' => objlike t'
  | _ => False
  end.
(** types that can be read back *)
Definition readable (t : jty) : Prop :=
  match t with
  | TBool | TChar | TFlt | TDbl | TStr | TInt _ _ _ | TEnum _ | TSeq None _ => True
  | _ => objlike t
  end.
(** an integer not inside anything is kept as a double *)
Definition short_int (t : jty) (v : jval) : Prop :=
  match t, v with TInt _ _ _, VI z => (- 2 ^ 53 <= z <= 2 ^ 53)%Z | _, _ => True end.

Lemma enc_obj : forall klt narrow t v, objlike t -> ht klt narrow t v -> exists kvs, enc t v = JObj kvs.
Proof.
  intros klt narrow t v O H. revert v H. induction t; try contradiction; intros v H; destruct v; try contradiction; try (eexists; reflexivity).
  apply IHt; assumption.
Qed.
Lemma pack_elems : forall klt narrow t l, wf true t -> Forall (ht klt narrow t) l ->
  jmapm (fun x => j <~ pack t fresh [] x ;; JOk (jo j)) l = JOk (map (enc t) l).
Proof.
  intros klt narrow t l W H. induction H as [|x l Hx H IH]; [reflexivity|].
  cbn [jmapm map]. destruct (pack_root klt narrow t x W Hx) as (s & E & F). rewrite E. cbn [jbind]. rewrite IH. cbn [jbind].
  now rewrite F.
Qed.
Lemma read_back : forall klt narrow t l, wf true t -> Forall (ht klt narrow t) l ->
  read_elems klt narrow t (map (enc t) l) = JOk l.
Proof.
  intros klt narrow t l W H. induction H as [|x l Hx H IH]; [reflexivity|].
  cbn [map read_elems]. rewrite unpack_root by (assumption || apply shape_dflt). cbn [jbind]. rewrite IH. reflexivity.
Qed.

(** What is put into a SimpleBuffer comes out again, whatever the target held. *)
Theorem C110_roundtrip : forall klt narrow t v a,
  readable t -> wf true t -> ht klt narrow t v -> short_int t v -> shape t a ->
  exists b, put t v = JOk b /\ get klt narrow t b a = JOk v.
Proof.
  intros klt narrow t v a R W H S A.
  assert (O : objlike t -> exists s, pack t fresh [] v = JOk s /\ exists kvs, jo s = JObj kvs /\ unpack klt narrow i2d false t (JObj kvs) [] a = JOk v).
  { intros O. destruct (pack_root klt narrow t v W H) as (s & E & F). destruct (enc_obj _ _ _ _ O H) as (kvs & K).
    exists s. split; [exact E|]. exists kvs. split; [congruence|]. rewrite <- K. now apply unpack_root. }
  destruct t; try contradiction; try (destruct v; try contradiction; eexists; split; [reflexivity|]; reflexivity).
  - destruct v; try contradiction. eexists. split; [reflexivity|]. cbn [get get_num]. rewrite C110_exact by exact S.
    cbn [ht] in H. unfold inrange in H. replace (int_fits sgn bits z) with true; [reflexivity|]. symmetry.
    unfold int_fits. destruct sgn; apply andb_true_intro; split; (apply Z.leb_le || apply Z.ltb_lt); lia.
  - destruct v; try contradiction. eexists. split; [reflexivity|]. cbn [get get_num]. cbn in H. now rewrite H.
  - destruct v; try contradiction. eexists. split; [reflexivity|]. cbn [get]. destruct W as [W _].
    now rewrite C33_value_symbol_value.
  - destruct fixed; [contradiction|]. destruct v; try contradiction. destruct H as [H _]. cbn [wf] in W.
    cbn [put]. rewrite (pack_elems klt narrow) by assumption. cbn [jbind]. eexists. split; [reflexivity|].
    cbn [get]. rewrite read_back by assumption. reflexivity.
  - destruct (O I) as (s & E & kvs & F & G). cbn [put]. unfold sb_make.
    exists (SJson (JObj kvs)). rewrite E. cbn [jbind]. rewrite F. now split.
  - destruct (O I) as (s & E & kvs & F & G). cbn [put]. unfold sb_make.
    exists (SJson (JObj kvs)). rewrite E. cbn [jbind]. rewrite F. now split.
  - destruct (O R) as (s & E & kvs & F & G). cbn [put]. unfold sb_make.
    exists (SJson (JObj kvs)). rewrite E. cbn [jbind]. rewrite F. now split.
  - destruct (O I) as (s & E & kvs & F & G). cbn [put]. unfold sb_make.
    exists (SJson (JObj kvs)). rewrite E. cbn [jbind]. rewrite F. now split.
  - destruct (O I) as (s & E & kvs & F & G). cbn [put]. unfold sb_make.
    exists (SJson (JObj kvs)). rewrite E. cbn [jbind]. rewrite F. now split.
Qed.
Print Assumptions C110_roundtrip.
Definition klt0 : nat -> jval -> jval -> bool := fun _ _ _ => false.
Definition t_ex : jty := TSeq None (TStruct (FCons (bs "a") (TInt ViaI64 true 64) (FCons (bs "b") TStr FNil))).
Example C110_roundtrip_ex : readable t_ex /\ wf true t_ex /\
  ht klt0 (fun d => d) t_ex (VL [VL [VI 9007199254740993; VS (bs "x")]]) /\ short_int t_ex (VL []) /\ shape t_ex (VL []) /\
  put t_ex (VL [VL [VI 9007199254740993; VS (bs "x")]]) = JOk (SArr [JObj [(bs "a", JInt 9007199254740993); (bs "b", JStr (bs "x"))]]).
Proof.
  split; [exact I|]. split; [|split; [|split; [exact I|split; [|vm_compute; reflexivity]]]].
  - cbn -[bs]. split; [repeat constructor; cbn; intuition discriminate|].
    split; [now apply nodotb_ok|]. split; [discriminate|]. split; [reflexivity|]. split; [now apply nodotb_ok|]. split; [discriminate|]. split; exact I.
  - cbn -[bs Z.pow]. split; [|exact I]. constructor; [|constructor]. split; [|split; exact I]. unfold inrange. lia.
  - cbn. split; [constructor|exact I].
Qed.

(** A plain integer with more than 53 bits is changed. *)
Theorem C110_wide_refuted : exists z b r, inrange true 64 z /\ put (TInt ViaI64 true 64) (VI z) = JOk b /\
  get klt0 (fun d => d) (TInt ViaI64 true 64) b (VI 0) = JOk r /\ r <> VI z.
Proof.
  exists 9007199254740993%Z. eexists. eexists. split; [unfold inrange; lia|]. split; [vm_compute; reflexivity|].
  split; [vm_compute; reflexivity|]. discriminate.
Qed.
Print Assumptions C110_wide_refuted.
(** Reading back the largest 64 bit integer is undefined: it has become 2^63. *)
Theorem C110_max_refuted : exists z b, inrange true 64 z /\ put (TInt ViaI64 true 64) (VI z) = JOk b /\
  get klt0 (fun d => d) (TInt ViaI64 true 64) b (VI 0) = JUB.
Proof.
  exists (2 ^ 63 - 1)%Z. eexists. split; [unfold inrange; lia|]. split; [vm_compute; reflexivity|]. vm_compute. reflexivity.
Qed.
Print Assumptions C110_max_refuted.
(** Between 2^53 and 2^54 every odd integer shares its buffer with an even neighbour: no reader
    could tell them apart. *)
Theorem C110_collapse : forall z, (2 ^ 52 <= z < 2 ^ 53)%Z ->
  exists z', (z' = 2 * z \/ z' = 2 * z + 2)%Z /\ i2d (2 * z + 1) = i2d z'.
Proof.
  assert (L : forall m, (2 ^ 53 <= m < 2 ^ 54)%N -> mag2d m = (1076 * 2 ^ 52 + (m / 2 + (if (m mod 2 =? 1)%N && N.odd (m / 2) then 1 else 0) - 2 ^ 52))%N).
  { intros m H. assert (E : N.log2 m = 53%N) by (apply N.log2_unique; lia).
    unfold mag2d. destruct (N.eqb_spec m 0) as [Z|_]; [lia|]. rewrite E. cbv zeta.
    change (53 <=? 52)%N with false. cbv iota. change (2 ^ (53 - 52))%N with 2%N. change (53 + 1023)%N with 1076%N.
    pose proof (N.mod_lt m 2). assert (C : (m mod 2 = 0 \/ m mod 2 = 1)%N) by lia.
    destruct C as [C|C]; rewrite C; reflexivity. }
  intros z H. set (n := Z.to_N z).
  assert (Hn : (2 ^ 52 <= n < 2 ^ 53)%N).
  { unfold n. split; [apply N2Z.inj_le|apply N2Z.inj_lt]; rewrite Z2N.id by lia; rewrite N2Z.inj_pow; exact H || (destruct H; assumption). }
  assert (P : forall k, (0 <= k)%Z -> i2d (2 * z + k) = mag2d (2 * n + Z.to_N k)).
  { intros k Hk. unfold i2d. destruct (Z.ltb_spec (2 * z + k) 0); [lia|]. rewrite N.add_0_l. f_equal.
    apply N2Z.inj. rewrite N2Z.inj_abs_N, N2Z.inj_add, N2Z.inj_mul. unfold n. rewrite !Z2N.id by lia. lia. }
  assert (D1 : ((2 * n + 1) / 2 = n)%N) by (symmetry; apply (N.div_unique _ _ _ 1); lia).
  assert (M1 : ((2 * n + 1) mod 2 = 1)%N) by (symmetry; apply (N.mod_unique _ _ n); lia).
  assert (D0 : ((2 * n) / 2 = n)%N) by (symmetry; apply (N.div_unique _ _ _ 0); lia).
  assert (M0 : ((2 * n) mod 2 = 0)%N) by (symmetry; apply (N.mod_unique _ _ n); lia).
  assert (F1 : (2 ^ 53 = 2 * 2 ^ 52)%N) by reflexivity. assert (F2 : (2 ^ 54 = 4 * 2 ^ 52)%N) by reflexivity.
  destruct (N.odd n) eqn:O.
  - exists (2 * z + 2)%Z. split; [now right|]. rewrite !P by lia. change (Z.to_N 1) with 1%N. change (Z.to_N 2) with 2%N.
    rewrite (L (2 * n + 1)%N) by lia. rewrite D1, M1, O. cbn [N.eqb Pos.eqb andb].
    destruct (N.eq_dec n (2 ^ 53 - 1)) as [->|N1]; [reflexivity|].
    rewrite (L (2 * n + 2)%N) by lia.
    assert (D2 : ((2 * n + 2) / 2 = n + 1)%N) by (symmetry; apply (N.div_unique _ _ _ 0); lia).
    assert (M2 : ((2 * n + 2) mod 2 = 0)%N) by (symmetry; apply (N.mod_unique _ _ (n + 1)); lia).
    rewrite D2, M2. cbn [N.eqb andb]. lia.
  - exists (2 * z)%Z. split; [now left|]. rewrite P by lia. replace (2 * z)%Z with (2 * z + 0)%Z by lia. rewrite P by lia.
    change (Z.to_N 1) with 1%N. change (Z.to_N 0) with 0%N. rewrite N.add_0_r.
    rewrite (L (2 * n + 1)%N) by lia. rewrite (L (2 * n)%N) by lia. rewrite D1, M1, D0, M0, O. reflexivity.
Qed.
Print Assumptions C110_collapse.
Example C110_collapse_ex : (2 ^ 52 <= 2 ^ 52 < 2 ^ 53)%Z /\ i2d (2 * 2 ^ 52 + 1) = i2d (2 * 2 ^ 52).
Proof. split; [lia|reflexivity]. Qed.

(** Sets and maps can be written but reading them back always throws. *)
Theorem C110_assoc : forall klt narrow multi c t v a,
  wf true t -> ht klt narrow (TAssoc multi c t) v ->
  exists b, put (TAssoc multi c t) v = JOk b /\ sb_type b = Rarray /\ get klt narrow (TAssoc multi c t) b a = JErr EOther.
Proof.
  intros klt narrow multi c t v a W H. destruct (pack_root klt narrow (TAssoc multi c t) v W H) as (s & E & F).
  destruct v; try contradiction. cbn [put]. unfold sb_make. rewrite E. cbn [jbind]. rewrite F. cbn [enc sb_assign].
  eexists. split; [reflexivity|]. split; reflexivity.
Qed.
Print Assumptions C110_assoc.
Example C110_assoc_ex : wf true TStr /\ ht klt0 (fun d => d) (TAssoc true 0 TStr) (VL [VS (bs "k")]).
Proof. split; [exact I|]. cbn. split; [repeat constructor|]. repeat constructor. Qed.

(** A std::array is never changed by reading it. *)
Theorem C110_fixed : forall klt narrow n t b a r, get klt narrow (TSeq (Some n) t) b a = JOk r -> r = a.
Proof.
  intros klt narrow n t b a r H. cbn [get] in H. destruct b; try (injection H as <-; reflexivity).
  destruct (read_elems klt narrow t l); cbn [jbind] in H; [injection H as <-; reflexivity|discriminate H..].
Qed.
Print Assumptions C110_fixed.
Example C110_fixed_ex : get klt0 (fun d => d) (TSeq (Some 1) TBool) (SArr [JBool true]) (VL [VB false]) = JOk (VL [VB false]).
Proof. reflexivity. Qed.

(** A sequence read is as long as the array; what is not an array empties it. *)
Theorem C110_sequence : forall klt narrow t b a r, get klt narrow (TSeq None t) b a = JOk r ->
  exists l, r = VL l /\
    match sb_json b with JArr ys => sb_type b = Rarray -> length l = length ys | _ => l = [] end.
Proof.
  assert (L : forall klt narrow t l r, read_elems klt narrow t l = JOk r -> length r = length l).
  { intros klt narrow t. induction l as [|j l IH]; intros r H; cbn [read_elems] in H; [now injection H as <-|].
    destruct (unpack klt narrow i2d false t j [] (dflt t)) as [e| |]; try discriminate H. cbn [jbind] in H.
    destruct (read_elems klt narrow t l) as [r'| |]; try discriminate H. cbn [jbind] in H. injection H as <-.
    cbn [length]. now rewrite IH. }
  intros klt narrow t b a r H. cbn [get] in H. destruct b; cbn [sb_json] in *; try (injection H as <-; eexists; split; [reflexivity|reflexivity]).
  - injection H as <-. eexists. split; [reflexivity|]. destruct j; try reflexivity. discriminate.
  - destruct (read_elems klt narrow t l) as [rs| |] eqn:E; try discriminate H. cbn [jbind] in H. injection H as <-.
    eexists. split; [reflexivity|]. intros _. exact (L _ _ _ _ _ E).
Qed.
Print Assumptions C110_sequence.
Example C110_sequence_ex : get klt0 (fun d => d) (TSeq None TBool) (SStr (bs "x")) (VL [VB true]) = JOk (VL []).
Proof. reflexivity. Qed.

(** ** Kinds *)
(** The kind of buffer each type of value gives. *)
Theorem C110_kind : forall t v b, put t v = JOk b ->
  match t with
  | TBool => sb_type b = Rboolean
  | TInt _ _ _ | TFlt | TDbl => sb_type b = Rfloat
  | TChar | TStr | TEnum _ => sb_type b = Rstring
  | TSeq _ _ => sb_type b = Rarray
  | _ => True
  end.
Proof.
  intros t v b H. destruct t; try exact I; destruct v; try discriminate H; try (injection H as <-; reflexivity).
  cbn [put] in H. destruct (jmapm _ l); try discriminate H. cbn [jbind] in H. injection H as <-. reflexivity.
Qed.
Print Assumptions C110_kind.
Example C110_kind_ex : put (TInt ViaInt true 32) (VI 3) = JOk (SDbl 0x4008000000000000%N).
Proof. reflexivity. Qed.
(** Reading a value from a buffer of a kind it cannot come from throws and never gives a
    value. *)
Theorem C110_mismatch : forall klt narrow t b a,
  match t with
  | TBool => sb_type b <> Rboolean
  | TInt _ _ _ | TFlt | TDbl => ~ In (sb_type b) [Rfloat; Rint; Robject]
  | TChar | TStr | TEnum _ => sb_type b <> Rstring
  | TSeq _ _ => False
  | _ => ~ In (sb_type b) [Robject; Rnull]
  end -> get klt narrow t b a = JErr EOther.
Proof.
  intros klt narrow t b a H.
  destruct t; try contradiction; destruct b as [| | | |[] |]; cbn in H; try reflexivity; try congruence; exfalso; apply H; auto.
Qed.
Print Assumptions C110_mismatch.
Example C110_mismatch_ex : sb_type (SStr (bs "1")) <> Rboolean /\ ~ In (sb_type (SJson JNull)) [Rfloat; Rint; Robject].
Proof. split; [discriminate|]. cbn. intuition discriminate. Qed.

(** A buffer made of a JSON value gives this value back, exactly if it is not an integer
    of more than 32 bits. *)
Theorem C110_json : forall j,
  sb_json (sb_assign j) = j <-> (forall z, j = JInt z -> (- 2 ^ 31 <= z < 2 ^ 31)%Z).
Proof.
  intros j. split.
  - intros H z ->. cbn in H. injection H as H. unfold wrap in H.
    pose proof (Z.mod_pos_bound (z + 2 ^ (32 - 1)) (2 ^ 32)). change (32 - 1)%Z with 31%Z in *. lia.
  - intros H. destruct j; try reflexivity. cbn. f_equal. unfold wrap. specialize (H z eq_refl).
    change (32 - 1)%Z with 31%Z. rewrite Z.mod_small by lia. lia.
Qed.
Print Assumptions C110_json.
Example C110_json_ex : sb_json (sb_assign (JInt 5000000000)) = JInt 705032704.
Proof. reflexivity. Qed.
(** A SimpleBuffer constructed from a 64 bit integer holds another one, which is then read. *)
Theorem C110_construct_refuted : exists z b r, inrange true 64 z /\ sb_make (TInt ViaI64 true 64) (VI z) = JOk b /\
  get klt0 (fun d => d) (TInt ViaI64 true 64) b (VI 0) = JOk r /\ r <> VI z.
Proof.
  exists 5000000000%Z. eexists. eexists. split; [unfold inrange; lia|]. split; [vm_compute; reflexivity|].
  split; [vm_compute; reflexivity|]. discriminate.
Qed.
Print Assumptions C110_construct_refuted.
(** Constructed from an integer of up to 32 bits it gives the integer back to any type
    that can hold it. *)
Theorem C110_construct : forall klt narrow w sgn bits z a,
  (- 2 ^ 31 <= z < 2 ^ 31)%Z -> intty w sgn bits = true -> inrange sgn bits z ->
  exists b, sb_make (TInt w sgn bits) (VI z) = JOk b /\ sb_type b = Rint /\
    get klt narrow (TInt w sgn bits) b a = JOk (VI z).
Proof.
  intros klt narrow w sgn bits z a Z T R. unfold sb_make.
  destruct (pack_root klt narrow (TInt w sgn bits) (VI z) T R) as (s & E & F). rewrite E. cbn [jbind]. rewrite F.
  cbn [enc sb_assign]. eexists. split; [reflexivity|]. split; [reflexivity|]. cbn [get get_num].
  assert (B : wrap true 32 z = z).
  { unfold wrap. change (32 - 1)%Z with 31%Z. rewrite Z.mod_small by lia. lia. }
  rewrite B. f_equal. f_equal. unfold inrange in R. unfold wrap.
  destruct sgn; [|now apply Z.mod_small].
  assert (P : (2 ^ bits = 2 * 2 ^ (bits - 1))%Z).
  { rewrite <- Z.pow_succ_r; [f_equal; lia|]. destruct w; cbn in T; try discriminate T;
      rewrite ?orb_true_iff, ?Z.eqb_eq in T; lia. }
  rewrite Z.mod_small; lia.
Qed.
Print Assumptions C110_construct.
Example C110_construct_ex : (- 2 ^ 31 <= -7 < 2 ^ 31)%Z /\ intty ViaInt true 16 = true /\ inrange true 16 (-7).
Proof. unfold inrange. repeat split; lia || reflexivity. Qed.

(** A buffer constructed for a kind is of this kind only for four of the seven. *)
Theorem C110_of_kind : forall t, sb_type (sb_of_type t) = t <-> In t [Rboolean; Rint; Rfloat; Rarray].
Proof. intros t. destruct t; cbn; split; intros H; auto; try discriminate H; intuition discriminate. Qed.
Print Assumptions C110_of_kind.
(** The buffer for a string is a bool. *)
Theorem C110_string_refuted : exists t, t = Rstring /\ sb_type (sb_of_type t) = Rboolean.
Proof. exists Rstring. split; reflexivity. Qed.
Print Assumptions C110_string_refuted.

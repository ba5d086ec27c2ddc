(** * Further strengthening: what new elements are made of, empty character references *)
From Verif Require Import Base SMap Dec Desc_Model Desc_Props Json_Model Json_Spec Json_Proofs Json_Proofs2 Json_Props Json2_Props Xml_Model PyScope_Model.
Import ListNotations.

(** ** C22: elements which did not exist before *)
(** A freshly made value: numbers zero, strings and containers empty, pointers null,
    and the same of every member.  Stated without the model's [dflt]. *)
Inductive fresh : jty -> jval -> Prop :=
| fr_bool : fresh TBool (VB false)
| fr_char : fresh TChar (VC (ascii_of_nat 0))
| fr_int : forall w s b, fresh (TInt w s b) (VI 0)
| fr_flt : fresh TFlt (VD 0)
| fr_dbl : fresh TDbl (VD 0)
| fr_str : fresh TStr (VS [])
| fr_enum : forall ks, fresh (TEnum ks) (VI 0)
| fr_seq : forall t, fresh (TSeq None t) (VL [])
| fr_fixed : forall n t l, length l = n -> Forall (fresh t) l -> fresh (TSeq (Some n) t) (VL l)
| fr_arr : forall ds t l, length l = fold_left Nat.mul ds 1 -> Forall (fresh t) l -> fresh (TArr ds t) (VL l)
| fr_assoc : forall m c t, fresh (TAssoc m c t) (VL [])
| fr_pair : forall a b u v, fresh a u -> fresh b v -> fresh (TPair a b) (VP u v)
| fr_tup : forall ts l, fresh_tys ts l -> fresh (TTup ts) (VL l)
| fr_struct : forall fs l, fresh_flds fs l -> fresh (TStruct fs) (VL l)
| fr_ptr : forall t, fresh (TPtr t) VNul
| fr_poly : forall als, fresh (TPoly als) VNul
| fr_map : forall t, fresh (TMap t) (VM [])
with fresh_tys : tys -> list jval -> Prop :=
| frt_nil : fresh_tys tnil []
| frt_cons : forall t ts v l, fresh t v -> fresh_tys ts l -> fresh_tys (tcons t ts) (v :: l)
with fresh_flds : flds -> list jval -> Prop :=
| frf_nil : fresh_flds FNil []
| frf_cons : forall n t fs v l, fresh t v -> fresh_flds fs l -> fresh_flds (FCons n t fs) (v :: l).

Lemma forall_repeat : forall {A} (P : A -> Prop) x n, P x -> Forall P (repeat x n).
Proof. intros A P x n H. induction n; constructor; auto. Qed.
Lemma fold_mul : forall ds k, fold_left Nat.mul ds k = k * fold_right Nat.mul 1 ds.
Proof.
  induction ds as [|d ds IH]; intros k; cbn [fold_left fold_right]; [lia|]. rewrite IH. lia.
Qed.
Lemma dflt_all : (forall t, fresh t (dflt t)) /\ (forall ts, fresh_tys ts (dflt_tys ts)) /\
  (forall fs, fresh_flds fs (dflt_flds fs)) /\ (forall als : alts, True).
Proof.
  apply jty_mutind; try (intros; exact I); try (intros; constructor; assumption).
  - intros [n|] t IH; cbn [dflt]; [|constructor]. constructor; [apply repeat_length|now apply forall_repeat].
  - intros ds t IH. cbn [dflt]. constructor; [|now apply forall_repeat].
    rewrite repeat_length, fold_mul. lia.
Qed.

(** The elements of a resizable sequence after reading: as many as the array has, each
    read into the element which was there or, beyond those, into a fresh one. *)
Theorem C22_new_elements : forall klt narrow i2d te t x d l vals r,
  json_find x d = FOk (JArr l) ->
  unpack klt narrow i2d te (TSeq None t) x d (VL vals) = JOk r ->
  exists rs, r = VL rs /\ length rs = length l /\
    forall i y, nth_error l i = Some y ->
      exists v u, unpack klt narrow i2d false t y [] v = JOk u /\ nth_error rs i = Some u /\
        match nth_error vals i with Some v0 => v = v0 | None => fresh t v end.
Proof.
  intros klt narrow i2d te t x d l vals r E H. cbn [unpack] in H. unfold find_or in H. rewrite E in H.
  destruct (unseq _ l _) as [rs| |] eqn:U; try discriminate H. injection H as <-.
  exists rs. split; [reflexivity|]. apply unseq_split in U. destruct U as (U1 & _ & U3).
  assert (L : length (firstn (length l) (vals ++ repeat (dflt t) (length l))) = length l).
  { rewrite firstn_length, app_length, repeat_length. lia. }
  split; [congruence|]. intros i y Hi.
  assert (B : i < length l) by (apply nth_error_Some; congruence).
  destruct (nth_error (firstn (length l) (vals ++ repeat (dflt t) (length l))) i) as [v|] eqn:V.
  2: { apply nth_error_None in V. lia. }
  destruct (U3 i y v Hi V) as (u & U4 & U5). exists v, u. split; [exact U4|]. split; [exact U5|].
  assert (V' : nth_error (vals ++ repeat (dflt t) (length l)) i = Some v).
  { rewrite <- V. symmetry. rewrite <- (firstn_skipn (length l) (vals ++ repeat (dflt t) (length l))) at 2.
    rewrite nth_error_app1; [reflexivity|]. rewrite L. exact B. }
  destruct (nth_error vals i) as [v0|] eqn:N.
  - rewrite nth_error_app1 in V' by (apply nth_error_Some; congruence). congruence.
  - apply nth_error_None in N. rewrite nth_error_app2 in V' by exact N.
    apply nth_error_In in V'. apply repeat_spec in V'. subst v. apply dflt_all.
Qed.
Print Assumptions C22_new_elements.
Example C22_new_elements_ex : forall klt narrow i2d,
  let t := TStruct (FCons (bs "a") (TInt ViaInt true 32) (FCons (bs "b") TStr FNil)) in
  json_find (JArr [JObj []; JObj [(bs "b", JStr (bs "q"))]]) [] = FOk (JArr [JObj []; JObj [(bs "b", JStr (bs "q"))]]) /\
  unpack klt narrow i2d true (TSeq None t) (JArr [JObj []; JObj [(bs "b", JStr (bs "q"))]]) [] (VL [VL [VI 7; VS (bs "z")]])
  = JOk (VL [VL [VI 7; VS (bs "z")]; VL [VI 0; VS (bs "q")]]).
Proof. intros. split; vm_compute; reflexivity. Qed.

(** What a smart pointer points at after reading was read into a fresh object, whatever
    it pointed at before; it is null only if that reading threw. *)
Theorem C22_new_target : forall klt narrow i2d te t x d a,
  exists z, fresh t z /\
    unpack klt narrow i2d te (TPtr t) x d a =
      match unpack klt narrow i2d te t x d z with JOk v => JOk (VPtr v) | JErr _ => JOk VNul | JUB => JUB end.
Proof. intros. exists (dflt t). split; [apply dflt_all|reflexivity]. Qed.
Print Assumptions C22_new_target.
Example C22_new_target_ex : forall klt narrow i2d,
  unpack klt narrow i2d false (TPtr (TStruct (FCons (bs "a") TBool FNil))) (JObj []) [] (VPtr (VL [VB true])) = JOk (VPtr (VL [VB false])).
Proof. intros. vm_compute. reflexivity. Qed.

(** Polymorphic pointers: the object created for the tag is fresh before reading. *)
Theorem C22_new_object : forall klt narrow i2d te als tag x d r,
  unpack_alts klt narrow i2d te als tag x d = JOk r ->
  exists fs z l, fresh_flds fs z /\ unpack_flds klt narrow i2d te fs x d z = JOk l /\ r = VPoly tag l.
Proof.
  intros klt narrow i2d te als tag x d r. induction als as [|tg fs als IH]; [discriminate|].
  change (unpack_alts klt narrow i2d te (ACons tg fs als) tag x d) with
    (if beq tg tag then jbind (unpack_flds klt narrow i2d te fs x d (dflt_flds fs)) (fun r => JOk (VPoly tag r))
     else unpack_alts klt narrow i2d te als tag x d).
  destruct (beq tg tag) eqn:B; [|exact IH]. intros H.
  destruct (unpack_flds klt narrow i2d te fs x d (dflt_flds fs)) as [l| |] eqn:U; try discriminate H.
  cbn [jbind] in H. injection H as <-. exists fs, (dflt_flds fs), l. split; [apply dflt_all|]. split; [exact U|reflexivity].
Qed.
Print Assumptions C22_new_object.
Example C22_new_object_ex : forall klt narrow i2d,
  unpack_alts klt narrow i2d false (ACons (bs "A") (FCons (bs "a") TBool (FCons (bs "b") TStr FNil)) ANil) (bs "A") (JObj [(bs "b", JStr (bs "u"))]) []
  = JOk (VPoly (bs "A") [VB false; VS (bs "u")]).
Proof. intros. vm_compute. reflexivity. Qed.

(** The elements of a map with string keys are read into fresh values. *)
Theorem C22_new_entries : forall klt narrow i2d te t x d a kvs r k y,
  json_find x d = FOk (JObj kvs) -> NoDup (map fst kvs) ->
  unpack klt narrow i2d te (TMap t) x d a = JOk r -> In (k, y) kvs ->
  exists z m u, fresh t z /\ unpack klt narrow i2d te t x (d ++ dot :: k) z = JOk u /\ r = VM m /\ mfind bcmp k m = Some u.
Proof.
  intros klt narrow i2d te t x d a kvs r k y E ND H Hin. cbn [unpack] in H. unfold find_or in H. rewrite E in H.
  exists (dflt t).
  match type of H with context [?f kvs []] => set (loop := f) in H end.
  assert (G : forall l acc m, NoDup (map fst l) -> loop l acc = JOk m ->
     (forall k, ~ In k (map fst l) -> mfind bcmp k m = mfind bcmp k acc) /\
     (forall k y, In (k, y) l -> exists u, unpack klt narrow i2d te t x (d ++ dot :: k) (dflt t) = JOk u /\ mfind bcmp k m = Some u)).
  { clear. induction l as [|[k y] l IH]; intros acc m N L.
    - cbn in L. injection L as <-. split; [reflexivity|]. intros k y [].
    - unfold loop in L. fold loop in L. cbn [map fst] in N. apply NoDup_cons_iff in N. destruct N as [N1 N2].
      destruct (unpack klt narrow i2d te t x (d ++ dot :: k) (dflt t)) as [u| |] eqn:U; try discriminate L.
      cbn [jbind] in L. apply IH in L; [|exact N2]. destruct L as [L1 L2]. split.
      + intros k' K. rewrite L1 by (intros X; apply K; right; exact X).
        apply (mfind_mset_other bcmp bcmp_eq). intros ->. apply K. left. reflexivity.
      + intros k' y' [X|X].
        * injection X as <- <-. exists u. split; [exact U|]. rewrite L1 by exact N1. apply (mfind_mset_same bcmp bcmp_eq).
        * exact (L2 _ _ X). }
  destruct (loop kvs []) as [m| |] eqn:L; try discriminate H. cbn [jbind] in H. injection H as <-.
  apply G in L; [|exact ND]. destruct L as [_ L2]. destruct (L2 _ _ Hin) as (u & U1 & U2).
  exists m, u. split; [apply dflt_all|]. now split.
Qed.
Print Assumptions C22_new_entries.
Example C22_new_entries_ex : forall klt narrow i2d,
  let x := JObj [(bs "p", JObj []); (bs "q", JObj [(bs "a", JBool true)])] in
  json_find x [] = FOk x /\ NoDup (map fst [(bs "p", JObj []); (bs "q", JObj [(bs "a", JBool true)])]) /\
  unpack klt narrow i2d false (TMap (TStruct (FCons (bs "a") TBool FNil))) x [] (VM []) = JOk (VM [(bs "p", VL [VB false]); (bs "q", VL [VB true])]).
Proof.
  intros. split; [reflexivity|]. split; [|vm_compute; reflexivity].
  cbn [map fst]. repeat constructor; cbn; intuition discriminate.
Qed.

(** ** C27: a character reference without digits is the character 0 *)
Theorem C27_empty_reference : forall rest,
  parse_entity (bs "#;" ++ rest) = Some (ascii_of_nat 0, rest) /\
  parse_entity (bs "#x;" ++ rest) = Some (ascii_of_nat 0, rest).
Proof. intros. split; reflexivity. Qed.
Print Assumptions C27_empty_reference.

(** ** C106: a single colon separates nothing *)
Theorem C106_single : forall s, (forall p q, s <> p ++ bs "::" ++ q) -> (forall q, s <> ":"%char :: q) -> extract s = (s, []).
Proof.
  assert (G : forall s acc k m ns, (forall p q, s <> p ++ bs "::" ++ q) -> extract_loop acc k m ns s = (rev acc ++ s, rev ns)).
  { induction s as [|c s IH]; intros acc k m ns H; cbn [extract_loop].
    - now rewrite app_nil_r.
    - assert (H' : forall p q, s <> p ++ bs "::" ++ q) by (intros p q ->; exact (H (c :: p) q eq_refl)).
      assert (E : forall k m ns, extract_loop (c :: acc) k m ns s = (rev acc ++ c :: s, rev ns)).
      { intros k' m' ns'. rewrite IH by exact H'. cbn [rev]. now rewrite <- app_assoc. }
      destruct (ascii_dec c ":"%char) as [->|_].
      + destruct s as [|c' s']; [apply E|]. destruct (ascii_dec c' ":"%char) as [->|_].
        * exfalso. exact (H [] s' eq_refl).
        * rewrite andb_false_r. apply E.
      + destruct (ascii_dec c "<"%char); [apply E|]. destruct (ascii_dec c ">"%char); apply E. }
  intros s H L. unfold extract.
  assert (S : strip_colons s = s).
  { destruct s as [|c s]; [reflexivity|]. cbn [strip_colons]. destruct (ascii_dec c ":"%char) as [->|_]; [|reflexivity].
    exfalso. exact (L s eq_refl). }
  rewrite S. now rewrite G.
Qed.
Print Assumptions C106_single.
Example C106_single_ex : extract (bs "a:b<c> d") = (bs "a:b<c> d", []).
Proof. vm_compute. reflexivity. Qed.

(** ** C22: what becomes of a value that is absent, for all types but tuples *)
(** Nothing, except that enumerations take the value of the empty name (0 if there is
    none), plain smart pointers point at a fresh object and polymorphic ones are null. *)
Inductive reset : jty -> jval -> jval -> Prop :=
| rs_leaf : forall t a, match t with TBool | TChar | TInt _ _ _ | TFlt | TDbl | TStr | TSeq _ _ | TArr _ _ | TAssoc _ _ _ | TMap _ => True | _ => False end ->
    reset t a a
| rs_enum0 : forall ks a, ~ In [] (map fst ks) -> reset (TEnum ks) a (VI 0)
| rs_enum : forall ks a z, In ([], z) ks -> reset (TEnum ks) a (VI z)
| rs_pair : forall ta tb a b a' b', reset ta a a' -> reset tb b b' -> reset (TPair ta tb) (VP a b) (VP a' b')
| rs_struct : forall fs l l', reset_flds fs l l' -> reset (TStruct fs) (VL l) (VL l')
| rs_ptr : forall t a z v, fresh t z -> reset t z v -> reset (TPtr t) a (VPtr v)
| rs_poly : forall als a, reset (TPoly als) a VNul
with reset_flds : flds -> list jval -> list jval -> Prop :=
| rsf_nil : reset_flds FNil [] []
| rsf_cons : forall n t fs a b l l', reset t a b -> reset_flds fs l l' -> reset_flds (FCons n t fs) (a :: l) (b :: l').
Fixpoint no_tuple (t : jty) : Prop :=
  match t with
  | TTup _ => False
  | TEnum ks => NoDup (map fst ks)
  | TPair a b => no_tuple a /\ no_tuple b
  | TStruct fs => no_tuple_flds fs
  | TPtr t => no_tuple t
  | _ => True
  end
with no_tuple_flds (fs : flds) : Prop :=
  match fs with FNil => True | FCons n t fs' => nodot n /\ no_tuple t /\ no_tuple_flds fs' end.

Lemma reset_all : forall klt narrow i2d x, (forall kvs, x = JObj kvs -> mfind bcmp (bs "type") kvs = None) ->
  (forall t cs a, no_tuple t -> shape t a -> Forall nodot cs -> missing x cs ->
     exists r, unpack klt narrow i2d false t x (pstr cs) a = JOk r /\ reset t a r) /\
  (forall ts : tys, True) /\
  (forall fs cs a, no_tuple_flds fs -> shape_flds fs a -> Forall nodot cs -> missing x cs ->
     exists r, unpack_flds klt narrow i2d false fs x (pstr cs) a = JOk r /\ reset_flds fs a r) /\
  (forall als : alts, True).
Proof.
  intros klt narrow i2d x NT.
  assert (L : forall {A} cs (old : A) k, Forall nodot cs -> missing x cs ->
     find_or false x (pstr cs) old k = JOk old).
  { intros A cs old k Hn Hm. unfold find_or. rewrite find_pstr by exact Hn.
    destruct (walk x cs) eqn:E; [now apply Hm in E|reflexivity..]. }
  apply jty_mutind; try (intros; exact I); try (intros; contradiction).
  1-6: intros; cbn [unpack]; eexists; split; [now apply L|constructor; exact I].
  - intros ks cs a K S Hn Hm. cbn [unpack]. unfold unpack_leaf. rewrite L by assumption. cbn [jbind filter].
    destruct (in_dec (list_eq_dec ascii_dec) [] (map fst ks)) as [I0|N0].
    + apply in_map_iff in I0 as ([k z] & E & I0). cbn [fst] in E. subst k.
      exists (VI z). split; [|now constructor].
      unfold ek_val, ek_make. rewrite mfind_fold_s, (nodup_find ks [] z); auto.
    + exists (VI 0). split; [|now constructor]. now rewrite (proj1 (proj1 (C33_unknown ks) [] N0)).
  - intros; cbn [unpack]; eexists; split; [now apply L|constructor; exact I].
  - intros; cbn [unpack]; eexists; split; [now apply L|constructor; exact I].
  - intros; cbn [unpack]; eexists; split; [now apply L|constructor; exact I].
  - intros a IHa b IHb cs v [K1 K2] S Hn Hm. destruct v; try contradiction. destruct S as [S1 S2].
    cbn [unpack]. change first_ with (dot :: bs "first"). change second_ with (dot :: bs "second").
    rewrite <- !pstr_snoc.
    assert (F : forall k, nodot k -> Forall nodot (cs ++ [k])).
    { intros k Hk. apply Forall_app. split; [exact Hn|]. constructor; [exact Hk|constructor]. }
    destruct (IHa (cs ++ [bs "first"]) v1 K1 S1) as (r1 & E1 & R1); [apply F; now apply nodotb_ok|now apply missing_child|].
    destruct (IHb (cs ++ [bs "second"]) v2 K2 S2) as (r2 & E2 & R2); [apply F; now apply nodotb_ok|now apply missing_child|].
    rewrite E1. cbn [jbind]. rewrite E2. cbn [jbind]. eexists. split; [reflexivity|]. now constructor.
  - intros fs IH cs v K S Hn Hm. destruct v; try contradiction.
    rewrite unpack_struct_eq. destruct (IH cs l K S Hn Hm) as (r & E & R). rewrite E. cbn [jbind].
    eexists. split; [reflexivity|]. now constructor.
  - intros t IH cs a K S Hn Hm. destruct (IH cs (dflt t) K (shape_dflt t) Hn Hm) as (r & E & R).
    cbn [unpack]. rewrite E. exists (VPtr r). split; [reflexivity|]. econstructor; [apply dflt_all|exact R].
  - intros als _ cs a K S Hn Hm. cbn [unpack]. exists VNul. split; [|constructor].
    destruct x; try reflexivity. now rewrite (NT kvs eq_refl).
  - intros; cbn [unpack]; eexists; split; [now apply L|constructor; exact I].
  - intros cs a _ S _ _. destruct a; [|contradiction]. eexists. split; [reflexivity|constructor].
  - intros n t IHt fs IHf cs a (K1 & K2 & K3) S Hn Hm. destruct a as [|v a]; [contradiction|].
    destruct S as [S1 S2]. rewrite unpack_flds_eq, <- pstr_snoc.
    destruct (IHt (cs ++ [n]) v K2 S1) as (r1 & E1 & R1).
    + apply Forall_app. split; [exact Hn|]. constructor; [exact K1|constructor].
    + now apply missing_child.
    + destruct (IHf cs a K3 S2 Hn Hm) as (r2 & E2 & R2). rewrite E1. cbn [jbind]. rewrite E2. cbn [jbind].
      eexists. split; [reflexivity|]. now constructor.
Qed.
Theorem C22_absent_reset : forall klt narrow i2d t x cs a,
  no_tuple t -> shape t a -> Forall nodot cs -> missing x cs ->
  (forall kvs, x = JObj kvs -> mfind bcmp (bs "type") kvs = None) ->
  exists r, unpack klt narrow i2d false t x (pstr cs) a = JOk r /\ reset t a r.
Proof. intros klt narrow i2d t x cs a K S Hn Hm NT. now apply (proj1 (reset_all klt narrow i2d x NT)). Qed.
Print Assumptions C22_absent_reset.
Example C22_absent_reset_ex : forall klt narrow i2d,
  let t := TStruct (FCons (bs "e") (TEnum [(bs "red", 4%Z)]) (FCons (bs "p") (TPtr TStr) (FCons (bs "n") TBool FNil))) in
  no_tuple t /\ shape t (VL [VI 4; VNul; VB true]) /\
  unpack klt narrow i2d false t (JObj []) [] (VL [VI 4; VNul; VB true]) = JOk (VL [VI 0; VPtr (VS []); VB true]).
Proof.
  intros. cbn -[bs unpack]. split; [|split; [auto|vm_compute; reflexivity]].
  repeat split; try (now apply nodotb_ok). repeat constructor. auto.
Qed.
(** A tuple that is absent because the root is no array throws, whatever the flag. *)
Theorem C22_absent_tuple : forall klt narrow i2d te t ts x d a, (forall l, x <> JArr l) ->
  unpack klt narrow i2d te (TTup (tcons t ts)) x d a = JErr EOther.
Proof. intros klt narrow i2d te t ts x d a H. cbn [unpack]. destruct x; try reflexivity. now destruct (H l). Qed.
Print Assumptions C22_absent_tuple.
Example C22_absent_tuple_ex : forall l, JObj [] <> JArr l.
Proof. discriminate. Qed.

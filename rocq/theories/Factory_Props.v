(** * Properties of factories and polymorphic objects: C43, C44, C45 *)
From Verif Require Import Base Base_Proofs SMap Factory_Model.
Ltac Zify.zify_post_hook ::= Z.div_mod_to_equations.

(** ** C43: Factory *)
Section C43.
Variable C : Type.
Notation run h := (fold_left (registerType C) h []).

Lemma mfind_in : forall (m : list (list ascii * C)) t, mfind bcmp t m <> None <-> In t (map fst m).
Proof.
  induction m as [|[k v] m IH]; intros t; cbn [mfind map fst In]; [split; [congruence|intros []]|].
  destruct (bcmp t k) eqn:E.
  - apply bcmp_eq in E. subst. split; [now left|discriminate].
  - rewrite IH. split; [now right|]. intros [->|H]; [|exact H]. now rewrite (proj2 (bcmp_eq t t) eq_refl) in E.
  - rewrite IH. split; [now right|]. intros [->|H]; [|exact H]. now rewrite (proj2 (bcmp_eq t t) eq_refl) in E.
Qed.
Lemma create_run : forall h t m,
  mfind bcmp t (fold_left (registerType C) h m) =
  match mfind bcmp t m with
  | Some c => Some c
  | None => match find (fun p => if list_eq_dec ascii_dec (fst p) t then true else false) h with
            | Some p => Some (snd p)
            | None => None
            end
  end.
Proof.
  induction h as [|[k c] h IH]; intros t m; cbn [fold_left find]; [destruct (mfind bcmp t m); reflexivity|].
  rewrite IH. unfold registerType, mins. cbn [fst snd].
  destruct (mfind bcmp k m) as [w|] eqn:Ek.
  - destruct (mfind bcmp t m) eqn:Et; [reflexivity|]. destruct (list_eq_dec ascii_dec k t) as [->|]; [congruence|reflexivity].
  - rewrite (mfind_mset bcmp bcmp_eq). destruct (bcmp t k) eqn:Q.
    + apply bcmp_eq in Q. subst k. rewrite Ek. destruct (list_eq_dec ascii_dec t t); [reflexivity|congruence].
    + destruct (list_eq_dec ascii_dec k t) as [->|]; [|reflexivity]. now rewrite (proj2 (bcmp_eq t t) eq_refl) in Q.
    + destruct (list_eq_dec ascii_dec k t) as [->|]; [|reflexivity]. now rewrite (proj2 (bcmp_eq t t) eq_refl) in Q.
Qed.

(** create(t) builds the class first registered under t *)
Theorem C43_create : forall h t c,
  create C (run h) t = Some c <-> exists h1 h2, h = h1 ++ (t, c) :: h2 /\ ~ In t (map fst h1).
Proof.
  intros h t c. unfold create. rewrite create_run. cbn [mfind].
  induction h as [|[k d] h IH]; cbn [find fst].
  - split; [discriminate|]. intros (h1 & h2 & H & _). destruct h1; discriminate.
  - destruct (list_eq_dec ascii_dec k t) as [->|N0].
    + cbn [snd]. split.
      * intros H. assert (d = c) by congruence. subst d. exists [], h. split; [reflexivity|intros []].
      * intros (h1 & h2 & H & N1). destruct h1 as [|[k1 d1] h1]; [cbn in H; congruence|].
        cbn in H. exfalso. apply N1. left. cbn. congruence.
    + rewrite IH. split.
      * intros (h1 & h2 & -> & N1). exists ((k, d) :: h1), h2. split; [reflexivity|]. intros [H|H]; [now cbn in H|tauto].
      * intros (h1 & h2 & H & N1). destruct h1 as [|[k1 d1] h1]; [cbn in H; congruence|].
        cbn in H. exists h1, h2. split; [congruence|]. intros I. apply N1. now right.
Qed.
(** InvalidType exactly for names never registered *)
Theorem C43_invalid : forall h t, create C (run h) t = None <-> ~ In t (map fst h).
Proof.
  intros h t. unfold create. rewrite create_run. cbn [mfind]. split.
  - destruct (find _ h) as [p|] eqn:F; [discriminate|]. intros _ I. apply in_map_iff in I as (p & <- & I).
    apply (find_none _ _ F) in I. cbn in I. destruct (list_eq_dec ascii_dec (fst p) (fst p)); congruence.
  - intros N0. destruct (find _ h) as [p|] eqn:F; [|reflexivity]. exfalso. apply find_some in F as [I Q].
    destruct (list_eq_dec ascii_dec (fst p) t) as [<-|]; [|discriminate]. apply N0. now apply in_map.
Qed.
Lemma minsert_keys : forall k (v : C) m t, In t (map fst (minsert bcmp k v m)) <-> t = k \/ In t (map fst m).
Proof.
  induction m as [|[k0 v0] m IH]; intros t; cbn [minsert map fst In]; [intuition congruence|].
  destruct (bcmp k k0); cbn [map fst In]; rewrite ?IH; intuition congruence.
Qed.
Lemma msorted_minsert : forall k (v : C) m, mfind bcmp k m = None -> msorted bcmp m -> msorted bcmp (minsert bcmp k v m).
Proof.
  induction m as [|[k0 v0] m IH]; intros F S; cbn [minsert]; [cbn; auto|].
  cbn [mfind] in F. destruct (bcmp k k0) eqn:E; [discriminate|cbn [msorted] in *; auto|].
  destruct S as [S1 S2]. specialize (IH F S2). cbn [msorted]. split; [|exact IH].
  assert (L : bcmp k0 k = Lt) by (rewrite bcmp_antisym, E; reflexivity).
  destruct m as [|[k1 v1] m]; cbn [minsert]; [exact L|]. destruct (bcmp k k1); [exact L..|exact S1].
Qed.
Lemma msorted_head : forall (m : list (list ascii * C)) k v, msorted bcmp ((k, v) :: m) ->
  forall t, In t (map fst m) -> bcmp k t = Lt.
Proof.
  induction m as [|[k1 v1] m IH]; intros k v [S1 S2] t H; [destruct H|].
  destruct H as [<-|H]; [exact S1|]. apply (bcmp_trans k k1 t S1). exact (IH k1 v1 S2 t H).
Qed.
Lemma msorted_nodup : forall m : list (list ascii * C), msorted bcmp m -> NoDup (map fst m).
Proof.
  induction m as [|[k v] m IH]; intros S; cbn [map fst]; constructor.
  - intros I. assert (L := msorted_head m k v S k I). now rewrite (proj2 (bcmp_eq k k) eq_refl) in L.
  - apply IH. apply S.
Qed.
(** types() lists each registered name once, in increasing order *)
Theorem C43_types : forall h,
  NoDup (types C (run h)) /\ (forall t, In t (types C (run h)) <-> In t (map fst h)) /\ msorted bcmp (run h).
Proof.
  intros h.
  assert (S : forall m, msorted bcmp m -> msorted bcmp (fold_left (registerType C) h m)).
  { induction h as [|[k c] h IH]; intros m S; cbn [fold_left]; [exact S|]. apply IH.
    unfold registerType, mins, mset. cbn [fst snd]. destruct (mfind bcmp k m) eqn:E; [exact S|].
    now apply msorted_minsert. }
  split; [apply msorted_nodup, S; exact I|]. split; [|apply S; exact I].
  intros t. unfold types. rewrite <- mfind_in. fold (create C (run h) t). rewrite C43_invalid.
  destruct (in_dec (list_eq_dec ascii_dec) t (map fst h)); tauto.
Qed.
End C43.
Example C43_ex : let h := [(bs "b", 1); (bs "a", 2); (bs "b", 3)] in
  create nat (fold_left (registerType nat) h []) (bs "b") = Some 1 /\
  create nat (fold_left (registerType nat) h []) (bs "c") = None /\
  types nat (fold_left (registerType nat) h []) = [bs "a"; bs "b"].
Proof. vm_compute. auto. Qed.
Print Assumptions C43_create.
Print Assumptions C43_invalid.
Print Assumptions C43_types.

(** ** C44: type identifiers *)
Section C44.
Variable V : Type.
Notation tstate := (tstate V).
Notation tstep := (tstep V).
Notation trun := (trun V).
Notation type_of := (type_of V).

Definition tinv (s : tstate) : Prop :=
  (forall c t, ids s c = Some t -> exists v, nth t (table s) None = Some (mkobj c v)) /\
  (forall t, t < length (table s) -> exists o, nth t (table s) None = Some o /\ ids s (ocls o) = Some t).

Lemma set_at_end : forall l (o : obj V), set_at V l (length l) o = l ++ [Some o].
Proof. induction l as [|x l IH]; intros o; cbn [length set_at app]; [reflexivity|]. now rewrite IH. Qed.
Lemma set_at_len : forall l i (o : obj V), i < length l -> length (set_at V l i o) = length l.
Proof. induction l as [|x l IH]; intros [|i] o H; cbn [length set_at] in *; try lia. rewrite IH by lia. reflexivity. Qed.
Lemma set_at_nth : forall l i (o : obj V) j, i < length l ->
  nth j (set_at V l i o) None = if j =? i then Some o else nth j l None.
Proof.
  induction l as [|x l IH]; intros [|i] o [|j] H; cbn [length set_at nth Nat.eqb] in *; try lia; try reflexivity.
  apply IH. lia.
Qed.
Lemma nth_none : forall (l : list (option (obj V))) t o, nth t l None = Some o -> t < length l.
Proof. intros l t o H. destruct (Nat.lt_ge_cases t (length l)); [assumption|]. rewrite nth_overflow in H by assumption. discriminate. Qed.

Lemma type_of_inv : forall s o t s', tinv s -> type_of s o = (t, s') ->
  tinv s' /\ ids s' (ocls o) = Some t /\ (forall c i, ids s c = Some i -> ids s' c = Some i) /\
  length (table s) <= length (table s').
Proof.
  intros s o t s' [A B] H. unfold type_of in H. destruct (ids s (ocls o)) as [i|] eqn:Ei.
  - injection H as <- <-. split; [split; assumption|]. auto.
  - injection H as <- <-. cbn [ids table]. rewrite set_at_end. split; [|split; [now rewrite Nat.eqb_refl|split]].
    + split; cbn [ids table].
      * intros c t. destruct (Nat.eqb_spec c (ocls o)) as [->|N0].
        -- intros H. injection H as <-. rewrite nth_middle. exists (oval o). destruct o; reflexivity.
        -- intros H. destruct (A c t H) as [v Hv]. exists v. rewrite app_nth1; [exact Hv|]. now apply nth_none in Hv.
      * intros t L. rewrite app_length in L. cbn [length] in L. destruct (Nat.eq_dec t (length (table s))) as [->|N0].
        -- rewrite nth_middle. exists o. split; [reflexivity|]. now rewrite Nat.eqb_refl.
        -- rewrite app_nth1 by lia. destruct (B t ltac:(lia)) as (o' & H1 & H2). exists o'. split; [exact H1|].
           destruct (Nat.eqb_spec (ocls o') (ocls o)) as [Q|Q]; [congruence|exact H2].
    + intros c i H. destruct (Nat.eqb_spec c (ocls o)) as [->|N0]; [congruence|exact H].
    + rewrite app_length. lia.
Qed.
Lemma register_inv : forall s o, tinv s -> tinv (register V s o) /\
  (forall c i, ids s c = Some i -> ids (register V s o) c = Some i).
Proof.
  intros s o I. unfold register. destruct (type_of s o) as [t s'] eqn:T.
  destruct (type_of_inv s o t s' I T) as ([A B] & Ho & K & _). split; [|exact K].
  destruct (A _ _ Ho) as [v Hv]. assert (Lt := nth_none _ _ _ Hv).
  split; cbn [ids table].
  - intros c i H. rewrite set_at_nth by exact Lt. destruct (Nat.eqb_spec i t) as [->|N0].
    + destruct (A c t H) as [v' Hv']. assert (c = ocls o) by congruence. subst c. exists (oval o). destruct o; reflexivity.
    + now apply A.
  - intros i L. rewrite set_at_len in L by exact Lt. rewrite set_at_nth by exact Lt. destruct (Nat.eqb_spec i t) as [->|N0].
    + exists o. auto.
    + now apply B.
Qed.
Lemma tstep_inv : forall s p, tinv s -> tinv (tstep s p) /\ (forall c i, ids s c = Some i -> ids (tstep s p) c = Some i).
Proof.
  intros s [o|o] I; cbn [tstep Factory_Model.tstep].
  - destruct (type_of s o) as [t s'] eqn:T. destruct (type_of_inv s o t s' I T) as (I' & _ & K & _). auto.
  - now apply register_inv.
Qed.
Lemma trun_inv : forall h s, tinv s -> tinv (trun h s) /\ (forall c i, ids s c = Some i -> ids (trun h s) c = Some i).
Proof.
  induction h as [|p h IH]; intros s I; cbn [trun Factory_Model.trun fold_left]; [auto|].
  destruct (tstep_inv s p I) as [I1 K1]. destruct (IH _ I1) as [I2 K2]. split; [exact I2|]. intros c i H. now apply K2, K1.
Qed.
Lemma tinit_inv : tinv (tinit V).
Proof. split; cbn; [discriminate|lia]. Qed.

(** after any history: asking for the type of two objects gives the same identifier
    exactly when they are of the same class *)
Theorem C44_distinct : forall h o1 o2 t1 t2 s1 s2,
  type_of (trun h (tinit V)) o1 = (t1, s1) -> type_of s1 o2 = (t2, s2) ->
  (t1 = t2 <-> ocls o1 = ocls o2).
Proof.
  intros h o1 o2 t1 t2 s1 s2 H1 H2. destruct (trun_inv h _ tinit_inv) as [I _].
  destruct (type_of_inv _ _ _ _ I H1) as (I1 & E1 & _ & _).
  destruct (type_of_inv _ _ _ _ I1 H2) as ([A2 B2] & E2 & K2 & _). apply K2 in E1.
  split; [|intros Q; rewrite Q in E1; congruence].
  intros ->. destruct (A2 _ _ E1) as [v1 Q1], (A2 _ _ E2) as [v2 Q2]. congruence.
Qed.
(** an identifier never changes *)
Theorem C44_stable : forall h h' o o' t s t' s', ocls o' = ocls o ->
  type_of (trun h (tinit V)) o = (t, s) -> type_of (trun h' s) o' = (t', s') -> t' = t.
Proof.
  intros h h' o o' t s t' s' C H1 H2. destruct (trun_inv h _ tinit_inv) as [I _].
  destruct (type_of_inv _ _ _ _ I H1) as (I1 & E1 & _ & _).
  destruct (trun_inv h' s I1) as [I2 K]. apply K in E1. unfold type_of in H2. rewrite C, E1 in H2. congruence.
Qed.
(** object::create(x.type()) builds an object of x's class *)
Theorem C44_create : forall h o t s, type_of (trun h (tinit V)) o = (t, s) ->
  forall h', exists v, create_id V (trun h' s) (Z.of_nat t) = Some (mkobj (ocls o) v).
Proof.
  intros h o t s H h'. destruct (trun_inv h _ tinit_inv) as [I _].
  destruct (type_of_inv _ _ _ _ I H) as (I1 & E1 & _ & _).
  destruct (trun_inv h' s I1) as [[A _] K]. apply K in E1. destruct (A _ _ E1) as [v Hv]. exists v.
  unfold create_id. replace (Z.of_nat t <? 0)%Z with false by lia. now rewrite Nat2Z.id.
Qed.
(** identifiers are 0, 1, 2, … without gaps: create is defined on all of them *)
Theorem C44_dense : forall h t, (0 <= t < Z.of_nat (length (table (trun h (tinit V)))))%Z ->
  create_id V (trun h (tinit V)) t <> None.
Proof.
  intros h t H. destruct (trun_inv h _ tinit_inv) as [[_ B] _]. unfold create_id.
  replace (t <? 0)%Z with false by lia. destruct (B (Z.to_nat t) ltac:(lia)) as (o & -> & _). discriminate.
Qed.

(** shared_ptr: packing and unpacking gives an object of the same class and value *)
Lemma enc_id_len : forall z, length (enc_id z) = 4.
Proof. intros. unfold enc_id. apply le_length. Qed.
Lemma dec_enc_id : forall z r, (0 <= z < 2^31)%Z -> dec_id (enc_id z ++ r) = z.
Proof.
  intros z r H. unfold dec_id.
  assert (P31 : (2 ^ 31 = 2147483648)%Z) by reflexivity. assert (P31n : (2 ^ 31 = 2147483648)%N) by reflexivity.
  assert (P32 : (2 ^ 32 = 4294967296)%Z) by reflexivity.
  assert (P8 : (256 ^ N.of_nat 4 = 4294967296)%N) by reflexivity.
  assert (F : firstn 4 (enc_id z ++ r) = enc_id z).
  { rewrite <- (enc_id_len z) at 1. rewrite firstn_app, Nat.sub_diag, firstn_all. cbn [firstn]. apply app_nil_r. }
  rewrite F. unfold enc_id. rewrite unle_le; rewrite (Z.mod_small z) by lia; [|lia].
  replace (Z.to_N z <? 2 ^ 31)%N with true by lia. lia.
Qed.
Variable pk : obj V -> list ascii.
Variable up : obj V -> list ascii -> option (obj V * list ascii).
Variable isT : nat -> bool.
Theorem C44_shared_ptr : forall h o old b s rest,
  (forall tmp r, ocls tmp = ocls o -> up tmp (pk o ++ r) = Some (o, r)) -> isT (ocls o) = true ->
  (Z.of_nat (length (table (trun h (tinit V)))) < 2^31 - 2)%Z ->
  pack_sp V pk (trun h (tinit V)) (Some o) = (b, s) ->
  unpack_sp V up isT s old (b ++ rest) = UOk (Some o) rest.
Proof.
  intros h o old b s rest Hup HT Lim H. destruct (trun_inv h _ tinit_inv) as [I _].
  cbn [pack_sp] in H. destruct (type_of (trun h (tinit V)) o) as [t s'] eqn:T.
  assert (b = enc_id (Z.of_nat t + 1) ++ pk o /\ s = s') as [-> ->] by (split; congruence).
  destruct (type_of_inv _ _ _ _ I T) as ([A B] & Ho & _ & _).
  assert (Tb : t <= length (table (trun h (tinit V)))).
  { unfold type_of in T. destruct (ids (trun h (tinit V)) (ocls o)) as [i|] eqn:Ei.
    - injection T as <- <-. destruct (proj1 I _ _ Ei) as [v Hv]. apply nth_none in Hv. lia.
    - injection T as <- <-. lia. }
  unfold unpack_sp. rewrite <- app_assoc. replace (length (enc_id (Z.of_nat t + 1) ++ pk o ++ rest) <? 4) with false
    by (symmetry; apply Nat.ltb_ge; rewrite app_length, enc_id_len; lia).
  rewrite dec_enc_id by lia. replace (Z.of_nat t + 1 =? 0)%Z with false by lia.
  rewrite skipn_app, enc_id_len, Nat.sub_diag. rewrite skipn_all2 by (rewrite enc_id_len; lia). cbn [skipn app].
  replace (Z.of_nat t + 1 - 1)%Z with (Z.of_nat t) by lia.
  destruct (A _ _ Ho) as [v Hv]. unfold create_id. replace (Z.of_nat t <? 0)%Z with false by lia. rewrite Nat2Z.id, Hv.
  cbn [ocls]. rewrite HT, (Hup (mkobj (ocls o) v)) by reflexivity. reflexivity.
Qed.
(** a null pointer leaves the destination as it was *)
Theorem C44_null_unchanged : forall s old rest, fst (pack_sp V pk s None) = enc_id 0 /\
  unpack_sp V up isT s old (enc_id 0 ++ rest) = UOk old rest.
Proof.
  intros s old rest. split; [reflexivity|]. unfold unpack_sp. rewrite dec_enc_id by (split; [lia|reflexivity]).
  replace (length (enc_id 0 ++ rest) <? 4) with false by (symmetry; apply Nat.ltb_ge; rewrite app_length, enc_id_len; lia).
  rewrite skipn_app, enc_id_len, Nat.sub_diag. rewrite skipn_all2 by (rewrite enc_id_len; lia). reflexivity.
Qed.
End C44.
Example C44_ex : let h := [UseType (mkobj 7 10); UseType (mkobj 3 11); Register (mkobj 7 12)] in
  let s := trun nat h (tinit nat) in
  fst (type_of nat s (mkobj 7 99)) = 0 /\ fst (type_of nat s (mkobj 3 99)) = 1 /\ fst (type_of nat s (mkobj 5 99)) = 2 /\
  create_id nat s 0 = Some (mkobj 7 12).
Proof. vm_compute. auto. Qed.
(** the identifiers depend on the order of first use: another process, or another run,
    gives another identifier to the same class, and unpacks an object of a different one *)
Theorem C44_portable_refuted : exists (h1 h2 : list (tyop nat)) (o : obj nat),
  let s1 := trun nat h1 (tinit nat) in let s2 := trun nat h2 (tinit nat) in
  let pk := fun _ : obj nat => @nil ascii in
  match unpack_sp nat (fun tmp r => Some (tmp, r)) (fun _ => true) s2 None (fst (pack_sp nat pk s1 (Some o))) with
  | UOk (Some o') _ => ocls o' <> ocls o
  | _ => False
  end.
Proof.
  exists [UseType (mkobj 1 0); UseType (mkobj 2 0)], [UseType (mkobj 2 0); UseType (mkobj 1 0)], (mkobj 1 0).
  vm_compute. discriminate.
Qed.
(** create does not give a default constructed object but a copy of the first one whose
    type was asked for *)
Theorem C44_default_refuted : exists (h : list (tyop nat)) t v, create_id nat (trun nat h (tinit nat)) t = Some (mkobj 1 v) /\ v <> 0.
Proof. exists [UseType (mkobj 1 42); UseType (mkobj 1 0)], 0%Z, 42. split; [vm_compute; reflexivity|discriminate]. Qed.
(** a null pointer does not survive the round trip into a variable that is not null *)
Theorem C44_null_refuted : exists (s : tstate nat) old,
  unpack_sp nat (fun tmp r => Some (tmp, r)) (fun _ => true) s old (fst (pack_sp nat (fun _ => []) s None)) = UOk old [] /\
  old <> None.
Proof. exists (tinit nat), (Some (mkobj 1 1)). split; [vm_compute; reflexivity|discriminate]. Qed.
(** a hostile identifier indexes outside the table, or gives an object of a class that is
    not a T *)
Theorem C44_hostile_refuted : exists (s : tstate nat) b b',
  unpack_sp nat (fun tmp r => Some (tmp, r)) (fun _ => true) s None b = UUB /\
  unpack_sp nat (fun tmp r => Some (tmp, r)) (fun c => c =? 2) s None b' = UUB.
Proof. exists (trun nat [UseType (mkobj 1 1)] (tinit nat)), (enc_id 5), (enc_id 1). split; vm_compute; reflexivity. Qed.
Print Assumptions C44_distinct.
Print Assumptions C44_stable.
Print Assumptions C44_create.
Print Assumptions C44_dense.
Print Assumptions C44_shared_ptr.
Print Assumptions C44_null_unchanged.
Print Assumptions C44_portable_refuted.
Print Assumptions C44_default_refuted.
Print Assumptions C44_null_refuted.
Print Assumptions C44_hostile_refuted.

(** ** C45: poly<T> owns its object *)
Section C45.
Variable O : Type.
Notation pstate := (pstate O).

(** Specification: a poly variable is an optional value; copies are deep. *)
Definition vstore := nat -> option (option O).
Definition vset (v : vstore) (x : nat) (a : option (option O)) : vstore := fun y => if y =? x then a else v y.
Definition vstep (v : vstore) (p : pop O) : option vstore :=
  match p with
  | PNew x => match v x with None => Some (vset v x (Some None)) | _ => None end
  | PCopy x y => match v x, v y with None, Some a => Some (vset v x (Some a)) | _, _ => None end
  | PClone x o => match v x with None => Some (vset v x (Some (Some o))) | _ => None end
  | PAssign x y => match v x, v y with Some _, Some a => Some (vset v x (Some a)) | _, _ => None end
  | PAssignT x o => match v x with Some _ => Some (vset v x (Some (Some o))) | _ => None end
  | PAssignRef x y => match v x, v y with Some _, Some (Some o) => Some (vset v x (Some (Some o))) | _, _ => None end
  | PAdd x o => match v x with Some _ => Some (vset v x (Some (Some o))) | _ => None end
  | PAddThrow x => match v x with Some _ => Some v | _ => None end
  | PSwap x y => match v x, v y with Some a, Some b => Some (vset (vset v x (Some b)) y (Some a)) | _, _ => None end
  | PWrite x o => match v x with Some (Some _) => Some (vset v x (Some (Some o))) | _ => None end
  | PDestroy x => match v x with Some _ => Some (vset v x None) | _ => None end
  end.
Fixpoint vrun (ops : list (pop O)) (v : vstore) : option vstore :=
  match ops with
  | [] => Some v
  | p :: ops' => match vstep v p with Some v' => vrun ops' v' | None => None end
  end.
(** the value of a variable in the heap *)
Definition absv (s : pstate) : vstore := fun x =>
  match env s x with
  | None => None
  | Some None => Some None
  | Some (Some a) => Some (live s a)
  end.
(** without aliased assignment and without throwing constructors *)
Definition fine (p : pop O) : Prop :=
  match p with PAssign x y | PAssignRef x y => x <> y | PAddThrow _ => False | _ => True end.

(** the invariant, for all variables but those in [ex] *)
Definition pinvx (ex : nat -> Prop) (s : pstate) : Prop :=
  (forall x a, ~ ex x -> env s x = Some (Some a) -> live s a <> None) /\
  (forall x y a, ~ ex x -> ~ ex y -> env s x = Some (Some a) -> env s y = Some (Some a) -> x = y) /\
  (forall a, live s a <> None -> a < fresh_addr s) /\
  (forall a, live s a <> None -> exists x, ~ ex x /\ env s x = Some (Some a)).
Notation pinv := (pinvx (fun _ => False)).
Notation pinv1 x := (pinvx (fun y => y = x)).

Lemma release : forall s x i, pinv s -> env s x = Some i ->
  exists s', del O s i = Some s' /\ env s' = env s /\ pinv1 x s' /\
             forall y, y <> x -> absv s' y = absv s y.
Proof.
  intros s x i (A & B & C & D) E. destruct i as [a|].
  - assert (La := A x a (fun f => f) E). cbn [del]. destruct (live s a) as [o|] eqn:L; [|congruence].
    eexists. split; [reflexivity|]. split; [reflexivity|]. split.
    + repeat split; cbn [live env fresh_addr]; unfold fupd.
      * intros y b Ny Ey. destruct (Nat.eqb_spec b a) as [->|]; [exfalso; apply Ny; eapply B; eauto|eapply A; eauto].
      * intros y z b _ _. now apply B.
      * intros b. destruct (b =? a); [congruence|apply C].
      * intros b. destruct (Nat.eqb_spec b a) as [->|Nb]; [congruence|]. intros Hb.
        destruct (D b Hb) as (y & _ & Ey). exists y. split; [congruence|exact Ey].
    + intros y Ny. unfold absv, fupd. cbn [env live]. destruct (env s y) as [[b|]|] eqn:Ey; [|reflexivity..].
      destruct (Nat.eqb_spec b a) as [->|]; [|reflexivity]. exfalso. apply Ny. eapply B; eauto.
  - cbn [del]. exists s. split; [reflexivity|]. split; [reflexivity|]. split; [|reflexivity].
    repeat split; eauto. intros a Ha. destruct (D a Ha) as (y & _ & Ey). exists y. split; [congruence|exact Ey].
Qed.
Lemma unowned : forall s x, pinv s -> env s x = None -> pinv1 x s.
Proof.
  intros s x (A & B & C & D) E. repeat split; eauto.
  intros a Ha. destruct (D a Ha) as (y & _ & Ey). exists y. split; [congruence|exact Ey].
Qed.
Lemma acquire : forall s x o s' b, pinv1 x s -> new O s o = (s', b) ->
  pinv (setv O s' x (Some (Some b))) /\ (forall y, absv (setv O s' x (Some (Some b))) y = vset (absv s) x (Some (Some o)) y).
Proof.
  intros s x o s' b (A & B & C & D) N0. unfold new in N0. injection N0 as <- <-.
  assert (F : forall y a, y <> x -> env s y = Some (Some a) -> a <> fresh_addr s).
  { intros y a Ny Ey ->. specialize (C _ (A y _ Ny Ey)). lia. }
  split.
  - repeat split; cbn [setv env live fresh_addr]; unfold fupd.
    + intros y a _. destruct (Nat.eqb_spec y x) as [->|Ny].
      * intros Q. injection Q as <-. now rewrite Nat.eqb_refl.
      * intros Ey. destruct (a =? fresh_addr s); [discriminate|eapply A; eauto].
    + intros y z a _ _. destruct (Nat.eqb_spec y x) as [->|Ny], (Nat.eqb_spec z x) as [->|Nz]; auto.
      * intros Q1 Q2. injection Q1 as <-. now apply F in Q2.
      * intros Q1 Q2. injection Q2 as <-. now apply F in Q1.
      * now apply B.
    + intros a. destruct (Nat.eqb_spec a (fresh_addr s)) as [->|]; [lia|]. intros H. specialize (C a H). lia.
    + intros a. destruct (Nat.eqb_spec a (fresh_addr s)) as [->|Na].
      * intros _. exists x. now rewrite Nat.eqb_refl.
      * intros H. destruct (D a H) as (y & Ny & Ey). exists y. split; [tauto|].
        destruct (Nat.eqb_spec y x); [tauto|exact Ey].
  - intros y. unfold absv, vset. cbn [setv env live]. unfold fupd. destruct (Nat.eqb_spec y x) as [->|Ny].
    + now rewrite Nat.eqb_refl.
    + destruct (env s y) as [[a|]|] eqn:Ey; [|reflexivity..]. apply F in Ey; [|exact Ny].
      now destruct (Nat.eqb_spec a (fresh_addr s)).
Qed.
Lemma nullify : forall s x q, q = None \/ q = Some None -> pinv1 x s ->
  pinv (setv O s x q) /\ (forall y, absv (setv O s x q) y = vset (absv s) x (match q with None => None | _ => Some None end) y).
Proof.
  intros s x q Hq (A & B & C & D). split.
  - repeat split; cbn [setv env live fresh_addr]; unfold fupd.
    + intros y a _. destruct (Nat.eqb_spec y x); [destruct Hq; congruence|]. intros E. eapply A; eauto.
    + intros y z a _ _. destruct (Nat.eqb_spec y x), (Nat.eqb_spec z x); try (destruct Hq; congruence). now apply B.
    + exact C.
    + intros a H. destruct (D a H) as (y & Ny & Ey). exists y. split; [tauto|]. destruct (Nat.eqb_spec y x); [tauto|exact Ey].
  - intros y. unfold absv, vset. cbn [setv env live]. unfold fupd. destruct (Nat.eqb_spec y x); [|reflexivity].
    destruct Hq as [->| ->]; reflexivity.
Qed.
Lemma vset_ext : forall v w x a, (forall y, y <> x -> v y = w y) -> forall y, vset v x a y = vset w x a y.
Proof. intros v w x a H y. unfold vset. destruct (Nat.eqb_spec y x); auto. Qed.
(** asg from a variable other than x *)
Lemma asg_ok : forall s x y j, pinv1 x s -> x <> y -> env s y = Some j ->
  exists s', asg O s x j = Some s' /\ pinv s' /\ exists a, absv s y = Some a /\ forall z, absv s' z = vset (absv s) x (Some a) z.
Proof.
  intros s x y j I Ne E. destruct j as [a|].
  - cbn [asg]. assert (L := proj1 I y a (not_eq_sym Ne) E). destruct (live s a) as [o|] eqn:La; [|congruence].
    destruct (new O s o) as [s' b] eqn:N0. destruct (acquire s x o s' b I N0) as [I' H]. eexists. split; [reflexivity|].
    split; [exact I'|]. exists (Some o). split; [unfold absv; now rewrite E, La|exact H].
  - cbn [asg]. eexists. split; [reflexivity|]. destruct (nullify s x (Some None) (or_intror eq_refl) I) as [I' H].
    split; [exact I'|]. exists None. split; [unfold absv; now rewrite E|exact H].
Qed.
Lemma abs_none : forall s x, absv s x = None <-> env s x = None.
Proof. intros s x. unfold absv. destruct (env s x) as [[a|]|]; split; congruence. Qed.

Lemma pstep_sim : forall s p, pinv s -> fine p ->
  match vstep (absv s) p with
  | Some v' => exists s', pstep O s p = POk s' /\ pinv s' /\ forall x, absv s' x = v' x
  | None => pstep O s p = PIll
  end.
Proof.
  intros s p I F. destruct p as [x|x y|x o|x y|x o|x y|x o|x|x y|x o|x]; cbn [vstep pstep fine] in *.
  - (* PNew *) unfold absv at 1. destruct (env s x) as [[a|]|] eqn:E; [reflexivity..|].
    destruct (nullify s x (Some None) (or_intror eq_refl) (unowned s x I E)) as [I' H]. eauto.
  - (* PCopy *) destruct (env s x) as [i|] eqn:E.
    + unfold absv at 1. rewrite E. destruct i; reflexivity.
    + rewrite (proj2 (abs_none s x) E). destruct (env s y) as [j|] eqn:Ey; [|now rewrite (proj2 (abs_none s y) Ey)].
      assert (Ne : x <> y) by congruence.
      destruct (asg_ok s x y j (unowned s x I E) Ne Ey) as (s' & -> & I' & a & Ha & H). rewrite Ha. cbn [okr]. eauto.
  - (* PClone *) unfold absv at 1. destruct (env s x) as [[a|]|] eqn:E; [reflexivity..|].
    destruct (new O s o) as [s' b] eqn:N0. destruct (acquire s x o s' b (unowned s x I E) N0) as [I' H]. eauto.
  - (* PAssign *) destruct (env s x) as [i|] eqn:E; [|now rewrite (proj2 (abs_none s x) E)].
    destruct (absv s x) eqn:Ax; [|apply abs_none in Ax; congruence].
    destruct (env s y) as [j|] eqn:Ey; [|now rewrite (proj2 (abs_none s y) Ey)].
    destruct (release s x i I E) as (s' & -> & En & I' & Hv). rewrite En, Ey.
    rewrite <- En in Ey. destruct (asg_ok s' x y j I' F Ey) as (s2 & -> & I2 & a & Ha & H).
    rewrite (Hv y (not_eq_sym F)) in Ha. rewrite Ha. cbn [okr]. exists s2. split; [reflexivity|]. split; [exact I2|].
    intros z. rewrite H. now apply vset_ext.
  - (* PAssignT *) destruct (env s x) as [i|] eqn:E; [|now rewrite (proj2 (abs_none s x) E)].
    destruct (absv s x) eqn:Ax; [|apply abs_none in Ax; congruence].
    destruct (release s x i I E) as (s' & -> & En & I' & Hv).
    destruct (new O s' o) as [s2 b] eqn:N0. destruct (acquire s' x o s2 b I' N0) as [I2 H].
    eexists. split; [reflexivity|]. split; [exact I2|]. intros z. rewrite H. now apply vset_ext.
  - (* PAssignRef *) destruct (env s x) as [i|] eqn:E; [|now rewrite (proj2 (abs_none s x) E)].
    destruct (absv s x) eqn:Ax; [|apply abs_none in Ax; congruence].
    unfold absv at 1. destruct (env s y) as [[a|]|] eqn:Ey; [|reflexivity..].
    destruct (release s x i I E) as (s' & -> & En & I' & Hv).
    assert (Ey' := Ey). rewrite <- En in Ey'. destruct (asg_ok s' x y (Some a) I' F Ey') as (s2 & -> & I2 & o1 & Ho & H).
    assert (L := proj1 I y a (fun f => f) Ey). destruct (live s a) as [w|] eqn:La; [|congruence].
    rewrite (Hv y (not_eq_sym F)) in Ho. unfold absv in Ho. rewrite Ey, La in Ho. assert (o1 = Some w) by congruence. subst o1.
    cbn [okr]. exists s2. split; [reflexivity|]. split; [exact I2|]. intros z. rewrite H. now apply vset_ext.
  - (* PAdd *) destruct (env s x) as [i|] eqn:E; [|now rewrite (proj2 (abs_none s x) E)].
    destruct (absv s x) eqn:Ax; [|apply abs_none in Ax; congruence].
    destruct (release s x i I E) as (s' & -> & En & I' & Hv).
    destruct (new O s' o) as [s2 b] eqn:N0. destruct (acquire s' x o s2 b I' N0) as [I2 H].
    set (s3 := setv O s2 x (Some (Some b))) in *. cbn [new]. cbn [del live]. unfold fupd at 1. rewrite Nat.eqb_refl.
    cbn [okr]. eexists. split; [reflexivity|].
    assert (L : forall a, fupd (fupd (live s3) (fresh_addr s3) (Some o)) (fresh_addr s3) None a = live s3 a).
    { intros a. unfold fupd. destruct (Nat.eqb_spec a (fresh_addr s3)) as [->|]; [|reflexivity].
      destruct (live s3 (fresh_addr s3)) eqn:Q; [|reflexivity]. exfalso.
      assert (fresh_addr s3 < fresh_addr s3) by (apply (proj1 (proj2 (proj2 I2))); congruence). lia. }
    split.
    + destruct I2 as (A & B & C & D). repeat split; cbn [env live fresh_addr].
      * intros y a Ny Ey. rewrite L. eauto.
      * intros y z a Ny Nz. now apply B.
      * intros a. rewrite L. intros Q. apply C in Q. lia.
      * intros a. rewrite L. apply D.
    + intros z. unfold absv. cbn [env live]. rewrite <- (vset_ext (absv s') (absv s) x _ Hv z), <- H. unfold absv.
      destruct (env s3 z) as [[c|]|]; [now rewrite L|reflexivity..].
  - destruct F.
  - (* PSwap *) destruct (env s x) as [i|] eqn:E; [|now rewrite (proj2 (abs_none s x) E)].
    destruct (env s y) as [j|] eqn:Ey; [|rewrite (proj2 (abs_none s y) Ey); destruct (absv s x); reflexivity].
    assert (Ax : absv s x = Some (match i with Some a => live s a | None => None end)) by (unfold absv; rewrite E; destruct i; reflexivity).
    assert (Ay : absv s y = Some (match j with Some a => live s a | None => None end)) by (unfold absv; rewrite Ey; destruct j; reflexivity).
    rewrite Ax, Ay. eexists. split; [reflexivity|]. destruct I as (A & B & C & D). split.
    + repeat split; cbn [setv env live fresh_addr]; unfold fupd.
      * intros z a _. destruct (z =? y); [intros Q; apply (A x a (fun f => f)); congruence|].
        destruct (z =? x); [intros Q; apply (A y a (fun f => f)); congruence|]. apply A; tauto.
      * intros z w a _ _.
        assert (T : forall u, (if u =? y then Some i else if u =? x then Some j else env s u) = Some (Some a) ->
          env s (if u =? y then x else if u =? x then y else u) = Some (Some a)).
        { intros u. destruct (u =? y); [congruence|]. destruct (u =? x); [congruence|]. auto. }
        intros Q1 Q2. apply T in Q1, Q2. assert (Q := B _ _ a (fun f => f) (fun f => f) Q1 Q2).
        destruct (Nat.eqb_spec z y), (Nat.eqb_spec w y), (Nat.eqb_spec z x), (Nat.eqb_spec w x); congruence.
      * exact C.
      * intros a Ha. destruct (D a Ha) as (z & _ & Ez). exists (if z =? y then x else if z =? x then y else z).
        split; [tauto|]. destruct (Nat.eqb_spec z y) as [->|Nzy].
        -- destruct (Nat.eqb_spec x y) as [->|]; [congruence|]. rewrite Nat.eqb_refl. congruence.
        -- destruct (Nat.eqb_spec z x) as [->|Nzx]; [rewrite Nat.eqb_refl; congruence|].
           destruct (Nat.eqb_spec z y); [congruence|]. destruct (Nat.eqb_spec z x); [congruence|exact Ez].
    + intros z. unfold absv at 1. unfold vset. cbn [setv env live]. unfold fupd.
      destruct (z =? y); [destruct i; reflexivity|]. destruct (z =? x); [destruct j; reflexivity|]. reflexivity.
  - (* PWrite *) unfold absv at 1. destruct (env s x) as [[a|]|] eqn:E; [|reflexivity..].
    destruct I as (A & B & C & D). assert (L := A x a (fun f => f) E). destruct (live s a) as [w|] eqn:La; [|congruence].
    eexists. split; [reflexivity|]. split.
    + repeat split; cbn [env live fresh_addr]; unfold fupd; eauto.
      * intros z b _ Ez. destruct (b =? a); [discriminate|]. eauto.
      * intros b. destruct (Nat.eqb_spec b a) as [->|]; [intros _; apply C; congruence|apply C].
      * intros b. destruct (Nat.eqb_spec b a) as [->|]; [intros _; exists x; auto|apply D].
    + intros z. unfold absv, vset. cbn [env live]. unfold fupd. destruct (Nat.eqb_spec z x) as [->|Nz].
      * rewrite E. now rewrite Nat.eqb_refl.
      * destruct (env s z) as [[b|]|] eqn:Ez; [|reflexivity..]. destruct (Nat.eqb_spec b a) as [->|]; [|reflexivity].
        exfalso. apply Nz. eapply B; eauto.
  - (* PDestroy *) destruct (env s x) as [i|] eqn:E; [|now rewrite (proj2 (abs_none s x) E)].
    destruct (absv s x) eqn:Ax; [|apply abs_none in Ax; congruence].
    destruct (release s x i I E) as (s' & -> & En & I' & Hv).
    destruct (nullify s' x None (or_introl eq_refl) I') as [I2 H]. eexists. split; [reflexivity|]. split; [exact I2|].
    intros z. rewrite H. now apply vset_ext.
Qed.
Lemma vstep_ext : forall p v w, (forall x, v x = w x) ->
  match vstep v p, vstep w p with Some v', Some w' => forall x, v' x = w' x | None, None => True | _, _ => False end.
Proof.
  intros p v w H.
  assert (S : forall x a y, vset v x a y = vset w x a y) by (intros; unfold vset; rewrite H; reflexivity).
  destruct p as [x|x y|x o|x y|x o|x y|x o|x|x y|x o|x]; cbn [vstep]; rewrite <- ?H;
    repeat match goal with |- context [match v ?z with _ => _ end] => destruct (v z) as [[?|]|]; cbn beta iota end; auto;
    intros z; unfold vset; rewrite H; reflexivity.
Qed.
Lemma prun_sim : forall ops s v, pinv s -> (forall x, absv s x = v x) -> Forall fine ops ->
  match vrun ops v with
  | Some v' => exists s', prun O ops s = POk s' /\ pinv s' /\ forall x, absv s' x = v' x
  | None => prun O ops s = PIll
  end.
Proof.
  induction ops as [|p ops IH]; intros s v I Hv F; cbn [vrun prun]; [eauto|].
  inversion F as [|? ? F1 F2]; subst. assert (S := pstep_sim s p I F1). assert (X := vstep_ext p (absv s) v Hv).
  destruct (vstep (absv s) p) as [v1|], (vstep v p) as [v2|]; try contradiction.
  - destruct S as (s' & -> & I' & H'). apply IH; [exact I'| |exact F2]. intros x. now rewrite H'.
  - now rewrite S.
Qed.
Lemma pinit_inv : pinv (pinit O).
Proof. repeat split; cbn; congruence. Qed.

(** the heap with its pointers behaves as variables holding values: in particular no use
    after deletion, no double deletion, and changing a copy does not change the original *)
Theorem C45_values : forall ops, Forall fine ops ->
  match vrun ops (fun _ => None) with
  | Some v => exists s, prun O ops (pinit O) = POk s /\ forall x, absv s x = v x
  | None => prun O ops (pinit O) = PIll
  end.
Proof.
  intros ops F. assert (S := prun_sim ops (pinit O) (fun _ => None) pinit_inv (fun _ => eq_refl) F).
  destruct (vrun ops (fun _ => None)) as [v|]; [|exact S]. destruct S as (s & H1 & _ & H2). eauto.
Qed.
Theorem C45_no_ub : forall ops, Forall fine ops -> prun O ops (pinit O) <> PUB.
Proof.
  intros ops F. assert (S := C45_values ops F). destruct (vrun ops (fun _ => None)).
  - destruct S as (s & -> & _). discriminate.
  - rewrite S. discriminate.
Qed.
(** one owner for every live object: nothing leaks, nothing is shared *)
Theorem C45_owner : forall ops s a, Forall fine ops -> prun O ops (pinit O) = POk s -> live s a <> None ->
  exists x, env s x = Some (Some a) /\ forall y, env s y = Some (Some a) -> y = x.
Proof.
  intros ops s a F R L. assert (S := prun_sim ops (pinit O) (fun _ => None) pinit_inv (fun _ => eq_refl) F).
  destruct (vrun ops (fun _ => None)) as [v|]; [|rewrite S in R; discriminate]. destruct S as (s' & H & (A & B & C & D) & _).
  assert (s' = s) by congruence. subst s'. destruct (D a L) as (x & _ & E). exists x. split; [exact E|].
  intros y Ey. eapply B; eauto.
Qed.
Theorem C45_no_leak : forall ops s, Forall fine ops -> prun O ops (pinit O) = POk s -> (forall x, env s x = None) ->
  forall a, live s a = None.
Proof.
  intros ops s F R E a. destruct (live s a) eqn:L; [|reflexivity].
  destruct (C45_owner ops s a F R) as (x & H & _); [congruence|]. now rewrite E in H.
Qed.
End C45.
Example C45_ex : exists s, prun nat [PClone 0 5; PCopy 1 0; PWrite 1 6; PAssign 0 1; PAdd 1 9; PSwap 0 1; PDestroy 0] (pinit nat) = POk s /\
  absv nat s 1 = Some (Some 6) /\ absv nat s 0 = None.
Proof. eexists. split; [vm_compute; reflexivity|]. vm_compute. auto. Qed.
Example C45_ex_end : exists s, prun nat [PClone 0 5; PCopy 1 0; PDestroy 0; PDestroy 1] (pinit nat) = POk s /\
  forall x, env s x = None.
Proof.
  eexists. split; [cbn; reflexivity|]. intros x. unfold setv, fupd. cbn [env]. destruct x as [|[|x]]; reflexivity.
Qed.
(** x = x deletes the object and then copies it *)
Theorem C45_self_assign_refuted : exists ops : list (pop nat), prun nat ops (pinit nat) = PUB /\
  ops = [PClone 0 1; PAssign 0 0].
Proof. eexists. split; [|reflexivity]. vm_compute. reflexivity. Qed.
(** x = *x likewise *)
Theorem C45_alias_refuted : exists ops : list (pop nat), prun nat ops (pinit nat) = PUB /\
  ops = [PClone 0 1; PAssignRef 0 0].
Proof. eexists. split; [|reflexivity]. vm_compute. reflexivity. Qed.
(** addObject deletes the old object before constructing the new one: if that throws, the
    destructor deletes it again *)
Theorem C45_throw_refuted : exists ops : list (pop nat), prun nat ops (pinit nat) = PUB /\
  ops = [PClone 0 1; PAddThrow 0; PDestroy 0].
Proof. eexists. split; [|reflexivity]. vm_compute. reflexivity. Qed.
(** self assignment is a defect for every object, not just for some *)
Theorem C45_self_assign : forall O (s : pstate O) x a, env s x = Some (Some a) -> pstep O s (PAssign x x) = PUB.
Proof.
  intros O s x a E. cbn [pstep]. rewrite E. cbn [del]. destruct (live s a); [|reflexivity].
  cbn [env]. rewrite E. cbn [asg live]. unfold fupd. rewrite Nat.eqb_refl. reflexivity.
Qed.
Print Assumptions C45_values.
Print Assumptions C45_no_ub.
Print Assumptions C45_owner.
Print Assumptions C45_no_leak.
Print Assumptions C45_self_assign.
Print Assumptions C45_self_assign_refuted.
Print Assumptions C45_alias_refuted.
Print Assumptions C45_throw_refuted.

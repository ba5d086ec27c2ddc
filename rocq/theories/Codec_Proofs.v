From Verif Require Import Base Base_Proofs PackBuf_Model PackBuf_Spec PackBuf_Proofs.
From Verif Require Import Codec_Model Codec_Spec.
Ltac Zify.zify_post_hook ::= Z.div_mod_to_equations.

Scheme ty_mind := Induction for ty Sort Prop
  with tys_mind := Induction for tys Sort Prop
  with flds_mind := Induction for flds Sort Prop
  with ptab_mind := Induction for ptab Sort Prop.
Combined Scheme ty_mutind from ty_mind, tys_mind, flds_mind, ptab_mind.

(** ** loops *)
Fixpoint iter_nat {S A} (n : nat) (f : A -> M S A) (a : A) : M S A :=
  match n with O => ret a | S n' => b <- f a ;; iter_nat n' f b end.

Lemma bind_ext S A B (m1 m2 : M S A) (f1 f2 : A -> M S B) st :
  m1 st = m2 st -> (forall a st', f1 a st' = f2 a st') -> bind m1 f1 st = bind m2 f2 st.
Proof. intros H1 H2. unfold bind. rewrite H1. destruct (m2 st); auto. Qed.
Lemma bind_assoc S A B C (m : M S A) (f : A -> M S B) (g : B -> M S C) st :
  bind (bind m f) g st = bind m (fun a => bind (f a) g) st.
Proof. unfold bind. destruct (m st); auto. Qed.

Lemma iter_nat_add S A n : forall m (f : A -> M S A) a st,
  iter_nat (n + m) f a st = bind (iter_nat n f a) (iter_nat m f) st.
Proof.
  induction n as [|n IH]; intros m f a st; [reflexivity|].
  cbn [iter_nat Nat.add]. rewrite bind_assoc. apply bind_ext; auto.
Qed.
Lemma iter_pos_nat S A p : forall (f : A -> M S A) a st,
  iter_pos p f a st = iter_nat (Pos.to_nat p) f a st.
Proof.
  induction p as [q IH|q IH|]; intros f a st.
  - rewrite Pos2Nat.inj_xI. cbn [iter_pos iter_nat]. apply bind_ext; auto.
    intros b st'. replace (2 * Pos.to_nat q)%nat with (Pos.to_nat q + Pos.to_nat q)%nat by lia.
    rewrite iter_nat_add. apply bind_ext; auto.
  - rewrite Pos2Nat.inj_xO. cbn [iter_pos].
    replace (2 * Pos.to_nat q)%nat with (Pos.to_nat q + Pos.to_nat q)%nat by lia.
    rewrite iter_nat_add. apply bind_ext; auto.
  - change (Pos.to_nat 1) with 1%nat. cbn [iter_pos iter_nat]. unfold bind, ret. now destruct (f a st).
Qed.
Lemma iterM_nat S A n (f : A -> M S A) a st :
  iterM n f a st = iter_nat (N.to_nat n) f a st.
Proof. destruct n as [|p]; [reflexivity|]. cbn [iterM]. apply iter_pos_nat. Qed.

(** ** reading *)
Definition ok_st (st : pack_buf) : Prop :=
  (pb_pos st <= pb_size st /\ pb_size st <= len (pb_mem st) /\ pb_size st < 2^63)%N.
Definition has (st : pack_buf) (r : list ascii) : Prop :=
  ok_st st /\ skipn (N.to_nat (pb_pos st)) (pb_data st) = r.
Definition adv (st : pack_buf) (n : N) : pack_buf :=
  mk_pb (pb_mem st) (pb_size st) (pb_pos st + n)%N.

Lemma ok_inv st : ok_st st -> inv st.
Proof. unfold ok_st, inv. rewrite P63, W_eq. lia. Qed.

Lemma has_len st r : has st r -> (len r = pb_size st - pb_pos st)%N.
Proof.
  intros ((H1 & H2 & H3) & E). rewrite <- E, len_skipn, pb_data_len; lia.
Qed.
Lemma has_adv st e r : has st (e ++ r) -> has (adv st (len e)) r.
Proof.
  intros H. pose proof (has_len _ _ H) as HL. rewrite len_app in HL.
  destruct H as ((H1 & H2 & H3) & E). split.
  - unfold ok_st, adv; cbn [pb_mem pb_size pb_pos]. lia.
  - change (pb_data (adv st (len e))) with (pb_data st). unfold adv; cbn [pb_pos].
    replace (N.to_nat (pb_pos st + len e)) with (N.to_nat (len e) + N.to_nat (pb_pos st))%nat by lia.
    rewrite <- skipn_skipn, E. apply skipn_app_l. rewrite len_length. reflexivity.
Qed.

(** [reads m e a]: on input starting with [e], [m] returns [a] and consumes exactly
    [e]; on input that is a strict prefix of [e] it throws *)
Definition reads {A} (m : M pack_buf A) (e : list ascii) (a : A) : Prop :=
  (forall st r, has st (e ++ r) -> m st = Ok a (adv st (len e))) /\
  (forall st p, has st p -> sprefix p e -> exists x st', m st = Throw x st').

Lemma sprefix_app A (p e1 e2 : list A) :
  sprefix p (e1 ++ e2) -> sprefix p e1 \/ exists p2, p = e1 ++ p2 /\ sprefix p2 e2.
Proof.
  intros (q & E & Hq). revert e1 E. induction p as [|a p IH]; intros e1 E.
  - destruct e1 as [|b e1]; [right; exists []; cbn in *; split; auto; exists q; auto|].
    left. exists (b :: e1). split; [reflexivity|discriminate].
  - destruct e1 as [|b e1].
    + right. exists (a :: p). split; [reflexivity|]. exists q; auto.
    + cbn in E. injection E as -> E. destruct (IH e1 E) as [(r & -> & Hr)|(p2 & -> & Hp2)].
      * left. exists r; split; auto.
      * right. exists p2; split; auto.
Qed.
Lemma sprefix_nil A (p : list A) : ~ sprefix p [].
Proof. intros (q & E & Hq). destruct p; cbn in E; [congruence|discriminate]. Qed.
Lemma sprefix_len A (p l : list A) : sprefix p l -> (len p < len l)%N.
Proof.
  intros (q & -> & Hq). rewrite len_app. destruct q; [congruence|]. rewrite len_cons. lia.
Qed.

Lemma reads_ret A (a : A) : reads (ret a) [] a.
Proof.
  split.
  - intros st r _. unfold ret, adv. rewrite len_nil, N.add_0_r. now destruct st.
  - intros st p _ H. now apply sprefix_nil in H.
Qed.
Lemma reads_bind A B (m : M pack_buf A) (f : A -> M pack_buf B) e1 e2 a b :
  reads m e1 a -> reads (f a) e2 b -> reads (bind m f) (e1 ++ e2) b.
Proof.
  intros [R1 T1] [R2 T2]. split.
  - intros st r H. rewrite <- app_assoc in H. unfold bind. rewrite (R1 _ _ H).
    rewrite (R2 _ r) by now apply has_adv.
    unfold adv; cbn. rewrite len_app. f_equal. f_equal. lia.
  - intros st p H Hp. unfold bind.
    destruct (sprefix_app _ _ _ _ Hp) as [Hp1|(p2 & -> & Hp2)].
    + destruct (T1 _ _ H Hp1) as (x & st' & E). rewrite E. eauto.
    + rewrite (R1 _ _ H). apply (T2 _ p2); [now apply has_adv|exact Hp2].
Qed.
Lemma reads_bind0 A B (m : M pack_buf A) (f : A -> M pack_buf B) e1 a b :
  reads m e1 a -> reads (f a) [] b -> reads (bind m f) e1 b.
Proof. intros H1 H2. rewrite <- (app_nil_r e1). eapply reads_bind; eauto. Qed.

Lemma reads_unpackraw e s : len e = s -> (s < 2^63)%N -> reads (unpackraw s) e e.
Proof.
  intros <- HB. split.
  - intros st r H. pose proof (has_len _ _ H) as HL. rewrite len_app in HL.
    destruct H as (Hok & E). pose proof Hok as (H1 & H2 & H3).
    rewrite unpackraw_ok by (auto using ok_inv; lia).
    unfold read_at. rewrite E. rewrite firstn_app_l by (rewrite len_length; reflexivity).
    reflexivity.
  - intros st p H Hp. pose proof (has_len _ _ H) as HL. apply sprefix_len in Hp.
    destruct H as (Hok & E). pose proof Hok as (H1 & H2 & H3).
    rewrite unpackraw_end; [eauto|now apply ok_inv|rewrite W_eq, P63 in *; lia|lia].
Qed.
Lemma reads_ext A (m1 m2 : M pack_buf A) e a :
  (forall st, m1 st = m2 st) -> reads m2 e a -> reads m1 e a.
Proof.
  intros E [R T]. split.
  - intros st r H. rewrite E. eauto.
  - intros st p H Hp. rewrite E. eauto.
Qed.
Lemma reads_popoff e s : len e = s -> (s < 2^63)%N -> reads (popoff s) e e.
Proof.
  intros H1 H2. eapply reads_ext; [apply popoff_unpackraw|]. now apply reads_unpackraw.
Qed.

Lemma reads_up64 n : (n < W)%N -> reads up64 (le 8 n) n.
Proof.
  intro H. unfold up64. eapply reads_bind0.
  - apply reads_popoff; [now rewrite le_len|rewrite P63; lia].
  - rewrite unle_le; [apply reads_ret|]. exact H.
Qed.
Lemma reads_up_bool b : reads up_bool (enc_bool b) b.
Proof.
  unfold up_bool, enc_bool. eapply reads_bind0.
  - apply reads_popoff; [now rewrite le_len|rewrite P63; lia].
  - rewrite unle_le by (destruct b; cbn; lia). destruct b; apply reads_ret.
Qed.

Lemma reads_iter_gen A V (f : A -> M pack_buf A) (e : V -> list ascii) (g : A -> V -> A)
    (I : A -> Prop) vs :
  (forall a v, I a -> In v vs -> reads (f a) (e v) (g a v) /\ I (g a v)) ->
  forall a, I a ->
  reads (iter_nat (length vs) f a) (concat (map e vs)) (fold_left g vs a).
Proof.
  induction vs as [|v vs IH]; intros H a Ia; cbn [length iter_nat map concat fold_left].
  - apply reads_ret.
  - destruct (H a v Ia (or_introl eq_refl)) as [R I'].
    eapply reads_bind; [exact R|]. apply IH; auto.
    intros a0 v0 Ia0 Hv. apply H; auto. now right.
Qed.
Lemma reads_iterM A V (f : A -> M pack_buf A) (e : V -> list ascii) (g : A -> V -> A)
    (I : A -> Prop) vs a :
  (forall a v, I a -> In v vs -> reads (f a) (e v) (g a v) /\ I (g a v)) ->
  I a -> reads (iterM (len vs) f a) (concat (map e vs)) (fold_left g vs a).
Proof.
  intros H Ia. eapply reads_ext; [intro st; apply iterM_nat|].
  replace (N.to_nat (len vs)) with (length vs) by (unfold len; lia).
  eapply reads_iter_gen; eauto.
Qed.

Lemma map2_length A B C (f : A -> B -> C) l : forall m, length (map2 f l m) = Nat.min (length l) (length m).
Proof. induction l as [|a l IH]; intros [|b m]; cbn; auto. Qed.

(** reading in place: the bound may exceed the number of slots *)
Lemma reads_up_list f (e : val -> list ascii) g vs : forall olds k,
  length olds = length vs -> (len vs <= k)%N ->
  (forall o v, In o olds -> In v vs -> reads (f o) (e v) (g o v)) ->
  reads (up_list f k olds) (concat (map e vs)) (map2 g olds vs).
Proof.
  induction vs as [|v vs IH]; intros [|o os] k HL Hk H; cbn [length] in HL; try lia;
    cbn [up_list map concat map2].
  - apply reads_ret.
  - rewrite len_cons in Hk. replace (k =? 0)%N with false by lia.
    eapply reads_bind; [apply H; now left|].
    eapply reads_bind0; [|apply reads_ret].
    apply IH; [lia|lia|]. intros o' v' Ho Hv. apply H; now right.
Qed.

(** ** basic facts about the specification functions *)
Section Codec.
Variable klt : nat -> val -> val -> bool.
Local Notation has_ty := (has_ty klt).
Local Notation has_ty_tys := (has_ty_tys klt).
Local Notation has_ty_flds := (has_ty_flds klt).
Local Notation has_ty_tab := (has_ty_tab klt).
Local Notation up := (up klt).
Local Notation up_tys := (up_tys klt).
Local Notation up_flds := (up_flds klt).
Local Notation up_tab := (up_tab klt).

Ltac bsplit := repeat match goal with
  | H : (_ && _)%bool = true |- _ => apply andb_prop in H as [? ?]
  end.

Lemma shape_dflt :
  (forall t, shape t (dflt t) = true) /\
  (forall ts, shape_tys ts (dflt_tys ts) = true) /\
  (forall fs, shape_flds fs (dflt_flds fs) = true) /\ (forall p : ptab, True).
Proof.
  apply ty_mutind; intros; cbn [shape dflt shape_tys dflt_tys shape_flds dflt_flds];
    auto; try (apply andb_true_intro; split; auto).
  - rewrite repeat_length. apply Nat.eqb_refl.
  - induction n as [|n IH]; cbn [repeat forallb]; [reflexivity|]. now rewrite H, IH.
  - rewrite repeat_length. apply Nat.eqb_refl.
  - induction n as [|n IH]; cbn [repeat forallb]; [reflexivity|]. now rewrite H, IH.
Qed.

Lemma has_ty_shape :
  (forall t v, has_ty t v = true -> shape t v = true) /\
  (forall ts vs, has_ty_tys ts vs = true -> shape_tys ts vs = true) /\
  (forall fs vs, has_ty_flds fs vs = true -> shape_flds fs vs = true) /\
  (forall p : ptab, True).
Proof.
  apply ty_mutind; intros; auto;
    try (destruct v; try discriminate; reflexivity);
    try (destruct vs; try discriminate; reflexivity).
  - destruct v; try discriminate; cbn in *; bsplit.
    apply andb_true_intro; split; auto. rewrite forallb_forall in *. auto.
  - destruct v; try discriminate; cbn in *; bsplit.
    apply andb_true_intro; split; auto. rewrite forallb_forall in *. auto.
  - destruct v; try discriminate; cbn in *; bsplit. now rewrite H, H0.
  - destruct v; try discriminate; cbn in *; auto.
  - destruct v; try discriminate; cbn in *; auto.
  - destruct vs; try discriminate; cbn in *; bsplit. now rewrite H, H0.
  - destruct vs as [|v vs]; [destruct k; discriminate|].
    destruct k; cbn in *; bsplit; apply andb_true_intro; split; auto.
Qed.

Lemma forallb_map2_shape te olds : forall vs,
  (forall o v, shape te o = true -> has_ty te v = true -> shape te (upd te o v) = true) ->
  forallb (shape te) olds = true -> forallb (has_ty te) vs = true ->
  forallb (shape te) (map2 (upd te) olds vs) = true.
Proof.
  induction olds as [|o os IH]; intros [|v vs] H H1 H2; cbn in *; auto. bsplit.
  rewrite H by auto. now apply IH.
Qed.

Lemma shape_upd :
  (forall t o v, shape t o = true -> has_ty t v = true -> shape t (upd t o v) = true) /\
  (forall ts os vs, shape_tys ts os = true -> has_ty_tys ts vs = true ->
       shape_tys ts (upd_tys ts os vs) = true) /\
  (forall fs os vs, shape_flds fs os = true -> has_ty_flds fs vs = true ->
       shape_flds fs (upd_flds fs os vs) = true) /\
  (forall p : ptab, True).
Proof.
  apply ty_mutind; auto.
  - intros n t IH o v Ho Hv. destruct v as [| | |vs| | | |]; try discriminate.
    destruct o as [| | |os| | | |]; try discriminate. cbn in *; bsplit.
    apply andb_true_intro; split.
    + rewrite map2_length. apply Nat.eqb_eq. rewrite !Nat.eqb_eq in *. lia.
    + apply forallb_map2_shape; auto.
  - intros n t IH o v Ho Hv. destruct v as [| | |vs| | | |]; try discriminate.
    destruct o as [| | |os| | | |]; try discriminate. cbn in *; bsplit.
    apply andb_true_intro; split.
    + rewrite map2_length. apply Nat.eqb_eq. rewrite !Nat.eqb_eq in *. lia.
    + apply forallb_map2_shape; auto.
  - intros a IHa b IHb o v Ho Hv. destruct v; try discriminate.
    destruct o; try discriminate. cbn in *; bsplit. now rewrite IHa, IHb.
  - intros ts IH o v Ho Hv. destruct v; try discriminate.
    destruct o; try discriminate. cbn in *. auto.
  - intros fs IH o v Ho Hv. destruct v; try discriminate.
    destruct o; try discriminate. cbn in *. auto.
  - intros t IH ts IHs [|o os] [|v vs] Ho Hv; try discriminate. cbn in *; bsplit.
    now rewrite IH, IHs.
  - intros k t IH fs IHs [|o os] [|v vs] Ho Hv; try discriminate;
      try (destruct k; discriminate).
    destruct k; cbn in *; bsplit; apply andb_true_intro; split; auto.
Qed.

Lemma ins_last multi c x l :
  forallb (fun y => negb (klt c x y) && (multi || klt c y x)) l = true ->
  ins klt multi c x l = l ++ [x].
Proof.
  induction l as [|y l IH]; intro H; [reflexivity|]. cbn [forallb] in H. bsplit.
  cbn [ins app]. destruct (klt c x y); [discriminate|].
  destruct (klt c y x), multi; cbn in *; try discriminate; rewrite IH; auto.
Qed.

Lemma sorted_snoc_fold multi c ws : forall acc,
  sorted klt multi c (acc ++ ws) = true ->
  fold_left (fun l w => ins klt multi c w l) ws acc = acc ++ ws.
Proof.
  induction ws as [|w ws IH]; intros acc H; cbn [fold_left].
  - now rewrite app_nil_r.
  - assert (E : ins klt multi c w acc = acc ++ [w]).
    { apply ins_last. clear IH. induction acc as [|y acc IHa]; [reflexivity|].
      cbn [app sorted] in H. bsplit. cbn [forallb]. rewrite IHa by auto.
      rewrite forallb_app in *. bsplit. cbn [forallb] in *. bsplit.
      rewrite andb_true_r. apply andb_true_intro; split; auto. }
    rewrite E. rewrite IH by (rewrite <- app_assoc; exact H).
    now rewrite <- app_assoc.
Qed.

Lemma fold_left_map A B C (f : A -> B -> A) (g : C -> B) l : forall a,
  fold_left (fun acc c => f acc (g c)) l a = fold_left f (map g l) a.
Proof. induction l as [|c l IH]; intro a; cbn; auto. Qed.

Lemma fold_snoc A (l : list A) : forall acc,
  fold_left (fun acc x => acc ++ [x]) l acc = acc ++ l.
Proof.
  induction l as [|x l IH]; intro acc; cbn [fold_left]; [now rewrite app_nil_r|].
  rewrite IH, <- app_assoc. reflexivity.
Qed.

(** ** round trip, at the level of readers *)
Lemma le_app_nil (l : list ascii) : l ++ [] = l.
Proof. apply app_nil_r. Qed.

Lemma enum_rt z : (- 2^31 <= z < 2^31)%Z -> sext32 (unle (enc_int z)) = z.
Proof.
  intro H. unfold enc_int. rewrite unle_le.
  - unfold sext32. change (2^31)%N with 2147483648%N.
    change (2^32)%Z with 4294967296%Z. change (2^31)%Z with 2147483648%Z in H.
    destruct (N.ltb_spec (Z.to_N (z mod 4294967296)) 2147483648); lia.
  - change (256 ^ N.of_nat 4)%N with 4294967296%N. change (2^32)%Z with 4294967296%Z. lia.
Qed.

Lemma reads_seq te vs :
  (forall v o, has_ty te v = true -> shape te o = true -> reads (up te o) (enc te v) (upd te o v)) ->
  forallb (has_ty te) vs = true ->
  reads (iterM (len vs) (fun acc => x <- up te (dflt te) ;; ret (acc ++ [x])) [])
        (concat (map (enc te) vs)) (map (upd te (dflt te)) vs).
Proof.
  intros IH Hv. rewrite forallb_forall in Hv.
  assert (E : map (upd te (dflt te)) vs =
              fold_left (fun acc v => acc ++ [upd te (dflt te) v]) vs []).
  { rewrite (fold_left_map _ _ _ (fun acc x => acc ++ [x])), fold_snoc. reflexivity. }
  rewrite E. apply reads_iterM with (I := fun _ => True); auto.
  intros a v _ Hin. split; auto.
  eapply reads_bind0; [apply IH; auto; apply shape_dflt|apply reads_ret].
Qed.

Lemma reads_const_elems te vs :
  (forall v o, has_ty te v = true -> shape te o = true -> reads (up te o) (enc te v) (upd te o v)) ->
  forallb (has_ty te) vs = true ->
  reads (iterM (len vs) (fun x => up te x) (dflt te))
        (concat (map (enc te) vs)) (fold_left (upd te) vs (dflt te)).
Proof.
  intros IH Hv. rewrite forallb_forall in Hv.
  apply reads_iterM with (I := fun o => shape te o = true); [|apply shape_dflt].
  intros a v Ia Hin. split; [apply IH; auto|]. apply shape_upd; auto.
Qed.

(** unfolding the const-member reader *)
Definition const_reader (t : ty) : M pack_buf unit :=
  match t with
  | TSeq te | TArr _ te => sz <- up64 ;; iterM sz (fun x => up te x) (dflt te) ;;; ret tt
  | _ => up t (dflt t) ;;; ret tt
  end.

Lemma up_flds_const t fs o os st :
  up_flds (FCons MConst t fs) (o :: os) st =
  (const_reader t ;;; r <- up_flds fs os ;; ret (o :: r)) st.
Proof. destruct t; reflexivity. Qed.

Lemma P63_W n : (n < 2^63)%N -> (n < W)%N.
Proof. rewrite P63, W_eq. lia. Qed.

Definition rt (t : ty) : Prop := forall v o,
  has_ty t v = true -> shape t o = true -> reads (up t o) (enc t v) (upd t o v).
Definition rt_elem (t : ty) : Prop :=
  match t with TSeq te | TArr _ te => rt te | _ => True end.
Lemma up_reads_all :
  (forall t, rt t /\ rt_elem t) /\
  (forall ts vs os, has_ty_tys ts vs = true -> shape_tys ts os = true ->
       reads (up_tys ts os) (enc_tys ts vs) (upd_tys ts os vs)) /\
  (forall fs vs os, has_ty_flds fs vs = true -> shape_flds fs os = true ->
       reads (up_flds fs os) (enc_flds fs vs) (upd_flds fs os vs)) /\
  (forall p tag v, (tag < 2^32)%N -> has_ty_tab p tag v = true ->
       reads (up_tab p tag) (enc_tab p tag v) (VPoly (Some (tag, upd_tab p tag v)))).
Proof.
  assert (LW : forall n, (n <? W)%N = true -> (n < W)%N) by (intros; now apply N.ltb_lt).
  apply ty_mutind.
  - (* TBasic *) intros n; split; [intros v o Hv Ho|exact I]. destruct v as [b| | | | | | |]; try discriminate.
    cbn [Codec_Spec.has_ty] in Hv. bsplit. cbn [Codec_Model.up enc upd].
    eapply reads_bind0; [apply reads_popoff|apply reads_ret].
    + rewrite Nat.eqb_eq in *. unfold len. lia.
    + now apply N.ltb_lt.
  - (* TEnum *) split; [intros v o Hv Ho|exact I]. destruct v as [|z| | | | | |]; try discriminate.
    cbn [Codec_Spec.has_ty] in Hv. bsplit. cbn [Codec_Model.up enc upd].
    eapply reads_bind0; [apply reads_popoff|].
    + now rewrite le_len.
    + rewrite P63; lia.
    + fold (enc_int z). rewrite enum_rt by lia. apply reads_ret.
  - (* TStr *) intros k; split; [intros v o Hv Ho|exact I]. destruct v as [| |b| | | | |]; try discriminate.
    cbn [Codec_Spec.has_ty] in Hv. bsplit. cbn [Codec_Model.up enc upd].
    rewrite P63 in *.
    assert (Hk : (0 < k)%N) by lia.
    assert (Hd : (k * (len b / k) = len b)%N)
      by (pose proof (N.div_mod (len b) k ltac:(lia)); lia).
    assert (Hdle : (len b / k <= len b)%N) by (apply N.div_le_upper_bound; nia).
    eapply reads_bind; [apply reads_up64; rewrite W_eq; lia|]. cbn zeta.
    rewrite (N.mod_small (len b / k + 1)) by (rewrite W_eq; lia).
    replace ((9223372036854775808 - 1) / k <? len b / k + 1)%N with false.
    2:{ symmetry. apply N.ltb_ge. apply N.div_le_lower_bound; lia. }
    rewrite (N.mod_small (k * (len b / k))) by (rewrite W_eq; lia). rewrite Hd.
    eapply reads_bind0; [apply reads_unpackraw; [reflexivity|rewrite P63; lia]|].
    replace (k * (len b / k + 1) <? len b)%N with false by lia.
    replace (len b / k + 1 =? 0)%N with false by lia.
    replace (k * (len b / k + 1 - 1))%N with (len b) by lia.
    rewrite firstn_all2 by (unfold len; lia). apply reads_ret.
  - (* TCharArr *) intros n; split; [intros v o Hv Ho|exact I]. destruct v as [b| | | | | | |]; try discriminate.
    cbn [Codec_Spec.has_ty] in Hv. bsplit. cbn [Codec_Model.up enc upd].
    eapply reads_bind0; [apply reads_unpackraw|apply reads_ret].
    + rewrite Nat.eqb_eq in *. unfold len. lia.
    + now apply N.ltb_lt.
  - (* TSeq *) intros t [IH _]; split; [intros v o Hv Ho|exact IH]. destruct v as [| | |vs| | | |]; try discriminate.
    cbn [Codec_Spec.has_ty] in Hv. bsplit. cbn [Codec_Model.up enc upd].
    eapply reads_bind; [apply reads_up64; auto|].
    eapply reads_bind0; [apply reads_seq; auto|apply reads_ret].
  - (* TArr *) intros n t [IH _]; split; [intros v o Hv Ho|exact IH]. destruct v as [| | |vs| | | |]; try discriminate.
    destruct o as [| | |os| | | |]; try discriminate.
    cbn [Codec_Spec.has_ty shape] in Hv, Ho. bsplit. cbn [Codec_Model.up enc upd as_list].
    rewrite Nat.eqb_eq in *.
    eapply reads_bind; [apply reads_up64; auto|].
    eapply reads_bind0; [apply reads_up_list|apply reads_ret]; [lia|lia|].
    rewrite forallb_forall in *. auto.
  - (* TCArr *) intros n t [IH _]; split; [intros v o Hv Ho|exact I]. destruct v as [| | |vs| | | |]; try discriminate.
    destruct o as [| | |os| | | |]; try discriminate.
    cbn [Codec_Spec.has_ty shape] in Hv, Ho. bsplit. cbn [Codec_Model.up enc upd as_list].
    rewrite Nat.eqb_eq in *.
    eapply reads_bind0; [apply reads_up_list|apply reads_ret]; [lia|unfold len; lia|].
    rewrite forallb_forall in *. auto.
  - (* TAssoc *) intros multi c t [IH _]; split; [intros v o Hv Ho|exact I].
    destruct v as [| | |vs| | | |]; try discriminate.
    cbn [Codec_Spec.has_ty] in Hv. bsplit. cbn [Codec_Model.up enc upd].
    eapply reads_bind; [apply reads_up64; auto|].
    eapply reads_bind0; [|apply reads_ret].
    assert (E : map (upd t (dflt t)) vs =
                fold_left (fun acc v => ins klt multi c (upd t (dflt t) v) acc) vs []).
    { rewrite (fold_left_map _ _ _ (fun acc x => ins klt multi c x acc)).
      rewrite sorted_snoc_fold; auto. }
    rewrite E. apply reads_iterM with (I := fun _ => True); auto.
    intros a v _ Hin. split; auto. rewrite forallb_forall in *.
    eapply reads_bind0; [apply IH; auto; apply shape_dflt|apply reads_ret].
  - (* TPair *) intros a [IHa _] b [IHb _]; split; [intros v o Hv Ho|exact I].
    destruct v; try discriminate. destruct o; try discriminate.
    cbn [Codec_Spec.has_ty shape] in Hv, Ho. bsplit. cbn [Codec_Model.up enc upd].
    eapply reads_bind; [auto|]. eapply reads_bind0; [auto|apply reads_ret].
  - (* TTup *) intros ts IH; split; [intros v o Hv Ho|exact I].
    destruct v; try discriminate. destruct o; try discriminate.
    cbn [Codec_Spec.has_ty shape] in Hv, Ho. cbn [Codec_Model.up enc upd as_list].
    eapply reads_bind0; [auto|apply reads_ret].
  - (* TStruct *) intros fs IH; split; [intros v o Hv Ho|exact I].
    destruct v; try discriminate. destruct o; try discriminate.
    cbn [Codec_Spec.has_ty shape] in Hv, Ho. cbn [Codec_Model.up enc upd as_list].
    eapply reads_bind0; [auto|apply reads_ret].
  - (* TOpt *) intros t [IH _]; split; [intros v o Hv Ho|exact I].
    destruct v as [| | | | |[x|]| |]; try discriminate;
      cbn [Codec_Spec.has_ty] in Hv; cbn [Codec_Model.up enc upd].
    + eapply reads_bind; [apply (reads_up_bool true)|].
      eapply reads_bind0; [apply IH; auto; apply shape_dflt|apply reads_ret].
    + eapply reads_bind0; [apply (reads_up_bool false)|]. apply reads_ret.
  - (* TPoly *) intros p IH; split; [intros v o Hv Ho|exact I].
    destruct v as [| | | | | |[[tag x]|]|]; try discriminate;
      cbn [Codec_Spec.has_ty] in Hv; cbn [Codec_Model.up enc upd].
    + bsplit. assert (Ht : (tag < 2^32)%N) by now apply N.ltb_lt.
      eapply reads_bind; [apply (reads_up_bool true)|].
      eapply reads_bind; [apply reads_popoff; [now rewrite le_len|rewrite P63; lia]|].
      rewrite unle_le by exact Ht. auto.
    + eapply reads_bind0; [apply (reads_up_bool false)|]. apply reads_ret.
  - (* TRawPtr *) split; [intros v o Hv Ho|exact I]. destruct v; discriminate.
  - intros [|v vs] [|o os] Hv Ho; try discriminate. apply reads_ret.
  - intros t [IH _] ts IHs [|v vs] [|o os] Hv Ho; try discriminate.
    cbn [Codec_Spec.has_ty_tys shape_tys] in Hv, Ho. bsplit.
    cbn [Codec_Model.up_tys enc_tys upd_tys].
    eapply reads_bind; [auto|]. eapply reads_bind0; [auto|apply reads_ret].
  - intros [|v vs] [|o os] Hv Ho; try discriminate. apply reads_ret.
  - intros k t [IH IHe] fs IHs [|v vs] [|o os] Hv Ho; try discriminate;
      try (destruct k; discriminate).
    cbn [shape_flds] in Ho. bsplit.
    destruct k.
    + change (has_ty t v && has_ty_flds fs vs = true) in Hv. bsplit.
      change (enc_flds (FCons MNormal t fs) (v :: vs)) with (enc t v ++ enc_flds fs vs).
      change (upd_flds (FCons MNormal t fs) (o :: os) (v :: vs))
        with (upd t o v :: upd_flds fs os vs). cbn [Codec_Model.up_flds].
      eapply reads_bind; [auto|]. eapply reads_bind0; [auto|apply reads_ret].
    + change (shape t v && has_ty_flds fs vs = true) in Hv. bsplit.
      cbn [Codec_Model.up_flds enc_flds upd_flds]. eapply reads_bind0; [auto|apply reads_ret].
    + change (has_ty t v && has_ty_flds fs vs = true) in Hv. bsplit.
      change (enc_flds (FCons MConst t fs) (v :: vs)) with (enc t v ++ enc_flds fs vs).
      change (upd_flds (FCons MConst t fs) (o :: os) (v :: vs))
        with (o :: upd_flds fs os vs).
      eapply reads_ext; [intro st; apply up_flds_const|].
      eapply reads_bind; [|eapply reads_bind0; [auto|apply reads_ret]].
      assert (G : reads (up t (dflt t) ;;; ret tt) (enc t v) tt).
      { eapply reads_bind0; [apply IH; auto; apply shape_dflt|apply reads_ret]. }
      unfold const_reader. destruct t as [| | | |te|n te| | | | | | | |]; try exact G;
        cbn [rt_elem] in IHe; destruct v as [| | |ws| | | |]; try discriminate;
        match goal with H : Codec_Spec.has_ty _ _ _ = true |- _ =>
          cbn [Codec_Spec.has_ty] in H end; bsplit; cbn [enc];
        (eapply reads_bind; [apply reads_up64; auto|];
         eapply reads_bind0; [apply reads_const_elems; auto|apply reads_ret]).
  - intros tag v Ht Hv. discriminate.
  - intros tg t [IH _] p IHp tag v Ht Hv. cbn [Codec_Spec.has_ty_tab] in Hv.
    cbn [Codec_Model.up_tab enc_tab upd_tab]. destruct (N.eqb_spec tg tag) as [->|Hne]; auto.
    eapply reads_bind0; [apply IH; auto; apply shape_dflt|apply reads_ret].
Qed.
End Codec.

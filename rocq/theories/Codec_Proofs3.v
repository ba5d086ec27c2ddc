From Verif Require Import Base Base_Proofs PackBuf_Model PackBuf_Spec PackBuf_Proofs.
From Verif Require Import Codec_Model Codec_Spec Codec_Proofs Codec_Proofs2.
Ltac Zify.zify_post_hook ::= Z.div_mod_to_equations.

Section Codec.
Variable klt : nat -> val -> val -> bool.
Local Notation has_ty := (has_ty klt).
Local Notation has_ty_tys := (has_ty_tys klt).
Local Notation has_ty_flds := (has_ty_flds klt).
Local Notation has_ty_tab := (has_ty_tab klt).
Local Notation up := (up klt).
Local Notation up_tys := (up_tys klt).
Local Notation up_flds := (up_flds klt).
Local Notation up_tab := (up_tab klt).

Lemma has_ty_dflt :
  (forall t, ty_ok t = true -> has_ty t (dflt t) = true) /\
  (forall ts, ty_ok_tys ts = true -> has_ty_tys ts (dflt_tys ts) = true) /\
  (forall fs, ty_ok_flds fs = true -> has_ty_flds fs (dflt_flds fs) = true) /\
  (forall p : ptab, True).
Proof.
  assert (REP : forall t n, has_ty t (dflt t) = true -> forallb (has_ty t) (repeat (dflt t) n) = true).
  { intros t n H. induction n as [|n IH]; cbn [repeat forallb]; [reflexivity|]. now rewrite H, IH. }
  apply ty_mutind; auto.
  - intros n Ht. cbn [ty_ok] in Ht. bsplit. cbn [Codec_Spec.has_ty dflt].
    rewrite repeat_length, Nat.eqb_refl. now rewrite H, H0.
  - intros k Ht. cbn [ty_ok] in Ht. bsplit. cbn [Codec_Spec.has_ty dflt]. rewrite len_nil.
    rewrite N.mod_0_l by lia. rewrite H. cbn [andb N.eqb].
    apply N.ltb_lt. rewrite P63. lia.
  - intros n Ht. cbn [ty_ok] in Ht. cbn [Codec_Spec.has_ty dflt].
    rewrite repeat_length, Nat.eqb_refl. now rewrite Ht.
  - intros n t IH Ht. cbn [ty_ok] in Ht. bsplit. cbn [Codec_Spec.has_ty dflt].
    rewrite repeat_length, Nat.eqb_refl, len_repeat, H. cbn [andb]. auto.
  - intros n t IH Ht. cbn [ty_ok] in Ht. cbn [Codec_Spec.has_ty dflt].
    rewrite repeat_length, Nat.eqb_refl. cbn [andb]. auto.
  - intros a IHa b IHb Ht. cbn [ty_ok] in Ht. bsplit. cbn [Codec_Spec.has_ty dflt].
    now rewrite IHa, IHb.
  - intros t IH ts IHs Ht. change (ty_ok t && ty_ok_tys ts = true) in Ht. bsplit.
    change (has_ty t (dflt t) && has_ty_tys ts (dflt_tys ts) = true). now rewrite IH, IHs.
  - intros k t IH fs IHs Ht. change (ty_ok t && ty_ok_flds fs = true) in Ht. bsplit.
    destruct k.
    + change (has_ty t (dflt t) && has_ty_flds fs (dflt_flds fs) = true). now rewrite IH, IHs.
    + change (shape t (dflt t) && has_ty_flds fs (dflt_flds fs) = true).
      now rewrite (proj1 shape_dflt), IHs.
    + change (has_ty t (dflt t) && has_ty_flds fs (dflt_flds fs) = true). now rewrite IH, IHs.
Qed.

Definition ts_ (t : ty) : Prop :=
  plain t = true -> ty_ok t = true -> no_ptr t = true -> forall o, has_ty t o = true ->
  safe (up t o) (fun v => has_ty t v = true).

Lemma len_lt_W A (l : list A) k : (length l <= k)%nat -> (N.of_nat k < W)%N -> (len l <? W)%N = true.
Proof. intros H1 H2. apply N.ltb_lt. unfold len. lia. Qed.

Lemma up_typed_all : strict_weak klt ->
  (forall t, ts_ t) /\
  (forall ts, plain_tys ts = true -> ty_ok_tys ts = true -> no_ptr_tys ts = true ->
     forall os, has_ty_tys ts os = true ->
     safe (up_tys ts os) (fun vs => has_ty_tys ts vs = true)) /\
  (forall fs, plain_flds fs = true -> ty_ok_flds fs = true -> no_ptr_flds fs = true ->
     forall os, has_ty_flds fs os = true ->
     safe (up_flds fs os) (fun vs => has_ty_flds fs vs = true)) /\
  (forall p : ptab, True).
Proof.
  intro SW. apply ty_mutind; auto.
  - (* TBasic *) intros n Hp Ht Hn o Ho. cbn [ty_ok] in Ht. bsplit.
    cbn [Codec_Model.up]. eapply safe_bind; [apply safe_popoff; now apply N.ltb_lt|].
    intros b Lb. apply safe_ret. cbn [Codec_Spec.has_ty].
    rewrite H, H0, !andb_true_r. apply Nat.eqb_eq. unfold len in Lb. lia.
  - intros Hp Ht Hn o Ho. cbn [Codec_Model.up].
    eapply safe_bind; [apply safe_popoff; rewrite P63; lia|]. intros b Lb. apply safe_ret.
    cbn [Codec_Spec.has_ty]. pose proof (unle_bound b) as B. rewrite Lb in B.
    change (256^4)%N with 4294967296%N in B. unfold sext32.
    change (2^31)%N with 2147483648%N. change (2^32)%Z with 4294967296%Z.
    change (2^31)%Z with 2147483648%Z. destruct (N.ltb_spec (unle b) 2147483648); lia.
  - (* TStr *) intros k Hp Ht Hn o Ho. cbn [ty_ok] in Ht. bsplit.
    cbn [Codec_Model.up]. eapply safe_bind; [apply safe_up64|]. intros size Hsz. cbn zeta.
    rewrite (N.mod_small (size + 1)) by (rewrite W_eq in *; lia).
    destruct (N.ltb_spec ((2 ^ 63 - 1) / k) (size + 1)) as [L|L]; [apply safe_throw|].
    assert (Hk : (k * (size + 1) <= 2^63 - 1)%N).
    { rewrite P63 in *. pose proof (N.mul_div_le (9223372036854775808 - 1) k ltac:(lia)). nia. }
    rewrite N.mod_small by (rewrite W_eq, P63 in *; nia).
    eapply safe_bind; [apply safe_unpackraw; rewrite P63 in *; nia|].
    intros b Lb. rewrite Lb. replace (k * (size + 1) <? k * size)%N with false by nia.
    replace (size + 1 =? 0)%N with false by lia. apply safe_ret.
    replace (size + 1 - 1)%N with size by lia.
    rewrite firstn_all2 by (rewrite len_length, Lb; lia).
    cbn [Codec_Spec.has_ty]. rewrite Lb.
    rewrite (N.mul_comm k size), N.mod_mul by lia. rewrite H. cbn [andb N.eqb].
    apply N.ltb_lt. rewrite P63 in *. lia.
  - intros n Hp Ht Hn o Ho. cbn [ty_ok] in Ht.
    cbn [Codec_Model.up]. eapply safe_bind; [apply safe_unpackraw; now apply N.ltb_lt|].
    intros b Lb. apply safe_ret. cbn [Codec_Spec.has_ty]. rewrite Ht, andb_true_r.
    apply Nat.eqb_eq. unfold len in Lb. lia.
  - (* TSeq *) intros t IH Hp Ht Hn o Ho. cbn [Codec_Model.up].
    eapply safe_bind; [apply safe_up64|]. intros sz Hsz.
    eapply safe_bind.
    + apply safe_iterM with
        (I := fun k vs => forallb (has_ty t) vs = true /\ (length vs <= k)%nat); auto.
      intros k a [Fa La]. eapply safe_bind; [apply IH; auto; now apply has_ty_dflt|].
      intros x Hx. apply safe_ret. cbv beta. rewrite forallb_app. cbn [forallb]. rewrite Fa, Hx.
      rewrite app_length. cbn [length]. split; [reflexivity|lia].
    + intros vs [F L]. apply safe_ret. cbn [Codec_Spec.has_ty].
      rewrite (len_lt_W _ _ _ L), F; [reflexivity|]. rewrite W_eq in *. lia.
  - (* TArr *) intros n t IH Hp Ht Hn o Ho.
    cbn [ty_ok no_ptr] in Ht, Hn. bsplit.
    destruct o as [| | |os| | | |]; try discriminate. cbn [Codec_Spec.has_ty] in Ho. bsplit.
    cbn [Codec_Model.up as_list].
    eapply safe_bind; [apply safe_up64|]. intros sz _.
    eapply safe_bind; [apply safe_up_list with (P := fun v => has_ty t v = true)|].
    + intros o Ho'. now apply IH.
    + now apply Forall_forallb.
    + intros vs [F L]. apply safe_ret. cbn [Codec_Spec.has_ty].
      apply andb_true_intro; split; [|now apply Forall_forallb].
      unfold len. rewrite L. now apply andb_true_intro.
  - (* TCArr *) intros n t IH Hp Ht Hn o Ho.
    cbn [ty_ok no_ptr] in Ht, Hn.
    destruct o as [| | |os| | | |]; try discriminate. cbn [Codec_Spec.has_ty] in Ho. bsplit.
    cbn [Codec_Model.up as_list].
    eapply safe_bind; [apply safe_up_list with (P := fun v => has_ty t v = true)|].
    + intros o Ho'. now apply IH.
    + now apply Forall_forallb.
    + intros vs [F L]. apply safe_ret. cbn [Codec_Spec.has_ty].
      apply andb_true_intro; split; [|now apply Forall_forallb]. now rewrite L.
  - (* TAssoc *) intros m c t IH Hp Ht Hn o Ho. cbn [Codec_Model.up].
    eapply safe_bind; [apply safe_up64|]. intros sz Hsz.
    eapply safe_bind.
    + apply safe_iterM with
        (I := fun k vs => Forall (fun v => has_ty t v = true) vs /\ (length vs <= k)%nat /\
                          sorted klt m c vs = true); auto.
      intros k a (Fa & La & Sa). eapply safe_bind; [apply IH; auto; now apply has_ty_dflt|].
      intros x Hx. apply safe_ret. repeat split.
      * apply Forall_forall. intros z Hz. apply In_ins in Hz as [->|Hz]; [exact Hx|].
        rewrite Forall_forall in Fa. auto.
      * pose proof (ins_length klt m c x a). lia.
      * now apply ins_sorted.
    + intros vs (F & L & S). apply safe_ret. cbn [Codec_Spec.has_ty].
      assert (E : map (upd t (dflt t)) vs = vs).
      { rewrite <- (map_id vs) at 2. apply map_ext_in. intros v Hin.
        rewrite Forall_forall in F. apply (proj1 (upd_plain_all klt)); auto. apply shape_dflt. }
      rewrite E, S, (len_lt_W _ _ _ L) by (rewrite W_eq in *; lia). cbn [andb]. rewrite andb_true_r.
      now apply Forall_forallb.
  - (* TPair *) intros a IHa b IHb Hp Ht Hn o Ho.
    cbn [plain ty_ok no_ptr] in Hp, Ht, Hn. destruct o as [| | | |x y| | |]; try discriminate.
    cbn [Codec_Spec.has_ty] in Ho. bsplit. cbn [Codec_Model.up].
    eapply safe_bind; [now apply IHa|]. intros x' Hx.
    eapply safe_bind; [now apply IHb|]. intros y' Hy.
    apply safe_ret. cbn [Codec_Spec.has_ty]. now rewrite Hx, Hy.
  - intros ts IH Hp Ht Hn o Ho. destruct o; try discriminate. cbn [Codec_Model.up as_list].
    eapply safe_bind; [now apply IH|]. intros vs Hvs. now apply safe_ret.
  - intros fs IH Hp Ht Hn o Ho. destruct o; try discriminate. cbn [Codec_Model.up as_list].
    eapply safe_bind; [now apply IH|]. intros vs Hvs. now apply safe_ret.
  - intros t _ Hp Ht Hn. discriminate.
  - intros t _ Hp Ht Hn. discriminate.
  - intros Hp Ht Hn. discriminate.
  - intros _ _ _ [|o os] Ho; [|discriminate]. now apply safe_ret.
  - intros t IH ts IHs Hp Ht Hn [|o os] Ho; [discriminate|].
    change (plain t && plain_tys ts = true) in Hp.
    change (ty_ok t && ty_ok_tys ts = true) in Ht.
    change (no_ptr t && no_ptr_tys ts = true) in Hn.
    change (has_ty t o && has_ty_tys ts os = true) in Ho. bsplit.
    cbn [Codec_Model.up_tys]. eapply safe_bind; [now apply IH|]. intros x Hx.
    eapply safe_bind; [now apply IHs|]. intros r Hr. apply safe_ret.
    change (has_ty t x && has_ty_tys ts r = true). now rewrite Hx, Hr.
  - intros _ _ _ [|o os] Ho; [|discriminate]. now apply safe_ret.
  - intros k t IH fs IHs Hp Ht Hn os Ho. destruct k; try discriminate.
    destruct os as [|o os]; [discriminate|].
    change (plain t && plain_flds fs = true) in Hp.
    change (ty_ok t && ty_ok_flds fs = true) in Ht.
    change (no_ptr t && no_ptr_flds fs = true) in Hn.
    change (has_ty t o && has_ty_flds fs os = true) in Ho. bsplit.
    cbn [Codec_Model.up_flds]. eapply safe_bind; [now apply IH|]. intros x Hx.
    eapply safe_bind; [now apply IHs|]. intros r Hr. apply safe_ret.
    change (has_ty t x && has_ty_flds fs r = true). now rewrite Hx, Hr.
Qed.

(** ** classes with unserialised members *)
Fixpoint kind_at (fs : flds) (i : nat) : option mkind :=
  match fs, i with
  | FNil, _ => None
  | FCons k _ _, O => Some k
  | FCons _ _ fs', S i' => kind_at fs' i'
  end.

Lemma pk_drop fs : forall vs st, shape_flds fs vs = true ->
  pk_flds fs vs st = pk_flds (drop_skipped fs) (drop_skipped_vals fs vs) st.
Proof.
  induction fs as [|k t fs IH]; intros [|v vs] st H; try discriminate; [reflexivity|].
  change (shape t v && shape_flds fs vs = true) in H. bsplit.
  destruct k; cbn [drop_skipped drop_skipped_vals].
  - change ((pk t v ;;; pk_flds fs vs) st =
            (pk t v ;;; pk_flds (drop_skipped fs) (drop_skipped_vals fs vs)) st).
    unfold bind. destruct (pk t v st); auto.
  - change (pk_flds fs vs st = pk_flds (drop_skipped fs) (drop_skipped_vals fs vs) st). auto.
  - change ((pk t v ;;; pk_flds fs vs) st =
            (pk t v ;;; pk_flds (drop_skipped fs) (drop_skipped_vals fs vs)) st).
    unfold bind. destruct (pk t v st); auto.
Qed.

Lemma bind_ok {A B} (m : M pack_buf A) (f : A -> M pack_buf B) st b st' :
  bind m f st = Ok b st' -> exists a s1, m st = Ok a s1 /\ f a s1 = Ok b st'.
Proof. unfold bind. destruct (m st); try discriminate. eauto. Qed.

Lemma up_flds_kept fs : forall olds st r st' i k,
  up_flds fs olds st = Ok r st' -> kind_at fs i = Some k -> k <> MNormal ->
  nth_error r i = nth_error olds i.
Proof.
  induction fs as [|k0 t fs IH]; intros olds st r st' i k E Hk Hne; [destruct i; discriminate|].
  destruct olds as [|o os]; [destruct k0; discriminate|].
  destruct k0.
  - cbn [Codec_Model.up_flds] in E. apply bind_ok in E as (x & s1 & _ & E).
    apply bind_ok in E as (r' & s2 & E2 & E). injection E as <- _.
    destruct i; cbn [kind_at] in Hk; [congruence|]. cbn [nth_error]. eapply IH; eauto.
  - cbn [Codec_Model.up_flds] in E.
    apply bind_ok in E as (r' & s2 & E2 & E). injection E as <- _.
    destruct i; cbn [kind_at nth_error] in *; [reflexivity|]. eapply IH; eauto.
  - rewrite up_flds_const in E. apply bind_ok in E as (x & s1 & _ & E).
    apply bind_ok in E as (r' & s2 & E2 & E). injection E as <- _.
    destruct i; cbn [kind_at nth_error] in *; [reflexivity|]. eapply IH; eauto.
Qed.

(** a class with a serialised raw pointer member *)
Fixpoint has_raw (fs : flds) : bool :=
  match fs with
  | FNil => false
  | FCons MSkip _ fs' => has_raw fs'
  | FCons _ TRawPtr _ => true
  | FCons _ _ fs' => has_raw fs'
  end.
Lemma raw_never_packs fs : has_raw fs = true -> forall vs st a st', pk_flds fs vs st <> Ok a st'.
Proof.
  induction fs as [|k t fs IH]; intros H vs st a st' E; [discriminate|].
  destruct vs as [|v vs]; [destruct k; discriminate|].
  destruct k.
  - cbn [pk_flds] in E. apply bind_ok in E as (x & s1 & E1 & E).
    destruct t; try discriminate; now apply IH in E.
  - cbn [pk_flds] in E. now apply IH in E.
  - cbn [pk_flds] in E. apply bind_ok in E as (x & s1 & E1 & E).
    destruct t; try discriminate; now apply IH in E.
Qed.
Lemma raw_never_unpacks fs : has_raw fs = true -> forall vs st a st', up_flds fs vs st <> Ok a st'.
Proof.
  induction fs as [|k t fs IH]; intros H vs st a st' E; [discriminate|].
  destruct vs as [|v vs]; [destruct k; discriminate|].
  destruct k.
  - cbn [Codec_Model.up_flds] in E. apply bind_ok in E as (x & s1 & E1 & E).
    apply bind_ok in E as (r & s2 & E2 & E).
    destruct t; try discriminate; now apply IH in E2.
  - cbn [Codec_Model.up_flds] in E. apply bind_ok in E as (r & s2 & E2 & E). now apply IH in E2.
  - rewrite up_flds_const in E. apply bind_ok in E as (x & s1 & E1 & E).
    apply bind_ok in E as (r & s2 & E2 & E).
    destruct t; try discriminate; now apply IH in E2.
Qed.

(** ** std::array with a stored count different from its length *)
Lemma up_array_short n te vs olds rest :
  forallb (has_ty te) vs = true -> forallb (shape te) olds = true ->
  length olds = n -> (length vs <= n)%nat -> (N.of_nat n < W)%N ->
  let e := le 8 (len vs) ++ concat (map (enc te) vs) in
  (len (e ++ rest) < 2^63)%N ->
  up (TArr n te) (VList olds) (buf_with (e ++ rest) 0) =
    Ok (VList (map2 (upd te) olds vs ++ skipn (length vs) olds))
       (buf_with (e ++ rest) (len e)).
Proof.
  intros Hv Ho Hn Hl HW e HB.
  assert (R : reads (up (TArr n te) (VList olds)) e
                    (VList (map2 (upd te) olds vs ++ skipn (length vs) olds))).
  { cbn [Codec_Model.up as_list]. unfold e.
    eapply reads_bind; [apply reads_up64; unfold len; lia|].
    eapply reads_bind0; [|apply reads_ret].
    clear e HB. revert olds n Ho Hn Hl HW.
    induction vs as [|v vs IH]; intros olds n Ho Hn Hl HW.
    - destruct olds as [|o os]; apply reads_ret.
    - destruct olds as [|o os]; cbn [length] in *; [lia|]. destruct n as [|n]; [lia|].
      cbn [forallb] in Hv, Ho. bsplit.
      cbn [up_list map concat map2 skipn]. rewrite len_cons.
      replace (1 + len vs =? 0)%N with false by lia.
      eapply reads_bind; [now apply up_reads_all|].
      replace (1 + len vs - 1)%N with (len vs) by lia.
      eapply reads_bind0; [apply (IH ltac:(assumption) os n); auto; lia|apply reads_ret]. }
  apply (proj1 R) with (r := rest). apply (has_buf_with _ 0); lia.
Qed.
End Codec.

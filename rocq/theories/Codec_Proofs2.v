From Verif Require Import Base Base_Proofs PackBuf_Model PackBuf_Spec PackBuf_Proofs.
From Verif Require Import Codec_Model Codec_Spec Codec_Proofs.
Ltac Zify.zify_post_hook ::= Z.div_mod_to_equations.
Ltac bsplit := repeat match goal with
  | H : (_ && _)%bool = true |- _ => apply andb_prop in H as [? ?]
  end.

(** ** writing *)
Definition writes (m : M pack_buf unit) (e : list ascii) : Prop :=
  forall st, inv st -> (pb_size st + len e < W)%N ->
  exists st', m st = Ok tt st' /\ inv st' /\ pb_data st' = pb_data st ++ e /\
              pb_pos st' = pb_pos st.

Lemma inv_size st : inv st -> pb_size st = len (pb_data st).
Proof. intros (H & _). now rewrite pb_data_len. Qed.

Lemma writes_ret : writes (ret tt) [].
Proof. intros st Hi _. exists st. rewrite app_nil_r. auto. Qed.
Lemma writes_bind m1 m2 e1 e2 :
  writes m1 e1 -> writes m2 e2 -> writes (m1 ;;; m2) (e1 ++ e2).
Proof.
  intros H1 H2 st Hi Hl. rewrite len_app in Hl.
  destruct (H1 st Hi) as (s1 & E1 & I1 & D1 & P1); [lia|].
  destruct (H2 s1 I1) as (s2 & E2 & I2 & D2 & P2).
  { rewrite (inv_size s1 I1), D1, len_app, <- (inv_size st Hi). lia. }
  exists s2. unfold bind. rewrite E1, E2. split; [reflexivity|]. split; [exact I2|].
  rewrite D2, D1, <- app_assoc. split; [reflexivity|]. congruence.
Qed.
Lemma writes_append e : (0 < len e)%N -> writes (append e) e.
Proof. intros H st Hi Hl. now apply append_ok. Qed.
Lemma writes_packraw e : writes (packraw e) e.
Proof. intros st Hi Hl. now apply packraw_ok. Qed.
Lemma writes_forM (f : val -> M pack_buf unit) e vs :
  (forall v, In v vs -> writes (f v) (e v)) -> writes (forM f vs) (concat (map e vs)).
Proof.
  induction vs as [|v vs IH]; intro H; cbn [forM map concat]; [apply writes_ret|].
  apply writes_bind; [apply H; now left|]. apply IH. intros w Hw. apply H. now right.
Qed.
Lemma writes_le k n : (0 < k)%nat -> writes (append (le k n)) (le k n).
Proof. intro H. apply writes_append. rewrite le_len. lia. Qed.

Section Codec.
Variable klt : nat -> val -> val -> bool.
Local Notation has_ty := (has_ty klt).
Local Notation has_ty_tys := (has_ty_tys klt).
Local Notation has_ty_flds := (has_ty_flds klt).
Local Notation has_ty_tab := (has_ty_tab klt).
Local Notation up := (up klt).
Local Notation up_tys := (up_tys klt).
Local Notation up_flds := (up_flds klt).
Local Notation up_tab := (up_tab klt).

Lemma pk_writes_all :
  (forall t v, has_ty t v = true -> writes (pk t v) (enc t v)) /\
  (forall ts vs, has_ty_tys ts vs = true -> writes (pk_tys ts vs) (enc_tys ts vs)) /\
  (forall fs vs, has_ty_flds fs vs = true -> writes (pk_flds fs vs) (enc_flds fs vs)) /\
  (forall p tag v, has_ty_tab p tag v = true -> writes (pk_tab p tag v) (enc_tab p tag v)).
Proof.
  assert (SEQ : forall t vs, (forall v, has_ty t v = true -> writes (pk t v) (enc t v)) ->
     forallb (has_ty t) vs = true ->
     writes (forM (pk t) vs) (concat (map (enc t) vs))).
  { intros t vs IH H. rewrite forallb_forall in H. apply writes_forM. auto. }
  apply ty_mutind.
  - intros n v Hv. destruct v; try discriminate. cbn [Codec_Spec.has_ty] in Hv. bsplit.
    cbn [pk enc]. apply writes_append. rewrite Nat.eqb_eq in *. unfold len. lia.
  - intros v Hv. destruct v; try discriminate. now apply writes_le; lia.
  - intros k v Hv. destruct v; try discriminate.
    apply writes_bind; [apply writes_le; lia|apply writes_packraw].
  - intros n v Hv. destruct v; try discriminate. apply writes_packraw.
  - intros t IH v Hv. destruct v; try discriminate. cbn [Codec_Spec.has_ty] in Hv. bsplit.
    apply writes_bind; [apply writes_le; lia|]. apply SEQ; auto.
  - intros n t IH v Hv. destruct v; try discriminate. cbn [Codec_Spec.has_ty] in Hv. bsplit.
    apply writes_bind; [apply writes_le; lia|]. apply SEQ; auto.
  - intros n t IH v Hv. destruct v; try discriminate. cbn [Codec_Spec.has_ty] in Hv. bsplit.
    apply SEQ; auto.
  - intros m c t IH v Hv. destruct v; try discriminate. cbn [Codec_Spec.has_ty] in Hv. bsplit.
    apply writes_bind; [apply writes_le; lia|]. apply SEQ; auto.
  - intros a IHa b IHb v Hv. destruct v; try discriminate. cbn [Codec_Spec.has_ty] in Hv. bsplit.
    apply writes_bind; auto.
  - intros ts IH v Hv. destruct v; try discriminate. apply IH. exact Hv.
  - intros fs IH v Hv. destruct v; try discriminate. apply IH. exact Hv.
  - intros t IH v Hv. destruct v as [| | | | |[x|]| |]; try discriminate.
    + apply writes_bind; [apply writes_le; lia|]. apply IH. exact Hv.
    + apply (writes_le 1 0); lia.
  - intros p IH v Hv. destruct v as [| | | | | |[[tag x]|]|]; try discriminate.
    + cbn [Codec_Spec.has_ty] in Hv. bsplit.
      apply writes_bind; [apply writes_le; lia|]. apply writes_bind; [apply writes_le; lia|].
      apply IH. assumption.
    + apply (writes_le 1 0); lia.
  - intros v Hv. destruct v; discriminate.
  - intros [|v vs] Hv; try discriminate. apply writes_ret.
  - intros t IH ts IHs [|v vs] Hv; try discriminate.
    change (has_ty t v && has_ty_tys ts vs = true) in Hv. bsplit. apply writes_bind; auto.
  - intros [|v vs] Hv; try discriminate. apply writes_ret.
  - intros k t IH fs IHs [|v vs] Hv; [destruct k; discriminate|]. destruct k.
    + change (has_ty t v && has_ty_flds fs vs = true) in Hv. bsplit. apply writes_bind; auto.
    + change (shape t v && has_ty_flds fs vs = true) in Hv. bsplit. apply IHs; auto.
    + change (has_ty t v && has_ty_flds fs vs = true) in Hv. bsplit. apply writes_bind; auto.
  - intros tag v Hv. discriminate.
  - intros tg t IH p IHp tag v Hv. cbn [Codec_Spec.has_ty_tab] in Hv. cbn [pk_tab enc_tab].
    destruct (N.eqb_spec tg tag); auto.
Qed.

(** ** plain types: the destination ends up equal to the source *)
Lemma upd_plain_all :
  (forall t o v, plain t = true -> has_ty t v = true -> shape t o = true -> upd t o v = v) /\
  (forall ts os vs, plain_tys ts = true -> has_ty_tys ts vs = true -> shape_tys ts os = true ->
       upd_tys ts os vs = vs) /\
  (forall fs os vs, plain_flds fs = true -> has_ty_flds fs vs = true -> shape_flds fs os = true ->
       upd_flds fs os vs = vs) /\
  (forall p tag v, plain_tab p = true -> has_ty_tab p tag v = true -> upd_tab p tag v = v).
Proof.
  assert (MAP : forall t vs,
    (forall o v, plain t = true -> has_ty t v = true -> shape t o = true -> upd t o v = v) ->
    plain t = true -> forallb (has_ty t) vs = true -> map (upd t (dflt t)) vs = vs).
  { intros t vs IH Hp Hv. rewrite forallb_forall in Hv.
    rewrite <- (map_id vs) at 2. apply map_ext_in. intros v Hin.
    apply IH; auto. apply shape_dflt. }
  assert (MAP2 : forall t vs os,
    (forall o v, plain t = true -> has_ty t v = true -> shape t o = true -> upd t o v = v) ->
    plain t = true -> forallb (has_ty t) vs = true -> forallb (shape t) os = true ->
    length os = length vs -> map2 (upd t) os vs = vs).
  { intros t vs; induction vs as [|v vs IHv]; intros [|o os] IH Hp Hv Hs Hl;
      cbn in *; try lia; auto. bsplit. rewrite IH, IHv; auto. }
  apply ty_mutind; try (intros; destruct v; try discriminate; reflexivity).
  - intros t IH o v Hp Hv Ho. destruct v as [| | |vs| | | |]; try discriminate.
    cbn [Codec_Spec.has_ty] in Hv. bsplit. cbn [upd]. now rewrite MAP.
  - intros n t IH o v Hp Hv Ho. destruct v as [| | |vs| | | |]; try discriminate.
    destruct o as [| | |os| | | |]; try discriminate.
    cbn [Codec_Spec.has_ty shape] in Hv, Ho. bsplit. cbn [upd as_list].
    rewrite Nat.eqb_eq in *. rewrite MAP2; auto. lia.
  - intros n t IH o v Hp Hv Ho. destruct v as [| | |vs| | | |]; try discriminate.
    destruct o as [| | |os| | | |]; try discriminate.
    cbn [Codec_Spec.has_ty shape] in Hv, Ho. bsplit. cbn [upd as_list].
    rewrite Nat.eqb_eq in *. rewrite MAP2; auto. lia.
  - intros m c t IH o v Hp Hv Ho. destruct v as [| | |vs| | | |]; try discriminate.
    cbn [Codec_Spec.has_ty] in Hv. bsplit. cbn [upd]. now rewrite MAP.
  - intros a IHa b IHb o v Hp Hv Ho. destruct v; try discriminate. destruct o; try discriminate.
    cbn [Codec_Spec.has_ty shape plain] in Hv, Ho, Hp. bsplit. cbn [upd].
    now rewrite IHa, IHb.
  - intros ts IH o v Hp Hv Ho. destruct v; try discriminate. destruct o; try discriminate.
    cbn [upd as_list]. now rewrite IH.
  - intros fs IH o v Hp Hv Ho. destruct v; try discriminate. destruct o; try discriminate.
    cbn [upd as_list]. now rewrite IH.
  - intros t IH o v Hp Hv Ho. destruct v as [| | | | |[x|]| |]; try discriminate; [|reflexivity].
    cbn [upd]. rewrite IH; auto. apply shape_dflt.
  - intros p IH o v Hp Hv Ho. destruct v as [| | | | | |[[tag x]|]|]; try discriminate; [|reflexivity].
    cbn [Codec_Spec.has_ty] in Hv. bsplit. cbn [upd]. rewrite IH; auto.
  - intros [|o os] [|v vs] Hp Hv Ho; try discriminate; reflexivity.
  - intros t IH ts IHs [|o os] [|v vs] Hp Hv Ho; try discriminate.
    change (has_ty t v && has_ty_tys ts vs = true) in Hv.
    change (shape t o && shape_tys ts os = true) in Ho.
    change (plain t && plain_tys ts = true) in Hp. bsplit.
    change (upd t o v :: upd_tys ts os vs = v :: vs). now rewrite IH, IHs.
  - intros [|o os] [|v vs] Hp Hv Ho; try discriminate; reflexivity.
  - intros k t IH fs IHs os vs Hp Hv Ho. destruct k; try discriminate.
    destruct os as [|o os], vs as [|v vs]; try discriminate.
    change (has_ty t v && has_ty_flds fs vs = true) in Hv.
    change (shape t o && shape_flds fs os = true) in Ho.
    change (plain t && plain_flds fs = true) in Hp. bsplit.
    change (upd t o v :: upd_flds fs os vs = v :: vs). now rewrite IH, IHs.
  - intros tg t IH p IHp tag v Hp Hv. cbn [Codec_Spec.has_ty_tab] in Hv. cbn [upd_tab].
    change (plain t && plain_tab p = true) in Hp. bsplit.
    destruct (N.eqb_spec tg tag); auto. apply IH; auto. apply shape_dflt.
Qed.

(** ** whole-buffer statements *)
(** pack into any valid buffer, then position the cursor where the record starts *)
Lemma roundtrip t v old st :
  has_ty t v = true -> shape t old = true -> inv st ->
  (pb_size st + len (enc t v) < 2^63)%N ->
  exists st1, pk t v st = Ok tt st1 /\ pb_pos st1 = pb_pos st /\
    pb_data st1 = pb_data st ++ enc t v /\
    forall more st2, packraw more st1 = Ok tt st2 -> (pb_size st1 + len more < 2^63)%N ->
    exists st3,
      up t old (mk_pb (pb_mem st2) (pb_size st2) (pb_size st)) = Ok (upd t old v) st3 /\
      pb_pos st3 = (pb_size st + len (enc t v))%N /\ pb_data st3 = pb_data st2.
Proof.
  intros Hv Ho Hi Hl.
  destruct (proj1 pk_writes_all t v Hv st Hi) as (st1 & E1 & I1 & D1 & P1);
    [now apply P63_W|].
  exists st1. repeat split; auto. intros more st2 E2 H2.
  assert (S1 : pb_size st1 = (pb_size st + len (enc t v))%N)
    by (rewrite (inv_size st1 I1), D1, len_app, <- inv_size; auto).
  destruct (packraw_ok st1 more I1) as (st2' & E2' & I2 & D2 & P2); [now apply P63_W|].
  rewrite E2' in E2. injection E2 as ->.
  assert (S2 : pb_size st2 = (pb_size st1 + len more)%N)
    by (rewrite (inv_size st2 I2), D2, len_app, <- inv_size; auto).
  set (st2c := mk_pb (pb_mem st2) (pb_size st2) (pb_size st)).
  assert (HAS : has st2c (enc t v ++ more)).
  { split.
    - unfold ok_st, st2c; cbn [pb_mem pb_size pb_pos]. destruct I2 as (A & B & C). lia.
    - change (pb_data st2c) with (pb_data st2). unfold st2c; cbn [pb_pos].
      rewrite D2, D1, <- app_assoc. apply skipn_app_l.
      rewrite len_length. f_equal. now apply inv_size. }
  destruct (proj1 (up_reads_all klt) t) as [R _].
  exists (adv st2c (len (enc t v))). split; [|split; reflexivity].
  apply (proj1 (R v old Hv Ho)) with (r := more). exact HAS.
Qed.

Lemma truncated t v old st p :
  has_ty t v = true -> shape t old = true ->
  has st p -> sprefix p (enc t v) -> exists x st', up t old st = Throw x st'.
Proof.
  intros Hv Ho H Hp. destruct (proj1 (up_reads_all klt) t) as [R _].
  exact (proj2 (R v old Hv Ho) st p H Hp).
Qed.

Lemma has_buf_with d n : (n <= len d)%N -> (len d < 2^63)%N ->
  has (buf_with d n) (skipn (N.to_nat n) d).
Proof.
  intros H1 H2. unfold has, ok_st, buf_with, pb_data; cbn [pb_mem pb_size pb_pos].
  split; [lia|]. f_equal. apply firstn_all2. unfold len. lia.
Qed.

Lemma decode_enc t v old rest :
  has_ty t v = true -> shape t old = true -> (len (enc t v ++ rest) < 2^63)%N ->
  up t old (buf_with (enc t v ++ rest) 0) =
    Ok (upd t old v) (buf_with (enc t v ++ rest) (len (enc t v))).
Proof.
  intros Hv Ho Hl. destruct (proj1 (up_reads_all klt) t) as [R _].
  apply (proj1 (R v old Hv Ho)) with (r := rest).
  apply (has_buf_with _ 0); lia.
Qed.

Lemma enc_determines t x y old :
  has_ty t x = true -> has_ty t y = true -> shape t old = true ->
  (len (enc t x) < 2^63)%N ->
  enc t x = enc t y -> upd t old x = upd t old y.
Proof.
  intros Hx Hy Ho Hl E.
  pose proof (decode_enc t x old [] Hx Ho) as D1. pose proof (decode_enc t y old [] Hy Ho) as D2.
  rewrite app_nil_r in D1, D2. rewrite <- E in D2. specialize (D1 Hl). specialize (D2 Hl).
  rewrite D1 in D2. now injection D2.
Qed.

Lemma deepCmp_spec mag t x y :
  has_ty t x = true -> has_ty t y = true ->
  (len (enc t x) < W)%N -> (len (enc t y) < W)%N ->
  exists bx by_, deepCmp mag t x y = Some (pb_cmp mag bx by_) /\ inv bx /\ inv by_ /\
    pb_data bx = enc t x /\ pb_data by_ = enc t y.
Proof.
  intros Hx Hy Lx Ly.
  destruct (proj1 pk_writes_all t x Hx pb_empty inv_empty) as (bx & Ex & Ix & Dx & _);
    [cbn [pb_size pb_empty pb_new]; lia|].
  destruct (proj1 pk_writes_all t y Hy pb_empty inv_empty) as (by_ & Ey & Iy & Dy & _);
    [cbn [pb_size pb_empty pb_new]; lia|].
  exists bx, by_. unfold deepCmp. rewrite Ex, Ey.
  change (pb_data pb_empty) with (@nil ascii) in Dx, Dy. auto.
Qed.

Lemma deepEq_enc mag t x y :
  has_ty t x = true -> has_ty t y = true ->
  (len (enc t x) < W)%N -> (len (enc t y) < W)%N ->
  exists b, deepEq mag t x y = Some b /\ (b = true <-> enc t x = enc t y).
Proof.
  intros Hx Hy Lx Ly. destruct (deepCmp_spec mag t x y Hx Hy Lx Ly)
    as (bx & by_ & E & Ix & Iy & Dx & Dy).
  unfold deepEq. rewrite E. eexists; split; [reflexivity|].
  rewrite Z.eqb_eq. destruct (cmp_spec mag bx by_ Ix Iy) as (_ & C & _).
  rewrite C, Dx, Dy. tauto.
Qed.

Lemma deepEq_plain mag t x y :
  plain t = true -> has_ty t x = true -> has_ty t y = true ->
  (len (enc t x) < 2^63)%N -> (len (enc t y) < 2^63)%N ->
  exists b, deepEq mag t x y = Some b /\ (b = true <-> x = y).
Proof.
  intros Hp Hx Hy Lx Ly.
  destruct (deepEq_enc mag t x y Hx Hy) as (b & E & B); try now apply P63_W.
  exists b. split; [exact E|]. rewrite B. split; [|congruence].
  intro EE. pose proof (enc_determines t x y (dflt t) Hx Hy (proj1 shape_dflt t) Lx EE) as U.
  rewrite !(proj1 upd_plain_all) in U; auto; apply shape_dflt.
Qed.

(** ** sequences of records *)
Definition rec : Type := ty * val.
Fixpoint pk_recs (l : list rec) : M pack_buf unit :=
  match l with [] => ret tt | (t, v) :: l' => pk t v ;;; pk_recs l' end.
Fixpoint up_recs (l : list (ty * val)) : M pack_buf (list val) :=
  match l with
  | [] => ret []
  | (t, old) :: l' => x <- up t old ;; r <- up_recs l' ;; ret (x :: r)
  end.
Fixpoint enc_recs (l : list rec) : list ascii :=
  match l with [] => [] | (t, v) :: l' => enc t v ++ enc_recs l' end.

Lemma recs_write l : Forall (fun '(t, v) => has_ty t v = true) l -> writes (pk_recs l) (enc_recs l).
Proof.
  induction l as [|[t v] l IH]; intro H; cbn; [apply writes_ret|].
  inversion H; subst. apply writes_bind; [now apply pk_writes_all|auto].
Qed.
Lemma recs_read l : forall olds,
  Forall (fun '(t, v) => has_ty t v = true) l ->
  Forall2 (fun '(t, v) o => shape t o = true) l olds ->
  reads (up_recs (combine (map fst l) olds)) (enc_recs l)
        (map (fun '((t, v), o) => upd t o v) (combine l olds)).
Proof.
  induction l as [|[t v] l IH]; intros olds H H2; inversion H2; subst; cbn; [apply reads_ret|].
  inversion H; subst. eapply reads_bind; [now apply up_reads_all|].
  eapply reads_bind0; [now apply IH|apply reads_ret].
Qed.

Lemma recs_roundtrip l olds :
  Forall (fun '(t, v) => has_ty t v = true) l ->
  Forall2 (fun '(t, v) o => shape t o = true) l olds ->
  (len (enc_recs l) < 2^63)%N ->
  exists st1 st2, pk_recs l pb_empty = Ok tt st1 /\
    up_recs (combine (map fst l) olds) st1 =
      Ok (map (fun '((t, v), o) => upd t o v) (combine l olds)) st2 /\
    pb_pos st2 = pb_size st2.
Proof.
  intros H H2 HL.
  destruct (recs_write l H pb_empty inv_empty) as (st1 & E1 & I1 & D1 & P1).
  { cbn [pb_size pb_empty pb_new]. apply P63_W. exact HL. }
  change (pb_data pb_empty) with (@nil ascii) in D1. cbn [app] in D1.
  change (pb_pos pb_empty) with 0%N in P1.
  assert (S1 : pb_size st1 = len (enc_recs l)) by (rewrite (inv_size _ I1), D1; reflexivity).
  assert (HAS : has st1 (enc_recs l ++ [])).
  { split; [unfold ok_st; destruct I1; lia|]. rewrite P1, D1, app_nil_r. reflexivity. }
  exists st1, (adv st1 (len (enc_recs l))). split; [exact E1|].
  split; [exact (proj1 (recs_read l olds H H2) st1 [] HAS)|].
  unfold adv; cbn [pb_pos pb_size]. lia.
Qed.

(** ** unpacking arbitrary bytes *)
Definition safe {A} (m : M pack_buf A) (Q : A -> Prop) : Prop :=
  forall st, ok_st st -> no_ff8 (pb_data st) ->
  match m st with
  | Ok a st' => ok_st st' /\ pb_mem st' = pb_mem st /\ pb_size st' = pb_size st /\ Q a
  | Throw _ st' => ok_st st' /\ pb_mem st' = pb_mem st /\ pb_size st' = pb_size st
  | UB => False
  end.
Lemma safe_ret A (a : A) (Q : A -> Prop) : Q a -> safe (ret a) Q.
Proof. intros H st Hok _. cbn. auto. Qed.
Lemma safe_throw A e (Q : A -> Prop) : safe (throw e) Q.
Proof. intros st Hok _. cbn. auto. Qed.
Lemma safe_bind A B (m : M pack_buf A) (f : A -> M pack_buf B) P Q :
  safe m P -> (forall a, P a -> safe (f a) Q) -> safe (bind m f) Q.
Proof.
  intros H1 H2 st Hok Hff. unfold bind. specialize (H1 st Hok Hff).
  destruct (m st) as [a s1|e s1|]; auto.
  destruct H1 as (Ok1 & M1 & S1 & Pa).
  assert (D : pb_data s1 = pb_data st) by (unfold pb_data; congruence).
  specialize (H2 a Pa s1 Ok1). rewrite D in H2. specialize (H2 Hff).
  destruct (f a s1) as [b s2|e s2|]; auto.
  - destruct H2 as (A1 & A2 & A3 & A4). repeat split; try apply A1; congruence || auto.
  - destruct H2 as (A1 & A2 & A3). repeat split; try apply A1; congruence.
Qed.
Lemma safe_weaken A (m : M pack_buf A) (P Q : A -> Prop) :
  safe m P -> (forall a, P a -> Q a) -> safe m Q.
Proof.
  intros H HPQ st Hok Hff. specialize (H st Hok Hff).
  destruct (m st); auto. destruct H as (A1 & A2 & A3 & A4). auto.
Qed.
Lemma safe_unpackraw s :
  (s < 2^63)%N -> safe (unpackraw s) (fun b => len b = s).
Proof.
  intros Hs st Hok _. pose proof Hok as (H1 & H2 & H3).
  destruct (N.le_gt_cases (pb_pos st + s) (pb_size st)) as [L|L].
  - rewrite unpackraw_ok by (auto using ok_inv). cbn.
    repeat split; cbn; try lia.
    unfold read_at. rewrite len_firstn, len_skipn, pb_data_len by lia. lia.
  - rewrite unpackraw_end by (auto using ok_inv; rewrite W_eq, P63 in *; lia). auto.
Qed.
Lemma safe_ext A (m1 m2 : M pack_buf A) Q :
  (forall st, m1 st = m2 st) -> safe m2 Q -> safe m1 Q.
Proof. intros E H st. rewrite E. apply H. Qed.
Lemma safe_popoff s : (s < 2^63)%N -> safe (popoff s) (fun b => len b = s).
Proof. intro H. eapply safe_ext; [apply popoff_unpackraw|]. now apply safe_unpackraw. Qed.

Lemma unle_ff l : length l = 8%nat -> unle l = (W - 1)%N -> l = repeat "255"%char 8.
Proof.
  intros HL E. rewrite <- (le_unle l), HL, E. vm_compute. reflexivity.
Qed.

(** the size field just read is below 2^64-1 when the buffer has no 8 bytes 0xFF *)
Lemma safe_up64 : safe up64 (fun n => (n < W - 1)%N).
Proof.
  intros st Hok Hff. unfold up64, bind. rewrite popoff_unpackraw.
  pose proof Hok as (H1 & H2 & H3).
  destruct (N.le_gt_cases (pb_pos st + 8) (pb_size st)) as [L|L].
  - rewrite unpackraw_ok by (auto using ok_inv). cbn [ret].
    repeat split; try (unfold ok_st; cbn; lia).
    destruct (read_at_split (pb_data st) (pb_pos st) 8) as (pre & post & S1 & S2 & S3);
      [rewrite pb_data_len; lia|].
    pose proof (unle_bound (read_at (pb_data st) (pb_pos st) 8)) as B. rewrite S3 in B.
    change (256 ^ 8)%N with W in B.
    destruct (N.eq_dec (unle (read_at (pb_data st) (pb_pos st) 8)) (W - 1)) as [E|E]; [|lia].
    exfalso. apply unle_ff in E; [|unfold len in S3; lia].
    rewrite E in S1. exact (Hff _ _ S1).
  - rewrite unpackraw_end by (auto using ok_inv; rewrite W_eq, P63 in *; lia). auto.
Qed.

Lemma safe_iter_nat A (f : A -> M pack_buf A) (I : nat -> A -> Prop) n : forall k a,
  (forall k a, I k a -> safe (f a) (I (S k))) -> I k a -> safe (iter_nat n f a) (I (k + n)%nat).
Proof.
  induction n as [|n IH]; intros k a H Ia; cbn [iter_nat].
  - rewrite Nat.add_0_r. now apply safe_ret.
  - eapply safe_bind; [exact (H k a Ia)|]. intros b Ib.
    replace (k + S n)%nat with (S k + n)%nat by lia. now apply IH.
Qed.
Lemma safe_iterM A (f : A -> M pack_buf A) (I : nat -> A -> Prop) n a :
  (forall k a, I k a -> safe (f a) (I (S k))) -> I O a -> safe (iterM n f a) (I (N.to_nat n)).
Proof.
  intros H Ia. eapply safe_ext; [intro st; apply iterM_nat|].
  now apply (safe_iter_nat A f I (N.to_nat n) 0).
Qed.
Lemma safe_up_list f (P : val -> Prop) olds : forall k,
  (forall o, P o -> safe (f o) P) -> Forall P olds ->
  safe (up_list f k olds) (fun r => Forall P r /\ length r = length olds).
Proof.
  induction olds as [|o os IH]; intros k H HP; cbn [up_list].
  - apply safe_ret. auto.
  - inversion HP; subst. destruct (k =? 0)%N; [apply safe_ret; auto|].
    eapply safe_bind; [now apply H|]. intros x Px.
    eapply safe_bind; [now apply IH|]. intros r [Pr Lr]. apply safe_ret. cbn. auto.
Qed.

Lemma In_ins multi c x z l : In z (ins klt multi c x l) -> z = x \/ In z l.
Proof.
  induction l as [|y l IH]; cbn [ins]; intro H; [destruct H; auto|].
  destruct (klt c x y); [destruct H; auto|].
  destruct (klt c y x || multi); auto. destruct H as [H|H]; [right; now left|].
  destruct (IH H); [auto|right; now right].
Qed.
Lemma ins_length multi c x l : (length (ins klt multi c x l) <= S (length l))%nat.
Proof.
  induction l as [|y l IH]; cbn [ins length]; [lia|].
  destruct (klt c x y); [cbn [length]; lia|].
  destruct (klt c y x || multi); cbn [length]; lia.
Qed.
Lemma ins_sorted multi c x l : strict_weak klt ->
  sorted klt multi c l = true -> sorted klt multi c (ins klt multi c x l) = true.
Proof.
  intros [HA HN]. induction l as [|y l IH]; intro H; [reflexivity|].
  cbn [sorted] in H. bsplit. rewrite forallb_forall in H. cbn [ins].
  destruct (klt c x y) eqn:Exy.
  - cbn [sorted]. apply andb_true_intro; split.
    + apply forallb_forall. intros z [<-|Hz].
      * rewrite (HA _ _ _ Exy), Exy. cbn. apply orb_true_r.
      * specialize (H z Hz). bsplit. destruct (HN c x y z Exy) as [E|E].
        -- rewrite (HA _ _ _ E), E. cbn. apply orb_true_r.
        -- rewrite E in *. discriminate.
    + apply andb_true_intro; split; [|assumption]. apply forallb_forall. exact H.
  - destruct (klt c y x || multi) eqn:E.
    + cbn [sorted]. apply andb_true_intro; split; [|auto].
      apply forallb_forall. intros z Hz. apply In_ins in Hz as [->|Hz]; [|auto].
      rewrite Exy. cbn. now rewrite orb_comm.
    + cbn [sorted]. apply andb_true_intro; split; [|assumption]. apply forallb_forall. exact H.
Qed.

(** safety without typing of the result *)
Definition sf (t : ty) : Prop :=
  ty_ok t = true -> no_ptr t = true -> forall o, shape t o = true ->
  safe (up t o) (fun v => shape t v = true).
Definition sf_elem (t : ty) : Prop :=
  match t with TSeq te | TArr _ te => sf te | _ => True end.

Lemma Forall_forallb A (f : A -> bool) l : Forall (fun x => f x = true) l <-> forallb f l = true.
Proof. rewrite forallb_forall, Forall_forall. tauto. Qed.

Lemma up_safe_all :
  (forall t, sf t /\ sf_elem t) /\
  (forall ts, ty_ok_tys ts = true -> no_ptr_tys ts = true -> forall os, shape_tys ts os = true ->
     safe (up_tys ts os) (fun vs => shape_tys ts vs = true)) /\
  (forall fs, ty_ok_flds fs = true -> no_ptr_flds fs = true -> forall os, shape_flds fs os = true ->
     safe (up_flds fs os) (fun vs => shape_flds fs vs = true)) /\
  (forall p : ptab, True).
Proof.
  apply ty_mutind; auto.
  - (* TBasic *) intro n. split; [intros Ht Hn o Ho|exact I]. cbn [ty_ok] in Ht. bsplit.
    cbn [Codec_Model.up]. eapply safe_bind; [apply safe_popoff; now apply N.ltb_lt|].
    intros b _. now apply safe_ret.
  - split; [intros Ht Hn o Ho|exact I]. cbn [Codec_Model.up].
    eapply safe_bind; [apply safe_popoff; rewrite P63; lia|]. intros b _. now apply safe_ret.
  - (* TStr *) intro k. split; [intros Ht Hn o Ho|exact I]. cbn [ty_ok] in Ht. bsplit.
    cbn [Codec_Model.up]. eapply safe_bind; [apply safe_up64|]. intros size Hsz. cbn zeta.
    rewrite (N.mod_small (size + 1)) by (rewrite W_eq in *; lia).
    destruct (N.ltb_spec ((2 ^ 63 - 1) / k) (size + 1)) as [L|L]; [apply safe_throw|].
    assert (Hk : (k * (size + 1) <= 2^63 - 1)%N).
    { rewrite P63 in *. pose proof (N.mul_div_le (9223372036854775808 - 1) k ltac:(lia)). nia. }
    rewrite N.mod_small by (rewrite W_eq, P63 in *; nia).
    eapply safe_bind; [apply safe_unpackraw; rewrite P63 in *; nia|].
    intros b Lb. rewrite Lb. replace (k * (size + 1) <? k * size)%N with false by nia.
    replace (size + 1 =? 0)%N with false by lia. now apply safe_ret.
  - intro n. split; [intros Ht Hn o Ho|exact I]. cbn [ty_ok] in Ht.
    cbn [Codec_Model.up]. eapply safe_bind; [apply safe_unpackraw; now apply N.ltb_lt|].
    intros b _. now apply safe_ret.
  - (* TSeq *) intros t [IH _]. split; [intros Ht Hn o Ho|exact IH]. cbn [Codec_Model.up].
    eapply safe_bind; [apply safe_up64|]. intros sz _.
    eapply safe_bind; [apply safe_iterM with (I := fun _ _ => True); auto|
                       intros vs _; now apply safe_ret].
    intros k a _. eapply safe_bind; [apply IH; auto; apply shape_dflt|].
    intros x _. now apply safe_ret.
  - (* TArr *) intros n t [IH _]. split; [intros Ht Hn o Ho|exact IH].
    cbn [ty_ok no_ptr] in Ht, Hn. bsplit.
    destruct o as [| | |os| | | |]; try discriminate. cbn [shape] in Ho. bsplit.
    cbn [Codec_Model.up as_list].
    eapply safe_bind; [apply safe_up64|]. intros sz _.
    eapply safe_bind; [apply safe_up_list with (P := fun v => shape t v = true)|].
    + intros o Ho'. now apply IH.
    + now apply Forall_forallb.
    + intros vs [F L]. apply safe_ret. cbn [shape]. apply andb_true_intro; split.
      * now rewrite L.
      * now apply Forall_forallb.
  - (* TCArr *) intros n t [IH _]. split; [intros Ht Hn o Ho|exact I].
    cbn [ty_ok no_ptr] in Ht, Hn.
    destruct o as [| | |os| | | |]; try discriminate. cbn [shape] in Ho. bsplit.
    cbn [Codec_Model.up as_list].
    eapply safe_bind; [apply safe_up_list with (P := fun v => shape t v = true)|].
    + intros o Ho'. now apply IH.
    + now apply Forall_forallb.
    + intros vs [F L]. apply safe_ret. cbn [shape]. apply andb_true_intro; split.
      * now rewrite L.
      * now apply Forall_forallb.
  - (* TAssoc *) intros m c t [IH _]. split; [intros Ht Hn o Ho|exact I]. cbn [Codec_Model.up].
    eapply safe_bind; [apply safe_up64|]. intros sz _.
    eapply safe_bind; [apply safe_iterM with (I := fun _ _ => True); auto|
                       intros vs _; now apply safe_ret].
    intros k a _. eapply safe_bind; [apply IH; auto; apply shape_dflt|].
    intros x _. now apply safe_ret.
  - (* TPair *) intros a [IHa _] b [IHb _]. split; [intros Ht Hn o Ho|exact I].
    cbn [ty_ok no_ptr] in Ht, Hn. destruct o as [| | | |x y| | |]; try discriminate.
    cbn [shape] in Ho. bsplit. cbn [Codec_Model.up].
    eapply safe_bind; [now apply IHa|]. intros x' Hx.
    eapply safe_bind; [now apply IHb|]. intros y' Hy.
    apply safe_ret. cbn [shape]. now rewrite Hx, Hy.
  - (* TTup *) intros ts IH. split; [intros Ht Hn o Ho|exact I].
    destruct o; try discriminate. cbn [Codec_Model.up as_list].
    eapply safe_bind; [now apply IH|]. intros vs Hvs. now apply safe_ret.
  - intros fs IH. split; [intros Ht Hn o Ho|exact I].
    destruct o; try discriminate. cbn [Codec_Model.up as_list].
    eapply safe_bind; [now apply IH|]. intros vs Hvs. now apply safe_ret.
  - intros t _. split; [intros Ht Hn; discriminate|exact I].
  - intros t _. split; [intros Ht Hn; discriminate|exact I].
  - split; [intros Ht Hn; discriminate|exact I].
  - intros _ _ [|o os] Ho; [|discriminate]. now apply safe_ret.
  - intros t [IH _] ts IHs Ht Hn [|o os] Ho; [discriminate|].
    change (ty_ok t && ty_ok_tys ts = true) in Ht.
    change (no_ptr t && no_ptr_tys ts = true) in Hn.
    change (shape t o && shape_tys ts os = true) in Ho. bsplit.
    cbn [Codec_Model.up_tys]. eapply safe_bind; [now apply IH|]. intros x Hx.
    eapply safe_bind; [now apply IHs|]. intros r Hr. apply safe_ret.
    change (shape t x && shape_tys ts r = true). now rewrite Hx, Hr.
  - intros _ _ [|o os] Ho; [|discriminate]. now apply safe_ret.
  - intros k t [IH IHe] fs IHs Ht Hn [|o os] Ho; [destruct k; discriminate|].
    change (ty_ok t && ty_ok_flds fs = true) in Ht.
    change (no_ptr t && no_ptr_flds fs = true) in Hn.
    change (shape t o && shape_flds fs os = true) in Ho. bsplit.
    assert (REST : forall x, shape t x = true ->
      safe (r <- up_flds fs os ;; ret (x :: r)) (fun vs => shape_flds (FCons k t fs) vs = true)).
    { intros x Hx. eapply safe_bind; [now apply IHs|]. intros r Hr. apply safe_ret.
      change (shape t x && shape_flds fs r = true). now rewrite Hx, Hr. }
    destruct k.
    + cbn [Codec_Model.up_flds]. eapply safe_bind; [now apply IH|]. intros x Hx. now apply REST.
    + cbn [Codec_Model.up_flds]. now apply REST.
    + eapply safe_ext; [intro st; apply up_flds_const|].
      apply safe_bind with (P := fun _ => True); [|intros _ _; now apply REST].
      assert (G : safe (up t (dflt t) ;;; ret tt) (fun _ => True)).
      { eapply safe_bind; [apply IH; auto; apply shape_dflt|]. intros; now apply safe_ret. }
      unfold const_reader. destruct t as [| | | |te|n te| | | | | | | |]; try exact G;
        cbn [sf_elem] in IHe; cbn [ty_ok no_ptr] in *; bsplit;
        (eapply safe_bind; [apply safe_up64|]; intros sz _;
         eapply safe_bind;
         [apply safe_iterM with (I := fun _ v => shape te v = true);
          [intros j a Ha; now apply IHe|apply shape_dflt]
         |intros; now apply safe_ret]).
Qed.
End Codec.

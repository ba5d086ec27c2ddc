(** * Proofs: what reading such a document records *)
From Verif Require Import Base Base_Proofs SMap Dec Desc_Model Json_Model Json_Spec Xml_Model Xml_Spec Xml_Proofs Xml_Proofs2 XmlDoc_Spec XmlDoc_Proofs XmlDoc_Proofs2.

(** keys of the text of an element and of its attributes *)
Definition key (R : path) (o : option (list ascii)) : list ascii := match o with None => ks R | Some a => kc R a end.
Definition okkey (o : option (list ascii)) : Prop := match o with None => True | Some a => okname a end.
Definition val (t : item) (o : option (list ascii)) : option (list ascii) :=
  match o with None => nonempty (text_of t) | Some a => attr_val (attrs_of t) a end.
Lemma ks_kc : forall p q a, p <> [] -> goodp p -> goodp q -> okname a -> ks p <> kc q a.
Proof.
  intros p q a NE Gp Gq Oa E.
  assert (E2 : map comp p = map comp q ++ [a]) by (rewrite <- ks_split, <- kc_split by assumption; now rewrite E).
  destruct (@exists_last _ p NE) as (p' & x & ->). rewrite map_app in E2. cbn [map] in E2.
  apply app_inj_tail in E2 as [_ <-]. apply (name_notin (comp x) hash); [exact Oa|reflexivity|].
  unfold comp, idx. apply in_or_app. right. now left.
Qed.
Lemma key_inj : forall p q o o', p <> [] -> q <> [] -> goodp p -> goodp q -> okkey o -> okkey o' ->
  key p o = key q o' -> p = q /\ o = o'.
Proof.
  intros p q [a|] [b|] N1 N2 G1 G2 O1 O2 E; cbn [key okkey] in *.
  - apply kc_inj in E as [-> ->]; auto.
  - exfalso. symmetry in E. revert E. now apply ks_kc.
  - exfalso. revert E. now apply ks_kc.
  - apply ks_inj in E as ->; auto.
Qed.

(** attributes *)
Lemma arec_find : forall ats u a cm, u <> [] -> goodp u -> okname a -> Forall okattr ats ->
  mfind bcmp (kc u a) (arec (ks u) ats cm) = match attr_val ats a with Some v => Some v | None => mfind bcmp (kc u a) cm end.
Proof.
  induction ats as [|x ats IH]; intros u a cm NU Gu Oa HA; [reflexivity|].
  apply Forall_cons_iff in HA as [(_ & _ & Ox & _) HA]. unfold arec. cbn [fold_left attr_val].
  change (fold_left (set_attr (ks u)) ats (set_attr (ks u) cm x)) with (arec (ks u) ats (set_attr (ks u) cm x)).
  rewrite IH by assumption. destruct (attr_val ats a); [reflexivity|].
  unfold set_attr. rewrite (mfind_mset _ bcmp_eq). rewrite <- kc_cons by exact NU.
  change (bcmp (kc u a) (kc u (a_name x))) with (bcmp (kc u a) (kc u (a_name x))).
  destruct (beq (a_name x) a) eqn:B.
  - apply beq_eq in B as ->. pose proof (beq_refl (kc u a)) as R. unfold beq in R. now destruct (bcmp (kc u a) (kc u a)).
  - assert (NE : beq (kc u a) (kc u (a_name x)) = false).
    { apply beq_neq. intros E. apply kc_inj in E as [_ E]; auto. rewrite E, beq_refl in B. discriminate. }
    unfold beq in NE. now destruct (bcmp (kc u a) (kc u (a_name x))).
Qed.
Lemma arec_other : forall ats u s cm, u <> [] -> Forall okattr ats -> (forall a, okname a -> s <> kc u a) ->
  mfind bcmp s (arec (ks u) ats cm) = mfind bcmp s cm.
Proof.
  induction ats as [|x ats IH]; intros u s cm NU HA H; [reflexivity|].
  apply Forall_cons_iff in HA as [(_ & _ & Ox & _) HA]. unfold arec. cbn [fold_left].
  change (fold_left (set_attr (ks u)) ats (set_attr (ks u) cm x)) with (arec (ks u) ats (set_attr (ks u) cm x)).
  rewrite IH by assumption. unfold set_attr. rewrite (mfind_mset _ bcmp_eq). rewrite <- kc_cons by exact NU.
  assert (NE : beq s (kc u (a_name x)) = false) by (apply beq_neq; now apply H).
  unfold beq in NE. now destruct (bcmp s (kc u (a_name x))).
Qed.

Definition selt (t : item) (R : path) : option item :=
  match R with [] => Some t | (m, i) :: R' => at_path (items_of t) m i R' end.
Definition sel_in (l : list item) (m : list ascii) (i : N) (R : path) : option item :=
  match nth_el l m i with Some t => selt t R | None => None end.
Lemma at_path_in : forall l m i R, at_path l m i R = sel_in l m i R.
Proof. intros l m i [|[m' i'] R]; unfold sel_in; cbn [at_path selt]; reflexivity. Qed.

Definition Rec (t : item) : Prop := forall p cm tc cm' tc',
  is_el t = true -> okitem t -> goodp p ->
  let m := iname t in let k := cnt tc (kc p m) in let u := p ++ [(m, k)] in
  (forall R o, goodp R -> okkey o -> mfind bcmp (key (u ++ R) o) cm = None) ->
  (forall R n, goodp R -> okname n -> cnt tc (kc (u ++ R) n) = 0%N) ->
  erec (kc p m) t cm tc = (cm', tc') ->
  (forall R o, goodp R -> okkey o -> mfind bcmp (key (u ++ R) o) cm' =
     match selt t R with Some t' => val t' o | None => None end) /\
  (forall R n, goodp R -> okname n -> cnt tc' (kc (u ++ R) n) =
     match selt t R with Some t' => count_el (items_of t') n | None => 0%N end) /\
  cnt tc' (kc p m) = (k + 1)%N /\
  (forall s, (forall R o, goodp R -> okkey o -> s <> key (u ++ R) o) -> mfind bcmp s cm' = mfind bcmp s cm) /\
  (forall s, s <> kc p m -> (forall R n, goodp R -> okname n -> s <> kc (u ++ R) n) -> cnt tc' s = cnt tc s).
Definition Recs (l : list item) : Prop := forall u cm tc cm' tc',
  okitems l -> goodp u -> u <> [] ->
  (forall m i R o, okname m -> goodp R -> okkey o -> (cnt tc (kc u m) <= i)%N -> mfind bcmp (key (u ++ (m, i) :: R) o) cm = None) ->
  (forall m i R n, okname m -> goodp R -> okname n -> (cnt tc (kc u m) <= i)%N -> cnt tc (kc (u ++ (m, i) :: R) n) = 0%N) ->
  erecs (ks u) l cm tc = (cm', tc') ->
  (forall m i R o, okname m -> goodp R -> okkey o -> mfind bcmp (key (u ++ (m, i) :: R) o) cm' =
     if (i <? cnt tc (kc u m))%N then mfind bcmp (key (u ++ (m, i) :: R) o) cm
     else match sel_in l m (i - cnt tc (kc u m)) R with Some t' => val t' o | None => None end) /\
  (forall m i R n, okname m -> goodp R -> okname n -> cnt tc' (kc (u ++ (m, i) :: R) n) =
     if (i <? cnt tc (kc u m))%N then cnt tc (kc (u ++ (m, i) :: R) n)
     else match sel_in l m (i - cnt tc (kc u m)) R with Some t' => count_el (items_of t') n | None => 0%N end) /\
  (forall m, okname m -> cnt tc' (kc u m) = (cnt tc (kc u m) + count_el l m)%N) /\
  (forall s, (forall m i R o, okname m -> goodp R -> okkey o -> s <> key (u ++ (m, i) :: R) o) -> mfind bcmp s cm' = mfind bcmp s cm) /\
  (forall s, (forall n, okname n -> s <> kc u n) ->
     (forall m i R n, okname m -> goodp R -> okname n -> s <> kc (u ++ (m, i) :: R) n) -> cnt tc' s = cnt tc s).
Lemma count_cons : forall t l m, count_el (t :: l) m = ((if is_named m t then 1 else 0) + count_el l m)%N.
Proof. intros. unfold count_el. cbn [filter]. destruct (is_named m t); rewrite ?len_cons; lia. Qed.
Ltac good := repeat first [ assumption | apply goodp_app; split | apply goodp_cons; split | constructor ].

Lemma erecs_ok : forall l, Forall Rec l -> Recs l.
Proof.
  induction l as [|t l IH]; intros HR u cm tc cm' tc' HN Gu Nu F1 F2 E.
  - cbn [erecs] in E. injection E as <- <-.
    split; [|split; [|split; [|split]]].
    + intros m i R o Hm HR' Ho. destruct (i <? cnt tc (kc u m))%N eqn:L; [reflexivity|]. cbn. apply F1; auto. lia.
    + intros m i R n Hm HR' Hn. destruct (i <? cnt tc (kc u m))%N eqn:L; [reflexivity|]. cbn. apply F2; auto. lia.
    + intros m Hm. change (count_el [] m) with 0%N. lia.
    + reflexivity.
    + reflexivity.
  - apply Forall_cons_iff in HR as [HR1 HR2]. destruct HN as (HN1 & _ & HN2).
    cbn [erecs] in E. destruct (is_el t) eqn:ET.
    2:{ (* not an element *)
      assert (E1 : erec (ks u ++ dot :: iname t) t cm tc = (cm, tc)) by (now destruct t).
      rewrite E1 in E. destruct (IH HR2 u cm tc cm' tc' HN2 Gu Nu F1 F2 E) as (B1 & B2 & B3 & B4 & B5).
      assert (NN : forall m, is_named m t = false) by (intros m; now destruct t).
      split; [|split; [|split; [|split]]]; auto.
      - intros m i R o Hm HR' Ho. rewrite B1 by assumption. unfold sel_in. cbn [nth_el]. now rewrite NN.
      - intros m i R n Hm HR' Hn. rewrite B2 by assumption. unfold sel_in. cbn [nth_el]. now rewrite NN.
      - intros m Hm. rewrite B3, count_cons, NN by exact Hm. lia. }
    rewrite <- (kc_cons u (iname t) Nu) in E.
    destruct (erec (kc u (iname t)) t cm tc) as [cm1 tc1] eqn:E1.
    assert (Ot : okname (iname t)) by (destruct t; try discriminate; exact (proj1 HN1)).
    assert (NM : forall m, is_named m t = beq (iname t) m) by (intros m; destruct t; try discriminate; reflexivity).
    set (m0 := iname t) in *. set (k0 := cnt tc (kc u m0)) in *.
    assert (FR1 : forall R o, goodp R -> okkey o -> mfind bcmp (key ((u ++ [(m0, k0)]) ++ R) o) cm = None).
    { intros R o H Ho. rewrite <- app_assoc. apply F1; auto. unfold k0. lia. }
    assert (FR2 : forall R n, goodp R -> okname n -> cnt tc (kc ((u ++ [(m0, k0)]) ++ R) n) = 0%N).
    { intros R m H Hm. rewrite <- app_assoc. apply F2; auto. unfold k0. lia. }
    destruct (HR1 u cm tc cm1 tc1 ET HN1 Gu FR1 FR2 E1) as (A1 & A2 & A3 & A4 & A5).
    fold m0 k0 in A1, A2, A3, A4, A5.
    assert (CC : forall m, okname m -> cnt tc1 (kc u m) = (cnt tc (kc u m) + (if beq m0 m then 1 else 0))%N).
    { intros m Hm. destruct (beq m0 m) eqn:B.
      - apply beq_eq in B. subst m. exact A3.
      - rewrite A5; [lia| |].
        + intros C. apply kc_inj in C as [_ C]; auto. subst m. now rewrite beq_refl in B.
        + intros R n HR' Hn C. apply kc_inj in C as [C _]; auto; [|good].
          rewrite <- app_assoc in C. symmetry in C. rewrite <- (app_nil_r u) in C at 2. apply app_inv_head in C. discriminate. }
    assert (OC : forall m i R o, okname m -> goodp R -> okkey o -> (m, i) <> (m0, k0) ->
              mfind bcmp (key (u ++ (m, i) :: R) o) cm1 = mfind bcmp (key (u ++ (m, i) :: R) o) cm).
    { intros m i R o Hm HR' Ho N. apply A4. intros R' o' HR'' Ho' C. apply key_inj in C as [C _]; auto; [| | |good|good].
      - rewrite <- app_assoc in C. revert C. now apply path_neq.
      - apply app_ne.
      - rewrite <- app_assoc. apply app_ne. }
    assert (OT : forall m i R n, okname m -> goodp R -> okname n -> (m, i) <> (m0, k0) ->
              cnt tc1 (kc (u ++ (m, i) :: R) n) = cnt tc (kc (u ++ (m, i) :: R) n)).
    { intros m i R n Hm HR' Hn N. apply A5.
      - intros C. apply kc_inj in C as [C _]; auto; [|good].
        rewrite <- (app_nil_r u) in C at 2. apply app_inv_head in C. discriminate.
      - intros R' n' HR'' Hn' C. apply kc_inj in C as [C _]; auto; [|good|good].
        rewrite <- app_assoc in C. revert C. now apply path_neq. }
    assert (NQ : forall m i, okname m -> (cnt tc1 (kc u m) <= i)%N -> (m, i) <> (m0, k0) /\ (cnt tc (kc u m) <= i)%N).
    { intros m i Hm L. rewrite CC in L by exact Hm. split; [|lia]. intros C. injection C as -> ->.
      rewrite beq_refl in L. unfold k0 in L. lia. }
    destruct (IH HR2 u cm1 tc1 cm' tc' HN2 Gu Nu) as (B1 & B2 & B3 & B4 & B5).
    + intros m i R o Hm HR' Ho L. destruct (NQ m i Hm L) as [N1 N2]. rewrite OC by assumption. now apply F1.
    + intros m i R n Hm HR' Hn L. destruct (NQ m i Hm L) as [N1 N2]. rewrite OT by assumption. now apply F2.
    + exact E.
    + assert (X : forall m i, okname m ->
        (i <? cnt tc1 (kc u m))%N = (i <? cnt tc (kc u m))%N || (beq m0 m && (i =? k0)%N)).
      { intros m i Hm. rewrite CC by exact Hm. destruct (beq m0 m) eqn:B; cbn [andb].
        - apply beq_eq in B. subst m. fold k0. apply eq_true_iff_eq. rewrite orb_true_iff, !N.ltb_lt, N.eqb_eq. lia.
        - rewrite orb_false_r. f_equal. lia. }
      assert (Y : forall m i R, okname m -> (i <? cnt tc (kc u m))%N = false ->
        sel_in (t :: l) m (i - cnt tc (kc u m)) R =
        if beq m0 m && (i =? k0)%N then selt t R else sel_in l m (i - cnt tc1 (kc u m)) R).
      { intros m i R Hm L. rewrite CC by exact Hm. unfold sel_in. cbn [nth_el]. rewrite NM. destruct (beq m0 m) eqn:B; cbn [andb].
        - apply beq_eq in B. subst m. fold k0 in L |- *.
          destruct (N.eqb_spec i k0) as [->|N].
          + rewrite N.sub_diag. reflexivity.
          + replace (i - k0 =? 0)%N with false by lia. now replace (i - k0 - 1)%N with (i - (k0 + 1))%N by lia.
        - now rewrite N.add_0_r. }
      split; [|split; [|split; [|split]]].
      * intros m i R o Hm HR' Ho. rewrite B1, X by assumption.
        destruct (i <? cnt tc (kc u m))%N eqn:L; cbn [orb].
        -- apply OC; auto. intros C. injection C as -> ->. unfold k0 in L. lia.
        -- rewrite (Y m i R Hm L). destruct (beq m0 m && (i =? k0)%N) eqn:B; [|reflexivity].
           apply andb_prop in B as [B C]. apply beq_eq in B. apply N.eqb_eq in C. subst m i.
           specialize (A1 R o HR' Ho). rewrite <- app_assoc in A1. exact A1.
      * intros m i R n Hm HR' Hn. rewrite B2, X by assumption.
        destruct (i <? cnt tc (kc u m))%N eqn:L; cbn [orb].
        -- apply OT; auto. intros C. injection C as -> ->. unfold k0 in L. lia.
        -- rewrite (Y m i R Hm L). destruct (beq m0 m && (i =? k0)%N) eqn:B; [|reflexivity].
           apply andb_prop in B as [B C]. apply beq_eq in B. apply N.eqb_eq in C. subst m i.
           specialize (A2 R n HR' Hn). rewrite <- app_assoc in A2. exact A2.
      * intros m Hm. rewrite B3, CC, count_cons, NM by exact Hm. lia.
      * intros s Hs. rewrite B4 by exact Hs. apply A4. intros R o HR' Ho. rewrite <- app_assoc. apply Hs; auto.
      * intros s Hs Hs2. rewrite B5 by assumption. apply A5; [now apply Hs|].
        intros R n HR' Hn. rewrite <- app_assoc. now apply Hs2.
Qed.

Lemma erec_ok : forall t, Rec t.
Proof.
  apply item_ind2; try (intros; intros ? ? ? ? ? H; discriminate H).
  intros n ats w e l w' IH p cm tc cm' tc' _ O Gp m k u F1 F2 E. rewrite erec_el in E. cbv zeta in E.
  apply okitem_el in O as (Hn & HA & _ & _ & _ & HK).
  change (iname (IElem n ats w e l w')) with n in *. subst m. fold k in E.
  set (t := IElem n ats w e l w').
  assert (Gu : goodp u) by (unfold u; good).
  assert (Nu : u <> []) by apply app_ne.
  assert (Eu : idx (kc p n) k = ks u) by (unfold u; now rewrite ks_snoc).
  rewrite Eu in E.
  destruct (erecs (ks u) l (arec (ks u) ats cm) (mset bcmp (kc p n) (k + 1)%N tc)) as [cm1 tc1] eqn:ER.
  injection E as <- <-.
  assert (Nk : forall R n', goodp R -> okname n' -> kc (u ++ R) n' <> kc p n).
  { intros R n' HR Hn' C. apply kc_inj in C as [C _]; auto; [|good]. unfold u in C. rewrite <- app_assoc in C.
    rewrite <- (app_nil_r p) in C at 2. apply app_inv_head in C. discriminate. }
  assert (C0 : forall R m, goodp R -> okname m -> cnt (mset bcmp (kc p n) (k + 1)%N tc) (kc (u ++ R) m) = 0%N).
  { intros R m HR Hm. rewrite cnt_mset, beq_neq by (now apply Nk). now apply F2. }
  assert (C1 : forall m, okname m -> cnt (mset bcmp (kc p n) (k + 1)%N tc) (kc u m) = 0%N).
  { intros m Hm. specialize (C0 [] m ltac:(constructor) Hm). now rewrite app_nil_r in C0. }
  assert (NU : forall m i R, u ++ (m, i) :: R <> u).
  { intros m i R C. rewrite <- (app_nil_r u) in C at 2. apply app_inv_head in C. discriminate. }
  assert (C2 : forall m i R o, okname m -> goodp R -> okkey o -> mfind bcmp (key (u ++ (m, i) :: R) o) (arec (ks u) ats cm) = None).
  { intros m i R o Hm HR Ho. rewrite arec_other; [apply F1; [now constructor|exact Ho]|exact Nu|exact HA|].
    intros a Ha C. change (kc u a) with (key u (Some a)) in C. apply key_inj in C as [C _]; auto; [now apply NU in C|apply app_ne|good]. }
  assert (C3 : forall m i R n', okname m -> goodp R -> okname n' ->
     cnt (mset bcmp (kc p n) (k + 1)%N tc) (kc (u ++ (m, i) :: R) n') = 0%N).
  { intros m i R n' Hm HR Hn'. apply C0; [now constructor|exact Hn']. }
  destruct (erecs_ok l IH u _ _ cm1 tc1 HK Gu Nu (fun m i R o a b c _ => C2 m i R o a b c)
              (fun m i R n' a b c _ => C3 m i R n' a b c) ER) as (A1 & A2 & A3 & A4 & A5).
  split; [|split; [|split; [|split]]].
  * intros R o HR Ho. destruct R as [|[m i] R].
    -- rewrite app_nil_r. cbn [selt].
       assert (U : mfind bcmp (key u o) cm1 = mfind bcmp (key u o) (arec (ks u) ats cm)).
       { apply A4. intros m i R o' Hm HR' Ho' C. apply key_inj in C as [C _]; auto; [now apply (NU m i R)|apply app_ne|good]. }
       assert (F1' : mfind bcmp (key u o) cm = None) by (specialize (F1 [] o ltac:(constructor) Ho); now rewrite app_nil_r in F1).
       rewrite mfind_put. destruct o as [a|]; cbn [key val okkey] in *.
       ++ rewrite beq_neq by (intros C; symmetry in C; revert C; now apply ks_kc). rewrite U, arec_find by assumption.
          unfold t. cbn [attrs_of]. rewrite F1'. now destruct (attr_val ats a).
       ++ rewrite beq_refl. unfold t, text_of. cbn [items_of]. destruct (concat (map itext l)); [|reflexivity].
          cbn [nonempty]. rewrite U, arec_other; auto. intros a Ha. now apply ks_kc.
    -- apply goodp_cons in HR as [Hm HR]. cbn [fst] in Hm. rewrite mfind_put, beq_neq.
       ++ rewrite A1 by assumption. rewrite C1 by assumption. replace (i <? 0)%N with false by lia. rewrite N.sub_0_r.
          cbn [selt]. unfold t. cbn [items_of]. now rewrite at_path_in.
       ++ intros C. change (ks u) with (key u None) in C. apply key_inj in C as [C _]; auto; [now apply NU in C|apply app_ne|good|exact I].
  * intros R n' HR Hn'. destruct R as [|[m i] R].
    -- rewrite app_nil_r, A3, C1 by assumption. reflexivity.
    -- apply goodp_cons in HR as [Hm HR]. cbn [fst] in Hm. rewrite A2, C1 by assumption.
       replace (i <? 0)%N with false by lia. rewrite N.sub_0_r. cbn [selt]. unfold t. cbn [items_of]. now rewrite at_path_in.
  * rewrite A5.
    -- rewrite cnt_mset, beq_refl. reflexivity.
    -- intros m Hm C. specialize (Nk [] m ltac:(constructor) Hm). rewrite app_nil_r in Nk. congruence.
    -- intros m i R n' Hm HR Hn' C. symmetry in C. revert C. apply Nk; [now constructor|exact Hn'].
  * intros s Hs. rewrite mfind_put, beq_neq.
    -- rewrite A4; [|intros m i R o Hm HR Ho; apply Hs; [now constructor|exact Ho]].
       apply arec_other; auto. intros a Ha. specialize (Hs [] (Some a) ltac:(constructor) Ha). now rewrite app_nil_r in Hs.
    -- specialize (Hs [] None ltac:(constructor) I). now rewrite app_nil_r in Hs.
  * intros s Hs Hs2. rewrite A5.
    -- rewrite cnt_mset, beq_neq by exact Hs. reflexivity.
    -- intros m Hm. specialize (Hs2 [] m ltac:(constructor) Hm). now rewrite app_nil_r in Hs2.
    -- intros m i R n' Hm HR Hn'. apply Hs2; [now constructor|exact Hn'].
Qed.

Theorem parse_records : forall ps t rest, Forall okpro ps -> is_el t = true -> okitem t ->
  exists cm tc, parse (concat (map rpro ps) ++ ritem t ++ rest) [] [] = POk (cm, tc) /\ records_el t cm tc.
Proof.
  intros ps t rest HP HT HO. rewrite parse_item by assumption.
  destruct (erec (iname t) t [] []) as [cm tc] eqn:E. exists cm, tc. split; [reflexivity|].
  assert (Ot : okname (iname t)) by (destruct t; try discriminate; exact (proj1 HO)).
  assert (NM : forall m, is_named m t = beq (iname t) m) by (intros m; destruct t; try discriminate; reflexivity).
  destruct (erec_ok t [] [] [] cm tc HT HO) as (A1 & A2 & A3 & A4 & A5);
    [constructor|reflexivity|reflexivity|exact E|].
  change (cnt [] (kc [] (iname t))) with 0%N in *. cbn [app] in *.
  assert (SEL : forall m i R, select [t] ((m, i) :: R) = if beq (iname t) m && (i =? 0)%N then selt t R else None).
  { intros m i R. cbn [select]. rewrite at_path_in. unfold sel_in. cbn [nth_el]. rewrite NM. destruct (beq (iname t) m); [|reflexivity].
    destruct (i =? 0)%N; reflexivity. }
  assert (KEY : forall R o, goodp R -> R <> [] -> okkey o -> mfind bcmp (key R o) cm =
     match select [t] R with Some t' => val t' o | None => None end).
  { intros [|[m i] R] o HR NE Ho; [congruence|]. apply goodp_cons in HR as [Hm HR]. cbn [fst] in Hm. rewrite SEL.
    destruct (beq (iname t) m && (i =? 0)%N) eqn:B.
    - apply andb_prop in B as [B C]. apply beq_eq in B. apply N.eqb_eq in C. subst m i. now apply A1.
    - rewrite A4; [reflexivity|]. intros R' o' HR' Ho' C. apply key_inj in C as [C _]; [|try discriminate; good..].
      injection C as -> -> _. now rewrite beq_refl in B. }
  split; [|split; [|split; [|split]]].
  - intros R HR NE. exact (KEY R None HR NE I).
  - intros R a HR NE Ha. rewrite <- kc_cons by exact NE. exact (KEY R (Some a) HR NE Ha).
  - intros n Hn. rewrite count_cons. change (count_el [] n) with 0%N. rewrite NM. destruct (beq (iname t) n) eqn:B.
    + apply beq_eq in B. subst n. exact A3.
    + rewrite A5; [reflexivity| |].
      * intros C. change (kc [] (iname t)) with (iname t) in C. subst n. now rewrite beq_refl in B.
      * intros R' n' HR' Hn' C. change n with (kc [] n) in C. apply kc_inj in C as [C _]; [discriminate|good..].
  - intros [|[m i] R] n HR NE Hn; [congruence|]. rewrite <- kc_cons by exact NE. apply goodp_cons in HR as [Hm HR]. cbn [fst] in Hm. rewrite SEL.
    destruct (beq (iname t) m && (i =? 0)%N) eqn:B.
    + apply andb_prop in B as [B C]. apply beq_eq in B. apply N.eqb_eq in C. subst m i. now apply A2.
    + rewrite A5; [reflexivity| |].
      * intros C. apply kc_inj in C as [C _]; [discriminate|good..].
      * intros R' n' HR' Hn' C. apply kc_inj in C as [C _]; [|good..].
        injection C as -> -> _. now rewrite beq_refl in B.
  - intros s H1 H2. rewrite A4; [reflexivity|]. intros R [a|] HR Ho; cbn [key].
    + rewrite kc_cons by discriminate. apply H2; [good|discriminate|exact Ho].
    + apply H1; [good|discriminate].
Qed.

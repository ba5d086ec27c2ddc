(** * Proofs about the JSON descriptor: unpacking *)
From Verif Require Import Base Base_Proofs SMap Desc_Model Desc_Props Json_Model Json_Spec Json_Proofs.
Ltac Zify.zify_post_hook ::= Z.div_mod_to_equations.

Lemma wrap_id : forall w sgn bits z, intty w sgn bits = true -> inrange sgn bits z ->
  wrap sgn bits (wrap_via w z) = z.
Proof.
  intros w sgn bits z H R. unfold intty in H.
  assert (B : (bits = 8 \/ bits = 16 \/ bits = 32 \/ bits = 64)%Z) by (destruct w, sgn; lia).
  destruct B as [->|[->|[->| ->]]]; destruct w, sgn; try discriminate H; clear H;
    unfold inrange in R; cbn in R; unfold wrap, wrap_via, wrap; cbn [Z.sub Z.pow Z.pow_pos Pos.iter Z.mul Z.opp Z.pos_sub];
    repeat match goal with |- context [(2 ^ ?n)%Z] => let v := eval vm_compute in (2 ^ n)%Z in change (2 ^ n)%Z with v end;
    lia.
Qed.

Lemma ek_sym_in : forall ks z, In z (map snd ks) -> In (ek_sym (ek_make ks) z) (map fst ks).
Proof.
  intros ks z H. unfold ek_sym, ek_make. rewrite mfind_fold_v.
  destruct (find _ (rev ks)) as [[s v]|] eqn:E.
  - apply find_some in E as [E _]. apply in_rev in E. apply in_map_iff. exists (s, v). auto.
  - exfalso. apply in_map_iff in H as ([s v] & <- & I). apply in_rev in I.
    pose proof (find_none _ _ E _ I) as H. cbn in H. now rewrite Z.eqb_refl in H.
Qed.
Lemma filter_id : forall s, Forall (fun c => isspace c = false) s -> filter (fun c => negb (isspace c)) s = s.
Proof.
  induction s as [|c s IH]; intros H; cbn; [reflexivity|]. apply Forall_cons_iff in H as [H1 H2].
  rewrite H1. cbn. now rewrite IH.
Qed.

Section Unpack.
Variable klt : nat -> jval -> jval -> bool.
Variable narrow : N -> N.
Variable i2d : Z -> N.
Notation ht := (ht klt narrow).
Notation ht_flds := (ht_flds klt narrow).
Notation ht_alts := (ht_alts klt narrow).
Notation unpack := (unpack klt narrow i2d).
Notation unpack_flds := (unpack_flds klt narrow i2d).
Notation unpack_alts := (unpack_alts klt narrow i2d).
Notation unpack_leaf := (unpack_leaf narrow i2d).

Lemma shape_dflt_all : (forall t, shape t (dflt t)) /\ (forall ts, shape_tys ts (dflt_tys ts)) /\
  (forall fs, shape_flds fs (dflt_flds fs)) /\ (forall als : alts, True).
Proof.
  apply jty_mutind; try (intros; exact I).
  - intros [n|] t IH; cbn; [|auto]. split; [|apply repeat_length].
    apply Forall_forall. intros x Hx. apply repeat_spec in Hx. now subst.
  - intros ds t IH. cbn. split; [|apply repeat_length].
    apply Forall_forall. intros x Hx. apply repeat_spec in Hx. now subst.
  - intros a IHa b IHb. cbn. auto.
  - intros ts IH. exact IH.
  - intros fs IH. exact IH.
  - intros t IHt ts IH. cbn. auto.
  - intros n t IHt fs IH. cbn. auto.
Qed.
Lemma shape_dflt : forall t, shape t (dflt t).
Proof. exact (proj1 shape_dflt_all). Qed.

Definition Pu (t : jty) : Prop := forall top v te x cs a,
  wf top t -> ht t v -> (top = true <-> cs = []) -> Forall good cs ->
  walk x cs = FOk (enc t v) -> shape t a -> unpack te t x (pstr cs) a = JOk v.

Fixpoint fields_in (fs : flds) (l : list jval) (m : list (list ascii * jv)) : Prop :=
  match fs, l with
  | FCons n t fs', v :: l' => mfind bcmp n m = Some (enc t v) /\ fields_in fs' l' m
  | _, _ => True
  end.
Definition Puf (fs : flds) : Prop := forall l te x cs a m,
  wf_flds fs -> ht_flds fs l -> Forall good cs -> walk x cs = FOk (JObj m) -> fields_in fs l m ->
  shape_flds fs a -> unpack_flds te fs x (pstr cs) a = JOk l.
Definition Pua (als : alts) : Prop := forall tag l te m,
  wf_alts als -> ht_alts als tag l ->
  JObj m = JObj (enc_alts als tag l [(bs "type", JStr tag)]) ->
  unpack_alts te als tag (JObj m) [] = JOk (VPoly tag l) /\ mfind bcmp (bs "type") m = Some (JStr tag).

Lemma enc_flds_other : forall fs l kvs n, ~ In n (fnames fs) ->
  mfind bcmp n (enc_flds fs l kvs) = mfind bcmp n kvs.
Proof.
  induction fs as [|n0 t0 fs IH]; intros l kvs n H; [reflexivity|].
  destruct l as [|v l]; [reflexivity|]. cbn [enc_flds]. cbn [fnames] in H.
  rewrite IH by (intros C; apply H; now right). apply (mfind_mset_other _ bcmp_eq).
  intros ->. apply H. now left.
Qed.
Lemma enc_flds_in : forall fs l kvs, NoDup (fnames fs) -> fields_in fs l (enc_flds fs l kvs).
Proof.
  induction fs as [|n0 t0 fs IH]; intros l kvs ND; [exact I|].
  destruct l as [|v l]; [exact I|]. cbn [enc_flds fields_in]. cbn [fnames] in ND.
  apply NoDup_cons_iff in ND as [N1 N2]. split.
  - rewrite enc_flds_other by exact N1. apply (mfind_mset_same _ bcmp_eq).
  - now apply IH.
Qed.

Lemma unseq_ok : forall (f : jv -> jval -> jr jval) (e : jval -> jv) (S : jval -> Prop) l vals,
  Forall (fun x => forall a, S a -> f (e x) a = JOk x) l -> Forall S vals -> length vals = length l ->
  unseq f (map e l) vals = JOk l.
Proof.
  induction l as [|x l IH]; intros vals H HS L; destruct vals as [|a vals]; try discriminate L; cbn; [reflexivity|].
  apply Forall_cons_iff in H as [H1 H2]. apply Forall_cons_iff in HS as [S1 S2].
  rewrite H1 by exact S1. cbn. rewrite IH; auto.
Qed.
Lemma nest_hd : forall ds l l', prod ds <> 0 -> prod ds <= length l -> nest ds (l ++ l') = nest ds l.
Proof.
  induction ds as [|n ds IH]; intros l l' NZ L; cbn [nest].
  - destruct l; [cbn in L; lia|reflexivity].
  - cbn [prod fold_right] in NZ, L. fold (prod ds) in *. f_equal. apply map_ext_in. intros i Hi.
    apply in_seq in Hi. rewrite skipn_app.
    assert (i * prod ds + prod ds <= n * prod ds) by nia.
    replace (i * prod ds - length l) with 0 by lia. cbn [skipn].
    apply IH; [nia|]. rewrite skipn_length. lia.
Qed.
Lemma unisarray_ok : forall (f : jv -> jval -> jr jval) (e : jval -> jv) (S : jval -> Prop) ds l vals,
  Forall (fun x => forall a, S a -> f (e x) a = JOk x) l -> Forall S vals ->
  length vals = prod ds -> length l = prod ds ->
  unisarray f ds (nest ds (map e l)) vals = JOk l.
Proof.
  intros f e S. induction ds as [|n ds IH]; intros l vals H HS L1 L2.
  - cbn in L1, L2. destruct l as [|x [|]]; try discriminate L2. destruct vals as [|a [|]]; try discriminate L1.
    cbn. apply Forall_cons_iff in H as [H _]. apply Forall_cons_iff in HS as [HS _]. now rewrite H.
  - cbn [nest unisarray]. change (fold_right Nat.mul 1 ds) with (prod ds).
    cbn [prod fold_right] in L1, L2. fold (prod ds) in L1, L2.
    assert (G : forall k l vals, Forall (fun x => forall a, S a -> f (e x) a = JOk x) l -> Forall S vals ->
       length vals = k * prod ds -> length l = k * prod ds ->
       (fix loop (k : nat) (l : list jv) (vals : list jval) : jr (list jval) :=
             match k with
             | O => JOk []
             | S k' => match l with
                       | [] => JUB
                       | y :: l' => r <~ unisarray f ds y (firstn (prod ds) vals) ;;
                                    rs <~ loop k' l' (skipn (prod ds) vals) ;; JOk (r ++ rs)
                       end
             end) k (map (fun i => nest ds (skipn (i * prod ds) (map e l))) (seq 0 k)) vals = JOk l).
    { clear l vals H HS L1 L2. induction k as [|k IHk]; intros l vals H HS L1 L2.
      - cbn in *. destruct l; [reflexivity|discriminate].
      - cbn [seq map]. cbn [Nat.mul skipn]. cbn [Nat.mul] in L1, L2.
        assert (F1 : nest ds (map e l) = nest ds (map e (firstn (prod ds) l))).
        { destruct (prod ds) eqn:EP.
          - cbn [firstn]. assert (l = []) as -> by (destruct l; [reflexivity|cbn in L2; lia]). reflexivity.
          - rewrite <- EP in *. rewrite <- (firstn_skipn (prod ds) l) at 1. rewrite map_app. apply nest_hd; [lia|].
            rewrite map_length, firstn_length. lia. }
        rewrite F1, IH.
        + cbn [jbind]. rewrite <- seq_shift, map_map.
          assert (F2 : map (fun i => nest ds (skipn (Datatypes.S i * prod ds) (map e l))) (seq 0 k) =
                       map (fun i => nest ds (skipn (i * prod ds) (map e (skipn (prod ds) l)))) (seq 0 k)).
          { apply map_ext. intros i. f_equal. rewrite <- skipn_map, skipn_skipn. f_equal. lia. }
          rewrite F2, IHk.
          * cbn [jbind]. rewrite firstn_skipn. reflexivity.
          * apply Forall_forall. intros x Hx. rewrite Forall_forall in H. apply H.
            rewrite <- (firstn_skipn (prod ds) l), in_app_iff. now right.
          * apply Forall_forall. intros x Hx. rewrite Forall_forall in HS. apply HS.
            rewrite <- (firstn_skipn (prod ds) vals), in_app_iff. now right.
          * rewrite skipn_length. lia.
          * rewrite skipn_length. lia.
        + apply Forall_forall. intros x Hx. rewrite Forall_forall in H. apply H.
          rewrite <- (firstn_skipn (prod ds) l), in_app_iff. now left.
        + apply Forall_forall. intros x Hx. rewrite Forall_forall in HS. apply HS.
          rewrite <- (firstn_skipn (prod ds) vals), in_app_iff. now left.
        + rewrite firstn_length. lia.
        + rewrite firstn_length. lia. }
    destruct n as [|n].
    + cbn in L2. destruct l; [reflexivity|discriminate].
    + exact (G (Datatypes.S n) l vals H HS L1 L2).
Qed.
Lemma ins_last : forall multi c x acc,
  Forall (fun y => klt c x y = false /\ (multi = true \/ klt c y x = true)) acc ->
  ins klt multi c x acc = acc ++ [x].
Proof.
  induction acc as [|y acc IH]; intros H; cbn [ins app]; [reflexivity|].
  apply Forall_cons_iff in H as [[H1 H2] H3]. rewrite H1.
  replace (klt c y x || multi) with true; [now rewrite IH|].
  destruct H2 as [->| ->]; [now rewrite orb_true_r|reflexivity].
Qed.
Lemma fop_app : forall {A} (R : A -> A -> Prop) l1 l2, ForallOrdPairs R (l1 ++ l2) ->
  forall x y, In x l1 -> In y l2 -> R x y.
Proof.
  induction l1 as [|a l1 IH]; intros l2 H x y Hx Hy; [contradiction|].
  cbn in H. inversion H as [|? ? H1 H2]; subst. destruct Hx as [->|Hx].
  - rewrite Forall_forall in H1. apply H1, in_app_iff. now right.
  - eauto.
Qed.
Lemma assoc_ok : forall multi c t rest acc, Pu t -> wf true t -> Forall (ht t) rest ->
  ordered klt multi c (acc ++ rest) ->
  (fix loop (l : list jv) (acc : list jval) : jr (list jval) :=
     match l with
     | [] => JOk acc
     | y :: l' => v <~ unpack false t y [] (dflt t) ;; loop l' (ins klt multi c v acc)
     end) (map (enc t) rest) acc = JOk (acc ++ rest).
Proof.
  intros multi c t rest. induction rest as [|x rest IH]; intros acc P W H O.
  - cbn. now rewrite app_nil_r.
  - cbn [map]. apply Forall_cons_iff in H as [H1 H2].
    change (@nil ascii) with (pstr []).
    rewrite (P true x false (enc t x) [] (dflt t)); auto using shape_dflt; [|split; auto].
    cbn [jbind]. rewrite ins_last.
    + change (pstr []) with (@nil ascii). rewrite IH; auto.
      * f_equal. rewrite <- app_assoc. reflexivity.
      * rewrite <- app_assoc. exact O.
    + apply Forall_forall. intros y Hy. unfold ordered in O.
      apply (fop_app _ _ _ O y x Hy). now left.
Qed.
Lemma sorted_lt : forall (kvs : list (list ascii * jval)) k x, msorted bcmp ((k, x) :: kvs) ->
  forall a, In a (map fst kvs) -> bcmp k a = Lt.
Proof.
  induction kvs as [|[k1 v1] kvs IH]; intros k x HS a Ha; [contradiction|].
  cbn [msorted] in HS. destruct HS as [H1 H2]. destruct Ha as [<-|Ha]; [exact H1|].
  eapply bcmp_trans; [exact H1|]. exact (IH k1 v1 H2 a Ha).
Qed.
Lemma map_find : forall t (kvs : list (list ascii * jval)) k x, msorted bcmp kvs -> In (k, x) kvs ->
  mfind bcmp k (map (fun p => (fst p, enc t (snd p))) kvs) = Some (enc t x).
Proof.
  induction kvs as [|[k1 v1] kvs IH]; intros k x HS Hi; [contradiction|].
  cbn [map fst snd mfind]. destruct Hi as [Hi|Hi].
  - injection Hi as -> ->. now rewrite (cmp_refl _ bcmp_eq).
  - assert (L : bcmp k1 k = Lt). { eapply sorted_lt; [exact HS|]. apply in_map_iff. exists (k, x). auto. }
    rewrite bcmp_antisym, L. cbn. apply IH; [apply HS|exact Hi].
Qed.
Lemma unmap_ok : forall te t x cs m rest acc, Pu t -> wf false t -> Forall good cs ->
  walk x cs = FOk (JObj (map (fun p => (fst p, enc t (snd p))) m)) -> msorted bcmp m ->
  m = acc ++ rest -> Forall (fun p => nodot (fst p) /\ fst p <> [] /\ ht t (snd p)) rest ->
  (fix loop (l : list (list ascii * jv)) (acc : list (list ascii * jval)) :=
     match l with
     | [] => JOk acc
     | (k, _) :: l' => v <~ unpack te t x (pstr cs ++ dot :: k) (dflt t) ;; loop l' (mset bcmp k v acc)
     end) (map (fun p => (fst p, enc t (snd p))) rest) acc = JOk m.
Proof.
  intros te t x cs m rest. induction rest as [|[k v] rest IH]; intros acc P W G Hw HS Hm H.
  - cbn. rewrite Hm, app_nil_r. reflexivity.
  - cbn [map fst snd]. apply Forall_cons_iff in H as [(Hk & Hne & Hv) H]. cbn [fst snd] in *.
    rewrite <- pstr_snoc. rewrite (P false v); auto using shape_dflt.
    + cbn [jbind]. rewrite (mset_last _ bcmp_eq).
      * apply IH; auto. rewrite Hm, <- app_assoc. reflexivity.
      * intros k' Hk'. rewrite bcmp_antisym. replace (bcmp k' k) with Lt; [reflexivity|symmetry].
        rewrite Hm in HS. clear - HS Hk'. induction acc as [|[k1 v1] acc IH]; [contradiction|].
        destruct Hk' as [<-|Hk'].
        -- cbn [fst]. eapply (sorted_lt (acc ++ (k, v) :: rest)); [exact HS|].
           rewrite map_app, in_app_iff. right. now left.
        -- apply IH; [|exact Hk']. apply HS.
    + split; [discriminate|]. now destruct cs.
    + apply Forall_app. split; [exact G|]. constructor; [split; assumption|constructor].
    + rewrite walk_app, Hw. rewrite (map_find t m k v); auto. rewrite Hm. apply in_app_iff. right. now left.
Qed.

Lemma unpack_struct_eq : forall te fs x d l,
  unpack te (TStruct fs) x d (VL l) = (r <~ unpack_flds te fs x d l ;; JOk (VL r)).
Proof. reflexivity. Qed.
Lemma unpack_alts_eq : forall te tg fs als tag x d,
  unpack_alts te (ACons tg fs als) tag x d =
  if beq tg tag then (r <~ unpack_flds te fs x d (dflt_flds fs) ;; JOk (VPoly tag r))
  else unpack_alts te als tag x d.
Proof. reflexivity. Qed.
Lemma unpack_flds_eq : forall te n t fs x d v l,
  unpack_flds te (FCons n t fs) x d (v :: l) =
  (r <~ unpack te t x (d ++ dot :: n) v ;; rs <~ unpack_flds te fs x d l ;; JOk (r :: rs)).
Proof. reflexivity. Qed.

Lemma unpack_poly_eq : forall te als kvs d a,
  unpack te (TPoly als) (JObj kvs) d a =
  match mfind bcmp (bs "type") kvs with
  | Some _ =>
      r <~ unpack_leaf te TStr (JObj kvs) (d ++ type_) (VS []) ;;
      match r with VS tag => unpack_alts te als tag (JObj kvs) d | _ => JUB end
  | None => JOk VNul
  end.
Proof. reflexivity. Qed.

Lemma unpack_all : (forall t, Pu t) /\ (forall ts : tys, True) /\ (forall fs, Puf fs) /\ (forall als, Pua als).
Proof.
  apply jty_mutind; try (intros; exact I).
  1-6: intros; intros top v te x cs a W H T G Hw S; destruct v; try contradiction;
    cbn [Json_Model.unpack]; unfold Json_Model.unpack_leaf, find_or;
    rewrite find_pstr by (now apply good_nodot); rewrite Hw; cbn [enc get_value hd]; try reflexivity.
  - now rewrite wrap_id.
  - cbn in H. now rewrite H.
  - intros ks top v te x cs a W H T G Hw S. destruct v; try contradiction.
    cbn [Json_Model.unpack]. unfold Json_Model.unpack_leaf, find_or.
    rewrite find_pstr by (now apply good_nodot). rewrite Hw. cbn [enc get_value jbind].
    destruct W as [W1 W2]. rewrite filter_id.
    + rewrite C33_value_symbol_value; auto.
    + pose proof (ek_sym_in _ _ H) as Hi. rewrite Forall_forall in W2.
      apply in_map_iff in Hi as (p & <- & Hp). now apply W2.
  - intros fx t IH top v te x cs a W H T G Hw S. destruct v; try contradiction.
    destruct a; try contradiction. rename l0 into vals. destruct S as [S1 S2], H as [H1 H2].
    cbn [Json_Model.unpack]. unfold find_or. rewrite find_pstr by (now apply good_nodot). rewrite Hw. cbn [enc].
    rewrite (unseq_ok _ (enc t) (shape t)); [reflexivity|..].
    + eapply Forall_impl; [|exact H1]. intros v Hv a Ha. apply (IH true v false (enc t v) [] a); auto. split; auto.
    + destruct fx; [exact S1|]. apply Forall_forall. intros y Hy.
      assert (Hy' : In y (vals ++ repeat (dflt t) (length (map (enc t) l)))).
      { rewrite <- (firstn_skipn (length (map (enc t) l)) (vals ++ _)), in_app_iff. now left. }
      apply in_app_iff in Hy' as [Hy'|Hy'].
      * rewrite Forall_forall in S1. auto.
      * apply repeat_spec in Hy'. subst. apply shape_dflt.
    + destruct fx; [lia|]. rewrite firstn_length, app_length, repeat_length, map_length. lia.
  - intros ds t IH top v te x cs a W H T G Hw S. destruct v; try contradiction.
    destruct a; try contradiction. rename l0 into vals. destruct S as [S1 S2], H as [H1 H2].
    destruct W as (W1 & W2 & W3).
    cbn [Json_Model.unpack]. unfold find_or. rewrite find_pstr by (now apply good_nodot). rewrite Hw. cbn [enc].
    destruct ds as [|n ds]; [congruence|].
    assert (EQ : unisarray (fun y v => unpack false t y [] v) (n :: ds) (nest (n :: ds) (map (enc t) l)) vals = JOk l).
    { apply (unisarray_ok _ (enc t) (shape t)); auto.
      eapply Forall_impl; [|exact H1]. intros v Hv a Ha. apply (IH true v false (enc t v) [] a); auto. split; auto. }
    cbn [nest] in EQ |- *. rewrite EQ. reflexivity.
  - intros mu c t IH top v te x cs a W H T G Hw S. destruct v; try contradiction. destruct H as [H1 H2].
    cbn [Json_Model.unpack]. unfold find_or. rewrite find_pstr by (now apply good_nodot). rewrite Hw. cbn [enc].
    rewrite (assoc_ok mu c t l []); auto.
  - intros ta IHa tb IHb top v te x cs a W H T G Hw S. destruct v; try contradiction. destruct a; try contradiction.
    destruct W as (Wt & Wa & Wb), H as [Ha Hb], S as [Sa Sb]. assert (C : cs = []) by now apply T. subst cs.
    cbn [walk] in Hw. injection Hw as ->. cbn [Json_Model.unpack enc].
    change (pstr [] ++ first_) with (pstr [bs "first"]). change (pstr [] ++ second_) with (pstr [bs "second"]).
    rewrite (IHa false v1); auto; cbn [jbind].
    + rewrite (IHb false v2); auto.
      * split; discriminate.
      * constructor; [now apply good_lit|constructor].
    + split; discriminate.
    + constructor; [now apply good_lit|constructor].
  - intros ts _ top v te x cs a W. contradiction.
  - intros fs IH top v te x cs a W H T G Hw S. destruct v; try contradiction. destruct a; try contradiction.
    rewrite unpack_struct_eq. destruct W as [W1 W2]. cbn [enc] in Hw.
    rewrite (IH l te x cs l0 _ W2 H G Hw); [reflexivity|now apply enc_flds_in|exact S].
  - intros t IH top v te x cs a W H T G Hw S. destruct v; try contradiction; cbn [Json_Model.unpack].
    + cbn [Json_Spec.ht] in H. cbn [enc] in Hw.
      destruct t; try discriminate H; cbn [Json_Model.unpack]; unfold Json_Model.unpack_leaf, find_or;
        rewrite find_pstr by (now apply good_nodot); rewrite Hw; reflexivity.
    + rewrite (IH top v te x cs (dflt t)); auto using shape_dflt.
  - intros als IH top v te x cs a W H T G Hw S. destruct W as [Wt W].
    assert (C : cs = []) by now apply T. subst cs.
    assert (Hx : x = enc (TPoly als) v) by (cbn [walk] in Hw; congruence). subst x. clear Hw.
    destruct v; try contradiction.
    + reflexivity.
    + change (enc (TPoly als) (VPoly tag l)) with (JObj (enc_alts als tag l [(bs "type", JStr tag)])).
      destruct (IH tag l te (enc_alts als tag l [(bs "type", JStr tag)]) W H eq_refl) as [E1 E2].
      generalize dependent (enc_alts als tag l [(bs "type", JStr tag)]). intros m E1 E2.
      rewrite unpack_poly_eq. rewrite E2. change (pstr [] ++ type_) with (pstr [bs "type"]).
      unfold Json_Model.unpack_leaf, find_or.
      rewrite find_pstr by (constructor; [now apply nodotb_ok|constructor]).
      cbn [walk]. rewrite E2. cbn [get_value jbind]. exact E1.
  - intros t IH top v te x cs a W H T G Hw S. destruct v; try contradiction. destruct H as [H1 H2].
    cbn [Json_Model.unpack]. unfold find_or. rewrite find_pstr by (now apply good_nodot). rewrite Hw. cbn [enc].
    rewrite (unmap_ok te t x cs kvs kvs []); auto.
  - intros l te x cs a m W H G Hw HF S. destruct l; [|contradiction]. reflexivity.
  - intros n t IHt fs IHf l te x cs a m W H G Hw HF S. destruct l as [|v l]; [contradiction|].
    destruct a as [|v0 a]; [contradiction|]. destruct W as (W1 & W2 & W3 & W4), H as [H1 H2], S as [S1 S2], HF as [F1 F2].
    rewrite unpack_flds_eq, <- pstr_snoc. rewrite (IHt false v); auto.
    + cbn [jbind]. rewrite (IHf l te x cs a m); auto.
    + split; [discriminate|]. now destruct cs.
    + apply Forall_app. split; [exact G|]. constructor; [split; assumption|constructor].
    + rewrite walk_app, Hw, F1. reflexivity.
  - intros tag l te m W H. contradiction.
  - intros tg fs IHf als IHa tag l te m W H E. destruct W as (W1 & W2 & W3).
    cbn [Json_Spec.ht_alts] in H. rewrite unpack_alts_eq. cbn [enc_alts] in E.
    destruct (beq tg tag); [|now apply IHa]. injection E as ->.
    apply NoDup_cons_iff in W1 as [W1a W1b]. split.
    + rewrite (IHf l te _ [] (dflt_flds fs) (enc_flds fs l [(bs "type", JStr tag)])); auto.
      * now apply enc_flds_in.
      * apply shape_dflt_all.
    + rewrite enc_flds_other by exact W1a. reflexivity.
Qed.

Theorem unpack_root : forall te t v a, wf true t -> ht t v -> shape t a ->
  unpack te t (enc t v) [] a = JOk v.
Proof.
  intros te t v a W H S. apply (proj1 unpack_all t true v te (enc t v) [] a); auto. split; auto.
Qed.
End Unpack.

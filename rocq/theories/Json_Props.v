(** * Properties of the JSON descriptor: C21-C26 and the JSON half of C58 *)
From Verif Require Import Base Base_Proofs SMap Desc_Model Desc_Props Json_Model Json_Spec Json_Proofs Json_Proofs2.

Definition no_klt : nat -> jval -> jval -> bool := fun _ a b =>
  match a, b with
  | VI x, VI y => Z.ltb x y
  | VP (VI x) _, VP (VI y) _ => Z.ltb x y
  | _, _ => false
  end.
Definition idN : N -> N := fun d => d.
Definition i2d0 : Z -> N := fun _ => 0%N.
Notation unpack0 := (unpack no_klt idN i2d0).
Definition tint := TInt ViaInt true 32.

(** a class used in the examples *)
Definition ks := [(bs "red", 0%Z); (bs "green", 5%Z)].
Definition t_ex : jty :=
  TStruct (FCons (bs "n") (TInt ViaU64 false 64)
    (FCons (bs "base_B") (TStruct (FCons (bs "name") TStr FNil))
    (FCons (bs "col") (TEnum ks)
    (FCons (bs "m") (TAssoc false 0 (TPair tint (TSeq None TDbl)))
    (FCons (bs "arr") (TArr [2;3] (TInt ViaInt true 8))
    (FCons (bs "p") (TPtr (TStruct (FCons (bs "c") TChar FNil)))
    (FCons (bs "sm") (TMap TBool)
    (FCons (bs "polys") (TSeq None (TPoly (ACons (bs "A") FNil (ACons (bs "B") (FCons (bs "x") tint FNil) ANil)))) FNil)))))))).
Definition v_ex : jval :=
  VL [VI 18446744073709551615; VL [VS (bs "joe")]; VI 5;
      VL [VP (VI (-3)) (VL [VD 7; VD 8]); VP (VI 4) (VL [])];
      VL [VI 1; VI 2; VI 3; VI 4; VI 5; VI (-128)];
      VPtr (VL [VC "x"%char]); VM [(bs "k1", VB true); (bs "k2", VB false)];
      VL [VPoly (bs "B") [VI 9]; VNul; VPoly (bs "A") []]].
Lemma ex_wf : wf true t_ex.
Proof.
  cbn -[bs]. unfold nodot.
  repeat match goal with
  | |- _ /\ _ => split
  | |- NoDup _ => constructor
  | |- Forall _ _ => constructor
  | |- True => exact I
  | |- ~ In dot _ => now apply nodotb_ok
  | |- _ = _ => reflexivity
  | |- _ <> _ => discriminate
  | |- ~ In _ _ => cbn; intuition discriminate
  end.
Qed.
Lemma ex_ht : ht no_klt idN t_ex v_ex.
Proof.
  cbn -[bs Z.pow]. unfold ordered, inrange, nodot.
  repeat match goal with
  | |- _ /\ _ => split
  | |- Forall _ _ => constructor
  | |- ForallOrdPairs _ _ => constructor
  | |- True => exact I
  | |- ~ In dot _ => now apply nodotb_ok
  | |- _ \/ _ => now right
  | |- (_ <= _)%Z => vm_compute; discriminate
  | |- (_ < _)%Z => vm_compute; reflexivity
  | |- _ = _ => reflexivity
  | |- _ <> _ => discriminate
  | |- In _ _ => cbn; tauto
  end; try exact I.
  - right. left. reflexivity.
  - vm_compute. split; [split; [discriminate|reflexivity]|exact I].
Qed.
Lemma ex_shape : shape t_ex (dflt t_ex).
Proof. apply shape_dflt. Qed.

(** ** C21 *)
(** Round trip through the JSON tree, for every type of the grammar of [wf]: everything
    but pairs used as class members or inside pairs, tuples, polymorphic pointers used
    as class members, null plain pointers to classes and containers. *)
Theorem C21_roundtrip_partial : forall klt narrow i2d te t v a,
  wf true t -> ht klt narrow t v -> shape t a ->
  exists s, pack t fresh [] v = JOk s /\ unpack klt narrow i2d te t (jo s) [] a = JOk v.
Proof.
  intros klt narrow i2d te t v a W H S.
  destruct (pack_root klt narrow t v W H) as (s & E & F). exists s. split; [exact E|].
  rewrite F. now apply unpack_root.
Qed.
Print Assumptions C21_roundtrip_partial.
Example C21_roundtrip_ex : wf true t_ex /\ ht no_klt idN t_ex v_ex /\ shape t_ex (dflt t_ex) /\
  exists s, pack t_ex fresh [] v_ex = JOk s /\ unpack0 true t_ex (jo s) [] (dflt t_ex) = JOk v_ex.
Proof.
  split; [exact ex_wf|]. split; [exact ex_ht|]. split; [exact ex_shape|].
  eexists. split; [vm_compute; reflexivity|]. vm_compute. reflexivity.
Qed.

(** The tree written is exactly the document [enc] describes. *)
Theorem C21_tree_partial : forall klt narrow t v, wf true t -> ht klt narrow t v ->
  exists s, pack t fresh [] v = JOk s /\ jo s = enc t v.
Proof. exact pack_root. Qed.
Print Assumptions C21_tree_partial.
Example C21_tree_ex : exists s, pack (TStruct (FCons (bs "b") tint (FCons (bs "a") (TSeq None TBool) FNil))) fresh []
    (VL [VI 4; VL [VB true]]) = JOk s /\
  jo s = JObj [(bs "a", JArr [JBool true]); (bs "b", JInt 4)].
Proof. eexists. split; vm_compute; reflexivity. Qed.

(** A [std::pair] data member is silently dropped: nothing creates the object it should
    be stored in. *)
Definition t_pm := TStruct (FCons (bs "p") (TPair tint tint) FNil).
Theorem C21_pair_member_refuted : exists v a s, pack t_pm fresh [] v = JOk s /\ jo s = JObj [] /\
  v <> a /\ unpack0 false t_pm (jo s) [] a = JOk a.
Proof.
  exists (VL [VP (VI 1) (VI 2)]), (VL [VP (VI 0) (VI 0)]). eexists.
  split; [vm_compute; reflexivity|]. split; [reflexivity|]. split; [discriminate|]. vm_compute. reflexivity.
Qed.
Print Assumptions C21_pair_member_refuted.
(** in general: whatever the values, for leaf components *)
Theorem C21_pair_member_lost : forall s d k a b x y lx ly, nodot k -> Forall nodot d ->
  valueof a x = Some lx -> valueof b y = Some ly ->
  walk (jo s) d = FOk (JObj []) -> tn s = false ->
  pack (TPair a b) s (pstr (d ++ [k])) (VP x y) = JOk s.
Proof.
  intros s d k a b x y lx ly Hk Hd Hx Hy Hw Ht.
  destruct (walk_obj _ _ _ Hw) as [m Hm].
  assert (HO : objectify s = s) by (unfold objectify; rewrite Hm; reflexivity).
  assert (L : forall n lf, nodot n -> pack_leaf s (pstr (d ++ [k]) ++ dot :: n) lf = JOk s).
  { intros n lf Hn. rewrite <- pstr_snoc. unfold pack_leaf.
    destruct (pstr ((d ++ [k]) ++ [n])) eqn:E; [now apply pstr_snoc_ne in E|].
    rewrite <- E, HO, head_pstr by exact Hn.
    rewrite find_pstr by (apply Forall_app; split; [exact Hd|constructor; [exact Hk|constructor]]).
    rewrite walk_app, Hw. cbn [mfind]. now rewrite Ht. }
  cbn [pack]. rewrite HO.
  assert (P : forall t v lf n, valueof t v = Some lf -> nodot n ->
     pack t s (pstr (d ++ [k]) ++ dot :: n) v = JOk s).
  { intros t v lf n Hv Hn. destruct t; try (destruct v; discriminate Hv); cbn [pack]; rewrite Hv; now apply L. }
  change first_ with (dot :: bs "first"). change second_ with (dot :: bs "second").
  rewrite (P a x lx); [|exact Hx|now apply nodotb_ok]. cbn [jbind]. rewrite (P b y ly); [reflexivity|exact Hy|now apply nodotb_ok].
Qed.
Print Assumptions C21_pair_member_lost.
Example C21_pair_member_lost_ex : nodot (bs "p") /\ valueof tint (VI 3) = Some (JInt 3) /\
  walk (jo (mkjp (JObj []) false false)) [] = FOk (JObj []).
Proof. split; [now apply nodotb_ok|]. split; reflexivity. Qed.

(** An enum value without an enumerator (a combination of flag bits, say) comes back as 0. *)
Theorem C21_enum_unlisted_refuted : exists v s, pack (TEnum ks) fresh [] v = JOk s /\
  exists v', unpack0 true (TEnum ks) (jo s) [] v = JOk v' /\ v' <> v.
Proof. exists (VI 4). eexists. split; [vm_compute; reflexivity|]. eexists. split; [vm_compute; reflexivity|]. discriminate. Qed.
Print Assumptions C21_enum_unlisted_refuted.

(** ** C22 *)
(** types all of whose parts keep their value when absent *)
Fixpoint keeps (t : jty) : Prop :=
  match t with
  | TEnum _ | TTup _ | TPtr _ | TPoly _ => False
  | TPair a b => keeps a /\ keeps b
  | TStruct fs => keeps_flds fs
  | _ => True
  end
with keeps_flds (fs : flds) : Prop :=
  match fs with FNil => True | FCons n t fs' => nodot n /\ keeps t /\ keeps_flds fs' end.
(** types whose absence can be noticed *)
Fixpoint noticed (t : jty) : Prop :=
  match t with
  | TTup _ | TPtr _ | TPoly _ => False
  | TPair a b => noticed a
  | TStruct (FCons n t _) => nodot n /\ noticed t
  | TStruct FNil => False
  | _ => True
  end.
Definition missing (x : jv) (cs : list (list ascii)) : Prop := forall y, walk x cs <> FOk y.
Lemma missing_child : forall x cs k, missing x cs -> missing x (cs ++ [k]).
Proof.
  intros x cs k H y E. rewrite walk_app in E. destruct (walk x cs) eqn:W; try discriminate.
  eapply H; eauto.
Qed.
Lemma absent_all : forall klt narrow i2d,
  (forall t x cs a, keeps t -> shape t a -> Forall nodot cs -> missing x cs ->
     unpack klt narrow i2d false t x (pstr cs) a = JOk a) /\
  (forall ts : tys, True) /\
  (forall fs x cs a, keeps_flds fs -> shape_flds fs a -> Forall nodot cs -> missing x cs ->
     unpack_flds klt narrow i2d false fs x (pstr cs) a = JOk a) /\
  (forall als : alts, True).
Proof.
  intros klt narrow i2d.
  assert (L : forall {A} x cs (old : A) k, Forall nodot cs -> missing x cs ->
     find_or false x (pstr cs) old k = JOk old).
  { intros A x cs old k Hn Hm. unfold find_or. rewrite find_pstr by exact Hn.
    destruct (walk x cs) eqn:E; [now apply Hm in E|reflexivity..]. }
  apply jty_mutind; try (intros; exact I); try (intros; contradiction).
  1-6: intros; cbn [unpack]; now apply L.
  - intros; cbn [unpack]; now apply L.
  - intros; cbn [unpack]; now apply L.
  - intros; cbn [unpack]; now apply L.
  - intros a IHa b IHb x cs v [K1 K2] S Hn Hm. destruct v; try contradiction. destruct S as [S1 S2].
    cbn [unpack]. change first_ with (dot :: bs "first"). change second_ with (dot :: bs "second").
    rewrite <- !pstr_snoc. rewrite IHa; auto using missing_child.
    + cbn [jbind]. rewrite IHb; auto using missing_child.
      apply Forall_app. split; [exact Hn|]. constructor; [now apply nodotb_ok|constructor].
    + apply Forall_app. split; [exact Hn|]. constructor; [now apply nodotb_ok|constructor].
  - intros fs IH x cs v K S Hn Hm. destruct v; try contradiction.
    rewrite unpack_struct_eq. rewrite IH; auto.
  - intros; cbn [unpack]; now apply L.
  - intros x cs a _ S _ _. destruct a; [reflexivity|contradiction].
  - intros n t IHt fs IHf x cs a (K1 & K2 & K3) S Hn Hm. destruct a as [|v a]; [contradiction|].
    destruct S as [S1 S2]. rewrite unpack_flds_eq, <- pstr_snoc. rewrite IHt; auto using missing_child.
    + cbn [jbind]. rewrite IHf; auto.
    + apply Forall_app. split; [exact Hn|]. constructor; [exact K1|constructor].
Qed.

(** Absent and [throw_on_error] false: nothing is thrown and the value is kept.
    Missing: enums, smart pointers and tuples (refuted below for enums). *)
Theorem C22_absent_kept_partial : forall klt narrow i2d t x cs a,
  keeps t -> shape t a -> Forall nodot cs -> missing x cs ->
  unpack klt narrow i2d false t x (pstr cs) a = JOk a.
Proof. intros klt narrow i2d. exact (proj1 (absent_all klt narrow i2d)). Qed.
Print Assumptions C22_absent_kept_partial.
Example C22_absent_kept_ex : let t := TStruct (FCons (bs "a") tint (FCons (bs "b") (TSeq None TStr) FNil)) in
  keeps t /\ shape t (VL [VI 1; VL []]) /\ Forall nodot [bs "q"] /\ missing (JObj [(bs "z", JNull)]) [bs "q"].
Proof.
  cbn -[bs]. unfold nodot. split; [repeat split; now apply nodotb_ok|]. split; [repeat split; constructor|].
  split; [constructor; [now apply nodotb_ok|constructor]|]. intros y H. discriminate H.
Qed.

(** With [throw_on_error] the absence is reported. *)
Theorem C22_absent_reported_partial : forall klt narrow i2d t x cs a,
  noticed t -> shape t a -> Forall nodot cs -> missing x cs ->
  exists e, unpack klt narrow i2d true t x (pstr cs) a = JErr e /\ e <> EOther.
Proof.
  intros klt narrow i2d.
  assert (L : forall {A} x cs (old : A) k, Forall nodot cs -> missing x cs ->
     exists e, find_or true x (pstr cs) old k = JErr e /\ e <> EOther).
  { intros A x cs old k Hn Hm. unfold find_or. rewrite find_pstr by exact Hn.
    destruct (walk x cs) eqn:E; [now apply Hm in E|eexists; split; [reflexivity|discriminate]..]. }
  enough (G : (forall t x cs a, noticed t -> shape t a -> Forall nodot cs -> missing x cs ->
                 exists e, unpack klt narrow i2d true t x (pstr cs) a = JErr e /\ e <> EOther) /\
     (forall ts : tys, True) /\
     (forall fs x cs a, match fs with FCons n t _ => nodot n /\ noticed t | FNil => False end -> shape_flds fs a ->
        Forall nodot cs -> missing x cs ->
        exists e, unpack_flds klt narrow i2d true fs x (pstr cs) a = JErr e /\ e <> EOther) /\
     (forall als : alts, True)) by exact (proj1 G).
  apply jty_mutind; try (intros; exact I); try (intros; contradiction).
  1-6: intros; cbn [unpack]; now apply L.
  - intros ks0 x cs a _ _ Hn Hm. cbn [unpack].
    destruct (L _ x cs (VS []) (fun y => match get_value narrow i2d TStr y with Some v => JOk v | None => JErr EOther end) Hn Hm)
      as (e & E & N). unfold unpack_leaf. rewrite E. exists e. auto.
  - intros; cbn [unpack]; now apply L.
  - intros; cbn [unpack]; now apply L.
  - intros; cbn [unpack]; now apply L.
  - intros a IHa b IHb x cs v K S Hn Hm. destruct v; try contradiction. destruct S as [S1 S2].
    cbn [unpack]. change first_ with (dot :: bs "first"). rewrite <- !pstr_snoc.
    destruct (IHa x (cs ++ [bs "first"]) v1 K S1) as (e & E & N).
    + apply Forall_app. split; [exact Hn|]. constructor; [now apply nodotb_ok|constructor].
    + now apply missing_child.
    + rewrite E. exists e. auto.
  - intros fs IH x cs v K S Hn Hm. destruct v; try contradiction. rewrite unpack_struct_eq.
    destruct (IH x cs l) as (e & E & N); [destruct fs; exact K|exact S|exact Hn|exact Hm|].
    rewrite E. exists e. auto.
  - intros; cbn [unpack]; now apply L.
  - intros n t IHt fs IHf x cs a (K1 & K2) S Hn Hm. destruct a as [|v a]; [contradiction|].
    destruct S as [S1 S2]. rewrite unpack_flds_eq, <- pstr_snoc.
    destruct (IHt x (cs ++ [n]) v K2 S1) as (e & E & N).
    + apply Forall_app. split; [exact Hn|]. constructor; [exact K1|constructor].
    + now apply missing_child.
    + rewrite E. exists e. auto.
Qed.
Print Assumptions C22_absent_reported_partial.
Example C22_absent_reported_ex : let t := TStruct (FCons (bs "a") tint FNil) in
  noticed t /\ shape t (VL [VI 1]) /\ missing (JObj []) [bs "q"] /\
  unpack0 true t (JObj []) (pstr [bs "q"]) (VL [VI 1]) = JErr ENotFound.
Proof.
  cbn -[bs unpack]. split; [split; [now apply nodotb_ok|exact I]|]. split; [auto|].
  split; [intros y H; discriminate H|]. vm_compute. reflexivity.
Qed.

(** Members are unpacked independently of each other. *)
Theorem C22_members_independent : forall klt narrow i2d te fs x d l r,
  unpack klt narrow i2d te (TStruct fs) x d (VL l) = JOk r ->
  exists l', r = VL l' /\
    forall i n t v, (fix nth_f (fs : flds) (i : nat) : option (list ascii * jty) :=
        match fs, i with
        | FNil, _ => None
        | FCons n t _, O => Some (n, t)
        | FCons _ _ fs', S i' => nth_f fs' i'
        end) fs i = Some (n, t) -> nth_error l i = Some v ->
      exists v', nth_error l' i = Some v' /\ unpack klt narrow i2d te t x (d ++ dot :: n) v = JOk v'.
Proof.
  intros klt narrow i2d te fs x d l r H. rewrite unpack_struct_eq in H.
  destruct (unpack_flds klt narrow i2d te fs x d l) as [l'|e|] eqn:E; try discriminate H.
  injection H as <-. exists l'. split; [reflexivity|]. revert l l' E.
  induction fs as [|n0 t0 fs IH]; intros l l' E i n t v Hn Hv; [destruct i; discriminate Hn|].
  destruct l as [|v0 l]; [discriminate E|]. rewrite unpack_flds_eq in E.
  destruct (unpack klt narrow i2d te t0 x (d ++ dot :: n0) v0) as [v1| |] eqn:E0; try discriminate E.
  cbn [jbind] in E. destruct (unpack_flds klt narrow i2d te fs x d l) as [l1| |] eqn:E1; try discriminate E.
  injection E as <-. destruct i as [|i].
  - injection Hn as -> ->. injection Hv as ->. exists v1. auto.
  - exact (IH l l1 E1 i n t v Hn Hv).
Qed.
Print Assumptions C22_members_independent.
Example C22_members_ex :
  unpack0 false (TStruct (FCons (bs "a") tint (FCons (bs "b") tint FNil))) (JObj [(bs "b", JInt 7)]) [] (VL [VI 1; VI 2])
   = JOk (VL [VI 1; VI 7]).
Proof. vm_compute. reflexivity. Qed.

(** An absent enum does not keep its value. *)
Theorem C22_enum_reset_refuted : exists a r,
  unpack0 false (TStruct (FCons (bs "col") (TEnum ks) FNil)) (JObj []) [] a = JOk r /\ r <> a.
Proof. exists (VL [VI 5]). eexists. split; [vm_compute; reflexivity|]. discriminate. Qed.
Print Assumptions C22_enum_reset_refuted.
(** [throw_on_error] does not reach the elements of containers. *)
Theorem C22_elements_silent_refuted : exists a r,
  unpack0 true (TSeq None (TStruct (FCons (bs "x") tint FNil))) (JArr [JObj []]) [] a = JOk r.
Proof. exists (VL []). eexists. vm_compute. reflexivity. Qed.
Print Assumptions C22_elements_silent_refuted.
(** A member of the wrong kind throws even with both flags false (exception of the
    JSON library, not json_pack_error). *)
Theorem C22_mismatch_throws_refuted : exists x a,
  unpack0 false (TStruct (FCons (bs "x") tint FNil)) x [] a = JErr EOther.
Proof. exists (JObj [(bs "x", JStr (bs "1"))]), (VL [VI 0]). vm_compute. reflexivity. Qed.
Print Assumptions C22_mismatch_throws_refuted.
(** Setting the flags before packing into a fresh json_pack_t has no effect. *)
Theorem C22_pack_flags_lost_refuted : exists t v s,
  pack t (mkjp JNull true true) [] v = JOk s /\ te s = false /\ tn s = false.
Proof. exists (TStruct (FCons (bs "x") tint FNil)), (VL [VI 0]). eexists. split; [vm_compute; reflexivity|]. split; reflexivity. Qed.
Print Assumptions C22_pack_flags_lost_refuted.

(** ** C23 *)
Theorem C23_lookup : forall x cs, Forall nodot cs -> json_find x (pstr cs) = walk x cs.
Proof. exact find_pstr. Qed.
Print Assumptions C23_lookup.
(** [json_find] on any string follows its dot-separated components. *)
Theorem C23_lookup_any : forall x name, json_find x name = walk x (comps name).
Proof. exact json_find_walk. Qed.
Print Assumptions C23_lookup_any.
Example C23_lookup_ex : Forall nodot [bs "a"; bs "b"] /\
  json_find (JObj [(bs "a", JObj [(bs "b", JInt 3)])]) (bs ".a.b") = FOk (JInt 3).
Proof. split; [repeat constructor; now apply nodotb_ok|vm_compute; reflexivity]. Qed.

Definition prefix (a b : list (list ascii)) : Prop := exists r, b = a ++ r.
Lemma walk_place_other : forall cs k x y kvs qs, walk x cs = FOk (JObj kvs) ->
  ~ prefix (cs ++ [k]) qs -> ~ prefix qs (cs ++ [k]) ->
  walk (place x (cs ++ [k]) y) qs = walk x qs.
Proof.
  induction cs as [|c cs IH]; intros k x y kvs qs Hw H1 H2.
  - injection Hw as ->. destruct qs as [|q qs]; [exfalso; apply H2; now exists [k]|].
    cbn [app place walk]. rewrite (mfind_mset_other _ bcmp_eq); [reflexivity|].
    intros ->. apply H1. now exists qs.
  - destruct qs as [|q qs]; [exfalso; apply H2; now exists ((c :: cs) ++ [k])|].
    destruct x; try discriminate Hw. cbn [walk] in Hw. cbn [app place walk].
    destruct (mfind bcmp c kvs0) as [x1|] eqn:E; [|discriminate Hw].
    destruct (list_eq_dec ascii_dec q c) as [->|NE].
    + rewrite (mfind_mset_same _ bcmp_eq), E. eapply IH; [exact Hw| |].
      * intros [r ->]. apply H1. now exists r.
      * intros [r Hr]. apply H2. exists r. cbn [app]. now rewrite Hr.
    + rewrite (mfind_mset_other _ bcmp_eq) by (exact NE || (intro; now subst)). reflexivity.
Qed.
(** Storing any packable value at a path whose parent object exists: the path then
    holds its document; every path that is neither a prefix nor an extension of it is
    unaffected.  Holds whether the member already existed or not for leaves, and for a
    new member for all other types. *)
Theorem C23_store_local : forall klt narrow t v s cs k kvs,
  wf false t -> ht klt narrow t v -> Forall good (cs ++ [k]) ->
  walk (jo s) cs = FOk (JObj kvs) -> mfind bcmp k kvs = None ->
  exists s', pack t s (pstr (cs ++ [k])) v = JOk s' /\
    json_find (jo s') (pstr (cs ++ [k])) = FOk (enc t v) /\
    (forall qs, Forall nodot qs -> ~ prefix (cs ++ [k]) qs -> ~ prefix qs (cs ++ [k]) ->
       json_find (jo s') (pstr qs) = json_find (jo s) (pstr qs)).
Proof.
  intros klt narrow t v s cs k kvs W H G Hw Hk.
  destruct (proj1 (pack_all klt narrow) t false v s (cs ++ [k])) as (s' & E & F); auto.
  - split; [discriminate|]. now destruct cs.
  - eapply ready_child; eauto.
  - exists s'. split; [exact E|]. rewrite F. split.
    + rewrite find_pstr by (now apply good_nodot). apply ready_walk. eapply ready_child; eauto.
    + intros qs Hq P1 P2. rewrite !find_pstr by exact Hq. eapply walk_place_other; eassumption.
Qed.
Print Assumptions C23_store_local.
Theorem C23_store_leaf : forall s cs k kvs lf, Forall nodot (cs ++ [k]) ->
  walk (jo s) cs = FOk (JObj kvs) ->
  exists s', pack_leaf s (pstr (cs ++ [k])) lf = JOk s' /\
    json_find (jo s') (pstr (cs ++ [k])) = FOk lf /\
    (forall qs, Forall nodot qs -> ~ prefix (cs ++ [k]) qs -> ~ prefix qs (cs ++ [k]) ->
       json_find (jo s') (pstr qs) = json_find (jo s) (pstr qs)).
Proof.
  intros s cs k kvs lf G Hw. pose proof G as G0. apply Forall_app in G as [G1 G2].
  apply Forall_cons_iff in G2 as [G2 _].
  destruct (walk_obj _ _ _ Hw) as [m Hm].
  assert (HO : objectify s = s) by (unfold objectify; rewrite Hm; reflexivity).
  unfold pack_leaf. destruct (pstr (cs ++ [k])) as [|c0 d0] eqn:E; [now apply pstr_snoc_ne in E|].
  rewrite <- E, HO, head_pstr, tail_pstr, find_pstr, Hw, comps_pstr by assumption.
  eexists. split; [reflexivity|]. cbn [jo]. rewrite <- (place_app _ _ _ _ _ Hw). split.
  - rewrite find_pstr by exact G0. rewrite (place_app _ _ _ _ _ Hw), walk_app, (walk_place _ _ _ _ Hw).
    now rewrite (mfind_mset_same _ bcmp_eq).
  - intros qs Hq P1 P2. rewrite !find_pstr by exact Hq. eapply walk_place_other; eassumption.
Qed.
Print Assumptions C23_store_leaf.
Example C23_store_ex : let o := JObj [(bs "a", JObj [(bs "b", JInt 3)])] in
  Forall good [bs "a"; bs "c"] /\ walk o [bs "a"] = FOk (JObj [(bs "b", JInt 3)]) /\
  ~ prefix ([bs "a"] ++ [bs "c"]) [bs "a"; bs "b"] /\ ~ prefix [bs "a"; bs "b"] ([bs "a"] ++ [bs "c"]).
Proof.
  cbn zeta. split; [repeat (constructor; [now apply good_lit|]); constructor|]. split; [reflexivity|].
  split; intros [r H]; discriminate H.
Qed.
(** When the parent does not exist nothing is stored (and nothing reported by default). *)
Theorem C23_store_no_parent : forall s cs k lf m, Forall nodot (cs ++ [k]) -> jo s = JObj m ->
  missing (JObj m) cs -> te s = false -> tn s = false ->
  pack_leaf s (pstr (cs ++ [k])) lf = JOk s.
Proof.
  intros s cs k lf m G Hm Hw Ht Hn. pose proof G as G0. apply Forall_app in G as [G1 G2].
  apply Forall_cons_iff in G2 as [G2 _].
  assert (HO : objectify s = s) by (unfold objectify; rewrite Hm; reflexivity).
  unfold pack_leaf. destruct (pstr (cs ++ [k])) as [|c0 d0] eqn:E; [now apply pstr_snoc_ne in E|].
  rewrite <- E, HO, head_pstr, find_pstr, Hm by assumption.
  destruct (walk (JObj m) cs) eqn:E2; [now apply Hw in E2|now rewrite Hn|now rewrite Ht].
Qed.
Print Assumptions C23_store_no_parent.
Example C23_no_parent_ex : missing (JObj []) [bs "a"] /\ Forall nodot ([bs "a"] ++ [bs "b"]).
Proof. split; [intros y H; discriminate H|repeat constructor; now apply nodotb_ok]. Qed.
(** A path without its leading dot is looked up but not stored at. *)
Theorem C23_store_nodot_refuted : exists s d lf s', pack_leaf s d lf = JOk s' /\ nodot d /\ d <> [] /\
  jo s = JObj [] /\ json_find (jo s') d = FNotFound /\ json_find (JObj [(d, lf)]) d = FOk lf.
Proof.
  exists (mkjp (JObj []) false false), (bs "a"), (JInt 5). eexists.
  split; [vm_compute; reflexivity|]. split; [now apply nodotb_ok|]. split; [discriminate|].
  split; [reflexivity|]. split; vm_compute; reflexivity.
Qed.
Print Assumptions C23_store_nodot_refuted.

(** ** C24 *)
Fixpoint long_enough (ds : list nat) (y : jv) : Prop :=
  match ds with
  | [] => True
  | n :: ds' => match y with
                | JArr l => n <= length l /\ Forall (long_enough ds') (firstn n l)
                | _ => True
                end
  end.
Lemma unisarray_no_ub : forall f, (forall y v, f y v <> JUB) -> forall ds y vals,
  long_enough ds y -> length vals = prod ds -> unisarray f ds y vals <> JUB.
Proof.
  intros f Hf. induction ds as [|n ds IH]; intros y vals L Hv; cbn [unisarray].
  - destruct vals; [discriminate Hv|]. specialize (Hf y j). destruct (f y j); cbn; congruence.
  - change (fold_right Nat.mul 1 ds) with (prod ds). destruct n as [|n]; [discriminate|].
    destruct y; try discriminate. cbn [long_enough] in L. destruct L as [L1 L2].
    cbn [prod fold_right] in Hv. fold (prod ds) in Hv.
    assert (G : forall k l vals, k <= length l -> Forall (long_enough ds) (firstn k l) -> length vals = k * prod ds ->
       (fix loop (k : nat) (l : list jv) (vals : list jval) : jr (list jval) :=
             match k with
             | O => JOk []
             | S k' => match l with
                       | [] => JUB
                       | y :: l' => r <~ unisarray f ds y (firstn (prod ds) vals) ;;
                                    rs <~ loop k' l' (skipn (prod ds) vals) ;; JOk (r ++ rs)
                       end
             end) k l vals <> JUB).
    { clear l vals L1 L2 Hv. induction k as [|k IHk]; intros l vals L1 L2 Hv; [discriminate|].
      destruct l as [|y l]; [cbn in L1; lia|]. cbn [firstn] in L2. apply Forall_cons_iff in L2 as [L2 L3].
      cbn [Nat.mul] in Hv.
      specialize (IH y (firstn (prod ds) vals) L2). destruct (unisarray f ds y (firstn (prod ds) vals)).
      - cbn [jbind]. specialize (IHk l (skipn (prod ds) vals)).
        match goal with |- context [?g k l (skipn (prod ds) vals)] => destruct (g k l (skipn (prod ds) vals)) end;
          cbn; try discriminate. apply IHk; [cbn in L1; lia|exact L3|rewrite skipn_length; lia].
      - discriminate.
      - exfalso. apply IH; [rewrite firstn_length; lia|reflexivity]. }
    exact (G (S n) l vals L1 L2 Hv).
Qed.
(** Arrays at least as long as needed (in every dimension): only existing elements are
    read.  Missing: shorter ones, refuted below. *)
Theorem C24_long_enough_partial : forall klt narrow i2d te ds w sgn bits x d vals y,
  json_find x d = FOk y -> long_enough ds y -> length vals = prod ds ->
  unpack klt narrow i2d te (TArr ds (TInt w sgn bits)) x d (VL vals) <> JUB.
Proof.
  intros klt narrow i2d te ds w sgn bits x d vals y E L Hv. cbn [unpack]. unfold find_or. rewrite E.
  destruct y; try (unfold not_array; destruct te; discriminate).
  match goal with |- jbind (unisarray ?g ds _ vals) _ <> _ =>
    pose proof (unisarray_no_ub g) as U; destruct (unisarray g ds (JArr l) vals) eqn:EU end;
    cbn; try discriminate.
  exfalso. eapply U; [|exact L|exact Hv|exact EU].
  intros y v. unfold unpack_leaf, find_or. cbn. destruct y; discriminate.
Qed.
Print Assumptions C24_long_enough_partial.
Example C24_long_enough_ex : let x := JObj [(bs "a", JArr [JArr [JInt 1; JInt 2]; JArr [JInt 3; JInt 4; JInt 5]; JNull])] in
  exists y, json_find x (bs ".a") = FOk y /\ long_enough [2;2] y /\ length [VI 0; VI 0; VI 0; VI 0] = prod [2;2] /\
  unpack0 false (TArr [2;2] tint) x (bs ".a") (VL [VI 0; VI 0; VI 0; VI 0]) = JOk (VL [VI 1; VI 2; VI 3; VI 4]).
Proof.
  eexists. split; [vm_compute; reflexivity|]. split; [|split; [reflexivity|vm_compute; reflexivity]].
  cbn. split; [lia|]. repeat constructor.
Qed.
(** A JSON array shorter than the C array is read out of bounds. *)
Theorem C24_short_refuted : exists x, unpack0 true (TStruct (FCons (bs "a") (TArr [2] tint) FNil)) x [] (VL [VL [VI 0; VI 0]]) = JUB.
Proof. exists (JObj [(bs "a", JArr [JInt 1])]). vm_compute. reflexivity. Qed.
Print Assumptions C24_short_refuted.
(** for every length *)
Theorem C24_short_ub : forall klt narrow i2d te n (l : list Z) vals x d,
  json_find x d = FOk (JArr (map JInt l)) -> length l < n -> length vals = n ->
  unpack klt narrow i2d te (TArr [n] (TInt ViaInt true 32)) x d (VL vals) = JUB.
Proof.
  intros klt narrow i2d te n l vals x d E L Hv. cbn [unpack]. unfold find_or. rewrite E. cbn [unisarray fold_right].
  match goal with |- context [?g n (map JInt l) vals] =>
    assert (G : forall l vals k, length l < k -> k <= length vals -> g k (map JInt l) vals = JUB) end.
  { clear. induction l as [|z l IH]; intros vals k Hk Hv; destruct k as [|k]; try (cbn in Hk; lia); [reflexivity|].
    cbn [map length] in *. destruct vals as [|v vals]; [cbn in Hv; lia|]. cbn [firstn skipn].
    change (unpack_leaf narrow i2d false (TInt ViaInt true 32) (JInt z) [] v) with (@JOk jval (VI (wrap true 32 (wrap_via ViaInt z)))).
    cbn [jbind]. rewrite IH; [reflexivity|lia|cbn in Hv; lia]. }
  destruct n as [|n]; [lia|].
  specialize (G l vals (S n) L ltac:(lia)). exact (f_equal (fun m => r <~ m ;; JOk (VL r)) G).
Qed.
Print Assumptions C24_short_ub.
Example C24_short_ub_ex : json_find (JArr (map JInt [1%Z])) [] = FOk (JArr (map JInt [1%Z])) /\ length [1%Z] < 2.
Proof. split; [reflexivity|cbn; lia]. Qed.

(** ** C25 *)
Fixpoint wf_tys (ts : tys) : Prop := match ts with tnil => True | tcons t ts' => wf true t /\ wf_tys ts' end.
Lemma pack_tup_ok : forall klt narrow ts l te0 tn0 arr, wf_tys ts -> ht_tys klt narrow ts l ->
  pack_tup ts (mkjp (JArr arr) te0 tn0) [] l = JOk (mkjp (JArr (arr ++ enc_tys ts l)) te0 tn0).
Proof.
  intros klt narrow. induction ts as [|t ts IH]; intros l te0 tn0 arr W H.
  - destruct l; [|contradiction]. cbn. now rewrite app_nil_r.
  - destruct l as [|x l]; [contradiction|]. destruct W as [W1 W2], H as [H1 H2].
    destruct (pack_root klt narrow t x W1 H1) as (s & E & F).
    change (pack_tup (tcons t ts) (mkjp (JArr arr) te0 tn0) [] (x :: l)) with
      (j <~ pack t fresh [] x ;; pack_tup ts (mkjp (JArr (arr ++ [jo j])) te0 tn0) [] l).
    rewrite E. cbn [jbind]. rewrite IH by assumption. rewrite F, <- app_assoc. reflexivity.
Qed.
(** A tuple packed at the root becomes the array of its components' documents. *)
Theorem C25_pack : forall klt narrow ts l, wf_tys ts -> ht_tys klt narrow ts l ->
  exists s, pack (TTup ts) fresh [] (VL l) = JOk s /\ jo s = JArr (enc_tys ts l).
Proof.
  intros klt narrow ts l W H. eexists. split; [|shelve].
  change (pack (TTup ts) fresh [] (VL l)) with (pack_tup ts (mkjp (JArr []) false false) [] l).
  rewrite (pack_tup_ok klt narrow) by assumption. reflexivity. Unshelve. reflexivity.
Qed.
Print Assumptions C25_pack.
Lemma unpack_tup_ok : forall klt narrow i2d ts l vals, wf_tys ts -> ht_tys klt narrow ts l -> shape_tys ts vals ->
  unpack_tup klt narrow i2d ts (enc_tys ts l) [] vals =
  JOk (match l with [] => vals | x :: _ => x :: List.tl vals end).
Proof.
  intros klt narrow i2d. induction ts as [|t ts IH]; intros l vals W H S.
  - destruct l; [|contradiction]. reflexivity.
  - destruct l as [|x l]; [contradiction|]. destruct vals as [|v vals]; [contradiction|].
    destruct W as [W1 W2], H as [H1 H2], S as [S1 S2].
    change (unpack_tup klt narrow i2d (tcons t ts) (enc_tys (tcons t ts) (x :: l)) [] (v :: vals)) with
      (r <~ unpack klt narrow i2d false t (enc t x) [] v ;;
       _lost <~ unpack_tup klt narrow i2d ts (enc_tys ts l) [] vals ;; JOk (r :: vals)).
    rewrite unpack_root by assumption. cbn [jbind]. rewrite IH by assumption. reflexivity.
Qed.
(** Exactly the first component of a tuple is restored: a tuple with at most one
    component round trips, and for a longer one the others keep their old values. *)
Theorem C25_first_only_partial : forall klt narrow i2d te ts l vals, wf_tys ts -> ht_tys klt narrow ts l -> shape_tys ts vals ->
  exists s, pack (TTup ts) fresh [] (VL l) = JOk s /\
  unpack klt narrow i2d te (TTup ts) (jo s) [] (VL vals) = JOk (VL (firstn 1 l ++ skipn 1 vals)).
Proof.
  intros klt narrow i2d te ts l vals W H S. destruct (C25_pack klt narrow ts l W H) as (s & E & F).
  exists s. split; [exact E|]. rewrite F. destruct ts as [|t ts].
  - destruct l; [|contradiction]. destruct vals; [|contradiction]. reflexivity.
  - change (unpack klt narrow i2d te (TTup (tcons t ts)) (JArr (enc_tys (tcons t ts) l)) [] (VL vals)) with
      (r <~ unpack_tup klt narrow i2d (tcons t ts) (enc_tys (tcons t ts) l) [] vals ;; JOk (VL r)).
    rewrite unpack_tup_ok by assumption. cbn [jbind].
    destruct l as [|x l]; [contradiction|]. destruct vals; reflexivity.
Qed.
Print Assumptions C25_first_only_partial.
Example C25_ex : let ts := tcons tint (tcons TStr tnil) in
  wf_tys ts /\ ht_tys no_klt idN ts [VI 1; VS (bs "a")] /\ shape_tys ts [VI 0; VS []].
Proof. cbn. unfold inrange. repeat split; auto; lia. Qed.
Theorem C25_second_lost_refuted : exists s, pack (TTup (tcons tint (tcons tint tnil))) fresh [] (VL [VI 1; VI 2]) = JOk s /\
  unpack0 true (TTup (tcons tint (tcons tint tnil))) (jo s) [] (VL [VI 0; VI 0]) = JOk (VL [VI 1; VI 0]).
Proof. eexists. split; [vm_compute; reflexivity|]. vm_compute. reflexivity. Qed.
Print Assumptions C25_second_lost_refuted.
(** A tuple data member wipes out the members packed before it: [x] is lost. *)
Theorem C25_member_refuted : exists s,
  let t := TStruct (FCons (bs "x") tint (FCons (bs "t") (TTup (tcons tint tnil)) FNil)) in
  pack t fresh [] (VL [VI 1; VL [VI 2]]) = JOk s /\ jo s = JArr [JObj [(bs "t", JInt 2)]] /\
  unpack0 false t (jo s) [] (VL [VI 0; VL [VI 0]]) = JOk (VL [VI 0; VL [VI 2]]).
Proof. eexists. cbn zeta. split; [vm_compute; reflexivity|]. split; vm_compute; reflexivity. Qed.
Print Assumptions C25_member_refuted.
(** Reading a tuple from a JSON array that is too short is out of bounds. *)
Theorem C25_short_refuted : exists x, unpack0 true (TTup (tcons tint (tcons tint tnil))) x [] (VL [VI 0; VI 0]) = JUB.
Proof. exists (JArr [JInt 1]). vm_compute. reflexivity. Qed.
Print Assumptions C25_short_refuted.

(** ** C26 *)
(** Polymorphic pointers that are container elements (or the root): null stays null,
    the others are recreated with their dynamic type and contents. *)
Theorem C26_poly_elements_partial : forall klt narrow i2d te als l old,
  wf_alts als -> Forall (ht klt narrow (TPoly als)) l ->
  exists s, pack (TSeq None (TPoly als)) fresh [] (VL l) = JOk s /\
  unpack klt narrow i2d te (TSeq None (TPoly als)) (jo s) [] (VL old) = JOk (VL l).
Proof.
  intros klt narrow i2d te als l old W H. apply C21_roundtrip_partial.
  - cbn. auto.
  - cbn. auto.
  - cbn. split; [|exact I]. apply Forall_forall. intros x _. destruct x; exact I.
Qed.
Print Assumptions C26_poly_elements_partial.
Example C26_poly_elements_ex : let als := ACons (bs "A") (FCons (bs "x") tint FNil) ANil in
  wf_alts als /\ Forall (ht no_klt idN (TPoly als)) [VNul; VPoly (bs "A") [VI 3]].
Proof.
  cbn -[bs]. unfold nodot, inrange. split.
  - split; [|split; [|exact I]].
    + constructor; [cbn; intuition discriminate|]. constructor; [intros []|constructor].
    + split; [now apply nodotb_ok|]. split; [discriminate|]. split; [reflexivity|exact I].
  - constructor; [exact I|]. constructor; [|constructor]. cbn. split; [|exact I]. lia.
Qed.
(** Plain smart pointers as members, non-null (or null with a leaf target). *)
Theorem C26_plain_member_partial : forall klt narrow i2d te n t p old,
  good n -> wf false t -> ht klt narrow (TPtr t) p ->
  exists s, pack (TStruct (FCons n (TPtr t) FNil)) fresh [] (VL [p]) = JOk s /\
  unpack klt narrow i2d te (TStruct (FCons n (TPtr t) FNil)) (jo s) [] (VL [old]) = JOk (VL [p]).
Proof.
  intros klt narrow i2d te n t p old [G1 G2] W H. apply C21_roundtrip_partial.
  - cbn -[In]. split; [constructor; [intros []|constructor]|]. auto.
  - change (ht klt narrow (TPtr t) p /\ True). auto.
  - cbn. auto.
Qed.
Print Assumptions C26_plain_member_partial.
Example C26_plain_ex : good (bs "p") /\ ht no_klt idN (TPtr TStr) VNul /\ ht no_klt idN (TPtr (TSeq None TStr)) (VPtr (VL [])).
Proof. split; [now apply good_lit|]. split; [reflexivity|]. cbn. auto. Qed.

(** A polymorphic pointer that is a class member always comes back null, unless the
    enclosing document happens to have a member called "type": the test looks at the
    root of the document. *)
Theorem C26_poly_member_lost : forall klt narrow i2d te als kvs d a,
  mfind bcmp (bs "type") kvs = None ->
  unpack klt narrow i2d te (TPoly als) (JObj kvs) d a = JOk VNul.
Proof. intros klt narrow i2d te als kvs d a H. rewrite unpack_poly_eq, H. reflexivity. Qed.
Print Assumptions C26_poly_member_lost.
Example C26_poly_member_lost_ex : mfind bcmp (bs "type") [(bs "p", JObj [(bs "type", JStr (bs "A"))])] = None.
Proof. reflexivity. Qed.
Definition t_polym := TStruct (FCons (bs "p") (TPoly (ACons (bs "A") (FCons (bs "x") tint FNil) ANil)) FNil).
Theorem C26_poly_member_refuted : exists s, pack t_polym fresh [] (VL [VPoly (bs "A") [VI 3]]) = JOk s /\
  unpack0 true t_polym (jo s) [] (VL [VNul]) = JOk (VL [VNul]).
Proof. eexists. split; [vm_compute; reflexivity|]. vm_compute. reflexivity. Qed.
Print Assumptions C26_poly_member_refuted.
(** A null pointer to a class comes back as a default constructed object. *)
Definition t_ptrm := TStruct (FCons (bs "p") (TPtr (TStruct (FCons (bs "x") tint FNil))) FNil).
Theorem C26_null_refuted : exists s, pack t_ptrm fresh [] (VL [VNul]) = JOk s /\
  unpack0 false t_ptrm (jo s) [] (VL [VNul]) = JOk (VL [VPtr (VL [VI 0])]).
Proof. eexists. split; [vm_compute; reflexivity|]. vm_compute. reflexivity. Qed.
Print Assumptions C26_null_refuted.

(** ** C58, JSON *)
Theorem C58_json_partial : forall klt narrow i2d te t kvs old,
  wf false t -> msorted bcmp kvs ->
  Forall (fun p => good (fst p) /\ ht klt narrow t (snd p)) kvs ->
  exists s, pack (TMap t) fresh [] (VM kvs) = JOk s /\
    unpack klt narrow i2d te (TMap t) (jo s) [] old = JOk (VM kvs).
Proof.
  intros klt narrow i2d te t kvs old W S H. apply C21_roundtrip_partial.
  - exact W.
  - cbn. split; [exact S|]. eapply Forall_impl; [|exact H]. intros p [[H1 H2] H3]. auto.
  - destruct old; exact I.
Qed.
Print Assumptions C58_json_partial.
Example C58_json_ex : let kvs := [(bs "a", VI 1); (bs "b", VI 2)] in
  msorted bcmp kvs /\ Forall (fun p => good (fst p) /\ ht no_klt idN tint (snd p)) kvs.
Proof.
  split; [repeat split; reflexivity|].
  constructor; [|constructor; [|constructor]]; (split; [now apply good_lit|cbn; unfold inrange; lia]).
Qed.
(** Keys containing a dot are lost. *)
Theorem C58_json_dot_refuted : exists s, pack (TMap tint) fresh [] (VM [(bs "a.b", VI 1)]) = JOk s /\
  unpack0 false (TMap tint) (jo s) [] (VM []) = JOk (VM []).
Proof. eexists. split; [vm_compute; reflexivity|]. vm_compute. reflexivity. Qed.
Print Assumptions C58_json_dot_refuted.

(** * Proofs about the JSON descriptor: paths and packing *)
From Verif Require Import Base Base_Proofs SMap Desc_Model Desc_Props Json_Model Json_Spec.
Ltac Zify.zify_post_hook ::= Z.div_mod_to_equations.

(** ** Paths *)
Lemma sfind_none : forall s, sfind dot s = None <-> nodot s.
Proof.
  unfold nodot. induction s as [|x s IH]; cbn [sfind In]; [split; auto|].
  destruct (ascii_dec x dot) as [->|n]; [split; [discriminate|intros H; exfalso; auto]|].
  destruct (sfind dot s); cbn [option_map].
  - split; [discriminate|]. intros H. exfalso.
    assert (H' : ~ In dot s) by tauto. apply IH in H'. discriminate.
  - split; [|reflexivity]. intros _ [H|H]; [congruence|]. now apply IH in H.
Qed.
Lemma sfind_app : forall k r, nodot k -> sfind dot (k ++ dot :: r) = Some (length k).
Proof.
  unfold nodot. induction k as [|x k IH]; intros r H; cbn [sfind app length].
  - destruct (ascii_dec dot dot); congruence.
  - destruct (ascii_dec x dot) as [->|n]; [exfalso; apply H; now left|].
    rewrite IH; [reflexivity|]. intros Hi. apply H. now right.
Qed.
Lemma sfind_some : forall s p, sfind dot s = Some p ->
  s = firstn p s ++ dot :: skipn (S p) s /\ nodot (firstn p s) /\ skipn p s = dot :: skipn (S p) s.
Proof.
  unfold nodot. induction s as [|x s IH]; intros p; cbn [sfind]; [discriminate|].
  destruct (ascii_dec x dot) as [->|n].
  - intros [= <-]. cbn. split; [reflexivity|]. split; [intros []|reflexivity].
  - destruct (sfind dot s) as [q|]; [|discriminate]. intros [= <-].
    destruct (IH q eq_refl) as (H1 & H2 & H3). cbn [firstn skipn app].
    split; [f_equal; exact H1|]. split; [|exact H3]. intros [H|H]; [congruence|contradiction].
Qed.
Lemma split_nodot : forall k, nodot k -> split_dot k = [k].
Proof.
  unfold nodot. induction k as [|x k IH]; intros H; cbn [split_dot]; [reflexivity|].
  destruct (ascii_dec x dot) as [->|n]; [exfalso; apply H; now left|].
  rewrite IH; [reflexivity|]. intros Hi. apply H. now right.
Qed.
Lemma split_app : forall k r, nodot k -> split_dot (k ++ dot :: r) = k :: split_dot r.
Proof.
  unfold nodot. induction k as [|x k IH]; intros r H; cbn [split_dot app].
  - destruct (ascii_dec dot dot); congruence.
  - destruct (ascii_dec x dot) as [->|n]; [exfalso; apply H; now left|].
    rewrite IH; [reflexivity|]. intros Hi. apply H. now right.
Qed.

(** [json_find] follows the dot-separated components *)
Lemma json_find_f_walk : forall fuel name x, length name < fuel ->
  json_find_f fuel x name = walk x (comps name).
Proof.
  induction fuel as [|fuel IH]; intros name x HL; [lia|].
  destruct name as [|c n']; [reflexivity|]. cbn [json_find_f comps].
  set (nm := if ascii_dec c dot then n' else c :: n').
  assert (L : length nm <= length (c :: n')) by (unfold nm; destruct (ascii_dec c dot); cbn; lia).
  destruct (sfind dot nm) as [p|] eqn:E.
  - destruct (sfind_some _ _ E) as (H1 & H2 & H3).
    assert (S1 : split_dot nm = firstn p nm :: split_dot (skipn (S p) nm)).
    { rewrite H1 at 1. now rewrite split_app. }
    rewrite S1. cbn [walk]. destruct x; try reflexivity.
    destruct (mfind bcmp (firstn p nm) kvs); [|reflexivity].
    rewrite H3, IH.
    + cbn [comps]. destruct (ascii_dec dot dot); [reflexivity|congruence].
    + rewrite <- H3, skipn_length. destruct p as [|p].
      * assert (nm = n') as ->; [|cbn [length] in *; lia].
        unfold nm in *. destruct (ascii_dec c dot); [reflexivity|]. cbn in E.
        destruct (ascii_dec c dot); [contradiction|]. destruct (sfind dot n'); discriminate.
      * assert (length nm <> 0) by (destruct nm; [discriminate E|cbn; lia]). cbn [length] in *. lia.
  - rewrite split_nodot by now apply sfind_none. cbn [walk].
    destruct x; reflexivity.
Qed.
Lemma json_find_walk : forall x name, json_find x name = walk x (comps name).
Proof. intros. apply json_find_f_walk. lia. Qed.

Lemma pstr_app : forall a b, pstr (a ++ b) = pstr a ++ pstr b.
Proof. intros. unfold pstr. now rewrite map_app, concat_app. Qed.
Lemma pstr_snoc : forall cs k, pstr (cs ++ [k]) = pstr cs ++ dot :: k.
Proof. intros. rewrite pstr_app. cbn. now rewrite app_nil_r. Qed.
Lemma comps_pstr : forall cs, Forall nodot cs -> comps (pstr cs) = cs.
Proof.
  intros cs H. destruct cs as [|k cs]; [reflexivity|]. cbn [pstr map concat comps app].
  destruct (ascii_dec dot dot) as [_|n]; [|congruence].
  change (concat (map (fun k0 => dot :: k0) cs)) with (pstr cs).
  revert k H. induction cs as [|k2 cs IH]; intros k H; apply Forall_cons_iff in H as [H1 H2].
  - cbn. rewrite app_nil_r. now apply split_nodot.
  - cbn [pstr map concat app]. rewrite split_app by exact H1. f_equal. now apply IH.
Qed.
Lemma head_pstr : forall cs k, nodot k -> head (pstr (cs ++ [k])) = pstr cs.
Proof. intros. rewrite pstr_snoc. apply (C34_unique (pstr cs) k). assumption. Qed.
Lemma tail_pstr : forall cs k, nodot k -> tail (pstr (cs ++ [k])) = k.
Proof. intros. rewrite pstr_snoc. apply (C34_unique (pstr cs) k). assumption. Qed.
Lemma find_pstr : forall x cs, Forall nodot cs -> json_find x (pstr cs) = walk x cs.
Proof. intros. rewrite json_find_walk, comps_pstr; auto. Qed.
Lemma pstr_snoc_ne : forall cs k, pstr (cs ++ [k]) <> [].
Proof. intros. rewrite pstr_snoc. destruct (pstr cs); discriminate. Qed.

(** ** walk and place *)
Lemma walk_app : forall cs x k, walk x (cs ++ [k]) =
  match walk x cs with
  | FOk (JObj kvs) => match mfind bcmp k kvs with Some y => FOk y | None => FNotFound end
  | FOk _ => FNotObj
  | e => e
  end.
Proof.
  induction cs as [|k0 cs IH]; intros x k; cbn [app walk].
  - destruct x; try reflexivity.
  - destruct x; try reflexivity. destruct (mfind bcmp k0 kvs); [apply IH|reflexivity].
Qed.
Lemma place_place : forall cs x y z, place (place x cs y) cs z = place x cs z.
Proof.
  induction cs as [|k cs IH]; intros x y z; cbn [place]; [reflexivity|].
  destruct x; cbn [place]; try reflexivity.
  rewrite (mfind_mset_same _ bcmp_eq), (mset_mset _ bcmp_eq), IH. reflexivity.
Qed.
Lemma place_app : forall cs x k kvs y, walk x cs = FOk (JObj kvs) ->
  place x (cs ++ [k]) y = place x cs (JObj (mset bcmp k y kvs)).
Proof.
  induction cs as [|k0 cs IH]; intros x k kvs y; cbn [walk app place].
  - intros [= ->]. reflexivity.
  - destruct x; try discriminate. destruct (mfind bcmp k0 kvs0) eqn:E; [|discriminate].
    intros H. now rewrite (IH _ _ _ _ H).
Qed.
Lemma walk_place : forall cs x x0 y, walk x cs = FOk x0 -> walk (place x cs y) cs = FOk y.
Proof.
  induction cs as [|k cs IH]; intros x x0 y; cbn [walk place]; [reflexivity|].
  destruct x; try discriminate. destruct (mfind bcmp k kvs) eqn:E; [|discriminate].
  intros H. rewrite (mfind_mset_same _ bcmp_eq). eapply IH; eauto.
Qed.
Lemma place_id : forall cs x y, walk x cs = FOk y -> place x cs y = x.
Proof.
  induction cs as [|k cs IH]; intros x y; cbn [walk place]; [intros [= ->]; reflexivity|].
  destruct x; try discriminate. destruct (mfind bcmp k kvs) eqn:E; [|discriminate].
  intros H. rewrite (IH _ _ H). now rewrite (mset_same _ bcmp_eq).
Qed.

(** a slot that is about to be written for the first time *)
Definition ready (o : jv) (cs : list (list ascii)) : Prop :=
  (cs = [] /\ match o with JObj kvs => kvs = [] | _ => True end) \/
  (exists cs' k kvs, cs = cs' ++ [k] /\ walk o cs' = FOk (JObj kvs) /\
     (mfind bcmp k kvs = None \/ mfind bcmp k kvs = Some (JObj []))).
Definition good (k : list ascii) : Prop := nodot k /\ k <> [].
Lemma nodotb_ok : forall s, nodotb s = true -> nodot s.
Proof. intros s. unfold nodotb, nodot. destruct (in_dec ascii_dec dot s); [discriminate|auto]. Qed.
Lemma good_lit : forall s, nodotb s && negb (beq s []) = true -> good s.
Proof.
  intros s H. apply andb_prop in H as [H1 H2]. split; [now apply nodotb_ok|].
  intros ->. discriminate.
Qed.
Lemma good_nodot : forall cs, Forall good cs -> Forall nodot cs.
Proof. intros cs H. eapply Forall_impl; [|exact H]. intros k [Hk _]. exact Hk. Qed.
Lemma walk_obj : forall cs o kvs, walk o cs = FOk (JObj kvs) -> exists m, o = JObj m.
Proof.
  intros [|k cs] o kvs; cbn [walk].
  - intros [= ->]. eauto.
  - destruct o; try discriminate. eauto.
Qed.

Lemma pack_leaf_ready : forall s cs lf, Forall good cs -> ready (jo s) cs ->
  exists s', pack_leaf s (pstr cs) lf = JOk s' /\ jo s' = place (jo s) cs lf.
Proof.
  intros s cs lf G [(-> & _)|(cs' & k & kvs & -> & Hw & Hk)].
  - eexists. split; reflexivity.
  - apply good_nodot in G. apply Forall_app in G as [G1 G2].
    apply Forall_cons_iff in G2 as [G2 _].
    destruct (walk_obj _ _ _ Hw) as [m Hm].
    assert (HO : objectify s = s) by (unfold objectify; rewrite Hm; reflexivity).
    unfold pack_leaf. destruct (pstr (cs' ++ [k])) as [|c0 d0] eqn:E; [now apply pstr_snoc_ne in E|].
    rewrite <- E, HO, head_pstr, tail_pstr, find_pstr, Hw, comps_pstr by assumption.
    eexists. split; [reflexivity|]. cbn [jo]. symmetry. now apply place_app.
Qed.
Lemma ready_walk : forall o cs y, ready o cs -> walk (place o cs y) cs = FOk y.
Proof.
  intros o cs y [(-> & _)|(cs' & k & kvs & -> & Hw & Hk)]; [reflexivity|].
  rewrite (place_app _ _ _ _ _ Hw), walk_app, (walk_place _ _ _ _ Hw).
  now rewrite (mfind_mset_same _ bcmp_eq).
Qed.
Lemma pack_obj_ready : forall s cs, Forall good cs -> ready (jo s) cs ->
  exists s', pack_obj s (pstr cs) = JOk s' /\ jo s' = place (jo s) cs (JObj []).
Proof.
  intros s cs G [(-> & H)|(cs' & k & kvs & -> & Hw & Hk)].
  - eexists. split; [reflexivity|]. unfold objectify. cbn [place].
    destruct (jo s) eqn:E; try reflexivity. now rewrite E, H.
  - pose proof G as Gg. apply good_nodot in G. apply Forall_app in G as [G1 G2].
    apply Forall_cons_iff in G2 as [G2 _].
    apply Forall_app in Gg as [_ Gg]. apply Forall_cons_iff in Gg as [[_ Gk] _].
    destruct (walk_obj _ _ _ Hw) as [m Hm].
    assert (HO : objectify s = s) by (unfold objectify; rewrite Hm; reflexivity).
    unfold pack_obj. rewrite HO, head_pstr, tail_pstr, find_pstr, Hw, comps_pstr by assumption.
    destruct k as [|c k]; [congruence|].
    destruct Hk as [Hk|Hk]; rewrite Hk.
    + eexists. split; [reflexivity|]. cbn [jo]. symmetry. now apply place_app.
    + exists s. split; [reflexivity|]. symmetry. apply place_id. rewrite walk_app, Hw, Hk. reflexivity.
Qed.
Lemma pack_cont_ready : forall s cs arr, Forall good cs -> ready (jo s) cs ->
  exists s', pack_cont s (pstr cs) (JOk arr) = JOk s' /\ jo s' = place (jo s) cs arr.
Proof.
  intros s cs lf G [(-> & H)|(cs' & k & kvs & -> & Hw & Hk)].
  - unfold pack_cont. cbn [pstr map concat head rfind].
    assert (exists kvs, jo (objectify s) = JObj kvs) as [kvs ->].
    { unfold objectify. destruct (jo s) eqn:E; cbn [jo]; eauto. }
    unfold json_find. cbn [length json_find_f]. cbn [jbind].
    eexists. split; reflexivity.
  - apply good_nodot in G. apply Forall_app in G as [G1 G2].
    apply Forall_cons_iff in G2 as [G2 _].
    destruct (walk_obj _ _ _ Hw) as [m Hm].
    assert (HO : objectify s = s) by (unfold objectify; rewrite Hm; reflexivity).
    unfold pack_cont. rewrite HO, head_pstr, tail_pstr, find_pstr, Hw, comps_pstr by assumption.
    cbn [jbind]. destruct (pstr (cs' ++ [k])) as [|c0 d0] eqn:E; [now apply pstr_snoc_ne in E|].
    eexists. split; [reflexivity|]. cbn [jo]. symmetry. now apply place_app.
Qed.
Lemma pack_carr_ready : forall s cs arr, cs <> [] -> Forall good cs -> ready (jo s) cs ->
  exists s', pack_carr s (pstr cs) (JOk arr) = JOk s' /\ jo s' = place (jo s) cs arr.
Proof.
  intros s cs lf NE G [(-> & H)|(cs' & k & kvs & -> & Hw & Hk)]; [congruence|].
  apply good_nodot in G. apply Forall_app in G as [G1 G2].
  apply Forall_cons_iff in G2 as [G2 _].
  unfold pack_carr. rewrite head_pstr, tail_pstr, find_pstr, Hw, comps_pstr by assumption.
  cbn [jbind]. eexists. split; [reflexivity|]. cbn [jo]. symmetry. now apply place_app.
Qed.

(** ** C arrays *)
Lemma jmapm_ok : forall {A B} (f : A -> jr B) (e : A -> B) l,
  Forall (fun x => f x = JOk (e x)) l -> jmapm f l = JOk (map e l).
Proof.
  induction l as [|x l IH]; intros H; cbn [jmapm map]; [reflexivity|].
  apply Forall_cons_iff in H as [H1 H2]. rewrite H1, IH by exact H2. reflexivity.
Qed.
Definition prod (ds : list nat) : nat := fold_right Nat.mul 1 ds.
Lemma isarray_ok : forall f e ds vals, Forall (fun x => f x = JOk (e x)) vals ->
  prod ds <= length vals -> isarray f ds vals = JOk (nest ds (map e vals)).
Proof.
  intros f e. induction ds as [|n ds IH]; intros vals H L; cbn [isarray nest].
  - destruct vals as [|v vals]; [cbn in L; lia|]. apply Forall_cons_iff in H as [H1 _].
    exact H1.
  - cbn [prod fold_right] in L. fold (prod ds) in L |- *.
    assert (G : forall k acc vals, Forall (fun x => f x = JOk (e x)) vals -> k * prod ds <= length vals ->
      (fix loop (k : nat) (acc : list jv) (vals : list jval) : jr jv :=
         match k with
         | O => JOk (JArr (rev acc))
         | S k' => y <~ isarray f ds vals ;; loop k' (y :: acc) (skipn (prod ds) vals)
         end) k acc vals =
      JOk (JArr (rev acc ++ map (fun i => nest ds (skipn (i * prod ds) (map e vals))) (seq 0 k)))).
    { clear vals H L. induction k as [|k IHk]; intros acc vals H L; cbn [seq map].
      - now rewrite app_nil_r.
      - rewrite IH; [|exact H|lia]. cbn [jbind]. rewrite IHk.
        + f_equal. f_equal. cbn [rev]. rewrite <- app_assoc. f_equal. cbn [app Nat.mul skipn].
          f_equal. rewrite <- seq_shift, map_map. apply map_ext. intros i. f_equal.
          rewrite skipn_map, skipn_skipn. rewrite skipn_map. f_equal. f_equal. lia.
        + apply Forall_forall. intros x Hx. rewrite Forall_forall in H. apply H.
          rewrite <- (firstn_skipn (prod ds) vals), in_app_iff. now right.
        + rewrite skipn_length. lia. }
    change (fold_right Nat.mul 1 ds) with (prod ds). rewrite G; [reflexivity|exact H|exact L].
Qed.

(** ** Packing stores the document of the value at its path *)
Lemma ready_child : forall o cs kvs k, walk o cs = FOk (JObj kvs) -> mfind bcmp k kvs = None ->
  ready o (cs ++ [k]).
Proof. intros. right. exists cs, k, kvs. auto. Qed.

Section Pack.
Variable klt : nat -> jval -> jval -> bool.
Variable narrow : N -> N.
Notation ht := (ht klt narrow).
Notation ht_flds := (ht_flds klt narrow).
Notation ht_alts := (ht_alts klt narrow).

Definition Pp (t : jty) : Prop := forall top v s cs,
  wf top t -> ht t v -> (top = true <-> cs = []) -> Forall good cs -> ready (jo s) cs ->
  exists s', pack t s (pstr cs) v = JOk s' /\ jo s' = place (jo s) cs (enc t v).
Definition Pf (fs : flds) : Prop := forall l s o cs kvs,
  wf_flds fs -> ht_flds fs l -> Forall good cs -> NoDup (fnames fs) ->
  jo s = place o cs (JObj kvs) -> walk (jo s) cs = FOk (JObj kvs) ->
  (forall n, In n (fnames fs) -> mfind bcmp n kvs = None) ->
  exists s', pack_flds fs s (pstr cs) l = JOk s' /\ jo s' = place o cs (JObj (enc_flds fs l kvs)).
Definition Pa (als : alts) : Prop := forall tag l s o cs x,
  wf_alts als -> ht_alts als tag l -> cs = [] -> jo s = place o cs (JObj [(bs "type", x)]) ->
  exists s', pack_alts als tag s (pstr cs) l = JOk s' /\
     jo s' = place o cs (JObj (enc_alts als tag l [(bs "type", x)])).

Lemma pack_elems : forall t' l, Pp t' -> wf true t' -> Forall (ht t') l ->
  Forall (fun x => (j <~ pack t' fresh [] x ;; JOk (jo j)) = JOk (enc t' x)) l.
Proof.
  intros t' l IH W H. eapply Forall_impl; [|exact H]. intros x Hx. cbn beta.
  destruct (IH true x fresh [] W Hx) as (s' & E & E2).
  - split; auto.
  - constructor.
  - left. split; [reflexivity|exact I].
  - change (pstr []) with (@nil ascii) in E. rewrite E. cbn [jbind]. rewrite E2. reflexivity.
Qed.

Lemma pack_map_ok : forall t' kvs s o cs acc, Pp t' -> wf false t' -> Forall good cs ->
  Forall (fun p => nodot (fst p) /\ fst p <> [] /\ ht t' (snd p)) kvs ->
  msorted bcmp kvs ->
  (forall k k', In k (map fst kvs) -> In k' (map fst acc) -> bcmp k k' = Gt) ->
  jo s = place o cs (JObj acc) -> walk (jo s) cs = FOk (JObj acc) ->
  exists s', (fix loop (l : list (list ascii * jval)) (s : jp) : jr jp :=
                 match l with
                 | [] => JOk s
                 | (k, x) :: l' => s' <~ pack t' s (pstr cs ++ dot :: k) x ;; loop l' s'
                 end) kvs s = JOk s' /\
     jo s' = place o cs (JObj (acc ++ map (fun p => (fst p, enc t' (snd p))) kvs)).
Proof.
  intros t' kvs. induction kvs as [|[k x] kvs IH]; intros s o cs acc HP W G H HS HA E Hw.
  - exists s. cbn [map]. rewrite app_nil_r. auto.
  - apply Forall_cons_iff in H as [(Hk & Hne & Hx) H]. cbn [fst snd] in *.
    assert (Hnf : mfind bcmp k acc = None).
    { clear - HA. induction acc as [|[k1 v1] acc IHa]; cbn [mfind]; [reflexivity|].
      rewrite (HA k k1) by (cbn; auto). apply IHa. intros a b Ha Hb. apply HA; [exact Ha|now right]. }
    destruct (HP false x s (cs ++ [k])) as (s1 & E1 & E2).
    + exact W.
    + exact Hx.
    + split; [discriminate|]. intros C. now destruct cs.
    + apply Forall_app. split; [exact G|]. constructor; [split; assumption|constructor].
    + eapply ready_child; eauto.
    + rewrite pstr_snoc in E1. rewrite E1. cbn [jbind].
      assert (Hset : mset bcmp k (enc t' x) acc = acc ++ [(k, enc t' x)]).
      { apply (mset_last _ bcmp_eq). intros k' Hk'. apply HA; [now left|exact Hk']. }
      rewrite (place_app _ _ _ _ _ Hw), Hset in E2.
      destruct (IH s1 o cs (acc ++ [(k, enc t' x)])) as (s2 & E3 & E4).
      * exact HP.
      * exact W.
      * exact G.
      * exact H.
      * apply HS.
      * intros a b Ha. rewrite map_app, in_app_iff. intros [Hb|Hb].
        -- apply HA; [now right|exact Hb].
        -- cbn in Hb. destruct Hb as [<-|[]].
           rewrite bcmp_antisym. replace (bcmp k a) with Lt; [reflexivity|symmetry].
           clear - HS Ha. revert k x HS Ha. induction kvs as [|[k1 v1] kvs IHk]; intros k x HS Ha; [contradiction|].
           cbn [msorted] in HS. destruct HS as [H1 H2]. destruct Ha as [<-|Ha]; [exact H1|].
           eapply bcmp_trans; [exact H1|]. apply (IHk k1 v1); [exact H2|exact Ha].
      * rewrite E2, E, place_place. reflexivity.
      * rewrite E2. eapply walk_place; eauto.
      * exists s2. split; [exact E3|]. rewrite E4. cbn [map fst snd]. rewrite <- app_assoc. reflexivity.
Qed.

Lemma pack_all : (forall t, Pp t) /\ (forall ts : tys, True) /\ (forall fs, Pf fs) /\ (forall als, Pa als).
Proof.
  apply jty_mutind; try (intros; exact I).
  1-6: intros; intros top v s cs W H T G R; destruct v; try contradiction; cbn [pack valueof enc]; now apply pack_leaf_ready.
  - intros ks top v s cs W H T G R. destruct v; try contradiction. cbn [pack enc]. now apply pack_leaf_ready.
  - intros fx t IH top v s cs W H T G R. destruct v; try contradiction. cbn [pack enc].
    destruct H as [H _]. rewrite (jmapm_ok _ (enc t)) by (now apply pack_elems). cbn [jbind].
    now apply pack_cont_ready.
  - intros ds t IH top v s cs W H T G R. destruct v; try contradiction. cbn [pack enc].
    destruct W as (W1 & _ & W2), H as [H L]. rewrite (isarray_ok _ (enc t)); [|now apply pack_elems|rewrite L; apply le_n].
    apply pack_carr_ready; auto. intros ->. rewrite (proj2 T eq_refl) in W1. discriminate.
  - intros mu c t IH top v s cs W H T G R. destruct v; try contradiction. cbn [pack enc].
    destruct H as [H _]. rewrite (jmapm_ok _ (enc t)) by (now apply pack_elems). cbn [jbind].
    now apply pack_cont_ready.
  - intros a IHa b IHb top v s cs W H T G R. destruct v; try contradiction. cbn [pack enc].
    destruct W as (Wt & Wa & Wb), H as [Ha Hb]. assert (C : cs = []) by now apply T. subst cs. cbn [place].
    assert (O : jo (objectify s) = JObj []).
    { destruct R as [[_ R]|(cs' & k & kvs & R & _)]; [|now destruct cs'].
      unfold objectify. destruct (jo s) eqn:E; try reflexivity. now rewrite E, R. }
    change (pstr [] ++ first_) with (pstr [bs "first"]). change (pstr [] ++ second_) with (pstr [bs "second"]).
    destruct (IHa false v1 (objectify s) [bs "first"]) as (s1 & E1 & F1); auto.
    + split; discriminate.
    + constructor; [now apply good_lit|constructor].
    + rewrite O. apply (ready_child (JObj []) [] []); reflexivity.
    + rewrite E1. cbn [jbind]. rewrite O in F1. cbn in F1.
      destruct (IHb false v2 s1 [bs "second"]) as (s2 & E2 & F2); auto.
      * split; discriminate.
      * constructor; [now apply good_lit|constructor].
      * rewrite F1. eapply (ready_child _ []); [reflexivity|reflexivity].
      * exists s2. split; [exact E2|]. rewrite F2, F1. reflexivity.
  - intros ts _ top v s cs W. contradiction.
  - intros fs IH top v s cs W H T G R. destruct v; try contradiction. cbn [pack enc].
    destruct (pack_obj_ready s cs G R) as (s1 & E1 & F1). rewrite E1. cbn [jbind].
    destruct W as [W1 W2]. eapply IH; eauto. rewrite F1. now apply ready_walk.
  - intros t IH top v s cs W H T G R. destruct v; try contradiction; cbn [pack enc].
    + now apply pack_obj_ready.
    + destruct (pack_obj_ready s cs G R) as (s1 & E1 & F1). rewrite E1. cbn [jbind].
      destruct (IH top v s1 cs W H T G) as (s2 & E2 & F2).
      * rewrite F1. destruct R as [[-> R]|(cs' & k & kvs & -> & Hw & Hk)].
        -- left. split; reflexivity.
        -- right. exists cs', k, (mset bcmp k (JObj []) kvs). split; [reflexivity|].
           rewrite (place_app _ _ _ _ _ Hw), (walk_place _ _ _ _ Hw). split; [reflexivity|].
           right. apply (mfind_mset_same _ bcmp_eq).
      * exists s2. split; [exact E2|]. rewrite F2, F1. apply place_place.
  - intros als IH top v s cs W H T G R. destruct v; try contradiction; cbn [pack enc].
    + now apply pack_obj_ready.
    + destruct W as [Wt W]. assert (C : cs = []) by now apply T. subst cs.
      destruct (pack_obj_ready s [] G R) as (s1 & E1 & F1). rewrite E1. cbn [jbind].
      change (pstr [] ++ type_) with (pstr [bs "type"]). cbn [place] in F1.
      destruct (pack_leaf_ready s1 [bs "type"] (JStr tag)) as (s2 & E2 & F2).
      * constructor; [now apply good_lit|constructor].
      * rewrite F1. apply (ready_child (JObj []) [] []); reflexivity.
      * rewrite E2. cbn [jbind]. rewrite F1 in F2. cbn in F2.
        eapply (IH tag l s2 (jo s) [] (JStr tag)); auto.
  - intros t IH top v s cs W H T G R. destruct v; try contradiction. cbn [pack enc].
    destruct (pack_obj_ready s cs G R) as (s1 & E1 & F1). rewrite E1. cbn [jbind].
    destruct H as [HS H].
    assert (HF : exists m, json_find (jo s1) (head (pstr cs)) = FOk (JObj m)).
    { destruct R as [[-> R]|(cs' & k & kvs' & -> & Hw & Hk)].
      - cbn in F1. rewrite F1. exists []. reflexivity.
      - apply good_nodot in G. apply Forall_app in G as [G1 G2]. apply Forall_cons_iff in G2 as [G2 _].
        rewrite head_pstr, find_pstr by assumption. rewrite F1, (place_app _ _ _ _ _ Hw), (walk_place _ _ _ _ Hw).
        eauto. }
    destruct HF as [m ->].
    destruct (pack_map_ok t kvs s1 (jo s) cs []) as (s2 & E2 & F2); auto.
    + intros k k' _ [].
    + rewrite F1. now apply ready_walk.
    + exists s2. split; [exact E2|exact F2].
  - intros l s o cs kvs W H G ND E Hw HN. destruct l; [|contradiction].
    exists s. split; [reflexivity|]. exact E.
  - intros n t IHt fs IHf l s o cs kvs W H G ND E Hw HN. destruct l as [|x l]; [contradiction|].
    cbn [pack_flds enc_flds]. destruct W as (W1 & W2 & W3 & W4), H as [H1 H2].
    cbn [fnames] in ND. apply NoDup_cons_iff in ND as [ND1 ND2].
    destruct (IHt false x s (cs ++ [n])) as (s1 & E1 & F1); auto.
    + split; [discriminate|]. now destruct cs.
    + apply Forall_app. split; [exact G|]. constructor; [split; assumption|constructor].
    + eapply ready_child; [exact Hw|]. apply HN. now left.
    + rewrite <- pstr_snoc, E1. cbn [jbind]. rewrite (place_app _ _ _ _ _ Hw) in F1.
      eapply IHf; auto.
      * rewrite F1, E, place_place. reflexivity.
      * rewrite F1. eapply walk_place; eauto.
      * intros n' Hn'. rewrite (mfind_mset_other _ bcmp_eq); [apply HN; now right|].
        intros ->. contradiction.
  - intros tag l s o cs x W H. contradiction.
  - intros tg fs IHf als IHa tag l s o cs x W H C E. subst cs. cbn [pack_alts enc_alts] in *.
    cbn [Json_Spec.ht_alts] in H. destruct W as (W1 & W2 & W3).
    destruct (beq tg tag); [|eapply IHa; eauto].
    cbn [place] in *. unfold pack_obj. cbn [pstr map concat tail rfind skipn].
    assert (O : objectify s = s) by (unfold objectify; rewrite E; reflexivity).
    rewrite O. cbn [jbind]. apply NoDup_cons_iff in W1 as [W1a W1b].
    apply (IHf l s o [] [(bs "type", x)]); auto.
    + rewrite E. reflexivity.
    + intros n Hn. cbn [mfind]. destruct (bcmp n (bs "type")) eqn:EE; try reflexivity.
      apply bcmp_eq in EE. subst n. contradiction.
Qed.

Theorem pack_root : forall t v, wf true t -> ht t v ->
  exists s, pack t fresh [] v = JOk s /\ jo s = enc t v.
Proof.
  intros t v W H. destruct (proj1 pack_all t true v fresh []) as (s & E & F); auto.
  - split; auto.
  - left. split; [reflexivity|exact I].
  - exists s. auto.
Qed.
End Pack.

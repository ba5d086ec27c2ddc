(** * Proofs about the XML descriptor: keys and what parsing a document records *)
From Verif Require Import Base Base_Proofs SMap Dec Desc_Model Desc_Props Json_Model Json_Spec Xml_Model Xml_Spec Xml_Proofs.

(** ** Strings split at a character *)
Lemma splitc_nonempty : forall c s, splitc c s <> [].
Proof. intros c [|x s]; cbn; [discriminate|]. destruct (ascii_dec x c); [discriminate|]. destruct (splitc c s); discriminate. Qed.
Lemma splitc_notin : forall c s, Forall (fun a => ~ In c a) (splitc c s).
Proof.
  induction s as [|x s IH]; cbn [splitc]; [repeat constructor; intros []|].
  destruct (ascii_dec x c); [constructor; [intros []|exact IH]|].
  destruct (splitc c s) as [|a r]; [repeat constructor; intros [->|[]]; congruence|].
  apply Forall_cons_iff in IH as [H1 H2]. constructor; [|exact H2]. intros [->|C]; [congruence|contradiction].
Qed.
Lemma joinc_splitc : forall c s, joinc c (splitc c s) = s.
Proof.
  induction s as [|x s IH]; cbn [splitc]; [reflexivity|]. pose proof (splitc_nonempty c s) as NE.
  destruct (ascii_dec x c) as [->|].
  - cbn [joinc]. destruct (splitc c s); [congruence|]. now rewrite IH.
  - destruct (splitc c s) as [|a r]; [congruence|]. cbn [joinc] in *. destruct r; cbn [app]; now rewrite <- IH.
Qed.
Lemma splitc_joinc : forall c l, l <> [] -> Forall (fun a => ~ In c a) l -> splitc c (joinc c l) = l.
Proof.
  induction l as [|a l IH]; intros NE H; [congruence|]. apply Forall_cons_iff in H as [H1 H2].
  cbn [joinc]. destruct l as [|b l]; [now apply splitc_none|].
  rewrite splitc_app by exact H1. rewrite IH; [reflexivity|discriminate|exact H2].
Qed.
Lemma joinc_snoc : forall c l a, l <> [] -> joinc c (l ++ [a]) = joinc c l ++ c :: a.
Proof.
  induction l as [|b l IH]; intros a NE; [congruence|]. destruct l as [|b' l]; [reflexivity|].
  change (joinc c ((b :: b' :: l) ++ [a])) with (b ++ c :: joinc c ((b' :: l) ++ [a])).
  rewrite IH by discriminate. cbn [joinc]. now rewrite <- app_assoc.
Qed.

(** ** addHashNoughts *)
Definition has (c : ascii) (s : list ascii) : bool := existsb (fun x => if ascii_dec x c then true else false) s.
Definition nought (a : list ascii) : list ascii := if has hash a then a else a ++ bs "#0".
Lemma has_in : forall c s, has c s = true <-> In c s.
Proof.
  intros c s. unfold has. rewrite existsb_exists. split.
  - intros (x & I & H). destruct (ascii_dec x c); [now subst|discriminate].
  - intros I. exists c. split; [exact I|]. destruct (ascii_dec c c); congruence.
Qed.
Lemma has_app : forall c a b, has c (a ++ b) = has c a || has c b.
Proof. intros. apply existsb_app. Qed.
Lemma nought_notin : forall a, ~ In dot a -> ~ In dot (nought a).
Proof.
  intros a H. unfold nought. destruct (has hash a); [exact H|]. rewrite in_app_iff. intros [C|[C|[C|[]]]]; [auto|discriminate C..].
Qed.
Lemma firstn_len : forall {A} (a b : list A), firstn (length a) (a ++ b) = a.
Proof. intros. induction a as [|x a IH]; cbn; [now destruct b|now rewrite IH]. Qed.
(** the loop, from the state in which a component [pend'] has been partly read *)
Lemma ahn_spec : forall key pend r h comp,
  h = has hash comp -> ~ In dot comp -> (exists q, pend = q ++ comp) ->
  ahn key pend r h =
  (r ++ firstn (length pend - length comp) pend) ++
  match splitc dot key with
  | a :: l => joinc dot (map nought ((comp ++ a) :: l))
  | [] => []
  end.
Proof.
  induction key as [|c key IH]; intros pend r h comp Hh Hd [q ->].
  - cbn [ahn splitc map joinc]. rewrite app_nil_r, app_length.
    replace (length q + length comp - length comp) with (length q) by lia. rewrite firstn_len.
    unfold nought. rewrite <- Hh. destruct h; rewrite <- ?app_assoc, ?app_nil_r; reflexivity.
  - cbn [ahn splitc].
    assert (A : forall h', h' = has hash (comp ++ [c]) -> c <> dot ->
       ahn key ((q ++ comp) ++ [c]) r h' =
       (r ++ firstn (length (q ++ comp) - length comp) (q ++ comp)) ++
       match (match splitc dot key with a :: r0 => (c :: a) :: r0 | [] => [[c]] end) with
       | a :: l => joinc dot (map nought ((comp ++ a) :: l)) | [] => [] end).
    { intros h' Hh' N. rewrite (IH _ _ _ (comp ++ [c])); [|exact Hh'| |exists q; now rewrite app_assoc].
      - rewrite !app_length. cbn [length].
        replace (length q + length comp + 1 - (length comp + 1)) with (length q) by lia.
        replace (length q + length comp - length comp) with (length q) by lia.
        rewrite <- (app_assoc q). rewrite !firstn_len.
        pose proof (splitc_nonempty dot key). destruct (splitc dot key) as [|a l]; [congruence|].
        rewrite <- !app_assoc. reflexivity.
      - rewrite in_app_iff. intros [C|[C|[]]]; [auto|congruence]. }
    destruct (ascii_dec c hash) as [->|Nh].
    { destruct (ascii_dec hash dot); [discriminate|]. apply A; [|discriminate].
      rewrite has_app. cbn. now rewrite orb_true_r. }
    destruct (ascii_dec c dot) as [->|Nd].
    2:{ apply A; [|exact Nd]. rewrite has_app, <- Hh. cbn. destruct (ascii_dec c hash); [congruence|]. now rewrite orb_false_r. }
    pose proof (splitc_nonempty dot key) as NE. destruct h.
    + rewrite (IH _ _ _ []); [|reflexivity|intros []|exists ((q ++ comp) ++ [dot]); now rewrite app_nil_r].
      cbn [length]. rewrite Nat.sub_0_r, firstn_all.
      destruct (splitc dot key) as [|a l]; [congruence|]. cbn [map app].
      change (joinc dot (nought (comp ++ []) :: nought a :: map nought l)) with
        (nought (comp ++ []) ++ dot :: joinc dot (nought a :: map nought l)).
      rewrite app_nil_r. replace (nought comp) with comp by (unfold nought; now rewrite <- Hh).
      rewrite app_length. replace (length q + length comp - length comp) with (length q) by lia.
      rewrite firstn_len. rewrite <- !app_assoc. reflexivity.
    + rewrite (IH _ _ _ []); [|reflexivity|intros []|exists [dot]; reflexivity].
      cbn [length firstn Nat.sub].
      destruct (splitc dot key) as [|a l]; [congruence|]. cbn [map app].
      change (joinc dot (nought (comp ++ []) :: nought a :: map nought l)) with
        (nought (comp ++ []) ++ dot :: joinc dot (nought a :: map nought l)).
      rewrite app_nil_r. replace (nought comp) with (comp ++ bs "#0") by (unfold nought; now rewrite <- Hh).
      rewrite app_length. replace (length q + length comp - length comp) with (length q) by lia.
      rewrite firstn_len. rewrite <- !app_assoc. reflexivity.
Qed.
Lemma ahn_split : forall key, add_hash_noughts key = joinc dot (map nought (splitc dot key)).
Proof.
  intros key. unfold add_hash_noughts. rewrite (ahn_spec _ _ _ _ []); [|reflexivity|intros []|exists []; reflexivity].
  cbn [length Nat.sub firstn app]. pose proof (splitc_nonempty dot key). destruct (splitc dot key); [congruence|reflexivity].
Qed.
Lemma nought_idem : forall a, nought (nought a) = nought a.
Proof.
  intros a. unfold nought. destruct (has hash a) eqn:E; [now rewrite E|].
  rewrite has_app. cbn. rewrite orb_true_r. reflexivity.
Qed.
Lemma ahn_idem : forall key, add_hash_noughts (add_hash_noughts key) = add_hash_noughts key.
Proof.
  intros key. rewrite !ahn_split. rewrite splitc_joinc.
  - rewrite map_map. f_equal. apply map_ext, nought_idem.
  - pose proof (splitc_nonempty dot key). destruct (splitc dot key); [congruence|discriminate].
  - apply Forall_map. eapply Forall_impl; [|apply splitc_notin]. apply nought_notin.
Qed.

(** ** Paths and keys *)
Definition comp (x : list ascii * N) : list ascii := idx (fst x) (snd x).
Lemma digit_not : forall c x, isdigit c -> (N_of_ascii x < 48 \/ 57 < N_of_ascii x)%N -> c <> x.
Proof. intros c x H N ->. unfold isdigit in H. lia. Qed.
Lemma dec_notin : forall n x, (N_of_ascii x < 48 \/ 57 < N_of_ascii x)%N -> ~ In x (dec n).
Proof.
  intros n x N I. pose proof (dec_isdigit n) as D. rewrite Forall_forall in D.
  exact (digit_not _ _ (D _ I) N eq_refl).
Qed.
Lemma name_notin : forall n x, okname n -> namechar x = false -> ~ In x n.
Proof. intros n x [_ H] N I. rewrite Forall_forall in H. rewrite (H _ I) in N. discriminate. Qed.
Lemma comp_nodot : forall x, okname (fst x) -> ~ In dot (comp x).
Proof.
  intros [m i] H. unfold comp, idx. cbn [fst snd] in *. rewrite in_app_iff. intros [C|[C|C]].
  - revert C. now apply name_notin.
  - discriminate C.
  - revert C. apply dec_notin. cbn. lia.
Qed.
Lemma app_sep_inj : forall (c : ascii) a b a' b', ~ In c a -> ~ In c a' -> a ++ c :: b = a' ++ c :: b' -> a = a' /\ b = b'.
Proof.
  induction a as [|x a IH]; intros b [|x' a'] b' H H' E; cbn in E.
  - injection E as ->. auto.
  - injection E as -> E. exfalso. apply H'. now left.
  - injection E as -> E. exfalso. apply H. now left.
  - injection E as -> E. destruct (IH b a' b') as [-> ->]; auto; firstorder.
Qed.
Lemma comp_inj : forall x y, okname (fst x) -> okname (fst y) -> comp x = comp y -> x = y.
Proof.
  intros [m i] [m' i'] H H' E. unfold comp, idx in E. cbn [fst snd] in *.
  apply app_sep_inj in E as [-> E]; [|now apply name_notin..]. apply dec_inj in E. now subst.
Qed.
Lemma map_comp_inj : forall p q, goodp p -> goodp q -> map comp p = map comp q -> p = q.
Proof.
  induction p as [|x p IH]; intros [|y q] Hp Hq E; try discriminate E; [reflexivity|].
  apply Forall_cons_iff in Hp as [H1 H2]. apply Forall_cons_iff in Hq as [H3 H4].
  cbn [map] in E. injection E as E1 E2. f_equal; [now apply comp_inj|now apply IH].
Qed.
Lemma goodp_nodot : forall p, goodp p -> Forall (fun a => ~ In dot a) (map comp p).
Proof. intros p H. apply Forall_map. eapply Forall_impl; [|exact H]. intros x. apply comp_nodot. Qed.
Lemma ks_split : forall p, p <> [] -> goodp p -> splitc dot (ks p) = map comp p.
Proof.
  intros p NE H. unfold ks. change (map (fun x => idx (fst x) (snd x)) p) with (map comp p).
  apply splitc_joinc; [destruct p; [congruence|discriminate]|now apply goodp_nodot].
Qed.
Lemma ks_inj : forall p q, p <> [] -> q <> [] -> goodp p -> goodp q -> ks p = ks q -> p = q.
Proof.
  intros p q N1 N2 H1 H2 E. apply map_comp_inj; auto. now rewrite <- !ks_split, E.
Qed.
Lemma kc_join : forall p m, kc p m = joinc dot (map comp p ++ [m]).
Proof.
  intros [|x p] m; [reflexivity|]. rewrite joinc_snoc by discriminate. reflexivity.
Qed.
Lemma kc_split : forall p m, goodp p -> okname m -> splitc dot (kc p m) = map comp p ++ [m].
Proof.
  intros p m H H'. rewrite kc_join. apply splitc_joinc; [destruct p; discriminate|].
  apply Forall_app. split; [now apply goodp_nodot|]. constructor; [now apply name_notin|constructor].
Qed.
Lemma kc_inj : forall p q m n, goodp p -> goodp q -> okname m -> okname n -> kc p m = kc q n -> p = q /\ m = n.
Proof.
  intros p q m n H1 H2 H3 H4 E. assert (E2 : map comp p ++ [m] = map comp q ++ [n]) by (now rewrite <- !kc_split, E).
  apply app_inj_tail in E2 as [E2 ->]. split; [now apply map_comp_inj|reflexivity].
Qed.
Lemma ks_snoc : forall p m k, ks (p ++ [(m, k)]) = idx (kc p m) k.
Proof.
  intros p m k. unfold ks. rewrite map_app. cbn [map fst snd]. destruct p as [|x p]; [reflexivity|].
  rewrite joinc_snoc by discriminate. unfold kc, idx, ks. rewrite <- app_assoc. reflexivity.
Qed.
Lemma kc_cons : forall p m, p <> [] -> kc p m = ks p ++ dot :: m.
Proof. intros [|x p] m H; [congruence|reflexivity]. Qed.

(** ** What parsing a document records *)
Definition named_ok (t : xt) : Prop := okdoc (fun _ _ => True) t.
Lemma named_ok_node : forall n kids, named_ok (Node n kids) <-> okname n /\ Forall named_ok kids.
Proof. intros. apply okdoc_node. Qed.
Lemma okdoc_impl : forall (P Q : list ascii -> list ascii -> Prop), (forall r t, P r t -> Q r t) ->
  forall t, okdoc P t -> okdoc Q t.
Proof.
  intros P Q H. apply (xt_ind2 (fun t => okdoc P t -> okdoc Q t)).
  - intros n raw txt [H1 H2]. split; auto.
  - intros n kids IH HO. apply okdoc_node in HO as [H1 H2]. apply okdoc_node. split; [exact H1|].
    rewrite Forall_forall in *. auto.
Qed.
Lemma cnt_mset : forall tc k v k', cnt (mset bcmp k v tc) k' = if beq k' k then v else cnt tc k'.
Proof.
  intros. unfold cnt. rewrite (mfind_mset _ bcmp_eq). unfold beq. destruct (bcmp k' k); reflexivity.
Qed.
Lemma mfind_put : forall k c cm k',
  mfind bcmp k' (put k c cm) = if beq k' k then match c with [] => mfind bcmp k' cm | _ => Some c end else mfind bcmp k' cm.
Proof.
  intros. unfold put. destruct c as [|x c].
  - now destruct (beq k' k).
  - rewrite (mfind_mset _ bcmp_eq). unfold beq. destruct (bcmp k' k); reflexivity.
Qed.

Section Record.
Variable pp : bool.
Notation record := (record pp). Notation records := (records pp). Notation cont := (cont pp).

(** the keys of the subtree [u] are not in use *)
Definition fresh (u : path) (cm : cmap) (tc : tmap) : Prop :=
  (forall R, goodp R -> mfind bcmp (ks (u ++ R)) cm = None) /\
  (forall R m, goodp R -> okname m -> cnt tc (kc (u ++ R) m) = 0%N).
Definition Rec (t : xt) : Prop := forall lvl p cm tc cm' tc',
  named_ok t -> goodp p ->
  let m := xname t in let k := cnt tc (kc p m) in let u := p ++ [(m, k)] in
  fresh u cm tc -> record lvl (kc p m) t cm tc = (cm', tc') ->
  (forall R, goodp R -> mfind bcmp (ks (u ++ R)) cm' =
     match sel t R with Some t' => cont (lvl + length R) t' | None => None end) /\
  (forall R n, goodp R -> okname n -> cnt tc' (kc (u ++ R) n) =
     match sel t R with Some t' => named (kids_of t') n | None => 0%N end) /\
  cnt tc' (kc p m) = (k + 1)%N /\
  (forall s, (forall R, goodp R -> s <> ks (u ++ R)) -> mfind bcmp s cm' = mfind bcmp s cm) /\
  (forall s, s <> kc p m -> (forall R n, goodp R -> okname n -> s <> kc (u ++ R) n) -> cnt tc' s = cnt tc s).

Definition sel_in (l : list xt) (m : list ascii) (i : N) (R : path) : option xt :=
  match nth_named l m i with Some t => sel t R | None => None end.
Definition Recs (l : list xt) : Prop := forall lvl u cm tc cm' tc',
  Forall named_ok l -> goodp u -> u <> [] ->
  (forall m i R, okname m -> goodp R -> (cnt tc (kc u m) <= i)%N -> mfind bcmp (ks (u ++ (m, i) :: R)) cm = None) ->
  (forall m i R n, okname m -> goodp R -> okname n -> (cnt tc (kc u m) <= i)%N -> cnt tc (kc (u ++ (m, i) :: R) n) = 0%N) ->
  records lvl (ks u) l cm tc = (cm', tc') ->
  (forall m i R, okname m -> goodp R -> mfind bcmp (ks (u ++ (m, i) :: R)) cm' =
     if (i <? cnt tc (kc u m))%N then mfind bcmp (ks (u ++ (m, i) :: R)) cm
     else match sel_in l m (i - cnt tc (kc u m)) R with Some t' => cont (lvl + length R) t' | None => None end) /\
  (forall m i R n, okname m -> goodp R -> okname n -> cnt tc' (kc (u ++ (m, i) :: R) n) =
     if (i <? cnt tc (kc u m))%N then cnt tc (kc (u ++ (m, i) :: R) n)
     else match sel_in l m (i - cnt tc (kc u m)) R with Some t' => named (kids_of t') n | None => 0%N end) /\
  (forall m, okname m -> cnt tc' (kc u m) = (cnt tc (kc u m) + named l m)%N) /\
  (forall s, (forall m i R, okname m -> goodp R -> s <> ks (u ++ (m, i) :: R)) -> mfind bcmp s cm' = mfind bcmp s cm) /\
  (forall s, (forall n, okname n -> s <> kc u n) ->
     (forall m i R n, okname m -> goodp R -> okname n -> s <> kc (u ++ (m, i) :: R) n) -> cnt tc' s = cnt tc s).

Lemma named_cons : forall t l m, named (t :: l) m = ((if beq (xname t) m then 1 else 0) + named l m)%N.
Proof. intros. unfold named. cbn [filter]. destruct (beq (xname t) m); rewrite ?len_cons; lia. Qed.
Lemma goodp_app : forall p q, goodp (p ++ q) <-> goodp p /\ goodp q.
Proof. intros. apply Forall_app. Qed.
Lemma goodp_cons : forall x q, goodp (x :: q) <-> okname (fst x) /\ goodp q.
Proof. intros. apply Forall_cons_iff. Qed.
Lemma path_neq : forall (u : path) x y R R', x <> y -> u ++ x :: R <> u ++ y :: R'.
Proof. intros u x y R R' N E. apply app_inv_head in E. congruence. Qed.
Lemma app_ne : forall (u : path) x R, u ++ x :: R <> [].
Proof. intros [|] x R; discriminate. Qed.

Ltac good := repeat first [ assumption | apply goodp_app; split | apply goodp_cons; split | constructor ].

Lemma recs_ok : forall l, Forall Rec l -> Recs l.
Proof.
  induction l as [|t l IH]; intros HR lvl u cm tc cm' tc' HN Gu Nu F1 F2 E.
  - cbn [Xml_Proofs.records] in E. injection E as <- <-.
    split; [|split; [|split; [|split]]].
    + intros m i R Hm HR'. destruct (i <? cnt tc (kc u m))%N eqn:L; [reflexivity|]. cbn. apply F1; auto. lia.
    + intros m i R n Hm HR' Hn. destruct (i <? cnt tc (kc u m))%N eqn:L; [reflexivity|]. cbn. apply F2; auto. lia.
    + intros m Hm. change (named [] m) with 0%N. lia.
    + reflexivity.
    + reflexivity.
  - apply Forall_cons_iff in HR as [HR1 HR2]. apply Forall_cons_iff in HN as [HN1 HN2].
    cbn [Xml_Proofs.records] in E.
    rewrite <- (kc_cons u (xname t) Nu) in E.
    destruct (record lvl (kc u (xname t)) t cm tc) as [cm1 tc1] eqn:E1.
    pose proof (okdoc_name _ _ HN1) as Ot. set (m0 := xname t) in *. set (k0 := cnt tc (kc u m0)) in *.
    assert (FR : fresh (u ++ [(m0, k0)]) cm tc).
    { split.
      - intros R H. rewrite <- app_assoc. apply F1; auto. unfold k0. lia.
      - intros R m H Hm. rewrite <- app_assoc. apply F2; auto. unfold k0. lia. }
    destruct (HR1 lvl u cm tc cm1 tc1 HN1 Gu FR E1) as (A1 & A2 & A3 & A4 & A5).
    fold m0 k0 in A1, A2, A3, A4, A5.
    assert (CC : forall m, okname m -> cnt tc1 (kc u m) = (cnt tc (kc u m) + (if beq m0 m then 1 else 0))%N).
    { intros m Hm. destruct (beq m0 m) eqn:B.
      - apply beq_eq in B. subst m. exact A3.
      - rewrite A5; [lia| |].
        + intros C. apply kc_inj in C as [_ C]; auto. subst m. now rewrite beq_refl in B.
        + intros R n HR' Hn C. apply kc_inj in C as [C _]; auto; [|good].
          rewrite <- app_assoc in C. symmetry in C. rewrite <- (app_nil_r u) in C at 2. apply app_inv_head in C. discriminate. }
    assert (OC : forall m i R, okname m -> goodp R -> (m, i) <> (m0, k0) ->
              mfind bcmp (ks (u ++ (m, i) :: R)) cm1 = mfind bcmp (ks (u ++ (m, i) :: R)) cm).
    { intros m i R Hm HR' N. apply A4. intros R' HR'' C. apply ks_inj in C; [| | |good|good].
      - rewrite <- app_assoc in C. revert C. now apply path_neq.
      - apply app_ne.
      - rewrite <- app_assoc. apply app_ne. }
    assert (OT : forall m i R n, okname m -> goodp R -> okname n -> (m, i) <> (m0, k0) ->
              cnt tc1 (kc (u ++ (m, i) :: R) n) = cnt tc (kc (u ++ (m, i) :: R) n)).
    { intros m i R n Hm HR' Hn N. apply A5.
      - intros C. apply kc_inj in C as [C _]; auto; [|good].
        rewrite <- (app_nil_r u) in C at 2. apply app_inv_head in C. discriminate.
      - intros R' n' HR'' Hn' C. apply kc_inj in C as [C _]; auto; [|good|good].
        rewrite <- app_assoc in C. revert C. now apply path_neq. }
    assert (NQ : forall m i, okname m -> (cnt tc1 (kc u m) <= i)%N -> (m, i) <> (m0, k0) /\ (cnt tc (kc u m) <= i)%N).
    { intros m i Hm L. rewrite CC in L by exact Hm. split; [|lia]. intros C. injection C as -> ->.
      rewrite beq_refl in L. unfold k0 in L. lia. }
    destruct (IH HR2 lvl u cm1 tc1 cm' tc' HN2 Gu Nu) as (B1 & B2 & B3 & B4 & B5).
    + intros m i R Hm HR' L. destruct (NQ m i Hm L) as [N1 N2]. rewrite OC by assumption. now apply F1.
    + intros m i R n Hm HR' Hn L. destruct (NQ m i Hm L) as [N1 N2]. rewrite OT by assumption. now apply F2.
    + exact E.
    + assert (X : forall m i, okname m ->
        (i <? cnt tc1 (kc u m))%N = (i <? cnt tc (kc u m))%N || (beq m0 m && (i =? k0)%N)).
      { intros m i Hm. rewrite CC by exact Hm. destruct (beq m0 m) eqn:B; cbn [andb].
        - apply beq_eq in B. subst m. fold k0. apply eq_true_iff_eq. rewrite orb_true_iff, !N.ltb_lt, N.eqb_eq. lia.
        - rewrite orb_false_r. f_equal. lia. }
      assert (Y : forall m i R, okname m -> (i <? cnt tc (kc u m))%N = false ->
        sel_in (t :: l) m (i - cnt tc (kc u m)) R =
        if beq m0 m && (i =? k0)%N then sel t R else sel_in l m (i - cnt tc1 (kc u m)) R).
      { intros m i R Hm L. rewrite CC by exact Hm. unfold sel_in. cbn [nth_named]. fold m0. destruct (beq m0 m) eqn:B; cbn [andb].
        - apply beq_eq in B. subst m. fold k0 in L |- *.
          destruct (N.eqb_spec i k0) as [->|N].
          + rewrite N.sub_diag. reflexivity.
          + replace (i - k0 =? 0)%N with false by lia. now replace (i - k0 - 1)%N with (i - (k0 + 1))%N by lia.
        - now rewrite N.add_0_r. }
      split; [|split; [|split; [|split]]].
      * intros m i R Hm HR'. rewrite B1, X by assumption.
        destruct (i <? cnt tc (kc u m))%N eqn:L; cbn [orb].
        -- apply OC; auto. intros C. injection C as -> ->. unfold k0 in L. lia.
        -- rewrite (Y m i R Hm L). destruct (beq m0 m && (i =? k0)%N) eqn:B; [|reflexivity].
           apply andb_prop in B as [B C]. apply beq_eq in B. apply N.eqb_eq in C. subst m i.
           specialize (A1 R HR'). rewrite <- app_assoc in A1. exact A1.
      * intros m i R n Hm HR' Hn. rewrite B2, X by assumption.
        destruct (i <? cnt tc (kc u m))%N eqn:L; cbn [orb].
        -- apply OT; auto. intros C. injection C as -> ->. unfold k0 in L. lia.
        -- rewrite (Y m i R Hm L). destruct (beq m0 m && (i =? k0)%N) eqn:B; [|reflexivity].
           apply andb_prop in B as [B C]. apply beq_eq in B. apply N.eqb_eq in C. subst m i.
           specialize (A2 R n HR' Hn). rewrite <- app_assoc in A2. exact A2.
      * intros m Hm. rewrite B3, CC, named_cons by exact Hm. fold m0. lia.
      * intros s Hs. rewrite B4 by exact Hs. apply A4. intros R HR'. rewrite <- app_assoc. apply Hs; auto.
      * intros s Hs Hs2. rewrite B5 by assumption. apply A5; [now apply Hs|].
        intros R n HR' Hn. rewrite <- app_assoc. now apply Hs2.
Qed.

Lemma rec_ok : forall t, Rec t.
Proof.
  apply xt_ind2.
  - intros n raw txt lvl p cm tc cm' tc' HN Gp m k u [F1 F2] E. cbn [Xml_Proofs.record] in E. injection E as <- <-.
    change (xname (Leaf n raw txt)) with n in *. subst m. fold k. destruct HN as [Hn _].
    assert (Gu : goodp u) by (unfold u; good).
    assert (Eu : idx (kc p n) k = ks (u ++ [])) by (rewrite app_nil_r; unfold u; now rewrite ks_snoc).
    assert (Nk : forall R n', goodp R -> okname n' -> kc (u ++ R) n' <> kc p n).
    { intros R n' HR Hn' C. apply kc_inj in C as [C _]; auto; [|good]. unfold u in C. rewrite <- app_assoc in C.
      rewrite <- (app_nil_r p) in C at 2. apply app_inv_head in C. discriminate. }
    split; [|split; [|split; [|split]]].
    + intros R HR. rewrite mfind_put. destruct R as [|[m i] R].
      * rewrite <- Eu, beq_refl. cbn [sel]. unfold Xml_Spec.cont. destruct txt; [|reflexivity].
        rewrite Eu. now apply F1.
      * rewrite beq_neq; [cbn; apply F1; auto|]. rewrite Eu. intros C. apply ks_inj in C.
        -- apply app_inv_head in C. discriminate.
        -- apply app_ne.
        -- rewrite app_nil_r. unfold u. apply app_ne.
        -- good.
        -- good.
    + intros R n' HR Hn'. rewrite cnt_mset, beq_neq by (now apply Nk). rewrite F2 by assumption.
      destruct R as [|[m i] R]; reflexivity.
    + rewrite cnt_mset, beq_refl. reflexivity.
    + intros s Hs. rewrite mfind_put, beq_neq; [reflexivity|]. rewrite Eu. apply Hs. constructor.
    + intros s Hs Hs2. rewrite cnt_mset, beq_neq by exact Hs. reflexivity.
  - intros n kids IH lvl p cm tc cm' tc' HN Gp m k u [F1 F2] E. rewrite record_node in E. cbv zeta in E.
    change (xname (Node n kids)) with n in *. subst m. fold k in E. apply named_ok_node in HN as [Hn HK].
    assert (Gu : goodp u) by (unfold u; good).
    assert (Nu : u <> []) by apply app_ne.
    assert (Eu : idx (kc p n) k = ks u) by (unfold u; now rewrite ks_snoc).
    rewrite Eu in E.
    destruct (records (S lvl) (ks u) kids cm (mset bcmp (kc p n) (k + 1)%N tc)) as [cm1 tc1] eqn:ER.
    injection E as <- <-.
    assert (Nk : forall R n', goodp R -> okname n' -> kc (u ++ R) n' <> kc p n).
    { intros R n' HR Hn' C. apply kc_inj in C as [C _]; auto; [|good]. unfold u in C. rewrite <- app_assoc in C.
      rewrite <- (app_nil_r p) in C at 2. apply app_inv_head in C. discriminate. }
    assert (C0 : forall R m, goodp R -> okname m -> cnt (mset bcmp (kc p n) (k + 1)%N tc) (kc (u ++ R) m) = 0%N).
    { intros R m HR Hm. rewrite cnt_mset, beq_neq by (now apply Nk). now apply F2. }
    assert (C1 : forall m, okname m -> cnt (mset bcmp (kc p n) (k + 1)%N tc) (kc u m) = 0%N).
    { intros m Hm. specialize (C0 [] m ltac:(constructor) Hm). now rewrite app_nil_r in C0. }
    assert (C2 : forall m i R, okname m -> goodp R -> mfind bcmp (ks (u ++ (m, i) :: R)) cm = None).
    { intros m i R Hm HR. apply F1. now constructor. }
    assert (C3 : forall m i R n', okname m -> goodp R -> okname n' ->
       cnt (mset bcmp (kc p n) (k + 1)%N tc) (kc (u ++ (m, i) :: R) n') = 0%N).
    { intros m i R n' Hm HR Hn'. apply C0; [now constructor|exact Hn']. }
    destruct (recs_ok kids IH (S lvl) u cm _ cm1 tc1 HK Gu Nu (fun m i R a b _ => C2 m i R a b)
                (fun m i R n' a b c _ => C3 m i R n' a b c) ER) as (A1 & A2 & A3 & A4 & A5).
    split; [|split; [|split; [|split]]].
      * intros R HR. rewrite mfind_put. destruct R as [|[m i] R].
        -- rewrite app_nil_r, beq_refl. cbn [sel length]. rewrite Nat.add_0_r. unfold Xml_Spec.cont.
           destruct (spaces pp lvl kids) eqn:ES; [|reflexivity].
           rewrite A4; [specialize (F1 [] ltac:(constructor)); now rewrite app_nil_r in F1|].
           intros m i R Hm HR' C. apply ks_inj in C; auto; [| apply app_ne|good].
           rewrite <- (app_nil_r u) in C at 1. apply app_inv_head in C. discriminate.
        -- apply goodp_cons in HR as [Hm HR]. cbn [fst] in Hm.
           rewrite beq_neq.
           ++ rewrite A1 by assumption. rewrite C1 by assumption. replace (i <? 0)%N with false by lia. rewrite N.sub_0_r.
              unfold sel_in. cbn [sel kids_of length]. replace (lvl + S (length R)) with (S lvl + length R) by lia. reflexivity.
           ++ intros C. apply ks_inj in C; auto; [| apply app_ne|good].
              rewrite <- (app_nil_r u) in C at 2. apply app_inv_head in C. discriminate.
      * intros R n' HR Hn'. destruct R as [|[m i] R].
        -- rewrite app_nil_r, A3, C1 by assumption. reflexivity.
        -- apply goodp_cons in HR as [Hm HR]. cbn [fst] in Hm. rewrite A2, C1 by assumption.
           replace (i <? 0)%N with false by lia. rewrite N.sub_0_r. reflexivity.
      * rewrite A5.
        -- rewrite cnt_mset, beq_refl. reflexivity.
        -- intros m Hm C. specialize (Nk [] m ltac:(constructor) Hm). rewrite app_nil_r in Nk. congruence.
        -- intros m i R n' Hm HR Hn' C. symmetry in C. revert C. apply Nk; [now constructor|exact Hn'].
      * intros s Hs. rewrite mfind_put, beq_neq.
        -- apply A4. intros m i R Hm HR. apply Hs. now constructor.
        -- specialize (Hs [] ltac:(constructor)). now rewrite app_nil_r in Hs.
      * intros s Hs Hs2. rewrite A5.
        -- rewrite cnt_mset, beq_neq by exact Hs. reflexivity.
        -- intros m Hm. specialize (Hs2 [] m ltac:(constructor) Hm). now rewrite app_nil_r in Hs2.
        -- intros m i R n' Hm HR Hn'. apply Hs2; [now constructor|exact Hn'].
Qed.

Notation records_doc := (records_doc pp).
Theorem parse_doc : forall t rest, okdoc okleaf t ->
  exists cm tc, parse (render pp 1 t ++ rest) [] [] = POk (cm, tc) /\ records_doc [t] cm tc.
Proof.
  intros t rest H. rewrite parse_render by exact H.
  destruct (record 1 (xname t) t [] []) as [cm tc] eqn:E. exists cm, tc. split; [reflexivity|].
  assert (HN : named_ok t) by (eapply okdoc_impl; [|exact H]; auto).
  pose proof (okdoc_name _ _ HN) as Ot.
  destruct (rec_ok t 1 [] [] [] cm tc HN) as (A1 & A2 & A3 & A4 & A5);
    [constructor|split; reflexivity|exact E|].
  change (cnt [] (kc [] (xname t))) with 0%N in *. cbn [app] in *.
  split; [|split; [|split]].
  - intros [|[m i] R] HR NE; [congruence|]. apply goodp_cons in HR as [Hm HR]. cbn [fst] in Hm.
    cbn [sel doc kids_of nth_named length].
    destruct (beq (xname t) m) eqn:B.
    + apply beq_eq in B. subst m. destruct (N.eqb_spec i 0) as [->|N].
      * now apply A1.
      * rewrite A4; [reflexivity|]. intros R' HR' C. apply ks_inj in C; [congruence|discriminate|discriminate|good|good].
    + rewrite A4; [reflexivity|]. intros R' HR' C. apply ks_inj in C; [|discriminate|discriminate|good|good].
      injection C as -> _ _. now rewrite beq_refl in B.
  - intros [|[m i] R] n HR Hn.
    + cbn [sel doc kids_of]. change (kc [] n) with n. rewrite named_cons. unfold named. cbn [filter len length].
      destruct (beq (xname t) n) eqn:B.
      * apply beq_eq in B. subst n. exact A3.
      * rewrite A5; [reflexivity| |].
        -- intros C. change (kc [] (xname t)) with (xname t) in C. subst n. now rewrite beq_refl in B.
        -- intros R' n' HR' Hn' C. change n with (kc [] n) in C. apply kc_inj in C as [C _]; auto; [discriminate|good].
    + apply goodp_cons in HR as [Hm HR]. cbn [fst] in Hm. cbn [sel doc kids_of nth_named].
      destruct (beq (xname t) m) eqn:B.
      * apply beq_eq in B. subst m. destruct (N.eqb_spec i 0) as [->|N].
        -- now apply A2.
        -- rewrite A5; [reflexivity| |].
           ++ intros C. apply kc_inj in C as [C _]; auto; [discriminate|good|good].
           ++ intros R' n' HR' Hn' C. apply kc_inj in C as [C _]; auto; [congruence|good|good].
      * rewrite A5; [reflexivity| |].
        -- intros C. apply kc_inj in C as [C _]; auto; [discriminate|good|good].
        -- intros R' n' HR' Hn' C. apply kc_inj in C as [C _]; auto; [|good|good].
           injection C as -> _ _. now rewrite beq_refl in B.
  - intros s Hs. rewrite A4; [reflexivity|]. intros R HR. apply Hs; [good|discriminate].
  - intros s Hs. rewrite A5; [reflexivity| |].
    + apply Hs; [constructor|exact Ot].
    + intros R n HR Hn. apply Hs; [good|exact Hn].
Qed.
End Record.

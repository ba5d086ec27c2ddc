(** * Properties of the REST registry: C36 dispatch, C37 overloads, C38 registration *)
From Verif Require Import Base Base_Proofs SMap Desc_Model Desc_Props Json_Model Rest_Model.
From Coq Require Import Permutation.
Ltac Zify.zify_post_hook ::= Z.div_mod_to_equations.

(** ** C36: the longest registered prefix ending at a dot *)
(** [p] is a non empty prefix of the query ending at the end of the query or before a
    dot; [t] is the rest *)
Definition cut (q p t : list ascii) : Prop :=
  q = p ++ t /\ p <> [] /\ (t = [] \/ exists r, t = dot :: r).

(** what is done with the object found: the three queries answered by the registry
    itself, everything else goes to the object *)
Definition served {E} (e : E) (t : list ascii) : answer E :=
  if list_eq_dec ascii_dec t (bs ".@signature") then ASignature e
  else if list_eq_dec ascii_dec t (bs ".@list") then AList e
  else if list_eq_dec ascii_dec t (bs ".@type") then AType e
  else ACall e t.

Section C36.
Variable E : Type.
Variable wrapper : E -> bool.
Variable m : registry E.
Notation process := (process E wrapper m).
Notation dispatch := (dispatch E wrapper).
Notation at_entry := (at_entry E wrapper).

Lemma beq_dec : forall a b, beq a b = if list_eq_dec ascii_dec a b then true else false.
Proof.
  intros a b. destruct (list_eq_dec ascii_dec a b) as [->|H]; [apply beq_refl|].
  destruct (beq a b) eqn:E0; [|reflexivity]. now apply beq_eq in E0.
Qed.

Lemma at_entry_served : forall e n t, n <> O -> at_entry e n t = served e t.
Proof.
  intros e n t H. unfold at_entry, served. rewrite !beq_dec.
  replace (n =? 0) with false by (symmetry; now apply Nat.eqb_neq).
  destruct (list_eq_dec ascii_dec t (bs ".@signature")); [reflexivity|].
  destruct (list_eq_dec ascii_dec t (bs ".@list")); [reflexivity|].
  destruct (list_eq_dec ascii_dec t (bs ".@type")); reflexivity.
Qed.

Definition bnd (q : list ascii) (n : nat) : Prop :=
  n <= length q /\ (skipn n q = [] \/ exists r, skipn n q = dot :: r).

Lemma cut_dot_in : forall q p t n, cut q p t -> length p < n -> n <= length q ->
  firstn n q = p ++ dot :: firstn (n - S (length p)) (skipn (S (length p)) q).
Proof.
  intros q p t n (Eq & Hp & Ht) H1 H2. destruct Ht as [->|[r ->]].
  { rewrite app_nil_r in Eq. subst. lia. }
  subst q. rewrite firstn_app. rewrite (firstn_all2 p) by lia. f_equal.
  replace (n - length p) with (S (n - S (length p))) by lia. cbn [firstn]. f_equal. f_equal.
  replace (S (length p)) with (length p + 1) by lia. rewrite skipn_app.
  rewrite skipn_all2 by lia. replace (length p + 1 - length p) with 1 by lia. reflexivity.
Qed.

Lemma dispatch_spec : forall f q n, S (S n) <= f -> bnd q n ->
  (exists p t e, cut q p t /\ length p <= n /\ mfind bcmp p m = Some e /\
     (forall p' t', cut q p' t' -> length p < length p' <= n -> mfind bcmp p' m = None) /\
     dispatch f m q (firstn n q) (Some n) = Some (served e t)) \/
  ((forall p t, cut q p t -> length p <= n -> mfind bcmp p m = None) /\
   dispatch f m q (firstn n q) (Some n) =
     Some (match mfind bcmp [] m with None => ANotFound | Some e => at_entry e 0 q end)).
Proof.
  induction f as [|f IH]; intros q n Hf [Hn Hb]; [lia|].
  destruct (Nat.eq_dec n 0) as [->|N0].
  { right. split.
    - intros p t (Eq & Hp & _) L. destruct p; [congruence|cbn in L; lia].
    - cbn [dispatch firstn skipn]. destruct (mfind bcmp [] m); reflexivity. }
  cbn [dispatch]. destruct (mfind bcmp (firstn n q) m) as [e|] eqn:Em.
  - left. exists (firstn n q), (skipn n q), e. assert (length (firstn n q) = n) by (rewrite firstn_length; lia).
    split; [|split; [lia|split; [exact Em|split; [intros; lia|]]]].
    + split; [symmetry; apply firstn_skipn|]. split; [|exact Hb]. destruct (firstn n q); [cbn in *; lia|discriminate].
    + now rewrite at_entry_served.
  - replace (n =? 0) with false by (symmetry; now apply Nat.eqb_neq).
    destruct (rfind dot (firstn n q)) as [k|] eqn:R.
    + destruct (rfind_some _ _ _ R) as [R1 R2].
      assert (Lk : k < n).
      { assert (H : length (firstn n q) = n) by (rewrite firstn_length; lia).
        rewrite R1 in H. rewrite app_length in H. cbn [length] in H.
        rewrite firstn_length, skipn_length, firstn_length in H. lia. }
      rewrite firstn_firstn. replace (Nat.min k n) with k by lia.
      assert (B : bnd q k).
      { split; [lia|]. right. exists (skipn (S k) (firstn n q) ++ skipn n q).
        rewrite <- (firstn_skipn n q) at 1. rewrite R1 at 1. rewrite <- app_assoc.
        rewrite firstn_firstn. replace (Nat.min k n) with k by lia.
        rewrite skipn_app. rewrite skipn_all2 by (rewrite firstn_length; lia).
        rewrite firstn_length. replace (k - Nat.min k (length q)) with 0 by lia. reflexivity. }
      assert (Gap : forall p t, cut q p t -> k < length p <= n -> mfind bcmp p m = None).
      { intros p t C L. destruct (Nat.eq_dec (length p) n) as [Ep|Np].
        - destruct C as (Eq & _ & _). replace p with (firstn n q); [exact Em|].
          subst q. rewrite <- Ep, firstn_app. rewrite Nat.sub_diag, firstn_all. cbn [firstn]. apply app_nil_r.
        - exfalso. assert (H := cut_dot_in q p t n C ltac:(lia) Hn). apply R2.
          replace (skipn (S k) (firstn n q)) with (skipn (S k) p ++ dot :: firstn (n - S (length p)) (skipn (S (length p)) q)).
          + apply in_or_app. right. now left.
          + rewrite H, skipn_app. replace (S k - length p) with 0 by lia. reflexivity. }
      destruct (IH q k ltac:(lia) B) as [(p & t & e & C & L & Fe & Mx & D)|[Nn D]].
      * left. exists p, t, e. repeat split; try assumption; try apply C; [lia|].
        intros p' t' C' L'. destruct (Nat.le_gt_cases (length p') k); [now apply (Mx p' t')|].
        apply (Gap p' t'); [exact C'|lia].
      * right. split; [|exact D]. intros p t C L.
        destruct (Nat.le_gt_cases (length p) k); [now apply (Nn p t)|]. apply (Gap p t); [exact C|lia].
    + right. destruct f as [|f]; [lia|]. split.
      * intros p t C L. destruct (Nat.eq_dec (length p) n) as [Ep|Np].
        -- destruct C as (Eq & _ & _). replace p with (firstn n q); [exact Em|].
           subst q. rewrite <- Ep, firstn_app. rewrite Nat.sub_diag, firstn_all. cbn [firstn]. apply app_nil_r.
        -- exfalso. apply (proj1 (rfind_none _ _) R). rewrite (cut_dot_in q p t n C ltac:(lia) Hn).
           apply in_or_app. right. now left.
      * cbn [dispatch skipn]. destruct (mfind bcmp [] m); reflexivity.
Qed.

Lemma process_spec : forall q, q <> bs "@enum.@list" ->
  (exists p t e, cut q p t /\ mfind bcmp p m = Some e /\
     (forall p' t', cut q p' t' -> length p < length p' -> mfind bcmp p' m = None) /\
     process q = Some (served e t)) \/
  ((forall p t, cut q p t -> mfind bcmp p m = None) /\
   process q = Some (match mfind bcmp [] m with None => ANotFound | Some e => at_entry e 0 q end)).
Proof.
  intros q Hq. unfold process. rewrite beq_dec. destruct (list_eq_dec ascii_dec q (bs "@enum.@list")); [congruence|].
  destruct (dispatch_spec (S (S (length q))) q (length q)) as [(p & t & e & C & L & Fe & Mx & D)|[Nn D]];
    [lia|split; [lia|left; apply skipn_all]| |].
  - left. exists p, t, e. rewrite firstn_all in D. repeat split; try apply C; try assumption.
    intros p' t' C' L'. apply (Mx p' t'); [exact C'|]. split; [exact L'|].
    destruct C' as (-> & _). rewrite app_length. lia.
  - right. rewrite firstn_all in D. split; [|exact D]. intros p t C. apply (Nn p t); [exact C|].
    destruct C as (-> & _). rewrite app_length. lia.
Qed.

Lemma app_inj_len : forall (p p' t t' : list ascii), length p = length p' -> p ++ t = p' ++ t' -> p = p' /\ t = t'.
Proof.
  induction p as [|a p IH]; destruct p' as [|b p']; cbn [length app]; intros t t' L H; try discriminate; [auto|].
  injection H as -> H. destruct (IH p' t t') as [-> ->]; [lia|exact H|]. auto.
Qed.

(** a query is handed to the object with the longest registered name, with the rest *)
Theorem C36_longest_prefix : forall q p t e, q <> bs "@enum.@list" ->
  cut q p t -> mfind bcmp p m = Some e ->
  (forall p' t', cut q p' t' -> length p < length p' -> mfind bcmp p' m = None) ->
  process q = Some (served e t).
Proof.
  intros q p t e Hq C Fe Mx. destruct (process_spec q Hq) as [(p' & t' & e' & C' & Fe' & Mx' & D)|[Nn D]].
  - rewrite D. assert (L : length p = length p').
    { destruct (Nat.lt_trichotomy (length p) (length p')) as [L|[L|L]]; [|exact L|].
      - rewrite (Mx p' t' C' L) in Fe'. discriminate.
      - rewrite (Mx' p t C L) in Fe. discriminate. }
    destruct C as (E1 & _), C' as (E2 & _). rewrite E1 in E2. destruct (app_inj_len _ _ _ _ L E2) as [-> ->].
    congruence.
  - rewrite (Nn p t C) in Fe. discriminate.
Qed.

(** with no registered prefix the object of empty name gets the whole query, provided
    it is a wrapper (container or pointer) or the query is one the registry answers *)
Theorem C36_empty_name : forall q, q <> bs "@enum.@list" ->
  (forall p t, cut q p t -> mfind bcmp p m = None) ->
  process q = Some (match mfind bcmp [] m with
                    | None => ANotFound
                    | Some e => match served e q with
                                | ACall _ _ => if wrapper e then ACall e q else ANotFound
                                | a => a
                                end
                    end).
Proof.
  intros q Hq N0. destruct (process_spec q Hq) as [(p & t & e & C & Fe & _)|[_ D]].
  - rewrite (N0 p t C) in Fe. discriminate.
  - rewrite D. destruct (mfind bcmp [] m) as [e|]; [|reflexivity]. unfold at_entry, served. rewrite !beq_dec.
    destruct (list_eq_dec ascii_dec q (bs ".@signature")); [reflexivity|].
    destruct (list_eq_dec ascii_dec q (bs ".@list")); [reflexivity|].
    destruct (list_eq_dec ascii_dec q (bs ".@type")); [reflexivity|].
    cbn [Nat.eqb negb orb]. destruct (wrapper e); reflexivity.
Qed.

(** "Command not found" exactly when there is nothing that may take the query *)
Theorem C36_not_found : forall q, q <> bs "@enum.@list" ->
  (process q = Some ANotFound <->
   (forall p t, cut q p t -> mfind bcmp p m = None) /\
   (forall e, mfind bcmp [] m = Some e ->
      wrapper e = false /\ q <> bs ".@signature" /\ q <> bs ".@list" /\ q <> bs ".@type")).
Proof.
  intros q Hq. destruct (process_spec q Hq) as [(p & t & e & C & Fe & Mx & D)|[Nn D]].
  - rewrite D. split.
    + unfold served. intros H. repeat destruct (list_eq_dec ascii_dec _ _); discriminate.
    + intros [N0 _]. rewrite (N0 p t C) in Fe. discriminate.
  - rewrite (C36_empty_name q Hq Nn). split.
    + intros H. split; [exact Nn|]. intros e He. rewrite He in H. unfold served in H.
      destruct (list_eq_dec ascii_dec q (bs ".@signature")); [discriminate|].
      destruct (list_eq_dec ascii_dec q (bs ".@list")); [discriminate|].
      destruct (list_eq_dec ascii_dec q (bs ".@type")); [discriminate|].
      destruct (wrapper e); [discriminate|]. repeat split; assumption.
    + intros [_ H]. destruct (mfind bcmp [] m) as [e|] eqn:He; [|reflexivity].
      destruct (H e eq_refl) as (W0 & H1 & H2 & H3). unfold served.
      destruct (list_eq_dec ascii_dec q (bs ".@signature")); [congruence|].
      destruct (list_eq_dec ascii_dec q (bs ".@list")); [congruence|].
      destruct (list_eq_dec ascii_dec q (bs ".@type")); [congruence|]. now rewrite W0.
Qed.

(** the search always ends *)
Theorem C36_terminates : forall q, process q <> None.
Proof.
  intros q. destruct (list_eq_dec ascii_dec q (bs "@enum.@list")) as [->|Hq].
  - unfold process. rewrite beq_refl. discriminate.
  - destruct (process_spec q Hq) as [(p & t & e & _ & _ & _ & D)|[_ D]]; rewrite D; discriminate.
Qed.

(** the list of enums *)
Theorem C36_enum_list : (forall k e, In (k, e) m -> firstn 5 k = bs "@enum" -> 6 <= length k) ->
  process (bs "@enum.@list") =
  Some (AEnums (map (fun p => skipn 6 (fst p))
                    (filter (fun p => if list_eq_dec ascii_dec (firstn 5 (fst p)) (bs "@enum") then true else false) m))).
Proof.
  intros H. unfold process. rewrite beq_refl. replace (enums E m) with
    (Some (map (fun p => skipn 6 (fst p))
       (filter (fun p => if list_eq_dec ascii_dec (firstn 5 (fst p)) (bs "@enum") then true else false) m)));
    [reflexivity|].
  induction m as [|[k e] m' IH]; cbn [enums filter map]; [reflexivity|].
  unfold prefixb. rewrite beq_dec. change (length (bs "@enum")) with 5. cbn [fst].
  rewrite <- IH by (intros k' e' Hin; apply (H k' e'); now right).
  destruct (list_eq_dec ascii_dec (firstn 5 k) (bs "@enum")) as [E1|E1]; [|reflexivity].
  assert (L := H k e (or_introl eq_refl) E1).
  replace (length k <? 6) with false by (symmetry; apply Nat.ltb_ge; exact L). reflexivity.
Qed.
End C36.

Definition reg36 : registry nat :=
  mset bcmp (bs "a.b") 2 (mset bcmp (bs "a") 1 (mset bcmp (bs "") 0 (mset bcmp (bs "@enum.E") 3 []))).
Example C36_ex1 : process nat (fun _ => true) reg36 (bs "a.b.c.d") = Some (ACall 2 (bs ".c.d")) /\
  cut (bs "a.b.c.d") (bs "a.b") (bs ".c.d").
Proof. split; [vm_compute; reflexivity|]. split; [reflexivity|]. split; [discriminate|]. right. eexists. reflexivity. Qed.
Example C36_ex2 : process nat (fun _ => true) reg36 (bs "ab.@list") = Some (ACall 0 (bs "ab.@list")) /\
  process nat (fun _ => false) reg36 (bs "ab.@list") = Some ANotFound /\
  process nat (fun _ => false) reg36 (bs "a.@list") = Some (AList 1) /\
  process nat (fun _ => false) reg36 (bs "@enum.@list") = Some (AEnums [bs "E"]).
Proof. vm_compute. auto. Qed.

(** an object registered as "@enum" makes the listing throw std::out_of_range *)
Theorem C36_enum_list_refuted : exists m : registry nat,
  process nat (fun _ => false) m (bs "@enum.@list") = Some AOutOfRange.
Proof. exists [(bs "@enum", 1)]. vm_compute. reflexivity. Qed.

Print Assumptions C36_longest_prefix.
Print Assumptions C36_empty_name.
Print Assumptions C36_not_found.
Print Assumptions C36_terminates.
Print Assumptions C36_enum_list.
Print Assumptions C36_enum_list_refuted.

(** ** C37: choice between overloads *)
Section C37.
Variable F : Type.
Variable score : F -> N.
Notation overload := (overload F score).

(** the loop invariant: what the best candidate, its score and its count are after the
    overloads [l] *)
Definition oinv (front : F) (l : list F) (st : F * N * N) : Prop :=
  let '(best, b, cnt) := st in
  ((best = front /\ b = maxMatchScore) \/ (In best l /\ score best = b /\ (b < maxMatchScore)%N)) /\
  (forall g, In g l -> (score g < maxMatchScore)%N -> (b <= score g)%N) /\
  cnt = N.of_nat (length (filter (fun g => score g =? b)%N l)).

Lemma filter_none : forall (l : list F) (p : F -> bool), (forall g, In g l -> p g = false) -> filter p l = [].
Proof.
  induction l as [|x l IH]; intros p H; cbn [filter]; [reflexivity|]. rewrite (H x) by now left.
  apply IH. intros g Hg. apply H. now right.
Qed.
Lemma ostep_inv : forall front l st i, oinv front l st -> oinv front (l ++ [i]) (ostep F score st i).
Proof.
  intros front l [[best b] cnt] i (Hb & Hm & Hc). unfold ostep.
  destruct (N.ltb_spec (score i) b) as [L|L].
  - assert (B : (score i < maxMatchScore)%N) by (destruct Hb as [[_ ->]|(_ & _ & ?)]; lia).
    split; [|split].
    + right. split; [apply in_or_app; right; now left|]. split; [reflexivity|exact B].
    + intros g Hg Lg. apply in_app_or in Hg as [Hg|[<-|[]]]; [|lia]. specialize (Hm g Hg Lg). lia.
    + rewrite filter_app. cbn [filter]. rewrite N.eqb_refl. rewrite filter_none; [reflexivity|].
      intros g Hg. apply N.eqb_neq. intros Eg. specialize (Hm g Hg ltac:(lia)). lia.
  - destruct (N.eqb_spec (score i) b) as [Q|Q].
    + split; [|split].
      * destruct Hb as [Hb|(Hi & Hs & Hl)]; [now left|]. right. split; [apply in_or_app; now left|]. auto.
      * intros g Hg Lg. apply in_app_or in Hg as [Hg|[<-|[]]]; [now apply Hm|lia].
      * rewrite filter_app, app_length. cbn [filter]. rewrite Q, N.eqb_refl. cbn [length]. lia.
    + split; [|split].
      * destruct Hb as [Hb|(Hi & Hs & Hl)]; [now left|]. right. split; [apply in_or_app; now left|]. auto.
      * intros g Hg Lg. apply in_app_or in Hg as [Hg|[<-|[]]]; [now apply Hm|lia].
      * rewrite filter_app, app_length. cbn [filter].
        replace (score i =? b)%N with false by (symmetry; now apply N.eqb_neq). cbn [length]. lia.
Qed.
Lemma ofold_inv : forall front l2 l1 st, oinv front l1 st ->
  oinv front (l1 ++ l2) (fold_left (ostep F score) l2 st).
Proof.
  induction l2 as [|i l2 IH]; intros l1 st H; cbn [fold_left]; [now rewrite app_nil_r|].
  replace (l1 ++ i :: l2) with ((l1 ++ [i]) ++ l2) by (rewrite <- app_assoc; reflexivity).
  apply IH. now apply ostep_inv.
Qed.

(** at least two different positions of [fs] hold overloads of score [s] *)
Definition shared (fs : list F) (s : N) : Prop :=
  exists l1 f l2 g l3, fs = l1 ++ f :: l2 ++ g :: l3 /\ score f = s /\ score g = s.
Lemma two_filter : forall fs s, 2 <= length (filter (fun g => score g =? s)%N fs) <-> shared fs s.
Proof.
  intros fs s. split.
  - induction fs as [|x fs IH]; cbn [filter length]; [lia|]. destruct (N.eqb_spec (score x) s) as [Q|Q]; cbn [length]; intros H.
    + assert (H1 : exists g, In g (filter (fun g => score g =? s)%N fs)).
      { destruct (filter (fun g => score g =? s)%N fs) as [|g r]; [cbn in H; lia|]. exists g. now left. }
      destruct H1 as [g Hg]. apply filter_In in Hg as [Hg Sg]. apply in_split in Hg as (l2 & l3 & ->).
      exists [], x, l2, g, l3. split; [reflexivity|]. split; [exact Q|]. now apply N.eqb_eq.
    + destruct (IH H) as (l1 & f & l2 & g & l3 & -> & ? & ?). exists (x :: l1), f, l2, g, l3. auto.
  - intros (l1 & f & l2 & g & l3 & -> & Hf & Hg). rewrite !filter_app. cbn [filter].
    replace (score f =? s)%N with true by (symmetry; now apply N.eqb_eq). rewrite filter_app. cbn [filter].
    replace (score g =? s)%N with true by (symmetry; now apply N.eqb_eq).
    rewrite !app_length. cbn [length]. rewrite app_length. cbn [length]. lia.
Qed.

(** the overload called has a strictly smaller score than all the others *)
Theorem C37_best : forall fs f,
  overload fs = CPick f <->
  (score f < maxMatchScore)%N /\
  exists l1 l2, fs = l1 ++ f :: l2 /\ forall g, In g (l1 ++ l2) -> (score f < score g)%N.
Proof.
  intros fs f. destruct fs as [|front fs'].
  { split; [discriminate|]. intros (_ & l1 & l2 & H & _). destruct l1; discriminate. }
  cbn [overload Rest_Model.overload].
  assert (I : oinv front ([] ++ front :: fs') (fold_left (ostep F score) (front :: fs') (front, maxMatchScore, 0%N))).
  { apply ofold_inv. split; [now left|]. split; [intros g []|reflexivity]. }
  cbn [app] in I. set (fs := front :: fs') in *.
  destruct (fold_left (ostep F score) fs (front, maxMatchScore, 0%N)) as [[best b] cnt].
  destruct I as (Hb & Hm & Hc).
  destruct (N.leb_spec maxMatchScore (score best)) as [L|L].
  - split; [discriminate|]. intros (Lf & l1 & l2 & Efs & Hg). exfalso.
    assert (Inf : In f fs) by (rewrite Efs; apply in_or_app; right; now left).
    specialize (Hm f Inf Lf). destruct Hb as [[-> ->]|(Hi & Hs & Hl)]; lia.
  - assert (Hb' : In best fs /\ score best = b /\ (b < maxMatchScore)%N).
    { destruct Hb as [[-> ->]|Hb]; [|exact Hb]. exfalso.
      assert (In front fs) by now left. specialize (Hm front H L). lia. }
    destruct Hb' as (Hi & Hs & Hl). clear Hb.
    destruct (N.ltb_spec 1 cnt) as [C|C].
    + split; [discriminate|]. intros (Lf & l1 & l2 & Efs & Hg). exfalso.
      assert (S2 : shared fs b) by (apply two_filter; lia).
      assert (Inf : In f fs) by (rewrite Efs; apply in_or_app; right; now left).
      assert (B1 := Hm f Inf Lf).
      assert (Q : score f = b).
      { destruct (N.eq_dec (score f) b) as [Q|Q]; [exact Q|]. exfalso.
        rewrite Efs in Hi. apply in_app_or in Hi as [Hi|[->|Hi]]; [| |];
          [specialize (Hg best (in_or_app _ _ _ (or_introl Hi)))|congruence|specialize (Hg best (in_or_app _ _ _ (or_intror Hi)))]; lia. }
      apply two_filter in S2. rewrite Efs, filter_app in S2. cbn [filter] in S2. rewrite Q, N.eqb_refl in S2.
      rewrite app_length in S2. cbn [length] in S2.
      rewrite (filter_none l1), (filter_none l2) in S2.
      * cbn in S2. lia.
      * intros g Hg0. apply N.eqb_neq. intros Eg. specialize (Hg g (in_or_app _ _ _ (or_intror Hg0))). lia.
      * intros g Hg0. apply N.eqb_neq. intros Eg. specialize (Hg g (in_or_app _ _ _ (or_introl Hg0))). lia.
    + split.
      * intros H. assert (best = f) by congruence. subst best. split; [lia|].
        apply in_split in Hi as (l1 & l2 & Efs). exists l1, l2. split; [exact Efs|]. intros g Hg.
        destruct (N.lt_ge_cases (score g) maxMatchScore) as [Lg|Lg]; [|lia].
        assert (Ing : In g fs) by (rewrite Efs; apply in_app_or in Hg; apply in_or_app; cbn; tauto).
        specialize (Hm g Ing Lg). destruct (N.eq_dec (score g) b) as [Q|Q]; [|lia]. exfalso.
        rewrite Efs, filter_app, app_length in Hc. cbn [filter] in Hc. rewrite Hs, N.eqb_refl in Hc. cbn [length] in Hc.
        apply in_app_or in Hg as [Hg|Hg];
          assert (Hf : In g (filter (fun g => score g =? b)%N l1) \/ In g (filter (fun g => score g =? b)%N l2))
            by (rewrite !filter_In; rewrite N.eqb_eq; tauto);
          destruct Hf as [Hf|Hf];
          [destruct (filter (fun g => score g =? b)%N l1); [destruct Hf|cbn [length] in Hc; lia]
          |destruct (filter (fun g => score g =? b)%N l2); [destruct Hf|cbn [length] in Hc; lia]
          |destruct (filter (fun g => score g =? b)%N l1); [destruct Hf|cbn [length] in Hc; lia]
          |destruct (filter (fun g => score g =? b)%N l2); [destruct Hf|cbn [length] in Hc; lia]].
      * intros (Lf & l1 & l2 & Efs & Hg). f_equal.
        assert (Inf : In f fs) by (rewrite Efs; apply in_or_app; right; now left).
        assert (B1 := Hm f Inf Lf). rewrite Efs in Hi.
        apply in_app_or in Hi as [Hi|[->|Hi]]; [| |]; [|reflexivity|];
          [specialize (Hg best (in_or_app _ _ _ (or_introl Hi)))|specialize (Hg best (in_or_app _ _ _ (or_intror Hi)))]; lia.
Qed.

(** no overload accepts the arguments *)
Theorem C37_no_match : forall fs,
  overload fs = CNone <-> fs <> [] /\ forall g, In g fs -> (maxMatchScore <= score g)%N.
Proof.
  intros fs. destruct fs as [|front fs']; [split; [discriminate|intros [H _]; congruence]|].
  cbn [overload Rest_Model.overload].
  assert (I : oinv front ([] ++ front :: fs') (fold_left (ostep F score) (front :: fs') (front, maxMatchScore, 0%N))).
  { apply ofold_inv. split; [now left|]. split; [intros g []|reflexivity]. }
  cbn [app] in I. set (fs := front :: fs') in *.
  destruct (fold_left (ostep F score) fs (front, maxMatchScore, 0%N)) as [[best b] cnt].
  destruct I as (Hb & Hm & Hc).
  destruct (N.leb_spec maxMatchScore (score best)) as [L|L].
  - split; [|reflexivity]. intros _. split; [discriminate|]. intros g Hg.
    destruct (N.lt_ge_cases (score g) maxMatchScore) as [Lg|Lg]; [|exact Lg].
    specialize (Hm g Hg Lg). destruct Hb as [[-> ->]|(_ & Hs & Hl)]; lia.
  - split; [destruct (1 <? cnt)%N; discriminate|]. intros [_ H]. exfalso.
    destruct Hb as [[-> ->]|(Hi & Hs & Hl)].
    + specialize (H front (or_introl eq_refl)). lia.
    + specialize (H best Hi). lia.
Qed.

(** the best score is shared *)
Theorem C37_ambiguous : forall fs,
  overload fs = CAmbiguous <->
  exists s, (s < maxMatchScore)%N /\ shared fs s /\ forall g, In g fs -> (s <= score g)%N.
Proof.
  intros fs. destruct fs as [|front fs'].
  { split; [discriminate|]. intros (s & _ & (l1 & f & l2 & g & l3 & H & _) & _). destruct l1; discriminate. }
  cbn [overload Rest_Model.overload].
  assert (I : oinv front ([] ++ front :: fs') (fold_left (ostep F score) (front :: fs') (front, maxMatchScore, 0%N))).
  { apply ofold_inv. split; [now left|]. split; [intros g []|reflexivity]. }
  cbn [app] in I. set (fs := front :: fs') in *.
  destruct (fold_left (ostep F score) fs (front, maxMatchScore, 0%N)) as [[best b] cnt].
  destruct I as (Hb & Hm & Hc).
  destruct (N.leb_spec maxMatchScore (score best)) as [L|L].
  - split; [discriminate|]. intros (s & Ls & (l1 & f & l2 & g & l3 & Efs & Hf & _) & Hs). exfalso.
    assert (Inf : In f fs) by (rewrite Efs; apply in_or_app; right; now left).
    specialize (Hm f Inf ltac:(lia)). destruct Hb as [[-> ->]|(_ & Hs' & Hl)]; lia.
  - assert (Hb' : In best fs /\ score best = b /\ (b < maxMatchScore)%N).
    { destruct Hb as [[-> ->]|Hb]; [|exact Hb]. exfalso.
      assert (In front fs) by now left. specialize (Hm front H L). lia. }
    destruct Hb' as (Hi & Hs & Hl). clear Hb.
    destruct (N.ltb_spec 1 cnt) as [C|C].
    + split; [|reflexivity]. intros _. exists b. split; [exact Hl|]. split; [apply two_filter; lia|].
      intros g Hg. destruct (N.lt_ge_cases (score g) maxMatchScore) as [Lg|Lg]; [now apply Hm|lia].
    + split; [discriminate|]. intros (s & Ls & Sh & Hs2). exfalso.
      assert (s = b).
      { destruct Sh as (l1 & f & l2 & g & l3 & Efs & Hf & _).
        assert (Inf : In f fs) by (rewrite Efs; apply in_or_app; right; now left).
        specialize (Hm f Inf ltac:(lia)). specialize (Hs2 best Hi). lia. }
      subst s. apply two_filter in Sh. lia.
Qed.

Lemma overload_void : forall fs, overload fs = CVoid <-> fs = [].
Proof.
  intros [|f fs]; [split; reflexivity|]. split; [|discriminate]. cbn [overload Rest_Model.overload].
  destruct (fold_left _ _ _) as [[best b] cnt]. destruct (_ <=? _)%N; [discriminate|]. destruct (_ <? _)%N; discriminate.
Qed.

(** the order of registration does not matter *)
Theorem C37_order_independent : forall fs fs', Permutation fs fs' -> overload fs = overload fs'.
Proof.
  intros fs fs' P. destruct (overload fs') as [| | |f] eqn:O.
  - apply overload_void in O. subst. apply Permutation_sym, Permutation_nil in P. now subst.
  - apply C37_no_match in O as [N0 H]. apply C37_no_match. split.
    + intros ->. apply Permutation_nil in P. congruence.
    + intros g Hg. apply H. now apply (Permutation_in g P).
  - apply C37_ambiguous in O as (s & L & Sh & H). apply C37_ambiguous. exists s. split; [exact L|]. split.
    + apply two_filter. apply two_filter in Sh.
      assert (Q : forall l l', Permutation l l' ->
        length (filter (fun g => score g =? s)%N l) = length (filter (fun g => score g =? s)%N l')).
      { induction 1; cbn [filter]; try congruence;
          repeat (destruct (_ =? _)%N; cbn [length]); congruence. }
      now rewrite (Q _ _ P).
    + intros g Hg. apply H. now apply (Permutation_in g P).
  - apply C37_best in O as (L & l1 & l2 & -> & H). apply C37_best. split; [exact L|].
    assert (Inf : In f fs) by (apply (Permutation_in f (Permutation_sym P)); apply in_or_app; right; now left).
    apply in_split in Inf as (k1 & k2 & ->). exists k1, k2. split; [reflexivity|]. intros g Hg. apply H.
    refine (Permutation_in g _ Hg). exact (Permutation_app_inv k1 k2 l1 l2 f P).
Qed.
End C37.

Example C37_ex :
  overload nat N.of_nat [3; 1; 2] = CPick 1 /\ overload nat N.of_nat [3; 1; 1] = CAmbiguous /\
  overload nat (fun _ => maxMatchScore) [3; 1] = CNone /\ Permutation [3; 1; 2] [1; 2; 3].
Proof.
  split; [vm_compute; reflexivity|]. split; [vm_compute; reflexivity|]. split; [vm_compute; reflexivity|].
  apply (perm_trans (l' := [1; 3; 2])); [apply perm_swap|]. apply perm_skip, perm_swap.
Qed.
Print Assumptions C37_best.
Print Assumptions C37_no_match.
Print Assumptions C37_ambiguous.
Print Assumptions C37_order_independent.

(** ** Match scores (C37, C41) *)
Section Score.
Variable objok : N -> jv -> bool.
Notation argMatchScore := (argMatchScore objok).
Notation matchScore := (matchScore objok).

(** the cost of a call, written down directly: 0 for an exact match, 1 for a number
    given where a floating point number is expected, 1000000 for a mismatch, and 10 for
    each surplus argument.  A single argument need not be wrapped in an array. *)
Definition costs (ps : list pty) (l : list jv) : Z :=
  fold_right Z.add 0%Z (map (fun p => Z.of_N (argMatchScore (fst p) (snd p))) (combine ps l)).
Definition cost (ps : list pty) (x : jv) : Z :=
  (match x with
  | JArr l => if (length l <? length ps)%nat then 1000000
              else costs ps l + 10 * (Z.of_nat (length l) - Z.of_nat (length ps))
  | JNull => match ps with [] => 0 | _ => 1000000 end
  | _ => match ps with [] => 10 | [t] => Z.of_N (argMatchScore t x) | _ => 1000000 end
  end)%Z.

Lemma arg_bound : forall t x, (argMatchScore t x <= 1000000)%N.
Proof. intros. unfold argMatchScore. destruct (matches _ _ _); [lia|]. destruct (partially _ _ _); unfold maxMatchScore; lia. Qed.
Lemma costs_bound : forall ps l, (0 <= costs ps l <= 1000000 * Z.of_nat (length ps))%Z.
Proof.
  unfold costs. induction ps as [|p ps IH]; intros l; cbn [combine map fold_right length]; [lia|].
  destruct l as [|x l]; cbn [combine map fold_right]; [lia|]. specialize (IH l). cbn [fst snd].
  assert (H := arg_bound p x). lia.
Qed.
Lemma costs_snoc : forall ps l p, length ps < length l ->
  costs (ps ++ [p]) l = (costs ps l + Z.of_N (argMatchScore p (nth (length ps) l JNull)))%Z.
Proof.
  unfold costs. induction ps as [|q ps IH]; intros l p H; cbn [app combine map fold_right length] in *.
  - destruct l as [|x l]; [cbn in H; lia|]. cbn [combine map fold_right nth fst snd]. destruct l; cbn [combine map fold_right]; lia.
  - destruct l as [|x l]; [cbn in H; lia|]. cbn [combine map fold_right nth fst snd length] in *.
    rewrite IH by lia. lia.
Qed.
Lemma u32_small : forall z, (0 <= z < 2 ^ 32)%Z -> u32 z = Z.to_N z.
Proof. intros z H. unfold u32. now rewrite Z.mod_small. Qed.

Lemma firstn_S_nth : forall k (qs : list pty), k < length qs -> firstn (S k) qs = firstn k qs ++ [nth k qs PNever].
Proof.
  induction k as [|k IH]; intros [|q qs] L; cbn [length] in L; try lia; [reflexivity|].
  change (q :: firstn (S k) qs = q :: (firstn k qs ++ [nth k qs PNever])). f_equal. apply IH. lia.
Qed.
Lemma mscore_arr : forall n ps l nn, 1 <= n -> n <= length ps -> n <= nn -> nn <= length l ->
  (1000000 * Z.of_nat n + 10 * Z.of_nat (length l) < 2 ^ 32)%Z ->
  Z.of_N (mscore objok n nn ps (JArr l)) = (costs (firstn n ps) l + 10 * (Z.of_nat (length l) - Z.of_nat nn))%Z.
Proof.
  induction n as [|n IH]; intros ps l nn H1 H2 H3 H4 B; [lia|].
  destruct ps as [|p ps]; [cbn in H2; lia|].
  assert (P32 : (2 ^ 32 = 4294967296)%Z) by reflexivity.
  destruct n as [|n].
  - cbn [mscore firstn]. destruct l as [|x l]; [cbn in H4; lia|].
    unfold pat, jat, surplus. cbn [nth]. unfold costs. cbn [combine map fold_right fst snd].
    assert (A := arg_bound p x). rewrite u32_small by lia.
    replace (combine [] l) with (@nil (pty * jv)) by (destruct l; reflexivity). cbn [map fold_right]. lia.
  - destruct n as [|n].
    + cbn [mscore]. destruct l as [|x [|y l]]; [cbn in H4; lia..|]. cbn [length Nat.ltb Nat.leb].
      destruct ps as [|p2 ps]; [cbn in H2; lia|]. cbn [length] in *.
      unfold pat, jat, surplus, costs. cbn [nth firstn combine map fold_right fst snd length].
      assert (A := arg_bound p x). assert (A2 := arg_bound p2 y). rewrite u32_small by lia.
      cbn [map fold_right combine]. lia.
    + change (mscore objok (S (S (S n))) nn (p :: ps) (JArr l)) with
        (if length l <? S (S (S n)) then maxMatchScore
         else u32 (Z.of_N (argMatchScore (pat (p :: ps) (S (S n))) (jat l (S (S n))))
                   + Z.of_N (mscore objok (S (S n)) nn (p :: ps) (JArr l)))).
      replace (length l <? S (S (S n))) with false by (symmetry; apply Nat.ltb_ge; lia).
      set (k := S (S n)) in *. set (ps' := p :: ps) in *.
      assert (E1 : firstn (S k) ps' = firstn k ps' ++ [nth k ps' PNever]).
      { apply firstn_S_nth. lia. }
      rewrite E1, costs_snoc by (rewrite firstn_length; lia).
      assert (IH' := IH ps' l nn ltac:(lia) ltac:(lia) ltac:(lia) H4 ltac:(lia)).
      rewrite firstn_length. replace (Nat.min k (length ps')) with k by lia.
      unfold pat, jat. assert (A := arg_bound (nth k ps' PNever) (nth k l JNull)).
      assert (Bd := costs_bound (firstn k ps') l). rewrite firstn_length in Bd.
      replace (Nat.min k (length ps')) with k in Bd by lia.
      rewrite u32_small by lia. rewrite Z2N.id by lia. rewrite IH'. lia.
Qed.

(** no wrap-around: the 32 bit score is the cost *)
Theorem C37_score : forall ps x,
  (match x with JArr l => 1000000 * Z.of_nat (length ps) + 10 * Z.of_nat (length l) < 2 ^ 32 | _ => True end)%Z ->
  Z.of_N (matchScore ps x) = cost ps x.
Proof.
  intros ps x B. assert (P32 : (2 ^ 32 = 4294967296)%Z) by reflexivity.
  unfold matchScore. destruct x as [| | | | |l|kvs];
    try (destruct ps as [|p [|p2 [|p3 ps]]]; cbn [length mscore cost pat nth]; reflexivity).
  cbn [cost]. destruct (Nat.ltb_spec (length l) (length ps)) as [L|L].
  - destruct ps as [|p [|p2 [|p3 ps]]]; cbn [length mscore] in *; [lia| | |].
    + destruct l; [reflexivity|cbn in L; lia].
    + replace (length l <? 2) with true by (symmetry; apply Nat.ltb_lt; exact L). reflexivity.
    + replace (length l <? S (S (S (length ps)))) with true by (symmetry; apply Nat.ltb_lt; exact L). reflexivity.
  - destruct ps as [|p ps].
    + cbn [length mscore costs combine map fold_right]. rewrite u32_small by (cbn [length] in B; lia).
      unfold costs. destruct l; cbn [combine map fold_right length]; lia.
    + rewrite mscore_arr; [|cbn [length]; lia|lia|lia|exact L|exact B]. now rewrite firstn_all.
Qed.

(** the best score, 0, is given exactly when every argument matches its parameter and
    there are no others *)
Theorem C37_exact : forall ps l,
  (1000000 * Z.of_nat (length ps) + 10 * Z.of_nat (length l) < 2 ^ 32)%Z ->
  (matchScore ps (JArr l) = 0%N <-> Forall2 (fun t x => matches objok t x = true) ps l).
Proof.
  intros ps l B. assert (H := C37_score ps (JArr l) B). cbn [cost] in H.
  assert (C0 : forall ps l, length ps = length l ->
     (costs ps l = 0%Z <-> Forall2 (fun t x => matches objok t x = true) ps l)).
  { clear. unfold costs. induction ps as [|p ps IH]; intros [|x l] L; cbn [length] in L; try lia.
    - split; constructor.
    - cbn [combine map fold_right fst snd]. assert (Bd := costs_bound ps l). unfold costs in Bd.
      specialize (IH l ltac:(lia)). split.
      + intros H. assert (A : argMatchScore p x = 0%N) by lia. constructor.
        * unfold argMatchScore in A. destruct (matches objok p x); [reflexivity|]. destruct (partially objok p x); discriminate.
        * apply IH. lia.
      + intros H. inversion H; subst. assert (A : argMatchScore p x = 0%N) by (unfold argMatchScore; now rewrite H3).
        rewrite A. cbn. apply IH. assumption. }
  destruct (Nat.ltb_spec (length l) (length ps)) as [L|L].
  - split; [intros E; rewrite E in H; discriminate|]. intros F2.
    assert (length ps = length l) by (clear - F2; induction F2; cbn [length]; lia). lia.
  - assert (Bd := costs_bound ps l). split.
    + intros E. rewrite E in H. cbn in H. apply C0; [lia|]. lia.
    + intros F2. assert (L2 : length ps = length l) by (clear - F2; induction F2; cbn [length]; lia).
      apply (C0 ps l L2) in F2. lia.
Qed.
(** too few arguments, or one that cannot be converted: not a candidate *)
Theorem C37_mismatch : forall ps l,
  (1000000 * Z.of_nat (length ps) + 10 * Z.of_nat (length l) < 2 ^ 32)%Z ->
  length l < length ps \/
  (exists i, i < length ps /\ matches objok (nth i ps PNever) (nth i l JNull) = false /\
             partially objok (nth i ps PNever) (nth i l JNull) = false) ->
  (maxMatchScore <= matchScore ps (JArr l))%N.
Proof.
  intros ps l B H. assert (S0 := C37_score ps (JArr l) B). cbn [cost] in S0.
  destruct (Nat.ltb_spec (length l) (length ps)) as [L|L]; [unfold maxMatchScore; lia|].
  destruct H as [H|(i & Hi & M1 & M2)]; [lia|].
  enough (1000000 <= costs ps l)%Z by (unfold maxMatchScore; lia).
  clear B S0. revert l i Hi L M1 M2. unfold costs.
  induction ps as [|p ps IH]; intros [|x l] i Hi L M1 M2; cbn [length] in *; try lia.
  cbn [combine map fold_right fst snd]. assert (Bd := costs_bound ps l). unfold costs in Bd.
  destruct i as [|i]; cbn [nth] in *.
  - replace (argMatchScore p x) with maxMatchScore; [unfold maxMatchScore; lia|]. unfold argMatchScore. now rewrite M1, M2.
  - specialize (IH l i ltac:(lia) ltac:(lia) M1 M2). lia.
Qed.
(** whatever matches also matches partially *)
Theorem C37_matches_partially : forall t x, matches objok t x = true -> partially objok t x = true.
Proof.
  induction t as [| | | | |c|e IH|t IH|]; intros x H; cbn [matches partially] in *; try exact H.
  - destruct x; try discriminate; reflexivity.
  - destruct x; try (now apply IH). rewrite forallb_forall in *. intros y Hy. apply IH. now apply H.
  - now apply IH.
Qed.
End Score.
Definition fsig : list (list pty) := [[PInt; PReal]; [PReal; PReal]; [PInt; PReal; PStr]].
Example C37_score_ex : let ok := fun _ _ => true in
  overload _ (fun ps => matchScore ok ps (JArr [JInt 3; JReal 0])) fsig = CPick [PInt; PReal] /\
  overload _ (fun ps => matchScore ok ps (JArr [JInt 3; JReal 0; JStr (bs "x")])) fsig = CPick [PInt; PReal; PStr] /\
  overload _ (fun ps => matchScore ok ps (JArr [JBool true])) fsig = CNone /\
  overload _ (fun ps => matchScore ok ps (JArr [JArr []])) [[PCont PInt]; [PCont PStr]] = CAmbiguous.
Proof. vm_compute. repeat split. Qed.
(** an empty array, and a number, cannot be told apart: vector<int> and vector<string>,
    or int and vector<int> *)
Theorem C37_int_or_vector_ambiguous : exists ps qs x, ps <> qs /\
  overload _ (fun ps => matchScore (fun _ _ => true) ps x) [ps; qs] = CAmbiguous /\
  matches (fun _ _ => true) (hd PNever ps) x = true.
Proof. exists [PInt], [PCont PInt], (JInt 5). split; [discriminate|]. vm_compute. auto. Qed.
Print Assumptions C37_score.
Print Assumptions C37_exact.
Print Assumptions C37_mismatch.
Print Assumptions C37_matches_partially.
Print Assumptions C37_int_or_vector_ambiguous.

(** ** C38: what a history of registrations leaves under a name *)
Section C38.
Variables O S : Type.
Variable S_eq_dec : forall a b : S, {a = b} + {a <> b}.
Notation op := (op O S).
Notation entry := (entry O S).
Notation adds := (adds O S S_eq_dec).

(** the registrations made under [d], in order *)
Definition history (d : list ascii) (h : list (list ascii * op)) : list op :=
  map snd (filter (fun p => if list_eq_dec ascii_dec (fst p) d then true else false) h).
Definition is_obj (o : op) : bool := match o with OpAdd _ => true | _ => false end.
(** [f] is the last function of its signature in [fs] *)
Definition last_of_sig (fs : list (O * S)) (f : O * S) : Prop :=
  exists l1 l2, fs = l1 ++ f :: l2 /\ ~ In (snd f) (map snd l2).
(** [gs] holds one function per signature of [fs], the last one *)
Definition latest (fs gs : list (O * S)) : Prop :=
  NoDup (map snd gs) /\ forall f, In f gs <-> last_of_sig fs f.

(** what is expected after a history without [emplace] *)
Inductive expected (ops : list op) : option entry -> Prop :=
| exp_none : ops = [] -> expected ops None
| exp_obj : forall ops' x, ops = ops' ++ [OpAdd x] -> expected ops (Some (EObj x))
| exp_fun : forall ops' fs f,
    ops = ops' ++ map OpAddFun fs ->
    (ops' = [] \/ exists ops'' x, ops' = ops'' ++ [OpAdd x]) ->
    latest fs [f] -> expected ops (Some (EFun f))
| exp_over : forall ops' fs gs,
    ops = ops' ++ map OpAddFun fs ->
    (ops' = [] \/ exists ops'' x, ops' = ops'' ++ [OpAdd x]) ->
    latest fs gs -> 2 <= length gs -> expected ops (Some (EOver gs)).

Notation roa := (replace_or_append O S S_eq_dec).
Lemma roa_in : forall f gs, NoDup (map snd gs) ->
  forall g, In g (roa f gs) <-> g = f \/ (In g gs /\ snd g <> snd f).
Proof.
  intros f gs. induction gs as [|x gs IH]; intros ND g; cbn [replace_or_append].
  - cbn. split; [intros [<-|[]]; now left|intros [->|[[] _]]; now left].
  - cbn [map] in ND. apply NoDup_cons_iff in ND as [NI ND]. destruct (S_eq_dec (snd x) (snd f)) as [Q|Q].
    + cbn [In]. split.
      * intros [<-|H]; [now left|]. right. split; [now right|]. intros Q'. apply NI. rewrite Q, <- Q'.
        now apply in_map.
      * intros [->|[[<-|H] N0]]; [now left|congruence|now right].
    + cbn [In]. rewrite IH by exact ND. split.
      * intros [<-|[->|[H N0]]]; [right; split; [now left|exact Q]|now left|right; split; [now right|exact N0]].
      * intros [->|[[<-|H] N0]]; [right; now left|now left|right; right; auto].
Qed.
Lemma roa_sigs : forall f gs, In (snd f) (map snd gs) -> map snd (roa f gs) = map snd gs.
Proof.
  intros f gs. induction gs as [|x gs IH]; cbn [replace_or_append map In]; [intros []|].
  destruct (S_eq_dec (snd x) (snd f)) as [Q|Q]; cbn [map]; [intros _; now rewrite Q|].
  intros [H|H]; [congruence|]. now rewrite IH.
Qed.
Lemma roa_sigs_new : forall f gs, ~ In (snd f) (map snd gs) -> roa f gs = gs ++ [f].
Proof.
  intros f gs. induction gs as [|x gs IH]; cbn [replace_or_append map In app]; [reflexivity|].
  intros N0. destruct (S_eq_dec (snd x) (snd f)) as [Q|Q]; [tauto|]. rewrite IH by tauto. reflexivity.
Qed.
Lemma roa_nodup : forall f gs, NoDup (map snd gs) -> NoDup (map snd (roa f gs)).
Proof.
  intros f gs ND. destruct (in_dec S_eq_dec (snd f) (map snd gs)) as [I|I].
  - now rewrite roa_sigs.
  - rewrite roa_sigs_new by exact I. rewrite map_app. cbn [map].
    apply (Permutation_NoDup (l := snd f :: map snd gs)); [apply Permutation_cons_append|].
    now constructor.
Qed.
Lemma roa_length : forall f gs, length gs <= length (roa f gs).
Proof.
  intros f gs. induction gs as [|x gs IH]; cbn [replace_or_append length]; [lia|].
  destruct (S_eq_dec (snd x) (snd f)); cbn [length]; lia.
Qed.
Lemma last_snoc : forall fs f g,
  last_of_sig (fs ++ [f]) g <-> g = f \/ (last_of_sig fs g /\ snd g <> snd f).
Proof.
  intros fs f g. split.
  - intros (l1 & l2 & Q & N0). destruct (exists_last (l := g :: l2)) as (l' & z & Ez); [discriminate|].
    destruct l2 as [|y l2'] using rev_ind.
    + apply app_inj_tail in Q as [_ ->]. now left.
    + clear IHl2'. replace (l1 ++ g :: l2' ++ [y]) with ((l1 ++ g :: l2') ++ [y]) in Q
        by (rewrite <- app_assoc; reflexivity).
      apply app_inj_tail in Q as [-> ->]. rewrite map_app, in_app_iff in N0. cbn [map In] in N0. right. split.
      * exists l1, l2'. split; [reflexivity|tauto].
      * intros Q. apply N0. right. now left.
  - intros [->|[(l1 & l2 & -> & N0) Q]].
    + exists fs, []. split; [reflexivity|intros []].
    + exists l1, (l2 ++ [f]). split; [rewrite <- app_assoc; reflexivity|]. rewrite map_app, in_app_iff.
      cbn [map In]. intros [H|[H|[]]]; [tauto|congruence].
Qed.
Lemma latest_snoc : forall fs gs f, latest fs gs -> latest (fs ++ [f]) (roa f gs).
Proof.
  intros fs gs f [ND H]. split; [now apply roa_nodup|]. intros g. rewrite roa_in by exact ND.
  rewrite last_snoc, H. reflexivity.
Qed.
Lemma latest_nil : latest [] [].
Proof. split; [constructor|]. intros f. split; [intros []|]. intros (l1 & l2 & H & _). destruct l1; discriminate. Qed.

Lemma add1_expected : forall ops e o, (forall x, o <> OpEmplace x) -> expected ops e ->
  expected (ops ++ [o]) (add1 O S S_eq_dec e o).
Proof.
  intros ops e o NE H. destruct o as [x|f|x]; [| |congruence]; cbn [add1].
  - now apply exp_obj with ops.
  - destruct H as [->|ops' x ->|ops' fs g -> Hp Hl|ops' fs gs -> Hp Hl H2].
    + apply exp_fun with (ops' := []) (fs := [f]); [reflexivity|now left|]. apply (latest_snoc [] [] f latest_nil).
    + apply exp_fun with (ops' := ops' ++ [OpAdd x]) (fs := [f]); [reflexivity|right; eauto|].
      apply (latest_snoc [] [] f latest_nil).
    + assert (L2 := latest_snoc _ _ f Hl). cbn [replace_or_append] in L2.
      replace ((ops' ++ map OpAddFun fs) ++ [OpAddFun f]) with (ops' ++ map OpAddFun (fs ++ [f]))
        by (rewrite map_app, app_assoc; reflexivity).
      destruct (S_eq_dec (snd g) (snd f)).
      * now apply exp_fun with ops' (fs ++ [f]).
      * now apply exp_over with ops' (fs ++ [f]).
    + replace ((ops' ++ map OpAddFun fs) ++ [OpAddFun f]) with (ops' ++ map OpAddFun (fs ++ [f]))
        by (rewrite map_app, app_assoc; reflexivity).
      apply exp_over with ops' (fs ++ [f]); [reflexivity|exact Hp|now apply latest_snoc|].
      assert (L := roa_length f gs). lia.
Qed.

Lemma adds_snoc : forall h p m, adds (h ++ [p]) m = add O S S_eq_dec (adds h m) (fst p) (snd p).
Proof. intros. unfold adds. now rewrite fold_left_app. Qed.
Lemma history_snoc : forall d h p, history d (h ++ [p]) =
  history d h ++ if list_eq_dec ascii_dec (fst p) d then [snd p] else [].
Proof.
  intros. unfold history. rewrite filter_app, map_app. cbn [filter].
  destruct (list_eq_dec ascii_dec (fst p) d); reflexivity.
Qed.

(** after any history of [add] calls a name holds the object added last, or the
    functions added since, one per signature *)
Theorem C38_last_added : forall h d, (forall p x, In p h -> snd p <> OpEmplace x) ->
  expected (history d h) (mfind bcmp d (adds h [])).
Proof.
  intros h d. induction h as [|p h IH] using rev_ind; intros NE; [now apply exp_none|].
  rewrite adds_snoc, history_snoc.
  assert (IH' : expected (history d h) (mfind bcmp d (adds h []))).
  { apply IH. intros q x Hq. apply NE. apply in_or_app. now left. }
  assert (NEp : forall x, snd p <> OpEmplace x) by (intros x; apply NE; apply in_or_app; right; now left).
  unfold add. destruct (list_eq_dec ascii_dec (fst p) d) as [Q|Q].
  - rewrite Q. assert (H := add1_expected _ _ _ NEp IH').
    destruct (add1 O S S_eq_dec (mfind bcmp d (adds h [])) (snd p)) as [e|] eqn:A.
    + now rewrite (mfind_mset_same bcmp bcmp_eq).
    + exfalso. destruct (snd p) as [x|f|x]; cbn [add1] in A; [discriminate| |].
      * destruct (mfind bcmp d (adds h [])) as [[x|g|gs]|]; try discriminate. destruct (S_eq_dec _ _); discriminate.
      * now apply (NEp x).
  - rewrite app_nil_r. destruct (add1 _ _ _ _ _); [|exact IH'].
    rewrite (mfind_mset_other bcmp bcmp_eq) by congruence. exact IH'.
Qed.
(** the outcome is determined up to the order of the overloads, which does not matter
    (C37_order_independent) *)
Theorem C38_unique : forall fs gs gs', latest fs gs -> latest fs gs' -> Permutation gs gs'.
Proof.
  intros fs gs gs' [N1 H1] [N2 H2]. apply NoDup_Permutation.
  - clear - N1. induction gs as [|g gs IH]; [constructor|]. cbn [map] in N1. apply NoDup_cons_iff in N1 as [NI N1].
    constructor; [|now apply IH]. intros I. apply NI. now apply in_map.
  - clear - N2. induction gs' as [|g gs IH]; [constructor|]. cbn [map] in N2. apply NoDup_cons_iff in N2 as [NI N1].
    constructor; [|now apply IH]. intros I. apply NI. now apply in_map.
  - intros f. now rewrite H1, H2.
Qed.
(** other names are not affected *)
Theorem C38_other_names : forall h m d, history d h = [] -> mfind bcmp d (adds h m) = mfind bcmp d m.
Proof.
  intros h m d. induction h as [|p h IH] using rev_ind; intros H; [reflexivity|].
  rewrite history_snoc in H. apply app_eq_nil in H as [H1 H2]. rewrite adds_snoc. unfold add.
  destruct (list_eq_dec ascii_dec (fst p) d) as [Q|Q]; [discriminate|].
  destruct (add1 _ _ _ _ _); [|now apply IH]. rewrite (mfind_mset_other bcmp bcmp_eq) by congruence. now apply IH.
Qed.
(** fundamental and string members are registered with [emplace], which does not
    replace *)
Theorem C38_emplace_keeps : forall m d e x, mfind bcmp d m = Some e ->
  mfind bcmp d (add O S S_eq_dec m d (OpEmplace x)) = Some e.
Proof.
  intros m d e x H. unfold add, add1. rewrite H. now rewrite (mfind_mset_same bcmp bcmp_eq).
Qed.
End C38.
Definition h38 : list (list ascii * op nat nat) :=
  [(bs "f", OpAdd 1); (bs "f", OpAddFun (2, 10)); (bs "g", OpAdd 7); (bs "f", OpAddFun (3, 20)); (bs "f", OpAddFun (4, 10))].
Example C38_ex : mfind bcmp (bs "f") (adds nat nat Nat.eq_dec h38 []) = Some (EOver [(4, 10); (3, 20)]) /\
  mfind bcmp (bs "g") (adds nat nat Nat.eq_dec h38 []) = Some (EObj 7) /\
  (forall p x, In p h38 -> snd p <> OpEmplace x).
Proof.
  split; [vm_compute; reflexivity|]. split; [vm_compute; reflexivity|].
  intros p x H. cbn in H. repeat (destruct H as [<-|H]; [discriminate|]). destruct H.
Qed.
(** a later registration of a fundamental type under an existing name is lost *)
Theorem C38_emplace_refuted : exists (h : list (list ascii * op nat nat)) d x,
  last (map snd h) (OpAdd 0) = OpEmplace x /\
  mfind bcmp d (adds nat nat Nat.eq_dec h []) <> Some (EObj x).
Proof.
  exists [(bs "x", OpEmplace 1); (bs "x", OpEmplace 2)], (bs "x"), 2. split; [reflexivity|].
  vm_compute. discriminate.
Qed.
Print Assumptions C38_last_added.
Print Assumptions C38_unique.
Print Assumptions C38_other_names.
Print Assumptions C38_emplace_keeps.
Print Assumptions C38_emplace_refuted.

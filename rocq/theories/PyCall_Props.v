(** * Properties of calls, indexing and attributes of wrapped objects *)
From Coq Require Import Permutation.
From Verif Require Import Base SMap Desc_Model Desc_Props Json_Model Json_Spec Json_Proofs Json_Proofs2 Json_Props
  PyBuf_Model PyBuf_Proofs PyBuf_Proofs2 PyBuf_Props PyCall_Model.

(** ** What a caller can see *)
(** the objects found from [x] through lists and dicts *)
Inductive uses (h : heap) (x : nat) : nat -> Prop :=
| u_self : uses h x x
| u_in : forall y o z, uses h x y -> obof h y = Some o -> In z (kids o) -> uses h x z.
(** what can be reached through the references in [R] has the contents it had *)
Definition kept (h h' : heap) (R : list nat) : Prop :=
  forall x y, In x R -> uses h x y -> obof h' y = obof h y.

Lemma uses_kept : forall h h' R x, kept h h' R -> In x R -> forall y, uses h x y -> uses h' x y.
Proof.
  intros h h' R x K IR y U. induction U as [|y o z U IH O Z]; [constructor|].
  eapply u_in; [exact IH| |exact Z]. now rewrite (K x y IR U).
Qed.
Lemma kept_trans : forall a b c R, kept a b R -> kept b c R -> kept a c R.
Proof.
  intros a b c R K1 K2 x y IR U. rewrite (K2 x y IR (uses_kept a b R x K1 IR y U)). now apply (K1 x).
Qed.
Lemma kept_same : forall h h' R, sameob h h' -> kept h h' R.
Proof. intros h h' R S1 x y _ _. apply S1. Qed.
Lemma kept_sub : forall h h' R R', kept h h' R -> (forall x, In x R' -> In x R) -> kept h h' R'.
Proof. intros h h' R R' K S1 x y I1 U. apply (K x); auto. Qed.
Lemma uses_live : forall h R x y, Inv h R -> In x R -> uses h x y -> look h y <> None.
Proof.
  intros h R x y I1 IR U. destruct U as [|y o z U O Z].
  - destruct (Inv_live h R x I1) as (c & ->); [apply in_or_app; now left|discriminate].
  - now apply (kids_live h R y o I1 O).
Qed.
Lemma live_ob : forall h x, look h x <> None -> exists o, obof h x = Some o.
Proof. intros h x L. unfold obof. destruct (look h x); [eauto|congruence]. Qed.
Lemma ob_live : forall h x o, obof h x = Some o -> look h x <> None.
Proof. intros h x o O. unfold obof in O. destruct (look h x); [discriminate|congruence]. Qed.
Lemma kept_ext : forall h h' R, Inv h R -> ext h h' -> kept h h' R.
Proof.
  intros h h' R I1 E x y IR U. destruct (live_ob h y (uses_live h R x y I1 IR U)) as (o & O).
  rewrite O. now apply E.
Qed.
Lemma kept_decref : forall h h' R, Inv h' R -> (forall y o, obof h' y = Some o -> obof h y = Some o) ->
  (forall y, In y R -> obof h' y = obof h y) -> kept h h' R.
Proof.
  intros h h' R I1 B K x y IR U. induction U as [|y o z U IH O Z]; [now apply K|].
  assert (L : look h' z <> None) by (apply (kids_live h' R y o I1); [congruence|exact Z]).
  destruct (live_ob h' z L) as (o' & O'). rewrite O'. symmetry. now apply B.
Qed.
Lemma dom_length : forall h h', NoDup (map fst h) -> (forall z, look h z <> None -> look h' z <> None) ->
  length h <= length h'.
Proof.
  intros h h' N D. rewrite <- (map_length fst h), <- (map_length fst h'). apply NoDup_incl_length; [exact N|].
  intros z Z. destruct (in_dec Nat.eq_dec z (map fst h')) as [|F]; [assumption|]. exfalso.
  apply (D z); [|now apply look_none]. intros L. now apply look_none in L.
Qed.

(** ** Preparing the arguments *)
Lemma push_args_ok : forall l a h R pre, Inv h R -> obof h a = Some (PList pre) ->
  (forall x, In x l -> look h x <> None /\ x <> a) ->
  exists h', push_args a l h = HOk tt h' /\ Inv h' (l ++ R) /\ obof h' a = Some (PList (pre ++ l)) /\
    (forall z, z <> a -> obof h' z = obof h z).
Proof.
  induction l as [|x l IH]; intros a h R pre I1 O LV; cbn [push_args].
  - exists h. rewrite app_nil_r. auto.
  - destruct (LV x (or_introl eq_refl)) as [Lx Xa]. unfold push_arg.
    destruct (look h x) as [c|] eqn:E; [|congruence].
    destruct (incref_ok h R x c I1 E) as (h1 & E1 & I2 & S1 & _). rewrite E1. cbn [hbind].
    destruct (look h1 x) as [c1|] eqn:L1.
    2:{ exfalso. apply (same_live h h1 x S1); [congruence|exact L1]. }
    destruct (incref_ok h1 _ x c1 I2 L1) as (h2 & E2 & I3 & S2 & _). rewrite E2. cbn [hbind].
    assert (L2 : look h2 x <> None) by (apply (same_live h1 h2 x S2); congruence).
    assert (O2 : obof h2 a = Some (PList pre)) by (now rewrite S2, S1).
    destruct (append_ok h2 _ a x pre I3 O2 L2) as (h3 & E3 & I4 & O3 & P3 & _). rewrite E3. cbn [hbind].
    destruct (decref_keep x h3 (x :: R) I4) as (h4 & E4 & I5 & S4 & _).
    { now left. }
    rewrite E4. cbn [hbind].
    assert (P : forall z, z <> a -> obof h4 z = obof h z) by (intros z Z; now rewrite S4, P3, S2, S1).
    destruct (IH a h4 (x :: R) (pre ++ [x]) I5) as (h5 & E5 & I6 & O5 & P5).
    { now rewrite S4. }
    { intros z Z. destruct (LV z (or_intror Z)) as [Lz Za]. split; [|exact Za].
      destruct (live_ob h z Lz) as (o & Oz). apply (ob_live h4 z o). now rewrite P. }
    exists h5. split; [exact E5|]. split; [eapply Inv_perm; [|exact I6]; perm|].
    split; [now rewrite O5, <- app_assoc|]. intros z Z. now rewrite P5, P.
Qed.
Section P.
Variable valid : list ascii -> bool.
Variable wr : jv -> list ascii.

(** the objects [xs] stand for the documents [js] *)
Definition stand (h : heap) (xs : list nat) (js : list jv) : Prop :=
  forall f, length h < f -> omap (val f h) xs = Some js /\ map (nslots f h) xs = map edges js.

(** what [call] hands to the command's process, as a function of the arguments *)
Definition sent (special : bool) (js : list jv) : list ascii * jv :=
  match js with
  | [] => ([], JNull)
  | j :: _ => if special then (wr j, JArr []) else ([], JArr js)
  end.
(** the references that are never given up *)
Definition lost (special : bool) (js : list jv) : nat :=
  match js with
  | [] => 0
  | j :: _ => if special then 1 + edges j else 2 * length js + list_sum (map edges js)
  end.
Lemma prepare_ok : forall special args js h R, Inv h R -> In none R -> obof h none = Some PNone ->
  (forall x, In x args -> In x R) -> stand h args js ->
  exists rem a h1 j h2 L, prepare wr special args h = HOk (rem, a) h1 /\ get_json a h1 = HOk j h2 /\
    (rem, j) = sent special js /\ Inv h2 (a :: L ++ R) /\ ext h h2 /\ obof h2 none = Some PNone /\
    length L = lost special js.
Proof.
  intros special args js h R I1 NR ON IA ST. unfold prepare, stand in *. destruct args as [|x args].
  - destruct (ST (S (length h))) as [STv _]; [lia|]. cbn [omap] in STv. injection STv as <-.
    destruct (Inv_live h R none I1) as (c & L); [apply in_or_app; now left|].
    destruct (incref_ok h R none c I1 L) as (h1 & E1 & I2 & S1 & N1). rewrite E1. cbn [hbind].
    exists [], none, h1, JNull, h1, []. split; [reflexivity|]. split.
    { unfold get_json. cbn [getj]. assert (O1 : obof h1 none = Some PNone) by now rewrite S1.
      unfold obof in O1. destruct (look h1 none) as [d|]; [|discriminate]. injection O1 as ->. reflexivity. }
    split; [reflexivity|]. split; [exact I2|]. split; [now apply ext_same|]. split; [now rewrite S1|]. reflexivity.
  - destruct (alloc_ok (PList []) h R) as (a & h1 & E1 & I2 & N1 & O1 & P1 & Ln1); [exact I1|].
    rewrite E1. cbn [hbind].
    assert (X1 : ext h h1).
    { intros y o Y. rewrite P1; [exact Y|]. intros ->. congruence. }
    assert (LV : forall y, In y (x :: args) -> look h1 y <> None /\ y <> a).
    { intros y Y. destruct (Inv_live h R y I1) as (c & L); [apply in_or_app; left; now apply IA|]. split.
      - apply (ext_live h h1 y X1). congruence.
      - intros ->. unfold obof in N1. rewrite L in N1. discriminate. }
    destruct js as [|j js].
    { destruct (ST (S (length h))) as [_ STn]; [lia|]. discriminate. }
    destruct special; cbn [sent lost].
    + destruct (LV x (or_introl eq_refl)) as [Lx Xa].
      destruct (look h1 x) as [c|] eqn:L1; [|congruence].
      destruct (incref_ok h1 _ x c I2 L1) as (h2 & E2 & I3 & S2 & N2). rewrite E2. cbn [hbind].
      destruct (look h2 x) as [c2|] eqn:L2.
      2:{ exfalso. apply (same_live h1 h2 x S2); [congruence|exact L2]. }
      destruct (incref_ok h2 _ x c2 I3 L2) as (h3 & E3 & I4 & S3 & N3). rewrite E3. cbn [hbind].
      assert (L3 : look h3 x <> None) by (apply (same_live h2 h3 x S3); congruence).
      assert (X3 : ext h h3) by (intros y o Y; rewrite S3, S2; now apply X1).
      pose proof (getj_ok (S (length h3)) x h3 _ I4 L3) as G.
      destruct (ST (S (length h3))) as [STv STn]; [lia|].
      destruct (omap_mono _ h h3 X3 _ _ STv) as [V3 M3]. rewrite STn in M3.
      cbn [omap map] in V3, M3. destruct (val (S (length h3)) h3 x) as [j'|] eqn:Vx; [|discriminate].
      destruct (omap (val (S (length h3)) h3) args); [|discriminate]. injection V3 as -> _. injection M3 as M3 _.
      destruct G as (h4 & L4 & E4 & I5 & S4 & N4 & K4). fold (get_json x h3) in E4. rewrite E4. cbn [hbind].
      destruct (decref_keep x h4 (L4 ++ x :: a :: R)) as (h5 & E5 & I6 & S5 & N5).
      { eapply Inv_perm; [|exact I5]. perm. }
      { apply in_or_app. left. apply in_or_app. right. now left. }
      rewrite E5. cbn [hbind].
      assert (O5 : obof h5 a = Some (PList [])) by (now rewrite S5, S4, S3, S2).
      assert (E6 : get_json a h5 = HOk (JArr []) h5).
      { unfold get_json. cbn [getj]. unfold obof in O5. destruct (look h5 a) as [d|]; [|discriminate].
        injection O5 as ->. reflexivity. }
      assert (X5 : ext h h5).
      { intros y o Y. rewrite S5, S4, S3, S2. now apply X1. }
      exists (wr j), a, h5, (JArr []), h5, (x :: L4).
      split; [reflexivity|]. split; [exact E6|]. split; [reflexivity|].
      split; [eapply Inv_perm; [|exact I6]; perm|].
      split; [exact X5|]. split; [now apply X5|]. cbn [length]. rewrite K4. change (S (nslots (S (length h3)) h3 x) = S (edges j)). f_equal. exact M3.
    + destruct (push_args_ok (x :: args) a h1 (a :: R) [] I2 O1 LV) as (h2 & E2 & I3 & O2 & P2).
      rewrite E2. cbn [hbind app] in O2 |- *.
      assert (X2 : ext h h2).
      { intros y o Y. rewrite P2; [now apply X1|]. intros ->. congruence. }
      assert (N2 : length h1 <= length h2).
      { apply dom_length; [apply I2|]. intros z Z. destruct (Nat.eq_dec z a) as [->|D].
        - now apply (ob_live h2 a (PList (x :: args))).
        - destruct (live_ob h1 z Z) as (o & Oz). apply (ob_live h2 z o). now rewrite P2. }
      pose proof (getj_ok (S (length h2)) a h2 _ I3 (ob_live _ _ _ O2)) as G.
      destruct (ST (length h2)) as [STv STn]; [lia|].
      destruct (omap_mono _ h h2 X2 _ _ STv) as [V2 M2]. rewrite STn in M2.
      cbn [val nslots] in G. rewrite O2 in G. cbn [kids] in G. rewrite V2, M2 in G.
      destruct G as (h3 & L3 & E3 & I4 & S3 & N3 & K3).
      exists [], a, h2, (JArr (j :: js)), h3, (L3 ++ x :: args).
      split; [reflexivity|]. split; [exact E3|]. split; [reflexivity|].
      split; [eapply Inv_perm; [|exact I4]; perm|].
      split; [intros y o Y; rewrite S3; now apply X2|].
      split; [rewrite S3; now apply X2|].
      rewrite app_length, K3. pose proof (f_equal (@length nat) STn) as LL. rewrite !map_length in LL. lia.
Qed.

(** ** The result *)
(** the result of a call as Python sees it: [r] in the heap [h'] for a result [j] *)
Definition shows (j : jv) (h h' : heap) (r : cres) : Prop :=
  match j with
  | JArr _ | JObj _ => exists w, r = CWrap w /\ obof h w = None /\ obof h' w <> None
  | JNull => r = CVal none /\ obof h' none = Some PNone
  | JBool b => exists x, r = CVal x /\ obof h' x = Some (PBool b)
  | JInt z => exists x, r = CVal x /\ obof h' x = Some (PInt z)
  | JReal d => exists x, r = CVal x /\ obof h' x = Some (PFloat d)
  | JStr s => exists x, r = CVal x /\ obof h' x = Some (PStr s)
  end.
Definition ref_of (r : cres) : list nat := match r with CExc => [] | CVal x | CWrap x => [x] end.
Lemma newj_kind : forall j h R, wfj valid j -> Inv h R -> In none R -> obof h none = Some PNone ->
  exists x h' L, newj valid j h = HOk x h' /\ Inv h' (x :: L ++ R) /\ length L = entries j /\ ext h h' /\
    match j with
    | JArr _ => exists l, obof h' x = Some (PList l)
    | JObj _ => exists d, obof h' x = Some (PDict d)
    | JNull => x = none
    | JBool b => obof h' x = Some (PBool b)
    | JInt z => obof h' x = Some (PInt z)
    | JReal d => obof h' x = Some (PFloat d)
    | JStr s => obof h' x = Some (PStr s)
    end.
Proof.
  intros j h R W I1 NR ON.
  destruct (newj_ok valid j (wfj_okj valid j W) h R I1 NR ON) as (x & h' & L & E & I2 & K & X & T & V & _).
  exists x, h', L. split; [exact E|]. split; [exact I2|]. split; [exact K|]. split; [exact X|].
  destruct j as [|b|z|d|s|l|kvs]; cbn [newj] in E.
  - unfold incref in E. destruct (look h none); [|discriminate]. now injection E as <- _.
  - injection E as <- <-. unfold obof. cbn [look]. now rewrite Nat.eqb_refl.
  - rewrite (proj1 (wrap_id z W)) in E. injection E as <- <-. unfold obof. cbn [look]. now rewrite Nat.eqb_refl.
  - injection E as <- <-. unfold obof. cbn [look]. now rewrite Nat.eqb_refl.
  - unfold new_str in E. cbn [wfj] in W. destruct W as [W1 W2]. rewrite cstr_id in E by exact W2. rewrite W1 in E.
    injection E as <- <-. unfold obof. cbn [look]. now rewrite Nat.eqb_refl.
  - destruct (new_list (newj valid) l h) as [xs h1| |]; cbn [hbind] in E; try discriminate.
    injection E as <- <-. exists xs. unfold obof. cbn [look]. now rewrite Nat.eqb_refl.
  - destruct (new_dict valid (newj valid) kvs [] h) as [d h1| |]; cbn [hbind] in E; try discriminate.
    injection E as <- <-. exists d. unfold obof. cbn [look]. now rewrite Nat.eqb_refl.
Qed.
Lemma return_ok : forall j h R, wfj valid j -> Inv h R -> In none R -> obof h none = Some PNone ->
  exists r h' L, return_result valid j h = HOk r h' /\ Inv h' (ref_of r ++ L ++ R) /\ length L = entries j /\
    kept h h' R /\ shows j h h' r.
Proof.
  intros j h R W I1 NR ON. unfold return_result.
  destruct (newj_kind j h R W I1 NR ON) as (x & h1 & L & E1 & I2 & K & X & KD). rewrite E1. cbn [hbind].
  destruct (Inv_live h1 _ x I2) as (c & Lx); [now left|].
  destruct (incref_ok h1 _ x c I2 Lx) as (h2 & E2 & I3 & S2 & _). rewrite E2. cbn [hbind].
  assert (X2 : ext h h2) by (intros y o Y; rewrite S2; now apply X).
  assert (LEAF : forall o, obof h2 x = Some o -> (forall l, o <> PList l) -> (forall d, o <> PDict d) ->
    exists h', (match look h2 x with
       | Some c => match ob c with
          | PList _ | PDict _ => hbind (alloc (PInt 0) h2) (fun w h => hbind (decref x h) (fun _ h => hbind (decref x h) (fun _ h => HOk (CWrap w) h)))
          | _ => hbind (decref x h2) (fun _ h => HOk (CVal x) h)
          end
       | None => HUb end) = HOk (CVal x) h' /\ Inv h' (x :: L ++ R) /\ sameob h2 h').
  { intros o O NL ND. destruct (decref_keep x h2 (x :: L ++ R) I3) as (h3 & E3 & I4 & S3 & _); [now left|].
    exists h3. unfold obof in O. destruct (look h2 x) as [c2|]; [|discriminate]. injection O as O. rewrite O.
    rewrite E3. cbn [hbind]. destruct o; try (now exfalso; eapply NL; reflexivity); try (now exfalso; eapply ND; reflexivity); auto. }
  assert (CONT : forall o, obof h2 x = Some o -> (exists l, o = PList l) \/ (exists d, o = PDict d) ->
    exists w h', (match look h2 x with
       | Some c => match ob c with
          | PList _ | PDict _ => hbind (alloc (PInt 0) h2) (fun w h => hbind (decref x h) (fun _ h => hbind (decref x h) (fun _ h => HOk (CWrap w) h)))
          | _ => hbind (decref x h2) (fun _ h => HOk (CVal x) h)
          end
       | None => HUb end) = HOk (CWrap w) h' /\ Inv h' (w :: L ++ R) /\ kept h h' R /\ obof h w = None /\ obof h' w <> None).
  { intros o O C. destruct (alloc_ok (PInt 0) h2 (x :: x :: L ++ R)) as (w & h3 & E3 & I4 & N3 & O3 & P3 & _); [exact I3|].
    destruct (decref_keep x h3 (w :: x :: L ++ R)) as (h4 & E4 & I5 & S4 & _).
    { eapply Inv_perm; [|exact I4]. perm. } { right. now left. }
    destruct (decref_ok x h4 (w :: L ++ R)) as (h5 & E5 & I6 & B5 & K5).
    { eapply Inv_perm; [|exact I5]. perm. }
    exists w, h5. split; [|split; [exact I6|split; [|split]]].
    - unfold obof in O. destruct (look h2 x) as [c2|]; [|discriminate]. injection O as O. rewrite O.
      rewrite E3. cbn [hbind]. rewrite E4. cbn [hbind]. rewrite E5. cbn [hbind].
      destruct C as [(l & ->)|(d & ->)]; reflexivity.
    - apply (kept_trans h h4).
      + apply kept_ext; [exact I1|]. intros y oy Y. rewrite S4. rewrite P3; [now apply X2|].
        intros ->. rewrite (X2 w oy Y) in N3. discriminate.
      + eapply kept_sub; [eapply kept_decref; [exact I6|exact B5|exact K5]|]. intros y Y. right. apply in_or_app. now right.
    - destruct (obof h w) as [ow|] eqn:F; [|reflexivity]. rewrite (X2 w ow F) in N3. discriminate.
    - rewrite (K5 w (or_introl eq_refl)), S4, O3. discriminate. }
  destruct j as [|b|z|d|s|l|kvs]; cbn [shows].
  - subst x. destruct (LEAF PNone) as (h3 & E3 & I4 & S3); [now apply X2|discriminate|discriminate|].
    exists (CVal none), h3, L. split; [exact E3|]. split; [exact I4|]. split; [exact K|].
    split; [apply kept_ext; [exact I1|]; intros y o Y; rewrite S3; now apply X2|]. split; [reflexivity|]. rewrite S3. now apply X2.
  - destruct (LEAF (PBool b)) as (h3 & E3 & I4 & S3); [now rewrite S2|discriminate|discriminate|].
    exists (CVal x), h3, L. split; [exact E3|]. split; [exact I4|]. split; [exact K|].
    split; [apply kept_ext; [exact I1|]; intros y o Y; rewrite S3; now apply X2|]. exists x. rewrite S3, S2. auto.
  - destruct (LEAF (PInt z)) as (h3 & E3 & I4 & S3); [now rewrite S2|discriminate|discriminate|].
    exists (CVal x), h3, L. split; [exact E3|]. split; [exact I4|]. split; [exact K|].
    split; [apply kept_ext; [exact I1|]; intros y o Y; rewrite S3; now apply X2|]. exists x. rewrite S3, S2. auto.
  - destruct (LEAF (PFloat d)) as (h3 & E3 & I4 & S3); [now rewrite S2|discriminate|discriminate|].
    exists (CVal x), h3, L. split; [exact E3|]. split; [exact I4|]. split; [exact K|].
    split; [apply kept_ext; [exact I1|]; intros y o Y; rewrite S3; now apply X2|]. exists x. rewrite S3, S2. auto.
  - destruct (LEAF (PStr s)) as (h3 & E3 & I4 & S3); [now rewrite S2|discriminate|discriminate|].
    exists (CVal x), h3, L. split; [exact E3|]. split; [exact I4|]. split; [exact K|].
    split; [apply kept_ext; [exact I1|]; intros y o Y; rewrite S3; now apply X2|]. exists x. rewrite S3, S2. auto.
  - destruct KD as (xs & KD). destruct (CONT (PList xs)) as (w & h3 & E3 & I4 & KP & F1 & F2); [now rewrite S2|eauto|].
    exists (CWrap w), h3, L. split; [exact E3|]. split; [exact I4|]. split; [exact K|]. split; [exact KP|]. eauto.
  - destruct KD as (xs & KD). destruct (CONT (PDict xs)) as (w & h3 & E3 & I4 & KP & F1 & F2); [now rewrite S2|eauto|].
    exists (CWrap w), h3, L. split; [exact E3|]. split; [exact I4|]. split; [exact K|]. split; [exact KP|]. eauto.
Qed.
End P.

Lemma wfj_all : forall valid js, Forall (wfj valid) js -> fold_right (fun a P => wfj valid a /\ P) True js /\
  fold_right (fun a P => okj valid a /\ P) True js.
Proof.
  intros valid js F. induction F as [|j js W F IH]; cbn [fold_right]; [auto|].
  destruct IH. pose proof (wfj_okj valid j W). auto.
Qed.
(** the arguments of a call, made from documents by the caller *)
Lemma made : forall valid js h R, Forall (wfj valid) js -> Inv h R -> In none R -> obof h none = Some PNone ->
  exists xs h' L, new_list (newj valid) js h = HOk xs h' /\ Inv h' (xs ++ L ++ R) /\
    length L = list_sum (map entries js) /\ ext h h' /\ stand h' xs js.
Proof.
  intros valid js h R F I1 NR ON. destruct (wfj_all valid js F) as [W O].
  destruct (new_list_ok valid js) with (h := h) (R := R) as (xs & h' & L & E & I2 & K & X & T & V & _); auto.
  { apply Forall_forall. intros j _. apply newj_ok. }
  exists xs, h', L. split; [exact E|]. split; [exact I2|]. split; [exact K|]. split; [exact X|].
  intros f Hf. destruct (V W f) as (V1 & V2 & _); [unfold list_maxi in *; lia|auto].
Qed.

(** the result of call, and the references afterwards *)
Lemma call_ok : forall valid wr c special args js h R, Inv h R -> In none R -> obof h none = Some PNone ->
  (forall x, In x args -> In x R) -> stand h args js -> args <> [] \/ c_obj c = false ->
  (forall rem a j, c_proc c rem a = Some j -> wfj valid j) ->
  exists r h' L, call valid wr c special args h = HOk r h' /\ Inv h' (ref_of r ++ L ++ R) /\ kept h h' R /\
    match c_proc c (fst (sent wr special js)) (snd (sent wr special js)) with
    | None => r = CExc /\ length L = lost special js
    | Some j => shows j h h' r /\ length L = lost special js + entries j
    end.
Proof.
  intros valid wr c special args js h R I1 NR ON IA ST D CW. unfold call.
  replace (c_obj c && match args with [] => true | _ => false end) with false.
  2:{ destruct D as [D| ->]; [|reflexivity]. destruct args; [congruence|]. now rewrite andb_comm. }
  destruct (prepare_ok valid wr special args js h R I1 NR ON IA ST) as (rem & a & h1 & j & h2 & L & E1 & E2 & SE & I2 & X2 & O2 & LL).
  pose proof (kept_ext h h2 R I1 X2) as K2.
  rewrite E1. cbn [hbind fst snd]. rewrite E2. cbn [hbind]. rewrite <- SE. cbn [fst snd].
  destruct (c_proc c rem j) as [res|] eqn:CP.
  - destruct (return_ok valid wr res h2 (a :: L ++ R) (CW _ _ _ CP) I2) as (r & h3 & L3 & E3 & I3 & LL3 & K3 & SH).
    { right. apply in_or_app. now right. } { exact O2. }
    rewrite E3. cbn [hbind].
    destruct (decref_ok a h3 (ref_of r ++ (L3 ++ L) ++ R)) as (h4 & E4 & I4 & B4 & K4).
    { eapply Inv_perm; [|exact I3]. perm. }
    rewrite E4. cbn [hbind]. exists r, h4, (L3 ++ L). split; [reflexivity|]. split; [exact I4|].
    assert (SR : forall x, In x R -> In x (ref_of r ++ (L3 ++ L) ++ R)).
    { intros x X. apply in_or_app. right. apply in_or_app. now right. }
    split.
    { apply (kept_trans h h2); [exact K2|]. apply (kept_trans h2 h3).
      - eapply kept_sub; [exact K3|]. intros x X. right. apply in_or_app. now right.
      - eapply kept_sub; [eapply kept_decref; [exact I4|exact B4|exact K4]|exact SR]. }
    split; [|rewrite app_length; lia].
    assert (OV : forall x, In x (ref_of r) -> obof h4 x = obof h3 x).
    { intros x X. apply K4. apply in_or_app. now left. }
    destruct res as [|b|z|d|s|l|kvs]; cbn [shows] in SH |- *.
    1: destruct SH as (-> & SH); split; [reflexivity|]; rewrite K4; [exact SH|]; now left.
    1-4: destruct SH as (x & -> & SH); exists x; split; [reflexivity|]; rewrite OV; [exact SH|now left].
    all: destruct SH as (w & -> & F & SH); exists w; split; [reflexivity|]; split; [|rewrite OV; [exact SH|now left]].
    all: destruct (obof h w) as [ow|] eqn:Ow; [|reflexivity]; exfalso.
    all: rewrite (X2 w ow Ow) in F; discriminate.
  - cbn [hbind].
    destruct (decref_ok a h2 (L ++ R) I2) as (h4 & E4 & I4 & B4 & K4). rewrite E4. cbn [hbind].
    exists CExc, h4, L. split; [reflexivity|]. split; [exact I4|]. split; [|auto].
    apply (kept_trans h h2); [exact K2|].
    eapply kept_sub; [eapply kept_decref; [exact I4|exact B4|exact K4]|]. intros x X. apply in_or_app. now right.
Qed.

(** ** C113: calls *)
(** The caller makes the arguments [js] in any state of the heap and calls a wrapper: the
    command gets exactly these arguments, in order; the result is given as a value, or as a
    wrapper if it is an object or array; no freed object is used, and everything the
    program could reach before, and the arguments, keep their contents. *)
Theorem C113_call : forall valid wr ops s js c, Forall (okop valid) ops -> prun valid ops pinit = POk s ->
  Forall (wfj valid) js -> js <> [] -> (forall rem a j, c_proc c rem a = Some j -> wfj valid j) ->
  exists xs h1 r h2, new_list (newj valid) js (hp s) = HOk xs h1 /\ call valid wr c false xs h1 = HOk r h2 /\
    kept h1 h2 (xs ++ live (vars s)) /\
    match c_proc c [] (JArr js) with None => r = CExc | Some j => shows j h1 h2 r end.
Proof.
  intros valid wr ops s js c F E W NE CW. destruct (reached valid ops s F E) as (L0 & [I1 ON] & _).
  destruct (made valid js (hp s) _ W I1 (or_introl eq_refl) ON) as (xs & h1 & L1 & E1 & I2 & _ & X & ST).
  destruct (call_ok valid wr c false xs js h1 _ I2) as (r & h2 & L2 & E2 & I3 & K & SH); auto.
  { apply in_or_app. right. apply in_or_app. right. now left. }
  { intros x Hx. apply in_or_app. now left. }
  { left. intros ->. destruct (ST (S (length h1))) as [S1 _]; [lia|]. cbn in S1. congruence. }
  exists xs, h1, r, h2. split; [exact E1|]. split; [exact E2|]. split.
  - eapply kept_sub; [exact K|]. intros x Hx. apply in_app_or in Hx. apply in_or_app. destruct Hx as [Hx|Hx]; [now left|].
    right. apply in_or_app. right. right. apply in_or_app. now left.
  - destruct js as [|j js]; [congruence|]. cbn [sent fst snd] in SH.
    destruct (c_proc c [] (JArr (j :: js))); tauto.
Qed.
Print Assumptions C113_call.

(** The commands that take a key (names starting with @): the text of the first argument is
    the rest of the path; the arguments are an empty array. *)
Theorem C113_special : forall valid wr ops s j js c, Forall (okop valid) ops -> prun valid ops pinit = POk s ->
  Forall (wfj valid) (j :: js) -> (forall rem a j, c_proc c rem a = Some j -> wfj valid j) ->
  exists xs h1 r h2, new_list (newj valid) (j :: js) (hp s) = HOk xs h1 /\ call valid wr c true xs h1 = HOk r h2 /\
    kept h1 h2 (xs ++ live (vars s)) /\
    match c_proc c (wr j) (JArr []) with None => r = CExc | Some res => shows res h1 h2 r end.
Proof.
  intros valid wr ops s j js c F E W CW. destruct (reached valid ops s F E) as (L0 & [I1 ON] & _).
  destruct (made valid (j :: js) (hp s) _ W I1 (or_introl eq_refl) ON) as (xs & h1 & L1 & E1 & I2 & _ & X & ST).
  destruct (call_ok valid wr c true xs (j :: js) h1 _ I2) as (r & h2 & L2 & E2 & I3 & K & SH); auto.
  { apply in_or_app. right. apply in_or_app. right. now left. }
  { intros x Hx. apply in_or_app. now left. }
  { left. intros ->. destruct (ST (S (length h1))) as [S1 _]; [lia|]. discriminate. }
  exists xs, h1, r, h2. split; [exact E1|]. split; [exact E2|]. split.
  - eapply kept_sub; [exact K|]. intros x Hx. apply in_app_or in Hx. apply in_or_app. destruct Hx as [Hx|Hx]; [now left|].
    right. apply in_or_app. right. right. apply in_or_app. now left.
  - cbn [sent fst snd] in SH. destruct (c_proc c (wr j) (JArr [])); tauto.
Qed.
Print Assumptions C113_special.

(** Without arguments: a method is called with null; an object gives its state, as Python
    values (C87) and not as a wrapper. *)
Theorem C113_empty : forall valid wr ops s c special, Forall (okop valid) ops -> prun valid ops pinit = POk s ->
  wfj valid (c_buf c) -> (forall rem a j, c_proc c rem a = Some j -> wfj valid j) ->
  exists r h2, call valid wr c special [] (hp s) = HOk r h2 /\ kept (hp s) h2 (live (vars s)) /\
    if c_obj c then exists x h3, r = CVal x /\ get_json x h2 = HOk (c_buf c) h3
    else match c_proc c [] JNull with None => r = CExc | Some j => shows j (hp s) h2 r end.
Proof.
  intros valid wr ops s c special F E W CW. destruct (reached valid ops s F E) as (L0 & [I1 ON] & _).
  destruct (c_obj c) eqn:CO.
  - unfold call. rewrite CO. cbn [andb]. unfold to_python.
    destruct (newj_ok valid (c_buf c) (wfj_okj valid _ W) (hp s) _ I1 (or_introl eq_refl) ON)
      as (x & h1 & L1 & E1 & I2 & _ & X & T & V & _). rewrite E1. cbn [hbind].
    destruct (Inv_live h1 _ x I2) as (d & Lx); [now left|].
    destruct (incref_ok h1 _ x d I2 Lx) as (h2 & E2 & I3 & S2 & N2). rewrite E2. cbn [hbind].
    destruct (decref_keep x h2 _ I3) as (h3 & E3 & I4 & S3 & N3); [now left|]. rewrite E3. cbn [hbind].
    exists (CVal x), h3. split; [reflexivity|]. split.
    + eapply kept_sub; [apply (kept_ext (hp s) h3 _ I1)|].
      * intros y o Y. rewrite S3, S2. now apply X.
      * intros y Y. right. apply in_or_app. now left.
    + exists x. pose proof (getj_ok (S (length h3)) x h3 _ I4) as G.
      destruct (V W (S (length h3))) as [V1 _]; [lia|].
      rewrite (val_ext _ h2 h3 S3), (val_ext _ h1 h2 S2), V1 in G.
      destruct G as (h4 & L4 & G & _). { apply (same_live h2 h3 x S3). apply (same_live h1 h2 x S2). congruence. }
      exists h4. split; [reflexivity|exact G].
  - destruct (call_ok valid wr c special [] [] (hp s) _ I1) as (r & h2 & L2 & E2 & I3 & K & SH); auto.
    { now left. } { intros x []. } { intros f _. split; reflexivity. }
    exists r, h2. split; [exact E2|]. split.
    + eapply kept_sub; [exact K|]. intros y Y. right. apply in_or_app. now left.
    + cbn [sent fst snd] in SH. destruct (c_proc c [] JNull); tauto.
Qed.
Print Assumptions C113_empty.

(** The counts after a call, exactly: besides the program's variables, the arguments, the
    result and the containers there are references that nobody will give up, two for every
    argument of a method and one for every element inside them (one for the key of an
    @-command). *)
Theorem C113_counts : forall valid wr ops s js c special, Forall (okop valid) ops -> prun valid ops pinit = POk s ->
  Forall (wfj valid) js -> js <> [] -> (forall rem a j, c_proc c rem a = Some j -> wfj valid j) ->
  exists xs h1 r h2 L, new_list (newj valid) js (hp s) = HOk xs h1 /\ call valid wr c special xs h1 = HOk r h2 /\
    (forall x, match look h2 x with
               | Some d => rc d = count_occ Nat.eq_dec (none :: live (vars s) ++ xs ++ ref_of r ++ L ++ slots h2) x
               | None => ~ In x (none :: live (vars s) ++ xs ++ ref_of r ++ L ++ slots h2)
               end) /\
    length L = leaked valid ops pinit + list_sum (map entries js) +
      (if special then 1 + edges (hd JNull js) else 2 * length js + list_sum (map edges js)) +
      match c_proc c (if special then wr (hd JNull js) else []) (if special then JArr [] else JArr js) with
      | Some j => entries j | None => 0 end.
Proof.
  intros valid wr ops s js c special F E W NE CW. destruct (reached valid ops s F E) as (L0 & [I1 ON] & K0).
  destruct (made valid js (hp s) _ W I1 (or_introl eq_refl) ON) as (xs & h1 & L1 & E1 & I2 & K1 & X & ST).
  destruct (call_ok valid wr c special xs js h1 _ I2) as (r & h2 & L2 & E2 & I3 & K & SH); auto.
  { apply in_or_app. right. apply in_or_app. right. now left. }
  { intros x Hx. apply in_or_app. now left. }
  { left. intros ->. destruct (ST (S (length h1))) as [S1 _]; [lia|]. cbn in S1. congruence. }
  exists xs, h1, r, h2, (L2 ++ L1 ++ L0). split; [exact E1|]. split; [exact E2|]. split.
  - assert (I4 : Inv h2 (none :: live (vars s) ++ xs ++ ref_of r ++ L2 ++ L1 ++ L0)) by (eapply Inv_perm; [|exact I3]; perm).
    destruct I4 as [_ I4]. intros x. specialize (I4 x).
    replace (none :: live (vars s) ++ xs ++ ref_of r ++ (L2 ++ L1 ++ L0) ++ slots h2)
      with ((none :: live (vars s) ++ xs ++ ref_of r ++ L2 ++ L1 ++ L0) ++ slots h2)
      by (cbn [app]; now rewrite <- !app_assoc).
    destruct (look h2 x) as [d|]; [apply I4|]. intros IN. apply cnt_in in IN. lia.
  - destruct js as [|j js]; [congruence|]. rewrite !app_length, K1, K0. clear - SH.
    destruct special; cbn [sent lost fst snd hd length] in *.
    + destruct (c_proc c (wr j) (JArr [])); destruct SH as [_ ->]; lia.
    + destruct (c_proc c [] (JArr (j :: js))); destruct SH as [_ ->]; lia.
Qed.
Print Assumptions C113_counts.

Definition echo : command := mkcmd false JNull (fun rem a => match a with JArr [x] => Some x | JArr [] => Some (JStr rem) | _ => None end) (fun _ => None).
Definition w0 (j : jv) : list ascii := match j with JInt z => bs "7" | _ => bs "x" end.
Example C113_call_ex : Forall (wfj ascii7) [JInt 7] /\
  exists xs h1 h2 x, new_list (newj ascii7) [JInt 7] (hp pinit) = HOk xs h1 /\
    call ascii7 w0 echo false xs h1 = HOk (CVal x) h2 /\ obof h2 x = Some (PInt 7).
Proof.
  split; [constructor; [vm_compute; split; [discriminate|reflexivity]|constructor]|].
  do 4 eexists. split; [vm_compute; reflexivity|]. split; [vm_compute; reflexivity|]. vm_compute. reflexivity.
Qed.
Definition fixed : command := mkcmd true (JBool true) (fun _ a => match a with JArr [_; _] => Some (JArr [JNull]) | JNull => Some JNull | _ => None end) (fun k => Some k).
Example C113_all_ex : (forall rem a j, c_proc fixed rem a = Some j -> wfj ascii7 j) /\ wfj ascii7 (c_buf fixed) /\
  Forall (wfj ascii7) [JBool true; JArr [JNull]] /\
  exists xs h1 w h2, new_list (newj ascii7) [JBool true; JArr [JNull]] (hp pinit) = HOk xs h1 /\
    call ascii7 w0 fixed false xs h1 = HOk (CWrap w) h2.
Proof.
  split.
  { intros rem a j. cbn [c_proc fixed]. destruct a as [| | | | |[|a [|b [|d l]]]|]; intros E; try discriminate E; injection E as <-; cbn; auto. }
  split; [exact I|]. split; [constructor; [exact I|constructor; [cbn; auto|constructor]]|].
  do 4 eexists. split; [vm_compute; reflexivity|]. vm_compute. reflexivity.
Qed.
(** The other arguments of a command that takes a key are ignored without a word. *)
Theorem C113_extra_refuted : exists c xs h1 x h2, new_list (newj ascii7) [JInt 7; JInt 8] (hp pinit) = HOk xs h1 /\
  call ascii7 w0 c true xs h1 = HOk (CVal x) h2 /\ obof h2 x = Some (PStr (bs "7")).
Proof. exists echo. do 4 eexists. split; [vm_compute; reflexivity|]. split; [vm_compute; reflexivity|]. vm_compute. reflexivity. Qed.
Print Assumptions C113_extra_refuted.
(** An argument is never freed after a call, not even when the caller and the result give up
    their references. *)
Theorem C113_leak_refuted : exists xs h1 h2 h3, new_list (newj ascii7) [JStr (bs "a"); JStr (bs "b")] (hp pinit) = HOk xs h1 /\
  call ascii7 w0 echo false xs h1 = HOk CExc h2 /\ decrefs xs h2 = HOk tt h3 /\ length h3 = 3 /\
  Forall (fun x => exists d, look h3 x = Some d /\ rc d = 2) xs.
Proof.
  do 4 eexists. split; [vm_compute; reflexivity|]. split; [vm_compute; reflexivity|]. split; [vm_compute; reflexivity|].
  split; [reflexivity|]. repeat constructor; eexists; split; reflexivity.
Qed.
Print Assumptions C113_leak_refuted.

(** ** Indexing *)
Lemma read_ok : forall x j h R, Inv h R -> In x R -> stand h [x] [j] ->
  exists h' L, read_arg (Some x) h = HOk j h' /\ Inv h' (L ++ R) /\ sameob h h' /\ length L = edges j /\ length h' = length h.
Proof.
  intros x j h R I1 IR ST. cbn [read_arg].
  destruct (Inv_live h R x I1) as (c & Lx); [apply in_or_app; now left|].
  destruct (incref_ok h R x c I1 Lx) as (h1 & E1 & I2 & S1 & N1). rewrite E1. cbn [hbind].
  assert (L1 : look h1 x <> None) by (apply (same_live h h1 x S1); congruence).
  pose proof (getj_ok (S (length h1)) x h1 _ I2 L1) as G.
  destruct (ST (S (length h1))) as [V M]; [lia|].
  assert (V1 : val (S (length h1)) h1 x = Some j).
  { rewrite (val_ext _ h h1 S1). cbv [omap] in V. destruct (val (S (length h1)) h x); congruence. }
  assert (M1 : nslots (S (length h1)) h1 x = edges j).
  { rewrite (nslots_ext _ h h1 S1). change ([nslots (S (length h1)) h x] = [edges j]) in M. congruence. }
  rewrite V1, M1 in G. destruct G as (h2 & L & E2 & I3 & S2 & N2 & K2). fold (get_json x h1) in E2. rewrite E2. cbn [hbind].
  destruct (decref_keep x h2 (L ++ R)) as (h3 & E3 & I4 & S3 & N3).
  { eapply Inv_perm; [|exact I3]. perm. }
  { apply in_or_app. left. apply in_or_app. now right. }
  rewrite E3. cbn [hbind]. exists h3, L. split; [reflexivity|]. split; [exact I4|].
  split; [intros y; now rewrite S3, S2, S1|]. split; [exact K2|lia].
Qed.
Lemma stand_app : forall h xs ys js ks, stand h xs js -> stand h ys ks -> stand h (xs ++ ys) (js ++ ks).
Proof.
  intros h xs ys js ks A B f Hf. destruct (A f Hf) as [A1 A2]. destruct (B f Hf) as [B1 B2]. split.
  - clear - A1 B1. revert js A1. induction xs as [|x xs IH]; intros js A1; cbn [omap app] in *; [injection A1 as <-; exact B1|].
    destruct (val f h x); [|discriminate]. destruct (omap (val f h) xs) as [js'|] eqn:O; [|discriminate]. injection A1 as <-.
    rewrite (IH js' eq_refl). reflexivity.
  - now rewrite !map_app, A2, B2.
Qed.
Lemma stand_one : forall h x xs j js, stand h (x :: xs) (j :: js) -> stand h [x] [j] /\ stand h xs js.
Proof.
  intros h x xs j js A.
  assert (B : forall f, length h < f -> val f h x = Some j /\ omap (val f h) xs = Some js /\
    nslots f h x = edges j /\ map (nslots f h) xs = map edges js).
  { intros f Hf. destruct (A f Hf) as [A1 A2]. cbn [omap map] in A1, A2. destruct (val f h x) as [v|]; [|discriminate].
    destruct (omap (val f h) xs) as [vs|]; [|discriminate]. injection A1 as -> ->. injection A2 as A2 A3. auto. }
  split; intros f Hf; destruct (B f Hf) as (B1 & B2 & B3 & B4); cbn [omap map]; [rewrite B1, B3|]; auto.
Qed.
Lemma stand_same : forall h h' xs js, sameob h h' -> length h' = length h -> stand h xs js -> stand h' xs js.
Proof.
  intros h h' xs js S1 N A f Hf. destruct (A f) as [A1 A2]; [lia|]. split.
  - rewrite (omap_ext _ _ (val f h') (val f h)); [exact A1|]. intros; now apply val_ext.
  - rewrite <- A2. apply map_ext. intros; now apply nslots_ext.
Qed.

(** w[k] and w[k]=v: the command gets exactly the key and the value. *)
Theorem C113_item : forall valid ops s k v c, Forall (okop valid) ops -> prun valid ops pinit = POk s ->
  wfj valid k -> wfj valid v -> (forall a j, c_get c a = Some j -> wfj valid j) ->
  exists x y h1 h2 r h3, new_list (newj valid) [k; v] (hp s) = HOk [x; y] h1 /\
    set_item x (Some y) h1 = HOk (k, v) h2 /\ kept h1 h2 (x :: y :: live (vars s)) /\
    get_item valid c x h1 = HOk r h3 /\ kept h1 h3 (x :: y :: live (vars s)) /\
    match c_get c k with None => r = CExc | Some j => shows j h1 h3 r end.
Proof.
  intros valid ops s k v c F E Wk Wv CW. destruct (reached valid ops s F E) as (L0 & [I1 ON] & _).
  destruct (made valid [k; v] (hp s) _ (Forall_cons _ Wk (Forall_cons _ Wv (Forall_nil _))) I1 (or_introl eq_refl) ON)
    as (xs & h1 & L1 & E1 & I2 & _ & X & ST).
  assert (exists x y, xs = [x; y]) as (x & y & ->).
  { destruct (ST (S (length h1))) as [_ M]; [lia|]. apply (f_equal (@length nat)) in M. rewrite !map_length in M.
    destruct xs as [|x [|y [|z xs]]]; try discriminate. eauto. }
  destruct (stand_one _ _ _ _ _ ST) as [Sx Sy].
  destruct (read_ok x k h1 _ I2 (or_introl eq_refl) Sx) as (h2 & L2 & E2 & I3 & S2 & _ & N2).
  destruct (read_ok y v h2 _ I3) as (h3 & L3 & E3 & I4 & S3 & _ & N3).
  { apply in_or_app. right. right. now left. } { now apply (stand_same h1). }
  assert (SB : forall z, In z (x :: y :: live (vars s)) -> In z ([x; y] ++ L1 ++ none :: live (vars s) ++ L0)).
  { intros z Z. cbn [In app] in Z |- *. rewrite in_app_iff. cbn [In]. rewrite in_app_iff. tauto. }
  destruct (c_get c k) as [j|] eqn:G.
  - assert (NN : In none (L2 ++ [x; y] ++ L1 ++ none :: live (vars s) ++ L0)).
    { rewrite !in_app_iff. cbn [In]. tauto. }
    assert (ON2 : obof h2 none = Some PNone) by (rewrite S2; now apply X).
    destruct (return_ok valid (fun _ => []) j h2 _ (CW _ _ G) I3 NN ON2) as (r & h4 & L4 & E4 & I5 & _ & K4 & SH).
    exists x, y, h1, h3, r, h4. split; [exact E1|]. split.
    { unfold set_item. rewrite E2. cbn [hbind]. rewrite E3. reflexivity. }
    split; [apply kept_same; intros z; now rewrite S3, S2|]. split.
    { unfold get_item. rewrite E2. cbn [hbind]. rewrite G. exact E4. }
    split.
    { apply (kept_trans h1 h2); [now apply kept_same|]. eapply kept_sub; [exact K4|].
      intros z Z. apply in_or_app. right. now apply SB. }
    destruct j; cbn [shows] in *; auto.
    all: destruct SH as (w & -> & SH1 & SH2); exists w; now rewrite <- S2.
  - exists x, y, h1, h3, CExc, h2. split; [exact E1|]. split.
    { unfold set_item. rewrite E2. cbn [hbind]. rewrite E3. reflexivity. }
    split; [apply kept_same; intros z; now rewrite S3, S2|]. split.
    { unfold get_item. rewrite E2. cbn [hbind]. now rewrite G. }
    split; [now apply kept_same|reflexivity].
Qed.
Print Assumptions C113_item.
Example C113_item_ex : (forall a j, c_get echo a = Some j -> wfj ascii7 j) /\ wfj ascii7 (JInt 3) /\
  exists x h1 h2, new_list (newj ascii7) [JInt 3; JStr (bs "v")] (hp pinit) = HOk [1; x] h1 /\
    set_item 1 (Some x) h1 = HOk (JInt 3, JStr (bs "v")) h2.
Proof.
  split; [discriminate|]. split; [vm_compute; split; [discriminate|reflexivity]|].
  do 3 eexists. split; [vm_compute; reflexivity|]. vm_compute. reflexivity.
Qed.
(** del w[k] does not remove the element: it is sent as an assignment of null; and it
    takes away a reference to None, here the last one. *)
Theorem C113_del_refuted : exists x h1 h2, newj ascii7 (JInt 3) (hp pinit) = HOk x h1 /\
  set_item x None h1 = HOk (JInt 3, JNull) h2 /\ (exists c, look h1 none = Some c /\ rc c = 1) /\ look h2 none = None.
Proof. do 3 eexists. split; [vm_compute; reflexivity|]. split; [vm_compute; reflexivity|]. split; [eexists; split; reflexivity|reflexivity]. Qed.
Print Assumptions C113_del_refuted.

(** ** C114: attributes *)
Fixpoint arun (ops : list aop) (ms : list (list ascii * nat)) : list (list ascii * nat) :=
  match ops with [] => ms | o :: ops' => arun ops' (astep ms o) end.
Definition about (n : list ascii) (o : aop) : Prop := match o with ASet m _ => m = n | ADel m => m = n end.
Lemma mfind_filter : forall n k ms, mfind bcmp (V := nat) k (filter (fun p => negb (beq (fst p) n)) ms) =
  if beq k n then None else mfind bcmp k ms.
Proof.
  intros n k ms. induction ms as [|[m x] ms IH]; cbn [filter mfind fst]; [now destruct (beq k n)|].
  destruct (beq m n) eqn:B; cbn [negb].
  - apply beq_eq in B. subst m. rewrite IH. destruct (beq k n) eqn:Bk; [reflexivity|].
    destruct (bcmp k n) eqn:C; try reflexivity. apply bcmp_eq in C. subst. now rewrite beq_refl in Bk.
  - cbn [mfind]. destruct (bcmp k m) eqn:C; [|exact IH|exact IH].
    apply bcmp_eq in C. subst. now rewrite B.
Qed.
Lemma arun_app : forall a b ms, arun (a ++ b) ms = arun b (arun a ms).
Proof. induction a as [|o a IH]; intros b ms; cbn [app arun]; [reflexivity|apply IH]. Qed.
Lemma arun_other : forall n ops ms, Forall (fun o => ~ about n o) ops -> mfind bcmp n (arun ops ms) = mfind bcmp n ms.
Proof.
  intros n ops. induction ops as [|o ops IH]; intros ms F; [reflexivity|]. inversion F as [|? ? F1 F2]; subst.
  cbn [arun]. rewrite IH by exact F2. destruct o as [m x|m]; cbn [astep about] in *.
  - apply (mfind_mset_other bcmp bcmp_eq). congruence.
  - rewrite mfind_filter. destruct (beq n m) eqn:B; [|reflexivity]. apply beq_eq in B. congruence.
Qed.
(** what an attribute name gives that nobody assigned: the member the command lists, else the
    method of the wrapper type, else an error *)
Definition native (listed types : list (list ascii)) (n : list ascii) (r : attr) : Prop :=
  (In (dot :: n) listed /\ r = AMember (dot :: n)) \/
  (~ In (dot :: n) listed /\ In n types /\ r = AType n) \/
  (~ In (dot :: n) listed /\ ~ In n types /\ r = AError).
Lemma get_native : forall listed types ms n, mfind bcmp n ms = None -> native listed types n (get_attr listed types ms n).
Proof.
  intros listed types ms n N. unfold get_attr, native. rewrite N.
  destruct (in_dec (list_eq_dec ascii_dec) (dot :: n) listed); [auto|].
  destruct (in_dec (list_eq_dec ascii_dec) n types); auto.
Qed.
(** After any assignments and deletions of attributes, w.n is the object assigned last; if it was
    deleted since, or never assigned, it is the member of the C++ object or the method of
    the wrapper. *)
Theorem C114_latest : forall listed types ops1 o ops2 ms n, about n o -> Forall (fun o => ~ about n o) ops2 ->
  match o with
  | ASet _ x => get_attr listed types (arun (ops1 ++ o :: ops2) ms) n = AObj x
  | ADel _ => native listed types n (get_attr listed types (arun (ops1 ++ o :: ops2) ms) n)
  end.
Proof.
  intros listed types ops1 o ops2 ms n A F. rewrite arun_app. cbn [arun].
  destruct o as [m x|m]; cbn [about] in A; subst m.
  - unfold get_attr. rewrite (arun_other n ops2 _ F). cbn [astep].
    now rewrite (mfind_mset_same bcmp bcmp_eq).
  - apply get_native. rewrite (arun_other n ops2 _ F). cbn [astep]. now rewrite mfind_filter, beq_refl.
Qed.
Print Assumptions C114_latest.
Theorem C114_untouched : forall listed types ops n, Forall (fun o => ~ about n o) ops ->
  native listed types n (get_attr listed types (arun ops []) n).
Proof. intros listed types ops n F. apply get_native. now rewrite (arun_other n ops _ F). Qed.
Print Assumptions C114_untouched.
Example C114_ex : about (bs "x") (ASet (bs "x") 5) /\ Forall (fun o => ~ about (bs "x") o) [ADel (bs "y"); ASet (bs "z") 1] /\
  get_attr [bs ".x"] [bs "keys"] (arun [ASet (bs "x") 5; ADel (bs "y"); ASet (bs "z") 1] []) (bs "x") = AObj 5 /\
  get_attr [bs ".x"] [bs "keys"] (arun [ADel (bs "y")] []) (bs "x") = AMember (bs ".x") /\
  get_attr [bs ".x"] [bs "keys"] [] (bs "keys") = AType (bs "keys") /\ get_attr [bs ".x"] [bs "keys"] [] (bs "u") = AError.
Proof. split; [reflexivity|]. split; [repeat constructor; discriminate|]. repeat split. Qed.
(** Assigning to a member from Python does not reach the C++ object: the name no longer leads to
    the member, and deleting the attribute brings the member back instead of being an
    error. *)
Theorem C114_assign_refuted : exists listed n x, get_attr listed [] [] n = AMember (dot :: n) /\
  get_attr listed [] (arun [ASet n x] []) n = AObj x /\
  get_attr listed [] (arun [ASet n x; ADel n; ADel n] []) n = AMember (dot :: n).
Proof. exists [bs ".x"], (bs "x"), 5. repeat split. Qed.
Print Assumptions C114_assign_refuted.
(** A C++ member called like a method of the wrapper hides it. *)
Theorem C114_hides_refuted : exists types n, In n types /\ get_attr [dot :: n] types [] n = AMember (dot :: n) /\
  get_attr [] types [] n = AType n.
Proof. exists [bs "keys"; bs "insert"], (bs "keys"). repeat split. now left. Qed.
Print Assumptions C114_hides_refuted.

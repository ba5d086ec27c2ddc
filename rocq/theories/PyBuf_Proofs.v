(** * Proofs about the reference counts of PythonBuffer *)
From Coq Require Import Permutation.
From Verif Require Import Base SMap Desc_Model Json_Model Desc_Props PyBuf_Model.

Definition cnt (l : list nat) (x : nat) : nat := count_occ Nat.eq_dec l x.
(** [R]: the references held from outside the heap.  Every count is the number of
    references to the object, and nothing refers to an object that is gone. *)
Definition Inv (h : heap) (R : list nat) : Prop :=
  NoDup (map fst h) /\
  forall x, match look h x with
            | Some c => rc c = cnt (R ++ slots h) x /\ 0 < rc c
            | None => cnt (R ++ slots h) x = 0
            end.
(** the contents of an object *)
Definition obof (h : heap) (x : nat) : option pobj := match look h x with Some c => Some (ob c) | None => None end.
Definition sameob (h h' : heap) : Prop := forall x, obof h' x = obof h x.

Lemma cnt_app : forall a b x, cnt (a ++ b) x = cnt a x + cnt b x.
Proof. intros. apply count_occ_app. Qed.
Lemma cnt_cons : forall a l x, cnt (a :: l) x = (if a =? x then 1 else 0) + cnt l x.
Proof.
  intros. unfold cnt. cbn [count_occ]. destruct (Nat.eq_dec a x) as [->|E].
  - now rewrite Nat.eqb_refl.
  - destruct (Nat.eqb_spec a x); [contradiction|reflexivity].
Qed.
Lemma cnt_nil : forall x, cnt [] x = 0.
Proof. reflexivity. Qed.
Lemma cnt_perm : forall a b, Permutation a b -> forall x, cnt a x = cnt b x.
Proof. intros a b P x. unfold cnt. now apply Permutation_count_occ. Qed.
Lemma cnt_in : forall l x, In x l <-> 0 < cnt l x.
Proof. intros. unfold cnt. now rewrite (count_occ_In Nat.eq_dec). Qed.

Ltac perm := let z := fresh in apply (Permutation_count_occ Nat.eq_dec); intros z;
  change (count_occ Nat.eq_dec) with cnt; cbn [app];
  repeat (rewrite cnt_app || rewrite cnt_cons || rewrite cnt_nil); lia.
Lemma Inv_perm : forall h R R', Permutation R R' -> Inv h R -> Inv h R'.
Proof.
  intros h R R' P [N H]. split; [exact N|]. intros x. specialize (H x).
  rewrite cnt_app in *. now rewrite <- (cnt_perm R R' P).
Qed.

Lemma look_in : forall h x c, look h x = Some c -> In (x, c) h.
Proof.
  induction h as [|[y d] h IH]; cbn [look]; intros x c; [discriminate|].
  destruct (Nat.eqb_spec y x); [intros [= ->]; subst; now left|intros E; right; auto].
Qed.
Lemma look_none : forall h x, look h x = None <-> ~ In x (map fst h).
Proof.
  induction h as [|[y d] h IH]; cbn [look map fst In]; intros x; [tauto|].
  destruct (Nat.eqb_spec y x); [split; [discriminate|intros F; exfalso; auto]|].
  rewrite IH. tauto.
Qed.
Lemma map_fst_upd : forall h x c, map fst (upd h x c) = map fst h.
Proof.
  intros. unfold upd. rewrite map_map. apply map_ext. intros [y d]. cbn [fst].
  destruct (Nat.eqb_spec y x); [subst|]; reflexivity.
Qed.
Lemma look_upd : forall h x c y, look h x <> None ->
  look (upd h x c) y = if y =? x then Some c else look h y.
Proof.
  induction h as [|[z d] h IH]; cbn [look]; intros x c y N; [congruence|].
  unfold upd. cbn [map fst]. fold (upd h x c).
  destruct (Nat.eqb_spec z x).
  - subst z. cbn [look]. destruct (Nat.eqb_spec x y); destruct (Nat.eqb_spec y x); try congruence.
    clear - n. induction h as [|[z d'] h IH]; [reflexivity|]. unfold upd in *. cbn [map fst].
    destruct (Nat.eqb_spec z x); cbn [look].
    + subst. destruct (Nat.eqb_spec x y); [congruence|exact IH].
    + destruct (Nat.eqb_spec z y); [reflexivity|exact IH].
  - cbn [look]. destruct (Nat.eqb_spec z y).
    + destruct (Nat.eqb_spec y x); [congruence|reflexivity].
    + apply IH, N.
Qed.
Lemma slots_upd_same : forall h x c d, NoDup (map fst h) -> look h x = Some d -> ob c = ob d ->
  slots (upd h x c) = slots h.
Proof.
  intros h x c d. induction h as [|[z e] h IH]; cbn [look map fst]; intros N L E; [discriminate|].
  inversion N as [|? ? N1 N2]; subst. unfold upd. cbn [map fst]. fold (upd h x c).
  unfold slots in *. cbn [flat_map].
  destruct (Nat.eqb_spec z x).
  - injection L as ->. subst z. cbn [snd]. rewrite E. f_equal.
    enough (upd h x c = h) as -> by reflexivity.
    unfold upd. rewrite <- (map_id h) at 2. apply map_ext_in. intros [y f] I1. cbn [fst].
    destruct (Nat.eqb_spec y x); [|reflexivity]. subst. exfalso. apply N1.
    apply in_map_iff. exists (x, f). auto.
  - rewrite IH by assumption. reflexivity.
Qed.
Lemma slots_upd : forall h x c d y, NoDup (map fst h) -> look h x = Some d ->
  cnt (slots (upd h x c)) y + cnt (kids (ob d)) y = cnt (slots h) y + cnt (kids (ob c)) y.
Proof.
  intros h x c d y. induction h as [|[z e] h IH]; cbn [look map fst]; intros N L; [discriminate|].
  inversion N as [|? ? N1 N2]; subst. unfold upd. cbn [map fst]. fold (upd h x c).
  unfold slots in *. cbn [flat_map].
  destruct (Nat.eqb_spec z x).
  - injection L as ->. subst z. cbn [snd]. rewrite !cnt_app.
    enough (upd h x c = h) as -> by lia.
    unfold upd. rewrite <- (map_id h) at 2. apply map_ext_in. intros [y' f] I1. cbn [fst].
    destruct (Nat.eqb_spec y' x); [|reflexivity]. subst. exfalso. apply N1.
    apply in_map_iff. exists (x, f). auto.
  - rewrite !cnt_app. specialize (IH N2 L). lia.
Qed.
Lemma in_upd_len : forall h x c, length (upd h x c) = length h.
Proof. intros. unfold upd. apply map_length. Qed.
Lemma look_del : forall h x y, look (del h x) y = if y =? x then None else look h y.
Proof.
  induction h as [|[z d] h IH]; intros x y; cbn [del filter look].
  - now destruct (y =? x).
  - cbn [fst]. destruct (Nat.eqb_spec z x).
    + subst. cbn [negb]. fold (del h x). rewrite IH. destruct (Nat.eqb_spec y x); [reflexivity|].
      destruct (Nat.eqb_spec x y); [congruence|reflexivity].
    + cbn [negb look]. fold (del h x). rewrite IH. destruct (Nat.eqb_spec z y).
      * destruct (Nat.eqb_spec y x); [congruence|reflexivity].
      * reflexivity.
Qed.
Lemma nodup_del : forall h x, NoDup (map fst h) -> NoDup (map fst (del h x)).
Proof.
  induction h as [|[z d] h IH]; intros x N; [constructor|]. cbn [del filter fst]. inversion N; subst.
  fold (del h x). destruct (Nat.eqb_spec z x); cbn [negb]; [auto|]. cbn [map fst]. constructor; [|auto].
  intros F. apply H1. apply in_map_iff in F. destruct F as ((a & b) & <- & F). apply in_map_iff.
  exists (a, b). split; [reflexivity|]. unfold del in F. apply filter_In in F. tauto.
Qed.
Lemma slots_del : forall h x d y, NoDup (map fst h) -> look h x = Some d ->
  cnt (slots (del h x)) y + cnt (kids (ob d)) y = cnt (slots h) y.
Proof.
  intros h x d y. induction h as [|[z e] h IH]; cbn [look map fst]; intros N L; [discriminate|].
  inversion N as [|? ? N1 N2]; subst. cbn [del filter fst]. fold (del h x).
  unfold slots in *. cbn [flat_map]. destruct (Nat.eqb_spec z x).
  - injection L as ->. subst z. cbn [negb]. rewrite cnt_app. cbn [snd].
    enough (del h x = h) as -> by lia. clear - N1. unfold del.
    induction h as [|[a b] h IH]; [reflexivity|]. cbn [filter fst]. cbn [map fst In] in N1.
    destruct (Nat.eqb_spec a x); [exfalso; tauto|]. cbn [negb]. f_equal. apply IH. tauto.
  - cbn [negb flat_map]. rewrite !cnt_app. specialize (IH N2 L). lia.
Qed.
Lemma slots_del_len : forall h x d, NoDup (map fst h) -> look h x = Some d ->
  length (slots (del h x)) + length (kids (ob d)) = length (slots h).
Proof.
  intros h x d. induction h as [|[z e] h IH]; cbn [look map fst]; intros N L; [discriminate|].
  inversion N as [|? ? N1 N2]; subst. cbn [del filter fst]. fold (del h x).
  unfold slots in *. cbn [flat_map]. destruct (Nat.eqb_spec z x).
  - injection L as ->. subst z. cbn [negb]. rewrite app_length. cbn [snd].
    enough (del h x = h) as -> by lia. clear - N1. unfold del.
    induction h as [|[a b] h IH]; [reflexivity|]. cbn [filter fst]. cbn [map fst In] in N1.
    destruct (Nat.eqb_spec a x); [exfalso; tauto|]. cbn [negb]. f_equal. apply IH. tauto.
  - cbn [negb flat_map]. rewrite !app_length. specialize (IH N2 L). lia.
Qed.

(** ** The primitive operations *)
Lemma Inv_live : forall h R x, Inv h R -> In x (R ++ slots h) -> exists c, look h x = Some c.
Proof.
  intros h R x [N H] I1. specialize (H x). apply cnt_in in I1.
  destruct (look h x) as [c|]; [eauto|lia].
Qed.
Lemma obof_upd_same : forall h x c d, look h x = Some d -> ob c = ob d -> sameob h (upd h x c).
Proof.
  intros h x c d L E y. unfold obof. rewrite look_upd by congruence.
  destruct (Nat.eqb_spec y x); [|reflexivity]. subst. rewrite L. now rewrite E.
Qed.
Lemma incref_ok : forall h R x c, Inv h R -> look h x = Some c ->
  exists h', incref x h = HOk x h' /\ Inv h' (x :: R) /\ sameob h h' /\ length h' = length h.
Proof.
  intros h R x c [N H] L. unfold incref. rewrite L. eexists. split; [reflexivity|].
  split; [split|split].
  - now rewrite map_fst_upd.
  - intros y. rewrite look_upd by congruence. rewrite (slots_upd_same h x _ c) by auto.
    specialize (H y). cbn [app]. rewrite cnt_cons. rewrite (Nat.eqb_sym x y).
    destruct (Nat.eqb_spec y x).
    + subst. rewrite L in H. cbn [rc]. lia.
    + destruct (look h y); lia.
  - eapply obof_upd_same; eauto.
  - apply in_upd_len.
Qed.
Lemma decs_ok : forall fuel w h R, Inv h (w ++ R) -> length w + length (slots h) <= fuel ->
  exists h', decs fuel w h = HOk tt h' /\ Inv h' R /\
    (forall x o, obof h' x = Some o -> obof h x = Some o) /\
    (forall x, In x R -> obof h' x = obof h x).
Proof.
  induction fuel as [|f IH]; intros w h R I1 F.
  - destruct w; [|cbn in F; lia]. cbn [decs]. eexists. eauto 6.
  - destruct w as [|x w]; [cbn [decs]; eexists; eauto 6|].
    cbn [decs]. destruct (Inv_live _ _ x I1) as (c & L); [now left|]. rewrite L.
    destruct I1 as [N H]. pose proof (H x) as Hx. rewrite L in Hx. destruct Hx as [Hx1 Hx2].
    destruct (rc c) as [|[|n]] eqn:E; [lia| |].
    + assert (Z : cnt (w ++ R) x = 0 /\ cnt (slots h) x = 0).
      { cbn [app] in Hx1. rewrite cnt_cons, Nat.eqb_refl, cnt_app in Hx1. lia. }
      destruct (IH (kids (ob c) ++ w) (del h x) R) as (h' & E' & I' & O' & K').
      * split; [now apply nodup_del|]. intros y. rewrite look_del.
        pose proof (slots_del h x c y N L) as S1. specialize (H y).
        destruct (Nat.eqb_spec y x).
        -- subst y. rewrite !cnt_app in *. lia.
        -- cbn [app] in H. rewrite cnt_cons in H. destruct (Nat.eqb_spec x y); [congruence|].
           rewrite !cnt_app in *. destruct (look h y); lia.
      * pose proof (slots_del_len h x c N L). rewrite app_length. cbn [length] in F. lia.
      * exists h'. split; [exact E'|]. split; [exact I'|]. split.
        -- intros y o Y. apply O' in Y. unfold obof in *. rewrite look_del in Y.
           destruct (y =? x); [discriminate|exact Y].
        -- intros y Y. rewrite K' by exact Y. unfold obof. rewrite look_del.
           destruct (Nat.eqb_spec y x); [|reflexivity]. subst. exfalso.
           apply cnt_in in Y. rewrite cnt_app in Z. lia.
    + destruct (IH w (upd h x (Cell (S n) (ob c))) R) as (h' & E' & I' & O' & K').
      * split; [now rewrite map_fst_upd|]. intros y. rewrite look_upd by congruence.
        rewrite (slots_upd_same h x _ c) by auto. specialize (H y). cbn [app] in H.
        rewrite cnt_cons in H. rewrite (Nat.eqb_sym x y) in H. destruct (Nat.eqb_spec y x).
        -- subst. rewrite L in H. cbn [rc]. lia.
        -- destruct (look h y); lia.
      * rewrite (slots_upd_same h x _ c) by auto. cbn [length] in F. lia.
      * exists h'. split; [exact E'|]. split; [exact I'|].
        pose proof (obof_upd_same h x (Cell (S n) (ob c)) c L eq_refl) as SO. split.
        -- intros y o Y. rewrite <- SO. auto.
        -- intros y Y. rewrite K' by exact Y. apply SO.
Qed.
Lemma decref_ok : forall x h R, Inv h (x :: R) ->
  exists h', decref x h = HOk tt h' /\ Inv h' R /\
    (forall y o, obof h' y = Some o -> obof h y = Some o) /\
    (forall y, In y R -> obof h' y = obof h y).
Proof. intros. unfold decref. apply decs_ok; [exact H|cbn; lia]. Qed.
(** a reference that is not the last one *)
Lemma decref_keep : forall x h R, Inv h (x :: R) -> In x (R ++ slots h) ->
  exists h', decref x h = HOk tt h' /\ Inv h' R /\ sameob h h' /\ length h' = length h.
Proof.
  intros x h R [N H] I1. unfold decref. cbn [decs].
  pose proof (H x) as Hx. apply cnt_in in I1. cbn [app] in Hx. rewrite cnt_cons, Nat.eqb_refl in Hx.
  destruct (look h x) as [c|] eqn:L; [|lia]. destruct (rc c) as [|[|n]] eqn:E; [lia|lia|].
  replace (decs (length (slots h)) [] (upd h x (Cell (S n) (ob c)))) with (HOk tt (upd h x (Cell (S n) (ob c))))
    by (destruct (length (slots h)); reflexivity).
  eexists. split; [reflexivity|]. split; [split|split].
  - now rewrite map_fst_upd.
  - intros y. rewrite look_upd by congruence.
    rewrite (slots_upd_same h x _ c) by auto. specialize (H y). cbn [app] in H.
    rewrite cnt_cons in H. rewrite (Nat.eqb_sym x y) in H. destruct (Nat.eqb_spec y x).
    + subst. rewrite L in H. cbn [rc]. lia.
    + destruct (look h y); lia.
  - eapply obof_upd_same; eauto.
  - apply in_upd_len.
Qed.
Lemma newid_fresh : forall h, look h (newid h) = None.
Proof.
  intros h. apply look_none. unfold newid. intros F.
  assert (forall l x, In x l -> x <= fold_right Nat.max 0 l) as G.
  { induction l; cbn; [tauto|]. intros x [->|I1]; [lia|]. specialize (IHl x I1). lia. }
  specialize (G _ _ F). lia.
Qed.
Lemma alloc_ok : forall o h R, Inv h (kids o ++ R) ->
  exists x h', alloc o h = HOk x h' /\ Inv h' (x :: R) /\ obof h x = None /\ obof h' x = Some o /\
    (forall y, y <> x -> obof h' y = obof h y) /\ length h' = S (length h).
Proof.
  intros o h R [N H]. unfold alloc. pose proof (newid_fresh h) as NF.
  exists (newid h), ((newid h, Cell 1 o) :: h). split; [reflexivity|]. split; [split|split; [|split; [|split]]].
  - cbn [map fst]. constructor; [now apply look_none|exact N].
  - intros y. cbn [look]. unfold slots. cbn [flat_map snd ob app]. fold (slots h).
    specialize (H y). rewrite cnt_cons, !cnt_app in *.
    destruct (Nat.eqb_spec (newid h) y).
    + subst. rewrite NF in H. cbn [rc]. lia.
    + destruct (look h y); lia.
  - unfold obof. now rewrite NF.
  - unfold obof. cbn [look]. now rewrite Nat.eqb_refl.
  - intros y Y. unfold obof. cbn [look]. destruct (Nat.eqb_spec (newid h) y); [congruence|reflexivity].
  - reflexivity.
Qed.
Lemma increfs_ok : forall l h R, Inv h R -> (forall x, In x l -> look h x <> None) ->
  exists h', increfs l h = HOk tt h' /\ Inv h' (l ++ R) /\ sameob h h' /\ length h' = length h.
Proof.
  induction l as [|x l IH]; intros h R I1 L; cbn [increfs].
  - exists h. split; [reflexivity|]. split; [exact I1|]. split; [intros ?; reflexivity|reflexivity].
  - destruct (look h x) as [c|] eqn:E; [|exfalso; now apply (L x); [left|]].
    destruct (incref_ok h R x c I1 E) as (h1 & E1 & I2 & S1 & N1). rewrite E1. cbn [hbind].
    destruct (IH h1 (x :: R) I2) as (h2 & E2 & I3 & S2 & N2).
    { intros y Y. specialize (S1 y). unfold obof in S1. specialize (L y (or_intror Y)).
      destruct (look h y); [|congruence]. destruct (look h1 y); [discriminate|congruence]. }
    exists h2. split; [exact E2|]. split; [|split; [|lia]].
    + eapply Inv_perm; [|exact I3]. cbn [app]. symmetry. apply Permutation_middle.
    + intros y. now rewrite S2, S1.
Qed.
Lemma same_slots : forall h h' x, NoDup (map fst h) -> NoDup (map fst h') -> sameob h h' ->
  In x (slots h) -> In x (slots h').
Proof.
  intros h h' x N N' SO I1. unfold slots in *. apply in_flat_map in I1. destruct I1 as ((y & c) & I1 & I2).
  cbn [snd] in I2.
  assert (L : look h y = Some c).
  { clear - N I1. induction h as [|[z d] h IH]; [destruct I1|]. cbn [map fst] in N. inversion N; subst.
    cbn [look]. destruct I1 as [[= -> ->]|I1]; [now rewrite Nat.eqb_refl|].
    destruct (Nat.eqb_spec z y); [|auto]. subst. exfalso. apply H1. apply in_map_iff. exists (y, c). auto. }
  specialize (SO y). unfold obof in SO. rewrite L in SO. destruct (look h' y) as [c'|] eqn:L'; [|discriminate].
  injection SO as E. apply in_flat_map. exists (y, c'). split; [now apply look_in|]. cbn [snd]. now rewrite E.
Qed.
Lemma decrefs_keep : forall l h R, Inv h (l ++ R) -> (forall x, In x l -> In x (R ++ slots h)) ->
  exists h', decrefs l h = HOk tt h' /\ Inv h' R /\ sameob h h' /\ length h' = length h.
Proof.
  induction l as [|x l IH]; intros h R I1 L; cbn [decrefs].
  - exists h. split; [reflexivity|]. split; [exact I1|]. split; [intros ?; reflexivity|reflexivity].
  - destruct (decref_keep x h (l ++ R) I1) as (h1 & E1 & I2 & S1 & N1).
    { specialize (L x (or_introl eq_refl)). rewrite <- app_assoc. apply in_or_app. now right. }
    rewrite E1. cbn [hbind].
    destruct (IH h1 R I2) as (h2 & E2 & I3 & S2 & N2).
    { intros y Y. specialize (L y (or_intror Y)). apply in_app_or in L. apply in_or_app.
      destruct L as [L|L]; [now left|right]. exact (same_slots h h1 y (proj1 I1) (proj1 I2) S1 L). }
    exists h2. split; [exact E2|]. split; [exact I3|]. split; [|lia].
    intros y. now rewrite S2, S1.
Qed.
Lemma arr_ok : forall l h R, Inv h R -> (forall x, In x l -> look h x <> None) ->
  exists h', arr l h = HOk tt h' /\ Inv h' (l ++ l ++ R) /\ sameob h h' /\ length h' = length h.
Proof.
  induction l as [|x l IH]; intros h R I1 L; cbn [arr].
  - exists h. split; [reflexivity|]. split; [exact I1|]. split; [intros ?; reflexivity|reflexivity].
  - assert (LV : forall h', sameob h h' -> forall y, In y (x :: l) -> look h' y <> None).
    { intros h' S1 y Y. specialize (S1 y). specialize (L y Y). unfold obof in S1.
      destruct (look h y); [|congruence]. destruct (look h' y); [discriminate|congruence]. }
    destruct (look h x) as [c|] eqn:E; [|exfalso; now apply (L x); [left|]].
    destruct (incref_ok h R x c I1 E) as (h1 & E1 & I2 & S1 & N1). rewrite E1. cbn [hbind].
    destruct (look h1 x) as [c1|] eqn:L1; [|exfalso; eapply LV; [exact S1|now left|exact L1]].
    destruct (incref_ok h1 _ x c1 I2 L1) as (h2 & E2 & I3 & S2 & N2). rewrite E2. cbn [hbind].
    assert (S2' : sameob h h2) by (intros y; now rewrite S2, S1).
    destruct (look h2 x) as [c2|] eqn:L2; [|exfalso; eapply LV; [exact S2'|now left|exact L2]].
    destruct (incref_ok h2 _ x c2 I3 L2) as (h3 & E3 & I4 & S3 & N3). rewrite E3. cbn [hbind].
    destruct (decref_keep x h3 (x :: x :: R) I4) as (h4 & E4 & I5 & S4 & N4); [now left|].
    rewrite E4. cbn [hbind].
    assert (S4' : sameob h h4) by (intros y; now rewrite S4, S3, S2').
    destruct (IH h4 _ I5) as (h5 & E5 & I6 & S5 & N5).
    { intros y Y. eapply LV; [exact S4'|now right]. }
    exists h5. split; [exact E5|]. split; [|split; [|lia]].
    + eapply Inv_perm; [|exact I6]. perm.
    + intros y. now rewrite S5, S4'.
Qed.

(** ** Reading *)
Fixpoint omap {A B} (g : A -> option B) (l : list A) : option (list B) :=
  match l with
  | [] => Some []
  | a :: l' => match g a, omap g l' with Some b, Some bs => Some (b :: bs) | _, _ => None end
  end.
Definition put_all (kvs : list (list ascii * jv)) (m : list (list ascii * jv)) : list (list ascii * jv) :=
  fold_left (fun m p => mset bcmp (cstr (fst p)) (snd p) m) kvs m.
(** the JSON value an object stands for, up to nesting depth [f] *)
Fixpoint val (f : nat) (h : heap) (x : nat) : option jv :=
  match f with
  | O => None
  | S f' =>
      match obof h x with
      | None => None
      | Some PNone => Some JNull
      | Some (PBool b) => Some (JBool b)
      | Some (PInt z) => Some (JInt (as_ll (PInt z)))
      | Some (PFloat d) => Some (JReal d)
      | Some (PStr s) => Some (JStr (cstr s))
      | Some (PList l) => match omap (val f' h) l with Some js => Some (JArr js) | None => None end
      | Some (PDict kvs) =>
          match omap (val f' h) (map snd kvs) with
          | Some js => Some (JObj (put_all (combine (map fst kvs) js) []))
          | None => None
          end
      end
  end.
(** the number of container slots met when the value is written out as a tree *)
Fixpoint nslots (f : nat) (h : heap) (x : nat) : nat :=
  match f with
  | O => 0
  | S f' => match obof h x with
            | Some o => length (kids o) + list_sum (map (nslots f' h) (kids o))
            | None => 0
            end
  end.
Lemma omap_ext : forall A B (f g : A -> option B) l, (forall a, In a l -> f a = g a) -> omap f l = omap g l.
Proof.
  induction l as [|a l IH]; cbn [omap]; intros H; [reflexivity|]. rewrite H by (now left).
  rewrite IH; [reflexivity|]. intros b B1. apply H. now right.
Qed.
Lemma val_ext : forall f h h', sameob h h' -> forall x, val f h' x = val f h x.
Proof.
  induction f as [|f IH]; intros h h' SO x; [reflexivity|]. cbn [val]. rewrite SO.
  destruct (obof h x) as [[]|]; try reflexivity.
  - rewrite (omap_ext _ _ (val f h') (val f h)); [reflexivity|]. intros; now apply IH.
  - rewrite (omap_ext _ _ (val f h') (val f h)); [reflexivity|]. intros; now apply IH.
Qed.
Lemma nslots_ext : forall f h h', sameob h h' -> forall x, nslots f h' x = nslots f h x.
Proof.
  induction f as [|f IH]; intros h h' SO x; [reflexivity|]. cbn [nslots]. rewrite SO.
  destruct (obof h x) as [o|]; [|reflexivity]. f_equal. f_equal. apply map_ext. intros; now apply IH.
Qed.
Lemma same_live : forall h h' x, sameob h h' -> look h x <> None -> look h' x <> None.
Proof.
  intros h h' x SO L. specialize (SO x). unfold obof in SO.
  destruct (look h x); [|congruence]. destruct (look h' x); [discriminate|congruence].
Qed.
Lemma kids_live : forall h R x o, Inv h R -> obof h x = Some o -> forall y, In y (kids o) -> In y (slots h) /\ look h y <> None.
Proof.
  intros h R x o I1 O y Y. unfold obof in O. destruct (look h x) as [c|] eqn:L; [|discriminate].
  injection O as <-. assert (In y (slots h)) as Y2.
  { apply in_flat_map. exists (x, c). split; [now apply look_in|exact Y]. }
  split; [exact Y2|]. destruct (Inv_live h R y I1) as (d & ->); [|discriminate]. apply in_or_app. now right.
Qed.

Definition reads (g : nat -> heap -> hr jv) (f : nat) : Prop :=
  forall x h R, Inv h R -> look h x <> None ->
  match val f h x with
  | Some j => exists h' L, g x h = HOk j h' /\ Inv h' (L ++ R) /\ sameob h h' /\ length h' = length h /\
                length L = nslots f h x
  | None => g x h = HLoop
  end.
Lemma get_list_ok : forall g f, reads g f -> forall l h R, Inv h R -> (forall x, In x l -> look h x <> None) ->
  match omap (val f h) l with
  | Some js => exists h' L, get_list g l h = HOk js h' /\ Inv h' (L ++ R) /\ sameob h h' /\
                 length h' = length h /\ length L = list_sum (map (nslots f h) l)
  | None => get_list g l h = HLoop
  end.
Proof.
  intros g f G l. induction l as [|y l IH]; intros h R I1 LV; cbn [omap get_list map list_sum fold_right].
  - exists h, []. repeat split; auto; apply I1.
  - pose proof (G y h R I1 (LV y (or_introl eq_refl))) as Gy.
    destruct (val f h y) as [j|] eqn:V; [|now rewrite Gy].
    destruct Gy as (h1 & L1 & E1 & I2 & S1 & N1 & K1). rewrite E1. cbn [hbind].
    assert (LV1 : forall x, In x l -> look h1 x <> None).
    { intros x X. eapply same_live; [exact S1|]. apply LV. now right. }
    specialize (IH h1 (L1 ++ R) I2 LV1).
    rewrite (omap_ext _ _ (val f h1) (val f h)) in IH by (intros; now apply val_ext).
    destruct (omap (val f h) l) as [js|]; [|now rewrite IH].
    destruct IH as (h2 & L2 & E2 & I3 & S2 & N2 & K2). rewrite E2. cbn [hbind].
    exists h2, (L2 ++ L1). split; [reflexivity|]. split; [now rewrite <- app_assoc|].
    split; [intros x; now rewrite S2, S1|]. split; [lia|]. rewrite app_length, K1, K2.
    rewrite (map_ext (nslots f h1) (nslots f h)) by (intros; now apply nslots_ext).
    unfold list_sum. lia.
Qed.
Lemma get_dict_ok : forall g f, reads g f -> forall l m h R, Inv h R ->
  (forall x, In x (map snd l) -> look h x <> None) ->
  match omap (val f h) (map snd l) with
  | Some js => exists h' L, get_dict g l m h = HOk (put_all (combine (map fst l) js) m) h' /\ Inv h' (L ++ R) /\
                 sameob h h' /\ length h' = length h /\
                 length L = length l + list_sum (map (nslots f h) (map snd l))
  | None => get_dict g l m h = HLoop
  end.
Proof.
  intros g f G l. induction l as [|[k y] l IH]; intros m h R I1 LV;
    cbn [omap get_dict map list_sum fold_right fst snd combine] in *.
  - exists h, []. repeat split; auto; apply I1.
  - destruct (look h y) as [c|] eqn:Ly; [|exfalso; now apply (LV y); [left|]].
    destruct (incref_ok h R y c I1 Ly) as (h1 & E1 & I2 & S1 & N1). rewrite E1. cbn [hbind].
    assert (LVs : forall h', sameob h h' -> forall x, y = x \/ In x (map snd l) -> look h' x <> None).
    { intros h' SO x X. eapply same_live; [exact SO|]. now apply LV. }
    destruct (look h1 y) as [c1|] eqn:L1; [|exfalso; now apply (LVs h1 S1 y); [left|]].
    destruct (incref_ok h1 _ y c1 I2 L1) as (h2 & E2 & I3 & S2 & N2). rewrite E2. cbn [hbind].
    assert (S2' : sameob h h2) by (intros x; now rewrite S2, S1).
    pose proof (G y h2 _ I3 (LVs h2 S2' y (or_introl eq_refl))) as Gy.
    rewrite (val_ext f h h2 S2') in Gy. rewrite (nslots_ext f h h2 S2') in Gy.
    destruct (val f h y) as [j|] eqn:V; [|now rewrite Gy].
    destruct Gy as (h3 & L3 & E3 & I4 & S3 & N3 & K3). rewrite E3. cbn [hbind].
    destruct (decref_keep y h3 (y :: L3 ++ R)) as (h4 & E4 & I5 & S4 & N4).
    { eapply Inv_perm; [|exact I4]. perm. } { now left. }
    rewrite E4. cbn [hbind].
    assert (S4' : sameob h h4) by (intros x; now rewrite S4, S3, S2').
    assert (LV4 : forall x, In x (map snd l) -> look h4 x <> None) by (intros x X; apply (LVs h4 S4'); now right).
    specialize (IH (mset bcmp (cstr k) j m) h4 _ I5 LV4).
    rewrite (omap_ext _ _ (val f h4) (val f h)) in IH by (intros; now apply val_ext).
    destruct (omap (val f h) (map snd l)) as [js|]; [|exact IH].
    destruct IH as (h5 & L5 & E5 & I6 & S5 & N5 & K5).
    exists h5, (L5 ++ y :: L3). split; [exact E5|]. split; [now rewrite <- app_assoc|].
    split; [intros x; now rewrite S5, S4'|]. split; [lia|]. rewrite app_length. cbn [length]. rewrite K3, K5.
    rewrite (map_ext (nslots f h4) (nslots f h)) by (intros; now apply nslots_ext).
    unfold list_sum. lia.
Qed.
Lemma getj_ok : forall f, reads (getj f) f.
Proof.
  induction f as [|f IH]; intros x h R I1 LV; [reflexivity|]. cbn [val getj nslots].
  unfold obof at 1. destruct (look h x) as [c|] eqn:L; [|congruence].
  assert (O : obof h x = Some (ob c)) by (unfold obof; now rewrite L).
  rewrite O. destruct (ob c) as [|b|z|d|s|l|kvs] eqn:Eo; cbn [kids].
  1-5: exists h, []; repeat split; auto; try apply I1; destruct b; reflexivity.
  - pose proof (kids_live h R x (PList l) I1 O) as KL. cbn [kids] in KL.
    destruct (arr_ok l h R I1) as (h1 & E1 & I2 & S1 & N1); [intros y Y; now apply KL|].
    rewrite E1. cbn [hbind].
    pose proof (get_list_ok (getj f) f IH l h1 _ I2) as GL.
    rewrite (omap_ext _ _ (val f h1) (val f h)) in GL by (intros; now apply val_ext).
    specialize (GL (fun y Y => same_live h h1 y S1 (proj2 (KL y Y)))).
    destruct (omap (val f h) l) as [js|]; [|now rewrite GL].
    destruct GL as (h2 & L2 & E2 & I3 & S2 & N2 & K2). rewrite E2. cbn [hbind].
    assert (S2' : sameob h h2) by (intros y; now rewrite S2, S1).
    destruct (decrefs_keep l h2 (l ++ L2 ++ R)) as (h3 & E3 & I4 & S3 & N3).
    { eapply Inv_perm; [|exact I3]. perm. }
    { intros y Y. apply in_or_app. left. apply in_or_app. now left. }
    rewrite E3. cbn [hbind]. exists h3, (l ++ L2). split; [reflexivity|]. split; [now rewrite <- app_assoc|].
    split; [intros y; now rewrite S3, S2'|]. split; [lia|]. rewrite app_length, K2.
    rewrite (map_ext (nslots f h1) (nslots f h)) by (intros; now apply nslots_ext). reflexivity.
  - pose proof (kids_live h R x (PDict kvs) I1 O) as KL. cbn [kids] in KL.
    destruct (increfs_ok (map snd kvs) h R I1) as (h1 & E1 & I2 & S1 & N1); [intros y Y; now apply KL|].
    rewrite E1. cbn [hbind].
    pose proof (get_dict_ok (getj f) f IH kvs [] h1 _ I2) as GL.
    rewrite (omap_ext _ _ (val f h1) (val f h)) in GL by (intros; now apply val_ext).
    specialize (GL (fun y Y => same_live h h1 y S1 (proj2 (KL y Y)))).
    destruct (omap (val f h) (map snd kvs)) as [js|]; [|now rewrite GL].
    destruct GL as (h2 & L2 & E2 & I3 & S2 & N2 & K2). rewrite E2. cbn [hbind].
    assert (S2' : sameob h h2) by (intros y; now rewrite S2, S1).
    destruct (decrefs_keep (map snd kvs) h2 (L2 ++ R)) as (h3 & E3 & I4 & S3 & N3).
    { eapply Inv_perm; [|exact I3]. perm. }
    { intros y Y. apply in_or_app. right. apply (same_slots h h2); [apply I1|apply I3|exact S2'|now apply KL]. }
    rewrite E3. cbn [hbind]. exists h3, L2. split; [reflexivity|]. split; [exact I4|].
    split; [intros y; now rewrite S3, S2'|]. split; [lia|]. rewrite K2, map_length.
    rewrite (map_ext (nslots f h1) (nslots f h)) by (intros; now apply nslots_ext). reflexivity.
Qed.

(** ** Building *)
Section JvInd.
Variable P : jv -> Prop.
Hypothesis H0 : P JNull.
Hypothesis H1 : forall b, P (JBool b).
Hypothesis H2 : forall z, P (JInt z).
Hypothesis H3 : forall d, P (JReal d).
Hypothesis H4 : forall s, P (JStr s).
Hypothesis H5 : forall l, Forall P l -> P (JArr l).
Hypothesis H6 : forall kvs, Forall (fun p => P (snd p)) kvs -> P (JObj kvs).
Fixpoint jv_ind2 (j : jv) : P j :=
  match j with
  | JNull => H0 | JBool b => H1 b | JInt z => H2 z | JReal d => H3 d | JStr s => H4 s
  | JArr l => H5 l ((fix go (l : list jv) : Forall P l :=
                       match l with [] => Forall_nil _ | a :: l' => Forall_cons a (jv_ind2 a) (go l') end) l)
  | JObj kvs => H6 kvs ((fix go (l : list (list ascii * jv)) : Forall (fun p => P (snd p)) l :=
                       match l with [] => Forall_nil _ | a :: l' => Forall_cons a (jv_ind2 (snd a)) (go l') end) kvs)
  end.
End JvInd.

(** the number of object members, of members and array elements, and the nesting depth *)
Fixpoint entries (j : jv) : nat :=
  match j with
  | JArr l => list_sum (map entries l)
  | JObj kvs => list_sum (map (fun p => S (entries (snd p))) kvs)
  | _ => 0
  end.
Fixpoint edges (j : jv) : nat :=
  match j with
  | JArr l => list_sum (map (fun a => S (edges a)) l)
  | JObj kvs => list_sum (map (fun p => S (edges (snd p))) kvs)
  | _ => 0
  end.
Definition list_maxi (l : list nat) : nat := fold_right Nat.max 0 l.
Fixpoint height (j : jv) : nat :=
  match j with
  | JArr l => S (list_maxi (map height l))
  | JObj kvs => S (list_maxi (map (fun p => height (snd p)) kvs))
  | _ => 0
  end.

Definition ext (h h' : heap) : Prop := forall y o, obof h y = Some o -> obof h' y = Some o.
Lemma ext_refl : forall h, ext h h.
Proof. intros h y o; auto. Qed.
Lemma ext_trans : forall a b c, ext a b -> ext b c -> ext a c.
Proof. intros a b c A B y o O. auto. Qed.
Lemma ext_same : forall h h', sameob h h' -> ext h h'.
Proof. intros h h' S1 y o O. now rewrite S1. Qed.
Lemma ext_live : forall h h' x, ext h h' -> look h x <> None -> look h' x <> None.
Proof.
  intros h h' x E L. unfold ext, obof in E. specialize (E x). destruct (look h x); [|congruence].
  specialize (E _ eq_refl). destruct (look h' x); [discriminate|congruence].
Qed.
Lemma val_mono : forall f h h', ext h h' -> forall x j, val f h x = Some j ->
  val f h' x = Some j /\ nslots f h' x = nslots f h x.
Proof.
  induction f as [|f IH]; intros h h' E x j; cbn [val nslots]; [discriminate|].
  assert (G : forall l js, omap (val f h) l = Some js ->
    omap (val f h') l = Some js /\ map (nslots f h') l = map (nslots f h) l).
  { induction l as [|a l IHl]; cbn [omap map]; intros js V; [auto|].
    destruct (val f h a) as [ja|] eqn:Va; [|discriminate].
    destruct (omap (val f h) l) as [js'|]; [|discriminate]. injection V as <-.
    destruct (IH h h' E a ja Va) as [-> ->]. destruct (IHl js' eq_refl) as [-> ->]. auto. }
  destruct (obof h x) as [o|] eqn:O; [|discriminate]. rewrite (E x o O).
  destruct o as [|b|z|d|s|l|kvs]; cbn [kids]; try (intros V; split; [exact V|reflexivity]).
  - destruct (omap (val f h) l) as [js|] eqn:V; [|discriminate]. intros W.
    destruct (G l js V) as [-> ->]. auto.
  - destruct (omap (val f h) (map snd kvs)) as [js|] eqn:V; [|discriminate]. intros W.
    destruct (G _ js V) as [-> ->]. auto.
Qed.
Lemma omap_mono : forall f h h', ext h h' -> forall l js, omap (val f h) l = Some js ->
  omap (val f h') l = Some js /\ map (nslots f h') l = map (nslots f h) l.
Proof.
  intros f h h' E. induction l as [|a l IHl]; cbn [omap map]; intros js V; [auto|].
  destruct (val f h a) as [ja|] eqn:Va; [|discriminate].
  destruct (omap (val f h) l) as [js'|]; [|discriminate]. injection V as <-.
  destruct (val_mono f h h' E a ja Va) as [-> ->]. destruct (IHl js' eq_refl) as [-> ->]. auto.
Qed.

Lemma dfind_perm : forall k x d y, dfind k d = Some y ->
  Permutation (y :: map snd (dset k x d)) (x :: map snd d) /\ In y (map snd d).
Proof.
  induction d as [|[k' z] d IH]; cbn [dfind dset]; intros y; [discriminate|].
  destruct (beq k' k).
  - intros [= ->]. cbn [map snd]. split; [apply perm_swap|now left].
  - intros E. destruct (IH y E) as [A B]. cbn [map snd]. split; [|now right].
    rewrite perm_swap, A. apply perm_swap.
Qed.
Lemma dset_new : forall k x d, dfind k d = None -> dset k x d = d ++ [(k, x)].
Proof.
  induction d as [|[k' z] d IH]; cbn [dfind dset app]; [reflexivity|].
  destruct (beq k' k); [discriminate|]. intros E. now rewrite IH.
Qed.
Lemma dfind_notin : forall k d, ~ In k (map fst d) -> dfind k d = None.
Proof.
  induction d as [|[k' z] d IH]; cbn [dfind map fst In]; intros N; [reflexivity|].
  destruct (beq k' k) eqn:E; [apply beq_eq in E; subst; exfalso; auto|]. apply IH. tauto.
Qed.

(** objects that are not in [h], and None *)
Definition isnew (h : heap) (z : nat) : Prop := obof h z = None \/ z = none.
(** such objects hold no others in [h'] *)
Definition closed (h h' : heap) : Prop := forall z o, isnew h z -> obof h' z = Some o -> Forall (isnew h) (kids o).
Lemma isnew_ext : forall h h' z, ext h h' -> isnew h' z -> isnew h z.
Proof.
  intros h h' z E [N| ->]; [|now right]. left. destruct (obof h z) as [o|] eqn:O; [|reflexivity].
  rewrite (E z o O) in N. discriminate.
Qed.
Lemma closed_refl : forall h, obof h none = Some PNone -> closed h h.
Proof. intros h ON z o [N| ->] O; [congruence|]. rewrite ON in O. injection O as <-. constructor. Qed.
Lemma closed_same : forall h h', obof h none = Some PNone -> sameob h h' -> closed h h'.
Proof. intros h h' ON S1 z o N O. rewrite S1 in O. eapply closed_refl; eauto. Qed.
Lemma closed_trans : forall a b c, ext a b -> ext b c -> closed a b -> closed b c -> closed a c.
Proof.
  intros a b c E1 E2 C1 C2 z o N O. destruct (obof b z) as [o'|] eqn:Ob.
  - pose proof (E2 z o' Ob) as O2. rewrite O in O2. injection O2 as <-. eapply C1; eauto.
  - pose proof (C2 z o (or_introl Ob) O) as F. eapply Forall_impl; [|exact F]. intros y. now apply isnew_ext.
Qed.
Lemma closed_alloc : forall h h1 h2 x o, ext h h1 -> closed h h1 -> obof h1 x = None -> obof h2 x = Some o ->
  (forall y, y <> x -> obof h2 y = obof h1 y) -> Forall (isnew h) (kids o) -> isnew h x /\ closed h h2.
Proof.
  intros h h1 h2 x o E C N O P F. split.
  - eapply isnew_ext; [exact E|now left].
  - intros z oz Nz Oz. destruct (Nat.eq_dec z x) as [->|D].
    + rewrite O in Oz. injection Oz as <-. exact F.
    + rewrite P in Oz by exact D. eapply C; eauto.
Qed.

Section New.
Variable valid : list ascii -> bool.
(** all the strings in the document are UTF-8 up to their first NUL *)
Fixpoint okj (j : jv) : Prop :=
  match j with
  | JStr s => valid (cstr s) = true
  | JArr l => fold_right (fun a P => okj a /\ P) True l
  | JObj kvs => fold_right (fun p P => okj (snd p) /\ P) True kvs
  | _ => True
  end.
(** int64 numbers, UTF-8 strings without NUL, members in the order of a std::map *)
Fixpoint wfj (j : jv) : Prop :=
  match j with
  | JInt z => (- 2 ^ 63 <= z < 2 ^ 63)%Z
  | JStr s => valid s = true /\ ~ In nul s
  | JArr l => fold_right (fun a P => wfj a /\ P) True l
  | JObj kvs => msorted bcmp kvs /\ fold_right (fun p P => (valid (fst p) = true /\ ~ In nul (fst p)) /\ wfj (snd p) /\ P) True kvs
  | _ => True
  end.
Lemma wfj_okj : forall j, wfj j -> okj j.
Proof.
  induction j using jv_ind2; cbn [wfj okj]; auto.
  - intros [V N]. now rewrite cstr_id.
  - induction H as [|a l Pa F IH]; cbn [fold_right]; [auto|]. intros [W Ws]. auto.
  - intros [_ W]. induction H as [|a l Pa F IH]; cbn [fold_right] in *; [auto|]. destruct W as (_ & W & Ws). auto.
Qed.
Lemma wrap_id : forall z, (- 2 ^ 63 <= z < 2 ^ 63)%Z -> wrap true 64 z = z /\ as_ll (PInt z) = z.
Proof.
  intros z H. split.
  - unfold wrap. change (64 - 1)%Z with 63%Z. rewrite Z.mod_small; lia.
  - cbn [as_ll]. destruct ((- 2 ^ 63 <=? z) && (z <? 2 ^ 63))%Z eqn:E; [reflexivity|lia].
Qed.
Lemma sorted_all : forall (V : Type) (l : list (list ascii * V)) k v, msorted bcmp ((k, v) :: l) ->
  forall k', In k' (map fst l) -> bcmp k k' = Lt.
Proof.
  induction l as [|[k1 v1] l IH]; intros k v S1 k' I1; [destruct I1|].
  cbn [msorted] in S1. destruct S1 as [S1 S2]. cbn [map fst In] in I1. destruct I1 as [<-|I1]; [exact S1|].
  apply bcmp_trans with k1; [exact S1|]. exact (IH k1 v1 S2 k' I1).
Qed.
Lemma sorted_nodup : forall (V : Type) (l : list (list ascii * V)), msorted bcmp l -> NoDup (map fst l).
Proof.
  induction l as [|[k v] l IH]; intros S1; [constructor|]. cbn [map fst]. constructor.
  - intros I1. pose proof (sorted_all V l k v S1 k I1) as F.
    assert (bcmp k k = Eq) by now apply bcmp_eq. congruence.
  - apply IH. cbn [msorted] in S1. tauto.
Qed.
Lemma put_all_sorted : forall l m, msorted bcmp (m ++ l) -> Forall (fun p => ~ In nul (fst p)) l ->
  put_all l m = m ++ l.
Proof.
  unfold put_all. induction l as [|[k v] l IH]; intros m S1 F; cbn [fold_left fst snd]; [now rewrite app_nil_r|].
  inversion F as [|? ? F1 F2]; subst. cbn [fst] in F1. rewrite cstr_id by exact F1.
  rewrite (mset_last bcmp bcmp_eq).
  - rewrite IH; [now rewrite <- app_assoc|now rewrite <- app_assoc|exact F2].
  - intros k' I1. rewrite bcmp_antisym. enough (bcmp k' k = Lt) as -> by reflexivity.
    clear - S1 I1. induction m as [|[k1 v1] m IHm]; [destruct I1|]. cbn [map fst In app] in *.
    destruct I1 as [->|I1].
    + eapply sorted_all; [exact S1|]. rewrite map_app. apply in_or_app. right. now left.
    + apply IHm; [|exact I1]. cbn [msorted] in S1. tauto.
Qed.

Definition builds (j : jv) : Prop := okj j -> forall h R, Inv h R -> In none R -> obof h none = Some PNone ->
  exists x h' L, newj valid j h = HOk x h' /\ Inv h' (x :: L ++ R) /\ length L = entries j /\ ext h h' /\
    length h + height j <= length h' /\
    (wfj j -> forall f, height j < f -> val f h' x = Some j /\ nslots f h' x = edges j) /\
    isnew h x /\ closed h h'.
Lemma builds_leaf : forall o h R, kids o = [] -> Inv h R -> obof h none = Some PNone ->
  exists x h', alloc o h = HOk x h' /\ Inv h' (x :: R) /\ ext h h' /\ length h' = S (length h) /\ obof h' x = Some o /\
    isnew h x /\ closed h h'.
Proof.
  intros o h R K I1 ON. destruct (alloc_ok o h R) as (x & h' & E & I2 & N & O & P & Ln); [now rewrite K|].
  exists x, h'. split; [exact E|]. split; [exact I2|]. split; [|split; [|split; [exact O|]]]; auto.
  - intros y oy Y. destruct (Nat.eq_dec y x) as [->|D]; [congruence|]. now rewrite P.
  - eapply closed_alloc; eauto; [apply ext_refl|now apply closed_refl|rewrite K; constructor].
Qed.
Lemma new_list_ok : forall l, Forall builds l -> fold_right (fun a P => okj a /\ P) True l ->
  forall h R, Inv h R -> In none R -> obof h none = Some PNone ->
  exists xs h' L, new_list (newj valid) l h = HOk xs h' /\ Inv h' (xs ++ L ++ R) /\
    length L = list_sum (map entries l) /\ ext h h' /\ length h + list_maxi (map height l) <= length h' /\
    (fold_right (fun a P => wfj a /\ P) True l -> forall f, list_maxi (map height l) < f ->
       omap (val f h') xs = Some l /\ map (nslots f h') xs = map edges l /\ length xs = length l) /\
    Forall (isnew h) xs /\ closed h h'.
Proof.
  intros l Hl. induction Hl as [|a l Ba Hl IH]; intros OK h R I1 NR ON;
    cbn [new_list fold_right map list_sum list_maxi] in *.
  - exists [], h, []. split; [reflexivity|]. split; [exact I1|]. split; [reflexivity|].
    split; [apply ext_refl|]. split; [lia|]. split; [auto|]. split; [constructor|now apply closed_refl].
  - destruct OK as [OKa OK]. destruct (Ba OKa h R I1 NR ON) as (x & h1 & L1 & E1 & I2 & K1 & X1 & T1 & V1 & Nx & C1).
    rewrite E1. cbn [hbind].
    destruct (IH OK h1 (x :: L1 ++ R) I2) as (xs & h2 & L2 & E2 & I3 & K2 & X2 & T2 & V2 & Nxs & C2).
    { right. apply in_or_app. now right. } { now apply X1. }
    change ((fix go (l : list jv) (h : heap) {struct l} : hr (list nat) :=
       match l with
       | [] => HOk [] h
       | a :: l' => hbind (newj valid a h) (fun x h => hbind (go l' h) (fun xs h => HOk (x :: xs) h))
       end) l h1) with (new_list (newj valid) l h1). rewrite E2. cbn [hbind].
    exists (x :: xs), h2, (L2 ++ L1). split; [reflexivity|]. split.
    { eapply Inv_perm; [|exact I3]. perm. }
    split; [rewrite app_length; unfold list_sum in *; lia|]. split; [eapply ext_trans; eauto|].
    split; [unfold list_maxi in *; lia|]. split; [|split].
    2:{ constructor; [exact Nx|]. eapply Forall_impl; [|exact Nxs]. intros y. now apply isnew_ext. }
    2:{ eapply closed_trans; eauto. }
    intros [Wa Ws] f Hf. destruct (V1 Wa f) as [Va Na]; [unfold list_maxi in *; lia|].
    destruct (V2 Ws f) as (Vl & Nl & Ll); [unfold list_maxi in *; lia|].
    destruct (val_mono f h1 h2 X2 x a Va) as [Va' Na'].
    cbn [omap map length]. rewrite Va', Vl, Na', Na, Nl, Ll. auto.
Qed.
Lemma new_dict_ok : forall l, Forall (fun p => builds (snd p)) l -> fold_right (fun p P => okj (snd p) /\ P) True l ->
  forall d h R, Inv h (map snd d ++ R) -> (forall y, In y (map snd d) -> In y R) -> In none R ->
    obof h none = Some PNone -> forall h0, ext h0 h -> Forall (isnew h0) (map snd d) -> closed h0 h ->
  exists d' h' L, new_dict valid (newj valid) l d h = HOk d' h' /\ Inv h' (map snd d' ++ L ++ R) /\
    length L = list_sum (map (fun p => S (entries (snd p))) l) /\ ext h h' /\
    length h + list_maxi (map (fun p => height (snd p)) l) <= length h' /\
    (fold_right (fun p P => (valid (fst p) = true /\ ~ In nul (fst p)) /\ wfj (snd p) /\ P) True l ->
       NoDup (map fst d ++ map fst l) -> forall f, list_maxi (map (fun p => height (snd p)) l) < f ->
       exists xs, d' = d ++ combine (map fst l) xs /\ length xs = length l /\
         omap (val f h') xs = Some (map snd l) /\ map (nslots f h') xs = map (fun p => edges (snd p)) l) /\
    Forall (isnew h0) (map snd d') /\ closed h0 h'.
Proof.
  intros l Hl. induction Hl as [|[k a] l Ba Hl IH]; intros OK d h R I1 DR NR ON h0 X0 Nd0 C0;
    cbn [new_dict fold_right map list_sum list_maxi fst snd] in *.
  - exists d, h, []. split; [reflexivity|]. split; [exact I1|]. split; [reflexivity|].
    split; [apply ext_refl|]. split; [lia|]. split; [|auto]. intros _ _ f _. exists []. cbn. rewrite app_nil_r. auto.
  - destruct OK as [OKa OK].
    destruct (Ba OKa h _ I1) as (x & h1 & L1 & E1 & I2 & K1 & X1 & T1 & V1 & Nx & C1).
    { apply in_or_app. now right. } { exact ON. }
    rewrite E1. cbn [hbind].
    (* the entry *)
    assert (D : exists d1 h2, dict_set valid k x d h1 = HOk d1 h2 /\ Inv h2 (map snd d1 ++ x :: L1 ++ R) /\
      sameob h1 h2 /\ length h2 = length h1 /\ (forall y, In y (map snd d1) -> In y (x :: L1 ++ R)) /\
      (forall y, In y (map snd d1) -> In y (x :: map snd d)) /\
      (valid k = true -> ~ In nul k -> ~ In k (map fst d) -> d1 = d ++ [(k, x)])).
    { unfold dict_set. destruct (valid (cstr k)) eqn:Vk.
      - destruct (Inv_live h1 _ x I2) as (c & Lx); [now left|].
        destruct (incref_ok h1 _ x c I2 Lx) as (h2 & E2 & I3 & S2 & N2). rewrite E2. cbn [hbind].
        destruct (dfind (cstr k) d) as [y|] eqn:F.
        + destruct (dfind_perm (cstr k) x d y F) as [P Y].
          destruct (decref_keep y h2 (map snd (dset (cstr k) x d) ++ x :: L1 ++ R)) as (h3 & E3 & I4 & S3 & N3).
          { eapply Inv_perm; [|exact I3]. apply (Permutation_count_occ Nat.eq_dec). intros z.
            change (count_occ Nat.eq_dec) with cnt.
            pose proof (cnt_perm _ _ P z) as C. rewrite !cnt_cons in C. cbn [app].
            repeat (rewrite cnt_app || rewrite cnt_cons). lia. }
          { apply in_or_app. left. apply in_or_app. right. right. apply in_or_app. right. auto. }
          rewrite E3. cbn [hbind]. exists (dset (cstr k) x d), h3. split; [reflexivity|]. split; [exact I4|].
          split; [intros z; now rewrite S3, S2|]. split; [lia|]. split.
          * intros z Z. assert (Z' : In z (x :: map snd d)) by (apply (Permutation_in z P); now right).
            clear Z. rename Z' into Z. destruct Z as [->|Z]; [now left|]. right. apply in_or_app. right. auto.
          * split; [intros z Z; apply (Permutation_in z P); now right|].
            intros _ Nk Nd. rewrite cstr_id in F by exact Nk. rewrite dfind_notin in F by exact Nd. discriminate.
        + exists (dset (cstr k) x d), h2. split; [reflexivity|]. rewrite dset_new by exact F.
          rewrite map_app. cbn [map snd]. split; [|split; [|split; [|split]]].
          * eapply Inv_perm; [|exact I3]. perm.
          * exact S2.
          * exact N2.
          * intros z Z. apply in_app_or in Z. destruct Z as [Z|[<-|[]]]; [|now left].
            right. apply in_or_app. right. auto.
          * split; [|intros _ Nk _; now rewrite cstr_id by exact Nk].
            intros z Z. apply in_app_or in Z. destruct Z as [Z|[<-|[]]]; [now right|now left].
      - exists d, h1. split; [reflexivity|]. split.
        { eapply Inv_perm; [|exact I2]. perm. }
        split; [intros z; reflexivity|]. split; [reflexivity|]. split.
        + intros z Z. right. apply in_or_app. right. auto.
        + split; [intros z Z; now right|]. intros V1' Nk _. rewrite cstr_id in Vk by exact Nk. congruence. }
    destruct D as (d1 & h2 & E2 & I3 & S2 & N2 & DR2 & DN2 & W2). rewrite E2. cbn [hbind].
    assert (ON1 : obof h1 none = Some PNone) by now apply X1.
    assert (X02 : ext h0 h2).
    { eapply ext_trans; [exact X0|]. eapply ext_trans; [exact X1|]. now apply ext_same. }
    destruct (IH OK d1 h2 (x :: L1 ++ R) I3 DR2) with (h0 := h0) as (d' & h3 & L3 & E3 & I4 & K3 & X3 & T3 & V3 & Nd3 & C3).
    { right. apply in_or_app. now right. } { now rewrite S2. } { exact X02. }
    { apply Forall_forall. intros y Y. apply DN2 in Y. destruct Y as [<-|Y].
      - eapply isnew_ext; [exact X0|exact Nx].
      - rewrite Forall_forall in Nd0. auto. }
    { eapply closed_trans; [| |exact C0|]; [exact X0|eapply ext_trans; [exact X1|now apply ext_same]|].
      eapply closed_trans; [exact X1|now apply ext_same|exact C1|now apply closed_same]. }
    change ((fix go (l : list (list ascii * jv)) (d : list (list ascii * nat)) (h : heap) {struct l}
        : hr (list (list ascii * nat)) :=
       match l with
       | [] => HOk d h
       | (k, a) :: l' => hbind (newj valid a h) (fun x h => hbind (dict_set valid k x d h) (fun d h => go l' d h))
       end) l d1 h2) with (new_dict valid (newj valid) l d1 h2). rewrite E3.
    exists d', h3, (L3 ++ x :: L1). split; [reflexivity|]. split.
    { eapply Inv_perm; [|exact I4]. perm. }
    split; [rewrite app_length; cbn [length]; unfold list_sum in *; lia|].
    split; [eapply ext_trans; [exact X1|]; eapply ext_trans; [apply ext_same; exact S2|exact X3]|].
    split; [unfold list_maxi in *; lia|]. split; [|auto].
    intros ((Vk & Nk) & Wa & Ws) ND f Hf.
    assert (Nd : ~ In k (map fst d)).
    { intros F. apply NoDup_remove_2 in ND. apply ND. apply in_or_app. now left. }
    pose proof (W2 Vk Nk Nd) as ->.
    destruct (V1 Wa f) as [Va Na]; [unfold list_maxi in *; lia|].
    destruct (V3 Ws) with (f := f) as (xs & -> & Lxs & Vl & Nl).
    { rewrite map_app. cbn [map fst]. rewrite <- app_assoc. exact ND. }
    { unfold list_maxi in *; lia. }
    assert (X13 : ext h1 h3) by (eapply ext_trans; [apply ext_same; exact S2|exact X3]).
    destruct (val_mono f h1 h3 X13 x a Va) as [Va' Na'].
    exists (x :: xs). cbn [combine omap map length snd]. rewrite <- app_assoc, Va', Vl, Na', Na, Nl, Lxs. auto.
Qed.
Lemma newj_ok : forall j, builds j.
Proof.
  induction j using jv_ind2; intros OK h R I1 NR ON; cbn [newj okj entries height edges wfj] in *.
  - destruct (Inv_live h R none I1) as (c & L); [apply in_or_app; now left|].
    destruct (incref_ok h R none c I1 L) as (h' & E & I2 & S1 & N1). exists none, h', [].
    split; [exact E|]. split; [exact I2|]. split; [reflexivity|]. split; [now apply ext_same|].
    split; [lia|]. split; [|split; [now right|now apply closed_same]].
    intros _ f F. destruct f; [lia|]. cbn [val nslots]. rewrite S1, ON. auto.
  - destruct (builds_leaf (PBool b) h R eq_refl I1 ON) as (x & h' & E & I2 & X & T & O & Nx & C1).
    exists x, h', []. split; [exact E|]. split; [exact I2|]. split; [reflexivity|]. split; [exact X|].
    split; [lia|]. split; [|auto]. intros _ f F. destruct f; [lia|]. cbn [val nslots]. rewrite O. auto.
  - destruct (builds_leaf (PInt (wrap true 64 z)) h R eq_refl I1 ON) as (x & h' & E & I2 & X & T & O & Nx & C1).
    exists x, h', []. split; [exact E|]. split; [exact I2|]. split; [reflexivity|]. split; [exact X|].
    split; [lia|]. split; [|auto]. intros W f F. destruct f; [lia|]. cbn [val nslots]. rewrite O.
    destruct (wrap_id z W) as [-> ->]. auto.
  - destruct (builds_leaf (PFloat d) h R eq_refl I1 ON) as (x & h' & E & I2 & X & T & O & Nx & C1).
    exists x, h', []. split; [exact E|]. split; [exact I2|]. split; [reflexivity|]. split; [exact X|].
    split; [lia|]. split; [|auto]. intros _ f F. destruct f; [lia|]. cbn [val nslots]. rewrite O. auto.
  - unfold new_str. rewrite OK.
    destruct (builds_leaf (PStr (cstr s)) h R eq_refl I1 ON) as (x & h' & E & I2 & X & T & O & Nx & C1).
    exists x, h', []. split; [exact E|]. split; [exact I2|]. split; [reflexivity|]. split; [exact X|].
    split; [lia|]. split; [|auto]. intros [_ W] f F. destruct f; [lia|]. cbn [val nslots]. rewrite O.
    rewrite !cstr_id; auto. now rewrite cstr_id.
  - destruct (new_list_ok l H OK h R I1 NR ON) as (xs & h1 & L & E1 & I2 & K & X & T & V & Nxs & C1).
    rewrite E1. cbn [hbind].
    destruct (alloc_ok (PList xs) h1 (L ++ R) I2) as (x & h2 & E2 & I3 & N2 & O2 & P2 & T2).
    assert (X2 : ext h1 h2).
    { intros y o Y. destruct (Nat.eq_dec y x) as [->|D]; [congruence|]. now rewrite P2. }
    exists x, h2, L. split; [exact E2|]. split; [exact I3|]. split; [exact K|].
    split; [eapply ext_trans; eauto|]. split; [lia|].
    split; [|eapply closed_alloc; eauto].
    intros W f F. destruct f as [|f]; [lia|]. destruct (V W f) as (Vl & Nl & Ll); [lia|].
    destruct (omap_mono f h1 h2 X2 xs l Vl) as [Vl' Nl']. cbn [val nslots]. rewrite O2. cbn [kids].
    rewrite Vl', Nl', Nl, Ll. split; [reflexivity|].
    clear. induction l; cbn [length map list_sum fold_right] in *; [reflexivity|]. unfold list_sum in *. lia.
  - destruct (new_dict_ok kvs H OK [] h R I1) with (h0 := h) as (d & h1 & L & E1 & I2 & K & X & T & V & Nd & C1); auto.
    { intros y []. } { apply ext_refl. } { constructor. } { now apply closed_refl. }
    rewrite E1. cbn [hbind].
    destruct (alloc_ok (PDict d) h1 (L ++ R) I2) as (x & h2 & E2 & I3 & N2 & O2 & P2 & T2).
    assert (X2 : ext h1 h2).
    { intros y o Y. destruct (Nat.eq_dec y x) as [->|D]; [congruence|]. now rewrite P2. }
    exists x, h2, L. split; [exact E2|]. split; [exact I3|]. split; [exact K|].
    split; [eapply ext_trans; eauto|]. split; [lia|].
    split; [|eapply closed_alloc; eauto].
    intros [SW W] f F. destruct f as [|f]; [lia|].
    destruct (V W) with (f := f) as (xs & Ed & Lxs & Vl & Nl); [cbn [map app]; now apply sorted_nodup|lia|].
    cbn [app] in Ed. subst d. destruct (omap_mono f h1 h2 X2 xs _ Vl) as [Vl' Nl'].
    assert (CS : map snd (combine (map fst kvs) xs) = xs).
    { clear - Lxs. revert xs Lxs. induction kvs as [|p kvs IH]; intros [|a xs]; cbn; intros L; try discriminate; auto.
      f_equal. apply IH. congruence. }
    assert (CF : map fst (combine (map fst kvs) xs) = map fst kvs).
    { clear - Lxs. revert xs Lxs. induction kvs as [|p kvs IH]; intros [|a xs]; cbn; intros L; try discriminate; auto.
      f_equal. apply IH. congruence. }
    cbn [val nslots]. rewrite O2. cbn [kids]. rewrite CS, CF, Vl', Nl', Nl, Lxs. split.
    + f_equal. f_equal.
      assert (CC : combine (map fst kvs) (map snd kvs) = kvs).
      { clear. induction kvs as [|[a b] kvs IH]; [reflexivity|]. cbn. now rewrite IH. }
      rewrite CC, put_all_sorted; [reflexivity|exact SW|].
      clear - W. induction kvs as [|p kvs IH]; [constructor|]. cbn [fold_right] in W.
      destruct W as ((_ & N) & _ & W). constructor; auto.
    + clear. induction kvs; cbn [length map list_sum fold_right] in *; [reflexivity|]. unfold list_sum in *. lia.
Qed.
End New.

(** ** Objects that contain themselves *)
Definition cstep (h : heap) (a b : nat) : Prop := exists o, obof h a = Some o /\ In b (kids o).
(** [b] is inside [a], at any depth *)
Inductive inside (h : heap) : nat -> nat -> Prop :=
| inside1 a b : cstep h a b -> inside h a b
| insideS a b c : cstep h a b -> inside h b c -> inside h a c.
Fixpoint chain (h : heap) (l : list nat) : Prop :=
  match l with
  | a :: t => match t with b :: _ => cstep h a b | [] => look h a <> None end /\ chain h t
  | [] => True
  end.
Lemma chain_live : forall h l, chain h l -> forall x, In x l -> look h x <> None.
Proof.
  induction l as [|a l IH]; intros C x []; cbn [chain] in C.
  - subst x. destruct C as [C _]. destruct l as [|b l]; [exact C|]. destruct C as (o & O & _).
    unfold obof in O. destruct (look h a); congruence.
  - apply IH; tauto.
Qed.
Lemma chain_tail : forall h l m, chain h (l ++ m) -> chain h m.
Proof. induction l as [|a l IH]; intros m C; [exact C|]. apply IH. cbn [app chain] in C. tauto. Qed.
Lemma chain_inside : forall h l a b m, chain h (a :: l ++ b :: m) -> inside h a b.
Proof.
  induction l as [|c l IH]; intros a b m C; cbn [app chain] in C.
  - apply inside1. tauto.
  - eapply insideS; [apply C|]. apply (IH c b m). cbn [app chain]. tauto.
Qed.
Lemma chain_cycle : forall h l, chain h l -> length h < length l -> exists y l1 l2, l = l1 ++ y :: l2 /\ inside h y y.
Proof.
  intros h l C LL.
  assert (ND : ~ NoDup l).
  { intros ND. assert (length l <= length (map fst h)).
    { apply NoDup_incl_length; [exact ND|]. intros x X. pose proof (chain_live h l C x X) as LV.
      destruct (in_dec Nat.eq_dec x (map fst h)); [assumption|]. exfalso. apply LV. now apply look_none. }
    rewrite map_length in H. lia. }
  assert (exists y l1 l2 l3, l = l1 ++ y :: l2 ++ y :: l3) as (y & l1 & l2 & l3 & ->).
  { clear - ND. induction l as [|a l IH]; [exfalso; apply ND; constructor|].
    destruct (in_dec Nat.eq_dec a l) as [I1|I1].
    - apply in_split in I1. destruct I1 as (l2 & l3 & ->). exists a, [], l2, l3. reflexivity.
    - destruct IH as (y & l1 & l2 & l3 & ->); [intros N; apply ND; now constructor|].
      exists y, (a :: l1), l2, l3. reflexivity. }
  exists y, l1, (l2 ++ y :: l3). split; [reflexivity|]. apply chain_tail in C. eapply chain_inside; eauto.
Qed.
Lemma omap_none : forall A B (g : A -> option B) l, omap g l = None -> exists a, In a l /\ g a = None.
Proof.
  induction l as [|a l IH]; cbn [omap]; [discriminate|]. destruct (g a) eqn:E; [|exists a; split; [now left|exact E]].
  destruct (omap g l); [discriminate|]. intros _. destruct IH as (b2 & B1 & B2); [reflexivity|]. exists b2. split; [now right|exact B2].
Qed.
Lemma omap_some : forall A B (g : A -> option B) l bs, omap g l = Some bs -> forall a, In a l -> exists b, g a = Some b.
Proof.
  induction l as [|a l IH]; cbn [omap]; intros bs E x []; destruct (g a) eqn:Ea; try discriminate.
  - subst. eauto.
  - destruct (omap g l); [|discriminate]. eapply IH; eauto.
Qed.
Lemma val_none_chain : forall h R, Inv h R -> forall f x, look h x <> None -> val f h x = None ->
  exists l, length l = f /\ chain h (x :: l).
Proof.
  intros h R I1. induction f as [|f IH]; intros x LV V.
  - exists []. cbn. auto.
  - cbn [val] in V. destruct (obof h x) as [o|] eqn:O.
    2:{ unfold obof in O. destruct (look h x); congruence. }
    assert (G : forall l, kids o = l -> omap (val f h) l = None -> exists l, length l = S f /\ chain h (x :: l)).
    { intros l K E. apply omap_none in E. destruct E as (a & A1 & A2). rewrite <- K in A1.
      destruct (kids_live h R x o I1 O a A1) as [_ LA]. destruct (IH a LA A2) as (l' & L' & C').
      exists (a :: l'). split; [cbn; lia|]. cbn [chain] in *. split; [|exact C']. exists o. auto. }
    destruct o as [|b|z|d|s|l|kvs]; try discriminate.
    + destruct (omap (val f h) l) eqn:E; [discriminate|]. now apply (G l).
    + destruct (omap (val f h) (map snd kvs)) eqn:E; [discriminate|]. now apply (G (map snd kvs)).
Qed.
Lemma val_step : forall f h x j y, val (S f) h x = Some j -> cstep h x y -> exists j', val f h y = Some j'.
Proof.
  intros f h x j y V (o & O & K). cbn [val] in V. rewrite O in V. destruct o as [|b|z|d|s|l|kvs]; cbn [kids In] in K; try tauto.
  - destruct (omap (val f h) l) eqn:E; [|discriminate]. eapply omap_some; eauto.
  - destruct (omap (val f h) (map snd kvs)) eqn:E; [|discriminate]. eapply omap_some; eauto.
Qed.
Definition vbody (g : nat -> option jv) (o : option pobj) : option jv :=
  match o with
  | None => None
  | Some PNone => Some JNull
  | Some (PBool b) => Some (JBool b)
  | Some (PInt z) => Some (JInt (as_ll (PInt z)))
  | Some (PFloat d) => Some (JReal d)
  | Some (PStr s) => Some (JStr (cstr s))
  | Some (PList l) => match omap g l with Some js => Some (JArr js) | None => None end
  | Some (PDict kvs) =>
      match omap g (map snd kvs) with
      | Some js => Some (JObj (put_all (combine (map fst kvs) js) []))
      | None => None
      end
  end.
Lemma val_S : forall f h x, val (S f) h x = vbody (val f h) (obof h x).
Proof. reflexivity. Qed.
Lemma val_more : forall f h x j, val f h x = Some j -> val (S f) h x = Some j.
Proof.
  induction f as [|f IH]; intros h x j V; [discriminate|].
  assert (G : forall l js, omap (val f h) l = Some js -> omap (val (S f) h) l = Some js).
  { induction l as [|a l IHl]; cbn [omap]; intros js E; [exact E|].
    destruct (val f h a) as [ja|] eqn:Ea; [|discriminate]. destruct (omap (val f h) l) as [js'|]; [|discriminate].
    rewrite (IH h a ja Ea), (IHl js' eq_refl). exact E. }
  rewrite val_S in *. destruct (obof h x) as [o|]; [|discriminate].
  destruct o as [|b|z|d|s|l|kvs]; try exact V; cbn [vbody] in *.
  - destruct (omap (val f h) l) as [js|] eqn:E; [|discriminate]. now rewrite (G l js E).
  - destruct (omap (val f h) (map snd kvs)) as [js|] eqn:E; [|discriminate]. now rewrite (G _ js E).
Qed.
Lemma val_inside : forall h x y, inside h x y -> forall f j, val (S f) h x = Some j -> exists j', val f h y = Some j'.
Proof.
  induction 1; intros f j V.
  - eapply val_step; eauto.
  - destruct (val_step f h a j b V H) as (j1 & V1).
    destruct f as [|f]; [discriminate|]. destruct (IHinside f j1 V1) as (j2 & V2).
    exists j2. now apply val_more.
Qed.
Lemma val_cycle : forall h y, inside h y y -> forall f, val f h y = None.
Proof.
  intros h y C. induction f as [|f IH]; [reflexivity|]. destruct (val (S f) h y) as [j|] eqn:V; [|reflexivity].
  destruct (val_inside h y y C f j V) as (j' & V'). congruence.
Qed.
(** get<json_pack_t> runs for ever exactly on an object that contains itself, or
    contains one that does *)
Lemma getj_loop : forall h R x, Inv h R -> look h x <> None ->
  (get_json x h = HLoop <-> exists y, (y = x \/ inside h x y) /\ inside h y y).
Proof.
  intros h R x I1 LV. unfold get_json. pose proof (getj_ok (S (length h)) x h R I1 LV) as G.
  assert (V : get_json x h = HLoop <-> val (S (length h)) h x = None).
  { unfold get_json. destruct (val (S (length h)) h x) as [j|].
    - destruct G as (h' & L & E & _). rewrite E. split; discriminate.
    - tauto. }
  unfold get_json in V. rewrite V. split.
  - intros E. destruct (val_none_chain h R I1 _ x LV E) as (l & Ll & C).
    destruct (chain_cycle h (x :: l) C) as (y & l1 & l2 & El & Cy); [cbn; lia|].
    exists y. split; [|exact Cy]. destruct l1 as [|a l1]; cbn [app] in El; injection El as -> ->; [now left|].
    right. eapply chain_inside; eauto.
  - intros (y & D & Cy). destruct (val (S (length h)) h x) as [j|] eqn:E; [|reflexivity]. exfalso.
    destruct D as [->|D].
    + now rewrite val_cycle in E.
    + destruct (val_inside h x y D _ j E) as (j' & E'). now rewrite val_cycle in E'.
Qed.

(** ** Programs *)
Definition live (l : list (option nat)) : list nat := flat_map (fun o => match o with Some x => [x] | None => [] end) l.
Lemma live_app : forall a b, live (a ++ b) = live a ++ live b.
Proof. intros. apply flat_map_app. Qed.
Lemma live_somes : forall l, live (map Some l) = l.
Proof. induction l as [|a l IH]; [reflexivity|]. cbn. now rewrite <- IH at 2. Qed.
Lemma live_setv : forall l k x o, nth_error l k = Some (Some x) ->
  Permutation (x :: live (setv l k o)) (match o with Some y => [y] | None => [] end ++ live l).
Proof.
  induction l as [|a l IH]; intros [|k] x o; cbn [nth_error setv]; try discriminate.
  - intros [= ->]. destruct o as [y|]; cbn; [apply perm_swap|reflexivity].
  - intros E. specialize (IH k x o E). destruct a as [b|]; cbn [live flat_map app] in *; [|exact IH].
    fold (live (setv l k o)) (live l) in *. rewrite perm_swap, IH. apply Permutation_middle.
Qed.
Lemma var_in : forall s k x, var s k = Some x -> In x (live (vars s)) /\ nth_error (vars s) k = Some (Some x).
Proof.
  intros s k x E. unfold var in E. destruct (nth_error (vars s) k) as [[y|]|] eqn:N; try discriminate.
  injection E as ->. split; [|reflexivity]. apply nth_error_In in N. apply in_flat_map. exists (Some x). cbn. auto.
Qed.
Lemma append_ok : forall h R x y l, Inv h R -> obof h x = Some (PList l) -> look h y <> None ->
  exists h', list_append x y h = HOk tt h' /\ Inv h' R /\ obof h' x = Some (PList (l ++ [y])) /\
    (forall z, z <> x -> obof h' z = obof h z) /\ In y (slots h').
Proof.
  intros h R x y l I1 O LV. unfold list_append. destruct (look h y) as [c|] eqn:L; [|congruence].
  destruct (incref_ok h R y c I1 L) as (h1 & E1 & I2 & S1 & N1). rewrite E1. cbn [hbind].
  assert (O1 : obof h1 x = Some (PList l)) by now rewrite S1.
  unfold obof in O1. destruct (look h1 x) as [d|] eqn:L1; [|discriminate]. injection O1 as Eo. rewrite Eo.
  set (c' := Cell (rc d) (PList (l ++ [y]))).
  exists (upd h1 x c'). split; [reflexivity|].
  assert (LU : forall z, look (upd h1 x c') z = if z =? x then Some c' else look h1 z).
  { intros z. apply look_upd. congruence. }
  split; [|split; [|split]].
  - destruct I2 as [N H]. split; [now rewrite map_fst_upd|]. intros z. rewrite LU. specialize (H z).
    pose proof (slots_upd h1 x c' d z N L1) as SU. rewrite Eo in SU. cbn [kids c' ob] in SU.
    rewrite cnt_app, cnt_cons, cnt_nil in SU. rewrite cnt_app in *. cbn [app] in H. rewrite cnt_cons in H.
    destruct (Nat.eqb_spec z x).
    + subst z. rewrite L1 in H. cbn [rc c']. lia.
    + destruct (look h1 z); lia.
  - unfold obof. rewrite LU, Nat.eqb_refl. reflexivity.
  - intros z Z. rewrite <- S1. unfold obof. rewrite LU. destruct (Nat.eqb_spec z x); [contradiction|reflexivity].
  - apply in_flat_map. exists (x, c'). split; [|cbn; apply in_or_app; right; now left].
    apply look_in. now rewrite LU, Nat.eqb_refl.
Qed.

Section Run.
Variable valid : list ascii -> bool.
(** everything but a null PyObject* and a string Python cannot decode *)
Definition okop (o : pop) : Prop :=
  match o with OJson j | OPushJson _ j => okj valid j | ONull => False | _ => True end.
(** the references an operation abandons *)
Definition leak_of (s : pst) (o : pop) : nat :=
  match o with
  | OJson j => entries j
  | OAssign k m => match var s k, var s m with Some _, Some _ => 1 | _, _ => 0 end
  | OArray k =>
      match var s k with
      | Some x => match obof (hp s) x with Some (PList l) => length l | _ => 0 end
      | None => 0
      end
  | OPushJson k j =>
      match var s k with
      | Some x => match obof (hp s) x with Some (PList _) => entries j | _ => 0 end
      | None => 0
      end
  | OGet k => match var s k with Some x => nslots (S (length (hp s))) (hp s) x | None => 0 end
  | _ => 0
  end.
Definition PI (s : pst) (L : list nat) : Prop :=
  Inv (hp s) (none :: live (vars s) ++ L) /\ obof (hp s) none = Some PNone.
Lemma PI_add : forall h vs x L L', Inv h (x :: L' ++ none :: live vs ++ L) -> obof h none = Some PNone ->
  PI (mkpst h (vs ++ [Some x])) (L' ++ L).
Proof.
  intros h vs x L L' I1 O. split; [|exact O]. cbn [hp vars]. rewrite live_app. cbn [live flat_map app].
  eapply Inv_perm; [|exact I1]. perm.
Qed.
Lemma is_list_spec : forall x h, is_list x h = match obof h x with Some (PList _) => Some true | Some _ => Some false | None => None end.
Proof. intros. unfold is_list, obof. destruct (look h x) as [c|]; [|reflexivity]. now destruct (ob c). Qed.
Lemma pstep_ok : forall s L o, okop o -> PI s L ->
  match pstep valid s o with
  | POk s' => exists L', PI s' (L' ++ L) /\ length L' = leak_of s o
  | PUb => False
  | PLoop => exists k x, o = OGet k /\ var s k = Some x /\ get_json x (hp s) = HLoop
  end.
Proof.
  intros s L o OK [I1 ON].
  assert (LV : forall k x, var s k = Some x -> look (hp s) x <> None).
  { intros k x V. apply var_in in V. destruct V as [V _].
    destruct (Inv_live _ _ x I1) as (c & ->); [|discriminate]. apply in_or_app. left. right. apply in_or_app. now left. }
  assert (SAME : exists L', PI s (L' ++ L) /\ length L' = 0) by (exists []; split; [split; [exact I1|exact ON]|reflexivity]).
  assert (INC : forall x, look (hp s) x <> None -> exists L', PI (mkpst (match incref x (hp s) with HOk _ h => h | _ => hp s end) (vars s ++ [Some x])) (L' ++ L) /\ length L' = 0 /\ exists h, incref x (hp s) = HOk x h).
  { intros x X. destruct (look (hp s) x) as [c|] eqn:Lx; [|congruence].
    destruct (incref_ok _ _ x c I1 Lx) as (h1 & E1 & I2 & S1 & N1). rewrite E1. exists []. split; [|eauto].
    apply (PI_add _ _ _ _ []); [exact I2|now rewrite S1]. }
  destruct o as [|j|k|k| |k m|k|k|k m|k j|k]; cbn [pstep leak_of okop] in *.
  - destruct (INC none) as (L' & P & E & h & Eh).
    { destruct (Inv_live _ _ none I1) as (c & ->); [now left|discriminate]. }
    rewrite Eh in *. cbn [lift]. eauto.
  - destruct (newj_ok valid j OK (hp s) _ I1 (or_introl eq_refl) ON) as (x & h1 & L1 & E1 & I2 & K1 & X1 & _ & _).
    rewrite E1. cbn [lift]. exists L1. split; [|exact K1]. apply PI_add; [exact I2|now apply X1].
  - destruct (var s k) as [x|] eqn:V; [|exact SAME]. destruct (INC x (LV k x V)) as (L' & P & E & h & Eh).
    rewrite Eh in *. cbn [lift]. eauto.
  - destruct (var s k) as [x|] eqn:V; [|exact SAME]. destruct (INC x (LV k x V)) as (L' & P & E & h & Eh).
    rewrite Eh in *. cbn [lift]. eauto.
  - destruct OK.
  - destruct (var s k) as [x|] eqn:V; [|exact SAME]. destruct (var s m) as [y|] eqn:Vm; [|exact SAME].
    pose proof (LV m y Vm) as LY. destruct (look (hp s) y) as [c|] eqn:Ly; [|congruence].
    destruct (incref_ok _ _ y c I1 Ly) as (h1 & E1 & I2 & S1 & N1). rewrite E1. cbn [lift].
    exists [x]. split; [|reflexivity]. split; [|cbn [hp]; now rewrite S1]. cbn [hp vars].
    apply var_in in V. destruct V as [_ V]. pose proof (live_setv (vars s) k x (Some y) V) as P. cbn [app] in P.
    eapply Inv_perm; [|exact I2]. apply (Permutation_count_occ Nat.eq_dec). intros z.
    change (count_occ Nat.eq_dec) with cnt. pose proof (cnt_perm _ _ P z) as C.
    cbn [app] in *. repeat (rewrite cnt_cons in * || rewrite cnt_app in * ). lia.
  - destruct (var s k) as [x|] eqn:V; [|exact SAME].
    apply var_in in V. destruct V as [_ V]. pose proof (live_setv (vars s) k x None V) as P. cbn [app] in P.
    destruct (decref_ok x (hp s) (none :: live (setv (vars s) k None) ++ L)) as (h1 & E1 & I2 & A2 & B2).
    { eapply Inv_perm; [|exact I1]. apply (Permutation_count_occ Nat.eq_dec). intros z.
      change (count_occ Nat.eq_dec) with cnt. pose proof (cnt_perm _ _ P z) as C.
      repeat (rewrite cnt_cons in * || rewrite cnt_app in * ). lia. }
    rewrite E1. cbn [lift]. exists []. split; [|reflexivity]. split; [exact I2|]. cbn [hp]. rewrite B2; [exact ON|now left].
  - destruct (var s k) as [x|] eqn:V; [|exact SAME]. pose proof (LV k x V) as LX.
    unfold obof at 1. destruct (look (hp s) x) as [c|] eqn:Lx; [|congruence].
    assert (O : obof (hp s) x = Some (ob c)) by (unfold obof; now rewrite Lx).
    destruct (ob c) as [|b|z|d|t|l|kvs] eqn:Eo;
      try (destruct (INC x) as (L' & P & E & h & Eh); [congruence|]; rewrite Eh in *; cbn [lift]; eauto; fail).
    + destruct (arr_ok l (hp s) _ I1) as (h1 & E1 & I2 & S1 & N1).
      { intros y Y. exact (proj2 (kids_live _ _ x (PList l) I1 O y Y)). }
      rewrite E1. cbn [lift]. exists l. split; [|reflexivity]. split; [|cbn [hp]; now rewrite S1].
      cbn [hp vars]. rewrite live_app, live_somes. eapply Inv_perm; [|exact I2]. perm.
  - destruct (var s k) as [x|] eqn:V; [|exact SAME]. destruct (var s m) as [y|] eqn:Vm; [|exact SAME].
    rewrite is_list_spec. pose proof (LV k x V) as LX. unfold obof at 1.
    destruct (look (hp s) x) as [cx|] eqn:Lx; [|congruence].
    assert (O : obof (hp s) x = Some (ob cx)) by (unfold obof; now rewrite Lx).
    destruct (ob cx) as [|b|z|d|t|l|kvs] eqn:Eo; try exact SAME.
    pose proof (LV m y Vm) as LY. destruct (look (hp s) y) as [c|] eqn:Ly; [|congruence].
    destruct (incref_ok _ _ y c I1 Ly) as (h1 & E1 & I2 & S1 & N1). rewrite E1. cbn [hbind].
    destruct (append_ok h1 _ x y l I2) as (h2 & E2 & I3 & O2 & P2 & Y2).
    { now rewrite S1. } { eapply same_live; [exact S1|congruence]. }
    rewrite E2. cbn [hbind]. destruct (decref_ok y h2 _ I3) as (h3 & E3 & I4 & A4 & B4). rewrite E3. cbn [lift].
    exists []. split; [|reflexivity]. split; [exact I4|]. cbn [hp]. rewrite B4 by (now left).
    rewrite P2, S1; [exact ON|]. intros <-. congruence.
  - destruct (var s k) as [x|] eqn:V; [|exact SAME].
    rewrite is_list_spec. pose proof (LV k x V) as LX. unfold obof.
    destruct (look (hp s) x) as [cx|] eqn:Lx; [|congruence].
    assert (O : obof (hp s) x = Some (ob cx)) by (unfold obof; now rewrite Lx).
    destruct (ob cx) as [|b|z|d|t|l|kvs] eqn:Eo; try exact SAME.
    destruct (newj_ok valid j OK (hp s) _ I1 (or_introl eq_refl) ON) as (y & h1 & L1 & E1 & I2 & K1 & X1 & _).
    rewrite E1. cbn [hbind].
    destruct (append_ok h1 _ x y l I2) as (h2 & E2 & I3 & O2 & P2 & Y2).
    { now apply X1. } { destruct (Inv_live _ _ y I2) as (c & ->); [now left|discriminate]. }
    rewrite E2. cbn [hbind]. destruct (decref_ok y h2 _ I3) as (h3 & E3 & I4 & A4 & B4). rewrite E3. cbn [lift].
    exists L1. split; [|exact K1]. split.
    { cbn [hp vars]. eapply Inv_perm; [|exact I4]. perm. }
    cbn [hp]. rewrite B4 by (apply in_or_app; right; now left).
    rewrite P2; [now apply X1|]. intros <-. congruence.
  - destruct (var s k) as [x|] eqn:V; [|exact SAME].
    pose proof (getj_ok (S (length (hp s))) x (hp s) _ I1 (LV k x V)) as G. unfold get_json at 1.
    destruct (val (S (length (hp s))) (hp s) x) as [j|].
    + destruct G as (h1 & L1 & E1 & I2 & S1 & N1 & K1). rewrite E1. cbn [lift]. exists L1. split; [|exact K1].
      split; [|cbn [hp]; now rewrite S1]. cbn [hp vars]. eapply Inv_perm; [|exact I2]. perm.
    + rewrite G. cbn [lift]. exists k, x. auto.
Qed.

(** the references abandoned by a run *)
Fixpoint leaked (ops : list pop) (s : pst) : nat :=
  match ops with
  | [] => 0
  | o :: ops' => leak_of s o + match pstep valid s o with POk s' => leaked ops' s' | _ => 0 end
  end.
Lemma prun_ok : forall ops s L, Forall okop ops -> PI s L ->
  match prun valid ops s with
  | POk s' => exists L', PI s' (L' ++ L) /\ length L' = leaked ops s
  | PUb => False
  | PLoop => True
  end.
Proof.
  induction ops as [|o ops IH]; intros s L F P; cbn [prun leaked].
  - exists []. auto.
  - inversion F as [|? ? F1 F2]; subst. pose proof (pstep_ok s L o F1 P) as S1.
    destruct (pstep valid s o) as [s'| |]; [|exact S1|exact I].
    destruct S1 as (L1 & P1 & K1). specialize (IH s' _ F2 P1).
    destruct (prun valid ops s') as [s''| |]; [|exact IH|exact I].
    destruct IH as (L2 & P2 & K2). exists (L2 ++ L1). rewrite <- app_assoc, app_length. split; [exact P2|lia].
Qed.
Lemma PI_init : PI pinit [].
Proof.
  split; [|reflexivity]. split; [repeat constructor; cbn; tauto|]. intros x. unfold pinit, none. cbn.
  destruct x; cbn; auto.
Qed.

(** nothing is left when nothing is abandoned and nothing contains itself *)
Lemma no_leak_clean : forall s, PI s [] -> live (vars s) = [] -> (forall y, ~ inside (hp s) y y) ->
  exists n, hp s = [(none, Cell n PNone)].
Proof.
  intros s [[N H] ON] LV AC. rewrite LV in H. cbn [app] in H.
  assert (PAR : forall x, look (hp s) x <> None -> x <> none -> exists p, cstep (hp s) p x).
  { intros x X NX. specialize (H x). destruct (look (hp s) x) as [c|]; [|congruence].
    rewrite cnt_cons in H. destruct (Nat.eqb_spec none x); [congruence|].
    assert (I1 : In x (slots (hp s))) by (apply cnt_in; lia).
    apply in_flat_map in I1. destruct I1 as ((p & d) & I1 & I2). exists p. cbn [snd] in I2. exists (ob d).
    split; [|exact I2]. clear - N I1. unfold obof. induction (hp s) as [|[z e] h IH]; [destruct I1|].
    cbn [map fst] in N. inversion N; subst. cbn [look]. destruct I1 as [[= -> ->]|I1]; [now rewrite Nat.eqb_refl|].
    destruct (Nat.eqb_spec z p); [|auto]. subst. exfalso. apply H1. apply in_map_iff. exists (p, d). auto. }
  assert (UP : forall n x, look (hp s) x <> None -> x <> none -> exists l a, length l = n /\ chain (hp s) (a :: l) /\ a <> none).
  { induction n as [|n IH]; intros x X NX.
    - exists [], x. cbn. auto.
    - destruct (IH x X NX) as (l & a & Ll & C & NA).
      destruct (PAR a) as (p & P); [eapply chain_live; [exact C|now left]|exact NA|].
      exists (a :: l), p. split; [cbn; lia|]. split; [split; [exact P|exact C]|].
      intros ->. destruct P as (o & O & K). rewrite ON in O. injection O as <-. destruct K. }
  assert (ALL : forall x, look (hp s) x <> None -> x = none).
  { intros x X. destruct (Nat.eq_dec x none) as [E|E]; [exact E|]. exfalso.
    destruct (UP (length (hp s)) x X E) as (l & a & Ll & C & _).
    destruct (chain_cycle _ _ C) as (y & l1 & l2 & _ & Cy); [cbn; lia|]. exact (AC y Cy). }
  clear PAR UP H. destruct (hp s) as [|[a c] h] eqn:E; [discriminate|].
  assert (a = none) as ->.
  { apply ALL. cbn [look]. now rewrite Nat.eqb_refl. }
  assert (h = []) as ->.
  { destruct h as [|[b d] h]; [reflexivity|]. exfalso. cbn [map fst] in N. inversion N as [|? ? N1 N2]; subst.
    apply N1. left. apply ALL. cbn [look]. destruct (Nat.eqb_spec none b); [discriminate|]. now rewrite Nat.eqb_refl. }
  unfold obof in ON. cbn in ON. injection ON as Eo. exists (rc c). destruct c as [n o]. cbn in Eo. subst. reflexivity.
Qed.
End Run.

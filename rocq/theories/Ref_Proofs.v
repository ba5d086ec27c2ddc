From Verif Require Import Base Base_Proofs Ref_Model Ref_Spec.
Ltac Zify.zify_post_hook ::= Z.div_mod_to_equations.

Definition wt (k : nat) (c : cell) : nat :=
  match c with Live (Some j) => if (j =? k)%nat then 1 else 0 | _ => 0 end%nat.
Lemma refs_cons k c l : refs k (c :: l) = (wt k c + refs k l)%nat.
Proof. destruct c as [|[j|]]; reflexivity. Qed.
Lemma refs_set k l v c c0 : nth_error l v = Some c0 ->
  (refs k (set_cell v c l) + wt k c0 = refs k l + wt k c)%nat.
Proof.
  revert v. induction l as [|x l IH]; intros [|v] H; cbn [nth_error set_cell] in *; try discriminate.
  - injection H as ->. rewrite !refs_cons. lia.
  - specialize (IH _ H). rewrite !refs_cons. lia.
Qed.
Lemma refs_ge k l v : nth_error l v = Some (Live (Some k)) -> (1 <= refs k l)%nat.
Proof.
  revert v. induction l as [|x l IH]; intros [|v] H; cbn [nth_error] in H; try discriminate; rewrite refs_cons.
  - injection H as ->. cbn. rewrite Nat.eqb_refl. lia.
  - specialize (IH _ H). lia.
Qed.
Lemma refs_ge2 k l v w : v <> w -> nth_error l v = Some (Live (Some k)) ->
  nth_error l w = Some (Live (Some k)) -> (2 <= refs k l)%nat.
Proof.
  revert v w. induction l as [|x l IH]; intros [|v] [|w] N H1 H2; cbn [nth_error] in *; try discriminate;
    try congruence; rewrite refs_cons.
  - injection H1 as ->. apply refs_ge in H2. cbn. rewrite Nat.eqb_refl. lia.
  - injection H2 as ->. apply refs_ge in H1. cbn. rewrite Nat.eqb_refl. lia.
  - enough (2 <= refs k l)%nat by lia. eapply IH; [|exact H1|exact H2]. lia.
Qed.
Lemma refs_repeat k n : refs k (repeat Dead n) = 0%nat.
Proof. induction n; cbn; auto. Qed.
Lemma nth_upd A (l : list A) j x : forall i,
  nth_error (upd j x l) i = if (i =? j)%nat then
     match nth_error l j with Some _ => Some x | None => None end else nth_error l i.
Proof.
  revert j. induction l as [|y l IH]; intros j i; [destruct j, i; cbn; try reflexivity|].
  - destruct (i =? j)%nat; reflexivity.
  - destruct j, i; cbn [upd nth_error Nat.eqb]; auto.
Qed.
Lemma length_upd A (l : list A) j x : length (upd j x l) = length l.
Proof. revert j; induction l; intros [|j]; cbn; auto. Qed.
Lemma nth_set_cell l j x : forall i,
  nth_error (set_cell j x l) i = if (i =? j)%nat then
     match nth_error l j with Some _ => Some x | None => None end else nth_error l i.
Proof.
  revert j. induction l as [|y l IH]; intros j i; [destruct j, i; cbn; try reflexivity|].
  - destruct (i =? j)%nat; reflexivity.
  - destruct j, i; cbn [set_cell nth_error Nat.eqb]; auto.
Qed.
Lemma nth_snoc A (l : list A) x i :
  nth_error (l ++ [x]) i = if (i =? length l)%nat then Some x else nth_error l i.
Proof.
  destruct (Nat.eqb_spec i (length l)) as [->|NE].
  - rewrite nth_error_app2 by lia. now rewrite Nat.sub_diag.
  - destruct (Nat.lt_ge_cases i (length l)) as [L|L].
    + now rewrite nth_error_app1.
    + rewrite nth_error_app2 by lia. destruct (i - length l)%nat eqn:E; [lia|]. cbn.
      rewrite (proj2 (nth_error_None l i)) by lia. now destruct n.
Qed.
Lemma nth_lt A (l : list A) i x : nth_error l i = Some x -> (i < length l)%nat.
Proof. intro H. apply nth_error_Some. congruence. Qed.

(** ** PtrStoreRef *)
Section P.
Variable exact : bool.   (* whether counts are exact or only upper bounds *)
Definition cnt_ok (o : pobj) (n : nat) : Prop :=
  if po_live o then if exact then (Z.of_nat n = po_cnt o + 1)%Z /\ (1 <= n)%nat
                    else (Z.of_nat n <= po_cnt o + 1)%Z
  else n = 0%nat.
Definition PInv (s : pst) : Prop := forall k,
  match nth_error (ps_objs s) k with
  | Some o => cnt_ok o (refs k (ps_vars s))
  | None => refs k (ps_vars s) = 0%nat
  end.
Lemma PInv_live s v k : PInv s -> cell_at (ps_vars s) v = Some (Live (Some k)) ->
  exists o, nth_error (ps_objs s) k = Some o /\ po_live o = true.
Proof.
  intros H E. apply refs_ge in E. specialize (H k). destruct (nth_error (ps_objs s) k) as [o|]; [|lia].
  exists o. split; auto. unfold cnt_ok in H. destruct (po_live o); auto. lia.
Qed.

Lemma p_inc_ok s v w d c0 :
  PInv s -> cell_at (ps_vars s) w = Some (Live d) -> cell_at (ps_vars s) v = Some c0 ->
  (exact = true -> forall k, wt k c0 = 0%nat) ->
  exists s', p_inc d (p_set v (Live d) s) = Some s' /\ PInv s'.
Proof.
  intros HI Hw Hv HE. unfold p_inc, p_set. destruct d as [k|].
  - destruct (PInv_live s w k HI Hw) as (o & N1 & N2). cbn [ps_objs ps_vars]. rewrite N1, N2.
    eexists. split; [reflexivity|]. intro j. cbn [ps_objs ps_vars]. rewrite nth_upd, N1.
    pose proof (refs_set j _ _ (Live (Some k)) _ Hv) as R. pose proof (HI j) as J.
    cbn [wt] in R. destruct (Nat.eqb_spec j k) as [->|NE].
    + rewrite N1 in J. rewrite Nat.eqb_refl in R. unfold cnt_ok in *. rewrite N2 in J. cbn [po_live po_cnt].
      destruct exact; [specialize (HE eq_refl k)|]; lia.
    + destruct (Nat.eqb_spec k j); [congruence|].
      destruct (nth_error (ps_objs s) j) as [o'|].
      * unfold cnt_ok in *. destruct (po_live o'), exact; try (specialize (HE eq_refl j)); try lia.
      * lia.
  - eexists. split; [reflexivity|]. intro j. cbn [ps_objs ps_vars].
    pose proof (refs_set j _ _ (Live None) _ Hv) as R. pose proof (HI j) as J. cbn [wt] in R.
    destruct (nth_error (ps_objs s) j) as [o'|].
    * unfold cnt_ok in *. destruct (po_live o'), exact; try (specialize (HE eq_refl j)); try lia.
    * lia.
Qed.

Lemma pstep_ok op s : PInv s -> (exact = true -> assigns_null op s) ->
  exists s', pstep op s = Some s' /\ PInv s'.
Proof.
  intros HI HA. destruct op as [v|v|v w|v w|v|v]; cbn [pstep].
  - destruct (cell_at (ps_vars s) v) as [[|p]|] eqn:Hv; eauto.
    eexists. split; [reflexivity|]. intro j. cbn [ps_objs ps_vars]. rewrite nth_snoc.
    pose proof (refs_set j _ _ (Live (Some (length (ps_objs s)))) _ Hv) as R. pose proof (HI j) as J.
    cbn [wt] in R. destruct (Nat.eqb_spec j (length (ps_objs s))) as [->|NE].
    + rewrite Nat.eqb_refl in R. rewrite (proj2 (nth_error_None _ _)) in J by lia.
      unfold cnt_ok. cbn. destruct exact; lia.
    + destruct (Nat.eqb_spec (length (ps_objs s)) j); [congruence|].
      destruct (nth_error (ps_objs s) j) as [o'|]; [|lia].
      unfold cnt_ok in *. destruct (po_live o'), exact; lia.
  - destruct (cell_at (ps_vars s) v) as [[|p]|] eqn:Hv; eauto.
    eexists. split; [reflexivity|]. intro j. cbn [p_set ps_objs ps_vars].
    pose proof (refs_set j _ _ (Live None) _ Hv) as R. pose proof (HI j) as J. cbn [wt] in R.
    destruct (nth_error (ps_objs s) j) as [o'|]; [|lia].
    unfold cnt_ok in *. destruct (po_live o'), exact; lia.
  - destruct (cell_at (ps_vars s) v) as [[|p]|] eqn:Hv; eauto.
    destruct (cell_at (ps_vars s) w) as [[|d]|] eqn:Hw; eauto.
    eapply p_inc_ok; eauto.
  - destruct (cell_at (ps_vars s) v) as [[|p]|] eqn:Hv; eauto.
    destruct (cell_at (ps_vars s) w) as [[|d]|] eqn:Hw; eauto.
    eapply p_inc_ok; eauto. intros E k. specialize (HA E). cbn in HA. rewrite Hv in HA.
    injection HA as ->. reflexivity.
  - destruct (cell_at (ps_vars s) v) as [[|[k|]]|] eqn:Hv; eauto.
    destruct (PInv_live s v k HI Hv) as (o & N1 & N2). rewrite N1, N2. eauto.
  - destruct (cell_at (ps_vars s) v) as [[|[k|]]|] eqn:Hv; eauto.
    + destruct (PInv_live s v k HI Hv) as (o & N1 & N2). rewrite N1, N2.
      eexists. split; [reflexivity|]. intro j. cbn [ps_objs ps_vars]. rewrite nth_upd, N1.
      pose proof (refs_set j _ _ Dead _ Hv) as R. pose proof (HI j) as J. cbn [wt] in R.
      destruct (Nat.eqb_spec j k) as [->|NE].
      * rewrite N1 in J. rewrite Nat.eqb_refl in R. unfold cnt_ok in *. rewrite N2 in J.
        cbn [po_live po_cnt]. destruct (Z.eqb_spec (po_cnt o) 0); cbn [negb]; destruct exact; lia.
      * destruct (Nat.eqb_spec k j); [congruence|].
        destruct (nth_error (ps_objs s) j) as [o'|]; [|lia].
        unfold cnt_ok in *. destruct (po_live o'), exact; lia.
    + eexists. split; [reflexivity|]. intro j. cbn [p_set ps_objs ps_vars].
      pose proof (refs_set j _ _ Dead _ Hv) as R. pose proof (HI j) as J. cbn [wt] in R.
      destruct (nth_error (ps_objs s) j) as [o'|]; [|lia].
      unfold cnt_ok in *. destruct (po_live o'), exact; lia.
Qed.
Lemma PInv_init n : PInv (pinit n).
Proof. intro k. cbn. rewrite refs_repeat. now destruct k. Qed.
Lemma prun_ok ops : forall s, PInv s -> (exact = true -> history_ok ops s) ->
  exists s', prun ops s = Some s' /\ PInv s'.
Proof.
  induction ops as [|o ops IH]; intros s HI HA; [cbn; eauto|]. cbn [prun].
  destruct (pstep_ok o s HI) as (s1 & E & HI1). { intro X. apply (HA X). }
  rewrite E. apply IH; auto. intro X. specialize (HA X). cbn in HA. rewrite E in HA. apply HA.
Qed.
End P.

(** ** ref<T> *)
Section R.
Variable V : Type.
Variable dflt : V.
Definition RInv (s : rst V) (t : sst V) : Prop :=
  rs_vars V s = ss_vars V t /\ length (rs_objs V s) = length (ss_store V t) /\
  forall k, match nth_error (rs_objs V s) k with
  | Some o => if ro_live V o
              then nth_error (ss_store V t) k = Some (ro_val V o) /\
                   ro_count V o = Z.of_nat (refs k (rs_vars V s)) /\ (1 <= refs k (rs_vars V s))%nat
              else refs k (rs_vars V s) = 0%nat
  | None => refs k (rs_vars V s) = 0%nat
  end.
Lemma RInv_live s t v k : RInv s t -> cell_at (rs_vars V s) v = Some (Live (Some k)) ->
  exists o, nth_error (rs_objs V s) k = Some o /\ ro_live V o = true /\
    nth_error (ss_store V t) k = Some (ro_val V o) /\
    ro_count V o = Z.of_nat (refs k (rs_vars V s)).
Proof.
  intros (_ & _ & H) E. apply refs_ge in E. specialize (H k). destruct (nth_error (rs_objs V s) k) as [o|]; [|lia].
  exists o. destruct (ro_live V o); [tauto|lia].
Qed.

(** releasing what [v] holds and writing [c] into it; [c] holds nothing *)
Lemma release s t v p c : RInv s t -> cell_at (rs_vars V s) v = Some (Live p) ->
  (forall k, wt k c = 0%nat) ->
  exists s1, refdec V p s = Some s1 /\ rs_vars V s1 = rs_vars V s /\
    length (rs_objs V s1) = length (rs_objs V s) /\
    RInv (mk_rs V (rs_objs V s1) (set_cell v c (rs_vars V s1))) (s_set V v c t) /\
    (forall k x, readobj V k s = Some x -> (p = Some k -> (2 <= refs k (rs_vars V s))%nat) ->
       readobj V k s1 = Some x).
Proof.
  intros HI Hv Hc. pose proof HI as (E1 & E2 & E3). destruct p as [k|]; cbn [refdec].
  - destruct (RInv_live s t v k HI Hv) as (o & N1 & N2 & N3 & N4). rewrite N1, N2.
    eexists. split; [reflexivity|]. cbn [rs_objs rs_vars]. split; [reflexivity|].
    split; [apply length_upd|]. split.
    + split; [cbn; now rewrite E1|]. split; [cbn; now rewrite length_upd|]. intro j. cbn [rs_objs rs_vars s_set ss_store].
      rewrite nth_upd, N1. pose proof (refs_set j _ _ c _ Hv) as R. rewrite Hc in R. cbn [wt] in R.
      pose proof (E3 j) as J. destruct (Nat.eqb_spec j k) as [->|NE].
      * rewrite Nat.eqb_refl in R. rewrite N1, N2 in J. cbn [ro_live ro_val ro_count].
        destruct (Z.eqb_spec (ro_count V o - 1) 0); cbn [negb]; [lia|]. split; [exact N3|]. lia.
      * destruct (Nat.eqb_spec k j); [congruence|].
        replace (refs j (set_cell v c (rs_vars V s))) with (refs j (rs_vars V s)) by lia. exact J.
    + intros j x Hr HP. unfold readobj in *. cbn [rs_objs]. rewrite nth_upd, N1.
      destruct (Nat.eqb_spec j k) as [->|NE]; [|exact Hr].
      rewrite N1, N2 in Hr. cbn [ro_live ro_val]. specialize (HP eq_refl).
      destruct (Z.eqb_spec (ro_count V o - 1) 0); cbn [negb]; [lia|exact Hr].
  - exists s. split; [reflexivity|]. split; [reflexivity|]. split; [reflexivity|]. split.
    + split; [cbn; now rewrite E1|]. split; [exact E2|]. intro j. cbn [rs_objs rs_vars s_set ss_store].
      pose proof (refs_set j _ _ c _ Hv) as R. rewrite Hc in R. cbn [wt] in R.
      replace (refs j (set_cell v c (rs_vars V s))) with (refs j (rs_vars V s)) by lia. apply E3.
    + auto.
Qed.
Lemma wt_None k : wt k (Live None) = 0%nat. Proof. reflexivity. Qed.
Lemma wt_Dead k : wt k Dead = 0%nat. Proof. reflexivity. Qed.

(** new object into an empty cell *)
Lemma newitem_ok s t v x c0 : RInv s t -> cell_at (rs_vars V s) v = Some c0 ->
  (forall k, wt k c0 = 0%nat) -> RInv (newitem V v x s) (s_new V v x t).
Proof.
  intros (E1 & E2 & E3) Hv Hc. unfold newitem, s_new. split; [cbn; now rewrite E1, E2|].
  split; [cbn; rewrite !app_length; cbn; lia|]. intro j. cbn [rs_objs rs_vars ss_store].
  pose proof (refs_set j _ _ (Live (Some (length (rs_objs V s)))) _ Hv) as R. rewrite Hc in R. cbn [wt] in R.
  rewrite !nth_snoc, <- E2. pose proof (E3 j) as J. destruct (Nat.eqb_spec j (length (rs_objs V s))) as [->|NE].
  - rewrite Nat.eqb_refl in R. rewrite (proj2 (nth_error_None _ _)) in J by lia. cbn. split; [reflexivity|]. lia.
  - destruct (Nat.eqb_spec (length (rs_objs V s)) j); [congruence|].
    replace (refs j (set_cell v _ (rs_vars V s))) with (refs j (rs_vars V s)) by lia. exact J.
Qed.
(** sharing an object into an empty cell *)
Lemma asg_ok s t v p c0 : RInv s t -> cell_at (rs_vars V s) v = Some c0 ->
  (forall k, wt k c0 = 0%nat) -> (forall k, p = Some k -> (1 <= refs k (rs_vars V s))%nat) ->
  exists s', asg V v p s = Some s' /\ RInv s' (s_set V v (Live p) t).
Proof.
  intros (E1 & E2 & E3) Hv Hc Hp. destruct p as [k|]; cbn [asg].
  - specialize (Hp k eq_refl). pose proof (E3 k) as K.
    destruct (nth_error (rs_objs V s) k) as [o|] eqn:N1; [|lia].
    destruct (ro_live V o) eqn:N2; [|lia]. eexists. split; [reflexivity|].
    split; [cbn; now rewrite E1|]. split; [cbn; now rewrite length_upd|]. intro j. cbn [rs_objs rs_vars s_set ss_store].
    rewrite nth_upd, N1. pose proof (refs_set j _ _ (Live (Some k)) _ Hv) as R. rewrite Hc in R. cbn [wt] in R.
    pose proof (E3 j) as J. destruct (Nat.eqb_spec j k) as [->|NE].
    + rewrite Nat.eqb_refl in R. cbn [ro_live ro_val ro_count]. split; [apply K|]. lia.
    + destruct (Nat.eqb_spec k j); [congruence|].
      replace (refs j (set_cell v _ (rs_vars V s))) with (refs j (rs_vars V s)) by lia. exact J.
  - eexists. split; [reflexivity|]. split; [cbn; now rewrite E1|]. split; [exact E2|]. intro j.
    cbn [r_set rs_objs rs_vars s_set ss_store].
    pose proof (refs_set j _ _ (Live None) _ Hv) as R. rewrite Hc in R. cbn [wt] in R.
    replace (refs j (set_cell v _ (rs_vars V s))) with (refs j (rs_vars V s)) by lia. apply E3.
Qed.

Lemma set_set v c c' l : set_cell v c (set_cell v c' l) = set_cell v c l.
Proof. revert v; induction l; intros [|v]; cbn; f_equal; auto. Qed.
Lemma set_same v c l : nth_error l v = Some c -> set_cell v c l = l.
Proof. revert v; induction l; intros [|v]; cbn; intro H; try discriminate; f_equal; auto; congruence. Qed.
Lemma refs_swap k v w p q l : v <> w -> nth_error l v = Some (Live p) -> nth_error l w = Some (Live q) ->
  refs k (set_cell v (Live q) (set_cell w (Live p) l)) = refs k l.
Proof.
  intros N H1 H2.
  pose proof (refs_set k _ _ (Live p) _ H2) as R1.
  assert (H1' : nth_error (set_cell w (Live p) l) v = Some (Live p)).
  { rewrite nth_set_cell. destruct (Nat.eqb_spec v w); [congruence|exact H1]. }
  pose proof (refs_set k _ _ (Live q) _ H1') as R2. lia.
Qed.

Lemma s_live_eq s t v : RInv s t -> s_live V t v = match cell_at (rs_vars V s) v with Some (Live p) => Some p | _ => None end.
Proof. intros (E & _). unfold s_live, cell_at. now rewrite E. Qed.
Lemma s_dead_eq s t v : RInv s t -> s_dead V t v = match cell_at (rs_vars V s) v with Some Dead => true | _ => false end.
Proof. intros (E & _). unfold s_dead, cell_at. now rewrite E. Qed.
Lemma cell_set s v c c0 : cell_at s v = Some c0 -> cell_at (set_cell v c s) v = Some c.
Proof. unfold cell_at. intro H. now rewrite nth_set_cell, Nat.eqb_refl, H. Qed.
Lemma eta s : mk_rs V (rs_objs V s) (rs_vars V s) = s. Proof. now destruct s. Qed.

Ltac fin := eexists; split; [reflexivity|assumption].

Lemma rstep_ok op s t : RInv s t -> no_self V op ->
  exists s', rstep V dflt op s = Some (fst (sstep V dflt op t), s') /\ RInv s' (snd (sstep V dflt op t)).
Proof.
  intros HI HN. destruct op as [v|v w|v x|v w|v x|v w|v|v|v x|v|v|v w|v|v w];
    cbn [rstep sstep]; rewrite ?(s_live_eq s t) by exact HI; rewrite ?(s_dead_eq s t) by exact HI.
  - destruct (cell_at (rs_vars V s) v) as [[|p]|] eqn:Hv; try fin. eexists. split; [reflexivity|].
    cbn [snd]. destruct (asg_ok s t v None Dead HI Hv wt_Dead ltac:(discriminate)) as (s' & A & B).
    cbn [asg] in A. injection A as <-. exact B.
  - destruct (cell_at (rs_vars V s) v) as [[|p]|] eqn:Hv; try fin.
    destruct (cell_at (rs_vars V s) w) as [[|q]|] eqn:Hw; try fin.
    destruct (asg_ok s t v q Dead HI Hv wt_Dead) as (s' & A & B).
    { intros k ->. eapply refs_ge; eauto. }
    rewrite A. eexists. split; [reflexivity|exact B].
  - destruct (cell_at (rs_vars V s) v) as [[|p]|] eqn:Hv; try fin. eexists. split; [reflexivity|].
    eapply newitem_ok; eauto using wt_Dead.
  - destruct (cell_at (rs_vars V s) v) as [[|p]|] eqn:Hv; try fin.
    destruct (cell_at (rs_vars V s) w) as [[|q]|] eqn:Hw; try fin.
    assert (D : p = q \/ p <> q) by (destruct p as [a|], q as [b|]; try destruct (Nat.eq_dec a b);
       try (left; congruence); right; congruence).
    assert (C : (match p with Some a => match q with Some b => (a =? b)%nat | None => false end
                 | None => match q with Some _ => false | None => true end end) = true <-> p = q).
    { destruct p as [a|], q as [b|]; try (split; congruence). rewrite Nat.eqb_eq. split; congruence. }
    destruct D as [->|D].
    + rewrite (proj2 C eq_refl). cbn [fst snd]. eexists. split; [reflexivity|].
      unfold s_set. destruct HI as (E1 & E2 & E3). rewrite <- E1, (set_same _ _ _ Hv).
      split; [reflexivity|]. split; [exact E2|exact E3].
    + match goal with |- context [if ?b then _ else _] => destruct b; [exfalso; apply D, C; reflexivity|] end.
      destruct (release s t v p (Live None) HI Hv wt_None) as (s1 & R1 & R2 & R3 & R4 & R5).
    assert (Hv1 : cell_at (rs_vars V s1) v = Some (Live p)) by (rewrite R2; exact Hv).
      rewrite R1.
      assert (NW : forall k, q = Some k -> (1 <= refs k (rs_vars V (mk_rs V (rs_objs V s1) (set_cell v (Live None) (rs_vars V s1)))))%nat).
      { intros k ->. cbn [rs_vars]. rewrite R2. apply (refs_ge k _ w). rewrite nth_set_cell.
        destruct (Nat.eqb_spec w v) as [->|]; [exfalso; apply D; unfold cell_at in *; congruence|exact Hw]. }
      destruct (asg_ok _ _ v q (Live None) R4 (cell_set _ _ (Live None) _ Hv1) wt_None NW) as (s2 & A & B).
      exists s2. split.
      * unfold noobs, asg in *. cbn [rs_objs rs_vars] in A. destruct q as [k|].
        -- destruct (nth_error (rs_objs V s1) k) as [o|]; [|discriminate].
           destruct (ro_live V o); [|discriminate]. rewrite set_set in A. injection A as <-. reflexivity.
        -- unfold r_set in *. cbn [rs_objs rs_vars] in A. rewrite set_set in A. injection A as <-. reflexivity.
      * cbn [snd]. unfold s_set in *. cbn [ss_store ss_vars] in B. rewrite set_set in B. exact B.
  - destruct (cell_at (rs_vars V s) v) as [[|p]|] eqn:Hv; try fin.
    destruct (release s t v p (Live None) HI Hv wt_None) as (s1 & R1 & R2 & R3 & R4 & R5).
    assert (Hv1 : cell_at (rs_vars V s1) v = Some (Live p)) by (rewrite R2; exact Hv). rewrite R1.
    eexists. split; [reflexivity|]. cbn [snd].
    pose proof (newitem_ok _ _ v x (Live None) R4 (cell_set _ _ (Live None) _ Hv1) wt_None) as B.
    unfold newitem, s_new, s_set in *. cbn [rs_objs rs_vars ss_store ss_vars] in B. rewrite !set_set in B. exact B.
  - destruct (cell_at (rs_vars V s) v) as [[|p]|] eqn:Hv; try fin.
    destruct (cell_at (rs_vars V s) w) as [[|[k|]]|] eqn:Hw; try fin.
    destruct (release s t v p (Live None) HI Hv wt_None) as (s1 & R1 & R2 & R3 & R4 & R5).
    assert (Hv1 : cell_at (rs_vars V s1) v = Some (Live p)) by (rewrite R2; exact Hv). rewrite R1.
    destruct (RInv_live s t w k HI Hw) as (o & N1 & N2 & N3 & N4).
    rewrite (R5 k (ro_val V o)), N3.
    + eexists. split; [reflexivity|]. cbn [snd].
      pose proof (newitem_ok _ _ v (ro_val V o) (Live None) R4 (cell_set _ _ (Live None) _ Hv1) wt_None) as B.
      unfold newitem, s_new, s_set in *. cbn [rs_objs rs_vars ss_store ss_vars] in B. rewrite !set_set in B. exact B.
    + unfold readobj. now rewrite N1, N2.
    + intros ->. eapply refs_ge2; eauto.
  - destruct (cell_at (rs_vars V s) v) as [[|p]|] eqn:Hv; try fin.
    destruct (release s t v p Dead HI Hv wt_Dead) as (s1 & R1 & R2 & R3 & R4 & R5).
    assert (Hv1 : cell_at (rs_vars V s1) v = Some (Live p)) by (rewrite R2; exact Hv). rewrite R1.
    eexists. split; [reflexivity|exact R4].
  - destruct (cell_at (rs_vars V s) v) as [[|[k|]]|] eqn:Hv; try fin.
    + destruct (RInv_live s t v k HI Hv) as (o & N1 & N2 & N3 & N4). unfold readobj, s_get.
      rewrite N1, N2, N3. fin.
    + eexists. split; [reflexivity|]. eapply newitem_ok; eauto using wt_None.
  - destruct (cell_at (rs_vars V s) v) as [[|[k|]]|] eqn:Hv; try fin.
    + destruct (RInv_live s t v k HI Hv) as (o & N1 & N2 & N3 & N4). unfold writeobj. rewrite N1, N2.
      eexists. split; [reflexivity|]. cbn [snd]. destruct HI as (E1 & E2 & E3).
      split; [exact E1|]. split; [cbn; now rewrite !length_upd|]. intro j. cbn [rs_objs rs_vars ss_store].
      rewrite !nth_upd, N1, N3. pose proof (E3 j) as J. destruct (Nat.eqb_spec j k) as [->|NE]; [|exact J].
      rewrite N1, N2 in J. cbn. tauto.
    + pose proof (newitem_ok s t v x (Live None) HI Hv wt_None) as B.
      unfold writeobj, newitem. cbn [rs_objs rs_vars]. rewrite nth_snoc, Nat.eqb_refl. cbn [ro_live noobs ro_count].
      eexists. split; [reflexivity|]. cbn [snd].
      assert (U : forall (a b : robj V) l, upd (length l) b (l ++ [a]) = l ++ [b])
        by (intros a b l; induction l; cbn; f_equal; auto).
      rewrite U. exact B.
  - destruct (cell_at (rs_vars V s) v) as [[|[k|]]|] eqn:Hv; try fin.
    destruct (RInv_live s t v k HI Hv) as (o & N1 & N2 & N3 & N4). unfold readobj, s_get.
    rewrite N1, N2, N3. fin.
  - destruct (cell_at (rs_vars V s) v) as [[|p]|] eqn:Hv; try fin.
    destruct (release s t v p (Live None) HI Hv wt_None) as (s1 & R1 & R2 & R3 & R4 & R5).
    assert (Hv1 : cell_at (rs_vars V s1) v = Some (Live p)) by (rewrite R2; exact Hv). rewrite R1.
    eexists. split; [reflexivity|exact R4].
  - destruct (cell_at (rs_vars V s) v) as [[|p]|] eqn:Hv; try fin.
    destruct (cell_at (rs_vars V s) w) as [[|q]|] eqn:Hw; try fin.
    eexists. split; [reflexivity|]. cbn [snd]. destruct HI as (E1 & E2 & E3).
    unfold r_set, s_set. split; [cbn; now rewrite E1|]. split; [exact E2|]. intro j.
    cbn [rs_objs rs_vars ss_store].
    replace (refs j (set_cell v (Live q) (set_cell w (Live p) (rs_vars V s)))) with (refs j (rs_vars V s)); [apply E3|].
    destruct (Nat.eq_dec v w) as [->|NE]; [|symmetry; now apply refs_swap].
    rewrite set_set. unfold cell_at in *. assert (p = q) by congruence. subst.
    now rewrite set_same.
  - destruct (cell_at (rs_vars V s) v) as [[|[k|]]|] eqn:Hv; try fin.
    destruct (RInv_live s t v k HI Hv) as (o & N1 & N2 & N3 & N4).
    rewrite N1, N2, N4. eexists. split; [|exact HI]. cbn [fst]. now rewrite (proj1 HI).
  - destruct (cell_at (rs_vars V s) v) as [[|p]|] eqn:Hv; try fin.
    destruct (cell_at (rs_vars V s) w) as [[|q]|] eqn:Hw; fin.
Qed.
Lemma rrun_ok ops : forall s t, RInv s t -> Forall (no_self V) ops ->
  exists s', rrun V dflt ops s = Some (fst (srun V dflt ops t), s') /\ RInv s' (snd (srun V dflt ops t)).
Proof.
  induction ops as [|o ops IH]; intros s t HI HA; [cbn; eauto|]. inversion HA; subst. cbn [rrun srun].
  destruct (rstep_ok o s t HI) as (s1 & E & HI1); auto. rewrite E.
  destruct (sstep V dflt o t) as [b t1] eqn:Et. cbn [fst snd] in *.
  destruct (IH s1 t1 HI1) as (s2 & E2 & HI2); auto. rewrite E2.
  destruct (srun V dflt ops t1) as [bs t2]. cbn [fst snd] in *. eauto.
Qed.
Lemma RInv_init n : RInv (rinit V n) (sinit V n).
Proof. split; [reflexivity|]. split; [reflexivity|]. intro k. cbn. rewrite refs_repeat. now destruct k. Qed.
End R.

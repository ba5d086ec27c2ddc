(** * Proofs about the streaming operators of PythonBuffer *)
From Coq Require Import Permutation.
From Verif Require Import Base SMap Desc_Model Desc_Props Json_Model Json_Spec Json_Proofs Json_Proofs2 Json_Props
  PyBuf_Model PyBuf_Proofs.

(** what is new since [h] is still there in [h2] *)
Definition keeps (h h' h2 : heap) : Prop := forall z o, isnew h z -> obof h' z = Some o -> obof h2 z = Some o.
Lemma keeps_ext : forall h h' h2, ext h' h2 -> keeps h h' h2.
Proof. intros h h' h2 E z o _. apply E. Qed.
Lemma val_local : forall f h h' h2, closed h h' -> keeps h h' h2 -> forall x j, isnew h x ->
  val f h' x = Some j -> val f h2 x = Some j.
Proof.
  induction f as [|f IH]; intros h h' h2 C K x j N; cbn [val]; [discriminate|].
  destruct (obof h' x) as [o|] eqn:O; [|discriminate]. rewrite (K x o N O).
  pose proof (C x o N O) as F.
  assert (G : forall l js, Forall (isnew h) l -> omap (val f h') l = Some js -> omap (val f h2) l = Some js).
  { induction l as [|a l IHl]; cbn [omap]; intros js Fl E; [exact E|]. inversion Fl; subst.
    destruct (val f h' a) as [ja|] eqn:Va; [|discriminate].
    destruct (omap (val f h') l) as [js'|]; [|discriminate].
    rewrite (IH h h' h2 C K a ja) by assumption. rewrite (IHl js') by auto. exact E. }
  destruct o as [|b|z|d|s|l|kvs]; auto; cbn [kids] in F.
  - destruct (omap (val f h') l) as [js|] eqn:E; [|discriminate]. now rewrite (G l js F E).
  - destruct (omap (val f h') (map snd kvs)) as [js|] eqn:E; [|discriminate]. now rewrite (G _ js F E).
Qed.

Lemma val_ge : forall f f' h x j, f <= f' -> val f h x = Some j -> val f' h x = Some j.
Proof. intros f f' h x j L V. induction L; [exact V|]. now apply val_more. Qed.
(** get<json_pack_t> succeeds on whatever stands for a JSON value *)
Lemma get_val : forall f h R x j, Inv h R -> val f h x = Some j ->
  exists h' L, get_json x h = HOk j h' /\ Inv h' (L ++ R) /\ sameob h h'.
Proof.
  intros f h R x j I1 V.
  assert (LV : look h x <> None).
  { destruct f; [discriminate|]. cbn [val] in V. unfold obof in V. destruct (look h x); [discriminate|discriminate]. }
  pose proof (getj_ok (S (length h)) x h R I1 LV) as G.
  destruct (val (S (length h)) h x) as [j'|] eqn:V'.
  - destruct G as (h' & L & E & I2 & S1 & _). exists h', L.
    assert (j' = j) as ->.
    { pose proof (val_ge f (f + S (length h)) h x j ltac:(lia) V) as A.
      pose proof (val_ge (S (length h)) (f + S (length h)) h x j' ltac:(lia) V') as B. congruence. }
    auto.
  - exfalso. assert (G' : get_json x h = HLoop) by exact G.
    apply (getj_loop h R x I1 LV) in G'. destruct G' as (y & D & Cy).
    destruct D as [->|D].
    + rewrite val_cycle in V by exact Cy. discriminate.
    + pose proof (val_more f h x j V) as V2. destruct (val_inside h x y D f j V2) as (j2 & V3).
      rewrite val_cycle in V3 by exact Cy. discriminate.
Qed.

Section Typed.
Variable valid : list ascii -> bool.
Variable klt : nat -> jval -> jval -> bool.
Variable narrow : N -> N.
Variable i2d : Z -> N.
Variable wr : jv -> list ascii.

(** types of sequence elements that come back *)
Fixpoint elt (t : jty) : Prop :=
  match t with
  | TChar | TSeq (Some _) _ => False
  | TSeq None t' => elt t'
  | _ => wf true t
  end.
(** every string in the value is UTF-8 without NUL; numbers inside classes fit an int64 *)
Fixpoint pyval (t : jty) (v : jval) {struct t} : Prop :=
  match t, v with
  | TBool, _ | TInt _ _ _, _ | TFlt, _ | TDbl, _ => True
  | TStr, VS s => valid s = true /\ ~ In nul s
  | TSeq _ t', VL l => Forall (pyval t') l
  | _, _ => wfj valid (enc t v)
  end.
(** [x] is read back as [v] now, and as long as the objects it consists of stay as they are *)
Definition readable (t : jty) (x : nat) (v : jval) (h h' : heap) : Prop :=
  forall h2 R2, keeps h h' h2 -> Inv h2 R2 ->
    exists h3 L3, shr klt narrow i2d t x h2 = HOk (Some v) h3 /\ Inv h3 (L3 ++ R2) /\ sameob h2 h3.
Definition writes (g : jval -> heap -> hr nat) (t : jty) (v : jval) : Prop :=
  forall h R, Inv h R -> In none R -> obof h none = Some PNone ->
  exists x h' L, g v h = HOk x h' /\ Inv h' (x :: L ++ R) /\ ext h h' /\ isnew h x /\ closed h h' /\
    readable t x v h h'.

Lemma readable_keeps : forall t x v h h1 h2, keeps h h1 h2 -> readable t x v h h1 ->
  (forall h3, keeps h h2 h3 -> keeps h h1 h3) -> readable t x v h h2.
Proof. intros t x v h h1 h2 K Rd T h3 R3 K3 I3. apply Rd; auto. Qed.
Lemma keeps_trans : forall h h1 h2 h3, keeps h h1 h2 -> keeps h h2 h3 -> keeps h h1 h3.
Proof. intros h h1 h2 h3 A B z o N O. apply B; [exact N|]. now apply A. Qed.
(** a smaller set of new objects *)
Lemma keeps_base : forall h0 h h1 h2, ext h0 h -> keeps h0 h1 h2 -> keeps h h1 h2.
Proof. intros h0 h h1 h2 E K z o N O. apply K; [|exact O]. eapply isnew_ext; eauto. Qed.
Lemma leaf_writes : forall o t v, kids o = [] ->
  (forall x h2 R2, Inv h2 R2 -> obof h2 x = Some o ->
     exists h3 L3, shr klt narrow i2d t x h2 = HOk (Some v) h3 /\ Inv h3 (L3 ++ R2) /\ sameob h2 h3) ->
  writes (fun _ h => alloc o h) t v.
Proof.
  intros o t v K Rd h R I1 NR ON. destruct (builds_leaf o h R K I1 ON) as (x & h' & E & I2 & X & T & O & Nx & C).
  exists x, h', []. split; [exact E|]. split; [exact I2|]. split; [exact X|]. split; [exact Nx|]. split; [exact C|].
  intros h2 R2 K2 I3. apply Rd; [exact I3|]. now apply K2.
Qed.
Lemma shr_leaf : forall t v o x h2 R2, Inv h2 R2 -> obof h2 x = Some o ->
  (forall c, look h2 x = Some c -> ob c = o -> shr klt narrow i2d t x h2 = HOk (Some v) h2) ->
  exists h3 L3, shr klt narrow i2d t x h2 = HOk (Some v) h3 /\ Inv h3 (L3 ++ R2) /\ sameob h2 h3.
Proof.
  intros t v o x h2 R2 I1 O H. unfold obof in O. destruct (look h2 x) as [c|] eqn:L; [|discriminate].
  injection O as O. exists h2, []. split; [now apply (H c)|]. split; [exact I1|]. intros z; reflexivity.
Qed.
Lemma wrap_as_ll : forall w sgn bits z, intty w sgn bits = true -> inrange sgn bits z ->
  wrap sgn bits (as_ll (PInt (wrap true 64 z))) = z.
Proof.
  intros w sgn bits z H R.
  assert (A : as_ll (PInt (wrap true 64 z)) = wrap true 64 z).
  { apply PyBuf_Proofs.wrap_id. unfold wrap. change (64 - 1)%Z with 63%Z.
    pose proof (Z.mod_pos_bound (z + 2 ^ 63) (2 ^ 64)) as B. specialize (B ltac:(reflexivity)). lia. }
  rewrite A.
  assert (B : (bits = 8 \/ bits = 16 \/ bits = 32 \/ bits = 64)%Z)
    by (destruct w, sgn; cbn in H; try discriminate; lia).
  destruct B as [->|[->|[->| ->]]]; destruct w, sgn; try discriminate H; clear H A;
    unfold inrange in R; cbn in R; unfold wrap, wrap_via, wrap; cbn [Z.sub Z.pow Z.pow_pos Pos.iter Z.mul Z.opp Z.pos_sub];
    repeat match goal with |- context [(2 ^ ?n)%Z] => let v := eval vm_compute in (2 ^ n)%Z in change (2 ^ n)%Z with v end;
    lia.
Qed.
(** through JSON *)
Definition viajson (t : jty) : bool :=
  match t with TBool | TChar | TInt _ _ _ | TFlt | TDbl | TStr | TSeq _ _ | TEnum _ => false | _ => true end.
Lemma ext_len : forall h R h2 R2, Inv h R -> Inv h2 R2 -> ext h h2 -> length h <= length h2.
Proof.
  intros h R h2 R2 [N _] [N2 _] E. rewrite <- (map_length fst h), <- (map_length fst h2).
  apply NoDup_incl_length; [exact N|]. intros x X.
  destruct (in_dec Nat.eq_dec x (map fst h2)); [assumption|]. exfalso.
  apply look_none in n. assert (L : look h x <> None) by (rewrite look_none; tauto).
  apply (ext_live h h2 x E) in L. congruence.
Qed.
Lemma json_writes : forall t v, wf true t -> ht klt narrow t v -> viajson t = true -> wfj valid (enc t v) ->
  writes (newpy valid t) t v.
Proof.
  intros t v W H VJ WJ h R I1 NR ON.
  destruct (C21_tree_partial klt narrow t v W H) as (s & P & Es).
  assert (En : newpy valid t v h = newj valid (enc t v) h).
  { rewrite <- Es. destruct t; try discriminate VJ; cbn [newpy]; now rewrite P. }
  destruct (newj_ok valid (enc t v) (wfj_okj valid _ WJ) h R I1 NR ON) as (x & h' & L & E & I2 & K & X & T & V & Nx & C).
  exists x, h', L. rewrite En. split; [exact E|]. split; [exact I2|]. split; [exact X|]. split; [exact Nx|].
  split; [exact C|]. intros h2 R2 K2 I3.
  destruct (V WJ (S (height (enc t v))) ltac:(lia)) as [V1 _].
  pose proof (val_local _ h h' h2 C K2 x _ Nx V1) as V2.
  destruct (get_val _ h2 R2 x _ I3 V2) as (h3 & L3 & G & I4 & S4).
  exists h3, L3. split; [|auto].
  assert (LV : exists c, look h2 x = Some c).
  { cbn [val] in V2. unfold obof in V2. destruct (look h2 x) as [c|]; [eauto|discriminate]. }
  destruct LV as (c & LV).
  assert (Es2 : shr klt narrow i2d t x h2 = hbind (get_json x h2) (fun j h =>
      match unpack klt narrow i2d false t j [] (dflt t) with
      | JOk v => HOk (Some v) h | JErr _ => HOk None h | JUB => HUb end)).
  { destruct t; try discriminate VJ; cbn [shr]; rewrite LV; reflexivity. }
  rewrite Es2, G. cbn [hbind].
  destruct (C21_roundtrip_partial klt narrow i2d false t v (dflt t) W H (shape_dflt t)) as (s' & P' & U).
  rewrite P in P'. injection P' as <-. rewrite Es in U. now rewrite U.
Qed.

Lemma new_list_writes : forall g t l, Forall (writes g t) l -> forall h R, Inv h R -> In none R -> obof h none = Some PNone ->
  exists xs h' L, new_list g l h = HOk xs h' /\ Inv h' (xs ++ L ++ R) /\ ext h h' /\ Forall (isnew h) xs /\
    closed h h' /\ Forall2 (fun x v => readable t x v h h') xs l.
Proof.
  intros g t l F. induction F as [|v l Wv F IH]; intros h R I1 NR ON; cbn [new_list].
  - exists [], h, []. split; [reflexivity|]. split; [exact I1|]. split; [apply ext_refl|]. split; [constructor|].
    split; [now apply closed_refl|constructor].
  - destruct (Wv h R I1 NR ON) as (x & h1 & L1 & E1 & I2 & X1 & Nx & C1 & R1). rewrite E1. cbn [hbind].
    destruct (IH h1 (x :: L1 ++ R) I2) as (xs & h2 & L2 & E2 & I3 & X2 & Nxs & C2 & R2).
    { right. apply in_or_app. now right. } { now apply X1. }
    fold (new_list g). rewrite E2. cbn [hbind]. exists (x :: xs), h2, (L2 ++ L1). split; [reflexivity|].
    split; [eapply Inv_perm; [|exact I3]; perm|]. split; [eapply ext_trans; eauto|].
    split; [constructor; [exact Nx|]; eapply Forall_impl; [|exact Nxs]; intros y; now apply isnew_ext|].
    split; [eapply closed_trans; eauto|]. constructor.
    + intros h3 R3 K3 I4. apply R1; [|exact I4]. eapply keeps_trans; [apply keeps_ext; exact X2|exact K3].
    + clear - R2 X1 X2. induction R2 as [|y w ys ws H R2 IH]; constructor; [|exact IH].
      intros h3 R3 K3 I4. apply H; [|exact I4]. eapply keeps_base; [exact X1|exact K3].
Qed.
Lemma shr_all_ok : forall t h h1 xs l, Forall2 (fun x v => readable t x v h h1) xs l ->
  forall h2 R2, keeps h h1 h2 -> Inv h2 R2 ->
  exists h3 L3, shr_all (shr klt narrow i2d t) xs h2 = HOk (Some l) h3 /\ Inv h3 (L3 ++ R2) /\ sameob h2 h3.
Proof.
  induction 1 as [|x v xs l Rx F IH]; intros h2 R2 K I2; cbn [shr_all].
  - exists h2, []. split; [reflexivity|]. split; [exact I2|]. intros z; reflexivity.
  - destruct (Rx h2 R2 K I2) as (h3 & L3 & E3 & I3 & S3). rewrite E3. cbn [hbind].
    destruct (IH h3 (L3 ++ R2)) as (h4 & L4 & E4 & I4 & S4).
    { intros z o N O. rewrite S3. now apply K. } { exact I3. }
    rewrite E4. cbn [hbind option_map]. exists h4, (L4 ++ L3). split; [reflexivity|].
    split; [now rewrite <- app_assoc|]. intros z. now rewrite S4, S3.
Qed.
(** reading a list whose elements are readable *)
Lemma seq_readable : forall t h h1 xs l x, Forall2 (fun x v => readable t x v h h1) xs l ->
  forall h2 R2, keeps h h1 h2 -> Inv h2 R2 -> obof h2 x = Some (PList xs) ->
  exists h3 L3, shr klt narrow i2d (TSeq None t) x h2 = HOk (Some (VL l)) h3 /\ Inv h3 (L3 ++ R2) /\ sameob h2 h3.
Proof.
  intros t h h1 xs l x F h2 R2 K I2 O. cbn [shr].
  unfold obof in O. destruct (look h2 x) as [c|] eqn:L; [|discriminate]. injection O as O. rewrite O.
  assert (O' : obof h2 x = Some (PList xs)) by (unfold obof; now rewrite L, O).
  destruct (arr_ok xs h2 R2 I2) as (h3 & E3 & I3 & S3 & _).
  { intros y Y. exact (proj2 (kids_live h2 R2 x (PList xs) I2 O' y Y)). }
  rewrite E3. cbn [hbind].
  destruct (shr_all_ok t h h1 xs l F h3 (xs ++ xs ++ R2)) as (h4 & L4 & E4 & I4 & S4).
  { intros z o N Oz. rewrite S3. now apply K. } { exact I3. }
  rewrite E4. cbn [hbind].
  destruct (decrefs_keep xs h4 (xs ++ L4 ++ R2)) as (h5 & E5 & I5 & S5 & _).
  { eapply Inv_perm; [|exact I4]. perm. } { intros y Y. apply in_or_app. left. apply in_or_app. now left. }
  rewrite E5. cbn [hbind option_map]. exists h5, (xs ++ L4). split; [reflexivity|].
  split; [now rewrite <- app_assoc|]. intros z. now rewrite S5, S4, S3.
Qed.
Lemma get_str_leaf : forall s, valid s = true -> ~ In nul s -> new_str valid s = alloc (PStr s).
Proof. intros s V N. unfold new_str. rewrite cstr_id by exact N. now rewrite V. Qed.
Lemma writes_ext : forall g g' t v, (forall h, g v h = g' v h) -> writes g t v -> writes g' t v.
Proof. intros g g' t v E W h R I1 NR ON. rewrite <- E. now apply W. Qed.
Lemma newpy_ok : forall t, elt t -> forall v, ht klt narrow t v -> pyval t v -> writes (newpy valid t) t v.
Proof.
  induction t using jty_mut with (P0 := fun _ => True) (P1 := fun _ => True) (P2 := fun _ => True); try exact I;
    intros EL v H PV.
  - destruct v; cbn in H; try contradiction. eapply writes_ext; [|apply (leaf_writes (PBool b))]; [reflexivity|reflexivity|].
    intros x h2 R2 I2 O. eapply shr_leaf; eauto. intros c L E. cbn [shr]. rewrite L, E. destruct b; reflexivity.
  - destruct EL.
  - destruct v; cbn in H; try contradiction.
    eapply writes_ext; [|apply (leaf_writes (PInt (wrap true 64 z)))]; [reflexivity|reflexivity|].
    intros x h2 R2 I2 O. eapply shr_leaf; eauto. intros c L E. cbn [shr]. rewrite L, E.
    cbn [elt wf] in EL. now rewrite (wrap_as_ll w).
  - destruct v; cbn in H; try contradiction.
    eapply writes_ext; [|apply (leaf_writes (PFloat d))]; [reflexivity|reflexivity|].
    intros x h2 R2 I2 O. eapply shr_leaf; eauto. intros c L E. cbn [shr]. rewrite L, E. cbn [as_dbl]. now rewrite H.
  - destruct v; cbn in H; try contradiction.
    eapply writes_ext; [|apply (leaf_writes (PFloat d))]; [reflexivity|reflexivity|].
    intros x h2 R2 I2 O. eapply shr_leaf; eauto. intros c L E. cbn [shr]. rewrite L, E. reflexivity.
  - destruct v; cbn in H; try contradiction. cbn [pyval] in PV. destruct PV as [V N].
    eapply writes_ext; [|apply (leaf_writes (PStr s))]; [intros h0; cbn [newpy]; now rewrite get_str_leaf|reflexivity|].
    intros x h2 R2 I2 O. eapply shr_leaf; eauto. intros c L E. cbn [shr]. rewrite L, E. cbn [get_str].
    now rewrite cstr_id.
  - destruct v; cbn [ht] in H; try contradiction. cbn [elt wf] in EL. destruct EL as [ND SP].
    cbn [pyval enc wfj] in PV. destruct PV as [V N].
    eapply writes_ext; [|apply (leaf_writes (PStr (ek_sym (ek_make ks) z)))]; [|reflexivity|].
    + intros h0. cbn [newpy pack pack_leaf jo newj]. now rewrite get_str_leaf.
    + intros x h2 R2 I2 O. eapply shr_leaf; eauto. intros c L E. cbn [shr]. rewrite L, E. cbn [get_str].
      rewrite cstr_id by exact N. now rewrite C33_value_symbol_value.
  - destruct fixed as [n|]; [destruct EL|]. destruct v; cbn [ht] in H; try contradiction. destruct H as [H _].
    cbn [elt pyval] in EL, PV.
    assert (F : Forall (writes (newpy valid t) t) l).
    { apply Forall_forall. intros v Iv. rewrite Forall_forall in H, PV. apply IHt; auto. }
    intros h R I1 NR ON. cbn [newpy].
    destruct (new_list_writes _ t l F h R I1 NR ON) as (xs & h1 & L & E1 & I2 & X1 & Nxs & C1 & Rd).
    rewrite E1. cbn [hbind].
    destruct (alloc_ok (PList xs) h1 (L ++ R) I2) as (x & h2 & E2 & I3 & N2 & O2 & P2 & T2).
    assert (X2 : ext h1 h2).
    { intros y o Y. destruct (Nat.eq_dec y x) as [->|D]; [congruence|]. now rewrite P2. }
    exists x, h2, L. split; [exact E2|]. split; [exact I3|]. split; [eapply ext_trans; eauto|].
    destruct (closed_alloc h h1 h2 x (PList xs) X1 C1 N2 O2 P2 Nxs) as [Nx C2].
    split; [exact Nx|]. split; [exact C2|]. intros h3 R3 K3 I4.
    eapply seq_readable; [exact Rd| |exact I4|now apply K3].
    eapply keeps_trans; [apply keeps_ext; exact X2|exact K3].
  - apply json_writes; auto; destruct v; exact PV.
  - apply json_writes; auto; destruct v; exact PV.
  - apply json_writes; auto; destruct v; exact PV.
  - destruct EL.
  - apply json_writes; auto; destruct v; exact PV.
  - apply json_writes; auto; destruct v; exact PV.
  - apply json_writes; auto; destruct v; exact PV.
  - apply json_writes; auto; destruct v; exact PV.
Qed.

(** [b<<v] *)
Lemma assign_temp_ok : forall m y h1 R, m = HOk y h1 -> Inv h1 (y :: R) ->
  exists h2, assign_temp m = HOk y h2 /\ Inv h2 (y :: R) /\ sameob h1 h2.
Proof.
  intros m y h1 R -> I1. unfold assign_temp. cbn [hbind].
  destruct (Inv_live h1 _ y I1) as (c & L); [now left|].
  destruct (incref_ok h1 _ y c I1 L) as (h2 & E2 & I2 & S2 & _). rewrite E2. cbn [hbind].
  destruct (decref_keep y h2 (y :: R) I2) as (h3 & E3 & I3 & S3 & _); [now left|]. rewrite E3. cbn [hbind].
  exists h3. split; [reflexivity|]. split; [exact I3|]. intros z. now rewrite S3, S2.
Qed.
Lemma push_all_ok : forall g t x l, Forall (writes g t) l -> x <> none ->
  forall h h0 xs ws R, Inv h (x :: R) -> In none R -> obof h none = Some PNone -> obof h x = Some (PList xs) ->
    obof h0 x <> None -> ext h0 h \/ True ->
    (forall z, isnew h z -> isnew h0 z) -> Forall2 (fun y v => readable t y v h0 h) xs ws ->
  exists h' xs' L, push_all g x l h = HOk tt h' /\ Inv h' (x :: L ++ R) /\ obof h' x = Some (PList xs') /\
    obof h' none = Some PNone /\
    Forall2 (fun y v => readable t y v h0 h') xs' (ws ++ l).
Proof.
  intros g t x l F NX. induction F as [|v l Wv F IH]; intros h h0 xs ws R I1 NR ON OX O0 _ NW Rd; cbn [push_all].
  - exists h, xs, []. rewrite app_nil_r. auto.
  - destruct (Wv h (x :: R) I1 (or_intror NR) ON) as (y & h1 & L1 & E1 & I2 & X1 & Ny & C1 & R1). rewrite E1. cbn [hbind].
    destruct (append_ok h1 (y :: L1 ++ x :: R) x y xs I2) as (h2 & E2 & I3 & O2 & P2 & Y2).
    { now apply X1. } { destruct (Inv_live h1 _ y I2) as (c & ->); [now left|discriminate]. }
    rewrite E2. cbn [hbind].
    destruct (decref_keep y h2 (L1 ++ x :: R) I3) as (h3 & E3 & I4 & S3 & _).
    { apply in_or_app. now right. }
    rewrite E3. cbn [hbind].
    assert (O3 : forall z, z <> x -> obof h3 z = obof h1 z) by (intros z Z; rewrite S3; now apply P2).
    assert (NXx : ~ isnew h0 x) by (intros [N|N]; contradiction).
    destruct (IH h3 h0 (xs ++ [y]) (ws ++ [v]) (L1 ++ R)) as (h4 & xs' & L & E4 & I5 & O5 & N5 & Rd5).
    + eapply Inv_perm; [|exact I4]. perm.
    + apply in_or_app. now right.
    + rewrite O3 by congruence. now apply X1.
    + now rewrite S3.
    + exact O0.
    + now right.
    + intros z Nz. apply NW. destruct Nz as [Nz|Nz]; [|now right].
      destruct (Nat.eq_dec z x) as [->|D]; [rewrite S3, O2 in Nz; discriminate|].
      eapply isnew_ext; [exact X1|]. left. now rewrite <- O3.
    + apply Forall2_app.
      * clear - Rd X1 O3 NXx. induction Rd as [|a w aa wss Ha Rd IH]; constructor; [|exact IH].
        intros h5 R5 K5 I5. apply Ha; [|exact I5]. intros z o Nz Oz. apply K5; [exact Nz|].
        rewrite O3 by (intros ->; contradiction). now apply X1.
      * constructor; [|constructor]. intros h5 R5 K5 I5. apply R1; [|exact I5].
        intros z o Nz Oz. apply K5; [now apply NW|]. rewrite O3; [exact Oz|]. intros ->. apply NXx. now apply NW.
    + exists h4, xs', (L ++ L1). split; [exact E4|]. split; [eapply Inv_perm; [|exact I5]; perm|].
      split; [exact O5|]. split; [exact N5|]. now rewrite <- app_assoc in Rd5.
Qed.
Definition topt (t : jty) : Prop :=
  match t with
  | TBool | TFlt | TDbl | TStr | TChar => True
  | TInt _ _ _ | TEnum _ => wf true t
  | TSeq None t' => elt t'
  | _ => False
  end.
Definition topval (t : jty) (v : jval) : Prop :=
  match t, v with TChar, VC c => valid [c] = true /\ c <> nul | _, _ => pyval t v end.
Lemma shl_shr : forall t v h R, topt t -> ht klt narrow t v -> topval t v ->
  Inv h R -> In none R -> obof h none = Some PNone ->
  exists x h' L h3 L3, shl valid wr t v h = HOk x h' /\ Inv h' (x :: L ++ R) /\
    shr klt narrow i2d t x h' = HOk (Some v) h3 /\ Inv h3 (L3 ++ x :: L ++ R).
Proof.
  intros t v h R T H PV I1 NR ON.
  assert (SIMPLE : forall g, writes g t v -> shl valid wr t v h = assign_temp (g v h) ->
    exists x h' L h3 L3, shl valid wr t v h = HOk x h' /\ Inv h' (x :: L ++ R) /\
    shr klt narrow i2d t x h' = HOk (Some v) h3 /\ Inv h3 (L3 ++ x :: L ++ R)).
  { intros g W E. destruct (W h R I1 NR ON) as (x & h1 & L & E1 & I2 & X1 & Nx & C1 & Rd).
    destruct (assign_temp_ok _ x h1 (L ++ R) E1 I2) as (h2 & E2 & I3 & S2).
    destruct (Rd h2 _ (keeps_ext h h1 h2 (ext_same _ _ S2)) I3) as (h3 & L3 & E3 & I4 & _).
    exists x, h2, L, h3, L3. rewrite E. auto. }
  destruct t; try contradiction.
  - apply (SIMPLE (newpy valid TBool)); [now apply newpy_ok|]. destruct v; reflexivity.
  - destruct v; cbn in H; try contradiction. cbn in PV. destruct PV as [V N].
    apply (SIMPLE (fun _ => alloc (PStr [c]))).
    + apply leaf_writes; [reflexivity|]. intros x h2 R2 I2 O. eapply shr_leaf; eauto. intros c' L E.
      cbn [shr]. rewrite L, E. cbn [get_str]. rewrite cstr_id by (intros [F|[]]; congruence). reflexivity.
    + cbn [shl]. rewrite get_str_leaf; [reflexivity|exact V|intros [F|[]]; congruence].
  - apply (SIMPLE (newpy valid (TInt w sgn bits))); [now apply newpy_ok|]. destruct v; reflexivity.
  - apply (SIMPLE (newpy valid TFlt)); [now apply newpy_ok|]. destruct v; reflexivity.
  - apply (SIMPLE (newpy valid TDbl)); [now apply newpy_ok|]. destruct v; reflexivity.
  - apply (SIMPLE (newpy valid TStr)); [now apply newpy_ok|]. destruct v; reflexivity.
  - apply (SIMPLE (newpy valid (TEnum ks))); [now apply newpy_ok; [exact T|exact H|destruct v; exact PV]|].
    destruct v; cbn [ht] in H; try contradiction. reflexivity.
  - destruct fixed as [n|]; [destruct T|]. destruct v; cbn [ht] in H; try contradiction. destruct H as [H _].
    assert (F : Forall (writes (newpy valid t) t) l).
    { cbn [topval pyval] in PV. apply Forall_forall. intros v Iv. rewrite Forall_forall in H, PV. apply newpy_ok; auto. }
    destruct (builds_leaf (PList []) h R eq_refl I1 ON) as (x & h1 & E1 & I2 & X1 & T1 & O1 & Nx & C1).
    destruct (assign_temp_ok _ x h1 R E1 I2) as (h2 & E2 & I3 & S2).
    assert (NX : x <> none).
    { intros ->. assert (O1' : obof h1 none = Some PNone) by now apply X1. congruence. }
    destruct (push_all_ok (newpy valid t) t x l F NX h2 h2 [] [] R I3 NR) as (h3 & xs & L & E3 & I4 & O4 & N4 & Rd).
    { rewrite S2. now apply X1. } { now rewrite S2. } { rewrite S2, O1. discriminate. } { now right. } { auto. } { constructor. }
    cbn [app] in Rd.
    destruct (seq_readable t h2 h3 xs l x Rd h3 _ (fun z o _ Oz => Oz) I4 O4) as (h4 & L4 & E4 & I5 & _).
    exists x, h3, L, h4, L4. cbn [shl]. rewrite E2. cbn [hbind]. rewrite E3. cbn [hbind]. auto.
Qed.
End Typed.

(** * Properties C33 (enum tables), C34 (head/tail), C57 (dump lines) *)
From Verif Require Import Base Base_Proofs SMap Desc_Model.

(** ** C34 *)
Lemma rfind_none : forall c s, rfind c s = None <-> ~ In c s.
Proof.
  induction s as [|x s IH]; cbn [rfind]; [split; [intros _ []|reflexivity]|].
  destruct (rfind c s) as [i|] eqn:E.
  - split; [discriminate|]. intros H. exfalso. apply H. right.
    destruct (in_dec ascii_dec c s) as [|n]; [assumption|]. now apply IH in n.
  - destruct (ascii_dec x c) as [->|n]; split; try discriminate.
    + intros H. exfalso. apply H. now left.
    + intros _ [H|H]; [contradiction|]. now apply IH in H.
    + reflexivity.
Qed.
Lemma rfind_some : forall c s i, rfind c s = Some i ->
  s = firstn i s ++ c :: skipn (S i) s /\ ~ In c (skipn (S i) s).
Proof.
  induction s as [|x s IH]; cbn [rfind]; [discriminate|]. intros i.
  destruct (rfind c s) as [j|] eqn:E.
  - intros [= <-]. destruct (IH j eq_refl) as [H1 H2]. cbn [firstn skipn app].
    split; [f_equal; exact H1|exact H2].
  - destruct (ascii_dec x c) as [->|n]; [|discriminate]. intros [= <-]. cbn [firstn skipn app].
    split; [reflexivity|]. now apply rfind_none.
Qed.
Lemma rfind_app : forall c a b, ~ In c b -> rfind c (a ++ c :: b) = Some (length a).
Proof.
  induction a as [|x a IH]; intros b H; cbn [rfind app length].
  - rewrite (proj2 (rfind_none c b) H). destruct (ascii_dec c c); congruence.
  - now rewrite IH.
Qed.

(** [head]/[tail] are the unique split at the last dot. *)
Theorem C34_split : forall d, In dot d ->
  head d ++ [dot] ++ tail d = d /\ ~ In dot (tail d).
Proof.
  intros d H. unfold head, tail. destruct (rfind dot d) as [i|] eqn:E.
  - destruct (rfind_some _ _ _ E) as [H1 H2]. split; [symmetry; exact H1|exact H2].
  - exfalso. now apply rfind_none in E.
Qed.
Print Assumptions C34_split.
Example C34_split_ex : In dot (bs ".a.bc") /\ head (bs ".a.bc") = bs ".a" /\ tail (bs ".a.bc") = bs "bc".
Proof. split; [cbn; auto|]. split; reflexivity. Qed.

Theorem C34_unique : forall h t, ~ In dot t -> head (h ++ [dot] ++ t) = h /\ tail (h ++ [dot] ++ t) = t.
Proof.
  intros h t H. unfold head, tail. cbn [app]. rewrite rfind_app by exact H. split.
  - rewrite firstn_app_l by reflexivity. reflexivity.
  - replace (h ++ dot :: t) with ((h ++ [dot]) ++ t) by (rewrite <- app_assoc; reflexivity).
    rewrite skipn_app_l; [reflexivity|]. rewrite app_length. cbn. lia.
Qed.
Print Assumptions C34_unique.
Example C34_unique_ex : ~ In dot (bs "bc").
Proof. cbn. intuition discriminate. Qed.

(** Without a dot [tail] is the identity. *)
Theorem C34_nodot_tail : forall d, ~ In dot d -> tail d = d.
Proof. intros d H. unfold tail. now rewrite (proj2 (rfind_none _ _) H). Qed.
Print Assumptions C34_nodot_tail.
Example C34_nodot_ex : ~ In dot (bs "x") /\ tail (bs "x") = bs "x".
Proof. split; [cbn; intuition discriminate|reflexivity]. Qed.

(** Without a dot [head] does not denote the parent (the empty path): it returns the
    whole string, so that code looking for the parent of "x" looks up "x" itself. *)
Theorem C34_nodot_head_refuted : exists d, ~ In dot d /\ d <> [] /\ head d <> [].
Proof. exists (bs "x"). split; [cbn; intuition discriminate|]. split; discriminate. Qed.
Print Assumptions C34_nodot_head_refuted.

Theorem C34_basename : forall tn, exists n, basename tn = dot :: n /\ ~ In dot n /\ n <> [].
Proof.
  intros tn. eexists. split; [reflexivity|]. split; [|discriminate].
  rewrite in_map_iff. intros (c & H & _). destruct (isalnum c) eqn:E; [|discriminate].
  subst c. discriminate.
Qed.
Print Assumptions C34_basename.
Example C34_basename_ex : basename (bs "ns::A<int>") = bs ".base_ns__A_int_".
Proof. reflexivity. Qed.

(** ** C33 *)
Lemma zcmp_eq : forall x y, Z.compare x y = Eq <-> x = y.
Proof. exact Z.compare_eq_iff. Qed.

Lemma mfind_fold_s : forall data e s,
  mfind bcmp s (s2v (fold_left ek_add data e)) =
  match find (fun p => beq s (fst p)) (rev data) with
  | Some p => Some (snd p) | None => mfind bcmp s (s2v e) end.
Proof.
  induction data as [|[n v] data IH]; intros e s; [reflexivity|].
  cbn [fold_left rev]. rewrite IH. clear IH.
  assert (F : forall l x, find (fun p : list ascii * Z => beq s (fst p)) (l ++ [x]) =
     match find (fun p => beq s (fst p)) l with Some p => Some p | None =>
       if beq s (fst x) then Some x else None end).
  { induction l as [|y l IHl]; intros x; cbn [find app]; [reflexivity|].
    destruct (beq s (fst y)); auto. }
  rewrite F. destruct (find _ (rev data)); [reflexivity|]. cbn [ek_add s2v fst snd].
  destruct (beq s n) eqn:E.
  - apply beq_eq in E. subst. apply (mfind_mset_same bcmp bcmp_eq).
  - rewrite (mfind_mset_other bcmp bcmp_eq); [reflexivity|]. intros ->. now rewrite beq_refl in E.
Qed.
Lemma mfind_fold_v : forall data e v,
  mfind Z.compare v (v2s (fold_left ek_add data e)) =
  match find (fun p => Z.eqb v (snd p)) (rev data) with
  | Some p => Some (fst p) | None => mfind Z.compare v (v2s e) end.
Proof.
  induction data as [|[n v] data IH]; intros e s; [reflexivity|].
  cbn [fold_left rev]. rewrite IH. clear IH.
  assert (F : forall l x, find (fun p : list ascii * Z => Z.eqb s (snd p)) (l ++ [x]) =
     match find (fun p => Z.eqb s (snd p)) l with Some p => Some p | None =>
       if Z.eqb s (snd x) then Some x else None end).
  { induction l as [|y l IHl]; intros x; cbn [find app]; [reflexivity|].
    destruct (Z.eqb s (snd y)); auto. }
  rewrite F. destruct (find _ (rev data)); [reflexivity|]. cbn [ek_add v2s fst snd].
  destruct (Z.eqb s v) eqn:E.
  - apply Z.eqb_eq in E. subst. apply (mfind_mset_same _ zcmp_eq).
  - rewrite (mfind_mset_other _ zcmp_eq); [reflexivity|]. lia.
Qed.

Lemma nodup_find : forall (data : list (list ascii * Z)) s v, NoDup (map fst data) ->
  In (s, v) data -> find (fun p => beq s (fst p)) (rev data) = Some (s, v).
Proof.
  intros data s v ND I.
  destruct (find (fun p => beq s (fst p)) (rev data)) as [[s' v']|] eqn:E.
  - apply find_some in E as [I' E]. cbn in E. apply beq_eq in E. subst s'.
    apply in_rev in I'. f_equal.
    clear - ND I I'. induction data as [|[s0 v0] data IH]; [contradiction|].
    cbn in ND. apply NoDup_cons_iff in ND as [N1 N2].
    destruct I as [I|I], I' as [I'|I']; try congruence.
    + injection I as -> ->. exfalso. apply N1. apply in_map_iff. exists (s, v'). auto.
    + injection I' as -> ->. exfalso. apply N1. apply in_map_iff. exists (s, v). auto.
    + auto.
  - exfalso. apply in_rev in I. pose proof (find_none _ _ E _ I) as H. cbn in H.
    now rewrite beq_refl in H.
Qed.

(** Symbols back to values, and values back through symbols, also when several symbols
    share a value (C++ enumerator names are distinct, values need not be). *)
Theorem C33_value_symbol_value : forall data v, NoDup (map fst data) ->
  In v (map snd data) -> ek_val (ek_make data) (ek_sym (ek_make data) v) = v.
Proof.
  intros data v ND I. unfold ek_val, ek_sym, ek_make.
  rewrite mfind_fold_v. destruct (find _ (rev data)) as [[s v']|] eqn:E.
  - apply find_some in E as [I' E]. cbn in E. apply Z.eqb_eq in E. subst v'.
    cbn [fst]. rewrite mfind_fold_s, (nodup_find data s v); auto. now apply in_rev.
  - exfalso. apply in_map_iff in I as ([s v'] & <- & I). apply in_rev in I.
    pose proof (find_none _ _ E _ I) as H. cbn in H. now rewrite Z.eqb_refl in H.
Qed.
Print Assumptions C33_value_symbol_value.
Example C33_ex1 : let d := [(bs "a", 0%Z); (bs "b", 12%Z); (bs "c", 12%Z)] in
  NoDup (map fst d) /\ In 12%Z (map snd d) /\ ek_sym (ek_make d) 12 = bs "c".
Proof.
  split; [|split; [cbn; auto|reflexivity]].
  repeat constructor; cbn; intuition discriminate.
Qed.

Theorem C33_symbol_value_symbol : forall data s v, NoDup (map fst data) -> NoDup (map snd data) ->
  In (s, v) data ->
  ek_val (ek_make data) s = v /\ ek_sym (ek_make data) v = s.
Proof.
  intros data s v ND ND2 I. unfold ek_val, ek_sym, ek_make.
  rewrite mfind_fold_s, (nodup_find data s v); auto. split; [reflexivity|].
  rewrite mfind_fold_v. destruct (find _ (rev data)) as [[s' v']|] eqn:E.
  - apply find_some in E as [I' E]. cbn in E. apply Z.eqb_eq in E. subst v'.
    apply in_rev in I'. cbn [fst].
    clear - ND2 I I'. induction data as [|[s0 v0] data IH]; [contradiction|].
    cbn in ND2. apply NoDup_cons_iff in ND2 as [N1 N2].
    destruct I as [I|I], I' as [I'|I']; try congruence.
    + injection I as -> ->. exfalso. apply N1. apply in_map_iff. exists (s', v). auto.
    + injection I' as -> ->. exfalso. apply N1. apply in_map_iff. exists (s, v). auto.
    + auto.
  - exfalso. apply in_rev in I. pose proof (find_none _ _ E _ I) as H. cbn in H.
    now rewrite Z.eqb_refl in H.
Qed.
Print Assumptions C33_symbol_value_symbol.
Example C33_ex2 : let d := [(bs "a", 0%Z); (bs "b", 12%Z)] in
  NoDup (map fst d) /\ NoDup (map snd d) /\ In (bs "b", 12%Z) d.
Proof. repeat split; [repeat constructor; cbn; intuition discriminate..|cbn; auto]. Qed.

(** Unknown symbols and values give the documented defaults, and [has] tells. *)
Theorem C33_unknown : forall data,
  (forall s, ~ In s (map fst data) -> ek_val (ek_make data) s = 0%Z /\ ek_has_sym (ek_make data) s = false) /\
  (forall v, ~ In v (map snd data) -> ek_sym (ek_make data) v = [] /\ ek_has_val (ek_make data) v = false) /\
  (forall s, In s (map fst data) -> ek_has_sym (ek_make data) s = true) /\
  (forall v, In v (map snd data) -> ek_has_val (ek_make data) v = true).
Proof.
  intros data. unfold ek_val, ek_sym, ek_has_sym, ek_has_val, ek_make.
  split; [|split; [|split]].
  - intros s H. rewrite mfind_fold_s. destruct (find _ (rev data)) as [[s' v']|] eqn:E; [|split; reflexivity].
    exfalso. apply find_some in E as [I' E]. cbn in E. apply beq_eq in E. subst s'. apply H.
    apply in_rev in I'. apply in_map_iff. exists (s, v'). auto.
  - intros v H. rewrite mfind_fold_v. destruct (find _ (rev data)) as [[s' v']|] eqn:E; [|split; reflexivity].
    exfalso. apply find_some in E as [I' E]. cbn in E. apply Z.eqb_eq in E. subst v'. apply H.
    apply in_rev in I'. apply in_map_iff. exists (s', v). auto.
  - intros s H. rewrite mfind_fold_s. destruct (find _ (rev data)) as [[s' v']|] eqn:E; [reflexivity|].
    exfalso. apply in_map_iff in H as ([s' v] & <- & I). apply in_rev in I.
    pose proof (find_none _ _ E _ I) as H. cbn in H. now rewrite beq_refl in H.
  - intros v H. rewrite mfind_fold_v. destruct (find _ (rev data)) as [[s' v']|] eqn:E; [reflexivity|].
    exfalso. apply in_map_iff in H as ([s' v'] & <- & I). apply in_rev in I.
    pose proof (find_none _ _ E _ I) as H. cbn in H. now rewrite Z.eqb_refl in H.
Qed.
Print Assumptions C33_unknown.
Example C33_unknown_ex : let d := [(bs "a", 3%Z)] in
  ~ In (bs "b") (map fst d) /\ ~ In 4%Z (map snd d) /\ In (bs "a") (map fst d) /\ In 3%Z (map snd d).
Proof. cbn. intuition discriminate. Qed.

(** Iterating the table visits each declared value exactly once, in increasing order. *)
Fixpoint zincr (l : list Z) : Prop :=
  match l with x :: (y :: _) as l' => (x < y)%Z /\ zincr l' | _ => True end.
Lemma mset_keys : forall {V} (m : list (Z * V)) k v x,
  In x (map fst (mset Z.compare k v m)) <-> x = k \/ In x (map fst m).
Proof.
  intros V m k v x. unfold mset. destruct (mfind Z.compare k m) as [w0|] eqn:E.
  - revert E. induction m as [|[k0 v0] m IH]; cbn [mfind mreplace map fst In]; [discriminate|].
    destruct (Z.compare_spec k k0) as [->|?|?]; cbn [map fst In]; intros E;
      [|rewrite IH by exact E..]; intuition.
  - clear E. induction m as [|[k0 v0] m IH]; cbn [minsert map fst In]; [intuition|].
    destruct (Z.compare_spec k k0) as [->|?|?]; cbn [map fst In]; rewrite ?IH; intuition.
Qed.
Lemma mset_incr : forall {V} (m : list (Z * V)) k v, zincr (map fst m) -> zincr (map fst (mset Z.compare k v m)).
Proof.
  intros V m k v. unfold mset. destruct (mfind Z.compare k m) as [w0|] eqn:E.
  - assert (R : map fst (mreplace Z.compare k v m) = map fst m); [|now rewrite R].
    clear E. induction m as [|[k0 v0] m IH]; cbn [mreplace map fst]; [reflexivity|].
    destruct (Z.compare k k0); cbn [map fst]; rewrite ?IH; reflexivity.
  - revert E. induction m as [|[k0 v0] m IH]; intros E H; cbn [minsert mfind map fst zincr] in *; [auto|].
    destruct (Z.compare_spec k k0) as [->|?|?]; cbn [map fst]; [discriminate|split; auto|].
    assert (Z1 : zincr (map fst m)) by (destruct m as [|[? ?] ?]; [exact I|apply H]).
    specialize (IH E Z1). destruct m as [|[k1 v1] m]; cbn [minsert map fst] in *; [split; auto|].
    destruct (Z.compare_spec k k1) as [->|?|?]; cbn [map fst] in *; split; auto; apply H.
Qed.
Theorem C33_iteration : forall data,
  zincr (ek_vals (ek_make data)) /\
  (forall v, In v (ek_vals (ek_make data)) <-> In v (map snd data)) /\
  ek_syms (ek_make data) = map (ek_sym (ek_make data)) (ek_vals (ek_make data)) /\
  ek_size (ek_make data) = len (ek_vals (ek_make data)).
Proof.
  intros data. unfold ek_make, ek_vals, ek_syms, ek_size.
  assert (G : forall data e, zincr (map fst (v2s e)) ->
     zincr (map fst (v2s (fold_left ek_add data e))) /\
     (forall v, In v (map fst (v2s (fold_left ek_add data e))) <-> In v (map snd data) \/ In v (map fst (v2s e)))).
  { clear data. induction data as [|[n v] data IH]; intros e H; cbn [fold_left map snd In].
    - split; [exact H|tauto].
    - destruct (IH (ek_add e (n, v))) as [H1 H2].
      + cbn. now apply mset_incr.
      + split; [exact H1|]. intros x. rewrite H2. cbn. rewrite mset_keys. intuition. }
  destruct (G data {| s2v := []; v2s := [] |} I) as [H1 H2].
  split; [exact H1|]. split; [intros v; rewrite H2; cbn; tauto|]. split.
  - unfold ek_sym. set (m := v2s _) in *. clearbody m. clear - H1.
    rewrite map_map. assert (LT : forall (m : list (Z * list ascii)) k, zincr (k :: map fst m) -> forall x, In x (map fst m) -> (k < x)%Z).
    { intros m0; induction m0 as [|[k1 v1] m0 IH]; intros k H x; cbn [map fst In]; [tauto|].
      cbn in H. destruct H as [Ha Hb]. intros [<-|Hx]; [exact Ha|].
      specialize (IH k1). cbn in IH. pose proof (IH Hb x Hx). lia. }
    induction m as [|[k v] m IH]; cbn [map fst snd]; [reflexivity|].
    f_equal; [cbn [mfind]; now rewrite Z.compare_refl|].
    rewrite IH by (destruct m as [|[? ?] ?]; [exact I|apply H1]).
    apply map_ext_in. intros [k' v'] Hi. cbn [fst mfind].
    pose proof (LT m k H1 k') as Hl. destruct (Z.compare_spec k' k); auto.
    exfalso. enough (k < k')%Z by lia. apply Hl. apply in_map_iff. exists (k', v'). auto.
  - unfold len. now rewrite map_length.
Qed.
Print Assumptions C33_iteration.
Example C33_iteration_ex :
  ek_vals (ek_make [(bs "c", 7%Z); (bs "a", 0%Z); (bs "d", 7%Z)]) = [0%Z; 7%Z] /\
  ek_syms (ek_make [(bs "c", 7%Z); (bs "a", 0%Z); (bs "d", 7%Z)]) = [bs "a"; bs "d"].
Proof. split; reflexivity. Qed.

(** ** C57 *)
Definition ndots (d : list ascii) : nat := count_occ ascii_dec d dot.
Lemma cstr_id : forall s, ~ In nul s -> cstr s = s.
Proof.
  induction s as [|x s IH]; intros H; cbn; [reflexivity|].
  destruct (ascii_dec x nul) as [->|]; [exfalso; apply H; now left|].
  f_equal. apply IH. intros Hi. apply H. now right.
Qed.
Lemma fmt_loop_spec : forall c tl nd o, ~ In nul c ->
  fmt_loop c tl nd o = (nd + ndots c, if in_dec ascii_dec dot c then tail c else tl,
                        o ++ repeat " "%char (ndots c)).
Proof.
  induction c as [|x c IH]; intros tl nd o H.
  - cbn. rewrite app_nil_r. f_equal. f_equal. lia.
  - assert (H' : ~ In nul c) by (intros Hi; apply H; now right).
    cbn [fmt_loop]. destruct (ascii_dec x nul) as [->|]; [exfalso; apply H; now left|].
    unfold ndots in *. cbn [count_occ]. destruct (ascii_dec x dot) as [->|n1].
    + destruct (in_dec ascii_dec dot (dot :: c)) as [_|nn]; [|exfalso; apply nn; now left].
      rewrite IH by exact H'. f_equal; [f_equal|].
      * lia.
      * unfold tail. cbn [rfind]. destruct (in_dec ascii_dec dot c) as [i|i].
        -- destruct (rfind dot c) eqn:E; [reflexivity|]. exfalso. now apply rfind_none in E.
        -- rewrite (proj2 (rfind_none _ _) i). destruct (ascii_dec dot dot); [reflexivity|congruence].
      * rewrite <- app_assoc. reflexivity.
    + rewrite IH by exact H'. f_equal. f_equal.
      destruct (in_dec ascii_dec dot (x :: c)) as [[->|i]|nn]; destruct (in_dec ascii_dec dot c) as [i'|i']; try congruence; try contradiction.
      * unfold tail. cbn [rfind]. destruct (rfind dot c) eqn:E; [reflexivity|].
        exfalso. now apply rfind_none in E.
      * exfalso. apply nn. now right.
Qed.

(** As many blanks as dots, then the last component, then a colon. *)
Theorem C57_line : forall d, ~ In nul d ->
  format d = (ndots d, repeat " "%char (ndots d) ++ tail d ++ bs ":").
Proof.
  intros d H. unfold format. rewrite fmt_loop_spec by exact H. cbn [app].
  destruct (in_dec ascii_dec dot d) as [i|i].
  - rewrite cstr_id; [f_equal; reflexivity|]. intros Hi. apply H. unfold tail in Hi.
    clear - Hi. revert Hi. generalize (match rfind dot d with Some i => S i | None => 0 end). intros n.
    rewrite <- (firstn_skipn n d) at 2. rewrite in_app_iff. auto.
  - rewrite cstr_id by exact H. rewrite C34_nodot_tail by exact i. f_equal.
Qed.
Print Assumptions C57_line.
Example C57_ex : ~ In nul (bs ".a.b.cd") /\ format (bs ".a.b.cd") = (3, bs "   cd:").
Proof. split; [cbn; intuition discriminate|reflexivity]. Qed.

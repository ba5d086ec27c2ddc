(** * [std::map] as a list of pairs sorted by key

    [std::map<K,V>] is part of the C++ standard library (trusted): [mset] is
    [m[k]=v], [mfind] is [m.find(k)], [mins] is [m.insert(make_pair(k,v))]. *)
From Verif Require Import Base.

Section SMap.
Context {K V : Type}.
Variable cmp : K -> K -> comparison.

(** insertion of a new key *)
Fixpoint minsert (k : K) (v : V) (m : list (K * V)) : list (K * V) :=
  match m with
  | [] => [(k, v)]
  | (k', v') :: m' =>
      match cmp k k' with
      | Gt => (k', v') :: minsert k v m'
      | _ => (k, v) :: m
      end
  end.
(** overwriting the value of an existing key *)
Fixpoint mreplace (k : K) (v : V) (m : list (K * V)) : list (K * V) :=
  match m with
  | [] => []
  | (k', v') :: m' =>
      match cmp k k' with
      | Eq => (k', v) :: m'
      | _ => (k', v') :: mreplace k v m'
      end
  end.
Fixpoint mfind (k : K) (m : list (K * V)) : option V :=
  match m with
  | [] => None
  | (k', v) :: m' => match cmp k k' with Eq => Some v | _ => mfind k m' end
  end.
Definition mset (k : K) (v : V) (m : list (K * V)) : list (K * V) :=
  match mfind k m with Some _ => mreplace k v m | None => minsert k v m end.
Definition mins (k : K) (v : V) (m : list (K * V)) : list (K * V) :=
  match mfind k m with Some _ => m | None => mset k v m end.
(** strictly increasing keys *)
Fixpoint msorted (m : list (K * V)) : Prop :=
  match m with
  | [] => True
  | (k, _) :: m' => match m' with [] => True | (k', _) :: _ => cmp k k' = Lt end /\ msorted m'
  end.
End SMap.

(** [std::string::operator<]: lexicographic order of unsigned bytes *)
Fixpoint bcmp (a b : list ascii) : comparison :=
  match a, b with
  | [], [] => Eq
  | [], _ => Lt
  | _, [] => Gt
  | x :: a', y :: b' =>
      match N.compare (N_of_ascii x) (N_of_ascii y) with Eq => bcmp a' b' | c => c end
  end.

Section Lemmas.
Context {K V : Type}.
Variable cmp : K -> K -> comparison.
Hypothesis cmp_eq : forall x y, cmp x y = Eq <-> x = y.

Lemma cmp_refl : forall x, cmp x x = Eq.
Proof using cmp_eq. intros. now apply cmp_eq. Qed.

Lemma cmp_neq : forall x y z, x <> y -> cmp x z = Eq -> cmp y z <> Eq.
Proof using cmp_eq. intros x y z H H1 H2. apply cmp_eq in H1, H2. congruence. Qed.

Lemma mfind_minsert : forall k k' (v : V) m, mfind cmp k m = None ->
  mfind cmp k' (minsert cmp k v m) =
  match cmp k' k with Eq => Some v | _ => mfind cmp k' m end.
Proof using cmp_eq.
  intros k k' v m. induction m as [|[k0 v0] m IH]; intros H; cbn [minsert mfind] in *; [reflexivity|].
  destruct (cmp k k0) eqn:E; cbn [mfind]; [discriminate|reflexivity|].
  rewrite IH by exact H. destruct (cmp k' k0) eqn:E0; [|reflexivity..].
  destruct (cmp k' k) eqn:E1; [|reflexivity..]. exfalso.
  apply cmp_eq in E0, E1. subst. rewrite cmp_refl in E. discriminate.
Qed.
Lemma mfind_mreplace : forall k k' (v w : V) m, mfind cmp k m = Some w ->
  mfind cmp k' (mreplace cmp k v m) =
  match cmp k' k with Eq => Some v | _ => mfind cmp k' m end.
Proof using cmp_eq.
  intros k k' v w m. induction m as [|[k0 v0] m IH]; intros H; cbn [mreplace mfind] in *; [discriminate|].
  destruct (cmp k k0) eqn:E; cbn [mfind].
  - apply cmp_eq in E. subst k0. destruct (cmp k' k); reflexivity.
  - rewrite IH by exact H. destruct (cmp k' k0) eqn:E0; [|reflexivity..].
    destruct (cmp k' k) eqn:E1; [|reflexivity..]. exfalso.
    apply cmp_eq in E0, E1. subst. rewrite cmp_refl in E. discriminate.
  - rewrite IH by exact H. destruct (cmp k' k0) eqn:E0; [|reflexivity..].
    destruct (cmp k' k) eqn:E1; [|reflexivity..]. exfalso.
    apply cmp_eq in E0, E1. subst. rewrite cmp_refl in E. discriminate.
Qed.
Lemma mfind_mset : forall k k' (v : V) m,
  mfind cmp k' (mset cmp k v m) = match cmp k' k with Eq => Some v | _ => mfind cmp k' m end.
Proof using cmp_eq.
  intros. unfold mset. destruct (mfind cmp k m) eqn:E.
  - eapply mfind_mreplace; eauto.
  - now apply mfind_minsert.
Qed.
Lemma mfind_mset_same : forall k (v : V) m, mfind cmp k (mset cmp k v m) = Some v.
Proof using cmp_eq. intros. now rewrite mfind_mset, cmp_refl. Qed.
Lemma mfind_mset_other : forall k k' (v : V) m, k' <> k ->
  mfind cmp k' (mset cmp k v m) = mfind cmp k' m.
Proof using cmp_eq.
  intros k k' v m H. rewrite mfind_mset. destruct (cmp k' k) eqn:E; [|reflexivity..].
  now apply cmp_eq in E.
Qed.
Lemma mset_mset : forall k (v w : V) m, mset cmp k v (mset cmp k w m) = mset cmp k v m.
Proof using cmp_eq.
  intros. unfold mset at 1. rewrite mfind_mset_same. unfold mset.
  destruct (mfind cmp k m) as [w0|] eqn:E.
  - clear E. induction m as [|[k0 v0] m IH]; cbn [mreplace]; [reflexivity|].
    destruct (cmp k k0) eqn:E; cbn [mreplace]; rewrite E, ?IH; reflexivity.
  - induction m as [|[k0 v0] m IH]; cbn [minsert mreplace mfind] in *.
    + now rewrite cmp_refl.
    + destruct (cmp k k0) eqn:E0; cbn [mreplace].
      * discriminate.
      * now rewrite cmp_refl.
      * rewrite E0. now rewrite IH.
Qed.
Lemma mset_same : forall k (v : V) m, mfind cmp k m = Some v -> mset cmp k v m = m.
Proof using cmp_eq.
  intros k v m H. unfold mset. rewrite H. revert H.
  induction m as [|[k0 v0] m IH]; cbn [mreplace mfind]; [reflexivity|].
  destruct (cmp k k0) eqn:E; intros H; [congruence|rewrite IH by exact H; reflexivity..].
Qed.
(** a key larger than all the others goes to the end *)
Lemma mset_last : forall k (v : V) m, (forall k', In k' (map fst m) -> cmp k k' = Gt) ->
  mset cmp k v m = m ++ [(k, v)].
Proof using cmp_eq.
  intros k v m H. unfold mset.
  replace (mfind cmp k m) with (@None V).
  - induction m as [|[k0 v0] m IH]; cbn [minsert app]; [reflexivity|].
    rewrite H by (now left). rewrite IH; [reflexivity|]. intros k' Hk. apply H. now right.
  - induction m as [|[k0 v0] m IH]; cbn [mfind]; [reflexivity|].
    rewrite H by (now left). apply IH. intros k' Hk. apply H. now right.
Qed.
End Lemmas.

Lemma bcmp_eq : forall x y, bcmp x y = Eq <-> x = y.
Proof.
  induction x as [|a x IH]; destruct y as [|b y]; cbn [bcmp]; try (split; congruence).
  destruct (N.compare (N_of_ascii a) (N_of_ascii b)) eqn:E.
  - apply N.compare_eq in E.
    assert (a = b) as ->
      by (rewrite <- (ascii_N_embedding a), <- (ascii_N_embedding b), E; reflexivity).
    rewrite IH. split; congruence.
  - split; [discriminate|]. intros H. injection H as -> ->. now rewrite N.compare_refl in E.
  - split; [discriminate|]. intros H. injection H as -> ->. now rewrite N.compare_refl in E.
Qed.
Lemma bcmp_trans : forall x y z, bcmp x y = Lt -> bcmp y z = Lt -> bcmp x z = Lt.
Proof.
  induction x as [|a x IH]; destruct y as [|b y]; destruct z as [|c z]; cbn [bcmp]; auto; try discriminate.
  destruct (N.compare_spec (N_of_ascii a) (N_of_ascii b)) as [E1|E1|E1];
  destruct (N.compare_spec (N_of_ascii b) (N_of_ascii c)) as [E2|E2|E2];
  destruct (N.compare_spec (N_of_ascii a) (N_of_ascii c)) as [E3|E3|E3]; try lia; eauto; discriminate.
Qed.
Lemma bcmp_antisym : forall x y, bcmp y x = CompOpp (bcmp x y).
Proof.
  induction x as [|a x IH]; destruct y as [|b y]; cbn [bcmp CompOpp]; auto.
  rewrite N.compare_antisym. destruct (N.compare (N_of_ascii a) (N_of_ascii b)); cbn; auto.
Qed.
Definition beq (a b : list ascii) : bool := match bcmp a b with Eq => true | _ => false end.
Lemma beq_eq : forall a b, beq a b = true <-> a = b.
Proof. intros. unfold beq. rewrite <- bcmp_eq. destruct (bcmp a b); split; congruence. Qed.
Lemma beq_refl : forall a, beq a a = true.
Proof. intros. now apply beq_eq. Qed.

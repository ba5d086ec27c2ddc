(** * Properties of enumerations and single objects in Python: C111, C112 *)
From Verif Require Import Base SMap Desc_Model Desc_Props PyScope_Model PyScope_Props PyEnum_Model.
Import ListNotations.

Lemma obj_eqb_eq : forall a b, obj_eqb a b = true <-> a = b.
Proof.
  intros [|n|n] [|m|m]; cbn; split; intros H; try discriminate; try reflexivity;
    try (apply Nat.eqb_eq in H; now subst); injection H as ->; apply Nat.eqb_refl.
Qed.
Lemma look_same : forall o n v b, look o n (bind o n v b) = Some v.
Proof. intros. unfold bind. cbn [look]. rewrite (proj2 (obj_eqb_eq o o) eq_refl), beq_refl. reflexivity. Qed.
Lemma look_other : forall o n o' n' v b, (o, n) <> (o', n') -> look o n (bind o' n' v b) = look o n b.
Proof.
  intros o n o' n' v b H. unfold bind. cbn [look]. destruct (obj_eqb o o') eqn:E; [|reflexivity].
  destruct (beq n n') eqn:F; [|reflexivity]. exfalso. apply obj_eqb_eq in E. apply beq_eq in F. congruence.
Qed.
Lemma fold_in : forall o c keys b n z, NoDup (map fst keys) -> In (n, z) keys ->
  look o n (fold_left (fun b k => bind o (fst k) (PVal c (snd k)) b) keys b) = Some (PVal c z).
Proof.
  intros o c keys. induction keys as [|[k y] keys IH]; intros b n z ND I; [contradiction|].
  cbn [map fst] in ND. apply NoDup_cons_iff in ND as [N1 N2]. cbn [fold_left fst snd]. destruct I as [E|I].
  - injection E as <- <-.
    assert (G : forall keys b, ~ In k (map fst keys) ->
       look o k (fold_left (fun b k => bind o (fst k) (PVal c (snd k)) b) keys b) = look o k b).
    { clear. induction keys as [|[k' y'] keys IH]; intros b H; [reflexivity|]. cbn [fold_left fst snd]. cbn [map fst] in H.
      rewrite IH by (intros X; apply H; now right). apply look_other. intros E. injection E as E. apply H. now left. }
    rewrite G by exact N1. apply look_same.
  - now apply IH.
Qed.
Lemma fold_out : forall o n o' c keys b, (o = o' -> ~ In n (map fst keys)) ->
  look o n (fold_left (fun b k => bind o' (fst k) (PVal c (snd k)) b) keys b) = look o n b.
Proof.
  intros o n o' c keys. induction keys as [|[k y] keys IH]; intros b H; [reflexivity|]. cbn [fold_left fst snd].
  rewrite IH by (intros E X; apply (H E); now right). apply look_other. intros E. injection E as E1 E2.
  apply (H E1). now left.
Qed.
Lemma scope_not_enum : forall s name c, scope_of s name <> OEnum c.
Proof. intros s name c. unfold scope_of. destruct (entered (scopes s) name); discriminate. Qed.

(** ** C111 *)
(** Every enumerator is an attribute of the new type, and of the scope of the enumeration. *)
Theorem C111_enumerators : forall name keys s n z, NoDup (map fst keys) -> In (n, z) keys ->
  look (OEnum (count s)) n (binds (defineEnum name keys s)) = Some (PVal (count s) z) /\
  look (scope_of s name) n (binds (defineEnum name keys s)) = Some (PVal (count s) z).
Proof.
  intros name keys s n z ND I. unfold defineEnum. cbv zeta. cbn [binds]. split.
  - rewrite fold_out by (intros E; symmetry in E; now apply scope_not_enum in E). now apply fold_in.
  - now apply fold_in.
Qed.
Print Assumptions C111_enumerators.
Example C111_enumerators_ex : NoDup (map fst [(bs "red", 0%Z); (bs "blue", 4%Z)]) /\ In (bs "blue", 4%Z) [(bs "red", 0%Z); (bs "blue", 4%Z)] /\
  scope_of start (bs "ns::Colour") = OScope 0 /\
  look (OScope 0) (bs "blue") (binds (defineEnum (bs "ns::Colour") [(bs "red", 0%Z); (bs "blue", 4%Z)] start)) = Some (PVal 0 4).
Proof.
  split; [cbn [map fst]; repeat constructor; cbn; intuition discriminate|]. split; [right; left; reflexivity|].
  split; vm_compute; reflexivity.
Qed.

(** The type is found in its scope under the last part of its name, if no enumerator has
    this name. *)
Theorem C111_class : forall cs l m keys s, Forall (fun c => atomic 0 c = true /\ c <> []) cs -> atomic 0 l = true ->
  ~ In l (map fst keys) -> let name := repeat ":"%char m ++ qualified cs l in
  look (scope_of s name) l (binds (defineEnum name keys s)) = Some (PType (count s)).
Proof.
  intros cs l m keys s C L N name. unfold defineEnum. cbv zeta. cbn [binds].
  rewrite fold_out by (intros _; exact N). rewrite fold_out by (intros E; now apply scope_not_enum in E).
  assert (X : fst (extract name) = l) by (unfold name; now rewrite C106_name).
  rewrite X. apply look_same.
Qed.
Print Assumptions C111_class.
Example C111_class_ex : Forall (fun c => atomic 0 c = true /\ c <> []) [bs "ns"] /\ atomic 0 (bs "Colour") = true /\
  ~ In (bs "Colour") (map fst [(bs "red", 0%Z)]) /\ repeat ":"%char 0 ++ qualified [bs "ns"] (bs "Colour") = bs "ns::Colour".
Proof.
  split; [repeat constructor; discriminate|]. split; [reflexivity|]. split; [|reflexivity].
  cbn [map fst In]. intuition discriminate.
Qed.
(** An enumerator called like its enumeration hides it. *)
Theorem C111_hidden_refuted : exists name keys, NoDup (map fst keys) /\
  look OTop (fst (extract name)) (binds (defineEnum name keys start)) = Some (PVal 0 7).
Proof.
  exists (bs "E"), [(bs "E", 7%Z)]. split; [repeat constructor; cbn; auto|]. vm_compute. reflexivity.
Qed.
Print Assumptions C111_hidden_refuted.

(** Nothing else changes. *)
Theorem C111_other : forall name keys s o n, o <> OEnum (count s) ->
  (o = scope_of s name -> n <> fst (extract name) /\ ~ In n (map fst keys)) ->
  look o n (binds (defineEnum name keys s)) = look o n (binds s).
Proof.
  intros name keys s o n N H. unfold defineEnum. cbv zeta. cbn [binds].
  rewrite fold_out by (intros E; exact (proj2 (H E))). rewrite fold_out by (intros E; contradiction).
  apply look_other. intros E. injection E as E1 E2. exact (proj1 (H E1) E2).
Qed.
Print Assumptions C111_other.
Example C111_other_ex : OTop <> OEnum (count start) /\ scope_of start (bs "ns::E") = OScope 0.
Proof. split; [discriminate|vm_compute; reflexivity]. Qed.

(** After any sequence of definitions, each type still has its own enumerators, whatever
    was defined before and after it. *)
Theorem C111_kept : forall before name keys after n z, NoDup (map fst keys) -> In (n, z) keys ->
  look (OEnum (length before)) n (binds (defineAll (before ++ (name, keys) :: after) start)) = Some (PVal (length before) z).
Proof.
  assert (CN : forall l s, count (defineAll l s) = length l + count s).
  { induction l as [|e l IH]; intros s; [reflexivity|]. cbn [defineAll fold_left]. fold (defineAll l (defineEnum (fst e) (snd e) s)).
    rewrite IH. cbn [length]. unfold defineEnum. cbv zeta. cbn [count]. lia. }
  assert (K : forall l s c n, c < count s -> look (OEnum c) n (binds (defineAll l s)) = look (OEnum c) n (binds s)).
  { induction l as [|e l IH]; intros s c n H; [reflexivity|]. cbn [defineAll fold_left]. fold (defineAll l (defineEnum (fst e) (snd e) s)).
    rewrite IH by (unfold defineEnum; cbv zeta; cbn [count]; lia). apply C111_other.
    - intros E. injection E as E. lia.
    - intros E. symmetry in E. now apply scope_not_enum in E. }
  intros before name keys after n z ND I. unfold defineAll. rewrite fold_left_app. fold (defineAll before start). cbn [fold_left fst snd].
  fold (defineAll after (defineEnum name keys (defineAll before start))).
  assert (C : count (defineAll before start) = length before) by (rewrite CN; cbn [start count]; lia).
  rewrite K by (unfold defineEnum; cbv zeta; cbn [count]; lia). rewrite <- C. now apply C111_enumerators.
Qed.
Print Assumptions C111_kept.
Example C111_kept_ex : NoDup (map fst [(bs "none", 3%Z)]) /\ In (bs "none", 3%Z) [(bs "none", 3%Z)].
Proof. split; [repeat constructor; cbn; auto|now left]. Qed.
(** What is exported is the latest: an enumerator of another enumeration of the same scope
    takes the name, also for scoped enumerations, which do not clash in C++. *)
Theorem C111_clash_refuted : exists a b, fst a <> fst b /\
  scope_of start (fst a) = scope_of (defineAll [a] start) (fst b) /\
  look (scope_of start (fst a)) (bs "none") (binds (defineAll [a; b] start)) = Some (PVal 1 0) /\
  In (bs "none", 5%Z) (snd a).
Proof.
  exists (bs "ns::A", [(bs "none", 5%Z)]), (bs "ns::B", [(bs "none", 0%Z)]).
  split; [discriminate|]. split; [vm_compute; reflexivity|]. split; [vm_compute; reflexivity|]. now left.
Qed.
Print Assumptions C111_clash_refuted.
(** Defining an enumeration again (python_base.h 1198-1202 has no test for that) makes a new
    type; the name then means the new type. *)
Theorem C111_again : forall cs l m keys s, Forall (fun c => atomic 0 c = true /\ c <> []) cs -> atomic 0 l = true ->
  ~ In l (map fst keys) -> let name := repeat ":"%char m ++ qualified cs l in
  let s2 := defineEnum name keys (defineEnum name keys s) in
  look (scope_of (defineEnum name keys s) name) l (binds s2) = Some (PType (S (count s))) /\
  count s2 = S (S (count s)).
Proof.
  intros cs l m keys s C L N name s2. split; [|reflexivity].
  exact (C111_class cs l m keys (defineEnum name keys s) C L N).
Qed.
Print Assumptions C111_again.
Example C111_again_ex : atomic 0 (bs "E") = true /\ ~ In (bs "E") (map fst [(bs "a", 1%Z)]).
Proof. split; [reflexivity|]. cbn [map fst In]. intuition discriminate. Qed.

(** ** C112 *)
(** The object is put into the module named by everything before the last dot, which is
    the main module if there is no dot. *)
Theorem C112_split : forall m n, ~ In dot n ->
  split_path (m ++ dot :: n) = (m, n) /\ split_path n = (bs "__main__", n).
Proof.
  intros m n H. unfold split_path. split.
  - rewrite rfind_app by exact H. f_equal.
    + rewrite firstn_app, Nat.sub_diag, firstn_all. cbn [firstn]. apply app_nil_r.
    + rewrite skipn_app. rewrite skipn_all2 by lia. replace (S (length m) - length m) with 1 by lia. reflexivity.
  - rewrite (proj2 (rfind_none dot n) H). reflexivity.
Qed.
Print Assumptions C112_split.
Example C112_split_ex : split_path (bs "a.b.c") = (bs "a.b", bs "c") /\ ~ In dot (bs "c").
Proof. split; [reflexivity|]. cbn. intuition discriminate. Qed.
(** After adding, Python finds the object there, and all else as before. *)
Theorem C112_added : forall path o ms ms', addPythonObject path o ms = Some ms' ->
  pyfind (fst (split_path path)) (snd (split_path path)) ms' = Some o /\
  (forall m n, (m, n) <> split_path path -> pyfind m n ms' = pyfind m n ms).
Proof.
  intros path o ms ms' H. unfold addPythonObject in H. destruct (split_path path) as [m n]. cbn [fst snd].
  destruct (mfind bcmp m ms) as [d|] eqn:E; [|discriminate H]. injection H as <-. unfold pyfind. split.
  - rewrite (mfind_mset_same bcmp bcmp_eq). apply (mfind_mset_same bcmp bcmp_eq).
  - intros m' n' N. destruct (list_eq_dec ascii_dec m' m) as [->|M].
    + rewrite (mfind_mset_same bcmp bcmp_eq), E. apply (mfind_mset_other bcmp bcmp_eq). congruence.
    + now rewrite (mfind_mset_other bcmp bcmp_eq).
Qed.
Print Assumptions C112_added.
Example C112_added_ex : exists ms', addPythonObject (bs "root1") 9 [(bs "__main__", [])] = Some ms' /\ pyfind (bs "__main__") (bs "root1") ms' = Some 9.
Proof. eexists. split; vm_compute; reflexivity. Qed.
(** It works exactly if the module can be imported. *)
Theorem C112_works : forall m n o ms, ~ In dot n ->
  ((exists ms', addPythonObject (m ++ dot :: n) o ms = Some ms') <-> mfind bcmp m ms <> None) /\
  ((exists ms', addPythonObject n o ms = Some ms') <-> mfind bcmp (bs "__main__") ms <> None).
Proof.
  intros m n o ms H. destruct (C112_split m n H) as [E1 E2]. unfold addPythonObject. rewrite E1, E2. cbv beta iota.
  split; destruct (mfind bcmp _ ms) as [d|]; split; try congruence; try (intros _; eexists; reflexivity); intros [ms' X]; discriminate X.
Qed.
Print Assumptions C112_works.
Example C112_works_ex : mfind bcmp (bs "__main__") [(bs "__main__", [(bs "x", 1)])] <> None /\ ~ In dot (bs "obj").
Proof. split; [vm_compute; discriminate|]. cbn. intuition discriminate. Qed.
(** A path through a namespace or an object, which is an attribute of the module and no
    module, throws. *)
Theorem C112_namespace_refuted : exists path ms, pyfind (bs "example") (bs "ns") ms <> None /\
  path = bs "example.ns.obj" /\ addPythonObject path 1 ms = None.
Proof.
  exists (bs "example.ns.obj"), [(bs "__main__", []); (bs "example", [(bs "ns", 4)])].
  split; [vm_compute; discriminate|]. split; [reflexivity|]. vm_compute. reflexivity.
Qed.
Print Assumptions C112_namespace_refuted.
(** Adding any number of objects with different paths to existing modules: all are found
    in the end. *)
Theorem C112_all : forall (l : list (list ascii * nat)) ms, NoDup (map (fun p => split_path (fst p)) l) ->
  (forall p, In p l -> mfind bcmp (fst (split_path (fst p))) ms <> None) ->
  exists ms', fold_left (fun r p => match r with Some x => addPythonObject (fst p) (snd p) x | None => None end) l (Some ms) = Some ms' /\
    forall path o, In (path, o) l -> pyfind (fst (split_path path)) (snd (split_path path)) ms' = Some o.
Proof.
  enough (G : forall l ms, NoDup (map (fun p => split_path (fst p)) l) ->
    (forall p, In p l -> mfind bcmp (fst (split_path (fst p))) ms <> None) ->
    exists ms', fold_left (fun r p => match r with Some x => addPythonObject (fst p) (snd p) x | None => None end) l (Some ms) = Some ms' /\
      (forall path o, In (path, o) l -> pyfind (fst (split_path path)) (snd (split_path path)) ms' = Some o) /\
      (forall m n, ~ In (m, n) (map (fun p => split_path (fst p)) l) -> pyfind m n ms' = pyfind m n ms)).
  { intros l ms ND E. destruct (G l ms ND E) as (ms' & A & B & _). now exists ms'. }
  induction l as [|[path o] l IH]; intros ms ND E.
  - exists ms. split; [reflexivity|]. split; [intros path o []|reflexivity].
  - cbn [map fst] in ND. apply NoDup_cons_iff in ND as [N1 N2]. cbn [fold_left fst snd].
    destruct (addPythonObject path o ms) as [ms1|] eqn:A.
    2: { exfalso. unfold addPythonObject in A. specialize (E _ (or_introl eq_refl)). cbn [fst] in E.
         destruct (split_path path) as [m n]. cbn [fst] in E. destruct (mfind bcmp m ms); [discriminate A|congruence]. }
    destruct (IH ms1 N2) as (ms' & B & C & D).
    + intros p I. specialize (E p (or_intror I)). unfold addPythonObject in A. destruct (split_path path) as [m n].
      destruct (mfind bcmp m ms) as [d|] eqn:F; [|discriminate A]. injection A as <-.
      destruct (list_eq_dec ascii_dec (fst (split_path (fst p))) m) as [->|M].
      * rewrite (mfind_mset_same bcmp bcmp_eq). discriminate.
      * now rewrite (mfind_mset_other bcmp bcmp_eq).
    + exists ms'. split; [exact B|]. destruct (C112_added _ _ _ _ A) as [A1 A2]. split.
      * intros path' o' [I|I]; [|exact (C _ _ I)]. injection I as <- <-. rewrite D; [exact A1|].
        now rewrite <- surjective_pairing.
      * intros m n N. cbn [map fst] in N. rewrite D by (intros X; apply N; now right). apply A2. intros X. apply N. left. now symmetry.
Qed.
Print Assumptions C112_all.
Example C112_all_ex : NoDup (map (fun p => split_path (fst p)) [(bs "a", 1); (bs "example.a", 2)]).
Proof. vm_compute. repeat constructor; cbn; intuition discriminate. Qed.

(** * C100, C101: inheritance tests and cloning *)
From Verif Require Import Base Isa_Model.

(** ** specification: being derived from a class *)
Inductive derives : cls -> cls -> Prop :=
| d_self c : derives c c
| d_base c b x : In b (cbases c) -> derives b x -> derives c x.
(** the same through classes with a descriptor *)
Inductive seen : cls -> cls -> Prop :=
| s_self c : seen c c
| s_base c b x : cdesc c = true -> In b (cbases c) -> seen b x -> seen c x.

Lemma cls_ind' (P : cls -> Prop) :
  (forall i v e k b m, Forall P b -> P (Cls i v e k b m)) -> forall c, P c.
Proof.
  intros H. fix F 1. intros [i v e k b m]. apply H. induction b as [|x b IH]; constructor; [apply F|exact IH].
Qed.
Lemma seen_derives c x : seen c x -> derives c x.
Proof. induction 1; [constructor|econstructor; eauto]. Qed.
Lemma derives_trans a b c : derives a b -> derives b c -> derives a c.
Proof. induction 1; auto. intro H1. econstructor; eauto. Qed.
Lemma members_none (ms : list (list ascii * cls)) : Forall (fun m => fst m <> []) ms ->
  flat_map (fun m : list ascii * cls => match m with (n, t) => isa_run ([] ++ n) (cid t) t end) ms = [].
Proof.
  induction 1 as [|[n t] ms H _ IH]; [reflexivity|]. cbn [flat_map]. rewrite IH, app_nil_r. cbn [app fst] in *.
  destruct n; [congruence|]. now destruct t.
Qed.
(** the generated descriptors of members are not empty *)
Fixpoint named (c : cls) : Prop :=
  let '(Cls _ _ _ _ b ms) := c in
  (fix all (b : list cls) : Prop := match b with [] => True | x :: b => named x /\ all b end) b
  /\ Forall (fun m => fst m <> []) ms.
Lemma named_base c b : named c -> In b (cbases c) -> named b.
Proof.
  destruct c as [i v e k bs ms]. cbn [named cbases]. intros [H _]. induction bs as [|x bs IH]; intros []; [subst; tauto|apply IH; tauto].
Qed.
Lemma named_members c : named c -> Forall (fun m => fst m <> []) (cmembers c).
Proof. destruct c. cbn. tauto. Qed.
Lemma named_seen c x : seen c x -> named c -> named x.
Proof. induction 1; auto. intro N. apply IHseen. eapply named_base; eauto. Qed.
Lemma isa_cons dyn c : named c ->
  isa_run [] dyn c = typeid dyn c :: if cdesc c then flat_map (isa_run [] dyn) (cbases c) else [].
Proof.
  intro N. apply named_members in N. destruct c as [i v e k b ms]. cbn [cdesc cbases cmembers] in *. cbn [isa_run].
  destruct e; [|reflexivity]. rewrite (members_none ms N), app_nil_r. reflexivity.
Qed.
Lemma seen_in dyn : forall c, named c -> forall t,
  In t (isa_run [] dyn c) <-> exists x, seen c x /\ typeid dyn x = t.
Proof.
  induction c as [i v e k b ms IH] using cls_ind'. intros N t. rewrite isa_cons by exact N.
  set (c := Cls i v e k b ms) in *. split.
  - intros [H|H]; [exists c; split; [constructor|exact H]|]. destruct (cdesc c) eqn:D; [|destruct H].
    apply in_flat_map in H as (x & I1 & I2). rewrite Forall_forall in IH. apply (IH x) in I2; [|exact I1|eapply named_base; eauto].
    destruct I2 as (y & Sy & Ty). exists y. split; [econstructor; eauto|exact Ty].
  - intros (x & Sx & Tx). inversion Sx as [|c' b' x' D I1 S1]; subst; [now left|]. right. rewrite D. apply in_flat_map. exists b'. split; [exact I1|].
    rewrite Forall_forall in IH. apply (IH b'); [exact I1|eapply named_base; eauto|]. eauto.
Qed.

(** ** C100 *)
(** What [isa] collects, for all hierarchies: the class of the whole object if a polymorphic class is
    reached, and every class reached that is not polymorphic.  Members play no part. *)
Theorem C100_set : forall m c t, named c ->
  In t (isa_run [] (cid m) c) <->
    (t = cid m /\ exists x, seen c x /\ poly x = true) \/ (exists x, seen c x /\ poly x = false /\ cid x = t).
Proof.
  intros m c t N. rewrite (seen_in (cid m) c N t). unfold typeid. split.
  - intros (x & Sx & E). destruct (poly x) eqn:P; [left; split; [now symmetry|]|right]; eauto.
  - intros [[-> (x & Sx & P)]|(x & Sx & P & E)]; exists x; split; auto; now rewrite P.
Qed.
Print Assumptions C100_set.
Definition base0 := Cls 1 false true false [] [].
Definition derived0 := Cls 2 false true false [base0] [(bs ".a", Cls 9 false true false [] [])].
Example C100_set_ex : named derived0 /\ isa_run [] 2 derived0 = [2%nat; 1%nat].
Proof. split; [|reflexivity]. cbn. repeat split; auto. repeat constructor. cbn. discriminate. Qed.

(** A positive answer is right: the class of the second object is a base of the first object's. *)
Theorem C100_sound : forall m c m' c', named c -> derives m c -> isa m c m' c' = true ->
  exists x, derives m x /\ cid x = typeid (cid m') c'.
Proof.
  intros m c m' c' N D H. unfold isa in H. apply existsb_exists in H as (t & I1 & E). apply Nat.eqb_eq in E. subst t.
  apply (seen_in _ _ N) in I1 as (x & Sx & E). unfold typeid in E at 1. destruct (poly x).
  - exists m. split; [constructor|exact E].
  - exists x. split; [|exact E]. eapply derives_trans; [exact D|]. now apply seen_derives.
Qed.
Print Assumptions C100_sound.
Example C100_sound_ex : named derived0 /\ derives derived0 derived0 /\ isa derived0 derived0 base0 base0 = true.
Proof. split; [apply C100_set_ex|]. split; [constructor|reflexivity]. Qed.

(** Without virtual functions, and with descriptors for all classes on the way, the answer is exact. *)
Lemma poly_base c b : In b (cbases c) -> poly b = true -> poly c = true.
Proof.
  destruct c as [i v e k bs ms]. cbn [cbases poly]. intros H P. apply orb_true_iff. right. apply existsb_exists. eauto.
Qed.
Lemma poly_derives c x : derives c x -> poly c = false -> poly x = false.
Proof.
  induction 1; auto. intro P. apply IHderives. destruct (poly b) eqn:E; [|reflexivity]. rewrite (poly_base c b H E) in P. discriminate.
Qed.
Theorem C100_plain : forall c m' c', named c -> poly c = false -> (forall x, derives c x -> cdesc x = true) ->
  isa c c m' c' = true <-> exists x, derives c x /\ cid x = typeid (cid m') c'.
Proof.
  intros c m' c' N P HD. split; [apply (C100_sound c c m' c' N (d_self c))|].
  intros (x & Dx & E). unfold isa. apply existsb_exists. exists (typeid (cid m') c'). split; [|apply Nat.eqb_refl].
  apply (seen_in _ _ N). exists x. assert (Sx : seen c x).
  { clear - Dx HD. induction Dx as [c|c b x H Dx IH]; [constructor|]. eapply s_base; [apply HD; constructor|exact H|]. apply IH. intros y Hy. apply HD. econstructor; eauto. }
  split; [exact Sx|]. unfold typeid at 1. now rewrite (poly_derives c x Dx P).
Qed.
Print Assumptions C100_plain.
Lemma derived0_inv x : derives derived0 x -> x = derived0 \/ x = base0.
Proof. intro H. inversion H as [|c b y I1 D1]; subst; auto. destruct I1 as [<-|[]]. inversion D1 as [|c b y I2 D2]; subst; auto. destruct I2. Qed.
Example C100_plain_ex : named derived0 /\ poly derived0 = false /\ (forall x, derives derived0 x -> cdesc x = true).
Proof. split; [apply C100_set_ex|]. split; [reflexivity|]. intros x H. apply derived0_inv in H as [->| ->]; reflexivity. Qed.

(** A class without a descriptor hides its bases. *)
Theorem C100_undescribed : forall m c m' c', cdesc c = false ->
  isa m c m' c' = (typeid (cid m) c =? typeid (cid m') c').
Proof.
  intros m c m' c' D. unfold isa. destruct c as [i v e k b ms]. cbn [cdesc] in D. subst e. cbn [isa_run existsb]. rewrite orb_false_r. apply Nat.eqb_sym.
Qed.
Print Assumptions C100_undescribed.
Example C100_undescribed_ex : cdesc (Cls 2 false false false [base0] []) = false /\ isa (Cls 2 false false false [base0] []) (Cls 2 false false false [base0] []) base0 base0 = false.
Proof. now vm_compute. Qed.

(** A base with virtual functions is never recognised: [typeid] in isa_base.h 42 gives the class of the
    whole object for it, so an object of the base itself is reported as unrelated. *)
Theorem C100_virtual : forall m c b, named c -> derives m c -> poly b = true -> cid b <> cid m ->
  (forall x, derives m x -> cid x = cid b -> x = b) -> isa m c b b = false.
Proof.
  intros m c b N D P NE U. destruct (isa m c b b) eqn:E; [|reflexivity]. exfalso. unfold isa in E. apply existsb_exists in E as (t & I1 & E). apply Nat.eqb_eq in E. subst t.
  apply (C100_set m c _ N) in I1. unfold typeid in I1. rewrite P in I1. destruct I1 as [[E _]|(x & Sx & Px & E)]; [congruence|].
  rewrite (U x) in Px; [congruence| |exact E]. eapply derives_trans; [exact D|]. now apply seen_derives.
Qed.
Print Assumptions C100_virtual.
Definition foo1 := Cls 1 true true false [] [].
Definition foo2 := Cls 2 true true false [] [].
Definition foo3 := Cls 3 false true false [foo1] [].
Definition foo4 := Cls 4 false true false [foo2] [].
Lemma foo3_inv x : derives foo3 x -> x = foo3 \/ x = foo1.
Proof. intro H. inversion H as [|c b y I1 D1]; subst; auto. destruct I1 as [<-|[]]. inversion D1 as [|c b y I2 D2]; subst; auto. destruct I2. Qed.
Example C100_virtual_ex : named foo3 /\ derives foo3 foo3 /\ poly foo1 = true /\ cid foo1 <> cid foo3
  /\ (forall x, derives foo3 x -> cid x = cid foo1 -> x = foo1).
Proof.
  split; [cbn; auto|]. split; [constructor|]. split; [reflexivity|]. split; [discriminate|].
  intros x H E. apply foo3_inv in H as [->| ->]; [discriminate|reflexivity].
Qed.
(** So [isa] does not decide derivation. *)
Theorem C100_refuted : exists x b, named x /\ derives x b /\ isa x x b b = false.
Proof. exists foo3, foo1. split; [cbn; auto|]. split; [|vm_compute; reflexivity]. econstructor; [left; reflexivity|constructor]. Qed.
Print Assumptions C100_refuted.
(** The program test/test_isa.cc returns the conjunction of its four answers as its exit status; a
    correct [isa] makes that 1, the status of a failure, this one makes it 0. *)
Theorem C100_test_refuted : exists x y b1 b2, derives x b1 /\ derives y b2
  /\ (isa x x b1 b1 && negb (isa x x b2 b2) && negb (isa y y b1 b1) && isa y y b2 b2)%bool = false
  /\ isa x x b1 b1 = false /\ isa y y b2 b2 = false.
Proof.
  exists foo3, foo4, foo1, foo2. repeat split; try (econstructor; [left; reflexivity|constructor]); vm_compute; reflexivity.
Qed.
Print Assumptions C100_test_refuted.

(** ** C101 *)
(** An object is cloned as the nearest of its bases that is wrapped by [Poly]... *)
Theorem C101_clone : forall m k, clone_class m = Some k -> derives m k /\ cclon k = true.
Proof.
  induction m as [i v e k b ms IH] using cls_ind'. intros o H. cbn [clone_class] in H. destruct k; [injection H as <-; split; [constructor|reflexivity]|].
  destruct (flat_map _ b) as [|o1 [|o2 l]] eqn:E; try discriminate. injection H as <-.
  assert (I1 : In o1 (flat_map (fun c => match clone_class c with Some o => [o] | None => [] end) b)) by (rewrite E; now left).
  apply in_flat_map in I1 as (x & I1 & I2). destruct (clone_class x) as [y|] eqn:C; [|destruct I2]. destruct I2 as [<-|[]].
  rewrite Forall_forall in IH. destruct (IH x I1 y C) as [D K]. split; [|exact K]. econstructor; [exact I1|exact D].
Qed.
Print Assumptions C101_clone.
(** ...so the clone has the object's own class exactly if that class is. *)
Theorem C101_same : forall m, clone_class m = Some m <-> cclon m = true.
Proof.
  intros m. split; [intro H; apply (C101_clone m m H)|]. destruct m as [i v e k b ms]. cbn [cclon clone_class]. now intros ->.
Qed.
Print Assumptions C101_same.
Definition cbase := Cls 1 true true false [] [].
Definition cmid := Cls 2 false true true [cbase] [].
Definition cleaf := Cls 3 false true false [cmid] [].
Example C101_clone_ex : clone_class cleaf = Some cmid /\ cclon cmid = true.
Proof. now vm_compute. Qed.
(** Deriving further without [Poly] loses the class of the object in its clones. *)
Theorem C101_refuted : exists m k, clone_class m = Some k /\ cid k <> cid m.
Proof. exists cleaf, cmid. split; [reflexivity|discriminate]. Qed.
Print Assumptions C101_refuted.

Lemma has_base_spec u : forall c, has_base u c = true <-> exists x, derives c x /\ cid x = u.
Proof.
  induction c as [i v e k b ms IH] using cls_ind'. cbn [has_base]. rewrite orb_true_iff, Nat.eqb_eq, existsb_exists. rewrite Forall_forall in IH. split.
  - intros [H|(x & I1 & H)]; [eexists; split; [constructor|exact H]|]. apply (IH x I1) in H as (y & D & E). exists y. split; [|exact E]. econstructor; [exact I1|exact D].
  - intros (x & D & E). inversion D as [|c' b' x' I1 D1]; subst; [now left|]. right. exists b'. split; [exact I1|]. apply (IH b' I1). eauto.
Qed.
Lemma fresh_above h : forall a, In a (map fst h) -> (a < fresh h)%nat.
Proof.
  unfold fresh. induction h as [|p h IH]; intros a H; [destruct H|]. cbn [map fold_right] in *. destruct H as [<-|H]; [lia|]. specialize (IH a H). lia.
Qed.
Lemma delete_none a h : ~ In a (map fst h) -> delete a h = h.
Proof.
  induction h as [|p h IH]; intro H; [reflexivity|]. cbn [delete filter map In] in *. destruct (Nat.eqb_spec (fst p) a); [tauto|]. cbn [negb]. f_equal. apply IH. tauto.
Qed.
(** [cloneT<U>] hands out a new object of the clone's class if that is derived from [U]... *)
Theorem C101_cloneT : forall u m h k x, clone_class m = Some k -> derives k x -> cid x = u ->
  exists a, ~ In a (map fst h) /\ cloneT u m h = Some (Some a, (a, k) :: h).
Proof.
  intros u m h k x C D E. exists (fresh h). split; [intro H; apply fresh_above in H; lia|]. unfold cloneT. rewrite C.
  replace (has_base u k) with true by (symmetry; apply has_base_spec; eauto). reflexivity.
Qed.
Print Assumptions C101_cloneT.
Example C101_cloneT_ex : clone_class cmid = Some cmid /\ derives cmid cbase /\ cid cbase = 1%nat.
Proof. repeat split. econstructor; [left; reflexivity|constructor]. Qed.
(** ...and otherwise returns a null pointer and leaves nothing behind. *)
Theorem C101_cloneT_null : forall u m h k, clone_class m = Some k -> (forall x, derives k x -> cid x <> u) ->
  cloneT u m h = Some (None, h).
Proof.
  intros u m h k C N. unfold cloneT. rewrite C. destruct (has_base u k) eqn:E.
  - apply has_base_spec in E as (x & D & E). now destruct (N x D).
  - f_equal. f_equal. unfold delete. cbn [filter fst]. rewrite Nat.eqb_refl. cbn [negb].
    apply delete_none. intro H. apply fresh_above in H. lia.
Qed.
Print Assumptions C101_cloneT_null.
Lemma cmid_inv x : derives cmid x -> x = cmid \/ x = cbase.
Proof. intro H. inversion H as [|c b y I1 D1]; subst; auto. destruct I1 as [<-|[]]. inversion D1 as [|c b y I2 D2]; subst; auto. destruct I2. Qed.
Example C101_cloneT_null_ex : clone_class cmid = Some cmid /\ (forall x, derives cmid x -> cid x <> 3%nat).
Proof. split; [reflexivity|]. intros x H. apply cmid_inv in H as [->| ->]; discriminate. Qed.

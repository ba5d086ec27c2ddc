(** * C35: MultiArray addressing *)
From Verif Require Import Base Base_Proofs MArr_Model.
Ltac Zify.zify_post_hook ::= Z.div_mod_to_equations.

(** ** Specification: the mixed radix number of an index, innermost first *)
Fixpoint radix (ds is : list N) : N :=
  match ds, is with d :: ds', i :: is' => (i + d * radix ds' is')%N | _, _ => 0%N end.
Definition inside (ds is : list N) : Prop := Forall2 (fun d i => (i < d)%N) ds is.

Lemma prod_cons : forall d l, prod (d :: l) = (d * prod l)%N. Proof. reflexivity. Qed.
Lemma prod_nil : prod [] = 1%N. Proof. reflexivity. Qed.
Lemma inside_len : forall ds is, inside ds is -> length ds = length is.
Proof. intros ds is H. induction H; cbn; congruence. Qed.
Lemma radix_lt : forall ds is, inside ds is -> (radix ds is < prod ds)%N.
Proof.
  intros ds is H. induction H as [|d i ds is H1 H2 IH]; [vm_compute; reflexivity|]. rewrite prod_cons. cbn [radix].
  assert (d * (radix ds is + 1) <= d * prod ds)%N by (apply N.mul_le_mono_l; lia). lia.
Qed.
Lemma radix_inj : forall ds is js, inside ds is -> inside ds js -> radix ds is = radix ds js -> is = js.
Proof.
  intros ds is js H. revert js. induction H as [|d i ds is H1 H2 IH]; intros js HJ E; inversion HJ; subst; [reflexivity|].
  cbn in E. assert (i = y /\ radix ds is = radix ds l') as [-> E2].
  { assert (E' : (d * radix ds is + i = d * radix ds l' + y)%N) by lia.
    apply N.div_mod_unique in E' as [A B]; auto. }
  f_equal. now apply IH.
Qed.
Lemma radix_onto : forall ds n, (n < prod ds)%N -> exists is, inside ds is /\ radix ds is = n.
Proof.
  induction ds as [|d ds IH]; intros n H; rewrite ?prod_cons, ?prod_nil in H.
  - exists []. split; [constructor|]. cbn. lia.
  - assert (D : d <> 0%N) by (intros ->; lia).
    destruct (IH (n / d)%N) as (is & I1 & I2).
    { apply N.div_lt_upper_bound; [exact D|exact H]. }
    exists (n mod d :: is)%N. split; [constructor; [now apply N.mod_lt|exact I1]|].
    cbn. rewrite I2. pose proof (N.div_mod n d D). lia.
Qed.

(** ** What the code computes *)
Lemma fold_left_mul : forall l s, fold_left N.mul l s = (s * prod l)%N.
Proof. induction l as [|d l IH]; intros s; cbn [fold_left]; [rewrite prod_nil; lia|]. rewrite IH, prod_cons. lia. Qed.
Lemma prod_app : forall a b, prod (a ++ b) = (prod a * prod b)%N.
Proof. induction a as [|d a IH]; intros b; cbn [app]; rewrite ?prod_nil, ?prod_cons; [lia|]. rewrite IH. lia. Qed.
Lemma stride11_snoc : forall l d s, stride11 (l ++ [d]) s = (s * prod l)%N.
Proof.
  induction l as [|x l IH]; intros d s; [rewrite prod_nil; cbn; lia|].
  change (stride11 ((x :: l) ++ [d]) s) with (match l ++ [d] with [] => s | _ => stride11 (l ++ [d]) (s * x)%N end).
  destruct (l ++ [d]) eqn:E; [now destruct l|]. rewrite <- E, IH, prod_cons. lia.
Qed.
(** the two versions of constructDims agree, except that the C++17 one divides by zero if
    the last dimension is 0 *)
Theorem C35_construct : forall l d, (d <> 0)%N -> construct17 (l ++ [d]) = Some (construct11 (l ++ [d])).
Proof.
  intros l d H. unfold construct17, construct11. rewrite last_last.
  destruct (l ++ [d]) eqn:E; [now destruct l|]. rewrite <- E. destruct (N.eqb_spec d 0); [contradiction|].
  rewrite fold_left_mul, stride11_snoc, prod_app, prod_cons, prod_nil. do 2 f_equal.
  replace (1 * (prod l * (d * 1)))%N with (prod l * d)%N by lia. rewrite N.div_mul by exact H. lia.
Qed.
Example C35_construct_ex : construct17 [2;3;4]%N = Some {| off := 0; dims := [2;3;4]%N; str := 6 |}. Proof. reflexivity. Qed.
Print Assumptions C35_construct.
Theorem C35_construct_refuted : exists l, construct17 l = None /\ construct11 l = {| off := 0; dims := l; str := 3 |}.
Proof. exists [3;0]%N. split; reflexivity. Qed.
Print Assumptions C35_construct_refuted.

(** the offset of an element of the array built by the constructors *)
Definition sum (l : list N) : N := fold_right N.add 0%N l.
Lemma sum_cons : forall d l, sum (d :: l) = (d + sum l)%N. Proof. reflexivity. Qed.
Lemma addr_sub : forall is a, is <> [] -> rank a = length is -> str a = 1%N -> addr a is = Some (off a + sum is)%N.
Proof.
  induction is as [|i is IH]; intros a NE R S; [congruence|]. destruct is as [|j is].
  - cbn [addr length] in *. rewrite R, sum_cons. cbn. f_equal. lia.
  - change (addr a (i :: j :: is)) with (if (2 <=? rank a)%nat then addr (index a i) (j :: is) else None).
    rewrite R. cbn [length Nat.leb]. rewrite IH; [|discriminate| |reflexivity].
    + rewrite !sum_cons. cbn [index off]. rewrite S. f_equal. lia.
    + unfold rank in *. cbn [index dims]. destruct (dims a) as [|x l] eqn:E using rev_ind; [discriminate|].
      rewrite removelast_last. rewrite app_length in R. cbn [length] in *. lia.
Qed.
Lemma addr_top : forall l d i is, length l = length is -> l <> [] ->
  addr (construct11 (l ++ [d])) (i :: is) = Some (i * prod l + sum is)%N.
Proof.
  intros l d i is L NE. destruct is as [|j is]; [destruct l; [congruence|discriminate]|].
  change (addr (construct11 (l ++ [d])) (i :: j :: is)) with
    (if (2 <=? rank (construct11 (l ++ [d])))%nat then addr (index (construct11 (l ++ [d])) i) (j :: is) else None).
  unfold rank. cbn [construct11 dims]. rewrite app_length, L. cbn [length].
  replace (2 <=? S (length is) + 1)%nat with true by (symmetry; apply Nat.leb_le; lia).
  rewrite addr_sub; [|discriminate| |reflexivity].
  - cbn [index construct11 off str]. rewrite stride11_snoc. f_equal. lia.
  - unfold rank. cbn [index construct11 dims]. rewrite removelast_last. exact L.
Qed.

(** Rank 1 and 2: the offset is the mixed radix number, hence a bijection between the
    indices and the elements of the array. *)
Theorem C35_bijection_partial : forall l, (length l = 1 \/ length l = 2)%nat ->
  (forall is, inside l is -> exists n, addr (construct11 l) (rev is) = Some n /\ (n < prod l)%N) /\
  (forall is js n, inside l is -> inside l js ->
     addr (construct11 l) (rev is) = Some n -> addr (construct11 l) (rev js) = Some n -> is = js) /\
  (forall n, (n < prod l)%N -> exists is, inside l is /\ addr (construct11 l) (rev is) = Some n).
Proof.
  intros l L.
  assert (A : forall is, inside l is -> addr (construct11 l) (rev is) = Some (radix l is)).
  { intros is H. pose proof (inside_len _ _ H) as Q. destruct L as [L|L].
    - destruct l as [|d [|? ?]]; try discriminate. destruct is as [|i [|? ?]]; try discriminate. cbn. f_equal. lia.
    - destruct l as [|d [|d' [|? ?]]]; try discriminate. destruct is as [|i [|i' [|? ?]]]; try discriminate.
      cbn [rev app]. change [d; d'] with ([d] ++ [d']). rewrite addr_top by (reflexivity || discriminate). cbn. f_equal. lia. }
  split; [|split].
  - intros is H. exists (radix l is). split; [now apply A|now apply radix_lt].
  - intros is js n H1 H2 E1 E2. rewrite A in E1, E2 by assumption. apply (radix_inj l); auto; congruence.
  - intros n H. destruct (radix_onto l n H) as (is & I1 & I2). exists is. split; [exact I1|]. rewrite A by exact I1. now rewrite I2.
Qed.
Example C35_bijection_ex : inside [3;4]%N [2;1]%N /\ addr (construct11 [3;4]%N) (rev [2;1]%N) = Some 5%N.
Proof. split; [repeat constructor; lia|reflexivity]. Qed.
Print Assumptions C35_bijection_partial.

(** Every rank: the offset stays inside the array ... *)
Lemma sum_prod : forall ds is, inside ds is -> (sum is + 1 <= prod ds)%N.
Proof.
  intros ds is H. induction H as [|d i ds is H1 H2 IH]; [vm_compute; discriminate|]. rewrite sum_cons, prod_cons.
  assert ((i + 1) * prod ds <= d * prod ds)%N by (apply N.mul_le_mono_r; lia).
  assert (i * 1 <= i * prod ds)%N by (apply N.mul_le_mono_l; lia). lia.
Qed.
Lemma sum_rev : forall l, sum (rev l) = sum l.
Proof.
  assert (A : forall a b, sum (a ++ b) = (sum a + sum b)%N) by (induction a as [|x a IH]; intros b; cbn [app]; [cbn; lia|rewrite !sum_cons, IH; lia]).
  induction l as [|x l IH]; [reflexivity|]. cbn [rev]. rewrite A, IH, !sum_cons. cbn. lia.
Qed.
Theorem C35_in_bounds : forall l is, l <> [] -> inside l is ->
  exists n, addr (construct11 l) (rev is) = Some n /\ (n < prod l)%N.
Proof.
  intros l is NE H. destruct (exists_last NE) as (ds & d & ->).
  apply Forall2_app_inv_l in H as (is1 & is2 & H1 & H2 & ->). inversion H2; subst. inversion H5; subst. clear H5 H2.
  rewrite rev_app_distr. cbn [rev app]. pose proof (inside_len _ _ H1) as L.
  destruct ds as [|x ds].
  - inversion H1; subst. exists y. split; [reflexivity|]. cbn. lia.
  - rewrite addr_top by (rewrite ?rev_length; auto; discriminate). eexists. split; [reflexivity|].
    rewrite sum_rev, prod_app. pose proof (sum_prod _ _ H1). set (p := prod (x :: ds)) in *. clearbody p. rewrite prod_cons, prod_nil.
    assert ((y + 1) * p <= d * p)%N by (apply N.mul_le_mono_r; lia). lia.
Qed.
Example C35_in_bounds_ex : inside [2;2;2]%N [1;1;1]%N. Proof. repeat constructor. Qed.
Print Assumptions C35_in_bounds.
(** ... but from rank 3 on, whenever two inner dimensions exceed 1, different indices
    give the same element (sub-arrays have stride 1) *)
Theorem C35_collision : forall d0 d1 ds d, (2 <= d0)%N -> (2 <= d1)%N -> (1 <= d)%N -> Forall (fun x => 1 <= x)%N ds ->
  exists is js n, is <> js /\ inside (d0 :: d1 :: ds ++ [d]) is /\ inside (d0 :: d1 :: ds ++ [d]) js /\
    addr (construct11 (d0 :: d1 :: ds ++ [d])) (rev is) = Some n /\
    addr (construct11 (d0 :: d1 :: ds ++ [d])) (rev js) = Some n.
Proof.
  intros d0 d1 ds d H0 H1 Hd Hs. set (z := map (fun _ => 0%N) ds).
  assert (Z : inside ds z) by (unfold z; clear - Hs; induction Hs; constructor; auto; lia).
  assert (A : forall a b, addr (construct11 (d0 :: d1 :: ds ++ [d])) (rev (a :: b :: z ++ [0%N])) = Some (0 * prod (d0 :: d1 :: ds) + sum (a :: b :: z))%N).
  { intros a b. change (d0 :: d1 :: ds ++ [d]) with ((d0 :: d1 :: ds) ++ [d]). change (a :: b :: z ++ [0%N]) with ((a :: b :: z) ++ [0%N]).
    rewrite rev_app_distr. change (rev [0%N] ++ rev (a :: b :: z)) with (0%N :: rev (a :: b :: z)). rewrite addr_top; [|rewrite rev_length; cbn; unfold z; now rewrite map_length|discriminate].
    now rewrite sum_rev. }
  exists (1%N :: 0%N :: z ++ [0%N]), (0%N :: 1%N :: z ++ [0%N]), (0 * prod (d0 :: d1 :: ds) + sum (1%N :: 0%N :: z))%N.
  split; [discriminate|]. 
  assert (I : forall a b, (a < d0)%N -> (b < d1)%N -> inside (d0 :: d1 :: ds ++ [d]) (a :: b :: z ++ [0%N])).
  { intros a b Ha Hb. constructor; [exact Ha|]. constructor; [exact Hb|]. apply Forall2_app; [exact Z|]. constructor; [lia|constructor]. }
  split; [apply I; lia|]. split; [apply I; lia|]. split; [apply A|]. rewrite A, !sum_cons. reflexivity.
Qed.
Print Assumptions C35_collision.
Theorem C35_bijection_refuted : exists l is js n, is <> js /\ inside l is /\ inside l js /\
  addr (construct11 l) (rev is) = Some n /\ addr (construct11 l) (rev js) = Some n.
Proof.
  exists [2;2;2]%N, [1;0;0]%N, [0;1;0]%N, 1%N. split; [discriminate|]. split; [repeat constructor|].
  split; [repeat constructor|]. split; reflexivity.
Qed.
Print Assumptions C35_bijection_refuted.

(** ** Iterators *)
Lemma visit_from : forall a k n, (str a <> 0)%N -> N.of_nat k = (size a - n)%N -> (n <= size a)%N ->
  visit k (it_add (it_begin a) n) (it_end a) = Some (map (fun i => index a (n + N.of_nat i)%N) (seq 0 k)).
Proof.
  intros a k. induction k as [|k IH]; intros n S K L.
  - assert (E : n = size a) by lia. cbn [visit seq map].
    replace (it_eq (it_add (it_begin a) n) (it_end a)) with true; [reflexivity|].
    symmetry. apply N.eqb_eq. cbn. rewrite E. reflexivity.
  - cbn [visit seq map]. replace (it_eq (it_add (it_begin a) n) (it_end a)) with false.
    + replace (it_add (it_add (it_begin a) n) 1) with (it_add (it_begin a) (n + 1)) by (unfold it_add; cbn; do 2 f_equal; lia).
      rewrite IH by (auto; lia). do 2 f_equal.
      * unfold index. cbn. f_equal. lia.
      * rewrite <- seq_shift, map_map. apply map_ext. intros i. f_equal. lia.
    + symmetry. apply N.eqb_neq. cbn. intros C. apply N.add_cancel_l in C.
      apply N.mul_cancel_r in C; [|exact S]. lia.
Qed.
(** iterating visits exactly the sub-arrays a[0], ..., a[size-1], in order *)
Theorem C35_iteration : forall a, (str a <> 0)%N ->
  visit (N.to_nat (size a)) (it_begin a) (it_end a) = Some (map (fun i => index a (N.of_nat i)) (seq 0 (N.to_nat (size a)))).
Proof.
  intros a S. pose proof (visit_from a (N.to_nat (size a)) 0%N S) as H.
  replace (it_add (it_begin a) 0) with (it_begin a) in H by (unfold it_add, it_begin; cbn; do 2 f_equal; lia).
  rewrite H by lia. reflexivity.
Qed.
Example C35_iteration_ex : option_map (map off) (visit 3 (it_begin (construct11 [4;3]%N)) (it_end (construct11 [4;3]%N))) = Some [0;4;8]%N.
Proof. reflexivity. Qed.
Print Assumptions C35_iteration.
(** an inner dimension of 0 gives stride 0 and an iteration that is over at once, although
    size() is not 0 *)
Theorem C35_empty_inner : forall a, str a = 0%N -> visit 0 (it_begin a) (it_end a) = Some [].
Proof. intros a S. cbn. unfold it_eq. cbn. rewrite S. replace (off a + size a * 0)%N with (off a) by lia. now rewrite N.eqb_refl. Qed.
Example C35_empty_inner_ex : str (construct11 [0;3]%N) = 0%N /\ size (construct11 [0;3]%N) = 3%N. Proof. split; reflexivity. Qed.
Print Assumptions C35_empty_inner.

(** * The Java classes written for C++ objects (C99) *)
From Verif Require Import Base Base_Proofs Dec Desc_Model Java_Model Java_Props JavaSig_Model JavaSig_Props Jni_Model.

(** ** what the entries of a constant pool mean (Java virtual machine specification 4.4) *)
Definition entry (c : class_file) (i : N) : option cp_info := nth_error (constant_pool c) (N.to_nat i).
Definition utf8 (c : class_file) (i : N) (s : list ascii) : Prop := entry c i = Some (Cp 1 (PStr s)).
Definition class_named (c : class_file) (i : N) (s : list ascii) : Prop :=
  exists j, entry c i = Some (Cp 7 (PU2 j)) /\ utf8 c j s.
Definition name_and_type (c : class_file) (i : N) (n d : list ascii) : Prop :=
  exists a b, entry c i = Some (Cp 12 (PNT a b)) /\ utf8 c a n /\ utf8 c b d.
Definition method_ref (c : class_file) (i : N) (cls n d : list ascii) : Prop :=
  exists a b, entry c i = Some (Cp 10 (PRef a b)) /\ class_named c a cls /\ name_and_type c b n d.

(** ** the class in one piece *)
Definition U (nd : list ascii * list ascii) : list cp_info := [Cp 1 (PStr (fst nd)); Cp 1 (PStr (snd nd))].
Fixpoint meths (n : N) (l : list (list ascii * list ascii)) : list member_info :=
  match l with [] => [] | _ :: l' => Mi 0 (to_u2 n) (to_u2 (n + 1)) [] :: meths (n + 2) l' end.
Lemma add_methods_eq : forall l c, fold_left (fun c nd => add_method (fst nd) (snd nd) c) l c =
  Cf (magic c) (minor_version c) (major_version c) (constant_pool c ++ flat_map U l) (cflags c) (this_class c) (super_class c)
     (interfaces c) (fields c) (methods c ++ meths (len (constant_pool c)) l) (attributes c).
Proof.
  induction l as [|nd l IH]; intro c.
  - cbn. rewrite !app_nil_r. now destruct c.
  - cbn [fold_left flat_map meths]. rewrite IH. unfold add_method. cbn [magic minor_version major_version constant_pool cflags this_class super_class interfaces fields methods attributes].
    rewrite !len_app, !len_cons, !len_nil, <- !app_assoc. unfold U. cbn [app]. do 2 f_equal.
    replace (len (constant_pool c) + (1 + 0) + (1 + 0))%N with (len (constant_pool c) + 2)%N by lia. reflexivity.
Qed.
Lemma to_u2_small n : (n < 2 ^ 16)%N -> to_u2 n = n.
Proof. intro H. unfold to_u2. now apply N.mod_small. Qed.
Lemma on_last_app {A} (f : A -> A) l x : on_last f (l ++ [x]) = l ++ [f x].
Proof. unfold on_last. rewrite rev_app_distr. cbn. now rewrite rev_involutive. Qed.
Lemma meths_app n l1 : forall l2, meths n (l1 ++ l2) = meths n l1 ++ meths (n + 2 * len l1) l2.
Proof.
  revert n. induction l1 as [|x l1 IH]; intros n l2; cbn [meths app].
  - rewrite len_nil. do 2 f_equal. lia.
  - rewrite IH, len_cons. cbn. do 3 f_equal. lia.
Qed.
Definition native (m : member_info) : member_info := Mi 257 (name_index m) (descriptor_index m) (mattributes m).
Definition auto : list ascii * list ascii := (bs "auto", bs "()V").
Definition ctor : list ascii * list ascii := (bs "<init>", bs "()V").
Lemma len_flat ms : len (flat_map U ms) = (2 * len ms)%N.
Proof. induction ms as [|m ms IH]; [reflexivity|]. cbn [flat_map]. rewrite len_app, IH, len_cons. unfold U. rewrite !len_cons, len_nil. lia. Qed.
Definition cf0 (p : list cp_info) (f t s : N) (ms : list member_info) : class_file := Cf 3405691582 0 50 p f t s [] [] ms [].
Lemma e_add n d p f t s ms : add_method n d (cf0 p f t s ms) = cf0 (p ++ U (n, d)) f t s (ms ++ [Mi 0 (to_u2 (len p)) (to_u2 (len p + 1)) []]).
Proof. unfold add_method, cf0. cbn [magic minor_version major_version constant_pool cflags this_class super_class interfaces fields methods attributes]. now rewrite <- app_assoc, len_app. Qed.
Lemma e_fold p f t s ms l : fold_left (fun c nd => add_method (fst nd) (snd nd) c) l (cf0 p f t s ms) = cf0 (p ++ flat_map U l) f t s (ms ++ meths (len p) l).
Proof. now rewrite add_methods_eq. Qed.
Lemma e_super p f t s ms : add_super (cf0 p f t s ms) = cf0 (p ++ [Cp 7 (PU2 (to_u2 (len p + 1))); Cp 1 (PStr (bs "CppObject"))]) f t (to_u2 (len p)) ms.
Proof. unfold add_super, push_class, push, set_super, set_pool, next, cf0. cbn [magic minor_version major_version constant_pool cflags this_class super_class interfaces fields methods attributes]. now rewrite <- app_assoc. Qed.
Lemma e_this n p f t s ms : add_this n (cf0 p f t s ms) = cf0 (p ++ [Cp 7 (PU2 (to_u2 (len p + 1))); Cp 1 (PStr n)]) f (to_u2 (len p)) s ms.
Proof. unfold add_this, push_class, push, set_this, set_pool, next, cf0. cbn [magic minor_version major_version constant_pool cflags this_class super_class interfaces fields methods attributes]. now rewrite <- app_assoc. Qed.
Lemma e_native p f t s ms : make_native (cf0 p f t s ms) = cf0 p 1 t s (map native ms).
Proof. reflexivity. Qed.
Lemma e_ctor p f t s ms : add_ctor (cf0 p f t s ms) = cf0 (p ++ U ctor) f t s (ms ++ [Mi 1 (to_u2 (len p)) (to_u2 (len p + 1)) []]).
Proof. unfold add_ctor. cbv zeta. rewrite e_add. unfold set_methods, cf0. cbn [magic minor_version major_version constant_pool cflags this_class super_class interfaces fields methods attributes]. now rewrite on_last_app. Qed.
Lemma e_ref a b p f t s ms : add_ctor_ref (cf0 (a :: b :: p) f t s ms) =
  cf0 (a :: Cp 10 (PRef s (to_u2 (len p + 2))) :: p ++ [Cp 12 (PNT (to_u2 (len p)) (to_u2 (len p + 1)))]) f t s ms.
Proof.
  unfold add_ctor_ref. cbv zeta. unfold push, set_pool, next, cf0. cbn [magic minor_version major_version constant_pool cflags this_class super_class interfaces fields methods attributes].
  rewrite !len_app, !len_cons, len_nil. cbn [app set_nth1]. f_equal.
  replace (1 + (1 + len p) + (1 + 0) - 1)%N with (len p + 2)%N by lia. replace (1 + (1 + len p) - 2)%N with (len p) by lia.
  replace (1 + (1 + len p) - 1)%N with (len p + 1)%N by lia. reflexivity.
Qed.
Lemma e_code p f t s ms g a b : add_code (cf0 p f t s (ms ++ [Mi g a b []])) = cf0 (p ++ [Cp 1 (PStr (bs "Code"))]) f t s (ms ++ [Mi g a b [At (to_u2 (len p)) code]]).
Proof. unfold add_code. cbv zeta. unfold push, set_pool, set_methods, next, cf0. cbn [magic minor_version major_version constant_pool cflags this_class super_class interfaces fields methods attributes]. now rewrite on_last_app. Qed.
Lemma len_U nd : len (U nd) = 2%N.
Proof. reflexivity. Qed.
Lemma write_class_eq name ms : (2 * len ms + 12 <= 2 ^ 16)%N -> let k := (2 * len ms)%N in
  write_class name ms = Cf 3405691582 0 50
    ([cp0; Cp 10 (PRef (k + 4) (k + 10))] ++ flat_map U (ms ++ [auto])
      ++ [Cp 7 (PU2 (k + 5)); Cp 1 (PStr (bs "CppObject")); Cp 7 (PU2 (k + 7)); Cp 1 (PStr name)]
      ++ U ctor ++ [Cp 12 (PNT (k + 8) (k + 9)); Cp 1 (PStr (bs "Code"))])
    1 (k + 6) (k + 4) [] []
    (map native (meths 2 (ms ++ [auto])) ++ [Mi 1 (k + 8) (k + 9) [At (k + 11) code]]) [].
Proof.
  intros H k. unfold write_class.
  change (push cp0 class0) with (cf0 [cp0; cp0] 0 0 0 []). rewrite e_fold, e_add, e_super, e_this, e_native, e_ctor.
  cbn [app]. rewrite e_ref, e_code. unfold cf0.
  repeat (rewrite ?len_app, ?len_cons, ?len_nil, ?len_U, ?len_flat). fold k.
  repeat match goal with |- context [to_u2 ?n] => rewrite (to_u2_small n) by (subst k; lia) end.
  rewrite flat_map_app, <- !app_assoc, meths_app, !map_app. cbn [flat_map meths map app native name_index descriptor_index mattributes].
  repeat match goal with |- context [to_u2 ?n] => rewrite (to_u2_small n) by (subst k; lia) end. fold k.
  repeat (rewrite <- ?app_assoc; progress cbn [app]). rewrite <- ?app_assoc.
  f_equal; repeat first [reflexivity | lia | progress f_equal].
Qed.

Lemma names_flat : forall ms pre post c n f, constant_pool c = pre ++ flat_map U ms ++ post -> len pre = n -> (n + 2 * len ms <= 2 ^ 16)%N ->
  (forall m, name_index (f m) = name_index m /\ descriptor_index (f m) = descriptor_index m) ->
  map (names c) (map f (meths n ms)) = map Some ms.
Proof.
  induction ms as [|nd ms IH]; intros pre post c n f E L B F; [reflexivity|]. cbn [meths map]. rewrite len_cons in B. f_equal.
  - unfold names. destruct (F (Mi 0 (to_u2 n) (to_u2 (n + 1)) [])) as [-> ->]. cbn [name_index descriptor_index]. rewrite !to_u2_small by lia.
    rewrite E. cbn [flat_map]. unfold U. cbn [app].
    replace (N.to_nat n) with (length pre) by (unfold len in L; lia). replace (N.to_nat (n + 1)) with (S (length pre)) by (unfold len in L; lia).
    rewrite nth_error_app2, Nat.sub_diag by lia. rewrite nth_error_app2 by lia. replace (S (length pre) - length pre)%nat with 1%nat by lia.
    cbn. now destruct nd.
  - apply (IH (pre ++ U nd) post); auto.
    + rewrite E. cbn [flat_map]. now rewrite <- !app_assoc.
    + rewrite len_app, len_U. lia.
    + lia.
Qed.
Lemma entry_at c p e q i : constant_pool c = p ++ e :: q -> len p = i -> entry c i = Some e.
Proof.
  intros E L. unfold entry. rewrite E. replace (N.to_nat i) with (length p) by (unfold len in L; lia). now rewrite nth_error_app2, Nat.sub_diag by lia.
Qed.
Lemma flags_native n l : Forall (fun m => access_flags m = 257%N /\ mattributes m = []) (map native (meths n l)).
Proof. revert n. induction l as [|x l IH]; intro n; constructor; auto. Qed.

(** ** C99: the class written is complete *)
(** The class has the name of the object and extends CppObject; its methods are the ones added, [auto],
    and the constructor; all but the constructor are native, and the constructor alone has code.  The code
    is: load this, call the constructor of CppObject, return. *)
Theorem C99_class : forall name ms, (2 * len ms + 12 <= 2 ^ 16)%N -> let c := write_class name ms in
  class_named c (this_class c) name /\ class_named c (super_class c) (bs "CppObject") /\ cflags c = 1%N
  /\ map (names c) (methods c) = map Some (ms ++ [(bs "auto", bs "()V"); (bs "<init>", bs "()V")])
  /\ Forall (fun m => access_flags m = 257%N /\ mattributes m = []) (removelast (methods c))
  /\ exists m a stack locals ref rest, last (methods c) (Mi 0 0 0 []) = m /\ access_flags m = 1%N /\ mattributes m = [a]
     /\ utf8 c (attribute_name_index a) (bs "Code")
     /\ ainfo a = put_be 2 stack ++ put_be 2 locals ++ put_be 4 5 ++ map ascii_of_N [42; 183]%N ++ put_be 2 ref ++ map ascii_of_N [177]%N ++ rest
     /\ (1 <= stack)%N /\ (1 <= locals)%N
     /\ method_ref c ref (bs "CppObject") (bs "<init>") (bs "()V").
Proof.
  intros name ms H c. pose proof (write_class_eq name ms H) as E. cbv zeta in E. fold c in E.
  set (k := (2 * len ms)%N) in *. assert (LK : len (flat_map U (ms ++ [auto])) = (k + 2)%N) by (rewrite len_flat, len_app, len_cons, len_nil; subst k; lia).
  assert (P : constant_pool c = [cp0; Cp 10 (PRef (k + 4) (k + 10))] ++ flat_map U (ms ++ [auto])
      ++ [Cp 7 (PU2 (k + 5)); Cp 1 (PStr (bs "CppObject")); Cp 7 (PU2 (k + 7)); Cp 1 (PStr name)]
      ++ U ctor ++ [Cp 12 (PNT (k + 8) (k + 9)); Cp 1 (PStr (bs "Code"))]) by now rewrite E.
  set (F := flat_map U (ms ++ [auto])) in *.
  assert (En : forall j e q1 q2, [Cp 7 (PU2 (k + 5)); Cp 1 (PStr (bs "CppObject")); Cp 7 (PU2 (k + 7)); Cp 1 (PStr name)]
      ++ U ctor ++ [Cp 12 (PNT (k + 8) (k + 9)); Cp 1 (PStr (bs "Code"))] = q1 ++ e :: q2 -> len q1 = j -> entry c (k + 4 + j) = Some e).
  { intros j e q1 q2 Q L. apply (entry_at c ([cp0; Cp 10 (PRef (k + 4) (k + 10))] ++ F ++ q1) e q2).
    - rewrite P, Q. now rewrite <- !app_assoc.
    - rewrite !len_app, LK, L, !len_cons, len_nil. lia. }
  assert (E4 : entry c (k + 4) = Some (Cp 7 (PU2 (k + 5)))) by (replace (k + 4)%N with (k + 4 + 0)%N by lia; eapply (En 0%N _ []); reflexivity).
  assert (E5 : entry c (k + 5) = Some (Cp 1 (PStr (bs "CppObject")))) by (replace (k + 5)%N with (k + 4 + 1)%N by lia; eapply (En 1%N _ [_]); reflexivity).
  assert (E6 : entry c (k + 6) = Some (Cp 7 (PU2 (k + 7)))) by (replace (k + 6)%N with (k + 4 + 2)%N by lia; eapply (En 2%N _ [_;_]); reflexivity).
  assert (E7 : entry c (k + 7) = Some (Cp 1 (PStr name))) by (replace (k + 7)%N with (k + 4 + 3)%N by lia; eapply (En 3%N _ [_;_;_]); reflexivity).
  assert (E8 : entry c (k + 8) = Some (Cp 1 (PStr (bs "<init>")))) by (replace (k + 8)%N with (k + 4 + 4)%N by lia; eapply (En 4%N _ [_;_;_;_]); reflexivity).
  assert (E9 : entry c (k + 9) = Some (Cp 1 (PStr (bs "()V")))) by (replace (k + 9)%N with (k + 4 + 5)%N by lia; eapply (En 5%N _ [_;_;_;_;_]); reflexivity).
  assert (E10 : entry c (k + 10) = Some (Cp 12 (PNT (k + 8) (k + 9)))) by (replace (k + 10)%N with (k + 4 + 6)%N by lia; eapply (En 6%N _ [_;_;_;_;_;_]); reflexivity).
  assert (E11 : entry c (k + 11) = Some (Cp 1 (PStr (bs "Code")))) by (replace (k + 11)%N with (k + 4 + 7)%N by lia; eapply (En 7%N _ [_;_;_;_;_;_;_]); reflexivity).
  assert (E1 : entry c 1 = Some (Cp 10 (PRef (k + 4) (k + 10)))) by (unfold entry; now rewrite P).
  assert (T : this_class c = (k + 6)%N) by now rewrite E. assert (S1 : super_class c = (k + 4)%N) by now rewrite E.
  assert (M : methods c = map native (meths 2 (ms ++ [auto])) ++ [Mi 1 (k + 8) (k + 9) [At (k + 11) code]]) by now rewrite E.
  split; [rewrite T; exists (k + 7)%N; split; [exact E6|exact E7]|].
  split; [rewrite S1; exists (k + 5)%N; split; [exact E4|exact E5]|].
  split; [now rewrite E|]. split.
  { rewrite M, map_app. change (ms ++ [(bs "auto", bs "()V"); (bs "<init>", bs "()V")]) with (ms ++ [auto] ++ [ctor]). rewrite app_assoc, (map_app Some). f_equal.
    - eapply names_flat; [exact P|reflexivity| |intro; split; reflexivity]. rewrite len_app, len_cons, len_nil. subst k. lia.
    - cbn [map]. f_equal. unfold names, entry in *. cbn [name_index descriptor_index]. now rewrite E8, E9. }
  split; [rewrite M, removelast_last; apply flags_native|].
  exists (Mi 1 (k + 8) (k + 9) [At (k + 11) code]), (At (k + 11) code), 1%N, 1%N, 1%N. eexists.
  split; [rewrite M; apply last_last|]. split; [reflexivity|]. split; [reflexivity|]. split; [exact E11|].
  split; [vm_compute; reflexivity|]. split; [lia|]. split; [lia|].
  exists (k + 4)%N, (k + 10)%N. split; [exact E1|]. split; [exists (k + 5)%N; split; [exact E4|exact E5]|].
  exists (k + 8)%N, (k + 9)%N. auto.
Qed.
Print Assumptions C99_class.
Example C99_class_ex : (2 * len [(bs "x", bs "(I)I"); (bs "getX", bs "()I"); (bs "setX", bs "(I)V")] + 12 <= 2 ^ 16)%N.
Proof. vm_compute. discriminate. Qed.

(** The code of the constructor has an attribute whose name is entry 7 of the pool, whatever that is: the
    name of the class, CppObject, the type of [auto] or of the third method.  It is always a text, so the
    class can be loaded; *)
Theorem C99_attribute : forall name ms, (2 * len ms + 12 <= 2 ^ 16)%N -> let c := write_class name ms in
  exists pre s post, code = pre ++ put_be 2 7 ++ put_be 4 6 ++ post /\ len pre = 17%N /\ len post = 6%N /\ utf8 c 7 s
    /\ s = match ms with [] => name | [_] => bs "CppObject" | [_; _] => bs "()V" | _ :: _ :: (_, d) :: _ => d end.
Proof.
  intros name ms H c. pose proof (write_class_eq name ms H) as E. cbv zeta in E. fold c in E.
  exists (firstn 17 code). eexists. exists (skipn 23 code). split; [vm_compute; reflexivity|]. split; [reflexivity|]. split; [reflexivity|].
  split; [|reflexivity]. unfold utf8, entry. rewrite E. cbn [constant_pool]. destruct ms as [|a [|b [|[n d] ms]]]; reflexivity.
Qed.
Print Assumptions C99_attribute.
(** it is meant to be LineNumberTable, but that name is never in the pool. *)
Theorem C99_line_refuted : exists name ms, (2 * len ms + 12 <= 2 ^ 16)%N /\ utf8 (write_class name ms) 7 name
  /\ ~ In (Cp 1 (PStr (bs "LineNumberTable"))) (constant_pool (write_class name ms)).
Proof.
  exists (bs "Foo"), []. split; [vm_compute; discriminate|]. split; [vm_compute; reflexivity|]. vm_compute. intuition discriminate.
Qed.
Print Assumptions C99_line_refuted.

(** ** The class is written and read back *)
Lemma meths_wf n l : Forall wf_mem (map native (meths n l)).
Proof.
  revert n. induction l as [|x l IH]; intro n; constructor; auto. unfold wf_mem, native, w2, Java_Props.small, to_u2. cbn [access_flags name_index descriptor_index mattributes].
  repeat split; try (apply N.mod_lt; discriminate); try reflexivity. constructor.
Qed.
Lemma len_meths l : forall n, len (meths n l) = len l.
Proof. induction l as [|x l IH]; intro n; [reflexivity|]. cbn [meths]. now rewrite !len_cons, IH. Qed.
Lemma flat_wf l : Forall (fun nd => Java_Props.small (fst nd) /\ Java_Props.small (snd nd)) l -> Forall wf_cp (flat_map U l) /\ Forall known (flat_map U l).
Proof.
  induction 1 as [|nd l [A B] _ [I1 I2]]; [split; constructor|]. cbn [flat_map]. split; apply Forall_app; split; auto;
    repeat constructor; try assumption; discriminate.
Qed.
Theorem C99_written : forall name ms, (2 * len ms + 12 < 2 ^ 15)%N -> Java_Props.small name -> Forall (fun nd => Java_Props.small (fst nd) /\ Java_Props.small (snd nd)) ms ->
  exists b, put_class (write_class name ms) = Some b /\ forall old rest, exists c', get_class old (b ++ rest) = Ok c' rest
    /\ c' = with_pool (write_class name ms) (constant_pool c') /\ tl (constant_pool c') = tl (constant_pool (write_class name ms)).
Proof.
  intros name ms H SN SM.
  assert (L16 : (2 ^ 15 < 2 ^ 16)%N) by reflexivity.
  pose proof (write_class_eq name ms ltac:(lia)) as E. cbv zeta in E. set (k := (2 * len ms)%N) in *.
  assert (FU : Forall wf_cp (flat_map U (ms ++ [auto])) /\ Forall known (flat_map U (ms ++ [auto]))).
  { apply flat_wf, Forall_app. split; [exact SM|repeat constructor]. }
  destruct FU as [FU FK].
  destruct (C56_round_trip (write_class name ms)) as (b & P & R).
  - rewrite E. unfold wf_class. cbn [magic minor_version major_version constant_pool cflags this_class super_class interfaces fields methods attributes].
    split; [reflexivity|]. split; [reflexivity|]. split; [reflexivity|]. split.
    { split.
      - unfold Java_Props.small. repeat (rewrite ?len_app, ?len_cons, ?len_nil, ?len_flat, ?len_U). subst k. lia.
      - cbn [app tl]. apply Forall_cons; [split; [reflexivity|cbn [tag info kind_of]; unfold w2; subst k; lia]|]. apply Forall_app. split; [exact FU|].
        repeat (apply Forall_cons; [split; [reflexivity|cbn [tag info kind_of U ctor fst snd]; unfold w2; first [exact SN | reflexivity | subst k; lia | split; subst k; lia]]|]). constructor. }
    split; [reflexivity|]. split; [unfold w2; subst k; lia|]. split; [unfold w2; subst k; lia|].
    split; [split; [reflexivity|constructor]|]. split; [split; [reflexivity|constructor]|]. split; [|split; [reflexivity|constructor]].
    split.
    + pose proof (len_meths (ms ++ [auto]) 2) as LM. rewrite len_app, len_cons, len_nil in LM.
      assert (LN : len (map native (meths 2 (ms ++ [auto]))) = (len ms + 1)%N) by (unfold len in *; rewrite map_length; lia).
      unfold Java_Props.small. rewrite len_app, LN, len_cons, len_nil. subst k. lia.
    + apply Forall_app. split; [apply meths_wf|]. constructor; [|constructor]. unfold wf_mem. cbn [access_flags name_index descriptor_index mattributes].
      split; [reflexivity|]. split; [unfold w2; subst k; lia|]. split; [unfold w2; subst k; lia|]. split; [reflexivity|].
      constructor; [|constructor]. split; [cbn [attribute_name_index]; unfold w2; subst k; lia|reflexivity].
  - rewrite E. cbn [constant_pool app tl]. constructor; [discriminate|]. apply Forall_app. split; [exact FK|]. repeat constructor; discriminate.
  - exists b. split; [exact P|]. intros old rest. destruct (R old rest) as (c' & R1 & R2 & _ & R3). exists c'. auto.
Qed.
Print Assumptions C99_written.
Example C99_written_ex : Java_Props.small (bs "Foo") /\ Forall (fun nd => Java_Props.small (fst nd) /\ Java_Props.small (snd nd)) [(bs "x", bs "(I)I")].
Proof. repeat constructor. Qed.

(** ** The C++ functions *)
Lemma after_dot_below name x : ~ In dot x -> after_dot (below name x) = x.
Proof.
  intro H. unfold after_dot, below. rewrite rfind_dot by exact H. change (dot :: x) with ([dot] ++ x). rewrite app_assoc.
  apply skipn_app_l. rewrite app_length. cbn. lia.
Qed.
Definition mname (m : member) : list ascii := match m with MFun x _ _ => x | MData x _ => x end.
(** There is one function for each method of the class, in the same order, with its name and signature. *)
Theorem C99_functions : forall name ms, Forall (fun m => ~ In dot (mname m) /\ mname m <> []) ms ->
  map (fun f => (after_dot (fst f), snd f)) (write_functors name ms) = write_methods name ms
  /\ write_methods name ms = flat_map (fun m => match m with
       | MFun x args r => [(x, descriptor args r)]
       | MData x t => let X := match x with [] => [] | c :: r => upper c :: r end in
           [(x, descriptor [t] t); (bs "get" ++ X, descriptor [] t); (bs "set" ++ X, descriptor [t] JVoid)] end) ms.
Proof.
  intros name ms H. induction H as [|m ms [ND NE] _ [IH1 IH2]]; [split; reflexivity|].
  unfold write_functors, write_methods in *. cbn [flat_map]. rewrite map_app, IH1. split; [f_equal|rewrite IH2; f_equal].
  - destruct m as [x args r|x t]; cbn [functors_of methods_of map mname fst snd] in *; [reflexivity|].
    unfold below, member_functors, member_methods. rewrite member_names_dot by exact ND. cbn [combine map fst snd].
    assert (ND' : forall p, ~ In dot p -> ~ In dot (p ++ capital x)).
    { intros p Hp Hi. apply in_app_or in Hi as [Hi|Hi]; [auto|]. destruct x as [|c r]; [destruct Hi|]. cbn [capital] in Hi. destruct Hi as [Hi|Hi]; [|apply ND; now right].
      apply ND. left. revert Hi. unfold upper. cbv zeta. destruct (_ && _) eqn:B; [|auto]. intro Hi. exfalso.
      apply (f_equal N_of_ascii) in Hi. apply andb_true_iff in B as [B1 B2]. apply N.leb_le in B1, B2. rewrite N_ascii_embedding in Hi by lia. change (N_of_ascii dot) with 46%N in Hi. lia. }
    f_equal; [f_equal; apply (after_dot_below name x ND)|]. f_equal; [f_equal|f_equal; f_equal].
    + apply (after_dot_below name (bs "get" ++ capital x)), ND'. vm_compute. intuition discriminate.
    + apply (after_dot_below name (bs "set" ++ capital x)), ND'. vm_compute. intuition discriminate.
  - destruct m as [x args r|x t]; cbn [methods_of mname] in *; [now rewrite after_dot_below|].
    unfold below, member_methods. rewrite member_names_dot by exact ND. reflexivity.
Qed.
Print Assumptions C99_functions.
Example C99_functions_ex : Forall (fun m => ~ In dot (mname m) /\ mname m <> []) [MData (bs "x") JInt; MFun (bs "sum") [JInt; JDouble] JDouble].
Proof. repeat constructor; try discriminate; vm_compute; intuition discriminate. Qed.

(** parameters of the function and the statements that pass them on *)
Fixpoint params (i : N) (ts : list (list ascii)) : list ascii :=
  match ts with [] => [] | t :: r => bs ", " ++ t ++ bs " a" ++ dec i ++ params (i + 1) r end.
Fixpoint passed (i : N) (ts : list (list ascii)) : list ascii :=
  match ts with [] => [] | _ :: r => bs "    args[" ++ dec i ++ bs "]=Arg(env,a" ++ dec i ++ bs ");" ++ nl ++ passed (i + 1) r end.
Lemma numbered_from {A} (f : N -> A -> list ascii) (g : N -> list A -> list ascii) :
  (forall i, g i [] = []) -> (forall i x l, g i (x :: l) = f i x ++ g (i + 1)%N l) -> forall l, numbered f l = g 0%N l.
Proof.
  intros G0 G1 l. unfold numbered. change 0%N with (N.of_nat 0). generalize 0%nat as n.
  induction l as [|x l IH]; intro n; cbn [length seq combine map concat]; [now rewrite G0|].
  rewrite IH, G1. cbn [fst snd]. f_equal. f_equal. lia.
Qed.
(** The function for a method of a given type takes the environment, the object, and one parameter of the
    JNI type of each argument; it passes exactly these on, in order; it has the JNI type of the result. *)
Theorem C99_header : forall cls nm args r,
  exists mid rest, add_functor cls nm (descriptor args r) = Some
    (bs "extern " ++ dq ++ bs "C" ++ dq ++ bs " " ++ jni_type r ++ bs " Java_" ++ cls ++ bs "_" ++ after_dot nm
      ++ bs "(JNIEnv* env, jobject jthis" ++ params 0 (map jni_type args) ++ bs ")" ++ nl
      ++ mid ++ bs "    ArgVector args(" ++ dec (len args) ++ bs ");" ++ nl ++ passed 0 (map jni_type args)
      ++ bs "    RetVal ret;" ++ nl ++ bs "    (*f)(ret,args);" ++ nl
      ++ (if list_eq_dec ascii_dec (jni_type r) (bs "void") then [] else bs "    return ret->get_" ++ jni_type r ++ bs "(env);" ++ nl) ++ rest)
    /\ mid = bs "{" ++ nl ++ bs "  try" ++ nl ++ bs "  {" ++ bs "    std::string this_=cppObject(env,jthis);" ++ nl
        ++ bs "    static Functional_ptr f=method_registry[this_+" ++ dq ++ bs "." ++ after_dot nm ++ dq ++ bs "];" ++ nl.
Proof.
  intros cls nm args r. eexists. eexists. split; [|reflexivity]. unfold add_functor. rewrite C68_arglist, removelast_last, last_last.
  rewrite (numbered_from _ params), (numbered_from _ passed) by (intros; first [reflexivity | cbn [params passed]; now rewrite <- !app_assoc]).
  replace (len (map jni_type args)) with (len args) by (unfold len; now rewrite map_length).
  rewrite <- !app_assoc. reflexivity.
Qed.
Print Assumptions C99_header.

(** *** the name of the function *)
(** Java Native Interface specification, chapter 2: the name a native method is looked up by, for names of
    letters, digits and underscores *)
Definition escape (c : ascii) : list ascii := if ascii_dec c "_" then bs "_1" else [c].
Definition jni_symbol (cls nm : list ascii) : list ascii := bs "Java_" ++ flat_map escape cls ++ bs "_" ++ flat_map escape nm.
Lemma escape_len s : (length s <= length (flat_map escape s))%nat /\ (In "_"%char s -> length s < length (flat_map escape s))%nat.
Proof.
  induction s as [|c s [IH1 IH2]]; [split; [cbn; lia|intros []]|]. cbn [flat_map]. rewrite app_length. cbn [length]. set (r := flat_map escape s) in *. unfold escape.
  destruct (ascii_dec c "_") as [->|N]; [change (length (bs "_1")) with 2%nat|change (length [c]) with 1%nat]; (split; [lia|]).
  - intros _. lia.
  - intros [E|Hi]; [congruence|]. apply IH2 in Hi. lia.
Qed.
Lemma escape_none s : ~ In "_"%char s -> flat_map escape s = s.
Proof.
  induction s as [|c s IH]; intro H; [reflexivity|]. cbn [flat_map]. rewrite IH by (intro; apply H; now right). unfold escape.
  destruct (ascii_dec c "_") as [->|_]; [|reflexivity]. exfalso. apply H. now left.
Qed.
(** The function has the name the virtual machine looks for exactly if neither the class nor the method
    has an underscore in its name. *)
Theorem C99_symbol : forall cls nm, bs "Java_" ++ cls ++ bs "_" ++ nm = jni_symbol cls nm <-> ~ In "_"%char cls /\ ~ In "_"%char nm.
Proof.
  intros cls nm. unfold jni_symbol. split.
  - intro E. apply (f_equal (@length ascii)) in E. rewrite !app_length in E.
    destruct (escape_len cls) as [A1 A2], (escape_len nm) as [B1 B2]. split; intro Hi; [apply A2 in Hi|apply B2 in Hi]; lia.
  - intros [A B]. now rewrite !escape_none.
Qed.
Print Assumptions C99_symbol.
(** So a data member called my_value cannot be used from Java. *)
Theorem C99_symbol_refuted : exists cls nm, bs "Java_" ++ cls ++ bs "_" ++ nm <> jni_symbol cls nm.
Proof. exists (bs "Foo"), (bs "my_value"). vm_compute. discriminate. Qed.
Print Assumptions C99_symbol_refuted.

(** *** which object a call reaches *)
(** Every call of a native method reaches the object of the first call of that method: the functor is
    kept in a static variable, compileClass.cc 109. *)
Theorem C99_calls : forall o r, calls None (o :: r) = repeat o (S (length r)).
Proof.
  intros o r. cbn [calls length repeat]. f_equal. induction r as [|x r IH]; [reflexivity|]. cbn [calls length repeat]. now rewrite IH.
Qed.
Print Assumptions C99_calls.
(** So a method called for a second object of a class acts on the first. *)
Theorem C99_calls_refuted : exists objs, calls None objs <> objs.
Proof. exists [bs "a"; bs "b"]. vm_compute. discriminate. Qed.
Print Assumptions C99_calls_refuted.

(** *** the file *)
(** The file includes the header of the class and the two of classdesc, has one function for each method
    in order, all of which can be written, and ends with the function for [auto]. *)
Theorem C99_file : forall name ms, Forall (fun m => ~ In dot (mname m) /\ mname m <> []) ms ->
  exists i1 i2 i3 fs rest, write_cpp name ms = map Some ([i1; i2; i3] ++ fs ++ [bs "extern " ++ dq ++ bs "C" ++ dq ++ bs " void Java_" ++ name ++ bs "_auto(" ++ rest])
    /\ i1 = bs "#include " ++ dq ++ name ++ bs ".h" ++ dq ++ nl
    /\ Forall2 (fun f nd => exists r p, f = bs "extern " ++ dq ++ bs "C" ++ dq ++ bs " " ++ r ++ bs " Java_" ++ name ++ bs "_" ++ fst nd ++ bs "(JNIEnv* env, jobject jthis" ++ p)
         fs (write_methods name ms).
Proof.
  intros name ms H. pose proof (C99_functions name ms H) as [E _].
  assert (D : Forall (fun f => exists args r, snd f = descriptor args r) (write_functors name ms)).
  { clear. induction ms as [|m ms IH]; [constructor|]. unfold write_functors in *. cbn [flat_map]. apply Forall_app. split; [|exact IH].
    destruct m as [x args r|x t]; cbn [functors_of]; [apply Forall_cons; [eexists _, _; reflexivity|constructor]|].
    unfold member_functors. destruct (member_names _). cbn [combine]. repeat (apply Forall_cons; [eexists _, _; reflexivity|]). constructor. }
  assert (G : exists fs, map (fun f => add_functor name (fst f) (snd f)) (write_functors name ms) = map Some fs
    /\ Forall2 (fun f nd => exists r p, f = bs "extern " ++ dq ++ bs "C" ++ dq ++ bs " " ++ r ++ bs " Java_" ++ name ++ bs "_" ++ fst nd ++ bs "(JNIEnv* env, jobject jthis" ++ p)
         fs (map (fun f => (after_dot (fst f), snd f)) (write_functors name ms))).
  { clear E. induction D as [|f l (args & r & D) _ (fs & I1 & I2)]; [exists []; split; [reflexivity|constructor]|].
    destruct (C99_header name (fst f) args r) as (mid & rest & HE & _). rewrite <- D in HE. eexists (_ :: fs). cbn [map]. rewrite HE, I1. split; [reflexivity|].
    constructor; [|exact I2]. cbn [fst]. eexists. eexists. reflexivity. }
  destruct G as (fs & G1 & G2). rewrite E in G2. unfold write_cpp. rewrite G1. eexists. eexists. eexists. exists fs. eexists. split; [|split; [reflexivity|exact G2]].
  rewrite !map_app. cbn [map app]. reflexivity.
Qed.
Print Assumptions C99_file.

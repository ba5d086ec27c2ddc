(** * Java signatures (C68) *)
From Verif Require Import Base Base_Proofs Desc_Model Java_Model Java_Props JavaSig_Model.

(** JNI name of a type (Java Native Interface specification, chapter 3), for the Java
    type each C++ type is mapped to *)
Fixpoint jni_type (t : jty) : list ascii :=
  match t with
  | JVoid => bs "void" | JBool => bs "jboolean" | JSChar | JUChar => bs "jchar"
  | JShort | JUShort => bs "jshort" | JInt | JUInt => bs "jint"
  | JLong | JULong => bs "jlong" | JFloat => bs "jfloat" | JDouble => bs "jdouble"
  | JString => bs "jstring"
  | JConst t | JRef t => jni_type t
  end.

Lemma arg_desc_map args : arg_desc args (length args) = concat (map letter args).
Proof.
  induction args as [|t args IH] using rev_ind; [reflexivity|].
  rewrite app_length, map_app, concat_app. cbn [length map concat].
  rewrite Nat.add_1_r. cbn [arg_desc]. rewrite app_nil_r.
  f_equal.
  - rewrite <- IH. clear IH.
    assert (H : forall n, n <= length args -> arg_desc (args ++ [t]) n = arg_desc args n).
    { induction n as [|n IHn]; intro Hn; [reflexivity|]. cbn [arg_desc].
      rewrite IHn by lia. f_equal. rewrite nth_error_app1 by lia. reflexivity. }
    apply H. lia.
  - rewrite nth_error_app2, Nat.sub_diag by lia. reflexivity.
Qed.
Lemma jni_letter t : forall fuel s, length (letter t) <= fuel ->
  exists fuel', jni fuel (letter t ++ s) = match jni fuel' s with SOk l => SOk (jni_type t :: l) | r => r end
    /\ length (letter t) + fuel' >= fuel.
Proof.
  induction t; intros fuel s H; try (exact (IHt fuel s H));
    (destruct fuel as [|fuel]; [cbn in H; lia|]; exists fuel; split; [cbn; destruct (jni fuel s); reflexivity|cbn; lia]).
Qed.
Lemma jni_letters args : forall fuel s, length (concat (map letter args)) <= fuel ->
  exists fuel', jni fuel (concat (map letter args) ++ s) =
    match jni fuel' s with SOk l => SOk (map jni_type args ++ l) | r => r end
    /\ length (concat (map letter args)) + fuel' >= fuel.
Proof.
  induction args as [|t args IH]; intros fuel s H.
  - exists fuel. cbn. split; [now destruct (jni fuel s)|lia].
  - cbn [map concat] in *. rewrite app_length in *. rewrite <- app_assoc.
    destruct (jni_letter t fuel (concat (map letter args) ++ s) ltac:(lia)) as (f1 & E1 & H1).
    destruct (IH f1 s ltac:(lia)) as (f2 & E2 & H2).
    exists f2. rewrite E1, E2. split; [|lia]. now destruct (jni f2 s).
Qed.
(** The argument list parsed from the signature of a function type is the list of the JNI
    types of its arguments, followed by the type of the result. *)
Theorem C68_arglist : forall args r,
  jni_arglist (descriptor args r) = SOk (map jni_type args ++ [jni_type r]).
Proof.
  intros args r. unfold jni_arglist, descriptor. rewrite arg_desc_map.
  cbn [bs list_ascii_of_string app length jni].
  set (a := concat (map letter args)).
  destruct (jni_letters args (length (a ++ ")"%char :: letter r)) (")"%char :: letter r)) as (f1 & E1 & H1).
  { fold a. rewrite app_length. lia. }
  fold a in E1, H1. rewrite E1. rewrite app_length in H1. cbn [length] in H1.
  destruct f1 as [|f1]; [lia|]. cbn [jni].
  destruct (jni_letter r f1 [] ltac:(lia)) as (f2 & E2 & _). rewrite app_nil_r in E2.
  rewrite E2. now destruct f2.
Qed.
Example C68_arglist_ex : jni_arglist (descriptor [JInt; JConst (JRef JString); JDouble] JVoid) =
  SOk [bs "jint"; bs "jstring"; bs "jdouble"; bs "void"] /\
  descriptor [JInt; JConst (JRef JString); JDouble] JVoid = bs "(ILjava/lang/String;D)V".
Proof. split; vm_compute; reflexivity. Qed.
Print Assumptions C68_arglist.
(** An array of int gets a type that does not exist in the JNI. *)
Theorem C68_array_refuted : exists s, s = bs "([I)V" /\
  jni_arglist s = SOk [bs "jintArry"; bs "void"] /\
  ~ In (bs "jintArray") [bs "jintArry"; bs "void"].
Proof.
  eexists. split; [reflexivity|]. split; [vm_compute; reflexivity|].
  vm_compute. intuition discriminate.
Qed.
Print Assumptions C68_array_refuted.

Lemma rfind_none x : ~ In dot x -> rfind dot x = None.
Proof.
  induction x as [|c x IH]; intro H; [reflexivity|]. cbn [rfind].
  rewrite IH by (intro Hi; apply H; now right). destruct (ascii_dec c dot) as [->|]; [|reflexivity].
  exfalso. apply H. now left.
Qed.
Lemma rfind_dot p x : ~ In dot x -> rfind dot (p ++ dot :: x) = Some (length p).
Proof.
  intro H. induction p as [|c p IH]; cbn [app rfind length].
  - rewrite rfind_none by exact H. now destruct (ascii_dec dot dot).
  - now rewrite IH.
Qed.
Lemma member_names_dot p x : ~ In dot x -> member_names (p ++ dot :: x) = (x, p).
Proof.
  intro H. unfold member_names. rewrite rfind_dot by exact H. f_equal.
  - change (dot :: x) with ([dot] ++ x). rewrite app_assoc.
    rewrite skipn_app_l; [reflexivity|]. rewrite app_length. cbn. lia.
  - now apply firstn_app_l.
Qed.
Lemma member_names_plain x : ~ In dot x -> member_names x = (x, []).
Proof. intro H. unfold member_names. now rewrite rfind_none. Qed.

(** A data member gets exactly the methods x, getX and setX, wherever it is nested; the
    functors are registered under the same path. *)
Theorem C68_member : forall p x t, ~ In dot x -> x <> [] ->
  exists c r X, x = c :: r /\ X = upper c :: r /\
  let sig := letter t in
  member_methods (p ++ dot :: x) t = member_methods x t /\
  member_methods x t =
    [(x, bs "(" ++ sig ++ bs ")" ++ sig); (bs "get" ++ X, bs "()" ++ sig);
     (bs "set" ++ X, bs "(" ++ sig ++ bs ")V")] /\
  member_functors (p ++ dot :: x) =
    [p ++ dot :: x; p ++ dot :: bs "get" ++ X; p ++ dot :: bs "set" ++ X].
Proof.
  intros p x t H Hx. destruct x as [|c r]; [contradiction|]. exists c, r. eexists.
  split; [reflexivity|]. split; [reflexivity|]. cbv zeta.
  unfold member_methods, member_functors.
  rewrite member_names_dot, member_names_plain by exact H. cbn [fst snd capital].
  unfold descriptor. rewrite !arg_desc_map. cbn [map concat]. rewrite app_nil_r.
  repeat split.
Qed.
Example C68_member_ex : ~ In dot (bs "xValue") /\ bs "xValue" <> [] /\
  member_methods (bs "obj.xValue") JInt =
    [(bs "xValue", bs "(I)I"); (bs "getXValue", bs "()I"); (bs "setXValue", bs "(I)V")].
Proof. split; [|split]; vm_compute; [intuition discriminate|discriminate|reflexivity]. Qed.
Print Assumptions C68_member.
(** The class generated for a list of members has exactly these methods, in order. *)
Theorem C68_class : forall members, (len members <= 10000)%N ->
  let c := java_class members class0 in
  map (names c) (methods c) =
    map Some (flat_map (fun m => member_methods (fst m) (snd m)) members).
Proof.
  intros members H c. unfold c, java_class.
  assert (E : forall l c0, fold_left (fun c m =>
      fold_left (fun c nd => add_method (fst nd) (snd nd) c) (member_methods (fst m) (snd m)) c) l c0
    = add_methods (flat_map (fun m => member_methods (fst m) (snd m)) l) c0).
  { induction l as [|m l IH]; intro c0; [reflexivity|]. cbn [fold_left flat_map].
    unfold add_methods in *. rewrite fold_left_app. apply IH. }
  rewrite E.
  destruct (C67_methods (flat_map (fun m => member_methods (fst m) (snd m)) members) class0)
    as (ms & E1 & E2).
  - assert (L : len (flat_map (fun m => member_methods (fst m) (snd m)) members) = (3 * len members)%N).
    { clear. induction members as [|m l IH]; [reflexivity|]. cbn [flat_map].
      rewrite len_app, len_cons, IH. unfold len at 1. cbn. lia. }
    rewrite L. change (len (constant_pool class0)) with 1%N. change (2 ^ 16)%N with 65536%N. lia.
  - rewrite E1. exact E2.
Qed.
Example C68_class_ex : (len [(bs "a.x", JInt)] <= 10000)%N /\
  map (names (java_class [(bs "a.x", JInt)] class0)) (methods (java_class [(bs "a.x", JInt)] class0))
  = [Some (bs "x", bs "(I)I"); Some (bs "getX", bs "()I"); Some (bs "setX", bs "(I)V")].
Proof. split; vm_compute; [discriminate|reflexivity]. Qed.
Print Assumptions C68_class.

(** ** Descriptors of other Java methods (JVM specification 4.3): the parser is also given those *)
Inductive field := FPrim (p : nat) | FClass (name : list ascii) | FArray (p : nat) | FArrayOf (name : list ascii).
(** letters of the types, with the JNI type of a value and of an array of them *)
Definition prims : list (ascii * string * string) :=
  [("Z"%char, "jboolean", "jbooleanArray"); ("B"%char, "jbyte", "jbyteArray"); ("C"%char, "jchar", "jcharArray"); ("S"%char, "jshort", "jshortArray");
   ("I"%char, "jint", "jintArry"); ("J"%char, "jlong", "jlongArray"); ("F"%char, "jfloat", "jfloatArray"); ("D"%char, "jdouble", "jdoubleArray")]%string.
Definition prim p := nth p prims ("Z"%char, "jboolean", "jbooleanArray")%string.
Definition sig_of (f : field) : list ascii :=
  match f with
  | FPrim p => [fst (fst (prim p))]
  | FClass n => "L"%char :: n ++ [";"%char]
  | FArray p => ["["%char; fst (fst (prim p))]
  | FArrayOf n => "["%char :: "L"%char :: n ++ [";"%char]
  end.
Definition jni_of (f : field) : list ascii :=
  match f with
  | FPrim p => bs (snd (fst (prim p)))
  | FClass n => if list_eq_dec ascii_dec n (bs "java/lang/String") then bs "jstring" else bs "jobject"
  | FArray p => bs (snd (prim p))
  | FArrayOf _ => bs "jobjectArray"
  end.
(** names of classes have no semicolon *)
Definition field_ok (f : field) : Prop := match f with FClass n | FArrayOf n => ~ In ";"%char n | _ => True end.

Lemma semi_name n s : ~ In ";"%char n -> to_semi (n ++ ";"%char :: s) = Some (";"%char :: s).
Proof.
  induction n as [|c n IH]; intro H; [reflexivity|]. cbn [app to_semi]. destruct (ascii_dec c ";") as [->|]; [exfalso; apply H; now left|].
  apply IH. intro X. apply H. now right.
Qed.
Lemma string_name n s : ~ In ";"%char n ->
  is_prefix (bs "Ljava/lang/String;") ("L"%char :: n ++ ";"%char :: s) = if list_eq_dec ascii_dec n (bs "java/lang/String") then true else false.
Proof.
  intro H. unfold is_prefix. change (bs "Ljava/lang/String;") with ("L"%char :: bs "java/lang/String" ++ [";"%char]).
  assert (SN : ~ In ";"%char (bs "java/lang/String")) by (vm_compute; intuition discriminate).
  set (m := bs "java/lang/String") in *. clearbody m. cbn [length firstn].
  assert (G : firstn (length (m ++ [";"%char])) (n ++ ";"%char :: s) = m ++ [";"%char] <-> n = m).
  { clear - H SN. revert n H. induction m as [|c m IH]; intros n H; destruct n as [|d n]; cbn [app length firstn].
    - split; [reflexivity|]. intros _. reflexivity.
    - split; [|discriminate]. intros E. exfalso. apply H. left. congruence.
    - split; [|discriminate]. intros E. exfalso. apply SN. left. congruence.
    - assert (I1 : ~ In ";"%char m) by (intro X; apply SN; now right). assert (I2 : ~ In ";"%char n) by (intro X; apply H; now right).
      specialize (IH I1 n I2). split; intros E; injection E as E1 E2; subst d.
      + f_equal. now apply IH.
      + f_equal. now apply IH. }
  destruct (list_eq_dec ascii_dec (_ :: _) _) as [E|NE]; destruct (list_eq_dec ascii_dec n m) as [E'|NE']; try reflexivity.
  - exfalso. apply NE'. apply G. congruence.
  - exfalso. apply NE. f_equal. now apply G.
Qed.
Lemma jni_field f : field_ok f -> forall fuel s, length (sig_of f) <= fuel ->
  exists fuel', jni fuel (sig_of f ++ s) = match jni fuel' s with SOk l => SOk (jni_of f :: l) | r => r end /\ length (sig_of f) + fuel' >= fuel.
Proof.
  intros OK fuel s H. destruct fuel as [|fuel]; [destruct f; cbn in H; lia|]. destruct f as [p|n|p|n]; cbn [sig_of jni_of field_ok] in *.
  - exists fuel. split; [|cbn; lia]. do 9 (destruct p as [|p]; [cbn; now destruct (jni fuel s)|]). cbn. destruct p; cbn; now destruct (jni fuel s).
  - exists fuel. split; [|cbn; lia]. cbn [app jni]. rewrite <- app_assoc. cbn [app]. rewrite string_name by exact OK.
    change (to_semi ("L"%char :: n ++ ";"%char :: s)) with (to_semi (n ++ ";"%char :: s)). rewrite semi_name by exact OK. cbn [tl].
    destruct (list_eq_dec ascii_dec n _); cbn [scons]; now destruct (jni fuel s).
  - exists fuel. split; [|cbn; lia]. do 9 (destruct p as [|p]; [cbn; now destruct (jni fuel s)|]). cbn. destruct p; cbn; now destruct (jni fuel s).
  - exists fuel. split; [|cbn; lia]. cbn [app jni]. rewrite <- app_assoc. cbn [app].
    change (to_semi ("L"%char :: n ++ ";"%char :: s)) with (to_semi (n ++ ";"%char :: s)). rewrite semi_name by exact OK. cbn [tl scons]. now destruct (jni fuel s).
Qed.
Lemma jni_fields fs : Forall field_ok fs -> forall fuel s, length (concat (map sig_of fs)) <= fuel ->
  exists fuel', jni fuel (concat (map sig_of fs) ++ s) = match jni fuel' s with SOk l => SOk (map jni_of fs ++ l) | r => r end
    /\ length (concat (map sig_of fs)) + fuel' >= fuel.
Proof.
  induction 1 as [|f fs OK _ IH]; intros fuel s H.
  - exists fuel. cbn. split; [now destruct (jni fuel s)|lia].
  - cbn [map concat] in *. rewrite app_length in *. rewrite <- app_assoc. destruct (jni_field f OK fuel (concat (map sig_of fs) ++ s) ltac:(lia)) as (f1 & E1 & H1).
    destruct (IH f1 s ltac:(lia)) as (f2 & E2 & H2). exists f2. rewrite E1, E2. split; [|lia]. now destruct (jni f2 s).
Qed.
(** every method with values, objects and arrays of them: strings and only strings are jstring *)
Theorem C68_descriptor : forall fs r, Forall field_ok fs -> match r with Some f => field_ok f | None => True end ->
  jni_arglist (bs "(" ++ concat (map sig_of fs) ++ bs ")" ++ match r with Some f => sig_of f | None => bs "V" end)
  = SOk (map jni_of fs ++ [match r with Some f => jni_of f | None => bs "void" end]).
Proof.
  intros fs r OK OKr. unfold jni_arglist. set (rs := match r with Some f => sig_of f | None => bs "V" end). set (a := concat (map sig_of fs)).
  change (bs "(" ++ a ++ bs ")" ++ rs) with ("("%char :: a ++ ")"%char :: rs). cbn [length jni].
  destruct (jni_fields fs OK (length (a ++ ")"%char :: rs)) (")"%char :: rs)) as (f1 & E1 & H1).
  { fold a. rewrite app_length. lia. }
  fold a in E1, H1. rewrite E1. rewrite app_length in H1. cbn [length] in H1. destruct f1 as [|f1]; [lia|]. cbn [jni]. subst rs. destruct r as [f|].
  - destruct (jni_field f OKr f1 [] ltac:(lia)) as (f2 & E2 & _). rewrite app_nil_r in E2. rewrite E2. now destruct f2.
  - destruct f1 as [|f1]; [cbn in H1; lia|]. cbn. now destruct f1.
Qed.
Print Assumptions C68_descriptor.
Example C68_descriptor_ex : let fs := [FClass (bs "java/lang/String"); FArray 7; FClass (bs "java/lang/Strings"); FArrayOf (bs "a/B")] in
  Forall field_ok fs /\ jni_arglist (bs "(" ++ concat (map sig_of fs) ++ bs ")" ++ bs "V") = SOk (map bs ["jstring"; "jdoubleArray"; "jobject"; "jobjectArray"; "void"]%string).
Proof. split; [|vm_compute; reflexivity]. repeat constructor; vm_compute; intuition discriminate. Qed.
(** an array of arrays of int becomes an int *)
Theorem C68_nested_refuted : exists s, s = bs "([[I)V" /\ jni_arglist s = SOk [bs "jint"; bs "void"].
Proof. eexists. split; [reflexivity|vm_compute; reflexivity]. Qed.
Print Assumptions C68_nested_refuted.

(** ** The names of the accessors *)
Definition small : list ascii := bs "abcdefghijklmnopqrstuvwxyz".
Definition large : list ascii := bs "ABCDEFGHIJKLMNOPQRSTUVWXYZ".
Theorem C68_capital : (forall i c, nth_error small i = Some c -> nth_error large i = Some (upper c)) /\ (forall c, ~ In c small -> upper c = c).
Proof.
  split.
  - intros i c E. do 26 (destruct i as [|i]; [cbn in E; injection E as <-; vm_compute; reflexivity|]). destruct i; discriminate.
  - intros c NI. unfold upper. cbv zeta. destruct ((97 <=? N_of_ascii c) && (N_of_ascii c <=? 122))%N eqn:E; [|reflexivity]. exfalso. apply NI.
    apply Bool.andb_true_iff in E. destruct E as [E1 E2]. apply N.leb_le in E1, E2. rewrite <- (ascii_N_embedding c). remember (N_of_ascii c) as n. clear - E1 E2.
    assert (X : exists k : nat, (k < 26)%nat /\ n = (97 + N.of_nat k)%N) by (exists (N.to_nat (n - 97)); lia). destruct X as (k & K & ->).
    do 26 (destruct k as [|k]; [vm_compute; tauto|]). lia.
Qed.
Print Assumptions C68_capital.
(** ** What is written around the methods: version 50 of the format, no flags, no interfaces, no fields *)
Theorem C68_header : forall members b, let c := java_class members class0 in
  cflags c = 0%N /\ this_class c = 0%N /\ super_class c = 0%N /\ interfaces c = [] /\ fields c = [] /\ attributes c = []
  /\ (put_class c = Some b -> firstn 8 b = map ascii_of_N [202; 254; 186; 190; 0; 0; 0; 50]%N).
Proof.
  intros members b c.
  assert (G : magic c = magic class0 /\ minor_version c = minor_version class0 /\ major_version c = major_version class0 /\ cflags c = cflags class0 /\ this_class c = this_class class0
    /\ super_class c = super_class class0 /\ interfaces c = interfaces class0 /\ fields c = fields class0 /\ attributes c = attributes class0).
  { subst c. generalize class0. induction members as [|m l IH]; intro c; [repeat split|]. unfold java_class in *. cbn [fold_left].
    destruct (IH (fold_left (fun c nd => add_method (fst nd) (snd nd) c) (member_methods (fst m) (snd m)) c)) as (A1 & A2 & A3 & A4 & A5 & A6 & A7 & A8 & A9).
    rewrite A1, A2, A3, A4, A5, A6, A7, A8, A9. unfold member_methods. cbv zeta. cbn [fold_left fst snd]. repeat split. }
  clearbody c. destruct G as (A1 & A2 & A3 & A4 & A5 & A6 & A7 & A8 & A9). rewrite A4, A5, A6, A7, A8, A9. repeat (split; [reflexivity|]).
  unfold put_class. rewrite A1, A2, A3. set (h := put_u4 _ ++ _). change h with (map ascii_of_N [202; 254; 186; 190; 0; 0; 0; 50]%N). clear h.
  unfold cat at 1. destruct (cat (put_pool _) _) as [r|]; [|discriminate]. intros E. injection E as <-. reflexivity.
Qed.
Print Assumptions C68_header.

(** * C97: C arrays through REST *)
From Verif Require Import Base Base_Proofs SMap Dec Desc_Model Desc_Props Json_Model Rest_Model Rest2_Model Rest2_Props MArr_Model RestArr_Model.
From Verif Require MArr_Props.
Ltac Zify.zify_post_hook ::= Z.div_mod_to_equations.

(** ** Specification *)
(** where the C element [a[i][j]] of [T a[d0][d1]] is *)
Definition c_offset (d1 i j : N) : N := (i * d1 + j)%N.
(** [JArr rows] given to a view of [n] rows of [w] elements: the value meant for the element at
    distance [p] from the start; a row that is not an array, or is too short, means nothing *)
Definition meant (w n : N) (rows : list jv) (p : N) : option jv :=
  if (p <? w * n)%N then
    match nth_error rows (N.to_nat (p / w)) with
    | Some (JArr r) => nth_error r (N.to_nat (p mod w))
    | _ => None
    end
  else None.
(** the same for rank 1 *)
Definition meant1 (n : N) (js : list jv) (p : N) : option jv := if (p <? n)%N then nth_error js (N.to_nat p) else None.

(** ** Indices *)
Lemma len_units : forall n, len (repeat tt (N.to_nat n)) = n.
Proof. intros. unfold len. rewrite repeat_length. lia. Qed.
Lemma elem_index_ok : forall n nt i tail, (i < n)%N -> (i < 2 ^ 31)%N -> tailp tail ->
  elem_index n (elemq nt (dec i) tail) = JOk (Some (i, S (length (stem nt)) + length (dec i))).
Proof.
  intros n nt i tail L L31 Ht. unfold elem_index, elemImpl. rewrite len_units.
  assert (Nd : nodot (dec i)) by apply digits_nodot, dec_isdigit.
  rewrite elemq_find1, (elemq_end nt _ _ Nd Ht).
  rewrite elemq_stem at 1. rewrite skipn_stem.
  destruct (firstn_tail (dec i) tail (S (length (stem nt)) + length (dec i)) ltac:(lia) Ht) as (t & -> & Ht').
  assert (P31 : (2 ^ 31 = 2147483648)%N) by reflexivity.
  assert (P31' : (2 ^ 31 = 2147483648)%Z) by reflexivity.
  assert (P64 : (2 ^ 64 = 18446744073709551616)%Z) by reflexivity.
  rewrite (stoi_pos _ _ Ht'). replace (Z.of_N i <? 2 ^ 31)%Z with true by lia. cbn [jbind].
  unfold to_size. rewrite Z.mod_small by lia. rewrite N2Z.id.
  replace (n <=? i)%N with false by lia. reflexivity.
Qed.
Lemma elem_index_out : forall n nt i tail, (n <= i)%N -> (i < 2 ^ 31)%N -> tailp tail ->
  elem_index n (elemq nt (dec i) tail) = if nt then JOk None else JErr EOther.
Proof.
  intros n nt i tail L L31 Ht. unfold elem_index, elemImpl. rewrite len_units.
  assert (Nd : nodot (dec i)) by apply digits_nodot, dec_isdigit.
  rewrite elemq_find1, (elemq_end nt _ _ Nd Ht).
  rewrite elemq_stem at 1. rewrite skipn_stem.
  destruct (firstn_tail (dec i) tail (S (length (stem nt)) + length (dec i)) ltac:(lia) Ht) as (t & -> & Ht').
  assert (P31 : (2 ^ 31 = 2147483648)%N) by reflexivity.
  assert (P31' : (2 ^ 31 = 2147483648)%Z) by reflexivity.
  assert (P64 : (2 ^ 64 = 18446744073709551616)%Z) by reflexivity.
  rewrite (stoi_pos _ _ Ht'). replace (Z.of_N i <? 2 ^ 31)%Z with true by lia. cbn [jbind].
  unfold to_size. rewrite Z.mod_small by lia. rewrite N2Z.id.
  replace (n <=? i)%N with true by lia. now rewrite elemq_nothrow.
Qed.
Lemma stoi_total : forall s, stoi s <> JUB.
Proof.
  intros s. unfold stoi. destruct (match skipspace s with [] => _ | _ => _ end) as [ng s'].
  destruct (digits 10 s' 0 false) as [v [|]]; [|discriminate]. now destruct (_ && _).
Qed.
Lemma elem_index_any : forall n rem,
  match elem_index n rem with JOk (Some (i, _)) => (i < n)%N | JUB => False | _ => True end.
Proof.
  intros n rem. unfold elem_index, elemImpl. rewrite len_units. destruct (find_from rem 1) as [p|]; [|exact I].
  set (x := firstn _ _). pose proof (stoi_total x) as T. destruct (stoi x) as [z|e|]; cbn [jbind]; [|exact I|congruence].
  destruct (N.leb_spec n (to_size z)); [now destruct (startsWith rem _)|assumption].
Qed.

Lemma elemq_len : forall nt idx tail, length (elemq nt idx tail) = S (length (stem nt)) + length idx + length tail.
Proof. intros. rewrite elemq_stem, app_length. cbn [length]. rewrite app_length. lia. Qed.

Section C97.
Variables E R : Type.
Variable eproc : E -> list ascii -> jv -> E * jr R.
Variable get : E -> jv -> E * jr unit.
Variable put : E -> jv.
Variable d : E.
Notation arr_rest := (arr_rest E R eproc get).
Notation arr_process := (arr_process E R eproc get).
Notation row_process := (row_process E R eproc get).
Notation row_map := (row_map E R eproc get).
Notation view_process := (view_process E R get).
Notation conv1 := (conv1 E get).
Notation convert := (convert E get).
Notation rd := (rd E).
Notation wr := (wr E).

(** ** Memory *)
Lemma rd_some : forall mem o, (o < len mem)%N -> rd mem o = Some (nth (N.to_nat o) mem d).
Proof using d. intros mem o L. apply nth_error_nth'. unfold len in L. clear - L. lia. Qed.
Lemma wr_set : forall mem o e, (o < len mem)%N -> wr mem o e = set_nth E mem (N.to_nat o) e.
Proof.
  intros mem o e L. unfold wr, set_nth. assert (L' : N.to_nat o < length mem) by (unfold len in L; clear - L; lia). clear - L'.
  revert mem L'. induction (N.to_nat o) as [|i IH]; intros [|x mem] H; cbn [length update firstn skipn app] in *; try lia; [reflexivity|].
  now rewrite IH by lia.
Qed.
Lemma wr_len : forall mem o e, len (wr mem o e) = len mem.
Proof.
  intros mem o e. unfold wr, len. f_equal. generalize (N.to_nat o) as i. clear o. induction mem as [|x mem IH]; intros [|i]; cbn; auto.
Qed.
Lemma upd_nth : forall (mem : list E) i k e, nth_error (update mem i e) k =
  if (i =? k)%nat then match nth_error mem k with Some _ => Some e | None => None end else nth_error mem k.
Proof.
  induction mem as [|x mem IH]; intros i k e.
  - destruct i as [|i], k as [|k]; cbn [update nth_error]; now destruct (_ =? _)%nat.
  - destruct i as [|i], k as [|k]; try reflexivity. cbn [update nth_error Nat.eqb]. apply IH.
Qed.
Lemma rd_wr : forall mem o k e, (o < len mem)%N -> rd (wr mem o e) k = if (o =? k)%N then Some e else rd mem k.
Proof.
  intros mem o k e L. unfold rd, wr. rewrite upd_nth.
  destruct (N.eqb_spec o k) as [->|Q].
  - rewrite Nat.eqb_refl. destruct (nth_error mem (N.to_nat k)) eqn:X; [reflexivity|].
    apply nth_error_None in X. unfold len in L. lia.
  - replace (N.to_nat o =? N.to_nat k)%nat with false; [reflexivity|]. symmetry. apply Nat.eqb_neq. lia.
Qed.

(** ** Single elements *)
Lemma served_elem : forall p l ty mem nt idx tail, served E R p l ty mem (elemq nt idx tail) = p.
Proof. intros. unfold served. now destruct nt. Qed.
Lemma row_elem : forall a mem nt i tail args, (i < size a)%N -> (off a + i < len mem)%N -> (i < 2 ^ 31)%N -> tailp tail ->
  row_process a mem (elemq nt (dec i) tail) args =
  (let '(x, r) := eproc (nth (N.to_nat (off a + i)) mem d) tail args in
   (set_nth E mem (N.to_nat (off a + i)) x, y <~ r ;; JOk (AElem R (off a + i) y))).
Proof.
  intros a mem nt i tail args L M L31 Ht. unfold row_process. rewrite elemq_starts, elem_index_ok by assumption.
  cbv zeta. rewrite (rd_some _ _ M), tail_at. destruct (eproc _ tail args) as [x r]. now rewrite wr_set.
Qed.
Lemma view1 : forall base n a, of_c_array base [n] = Some a -> a = {| off := base; dims := [n]; str := 1 |}.
Proof.
  intros base n a H. unfold of_c_array, construct17 in H. cbn [last fold_left] in H.
  destruct (N.eqb_spec n 0) as [|Q]; [discriminate|]. injection H as <-. cbn [dims str]. f_equal.
  rewrite N.mul_1_l. now apply N.div_same.
Qed.
Lemma view2 : forall base d0 d1 a, of_c_array base [d0; d1] = Some a -> a = {| off := base; dims := [d0; d1]; str := d0 |} /\ (d1 <> 0)%N.
Proof.
  intros base d0 d1 a H. unfold of_c_array, construct17 in H. cbn [last fold_left] in H.
  destruct (N.eqb_spec d1 0) as [|Q]; [discriminate|]. injection H as <-. split; [|exact Q]. cbn [dims str]. f_equal.
  rewrite N.mul_1_l. now apply N.div_mul.
Qed.

(** [T a[n]]: "@elem.i" is [a[i]], and nothing else is changed *)
Theorem C97_elem : forall base n a mem nt i tail args,
  of_c_array base [n] = Some a -> (base + n <= len mem)%N -> (i < n)%N -> (i < 2 ^ 31)%N -> tailp tail ->
  arr_rest a mem (elemq nt (dec i) tail) args =
  (let '(x, r) := eproc (nth (N.to_nat (base + i)) mem d) tail args in
   (set_nth E mem (N.to_nat (base + i)) x, y <~ r ;; JOk (AElem R (base + i) y))).
Proof.
  intros base n a mem nt i tail args A M L L31 Ht. apply view1 in A. subst a.
  unfold arr_rest. change (rank {| off := base; dims := [n]; str := 1 |} <=? 1)%nat with true. cbv iota. rewrite served_elem. unfold arr_process.
  change (rank {| off := base; dims := [n]; str := 1 |} <=? 1)%nat with true. cbv iota.
  apply row_elem; cbn; auto. lia.
Qed.
(** [T a[d0][d1]]: "@elem.i.@elem.j" is the element at distance [i*d0+j] from the start *)
Theorem C97_elem2 : forall base d0 d1 a mem nt nt' i j tail args,
  of_c_array base [d0; d1] = Some a -> (base + d0 * d1 <= len mem)%N -> (i < d1)%N -> (j < d0)%N ->
  (i < 2 ^ 31)%N -> (j < 2 ^ 31)%N -> tailp tail ->
  arr_rest a mem (elemq nt (dec i) (elemq nt' (dec j) tail)) args =
  (let '(x, r) := eproc (nth (N.to_nat (base + (i * d0 + j))) mem d) tail args in
   (set_nth E mem (N.to_nat (base + (i * d0 + j))) x, y <~ r ;; JOk (AElem R (base + (i * d0 + j)) y))).
Proof.
  intros base d0 d1 a mem nt nt' i j tail args A M L LJ L31 LJ31 Ht. apply view2 in A as [-> D1].
  assert (B : (i * d0 + j < d0 * d1)%N) by nia.
  unfold arr_rest. set (v := {| off := base; dims := [d0; d1]; str := d0 |}).
  change (rank v <=? 1)%nat with false. cbv iota. rewrite served_elem. unfold arr_process.
  change (rank v <=? 1)%nat with false. cbv iota. rewrite elemq_starts.
  assert (Ht' : tailp (elemq nt' (dec j) tail)) by (right; eexists; reflexivity).
  rewrite elem_index_ok by assumption. cbv zeta. rewrite tail_at.
  replace (it_eq (it_add (it_begin v) i) (it_end v)) with false.
  2:{ symmetry. apply N.eqb_neq. cbn. nia. }
  assert (Q : row_map (it (it_add (it_begin v) i)) mem (elemq nt' (dec j) tail) args =
              row_process (it (it_add (it_begin v) i)) mem (elemq nt' (dec j) tail) args).
  { unfold row_map. rewrite served_elem. destruct (elemq nt' (dec j) tail) eqn:X; [|reflexivity]. discriminate X. }
  rewrite Q, row_elem; cbn [size it it_add it_begin off dims removelast last v]; try assumption; [|cbn; lia].
  replace (base + i * itstr (it_begin v) + j)%N with (base + (i * d0 + j))%N by (cbn; lia).
  destruct (eproc _ tail args) as [x r]. f_equal.
  replace (_ =? length _)%nat with false.
  - now destruct r.
  - symmetry. apply Nat.eqb_neq. rewrite !elemq_len. lia.
Qed.
(** a square array: "@elem.i.@elem.j" is [a[i][j]] *)
Theorem C97_square : forall base n a mem nt nt' i j tail args,
  of_c_array base [n; n] = Some a -> (base + n * n <= len mem)%N -> (i < n)%N -> (j < n)%N ->
  (n < 2 ^ 31)%N -> tailp tail ->
  arr_rest a mem (elemq nt (dec i) (elemq nt' (dec j) tail)) args =
  (let '(x, r) := eproc (nth (N.to_nat (base + c_offset n i j)) mem d) tail args in
   (set_nth E mem (N.to_nat (base + c_offset n i j)) x, y <~ r ;; JOk (AElem R (base + c_offset n i j) y))).
Proof. intros. apply C97_elem2 with (d1 := n); auto; lia. Qed.
(** a row: its view, and an index out of bounds *)
Theorem C97_row : forall base d0 d1 a mem nt i,
  of_c_array base [d0; d1] = Some a -> (d0 <> 0)%N -> (i < d1)%N -> (i < 2 ^ 31)%N ->
  arr_rest a mem (elemq nt (dec i) []) JNull = (mem, JOk (AView R {| off := base + i * d0; dims := [d0]; str := 1 |})).
Proof.
  intros base d0 d1 a mem nt i A D0 L L31. apply view2 in A as [-> D1].
  unfold arr_rest. set (v := {| off := base; dims := [d0; d1]; str := d0 |}).
  change (rank v <=? 1)%nat with false. cbv iota. rewrite served_elem. unfold arr_process.
  change (rank v <=? 1)%nat with false. cbv iota. rewrite elemq_starts.
  rewrite elem_index_ok by (auto; now left). cbv zeta. rewrite tail_at.
  replace (it_eq (it_add (it_begin v) i) (it_end v)) with false.
  2:{ symmetry. apply N.eqb_neq. cbn. nia. }
  change (row_map (it (it_add (it_begin v) i)) mem [] JNull) with (mem, JOk (AView R (it (it_add (it_begin v) i)))). cbn [jbind].
  replace (_ =? length _)%nat with true; [reflexivity|].
  symmetry. apply Nat.eqb_eq. rewrite elemq_stem, app_length. cbn [length]. rewrite app_nil_r. lia.
Qed.
Theorem C97_outside : forall base ds a mem nt i tail args,
  of_c_array base ds = Some a -> (length ds = 1 \/ length ds = 2)%nat -> (last ds 0 <= i)%N -> (i < 2 ^ 31)%N -> tailp tail ->
  arr_rest a mem (elemq nt (dec i) tail) args = (mem, if nt then JOk (AVoid R) else JErr EOther).
Proof.
  intros base ds a mem nt i tail args A Rk L L31 Ht.
  assert (S0 : size a = last ds 0%N /\ rank a = length ds).
  { destruct ds as [|x [|y [|z ds]]]; cbn [length] in Rk; try lia.
    - apply view1 in A. now subst a.
    - apply view2 in A as [-> _]. now split. }
  destruct S0 as [S0 S1]. unfold arr_rest. rewrite !served_elem.
  unfold arr_process, row_process. rewrite elemq_starts, S0, elem_index_out by assumption.
  destruct (rank a <=? 1)%nat, nt; reflexivity.
Qed.

(** ** The value of the whole *)
Lemma json_row_ok : forall n mem o, (o + N.of_nat n <= len mem)%N ->
  json_row E put mem o n = Some (map put (firstn n (skipn (N.to_nat o) mem))).
Proof.
  induction n as [|n IH]; intros mem o L; [reflexivity|]. cbn [json_row]. rewrite (rd_some mem o) by lia.
  rewrite IH by lia. replace (N.to_nat (o + 1)) with (S (N.to_nat o)) by lia.
  assert (L' : (N.to_nat o < length mem)%nat) by (unfold len in L; lia).
  clear - L'. revert mem L'. induction (N.to_nat o) as [|k IHk]; intros [|x mem] L'; cbn [length] in L'; try lia; [reflexivity|].
  cbn [skipn nth]. apply IHk. lia.
Qed.
Lemma all_some_map : forall (A B : Type) (f : A -> option B) g l, (forall x, In x l -> f x = Some (g x)) -> all_some (map f l) = Some (map g l).
Proof.
  intros A B f g l. induction l as [|x l IH]; intros H; [reflexivity|]. cbn [map all_some]. rewrite H by now left.
  rewrite IH; [reflexivity|]. intros y Y. apply H. now right.
Qed.
Theorem C97_value : forall base n a mem, of_c_array base [n] = Some a -> (base + n <= len mem)%N ->
  json_of E put 1 a mem = Some (JArr (map put (firstn (N.to_nat n) (skipn (N.to_nat base) mem)))).
Proof.
  intros base n a mem A M. apply view1 in A. subst a. cbn [json_of off size dims last].
  rewrite json_row_ok by lia. reflexivity.
Qed.
(** rows of [d0] elements, [d1] of them, one after the other *)
Theorem C97_value2 : forall base d0 d1 a mem, of_c_array base [d0; d1] = Some a -> (d0 <> 0)%N -> (base + d0 * d1 <= len mem)%N ->
  json_of E put 2 a mem = Some (JArr (map (fun i => JArr (map put (firstn (N.to_nat d0) (skipn (N.to_nat base + i * N.to_nat d0) mem)))) (seq 0 (N.to_nat d1)))).
Proof.
  intros base d0 d1 a mem A D0 M. apply view2 in A as [-> D1].
  set (v := {| off := base; dims := [d0; d1]; str := d0 |}).
  change (json_of E put 2 v mem) with
    (match visit (N.to_nat (size v)) (it_begin v) (it_end v) with
     | Some l => match all_some (map (fun s => json_of E put 1 s mem) l) with Some r => Some (JArr r) | None => None end
     | None => None end).
  assert (V := MArr_Props.C35_iteration v D0). rewrite V, map_map.
  rewrite all_some_map with (g := fun i => JArr (map put (firstn (N.to_nat d0) (skipn (N.to_nat base + i * N.to_nat d0) mem)))); [reflexivity|].
  intros i Hi. apply in_seq in Hi. cbn [json_of index off dims size last removelast v]. change (size v) with d1 in Hi.
  assert (B : (d0 * (N.of_nat i + 1) <= d0 * d1)%N) by (apply N.mul_le_mono_l; lia).
  rewrite json_row_ok by (cbn; lia). do 4 f_equal. cbn [str]. now rewrite N2Nat.inj_add, N2Nat.inj_mul, Nat2N.id.
Qed.

(** ** Assignment *)
Variable val : jv -> E.
Definition readable (j : jv) : Prop := forall e, get e j = (val j, JOk tt).
Definition row_readable (j : jv) : Prop := match j with JArr r => Forall readable r | _ => True end.
Definition now_holds (mem mem' : list E) (f : N -> option jv) : Prop :=
  len mem' = len mem /\ forall k, rd mem' k = match f k with Some j => Some (val j) | None => rd mem k end.
Lemma conv1_ok : forall js n mem o, Forall readable js -> (o + N.of_nat n <= len mem)%N ->
  exists mem', conv1 mem o n js = (mem', JOk tt) /\
    now_holds mem mem' (fun k => if (o <=? k)%N then meant1 (N.of_nat n) js (k - o) else None).
Proof.
  induction js as [|j js IH]; intros n mem o F L.
  - exists mem. split; [now destruct n|]. split; [reflexivity|]. intros k. unfold meant1.
    destruct (o <=? k)%N; [|reflexivity]. destruct (_ <? _)%N; [|reflexivity]. now destruct (N.to_nat (k - o)).
  - inversion F as [|? ? Fj Fs]; subst. destruct n as [|n].
    + exists mem. split; [reflexivity|]. split; [reflexivity|]. intros k. unfold meant1.
      destruct (o <=? k)%N; [|reflexivity]. now replace (k - o <? N.of_nat 0)%N with false by lia.
    + cbn [RestArr_Model.conv1]. rewrite (rd_some mem o) by lia. rewrite (Fj _).
      destruct (IH n (wr mem o (val j)) (o + 1)%N Fs ltac:(rewrite wr_len; lia)) as (mem' & C & Ln & H).
      exists mem'. split; [exact C|]. split; [now rewrite Ln, wr_len|]. intros k. rewrite H, rd_wr by lia. unfold meant1.
      destruct (N.leb_spec (o + 1) k) as [A|A].
      * replace (o <=? k)%N with true by lia. replace (o =? k)%N with false by lia.
        replace (k - o)%N with (N.succ (k - (o + 1)))%N by lia. rewrite N2Nat.inj_succ. cbn [nth_error].
        replace (N.succ (k - (o + 1)) <? N.of_nat (S n))%N with (k - (o + 1) <? N.of_nat n)%N; [reflexivity|].
        destruct (N.ltb_spec (k - (o + 1)) (N.of_nat n)), (N.ltb_spec (N.succ (k - (o + 1))) (N.of_nat (S n))); reflexivity || lia.
      * destruct (N.eqb_spec o k) as [->|Q].
        -- replace (k <=? k)%N with true by lia. replace (k - k <? N.of_nat (S n))%N with true by lia. now rewrite N.sub_diag.
        -- now replace (o <=? k)%N with false by lia.
Qed.
(** an array of JSON values assigned to [T a[n]]: element after element, as many as there are of both *)
Theorem C97_assign : forall base n a mem js,
  of_c_array base [n] = Some a -> (base + n <= len mem)%N -> Forall readable js ->
  exists mem', arr_rest a mem [] (JArr [JArr js]) = (mem', JOk (AView R a)) /\
    now_holds mem mem' (fun k => if (base <=? k)%N then meant1 n js (k - base) else None).
Proof.
  intros base n a mem js A M F. apply view1 in A. subst a.
  destruct (conv1_ok js (N.to_nat n) mem base F ltac:(lia)) as (mem' & C & H).
  exists mem'. rewrite N2Nat.id in H. split; [|exact H].
  unfold arr_rest, arr_process, row_process, view_process. cbn [rank dims length Nat.leb]. unfold served.
  change (beq [] (bs ".@signature")) with false. change (beq [] (bs ".@list")) with false. change (beq [] (bs ".@type")) with false.
  change (startsWith [] (bs ".@elem")) with false. change (startsWith [] (bs ".@insert")) with false.
  change (startsWith [] (bs ".@erase")) with false. cbn [orb RestArr_Model.convert]. cbn [size off dims last]. now rewrite C.
Qed.

Fixpoint rows_loop (v : ma) (i : iter) (mem : list E) (js : list jv) : list E * jr unit :=
  match js with
  | [] => (mem, JOk tt)
  | j :: js' => if it_eq i (it_end v) then (mem, JOk tt)
                else let '(mem', r) := convert 1 (it i) mem j in
                     match r with JOk _ => rows_loop v (it_add i 1) mem' js' | _ => (mem', r) end
  end.
Lemma convert2 : forall v mem js, convert 2 v mem (JArr js) = rows_loop v (it_begin v) mem js.
Proof.
  intros v mem js. cbn [RestArr_Model.convert]. generalize (it_begin v) as i. revert mem.
  induction js as [|j js IH]; intros mem i; [reflexivity|]. cbn [rows_loop].
  destruct (it_eq i (it_end v)); [reflexivity|]. change (RestArr_Model.convert E get 1 (it i) mem j) with
    (match j with JArr js => conv1 mem (off (it i)) (N.to_nat (size (it i))) js | _ => (mem, JOk tt) end).
  destruct (match j with JArr js => conv1 mem (off (it i)) (N.to_nat (size (it i))) js | _ => (mem, JOk tt) end) as [m [u|e|]]; [apply IH|reflexivity|reflexivity].
Qed.
Definition from (w n i : N) (rows : list jv) (p : N) : option jv :=
  if ((i * w <=? p) && (p <? w * n))%N then
    match nth_error rows (N.to_nat (p / w - i)) with
    | Some (JArr r) => nth_error r (N.to_nat (p mod w))
    | _ => None
    end
  else None.
Lemma from0 : forall w n rows p, from w n 0 rows p = meant w n rows p.
Proof. intros. unfold from, meant. cbn [N.mul]. rewrite N.sub_0_r. now destruct p. Qed.
Lemma convert1_ok : forall j v w mem, row_readable j -> dims v = [w] -> (off v + w <= len mem)%N ->
  exists mem', convert 1 v mem j = (mem', JOk tt) /\
    now_holds mem mem' (fun k => match j with JArr r => if (off v <=? k)%N then meant1 w r (k - off v) else None | _ => None end).
Proof.
  intros j v w mem F D L.
  destruct j as [| | | | |r|]; try (exists mem; split; [reflexivity|split; [reflexivity|intros; reflexivity]]).
  destruct (conv1_ok r (N.to_nat w) mem (off v) F ltac:(lia)) as (mem' & C & H). rewrite N2Nat.id in H.
  exists mem'. split; [|exact H]. cbn [RestArr_Model.convert]. unfold size. rewrite D. exact C.
Qed.
Lemma divmod_row : forall w i p, (w <> 0)%N -> (i * w <= p)%N -> (p < i * w + w)%N -> (p / w = i /\ p mod w = p - i * w)%N.
Proof.
  intros w i p W A B. assert (Q : (p = w * i + (p - i * w))%N) by lia.
  apply N.div_mod_unique with (b := w) in Q || idtac.
  split.
  - symmetry. apply N.div_unique with (r := (p - i * w)%N); lia.
  - symmetry. apply N.mod_unique with (q := i); lia.
Qed.
Lemma rows_ok : forall js base w n i mem, (w <> 0)%N -> Forall row_readable js -> (i <= n)%N -> (base + w * n <= len mem)%N ->
  let v := {| off := base; dims := [w; n]; str := w |} in
  exists mem', rows_loop v (it_add (it_begin v) i) mem js = (mem', JOk tt) /\
    now_holds mem mem' (fun k => if (base <=? k)%N then from w n i js (k - base) else None).
Proof.
  induction js as [|j js IH]; intros base w n i mem W F I0 L v.
  - exists mem. split; [reflexivity|]. split; [reflexivity|]. intros k. unfold from. destruct (base <=? k)%N; [|reflexivity].
    destruct (_ && _); [|reflexivity]. now destruct (N.to_nat _).
  - inversion F as [|? ? Fj Fs]; subst. cbn [rows_loop]. destruct (N.eqb_spec i n) as [->|Q].
    + replace (it_eq (it_add (it_begin v) n) (it_end v)) with true by (symmetry; apply N.eqb_eq; reflexivity).
      exists mem. split; [reflexivity|]. split; [reflexivity|]. intros k. unfold from. destruct (base <=? k)%N; [|reflexivity].
      now replace ((n * w <=? k - base) && (k - base <? w * n))%N with false by lia.
    + replace (it_eq (it_add (it_begin v) i) (it_end v)) with false by (symmetry; apply N.eqb_neq; cbn; nia).
      assert (B : (w * (i + 1) <= w * n)%N) by (apply N.mul_le_mono_l; lia).
      destruct (convert1_ok j (it (it_add (it_begin v) i)) w mem Fj eq_refl ltac:(cbn; lia)) as (m1 & -> & L1 & H1).
      replace (it_add (it_add (it_begin v) i) 1) with (it_add (it_begin v) (i + 1)) by (unfold it_add; cbn; do 2 f_equal; lia).
      destruct (IH base w n (i + 1)%N m1 W Fs ltac:(lia) ltac:(lia)) as (m2 & C & L2 & H2).
      exists m2. split; [exact C|]. split; [congruence|]. intros k. rewrite H2, H1. cbn [off it it_add it_begin v itstr].
      change (str v) with w. set (o := (base + i * w)%N).
      destruct (N.leb_spec base k) as [K|K].
      2:{ destruct j as [| | | | |r|]; try reflexivity. now replace (o <=? k)%N with false by (unfold o; lia). }
      unfold from. destruct (N.leb_spec ((i + 1) * w) (k - base)) as [A|A].
      * replace (i * w <=? k - base)%N with true by lia.
        assert (D : (i + 1 <= (k - base) / w)%N) by (apply N.div_le_lower_bound; [exact W|lia]).
        replace (N.to_nat ((k - base) / w - i)) with (S (N.to_nat ((k - base) / w - (i + 1)))) by (clear - D; lia). cbn [nth_error andb].
        assert (Z0 : match j with JArr r => if (o <=? k)%N then meant1 w r (k - o) else None | _ => None end = None).
        { destruct j as [| | | | |r|]; try reflexivity. unfold meant1, o.
          destruct (base + i * w <=? k)%N; [|reflexivity]. now replace (k - (base + i * w) <? w)%N with false by lia. }
        rewrite Z0. reflexivity.
      * cbn [andb]. destruct (N.leb_spec (i * w) (k - base)) as [A2|A2].
        -- destruct (divmod_row w i (k - base)%N W A2 ltac:(lia)) as [-> ->].
           replace (k - base <? w * n)%N with true by lia. cbn [andb]. rewrite N.sub_diag. cbn [N.to_nat nth_error].
           destruct j as [| | | | |r|]; try reflexivity. replace (o <=? k)%N with true by (unfold o; lia).
           unfold meant1. replace (k - o <? w)%N with true by (unfold o; lia).
           now replace (k - o)%N with (k - base - i * w)%N by (unfold o; lia).
        -- cbn [andb]. destruct j as [| | | | |r|]; try reflexivity. now replace (o <=? k)%N with false by (unfold o; lia).
Qed.
(** an array of arrays assigned to [T a[d0][d1]] *)
Theorem C97_assign2 : forall base d0 d1 a mem rows,
  of_c_array base [d0; d1] = Some a -> (d0 <> 0)%N -> (base + d0 * d1 <= len mem)%N -> Forall row_readable rows ->
  exists mem', arr_rest a mem [] (JArr [JArr rows]) = (mem', JOk (AView R a)) /\
    now_holds mem mem' (fun k => if (base <=? k)%N then meant d0 d1 rows (k - base) else None).
Proof.
  intros base d0 d1 a mem rows A D0 M F. apply view2 in A as [-> D1].
  destruct (rows_ok rows base d0 d1 0%N mem D0 F ltac:(lia) M) as (mem' & C & Ln & H).
  set (v := {| off := base; dims := [d0; d1]; str := d0 |}) in *.
  exists mem'. split.
  - change (arr_rest v mem [] (JArr [JArr rows])) with
      (let '(m, r) := convert 2 v mem (JArr rows) in (m, _ <~ r ;; JOk (AView R v))).
    rewrite convert2. replace (it_add (it_begin v) 0) with (it_begin v) in C by (unfold it_add, it_begin; cbn; do 2 f_equal; lia).
    now rewrite C.
  - split; [exact Ln|]. intros k. rewrite H. destruct (base <=? k)%N; [|reflexivity]. now rewrite from0.
Qed.

(** ** Whatever the query *)
Definition only (lo n : N) (mem mem' : list E) : Prop :=
  len mem' = len mem /\ forall k, ~ (lo <= k < lo + n)%N -> rd mem' k = rd mem k.
Hypothesis eproc_def : forall e q x, snd (eproc e q x) <> JUB.
Hypothesis get_def : forall e j, snd (get e j) <> JUB.
Lemma only_refl : forall lo n mem, only lo n mem mem.
Proof. intros. split; auto. Qed.
Lemma only_wr : forall lo n mem o e, (lo <= o < lo + n)%N -> (lo + n <= len mem)%N -> only lo n mem (wr mem o e).
Proof.
  intros lo n mem o e B L. split; [apply wr_len|]. intros k K. rewrite rd_wr by lia. now replace (o =? k)%N with false by lia.
Qed.
Lemma only_trans : forall lo n m1 m2 m3, only lo n m1 m2 -> only lo n m2 m3 -> only lo n m1 m3.
Proof. intros lo n m1 m2 m3 [A B] [C D]. split; [congruence|]. intros k K. now rewrite D, B. Qed.
Lemma conv1_only : forall js lo n k o mem, (lo <= o)%N -> (o + N.of_nat k <= lo + n)%N -> (lo + n <= len mem)%N ->
  only lo n mem (fst (conv1 mem o k js)) /\ snd (conv1 mem o k js) <> JUB.
Proof.
  induction js as [|j js IH]; intros lo n k o mem A B L; [destruct k; (split; [apply only_refl|discriminate])|].
  destruct k as [|k]; [split; [apply only_refl|discriminate]|]. cbn [RestArr_Model.conv1]. rewrite (rd_some mem o) by lia.
  pose proof (get_def (nth (N.to_nat o) mem d) j) as G. destruct (get (nth (N.to_nat o) mem d) j) as [e r]. cbn [snd] in G.
  assert (O := only_wr lo n mem o e ltac:(lia) L).
  destruct r as [u|x|]; [|split; [exact O|discriminate]|congruence].
  destruct (IH lo n k (o + 1)%N (wr mem o e) ltac:(lia) ltac:(lia) ltac:(rewrite wr_len; lia)) as [P Q].
  split; [|exact Q]. eapply only_trans; eassumption.
Qed.
Lemma convert1_only : forall j v w lo n mem, dims v = [w] -> (lo <= off v)%N -> (off v + w <= lo + n)%N -> (lo + n <= len mem)%N ->
  only lo n mem (fst (convert 1 v mem j)) /\ snd (convert 1 v mem j) <> JUB.
Proof.
  intros j v w lo n mem D A B L. destruct j as [| | | | |r|]; try (split; [apply only_refl|discriminate]).
  cbn [RestArr_Model.convert]. unfold size. rewrite D. cbn [last]. apply conv1_only; auto. lia.
Qed.
Lemma rows_only : forall js base w n i mem, (w <> 0)%N -> (i <= n)%N -> (base + w * n <= len mem)%N ->
  let v := {| off := base; dims := [w; n]; str := w |} in
  only base (w * n) mem (fst (rows_loop v (it_add (it_begin v) i) mem js)) /\ snd (rows_loop v (it_add (it_begin v) i) mem js) <> JUB.
Proof.
  induction js as [|j js IH]; intros base w n i mem W I0 L v; [split; [apply only_refl|discriminate]|].
  cbn [rows_loop]. destruct (N.eqb_spec i n) as [->|Q].
  - replace (it_eq (it_add (it_begin v) n) (it_end v)) with true by (symmetry; apply N.eqb_eq; reflexivity).
    split; [apply only_refl|discriminate].
  - replace (it_eq (it_add (it_begin v) i) (it_end v)) with false by (symmetry; apply N.eqb_neq; cbn; nia).
    assert (B : (w * (i + 1) <= w * n)%N) by (apply N.mul_le_mono_l; lia).
    destruct (convert1_only j (it (it_add (it_begin v) i)) w base (w * n)%N mem eq_refl ltac:(cbn; lia) ltac:(cbn; lia) L) as [O1 U1].
    destruct (convert 1 (it (it_add (it_begin v) i)) mem j) as [m1 r]. cbn [fst snd] in *.
    destruct r as [u|x|]; [|split; [exact O1|discriminate]|congruence].
    replace (it_add (it_add (it_begin v) i) 1) with (it_add (it_begin v) (i + 1)) by (unfold it_add; cbn; do 2 f_equal; lia).
    destruct (IH base w n (i + 1)%N m1 W ltac:(lia) ltac:(destruct O1; lia)) as [O2 U2].
    split; [|exact U2]. eapply only_trans; eassumption.
Qed.
Lemma view_only : forall v k lo n mem rem args, rank v = k -> (k = 1 \/ k = 2)%nat ->
  (forall j, only lo n mem (fst (convert k v mem j)) /\ snd (convert k v mem j) <> JUB) ->
  only lo n mem (fst (view_process v mem rem args)) /\ snd (view_process v mem rem args) <> JUB.
Proof.
  intros v k lo n mem rem args Rk _ C. unfold view_process. rewrite Rk.
  destruct rem as [|c rem].
  - assert (X : forall j, only lo n mem (fst (let '(m, r) := convert k v mem j in (m, _ <~ r ;; JOk (AView R v))))
              /\ snd (let '(m, r) := convert k v mem j in (m, _ <~ r ;; JOk (AView R v))) <> JUB).
    { intros j. destruct (C j) as [A B]. destruct (convert k v mem j) as [m r]. cbn [fst snd] in *. split; [exact A|].
      destruct r; cbn; congruence. }
    destruct args as [| | | | |[|x l]|]; try apply X; (split; [apply only_refl|discriminate]).
  - destruct (startsWith _ _); [split; [apply only_refl|discriminate]|].
    destruct (beq _ _); split; try apply only_refl; discriminate.
Qed.
Lemma row_only : forall v w lo n mem rem args, dims v = [w] -> (lo <= off v)%N -> (off v + w <= lo + n)%N -> (lo + n <= len mem)%N ->
  only lo n mem (fst (row_process v mem rem args)) /\ snd (row_process v mem rem args) <> JUB.
Proof.
  intros v w lo n mem rem args D A B L. unfold row_process. destruct (startsWith rem (bs ".@elem")).
  - pose proof (elem_index_any (size v) rem) as X. destruct (elem_index (size v) rem) as [[[i e]|]|x|]; try (split; [apply only_refl|discriminate]); [|contradiction].
    assert (Sz : size v = w) by (unfold size; now rewrite D). rewrite Sz in X. cbv zeta.
    rewrite (rd_some mem (off v + i)%N) by lia.
    pose proof (eproc_def (nth (N.to_nat (off v + i)) mem d) (skipn e rem) args) as G.
    destruct (eproc _ (skipn e rem) args) as [x r]. cbn [fst snd] in *. split; [apply only_wr; lia|]. destruct r; cbn; congruence.
  - destruct (_ || _); [split; [apply only_refl|discriminate]|].
    apply view_only with (k := 1%nat); auto; [unfold rank; now rewrite D|]. intros j. now apply convert1_only with (w := w).
Qed.
(** No query and no argument changes memory outside the array or is undefined. *)
Theorem C97_safe : forall base ds a mem tl args,
  of_c_array base ds = Some a -> (length ds = 1 \/ length ds = 2)%nat -> (hd 0 ds <> 0)%N -> (base + prod ds <= len mem)%N ->
  only base (prod ds) mem (fst (arr_rest a mem tl args)) /\ snd (arr_rest a mem tl args) <> JUB.
Proof.
  intros base ds a mem tl args A Rk H0 M.
  destruct ds as [|w [|n [|z ds]]]; cbn [length] in Rk; try lia; clear Rk; cbn [prod fold_right hd] in *.
  - apply view1 in A. subst a. set (v := {| off := base; dims := [w]; str := 1 |}).
    change (arr_rest v mem tl args) with (served E R (row_process v mem tl args) view_names (ATypeT R) mem tl). unfold served.
    repeat (match goal with |- context [if beq tl ?x then _ else _] => destruct (beq tl x) end; [split; [apply only_refl|discriminate]|]).
    apply row_only with (w := w); auto; cbn; lia.
  - apply view2 in A as [-> D1]. set (v := {| off := base; dims := [w; n]; str := w |}).
    replace (w * (n * 1))%N with (w * n)%N in * by lia.
    unfold arr_rest. change (rank v <=? 1)%nat with false. cbv iota. unfold served.
    repeat (match goal with |- context [if beq tl ?x then _ else _] => destruct (beq tl x) end; [split; [apply only_refl|discriminate]|]).
    unfold arr_process. change (rank v <=? 1)%nat with false. cbv iota. destruct (startsWith tl (bs ".@elem")).
    + pose proof (elem_index_any (size v) tl) as X. destruct (elem_index (size v) tl) as [[[i e]|]|x|]; try (split; [apply only_refl|discriminate]); [|contradiction].
      cbn [size dims last v] in X. cbv zeta. destruct (it_eq _ _); [split; [apply only_refl|discriminate]|].
      assert (B : (w * (i + 1) <= w * n)%N) by (apply N.mul_le_mono_l; lia).
      pose proof (row_only (it (it_add (it_begin v) i)) w base (w * n)%N mem (skipn e tl) args eq_refl ltac:(cbn; lia) ltac:(cbn; lia) M) as O1.
      assert (O2 : only base (w * n) mem (fst (row_map (it (it_add (it_begin v) i)) mem (skipn e tl) args)) /\ snd (row_map (it (it_add (it_begin v) i)) mem (skipn e tl) args) <> JUB).
      { unfold row_map. destruct (skipn e tl) as [|c q]; [exact O1|]. unfold served.
        repeat (match goal with |- context [if beq (c :: q) ?x then _ else _] => destruct (beq (c :: q) x) end; [split; [apply only_refl|discriminate]|]).
        exact O1. }
      destruct (row_map _ mem (skipn e tl) args) as [m r]. cbn [fst snd] in *. destruct O2 as [O2 U]. split; [exact O2|].
      destruct r; cbn; congruence.
    + apply view_only with (k := 2%nat); auto. intros j.
      destruct j as [| | | | |js|]; try (split; [apply only_refl|discriminate]). rewrite convert2.
      pose proof (rows_only js base w n 0%N mem H0 ltac:(lia) M) as Z0. cbv zeta in Z0. fold v in Z0.
      now replace (it_add (it_begin v) 0) with (it_begin v) in Z0 by (unfold it_add, it_begin; cbn; do 2 f_equal; lia).
Qed.
End C97.
Print Assumptions C97_elem.
Print Assumptions C97_elem2.
Print Assumptions C97_square.
Print Assumptions C97_row.
Print Assumptions C97_outside.
Print Assumptions C97_value.
Print Assumptions C97_value2.
Print Assumptions C97_assign.
Print Assumptions C97_assign2.
Print Assumptions C97_safe.

(** getElem and setElem, the calls from Python, act like the queries *)
Theorem C97_python : forall (E R : Type) eproc get (d : E) base d0 d1 a (mem : list E) i j js,
  of_c_array base [d0; d1] = Some a -> (d0 <> 0)%N -> (i < d1)%N -> (i < 2 ^ 31)%N ->
  getElem E R a mem i = snd (arr_rest E R eproc get a mem (elemq false (dec i) []) JNull) /\
  setElem E R get a mem i (JArr js) = arr_rest E R eproc get a mem (elemq false (dec i) []) (JArr [JArr js]) /\
  ((d1 <= j)%N -> getElem E R a mem j = JOk (AVoid R) /\ forall x, setElem E R get a mem j x = (mem, JOk (AVoid R))).
Proof.
  intros E R eproc get d base d0 d1 a mem i j js A D0 L L31.
  rewrite (C97_row E R eproc get (fun _ => JNull) d base d0 d1 a mem false i A D0 L L31).
  apply view2 in A as [-> D1]. set (v := {| off := base; dims := [d0; d1]; str := d0 |}).
  unfold getElem, setElem. change (size v) with d1. replace (i <? d1)%N with true by lia.
  change (rank v <=? 1)%nat with false. cbv iota. split; [reflexivity|]. split.
  - unfold arr_rest. change (rank v <=? 1)%nat with false. cbv iota. rewrite served_elem. unfold arr_process.
    change (rank v <=? 1)%nat with false. cbv iota. rewrite elemq_starts.
    rewrite elem_index_ok by (auto; now left). cbv zeta. rewrite tail_at.
    replace (it_eq (it_add (it_begin v) i) (it_end v)) with false.
    2:{ symmetry. apply N.eqb_neq. cbn. nia. }
    replace (_ =? length _)%nat with true.
    2:{ symmetry. apply Nat.eqb_eq. rewrite elemq_stem, app_length. cbn [length]. rewrite app_nil_r. lia. }
    change (rank v - 1)%nat with 1%nat. change (index v i) with (it (it_add (it_begin v) i)).
    set (row := it (it_add (it_begin v) i)).
    change (row_map E R eproc get row mem [] (JArr [JArr js])) with
      (let '(m, r) := convert E get 1 row mem (JArr js) in (m, _ <~ r ;; JOk (AView R row))).
    now destruct (convert E get 1 row mem (JArr js)) as [m [u|e|]].
  - intros J. replace (j <? d1)%N with false by lia. now split.
Qed.
Print Assumptions C97_python.

(** ** All other commands *)
(** the commands of a view, and what follows their names is not looked at *)
Lemma sw_app p q : startsWith (p ++ q) p = true.
Proof. unfold startsWith. rewrite firstn_app, Nat.sub_diag, firstn_O, app_nil_r, firstn_all. apply beq_refl. Qed.
Theorem C97_commands : forall (E R : Type) eproc get base ds a (mem : list E) args,
  of_c_array base ds = Some a -> (length ds = 1 \/ length ds = 2)%nat ->
  let rest q x := arr_rest E R eproc get a mem q x in
  (forall x, x = JNull \/ x = JArr [] -> rest [] x = (mem, JOk (AView R a)))
  /\ (forall t, rest (bs ".@size" ++ t) args = (mem, JOk (ASize R (last ds 0%N))))
  /\ rest (bs ".@list") args = (mem, JOk (ANames R (if (length ds =? 1)%nat then [bs ".@elem"; bs ".@elemNoThrow"; bs ".@erase"; bs ".@insert"; bs ".@size"] else [])))
  /\ rest (bs ".@signature") args = (mem, JOk (ASig R))
  /\ rest (bs ".@type") args = (mem, JOk (if (length ds =? 1)%nat then ATypeT R else AText R (bs "typeName<T>()")))
  /\ forall q, q <> [] -> Forall (fun p => startsWith q (bs p) = false) [".@size"; ".@elem"]%string ->
       Forall (fun p => q <> bs p) [".@list"; ".@signature"; ".@type"; "@enum.@list"]%string -> rest q args = (mem, JErr EOther).
Proof.
  intros E R eproc get base ds a mem args A Rk rest.
  assert (S0 : size a = last ds 0%N /\ rank a = length ds).
  { destruct ds as [|x [|y [|z ds]]]; cbn [length] in Rk; try lia.
    - apply view1 in A. now subst a.
    - apply view2 in A as [-> _]. now split. }
  destruct S0 as [S0 S1]. assert (RB : (rank a <=? 1)%nat = (length ds =? 1)%nat) by (rewrite S1; destruct Rk as [-> | ->]; reflexivity).
  assert (V : forall q, (q = [] \/ startsWith q (bs ".@elem") = false) -> beq q (bs ".@signature") = false -> beq q (bs ".@list") = false -> beq q (bs ".@type") = false ->
     forall x, rest q x = if ((length ds =? 1)%nat && (startsWith q (bs ".@insert") || startsWith q (bs ".@erase")))%bool then (mem, JErr EOther) else view_process E R get a mem q x).
  { intros q EL SG LS TY x. assert (EL' : startsWith q (bs ".@elem") = false) by (destruct EL as [-> |EL]; [reflexivity|exact EL]).
    unfold rest, arr_rest, served, arr_process, row_process. rewrite RB, SG, LS, TY, EL'. destruct (length ds =? 1)%nat; [|reflexivity]. cbn [andb].
    destruct (_ || _)%bool; reflexivity. }
  split; [|split; [|split; [|split; [|split]]]].
  - intros x X. rewrite V by (try reflexivity; now left). rewrite Bool.andb_false_r. destruct X as [-> | ->]; reflexivity.
  - intros t. rewrite V; try reflexivity; [|right; reflexivity]. change (startsWith (bs ".@size" ++ t) (bs ".@insert") || startsWith (bs ".@size" ++ t) (bs ".@erase"))%bool with false.
    rewrite Bool.andb_false_r. unfold view_process. rewrite <- S0. change (bs ".@size" ++ t) with ("."%char :: bs "@size" ++ t). cbv iota.
    change ("."%char :: bs "@size" ++ t) with (bs ".@size" ++ t). now rewrite sw_app.
  - unfold rest, arr_rest, served. rewrite RB. change (beq (bs ".@list") (bs ".@signature")) with false. rewrite beq_refl. now destruct (length ds =? 1)%nat.
  - unfold rest, arr_rest, served. rewrite RB, beq_refl. now destruct (length ds =? 1)%nat.
  - unfold rest, arr_rest, served. rewrite RB, beq_refl. change (beq (bs ".@type") (bs ".@signature")) with false. change (beq (bs ".@type") (bs ".@list")) with false. now destruct (length ds =? 1)%nat.
  - intros q NE SW EQ. inversion SW as [|? ? SZ SW1]; subst. inversion SW1 as [|? ? EL _]; subst.
    assert (NB : forall p, In p [".@list"; ".@signature"; ".@type"; "@enum.@list"]%string -> beq q (bs p) = false).
    { intros p P. rewrite Forall_forall in EQ. apply Bool.not_true_iff_false. rewrite beq_eq. now apply EQ. }
    rewrite V; [|right; exact EL|apply NB; cbn; tauto..]. destruct (_ && _)%bool; [reflexivity|]. unfold view_process. destruct q as [|c q]; [congruence|].
    rewrite SZ, NB by (cbn; tauto). reflexivity.
Qed.
Print Assumptions C97_commands.
(** an array of one dimension from Python: elements by index, and an exception outside *)
Theorem C97_python1 : forall (E R : Type) (get : E -> jv -> E * jr unit) (d : E) base n a (mem : list E) i j,
  of_c_array base [n] = Some a -> (base + n <= len mem)%N ->
  ((i < n)%N -> getElem E R a mem i = JOk (ARef R (base + i))
     /\ setElem E R get a mem i j = (let '(x, r) := get (nth (N.to_nat (base + i)) mem d) j in (set_nth E mem (N.to_nat (base + i)) x, _ <~ r ;; JOk (ARef R (base + i)))))
  /\ ((n <= i)%N -> getElem E R a mem i = JErr EOther /\ setElem E R get a mem i j = (mem, JErr EOther)).
Proof.
  intros E R get d base n a mem i j A M. apply view1 in A. subst a. set (v := {| off := base; dims := [n]; str := 1 |}).
  unfold getElem, setElem. change (size v) with n. change (rank v <=? 1)%nat with true. cbv iota. split; intros L.
  - replace (i <? n)%N with true by lia. split; [reflexivity|]. change (off v) with base. rewrite (rd_some E d mem (base + i)%N) by lia. destruct (get _ j) as (x, r). rewrite wr_set by lia. cbn beta iota zeta.
    reflexivity.
  - replace (i <? n)%N with false by lia. split; reflexivity.
Qed.
Print Assumptions C97_python1.

(** ** Examples: [int] *)
Definition eproc_z (e : Z) (q : list ascii) (x : jv) : Z * jr Z :=
  match q, x with
  | [], JInt z => (z, JOk z)
  | [], _ => (e, JOk e)
  | _, _ => (e, JErr EOther)
  end.
Definition get_z (e : Z) (x : jv) : Z * jr unit := match x with JInt z => (z, JOk tt) | _ => (e, JErr EOther) end.
Definition val_z (x : jv) : Z := match x with JInt z => z | _ => 0%Z end.
Definition mem_z : list Z := [100; 1; 2; 3; 4; 5; 6; 200]%Z.
Definition view_z (ds : list N) : ma := match of_c_array 1 ds with Some a => a | None => {| off := 0; dims := []; str := 0 |} end.
Definition rest_z := arr_rest Z Z eproc_z get_z.
Example C97_ex : of_c_array 1 [6]%N = Some (view_z [6]%N) /\ of_c_array 1 [2; 3]%N = Some (view_z [2; 3]%N) /\
  (1 + 2 * 3 <= len mem_z)%N /\ (2 < 3)%N /\ (1 < 2)%N /\ tailp [] /\
  rest_z (view_z [6]%N) mem_z (bs ".@elem.2") (JInt 9) = ([100; 1; 2; 9; 4; 5; 6; 200]%Z, JOk (AElem Z 3 9%Z)) /\
  rest_z (view_z [2; 3]%N) mem_z (bs ".@elem.2.@elem.1") (JInt 9) = ([100; 1; 2; 3; 4; 5; 9; 200]%Z, JOk (AElem Z 6 9%Z)) /\
  Forall (row_readable Z get_z val_z) [JArr [JInt 7; JInt 8]; JNull; JArr [JInt 9]] /\
  rest_z (view_z [2; 3]%N) mem_z [] (JArr [JArr [JArr [JInt 7; JInt 8]; JNull; JArr [JInt 9]]]) =
    ([100; 7; 8; 3; 4; 9; 6; 200]%Z, JOk (AView Z (view_z [2; 3]%N))) /\
  (forall e q x, snd (eproc_z e q x) <> JUB) /\ (forall e x, snd (get_z e x) <> JUB).
Proof.
  repeat match goal with |- _ /\ _ => split end; try reflexivity; try (now left); try (vm_compute; discriminate).
  - constructor; [repeat constructor|]. constructor; [exact I|]. constructor; [|constructor]. repeat constructor.
  - intros e [|c q] []; discriminate.
  - intros e []; discriminate.
Qed.

(** ** Refuted *)
(** [int a[2][3]={{1,2,3},{4,5,6}}] is shown as [[1,2],[3,4],[5,6]]; a[0][2] can not be
    reached by these indices, and a[2][0] can *)
Theorem C97_shape_refuted : exists a mem, of_c_array 1 [2; 3]%N = Some a /\
  json_of Z JInt 2 a mem = Some (JArr [JArr [JInt 1; JInt 2]; JArr [JInt 3; JInt 4]; JArr [JInt 5; JInt 6]]) /\
  mem = ([100] ++ [1; 2; 3] ++ [4; 5; 6] ++ [200])%Z /\
  rest_z a mem (bs ".@elem.0.@elem.2") JNull = (mem, JErr EOther) /\
  rest_z a mem (bs ".@elem.2.@elem.0") JNull = (mem, JOk (AElem Z 5 5%Z)).
Proof.
  exists (view_z [2; 3]%N), mem_z. split; [reflexivity|]. split; [vm_compute; reflexivity|]. split; [reflexivity|].
  split; vm_compute; reflexivity.
Qed.
Print Assumptions C97_shape_refuted.
(** an array given as the argument itself assigns nothing, without an error *)
Theorem C97_unwrapped_refuted : exists a mem js, of_c_array 1 [6]%N = Some a /\
  rest_z a mem [] (JArr js) = (mem, JOk (AView Z a)) /\ Forall (readable Z get_z val_z) js /\ length js = 6%nat /\
  mem = mem_z /\ map val_z js = [11; 12; 13; 14; 15; 16]%Z.
Proof.
  exists (view_z [6]%N), mem_z, (map JInt [11; 12; 13; 14; 15; 16]%Z). split; [reflexivity|]. split; [vm_compute; reflexivity|].
  split; [repeat constructor|]. split; [reflexivity|]. split; reflexivity.
Qed.
Print Assumptions C97_unwrapped_refuted.
(** "@type" of an array of rank 2 is the text of an expression, "@list" is empty although the
    commands exist *)
Theorem C97_type_refuted : exists a mem, of_c_array 1 [2; 3]%N = Some a /\
  rest_z a mem (bs ".@type") JNull = (mem, JOk (AText Z (bs "typeName<T>()"))) /\
  rest_z a mem (bs ".@list") JNull = (mem, JOk (ANames Z [])) /\
  rest_z a mem (bs ".@size") JNull = (mem, JOk (ASize Z 3)).
Proof. exists (view_z [2; 3]%N), mem_z. split; [reflexivity|]. split; [|split]; vm_compute; reflexivity. Qed.
Print Assumptions C97_type_refuted.

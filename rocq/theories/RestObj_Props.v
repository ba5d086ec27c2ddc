(** * REST access to a tree of objects *)
From Verif Require Import Base Base_Proofs SMap Dec Desc_Model Desc_Props Json_Model Json_Spec Json_Proofs Json_Proofs2 Json_Props
  Rest_Model Rest_Props Rest2_Model Rest2_Props RestObj_Model RestObj_Proofs RestObj_Proofs2.

(** ** C92: paths *)
(** [addr tail t v q t' x y v']: in the object [v] of type [t], [q] is the path of the
    sub-object [x] of type [t'], and [v'] is [v] with [y] in the place of [x].
    [tail] is the command that follows the path: what a pointer does with a query that
    ends at the pointer, or with ".@list", ".@type" and ".@signature", concerns the
    pointer, not its target. *)
Definition set_at (l : list jval) (i : nat) (y : jval) : list jval := firstn i l ++ y :: skipn (S i) l.
Inductive addr (tail : list ascii) : jty -> jval -> list ascii -> jty -> jval -> jval -> jval -> Prop :=
| at_here : forall t x y, addr tail t x [] t x y y
| at_member : forall fs l i n t x q t' z y x', fnth fs i = Some (n, t) -> isbase n = false ->
    nth_error l i = Some x -> addr tail t x q t' z y x' ->
    addr tail (TStruct fs) (VL l) (dot :: n ++ q) t' z y (VL (set_at l i x'))
| at_base : forall fs l i n t x q t' z y x', fnth fs i = Some (n, t) -> isbase n = true ->
    nth_error l i = Some x -> q <> [] -> addr tail t x q t' z y x' ->
    addr tail (TStruct fs) (VL l) q t' z y (VL (set_at l i x'))
| at_first : forall a b u w q t' z y u', addr tail a u q t' z y u' ->
    addr tail (TPair a b) (VP u w) (bs ".first" ++ q) t' z y (VP u' w)
| at_second : forall a b u w q t' z y w', addr tail b w q t' z y w' ->
    addr tail (TPair a b) (VP u w) (bs ".second" ++ q) t' z y (VP u w')
| at_elem : forall fx t l i x q t' z y x', nth_error l i = Some x -> (N.of_nat i < 2 ^ 31)%N -> addr tail t x q t' z y x' ->
    addr tail (TSeq fx t) (VL l) (bs ".@elem." ++ dec (N.of_nat i) ++ q) t' z y (VL (set_at l i x'))
| at_target : forall t x q t' z y x', addr tail t x q t' z y x' -> q ++ tail <> [] -> ~ special (q ++ tail) ->
    addr tail (TPtr t) (VPtr x) q t' z y (VPtr x').

Section C92.
Variable klt : nat -> jval -> jval -> bool.
Variable narrow : N -> N.
Variable i2d : Z -> N.
Variable i2f : Z -> N.
Variable d2z : bool -> Z -> N -> option Z.
Variable d2b : N -> bool.
Variable tname : jty -> list ascii.
Variable ename : list (list ascii * Z) -> list ascii.
Notation reg := (reg klt narrow i2d i2f d2z d2b tname ename).
Notation run := (run tname).
Notation mapAndProcess := (mapAndProcess tname).
Notation rest := (rest klt narrow i2d i2f d2z d2b tname ename).
Notation conv := (conv klt narrow i2d i2f d2z d2b).

Lemma addr_path : forall tail t v q t' x y v', addr tail t v q t' x y v' -> rwf t ->
  rwf t' /\ (q = [] \/ exists m q', q = dot :: m ++ q' /\ tailp q' /\ (forall bf, t = TStruct bf -> In m (tops t))).
Proof.
  assert (T : forall q, (q = [] \/ exists m q', q = dot :: m ++ q' /\ tailp q') -> tailp q).
  { intros q [->|(m & q' & -> & _)]; [now left|]. right. eexists. reflexivity. }
  intros tail t v q t' x y v' H. induction H; intros W.
  - split; [exact W|now left].
  - destruct (fnth_rwf fs i n t (proj2 W) H) as (Dn & _ & W1). destruct (IHaddr W1) as [W2 P]. split; [exact W2|]. right.
    exists n, q. split; [reflexivity|]. split; [apply T; destruct P as [P|(m & q' & P & P' & _)]; [now left|right; eauto]|].
    intros bf _. cbn [tops]. apply answers_in with (i := i) (n := n) (t := t); [exact H|]. unfold answers. now rewrite H0.
  - destruct (fnth_rwf fs i n t (proj2 W) H) as (Dn & Bn & W1). destruct (IHaddr W1) as [W2 P]. split; [exact W2|].
    destruct P as [P|(m & q' & P & P' & I)]; [contradiction|]. right. exists m, q'. split; [exact P|]. split; [exact P'|].
    intros bf' _. destruct (Bn H0) as [bf ->]. cbn [tops]. apply answers_in with (i := i) (n := n) (t := TStruct bf); [exact H|].
    unfold answers. rewrite H0. now apply (I bf).
  - destruct (IHaddr (proj1 W)) as [W2 P]. split; [exact W2|]. right. exists (bs "first"), q. split; [reflexivity|].
    split; [apply T; destruct P as [P|(m & q' & P & P' & _)]; [now left|right; eauto]|discriminate].
  - destruct (IHaddr (proj2 W)) as [W2 P]. split; [exact W2|]. right. exists (bs "second"), q. split; [reflexivity|].
    split; [apply T; destruct P as [P|(m & q' & P & P' & _)]; [now left|right; eauto]|discriminate].
  - destruct (IHaddr W) as [W2 P]. split; [exact W2|]. right. exists (bs "@elem"), (dot :: dec (N.of_nat i) ++ q).
    split; [reflexivity|]. split; [right; eexists; reflexivity|discriminate].
  - destruct (IHaddr W) as [W2 P]. split; [exact W2|]. destruct P as [P|(m & q' & P & P' & _)]; [now left|right].
    exists m, q'. split; [exact P|]. split; [exact P'|discriminate].
Qed.
Lemma addr_tailp : forall tail t v q t' x y v', addr tail t v q t' x y v' -> rwf t -> tailp q.
Proof.
  intros tail t v q t' x y v' H W. destruct (addr_path _ _ _ _ _ _ _ _ H W) as [_ [->|(m & q' & -> & _)]]; [now left|].
  right. eexists. reflexivity.
Qed.
Lemma lift_eq : forall put (p : jval * jr out) y r, p = (y, r) -> lift put p = (put y, r).
Proof. intros put p y r ->. reflexivity. Qed.
Lemma set_upd : forall l i (x y : jval), nth_error l i = Some x -> update l i y = set_at l i y.
Proof. intros l i x y H. apply upd_set. apply nth_error_Some. congruence. Qed.
Lemma addr_map : forall tail args t v q t' x y v', addr tail t v q t' x y v' -> rwf t -> tailp tail ->
  (forall ks, t' = TEnum ks -> tail = [] \/ special tail) ->
  forall r, mapAndProcess (reg t' [] []) x tail args = (y, r) -> mapAndProcess (reg t [] []) v (q ++ tail) args = (v', r).
Proof.
  intros tail args t v q t' x y v' H. induction H; intros W Tt He r E.
  - exact E.
  - destruct (fnth_rwf fs i n t (proj2 W) H) as (Dn & _ & W1).
    assert (Tq := addr_tailp _ _ _ _ _ _ _ _ H2 W1).
    rewrite <- (set_upd l i x x' H1).
    cbn [app]. rewrite <- app_assoc.
    rewrite (step_member klt narrow i2d i2f d2z d2b tname ename fs l i n t x dot [] (q ++ tail) args W H H0 H1 (tailp_app _ _ Tq Tt)) by discriminate.
    assert (K : forall ks, t = TEnum ks -> q ++ tail = [] \/ special (q ++ tail)).
    { intros ks ->. inversion H2; subst. cbn [app]. eauto. }
    rewrite (run_map klt narrow i2d i2f d2z d2b tname ename t dot [] (q ++ tail) x args W1 ltac:(discriminate) (tailp_app _ _ Tq Tt) K).
    exact (lift_eq (fun y => VL (update l i y)) _ _ _ (IHaddr W1 Tt He r E)).
  - destruct (fnth_rwf fs i n t (proj2 W) H) as (Dn & Bn & W1). destruct (Bn H0) as [bf ->].
    destruct (addr_path _ _ _ _ _ _ _ _ H3 W1) as [_ [->|(m & q' & -> & Tq' & I)]]; [contradiction|].
    rewrite <- (set_upd l i x x' H1). specialize (IHaddr W1 Tt He r E). cbn [app] in *. rewrite <- app_assoc in *.
    rewrite (step_base klt narrow i2d i2f d2z d2b tname ename fs l i n (TStruct bf) x m (q' ++ tail) args W H H0 H1 (I bf eq_refl) (tailp_app _ _ Tq' Tt)).
    exact (lift_eq (fun y => VL (update l i y)) _ _ _ IHaddr).
  - assert (Tq := addr_tailp _ _ _ _ _ _ _ _ H (proj1 W)). rewrite <- app_assoc.
    rewrite (step_first klt narrow i2d i2f d2z d2b tname ename a b u w dot [] (q ++ tail) args (proj1 W) (proj2 W) (tailp_app _ _ Tq Tt)) by discriminate.
    assert (K : forall ks, a = TEnum ks -> q ++ tail = [] \/ special (q ++ tail)).
    { intros ks ->. inversion H; subst. cbn [app]. eauto. }
    rewrite (run_map klt narrow i2d i2f d2z d2b tname ename a dot [] (q ++ tail) u args (proj1 W) ltac:(discriminate) (tailp_app _ _ Tq Tt) K).
    exact (lift_eq (fun y => VP y w) _ _ _ (IHaddr (proj1 W) Tt He r E)).
  - assert (Tq := addr_tailp _ _ _ _ _ _ _ _ H (proj2 W)). rewrite <- app_assoc.
    rewrite (step_second klt narrow i2d i2f d2z d2b tname ename a b u w dot [] (q ++ tail) args (proj1 W) (proj2 W) (tailp_app _ _ Tq Tt)) by discriminate.
    assert (K : forall ks, b = TEnum ks -> q ++ tail = [] \/ special (q ++ tail)).
    { intros ks ->. inversion H; subst. cbn [app]. eauto. }
    rewrite (run_map klt narrow i2d i2f d2z d2b tname ename b dot [] (q ++ tail) w args (proj2 W) ltac:(discriminate) (tailp_app _ _ Tq Tt) K).
    exact (lift_eq (fun y => VP u y) _ _ _ (IHaddr (proj2 W) Tt He r E)).
  - assert (Tq := addr_tailp _ _ _ _ _ _ _ _ H1 W). rewrite <- !app_assoc. rewrite <- (set_upd l i x x' H).
    rewrite (step_elem klt narrow i2d i2f d2z d2b tname ename fx t l i x (q ++ tail) args W H H0 (tailp_app _ _ Tq Tt)).
    exact (lift_eq (fun y => VL (update l i y)) _ _ _ (IHaddr W Tt He r E)).
  - assert (Tq := addr_tailp _ _ _ _ _ _ _ _ H W).
    rewrite (step_target klt narrow i2d i2f d2z d2b tname ename t x (q ++ tail) args W (tailp_app _ _ Tq Tt) H0 H1).
    exact (lift_eq VPtr _ _ _ (IHaddr W Tt He r E)).
Qed.
(** A command sent to a sub-object by its path is the command sent to that object
    registered alone, under whatever name; the object around it is otherwise unchanged.
    Enums ignore what follows their name, but only as members. *)
Theorem C92_path : forall t v q tail t' x y v' args r c d c' d', rwf t -> tailp tail ->
  addr tail t v q t' x y v' -> (forall ks, t' = TEnum ks -> tail = [] \/ special tail) ->
  c <> "@"%char -> c' <> "@"%char ->
  rest (c' :: d') t' x (c' :: d' ++ tail) args = (y, r) ->
  rest (c :: d) t v (c :: d ++ q ++ tail) args = (v', r).
Proof.
  intros t v q tail t' x y v' args r c d c' d' W Tt A He Hc Hc' E. unfold rest in *.
  assert (Tq := addr_tailp _ _ _ _ _ _ _ _ A W). destruct (addr_path _ _ _ _ _ _ _ _ A W) as [W' _].
  change (c' :: d' ++ tail) with ((c' :: d') ++ tail) in E.
  rewrite (run_map klt narrow i2d i2f d2z d2b tname ename t' c' d' tail x args W' Hc' Tt He) in E.
  change (c :: d ++ q ++ tail) with ((c :: d) ++ q ++ tail).
  rewrite (run_map klt narrow i2d i2f d2z d2b tname ename t c d (q ++ tail) v args W Hc (tailp_app _ _ Tq Tt)).
  - now apply (addr_map tail args t v q t' x y v').
  - intros ks ->. inversion A; subst. cbn [app]. eauto.
Qed.

(** *** Reading *)
(** what is answered for an object *)
Definition shown (t : jty) (v : jval) : out :=
  match t, v with
  | TEnum ks, VI z => OVal TStr (VS (ek_sym (ek_make ks) z))
  | TPtr t', VPtr x => OVal t' x
  | TPtr _, _ => OVoid
  | _, _ => OVal t v
  end.
(** the value has the constructor its type asks for *)
Definition proper (t : jty) (v : jval) : Prop :=
  match t with
  | TEnum _ => exists z, v = VI z
  | TSeq _ _ => exists l, v = VL l
  | TPtr _ => v = VNul \/ exists x, v = VPtr x
  | _ => True
  end.
Lemma read_here : forall t v args, rwf t -> proper t v -> args = JNull \/ args = JArr [] ->
  mapAndProcess (reg t [] []) v [] args = (v, JOk (shown t v)).
Proof.
  intros t v args W P Ha. rewrite map_empty by exact W.
  assert (O : forall t0 inner, act_obj klt narrow i2d i2f d2z d2b tname t0 inner v [] args = (v, JOk (OVal t0 v))).
  { intros t0 inner. unfold act_obj, set_from. now destruct Ha as [->| ->]. }
  destruct t; try contradiction; cbn [rootent eact]; try apply O.
  - destruct P as [z ->]. unfold act_enum. cbn [beq]. now destruct Ha as [->| ->].
  - destruct P as [l ->]. unfold act_seq, seq_process.
    replace (startsWith [] (bs ".@elem")) with false by reflexivity.
    replace (startsWith [] (bs ".@insert")) with false by reflexivity.
    replace (startsWith [] (bs ".@erase")) with false by reflexivity.
    cbn [negb andb orb]. rewrite Bool.andb_false_r. unfold sequenceProcess.
    now destruct Ha as [->| ->].
  - unfold act_ptr. destruct P as [->|[x ->]]; [reflexivity|]. unfold set_from. now destruct Ha as [->| ->].
Qed.
Lemma set_at_same : forall l i x, nth_error l i = Some x -> set_at l i x = l.
Proof. intros l i x H. rewrite <- (set_upd l i x x H). now apply update_same. Qed.
Lemma addr_same : forall tail t v q t' x y v', addr tail t v q t' x y v' -> x = y -> v' = v.
Proof.
  intros tail t v q t' x y v' H. induction H; intros E.
  - now symmetry.
  - rewrite (IHaddr E). now rewrite set_at_same.
  - rewrite (IHaddr E). now rewrite set_at_same.
  - now rewrite (IHaddr E).
  - now rewrite (IHaddr E).
  - rewrite (IHaddr E). now rewrite set_at_same.
  - now rewrite (IHaddr E).
Qed.
(** Without arguments the value of the sub-object is answered and nothing changes; as
    JSON it is the document of that value. *)
Theorem C92_read : forall t v q t' x v' args c d, rwf t -> addr [] t v q t' x x v' -> proper t' x -> c <> "@"%char ->
  args = JNull \/ args = JArr [] ->
  rest (c :: d) t v (c :: d ++ q) args = (v, JOk (shown t' x)).
Proof.
  intros t v q t' x v' args c d W A P Hc Ha.
  assert (V := addr_same _ _ _ _ _ _ _ _ A eq_refl). subst v'.
  destruct (addr_path _ _ _ _ _ _ _ _ A W) as [W' _].
  assert (E := C92_path t v q [] t' x x v args (JOk (shown t' x)) c d dot [] W (or_introl eq_refl) A (fun ks _ => or_introl eq_refl) Hc).
  rewrite (app_nil_r q) in E. apply E; [discriminate|]. unfold rest.
  change (dot :: [] ++ []) with ([dot] ++ []).
  rewrite (run_map klt narrow i2d i2f d2z d2b tname ename t' dot [] [] x args W' ltac:(discriminate) (or_introl eq_refl) (fun ks _ => or_introl eq_refl)).
  now apply read_here.
Qed.
Theorem C92_read_json : forall t x, wf true t -> ht klt narrow t x -> (forall t', t = TPtr t' -> x <> VNul) ->
  exists t0 x0 s, shown t x = OVal t0 x0 /\ pack t0 fresh [] x0 = JOk s /\ jo s = enc t x.
Proof.
  intros t x W H Np.
  assert (O : forall t0 x0, wf true t0 -> ht klt narrow t0 x0 -> exists s, pack t0 fresh [] x0 = JOk s /\ jo s = enc t0 x0).
  { intros t0 x0. apply C21_tree_partial. }
  destruct t; try (match type of W with wf true ?t0 => destruct (O t0 x W H) as (s & P & J); exists t0, x, s end;
    split; [reflexivity|split; [exact P|exact J]]).
  - destruct x; try contradiction. match goal with |- context [shown _ (VI ?z)] =>
      destruct (O TStr (VS (ek_sym (ek_make ks) z)) Logic.I Logic.I) as (s & P & J); exists TStr, (VS (ek_sym (ek_make ks) z)), s end.
    split; [reflexivity|]. split; [exact P|exact J].
  - destruct x; try contradiction; [now destruct (Np t eq_refl)|]. cbn [shown].
    destruct (O t x W H) as (s & P & J). exists t, x, s. split; [reflexivity|]. split; [exact P|exact J].
Qed.

(** *** Writing *)
(** what can be assigned to: pointers keep pointing to the same object *)
Fixpoint assignable (t : jty) (x w : jval) : Prop :=
  match t, x, w with
  | TPtr t', VPtr x', VPtr w' => assignable t' x' w'
  | TPtr _, _, _ => False
  | _, _, _ => shape t x
  end.
Lemma wrap64 : forall w sgn bits z, intty w sgn bits = true -> inrange sgn bits z -> wrap sgn bits (wrap_via ViaI64 z) = z.
Proof.
  intros w sgn bits z H R. unfold intty in H.
  assert (B : (bits = 8 \/ bits = 16 \/ bits = 32 \/ bits = 64)%Z) by (destruct w, sgn; lia).
  destruct B as [->|[->|[->| ->]]]; destruct sgn; clear H;
    unfold inrange in R; cbn in R; unfold wrap_via, wrap; cbn [Z.sub Z.pow Z.pow_pos Pos.iter Z.mul Z.opp Z.pos_sub];
    repeat match goal with |- context [(2 ^ ?n)%Z] => let v := eval vm_compute in (2 ^ n)%Z in change (2 ^ n)%Z with v end;
    clear - R; Z.div_mod_to_equations; lia.
Qed.
Lemma conv_enc : forall t x w, rwf t -> wf true t -> ht klt narrow t w -> assignable t x w ->
  conv t x (enc t w) = (w, JOk tt).
Proof.
  assert (U : forall t x w, wf true t -> ht klt narrow t w -> shape t x -> unpack klt narrow i2d false t (enc t w) [] x = JOk w).
  { intros t x w W H Sh. now apply unpack_root. }
  induction t; intros x u R W H A; try contradiction; destruct u; try contradiction; cbn [RestObj_Model.conv enc].
  - now destruct b.
  - reflexivity.
  - cbn [assign_int]. cbn [ht wf] in *. now rewrite wrap64 with (w := w).
  - cbn [assign_real]. cbn [ht] in H. now rewrite H.
  - reflexivity.
  - reflexivity.
  - unfold unpack_leaf, find_or.
    change (json_find (JStr (ek_sym (ek_make ks) z)) []) with (FOk (JStr (ek_sym (ek_make ks) z))). cbn [get_value].
    destruct W as [W1 W2]. rewrite C33_value_symbol_value; auto.
  - assert (E := U (TSeq fixed t) x (VL l) W H A). cbn [enc] in E. now rewrite E.
  - assert (E := U (TPair t1 t2) x (VP u1 u2) W H A). cbn [enc] in E. now rewrite E.
  - assert (E := U (TStruct fs) x (VL l) W H A). cbn [enc] in E. now rewrite E.
  - destruct x; contradiction.
  - destruct x; try contradiction. cbn [ht wf rwf assignable] in *. rewrite (IHt x u R W H A). reflexivity.
Qed.
(** the JSON document of a value assigns that value *)
Lemma write_here : forall t x w args, rwf t -> wf true t -> ht klt narrow t w -> assignable t x w ->
  args = JArr [enc t w] \/ (args = enc t w /\ (forall l, args <> JArr l)) ->
  mapAndProcess (reg t [] []) x [] args = (w, JOk (shown t w)).
Proof.
  intros t x w args R W H A Ha. rewrite map_empty by exact R.
  assert (Nn : forall t w, rwf t -> ht klt narrow t w -> enc t w <> JNull).
  { clear. induction t; intros u R H; try contradiction; destruct u; try contradiction; cbn [enc] in *; try discriminate. now apply IHt. }
  assert (F : forall t x w, rwf t -> wf true t -> ht klt narrow t w -> assignable t x w ->
     args = JArr [enc t w] \/ (args = enc t w /\ (forall l, args <> JArr l)) ->
     set_from klt narrow i2d i2f d2z d2b t x args = (w, JOk tt)).
  { clear - Nn. intros t x w R W H A [->|[-> Hl]]; unfold set_from.
    - now apply conv_enc.
    - specialize (Nn t w R H). assert (E := conv_enc t x w R W H A). destruct (enc t w); try exact E; [congruence|now destruct (Hl l)]. }
  destruct t; try contradiction; cbn [rootent eact].
  1-6, 9-10: unfold RestObj_Model.root, root_act, act_obj; cbn [eact]; now rewrite (F _ x w R W H A Ha).
  - destruct w; try contradiction. destruct W as [W1 W2]. unfold act_enum. cbn [beq bs].
    assert (V : ek_val (ek_make ks) (ek_sym (ek_make ks) z) = z) by (apply C33_value_symbol_value; auto).
    destruct Ha as [->|[-> _]]; cbn [enc].
    + unfold unpack_leaf, find_or.
      change (json_find (JStr (ek_sym (ek_make ks) z)) []) with (FOk (JStr (ek_sym (ek_make ks) z))). cbn [get_value].
      rewrite V. reflexivity.
    + rewrite V. reflexivity.
  - destruct w; try contradiction. destruct Ha as [->|[-> Hl]]; [|now destruct (Hl (map (enc t) l))].
    destruct x; try contradiction. unfold act_seq, seq_process.
    replace (startsWith [] (bs ".@elem")) with false by reflexivity.
    replace (startsWith [] (bs ".@insert")) with false by reflexivity.
    replace (startsWith [] (bs ".@erase")) with false by reflexivity.
    cbn [negb andb orb]. rewrite Bool.andb_false_r. unfold sequenceProcess. cbn [enc].
    assert (E := conv_enc (TSeq fixed t) (VL l0) (VL l) R W H A). cbn [enc] in E. rewrite E. reflexivity.
  - destruct x, w; try contradiction. unfold act_ptr. cbn [rwf wf ht assignable enc] in *. now rewrite (F t x w R W H A Ha).
Qed.
(** Assigning a value to a sub-object, as its JSON document or as the only element of an
    array, makes it that value and answers it; the rest of the object is untouched.
    The arguments are taken apart first: a JSON array must be given inside an array. *)
Theorem C92_write : forall t v q t' x w v' args c d, rwf t -> addr [] t v q t' x w v' ->
  wf true t' -> ht klt narrow t' w -> assignable t' x w -> c <> "@"%char ->
  args = JArr [enc t' w] \/ (args = enc t' w /\ (forall l, args <> JArr l)) ->
  rest (c :: d) t v (c :: d ++ q) args = (v', JOk (shown t' w)).
Proof.
  intros t v q t' x w v' args c d R A W H As Hc Ha.
  destruct (addr_path _ _ _ _ _ _ _ _ A R) as [R' _].
  assert (E := C92_path t v q [] t' x w v' args (JOk (shown t' w)) c d dot [] R (or_introl eq_refl) A (fun ks _ => or_introl eq_refl) Hc).
  rewrite (app_nil_r q) in E. apply E; [discriminate|]. unfold rest.
  change (dot :: [] ++ []) with ([dot] ++ []).
  rewrite (run_map klt narrow i2d i2f d2z d2b tname ename t' dot [] [] x args R' ltac:(discriminate) (or_introl eq_refl) (fun ks _ => or_introl eq_refl)).
  now apply write_here.
Qed.
(** the object around a replaced sub-object still has it at the same path *)
Lemma nth_set_at : forall l i (x y : jval), nth_error l i = Some x -> nth_error (set_at l i y) i = Some y.
Proof.
  unfold set_at. induction l as [|z l IH]; intros [|i] x y H; cbn [nth_error firstn skipn app] in *; try discriminate; [reflexivity|].
  now apply IH with (x := x).
Qed.
Lemma set_set_at : forall l i (x y z : jval), nth_error l i = Some x -> set_at (set_at l i y) i z = set_at l i z.
Proof.
  unfold set_at. induction l as [|u l IH]; intros [|i] x y z H; cbn [nth_error firstn skipn app] in *; try discriminate; [reflexivity|].
  f_equal. now apply IH with (x := x).
Qed.
Lemma addr_again : forall tail t v q t' x y v', addr tail t v q t' x y v' -> forall z, exists v'',
  addr tail t v' q t' y z v'' /\ addr tail t v q t' x z v''.
Proof.
  intros tail t v q t' x y v' H. induction H; intros uu.
  - exists uu. split; constructor.
  - destruct (IHaddr uu) as (w & A & B). exists (VL (set_at l i w)). split.
    + rewrite <- (set_set_at l i x x' w H1). apply at_member with (i := i) (t := t) (x := x'); auto. now apply nth_set_at with (x := x).
    + now apply at_member with (i := i) (t := t) (x := x).
  - destruct (IHaddr uu) as (w & A & B). exists (VL (set_at l i w)). split.
    + rewrite <- (set_set_at l i x x' w H1). apply at_base with (n := n) (t := t) (x := x'); auto. now apply nth_set_at with (x := x).
    + now apply at_base with (n := n) (t := t) (x := x).
  - destruct (IHaddr uu) as (w' & A & B). exists (VP w' w). split; now constructor.
  - destruct (IHaddr uu) as (w'' & A & B). exists (VP u w''). split; now constructor.
  - destruct (IHaddr uu) as (w & A & B). exists (VL (set_at l i w)). split.
    + rewrite <- (set_set_at l i x x' w H). apply at_elem with (x := x'); auto. now apply nth_set_at with (x := x).
    + now apply at_elem with (x := x).
  - destruct (IHaddr uu) as (w & A & B). exists (VPtr w). split; now constructor.
Qed.
Lemma ht_proper : forall t w, ht klt narrow t w -> proper t w.
Proof. intros t w H. destruct t; cbn [proper]; auto; destruct w; try contradiction; eauto. Qed.
(** what was assigned is what is read afterwards *)
Theorem C92_write_read : forall t v q t' x w v' c d, rwf t -> addr [] t v q t' x w v' ->
  wf true t' -> ht klt narrow t' w -> assignable t' x w -> c <> "@"%char ->
  let '(v1, _) := rest (c :: d) t v (c :: d ++ q) (JArr [enc t' w]) in
  rest (c :: d) t v1 (c :: d ++ q) JNull = (v1, JOk (shown t' w)).
Proof.
  intros t v q t' x w v' c d R A W H As Hc.
  rewrite (C92_write t v q t' x w v' (JArr [enc t' w]) c d R A W H As Hc (or_introl eq_refl)).
  destruct (addr_again _ _ _ _ _ _ _ _ A w) as (v'' & A' & _).
  apply (C92_read t v' q t' w v''); auto. now apply ht_proper.
Qed.
End C92.

(** ** Examples *)
Definition i2f0 (z : Z) : N := Z.to_N (Z.abs z).
Definition d2z0 (_ : bool) (_ : Z) (d : N) : option Z := if (d <? 100)%N then Some (Z.of_N d) else None.
Definition d2b0 (d : N) : bool := negb (d =? 0)%N.
Definition tname0 (_ : jty) : list ascii := bs "T".
Definition ename0 (_ : list (list ascii * Z)) : list ascii := bs "Colour".
Definition rest0 := rest no_klt idN i2d0 i2f0 d2z0 d2b0 tname0 ename0.
Definition colour : list (list ascii * Z) := [(bs "red", 0%Z); (bs "green", 1%Z)].
(** struct B {double y;}; struct P {bool z;};
    struct T: B {int x; string s; vector<pair<int,string>> l; shared_ptr<P> p; Colour e;}; *)
Definition tb : jty := TStruct (FCons (bs "y") TDbl FNil).
Definition tp : jty := TStruct (FCons (bs "z") TBool FNil).
Definition tl_ : jty := TSeq None (TPair tint TStr).
Definition tt_ : jty := TStruct (FCons (bs "base_B") tb (FCons (bs "x") tint (FCons (bs "s") TStr (FCons (bs "l") tl_
  (FCons (bs "p") (TPtr tp) (FCons (bs "e") (TEnum colour) FNil)))))).
Definition vt (x : Z) (y : N) (w : list ascii) (z : bool) (e : Z) : jval :=
  VL [VL [VD y]; VI x; VS (bs "str"); VL [VP (VI 1) (VS (bs "one")); VP (VI 2) (VS w)]; VPtr (VL [VB z]); VI e].
Definition v0 : jval := vt 5 7 (bs "two") true 1.
Lemma tt_wf : rwf tt_.
Proof.
  split.
  - change (tops_flds _) with [bs "y"; bs "x"; bs "s"; bs "l"; bs "p"; bs "e"].
    repeat (constructor; [intros H; repeat (destruct H as [H|H]; [discriminate H|]); exact H|]). constructor.
  - assert (D : forall n, nodotb n = true -> dotless n) by exact nodotb_ok.
    assert (One : forall n : list ascii, NoDup [n] /\ True).
    { intros n. split; [constructor; [intros []|constructor]|exact Logic.I]. }
    split; [now apply D|]. split; [intros _; eexists; reflexivity|].
    split; [split; [exact (proj1 (One _))|split; [now apply D|split; [discriminate|split; exact Logic.I]]]|].
    split; [now apply D|]. split; [discriminate|]. split; [exact Logic.I|].
    split; [now apply D|]. split; [discriminate|]. split; [exact Logic.I|].
    split; [now apply D|]. split; [discriminate|]. split; [split; exact Logic.I|].
    split; [now apply D|]. split; [discriminate|].
    split; [split; [exact (proj1 (One _))|split; [now apply D|split; [discriminate|split; exact Logic.I]]]|].
    split; [now apply D|]. split; [discriminate|]. split; [exact Logic.I|]. exact Logic.I.
Qed.
(** the string in the second element of l *)
Lemma addr_ex : forall tail w, addr tail tt_ v0 (bs ".l.@elem.1.second") TStr (VS (bs "two")) (VS w) (vt 5 7 w true 1).
Proof.
  intros tail w. change (vt 5 7 w true 1) with (VL (set_at [VL [VD 7]; VI 5; VS (bs "str"); VL [VP (VI 1) (VS (bs "one")); VP (VI 2) (VS (bs "two"))]; VPtr (VL [VB true]); VI 1] 3
     (VL (set_at [VP (VI 1) (VS (bs "one")); VP (VI 2) (VS (bs "two"))] 1 (VP (VI 2) (VS w)))))).
  change (bs ".l.@elem.1.second") with (dot :: bs "l" ++ bs ".@elem." ++ dec (N.of_nat 1) ++ bs ".second" ++ []).
  apply at_member with (t := tl_) (x := VL [VP (VI 1) (VS (bs "one")); VP (VI 2) (VS (bs "two"))]); try reflexivity.
  apply at_elem with (x := VP (VI 2) (VS (bs "two"))); try reflexivity.
  apply at_second. apply at_here.
Qed.
(** a member of the target of p, and of the base class *)
Lemma addr_ex2 : forall tail b, addr tail tt_ v0 (bs ".p.z") TBool (VB true) (VB b) (vt 5 7 (bs "two") b 1).
Proof.
  intros tail b. change (vt 5 7 (bs "two") b 1) with (VL (set_at [VL [VD 7]; VI 5; VS (bs "str"); VL [VP (VI 1) (VS (bs "one")); VP (VI 2) (VS (bs "two"))]; VPtr (VL [VB true]); VI 1] 4
     (VPtr (VL (set_at [VB true] 0 (VB b)))))).
  change (bs ".p.z") with (dot :: bs "p" ++ dot :: bs "z" ++ []).
  apply at_member with (t := TPtr tp) (x := VPtr (VL [VB true])); try reflexivity.
  apply at_target; [|discriminate|intros [H|[H|H]]; discriminate H].
  apply at_member with (t := TBool) (x := VB true); try reflexivity. apply at_here.
Qed.
Lemma addr_ex3 : forall tail y, addr tail tt_ v0 (bs ".y") TDbl (VD 7) (VD y) (vt 5 y (bs "two") true 1).
Proof.
  intros tail y. change (vt 5 y (bs "two") true 1) with (VL (set_at [VL [VD 7]; VI 5; VS (bs "str"); VL [VP (VI 1) (VS (bs "one")); VP (VI 2) (VS (bs "two"))]; VPtr (VL [VB true]); VI 1] 0
     (VL (set_at [VD 7] 0 (VD y))))).
  apply at_base with (n := bs "base_B") (t := tb) (x := VL [VD 7]); try reflexivity; [discriminate|].
  change (bs ".y") with (dot :: bs "y" ++ []). apply at_member with (t := TDbl) (x := VD 7); try reflexivity. apply at_here.
Qed.
Example C92_path_ex : rwf tt_ /\ addr [] tt_ v0 (bs ".l.@elem.1.second") TStr (VS (bs "two")) (VS (bs "2")) (vt 5 7 (bs "2") true 1) /\
  rest0 (bs "o") TStr (VS (bs "two")) (bs "o") (JStr (bs "2")) = (VS (bs "2"), JOk (OVal TStr (VS (bs "2")))) /\
  rest0 (bs "obj") tt_ v0 (bs "obj.l.@elem.1.second") (JStr (bs "2")) = (vt 5 7 (bs "2") true 1, JOk (OVal TStr (VS (bs "2")))).
Proof. split; [exact tt_wf|]. split; [apply addr_ex|]. split; vm_compute; reflexivity. Qed.
Print Assumptions C92_path.
Example C92_read_ex : addr [] tt_ v0 (bs ".y") TDbl (VD 7) (VD 7) v0 /\ proper TDbl (VD 7) /\
  rest0 (bs "obj") tt_ v0 (bs "obj.y") JNull = (v0, JOk (OVal TDbl (VD 7))).
Proof. split; [apply addr_ex3|]. split; [exact Logic.I|]. vm_compute. reflexivity. Qed.
Print Assumptions C92_read.
Example C92_read_json_ex : wf true (TEnum colour) /\ ht no_klt idN (TEnum colour) (VI 1) /\
  shown (TEnum colour) (VI 1) = OVal TStr (VS (bs "green")) /\ enc (TEnum colour) (VI 1) = JStr (bs "green").
Proof.
  split; [|split; [right; left; reflexivity|split; vm_compute; reflexivity]].
  split; [repeat (constructor; [intros H; repeat (destruct H as [H|H]; [discriminate H|]); exact H|]); constructor|].
  repeat constructor.
Qed.
Print Assumptions C92_read_json.
Example C92_write_ex : addr [] tt_ v0 (bs ".p.z") TBool (VB true) (VB false) (vt 5 7 (bs "two") false 1) /\
  wf true TBool /\ ht no_klt idN TBool (VB false) /\ assignable TBool (VB true) (VB false) /\
  rest0 (bs "obj") tt_ v0 (bs "obj.p.z") (JBool false) = (vt 5 7 (bs "two") false 1, JOk (OVal TBool (VB false))).
Proof. split; [apply addr_ex2|]. split; [exact Logic.I|]. split; [exact Logic.I|]. split; [exact Logic.I|]. vm_compute. reflexivity. Qed.
Print Assumptions C92_write.
Example C92_write_read_ex : let '(v1, _) := rest0 (bs "obj") tt_ v0 (bs "obj.p.z") (JArr [JBool false]) in
  rest0 (bs "obj") tt_ v1 (bs "obj.p.z") JNull = (v1, JOk (OVal TBool (VB false))).
Proof. vm_compute. reflexivity. Qed.
Print Assumptions C92_write_read.

(** A null pointer answers void to anything, even to a member that does not exist. *)
Theorem C92_null_pointer : forall klt narrow i2d i2f d2z d2b tname ename t q args c d, tailp q -> c <> "@"%char -> ~ special q -> rwf t ->
  rest klt narrow i2d i2f d2z d2b tname ename (c :: d) (TPtr t) VNul (c :: d ++ q) args = (VNul, JOk OVoid).
Proof.
  intros klt narrow i2d i2f d2z d2b tname ename t q args c d Tq Hc Ns W. unfold rest. change (c :: d ++ q) with ((c :: d) ++ q).
  rewrite (run_resolved klt narrow i2d i2f d2z d2b tname ename (TPtr t) c d q [] q _ VNul args Hc Tq (only_root klt narrow i2d i2f d2z d2b tname ename (TPtr t) q W Tq eq_refl)).
  unfold serve, served. unfold special in Ns.
  destruct (list_eq_dec ascii_dec q (bs ".@signature")); [tauto|].
  destruct (list_eq_dec ascii_dec q (bs ".@list")); [tauto|].
  destruct (list_eq_dec ascii_dec q (bs ".@type")); [tauto|]. reflexivity.
Qed.
Example C92_null_pointer_ex : rest0 (bs "o") (TPtr tp) VNul (bs "o.nonsense.@elem.7") (JInt 3) = (VNul, JOk OVoid).
Proof. vm_compute. reflexivity. Qed.
Print Assumptions C92_null_pointer.

(** RESTProcessEnum::process ignores what follows the name of the member, so that a
    misspelt command assigns the enum; on an enum alone the same command is an error. *)
Theorem C92_enum_suffix_refuted : exists q, rest0 (bs "obj") tt_ v0 q (JStr (bs "red")) = (vt 5 7 (bs "two") true 0, JOk (OVal TStr (VS (bs "red"))))
  /\ q = bs "obj.e.nonsense" /\
  mapAndProcess tname0 (reg no_klt idN i2d0 i2f0 d2z0 d2b0 tname0 ename0 (TEnum colour) [] []) (VI 1) (bs ".nonsense") (JStr (bs "red")) = (VI 1, JErr EOther).
Proof. exists (bs "obj.e.nonsense"). split; [vm_compute; reflexivity|]. split; vm_compute; reflexivity. Qed.
Print Assumptions C92_enum_suffix_refuted.
(** An integer is ignored by an enum member, without an error. *)
Theorem C92_enum_integer_refuted : exists z, z <> 1%Z /\
  rest0 (bs "obj") tt_ v0 (bs "obj.e") (JInt z) = (v0, JOk (OVal TStr (VS (bs "green")))).
Proof. exists 0%Z. split; [discriminate|]. vm_compute. reflexivity. Qed.
Print Assumptions C92_enum_integer_refuted.
(** A number assigned to a string becomes a string of one character: [std::string] is
    assignable from [char]. *)
Theorem C92_string_number_refuted : exists v', rest0 (bs "s") TStr (VS (bs "str")) (bs "s") (JInt 65) = (v', JOk (OVal TStr v')) /\ v' = VS (bs "A").
Proof. exists (VS (bs "A")). split; [vm_compute; reflexivity|reflexivity]. Qed.
Print Assumptions C92_string_number_refuted.
(** A JSON array given as it is to a sequence is taken apart: its first element, a
    number, is given to the sequence, which ignores it without an error. *)
Theorem C92_sequence_refuted : exists l, rest0 (bs "v") (TSeq None tint) (VL [VI 7]) (bs "v") (JArr l) = (VL [VI 7], JOk (OVal (TSeq None tint) (VL [VI 7])))
  /\ l = [JInt 1; JInt 2; JInt 3].
Proof. exists [JInt 1; JInt 2; JInt 3]. split; [vm_compute; reflexivity|reflexivity]. Qed.
Print Assumptions C92_sequence_refuted.
(** An integer of 2^63 or more goes through int64_t on its way to a double. *)
Theorem C92_large_integer_refuted : exists z, (2 ^ 63 <= z < 2 ^ 64)%Z /\ forall klt narrow i2d i2f d2z d2b tname ename d,
  conv klt narrow i2d i2f d2z d2b TDbl (VD d) (JInt z) = (VD (i2d (-9223372036854775808)%Z), JOk tt) /\
  rest klt narrow i2d i2f d2z d2b tname ename (bs "v") TDbl (VD d) (bs "v") (JInt z) =
  (VD (i2d (-9223372036854775808)%Z), JOk (OVal TDbl (VD (i2d (-9223372036854775808)%Z)))).
Proof.
  exists (2 ^ 63)%Z. split; [lia|]. intros klt narrow i2d i2f d2z d2b tname ename d. split; reflexivity.
Qed.
Print Assumptions C92_large_integer_refuted.
(** A member of a fundamental type that hides one of the base class cannot be addressed:
    the base class is registered first, and [emplace] keeps the first entry. *)
Theorem C92_hidden_refuted : exists t v, rest0 (bs "o") t v (bs "o.y") JNull = (v, JOk (OVal TDbl (VD 7)))
  /\ t = TStruct (FCons (bs "base_B") tb (FCons (bs "y") TDbl FNil)) /\ v = VL [VL [VD 7]; VD 8].
Proof. exists (TStruct (FCons (bs "base_B") tb (FCons (bs "y") TDbl FNil))), (VL [VL [VD 7]; VD 8]). split; [vm_compute; reflexivity|]. split; reflexivity. Qed.
Print Assumptions C92_hidden_refuted.

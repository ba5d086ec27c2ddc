(** * REST access to a tree of objects: conversions on assignment, and what containers list *)
From Verif Require Import Base Base_Proofs SMap Dec Desc_Model Desc_Props Json_Model Json_Spec Json_Proofs Json_Proofs2 Json_Props
  Rest_Model Rest_Props Rest2_Model Rest2_Props RestObj_Model RestObj_Proofs RestObj_Proofs2 RestObj_Props RestObj2_Props.

Section C92.
Variable klt : nat -> jval -> jval -> bool.
Variable narrow : N -> N.
Variable i2d : Z -> N.
Variable i2f : Z -> N.
Variable d2z : bool -> Z -> N -> option Z.
Variable d2b : N -> bool.
Variable tname : jty -> list ascii.
Variable ename : list (list ascii * Z) -> list ascii.
Notation reg := (reg klt narrow i2d i2f d2z d2b tname ename).
Notation run := (run tname).
Notation mapAndProcess := (mapAndProcess tname).
Notation rest := (rest klt narrow i2d i2f d2z d2b tname ename).
Notation conv := (conv klt narrow i2d i2f d2z d2b).

Definition in64 (z : Z) : Prop := (- 2 ^ 63 <= z < 2 ^ 63)%Z.
(** the character with that code *)
Definition code (c : ascii) (z : Z) : Prop := (Z.of_N (N_of_ascii c) = z mod 256)%Z.
Definition scalar (t : jty) : Prop :=
  match t with TBool | TChar | TInt _ _ _ | TFlt | TDbl | TStr => True | _ => False end.
(** [takes x t a w]: a variable of the type [t] that holds [x] holds [w] after the JSON
    value [a] has been assigned to it *)
Inductive takes (x : jval) : jty -> jv -> jval -> Prop :=
| k_str : forall s, takes x TStr (JStr s) (VS s)
| k_str_int : forall z c, in64 z -> code c z -> takes x TStr (JInt z) (VS [c])
| k_char : forall c, takes x TChar (JStr [c]) (VC c)
| k_char_int : forall z c, in64 z -> code c z -> takes x TChar (JInt z) (VC c)
| k_bool : forall b, takes x TBool (JBool b) (VB b)
| k_bool_true : forall z, in64 z -> z <> 0%Z -> takes x TBool (JInt z) (VB true)
| k_bool_false : takes x TBool (JInt 0) (VB false)
| k_bool_real : forall d, takes x TBool (JReal d) (VB (d2b d))
| k_int : forall w sgn bits z z', in64 z -> intty w sgn bits = true -> inrange sgn bits z' -> ((z' - z) mod 2 ^ bits = 0)%Z ->
    takes x (TInt w sgn bits) (JInt z) (VI z')
| k_int_bool : forall w sgn bits (b : bool), intty w sgn bits = true -> takes x (TInt w sgn bits) (JBool b) (VI (if b then 1 else 0)%Z)
| k_int_real : forall w sgn bits d z, d2z sgn bits d = Some z -> takes x (TInt w sgn bits) (JReal d) (VI z)
| k_flt_int : forall z, in64 z -> takes x TFlt (JInt z) (VD (i2f z))
| k_flt_bool : forall b : bool, takes x TFlt (JBool b) (VD (i2f (if b then 1 else 0)%Z))
| k_flt_real : forall d, takes x TFlt (JReal d) (VD (narrow d))
| k_dbl_int : forall z, in64 z -> takes x TDbl (JInt z) (VD (i2d z))
| k_dbl_bool : forall b : bool, takes x TDbl (JBool b) (VD (i2d (if b then 1 else 0)%Z))
| k_dbl_real : forall d, takes x TDbl (JReal d) (VD d)
| k_null : forall t, scalar t -> takes x t JNull x
| k_nothing : forall t, scalar t -> takes x t (JArr []) x
| k_nested : forall t w l, scalar t -> wf true t -> ht klt narrow t w -> shape t x -> takes x t (JArr (enc t w :: l)) w.
(** what it refuses, keeping its value *)
Inductive refuses : jty -> jv -> Prop :=
| n_str : forall t s, scalar t -> t <> TStr -> t <> TChar -> refuses t (JStr s)
| n_char : forall s, length s <> 1 -> refuses TChar (JStr s).

Lemma wrap_id : forall z, in64 z -> wrap_via ViaI64 z = z.
Proof.
  intros z H. unfold in64 in H. unfold wrap_via, wrap. cbn [Z.sub Z.pos_sub].
  repeat match goal with |- context [(2 ^ ?n)%Z] => let v := eval vm_compute in (2 ^ n)%Z in change (2 ^ n)%Z with v end.
  repeat match type of H with context [(2 ^ ?n)%Z] => let v := eval vm_compute in (2 ^ n)%Z in change (2 ^ n)%Z with v in H end.
  clear - H. Z.div_mod_to_equations. lia.
Qed.
Lemma code_of : forall c z, code c z -> char_of z = c.
Proof.
  intros c z H. unfold code in H. unfold char_of. rewrite <- H, N2Z.id. apply ascii_N_embedding.
Qed.
Lemma wrap_to : forall w sgn bits z z', intty w sgn bits = true -> inrange sgn bits z' -> ((z' - z) mod 2 ^ bits = 0)%Z -> wrap sgn bits z = z'.
Proof.
  intros w sgn bits z z' H R M. unfold intty in H.
  assert (B : (bits = 8 \/ bits = 16 \/ bits = 32 \/ bits = 64)%Z) by (destruct w, sgn; lia).
  destruct B as [->|[->|[->| ->]]]; destruct sgn; clear H;
    unfold inrange in R; cbn in R; unfold wrap; cbn [Z.sub Z.pow Z.pow_pos Pos.iter Z.mul Z.opp Z.pos_sub];
    repeat match goal with |- context [(2 ^ ?n)%Z] => let v := eval vm_compute in (2 ^ n)%Z in change (2 ^ n)%Z with v end;
    repeat match type of M with context [(2 ^ ?n)%Z] => let v := eval vm_compute in (2 ^ n)%Z in change (2 ^ n)%Z with v in M end;
    clear - R M; Z.div_mod_to_equations; lia.
Qed.
Lemma takes_scalar : forall x t a w, takes x t a w -> scalar t.
Proof. intros x t a w H. destruct H; try exact Logic.I; auto. Qed.
Lemma takes_conv : forall x t a w, takes x t a w -> conv t x a = (w, JOk tt).
Proof.
  intros x t a w H. destruct H; cbn [RestObj_Model.conv assign_str assign_int assign_real];
    repeat match goal with H : in64 _ |- _ => rewrite (wrap_id _ H); clear H end; try reflexivity.
  - now rewrite (code_of c z).
  - now rewrite (code_of c z).
  - now destruct b.
  - now rewrite (proj2 (Z.eqb_neq z 0)).
  - now rewrite (wrap_to w sgn bits z z').
  - rewrite (wrap_to w sgn bits _ (if b then 1 else 0)%Z); auto; [|now rewrite Z.sub_diag].
    unfold intty in H. assert (B : (bits = 8 \/ bits = 16 \/ bits = 32 \/ bits = 64)%Z) by (destruct w, sgn; lia).
    clear H. destruct B as [->|[->|[->| ->]]]; destruct sgn, b; vm_compute; split; congruence.
  - now rewrite H.
  - now destruct t.
  - now destruct t.
  - assert (E := unpack_root klt narrow i2d false t w x H0 H1 H2).
    destruct t; try contradiction; cbn [RestObj_Model.conv]; now rewrite E.
Qed.
Lemma refuses_conv : forall x t a, refuses t a -> conv t x a = (x, JErr EOther).
Proof.
  intros x t a H. destruct H.
  - destruct t; try contradiction; try congruence; reflexivity.
  - destruct s as [|c [|d s]]; try reflexivity. now destruct H.
Qed.
Lemma act_scalar : forall t x a, scalar t -> eact (rootent klt narrow i2d i2f d2z d2b tname ename t) x [] a =
  let '(x', r) := set_from klt narrow i2d i2f d2z d2b t x a in (x', _ <~ r ;; JOk (OVal t x')).
Proof. intros t x a H. destruct t; try contradiction; reflexivity. Qed.
(** the arguments: one value, or an array of which the first is taken *)
Inductive given : jv -> jv -> Prop :=
| g_array : forall a l, given a (JArr (a :: l))
| g_alone : forall a, a <> JNull -> (forall l, a <> JArr l) -> given a a.
Lemma set_given : forall t x a args, given a args -> set_from klt narrow i2d i2f d2z d2b t x args = conv t x a.
Proof. intros t x a args H. destruct H; [reflexivity|]. destruct a; try reflexivity; [congruence|now destruct (H0 l)]. Qed.
Lemma rest_scalar : forall t v q t' x w v' args c d r, rwf t -> addr [] t v q t' x w v' -> scalar t' -> c <> "@"%char ->
  set_from klt narrow i2d i2f d2z d2b t' x args = (w, r) ->
  rest (c :: d) t v (c :: d ++ q) args = (v', _ <~ r ;; JOk (OVal t' w)).
Proof.
  intros t v q t' x w v' args c d r W A S Hc E.
  destruct (addr_path _ _ _ _ _ _ _ _ A W) as [W' _].
  assert (P := C92_path klt narrow i2d i2f d2z d2b tname ename t v q [] t' x w v' args (_ <~ r ;; JOk (OVal t' w)) c d dot [] W (or_introl eq_refl) A (fun ks _ => or_introl eq_refl) Hc).
  rewrite (app_nil_r q) in P. apply P; [discriminate|]. unfold RestObj_Model.rest.
  change (dot :: [] ++ []) with ([dot] ++ []).
  rewrite (run_map klt narrow i2d i2f d2z d2b tname ename t' dot [] [] x args W' ltac:(discriminate) (or_introl eq_refl) (fun ks _ => or_introl eq_refl)).
  rewrite map_empty by exact W'. rewrite act_scalar by exact S. now rewrite E.
Qed.
(** What a boolean, a character, a number or a string at any path becomes when a JSON
    value of any kind is assigned to it: [takes] *)
Theorem C92_convert : forall t v q t' x w v' a args c d, rwf t -> addr [] t v q t' x w v' -> takes x t' a w -> given a args -> c <> "@"%char ->
  rest (c :: d) t v (c :: d ++ q) args = (v', JOk (OVal t' w)).
Proof.
  intros t v q t' x w v' a args c d W A T G Hc.
  apply (rest_scalar t v q t' x w v' args c d (JOk tt) W A (takes_scalar _ _ _ _ T) Hc).
  rewrite (set_given _ _ _ _ G). now apply takes_conv.
Qed.
(** and when it is refused *)
Theorem C92_refuse : forall t v q t' x v' a args c d, rwf t -> addr [] t v q t' x x v' -> refuses t' a -> given a args -> c <> "@"%char ->
  rest (c :: d) t v (c :: d ++ q) args = (v, JErr EOther).
Proof.
  intros t v q t' x v' a args c d W A T G Hc.
  assert (V := addr_same _ _ _ _ _ _ _ _ A eq_refl). subst v'.
  apply (rest_scalar t v q t' x x v args c d (JErr EOther) W A); [destruct T; [assumption|exact Logic.I]|exact Hc|].
  rewrite (set_given _ _ _ _ G). now apply refuses_conv.
Qed.

(** ** C95: what a sequence and a pointer list *)
Lemma list_here : forall t x args, rwf t -> ~ In (bs "@list") (tops t) ->
  rest [dot] t x (dot :: bs ".@list") args = (x, JOk (names (filter (fun k => negb (beq k [])) (elist (rootent klt narrow i2d i2f d2z d2b tname ename t) x)))).
Proof.
  intros t x args W Nl.
  assert (R : resolved klt narrow i2d i2f d2z d2b tname ename t (bs ".@list") [] (bs ".@list") (rootent klt narrow i2d i2f d2z d2b tname ename t)).
  { split; [reflexivity|]. split; [now left|]. split; [right; eexists; reflexivity|]. split; [now apply look_root|].
    intros s' tl' E Ts' Tt' L. destruct (look klt narrow i2d i2f d2z d2b tname ename t s') as [e|] eqn:Le; [|reflexivity]. exfalso.
    assert (Es : s' = bs ".@list" /\ tl' = []).
    { destruct Ts' as [->|[r ->]]; [cbn in L; lia|]. assert (E2 : bs "@list" = r ++ tl') by (injection E as E; exact E). clear E.
      destruct Tt' as [->|[r' ->]].
      - rewrite app_nil_r in E2. split; [now rewrite <- E2|reflexivity].
      - exfalso. assert (D : In dot (bs "@list")) by (rewrite E2; apply in_or_app; right; now left).
        revert D. now apply nodotb_ok. }
    destruct Es as [-> ->]. unfold RestObj_Proofs.look in Le.
    destruct (look_obj klt narrow i2d i2f d2z d2b tname ename t _ _ Le) as [r ->].
    destruct (fin_in _ _ None r (reg_nofun klt narrow i2d i2f d2z d2b tname ename t [] []) Le) as [(y & I & _)|F]; [|discriminate].
    assert (B := proj1 (reg_below klt narrow i2d i2f d2z d2b tname ename) t W). rewrite Forall_forall in B. specialize (B _ I). cbn [fst] in B.
    destruct B as [B|[B|(n & r' & B & Dn & Tr & In')]]; [discriminate|discriminate|].
    assert (B2 : bs "@list" ++ [] = n ++ r') by (injection B as B; exact B). clear B.
    destruct (dotless_cut _ _ _ _ Dn Tr (nodotb_ok (bs "@list") eq_refl) (or_introl eq_refl) (eq_sym B2)) as [-> _]. contradiction. }
  unfold RestObj_Model.rest. change (dot :: bs ".@list") with ([dot] ++ bs ".@list").
  assert (TL : tailp (bs ".@list")) by (right; eexists; reflexivity).
  rewrite (run_resolved klt narrow i2d i2f d2z d2b tname ename t dot [] (bs ".@list") [] (bs ".@list") _ x args ltac:(discriminate) TL R).
  unfold serve, served. rewrite rootent_path. destruct (list_eq_dec ascii_dec (bs ".@list") (bs ".@signature")) as [X|_]; [discriminate X|].
  destruct (list_eq_dec ascii_dec (bs ".@list") (bs ".@list")) as [_|X]; [|congruence]. reflexivity.
Qed.
Lemma list_at : forall t v q t' x v' args c d, rwf t -> addr (bs ".@list") t v q t' x x v' -> ~ In (bs "@list") (tops t') -> c <> "@"%char ->
  rest (c :: d) t v (c :: d ++ q ++ bs ".@list") args =
  (v, JOk (names (filter (fun k => negb (beq k [])) (elist (rootent klt narrow i2d i2f d2z d2b tname ename t') x)))).
Proof.
  intros t v q t' x v' args c d W A Nl Hc.
  assert (V := addr_same _ _ _ _ _ _ _ _ A eq_refl). subst v'.
  destruct (addr_path _ _ _ _ _ _ _ _ A W) as [W' _].
  apply (C92_path klt narrow i2d i2f d2z d2b tname ename t v q (bs ".@list") t' x x v args _ c d dot [] W (or_intror (ex_intro _ _ eq_refl)) A); auto.
  - intros ks _. right. unfold special. auto.
  - discriminate.
  - now apply list_here.
Qed.
(** a sequence lists its five commands *)
Theorem C95_sequence : forall t v q fx t' x v' args c d, rwf t -> addr (bs ".@list") t v q (TSeq fx t') x x v' -> c <> "@"%char ->
  rest (c :: d) t v (c :: d ++ q ++ bs ".@list") args =
  (v, JOk (names [bs ".@elem"; bs ".@elemNoThrow"; bs ".@erase"; bs ".@insert"; bs ".@size"])).
Proof.
  intros t v q fx t' x v' args c d W A Hc. rewrite (list_at t v q (TSeq fx t') x v' args c d W A); auto.
Qed.
(** scalars list nothing, and so do null pointers *)
Theorem C95_scalar : forall t v q t' x v' args c d, rwf t -> addr (bs ".@list") t v q t' x x v' -> c <> "@"%char ->
  scalar t' \/ (exists ks, t' = TEnum ks) \/ (exists t'', t' = TPtr t'' /\ x = VNul) ->
  rest (c :: d) t v (c :: d ++ q ++ bs ".@list") args = (v, JOk (names [])).
Proof.
  intros t v q t' x v' args c d W A Hc K.
  rewrite (list_at t v q t' x v' args c d W A); auto.
  - destruct K as [K|[[ks ->]|(t'' & -> & ->)]]; [destruct t'; try contradiction|..]; reflexivity.
  - destruct K as [K|[[ks ->]|(t'' & -> & ->)]]; [destruct t'; try contradiction|..]; intros [].
Qed.
Lemma bcmp_nil : forall k, k <> [] -> bcmp [] k = Lt.
Proof. intros [|c k] H; [congruence|reflexivity]. Qed.
Lemma keys_root : forall (h : history) e, filter (fun k => negb (beq k [])) (keys (h ++ [([], OpAdd e)])) =
  filter (fun k => negb (beq k [])) (keys h).
Proof.
  intros h e. unfold keys, regs, adds. rewrite fold_left_app. cbn [fold_left fst snd]. set (m := fold_left _ h []). clearbody m.
  unfold add. destruct (add1 _ _ _ _ _) as [en|]; [|reflexivity]. clear h e.
  unfold mset. destruct (mfind bcmp [] m) as [u|].
  - induction m as [|[k v] m IH]; [reflexivity|]. cbn [mreplace]. destruct (bcmp [] k) eqn:B; [reflexivity|..];
      cbn [map fst filter]; rewrite IH; reflexivity.
  - destruct m as [|[k v] m]; [reflexivity|]. cbn [minsert]. now destruct k.
Qed.
(** a pointer lists what its target lists *)
Theorem C95_pointer : forall t v q t' x v' args args2 c d c2 d2, rwf t -> addr (bs ".@list") t v q (TPtr t') (VPtr x) (VPtr x) v' -> compound t' ->
  ~ In (bs "@list") (tops t') -> c <> "@"%char -> c2 <> "@"%char ->
  rest (c :: d) t v (c :: d ++ q ++ bs ".@list") args = (v, snd (rest (c2 :: d2) t' x (c2 :: d2 ++ bs ".@list") args2)).
Proof.
  intros t v q t' x v' args args2 c d c2 d2 W A Ct Nl Hc Hc2.
  destruct (addr_path _ _ _ _ _ _ _ _ A W) as [W' _].
  rewrite (list_at t v q (TPtr t') (VPtr x) v' args c d W A ltac:(intros []) Hc).
  assert (E := list_at t' x [] t' x x args2 c2 d2 W' (at_here _ _ _ _) Nl Hc2). cbn [app] in E. rewrite E. cbn [snd].
  f_equal. f_equal. f_equal. cbn [rootent elist]. destruct t'; try contradiction; cbn [rootent elist RestObj_Model.root].
  - rewrite reg_pair, app_assoc. apply keys_root.
  - rewrite reg_struct. apply keys_root.
Qed.
End C92.

Example C92_convert_ex : addr [] tt_ v0 (bs ".p.z") TBool (VB true) (VB true) v0 /\
  takes no_klt idN i2d0 i2f0 d2z0 d2b0 (VB true) TBool (JInt 3) (VB true) /\ given (JInt 3) (JArr [JInt 3; JNull]) /\
  rest0 (bs "obj") tt_ v0 (bs "obj.p.z") (JArr [JInt 3; JNull]) = (v0, JOk (OVal TBool (VB true))).
Proof.
  split; [apply (addr_ex2 [] true)|]. split; [apply k_bool_true; [split; [discriminate|reflexivity]|discriminate]|].
  split; [constructor|vm_compute; reflexivity].
Qed.
Print Assumptions C92_convert.
Example C92_refuse_ex : addr [] tt_ v0 (bs ".y") TDbl (VD 7) (VD 7) v0 /\ refuses TDbl (JStr (bs "8")) /\
  rest0 (bs "obj") tt_ v0 (bs "obj.y") (JStr (bs "8")) = (v0, JErr EOther).
Proof.
  split; [apply addr_ex3|]. split; [apply n_str; [exact Logic.I|discriminate|discriminate]|]. vm_compute. reflexivity.
Qed.
Print Assumptions C92_refuse.
Lemma addr_ex4 : forall tail, addr tail tt_ v0 (bs ".l") tl_ (VL [VP (VI 1) (VS (bs "one")); VP (VI 2) (VS (bs "two"))])
  (VL [VP (VI 1) (VS (bs "one")); VP (VI 2) (VS (bs "two"))]) v0.
Proof.
  intros tail. change v0 with (VL (set_at [VL [VD 7]; VI 5; VS (bs "str"); VL [VP (VI 1) (VS (bs "one")); VP (VI 2) (VS (bs "two"))]; VPtr (VL [VB true]); VI 1] 3
     (VL [VP (VI 1) (VS (bs "one")); VP (VI 2) (VS (bs "two"))]))) at 2.
  change (bs ".l") with (dot :: bs "l" ++ []).
  apply at_member with (t := tl_) (x := VL [VP (VI 1) (VS (bs "one")); VP (VI 2) (VS (bs "two"))]); try reflexivity. apply at_here.
Qed.
Lemma addr_ex5 : forall tail, addr tail tt_ v0 (bs ".p") (TPtr tp) (VPtr (VL [VB true])) (VPtr (VL [VB true])) v0.
Proof.
  intros tail. change v0 with (VL (set_at [VL [VD 7]; VI 5; VS (bs "str"); VL [VP (VI 1) (VS (bs "one")); VP (VI 2) (VS (bs "two"))]; VPtr (VL [VB true]); VI 1] 4
     (VPtr (VL [VB true])))) at 2.
  change (bs ".p") with (dot :: bs "p" ++ []).
  apply at_member with (t := TPtr tp) (x := VPtr (VL [VB true])); try reflexivity. apply at_here.
Qed.
Example C95_sequence_ex : rest0 (bs "o") tt_ v0 (bs "o.l.@list") JNull =
  (v0, JOk (names [bs ".@elem"; bs ".@elemNoThrow"; bs ".@erase"; bs ".@insert"; bs ".@size"])).
Proof. apply (C95_sequence _ _ _ _ _ _ _ _ tt_ v0 (bs ".l") _ _ _ v0 JNull _ [] tt_wf (addr_ex4 _)). discriminate. Qed.
Print Assumptions C95_sequence.
Example C95_scalar_ex : rest0 (bs "o") tt_ v0 (bs "o.y.@list") JNull = (v0, JOk (names [])).
Proof. apply (C95_scalar _ _ _ _ _ _ _ _ tt_ v0 (bs ".y") _ _ v0 JNull _ [] tt_wf (addr_ex3 _ 7)); [discriminate|left; exact Logic.I]. Qed.
Print Assumptions C95_scalar.
Example C95_pointer_ex : compound tp /\ ~ In (bs "@list") (tops tp) /\
  rest0 (bs "o") tt_ v0 (bs "o.p.@list") JNull = (v0, JOk (names [bs ".z"])) /\
  rest0 (bs "o") tp (VL [VB true]) (bs "o.@list") JNull = (VL [VB true], JOk (names [bs ".z"])) /\
  addr (bs ".@list") tt_ v0 (bs ".p") (TPtr tp) (VPtr (VL [VB true])) (VPtr (VL [VB true])) v0.
Proof.
  split; [exact Logic.I|]. split; [intros [H|[]]; discriminate H|]. split; [vm_compute; reflexivity|]. split; [vm_compute; reflexivity|apply addr_ex5].
Qed.
Print Assumptions C95_pointer.

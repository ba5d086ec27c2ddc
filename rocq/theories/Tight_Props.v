(** * Smaller facts about several parts of the library, closing gaps between the other
    properties: C37, C39, C44, C49, C53, C56 *)
From Verif Require Import Base Base_Proofs SMap Desc_Model Json_Model.
From Verif Require Rest_Model Rest2_Model Factory_Model MPI_Model Tok_Model Parse_Model Parse_Props Java_Model Java_Props.

(** ** C37: what each kind of parameter accepts, exactly or by conversion *)
Section C37.
Import Rest_Model.
Variable objok : N -> jv -> bool.
(** accepted without conversion *)
Inductive exact : pty -> jv -> Prop :=
| e_bool : forall b, exact PBool (JBool b)
| e_int : forall z, exact PInt (JInt z)
| e_real : forall d, exact PReal (JReal d)
| e_str : forall s, exact PStr (JStr s)
| e_enum : forall s, exact PEnum (JStr s)
| e_obj : forall c kvs, objok c (JObj kvs) = true -> exact (PObj c) (JObj kvs)
| e_arr : forall e l, Forall (exact e) l -> exact (PCont e) (JArr l)
| e_one : forall e x, (forall l, x <> JArr l) -> exact e x -> exact (PCont e) x
| e_cref : forall t x, exact t x -> exact (PConstRef t) x.
(** accepted, perhaps with a conversion: a floating point number also takes an integer or null *)
Inductive loose : pty -> jv -> Prop :=
| lo_exact : forall t x, exact t x -> loose t x
| lo_int : forall z, loose PReal (JInt z)
| lo_null : loose PReal JNull
| lo_arr : forall e l, Forall (loose e) l -> loose (PCont e) (JArr l)
| lo_one : forall e x, (forall l, x <> JArr l) -> loose e x -> loose (PCont e) x
| lo_cref : forall t x, loose t x -> loose (PConstRef t) x.

Lemma forallb_Forall : forall (f : jv -> bool) (P : jv -> Prop) l, (forall x, f x = true <-> P x) ->
  (forallb f l = true <-> Forall P l).
Proof.
  intros f P l H. rewrite forallb_forall, Forall_forall. split; intros A x I; apply H; now apply A.
Qed.
Lemma exact_iff : forall t x, matches objok t x = true <-> exact t x.
Proof.
  induction t as [| | | | |c|e IH|t IH|]; intro x.
  1-6: split; [destruct x; cbn; intro H; try discriminate H; now constructor|].
  1-6: intro H; inversion H; subst; cbn; auto.
  - cbn [matches]. destruct x as [|b|z|d|s|l|kvs];
      try (split; [intro H; apply e_one; [discriminate|now apply IH]|intro H; inversion H; subst; now apply IH]).
    rewrite (forallb_Forall _ _ l IH). split; [now constructor|]. intro H. inversion H as [| | | | | |? ? F|? ? N ?|]; subst; [exact F|].
    exfalso. now apply (N l).
  - cbn [matches]. rewrite IH. split; [now constructor|]. intro H. now inversion H.
  - split; [discriminate|]. intro H. inversion H.
Qed.
Lemma loose_iff : forall t x, partially objok t x = true <-> loose t x.
Proof.
  induction t as [| | | | |c|e IH|t IH|]; intro x.
  1,2,4,5,6,9: cbn [partially]; rewrite exact_iff; split; [intro H; now apply lo_exact|intro H; inversion H; subst; assumption].
  - split.
    + destruct x; cbn; intro H; try discriminate H; try now constructor. apply lo_exact. constructor.
    + intro H. inversion H as [? ? E| | | | |]; subst; try reflexivity. inversion E; reflexivity.
  - cbn [partially]. destruct x as [|b|z|d|s|l|kvs];
      try (split; [intro H; apply lo_one; [discriminate|now apply IH]|
                   intro H; inversion H as [? ? E| | | |? ? N L|]; subst; [inversion E; subst; now apply IH, lo_exact|now apply IH]]).
    rewrite (forallb_Forall _ _ l IH). split; [now apply lo_arr|].
    intro H. inversion H as [? ? E| | |? ? F|? ? N L|]; subst.
    + inversion E as [| | | | | |? ? F|? ? N ?|]; subst.
      * eapply Forall_impl; [|exact F]. intros a A. now apply lo_exact.
      * exfalso. now apply (N l).
    + exact F.
    + exfalso. now apply (N l).
  - cbn [partially]. rewrite IH. split; [now apply lo_cref|].
    intro H. inversion H as [? ? E| | | | |]; subst; [inversion E; subst; now apply lo_exact|assumption].
Qed.
(** The score of an argument: 0 if it is accepted as it is, 1 if it must be converted, the
    maximum otherwise. *)
Theorem C37_argument : forall t x,
  (argMatchScore objok t x = 0%N <-> exact t x) /\
  (argMatchScore objok t x = 1%N <-> loose t x /\ ~ exact t x) /\
  (argMatchScore objok t x = maxMatchScore <-> ~ loose t x).
Proof.
  intros t x. pose proof (exact_iff t x) as A. pose proof (loose_iff t x) as B. unfold argMatchScore.
  assert (M : maxMatchScore <> 0%N /\ maxMatchScore <> 1%N) by (split; vm_compute; discriminate).
  assert (C : exact t x -> loose t x) by apply lo_exact.
  assert (D : (0 <> 1)%N) by discriminate.
  destruct (matches objok t x), (partially objok t x); intuition congruence.
Qed.
End C37.
Example C37_argument_ex : Rest_Model.argMatchScore (fun _ _ => false) Rest_Model.PReal JNull = 1%N
  /\ Rest_Model.argMatchScore (fun _ _ => false) (Rest_Model.PCont Rest_Model.PReal) (JArr [JInt 1; JNull]) = 1%N.
Proof. vm_compute. auto. Qed.
Print Assumptions C37_argument.

(** ** C39: assignment to a whole sequence, and erase with an argument that is no index *)
Section C39.
Import Rest2_Model.
Variables E R : Type.
Variable dflt : E.
Variable conv : E -> jv -> E * jr unit.
Variable eproc : E -> list ascii -> jv -> E * jr R.
Variable convseq : list E -> jv -> list E * jr unit.
Variable oproc : list E -> list ascii -> jv -> list E * jr R.
Variable d2u : N -> jr N.
Notation seq_process := (seq_process E R dflt conv eproc convseq oproc d2u).
(** An empty query assigns the argument to the sequence: the first of an argument list, or
    the argument itself if it is not a list. *)
Theorem C39_assign : forall obj args j,
  (exists l, args = JArr (j :: l)) \/ ((forall l, args <> JArr l) /\ args <> JNull /\ j = args) ->
  seq_process obj [] args = (fst (convseq obj j), match snd (convseq obj j) with JOk _ => JOk SRef | JErr e => JErr e | JUB => JUB end).
Proof.
  intros obj args j H. unfold Rest2_Model.seq_process. cbn [startsWith bs]. unfold sequenceProcess.
  change (startsWith [] (bs ".@elem")) with false. change (startsWith [] (bs ".@insert")) with false.
  change (startsWith [] (bs ".@erase")) with false. cbv iota.
  destruct H as [[l ->]|(H & N & ->)].
  - destruct (convseq obj j) as [o r]. now destruct r.
  - destruct args; try congruence; try (destruct (convseq obj _) as [o r]; now destruct r).
Qed.
(** With null or no arguments nothing changes. *)
Theorem C39_read : forall obj args, args = JNull \/ args = JArr [] -> seq_process obj [] args = (obj, JOk SRef).
Proof. intros obj args [-> | ->]; reflexivity. Qed.
(** an array argument whose first element is no integer, an object or a string: "@erase"
    throws and removes nothing *)
Definition no_index (j : jv) : Prop :=
  match j with
  | JStr _ | JObj _ => True
  | JArr (x :: _) => forall z, x <> JInt z
  | _ => False
  end.
Theorem C39_erase_rejects : forall obj j x, no_index j -> exists e, seq_process obj (bs ".@erase" ++ x) j = (obj, JErr e).
Proof.
  intros obj j x H. unfold Rest2_Model.seq_process.
  change (startsWith (bs ".@erase" ++ x) (bs ".@elem")) with false.
  change (startsWith (bs ".@erase" ++ x) (bs ".@insert")) with false.
  change (startsWith (bs ".@erase" ++ x) (bs ".@erase")) with true. cbv iota.
  unfold seq_erase. destruct j as [| | | | |l|]; try contradiction H; try (eexists; reflexivity).
  destruct l as [|y l]; [contradiction H|]. destruct y; try (eexists; reflexivity). exfalso. now apply (H z).
Qed.
End C39.
Example C39_erase_rejects_ex : no_index (JArr [JStr (bs "1")]).
Proof. intros z. discriminate. Qed.
Example C39_assign_ex : Rest2_Model.seq_process nat unit 0 (fun e _ => (e, JOk tt)) (fun e _ _ => (e, JOk tt))
  (fun l j => (match j with JArr ys => map (fun _ => 7) ys | _ => l end, JOk tt)) (fun l _ _ => (l, JOk tt)) (fun _ => JUB)
  [1] [] (JArr [JArr [JInt 5; JInt 6]]) = ([7; 7], JOk Rest2_Model.SRef).
Proof. vm_compute. reflexivity. Qed.
Print Assumptions C39_assign.
Print Assumptions C39_read.
Print Assumptions C39_erase_rejects.

(** ** C44: identifiers below zero and beyond the table *)
Section C44.
Import Factory_Model.
Theorem C44_outside : forall V (s : tstate V) t,
  (t < 0 \/ Z.of_nat (length (table s)) <= t)%Z -> create_id V s t = None.
Proof.
  intros V s t H. unfold create_id. destruct (Z.ltb_spec t 0) as [L|L]; [reflexivity|].
  apply nth_overflow. lia.
Qed.
(** so a null marker of any other negative value is undefined behaviour, too *)
Theorem C44_negative_refuted : exists (s : tstate nat) b,
  unpack_sp nat (fun tmp r => Some (tmp, r)) (fun _ => true) s None b = UUB /\
  b = map ascii_of_N [255; 255; 255; 255]%N /\ 0 < length (table s).
Proof.
  exists (trun nat [UseType (mkobj 1 1)] (tinit nat)), (map ascii_of_N [255; 255; 255; 255]%N).
  split; [vm_compute; reflexivity|]. split; [reflexivity|vm_compute; lia].
Qed.
End C44.
Example C44_outside_ex : Factory_Model.create_id nat (Factory_Model.trun nat [Factory_Model.UseType (Factory_Model.mkobj 1 1)] (Factory_Model.tinit nat)) (-1) = None.
Proof. vm_compute. reflexivity. Qed.
Print Assumptions C44_outside.
Print Assumptions C44_negative_refuted.

(** ** C49: a slave works on its own queues only *)
Section C49.
Import MPI_Model.
Variables Req Rep : Type.
Variable run : Req -> option Rep.
Variable np : nat.
Definition replies (r : Req) : list Rep := match run r with Some a => [a] | None => [] end.
(** Running a request takes it from its slave's queue and adds the reply, if there is one;
    no other queue, and none of the master's books, changes. *)
Theorem C49_run : forall s i s', sstep Req Rep run np s (ERun i) = SOk s' ->
  exists r, inbox s i = r :: inbox s' i /\ outbox s' i = outbox s i ++ replies r /\
    (forall j, j <> i -> inbox s' j = inbox s j /\ outbox s' j = outbox s j) /\
    idle s' = idle s /\ sent s' = sent s /\ got s' = got s.
Proof.
  intros s i s' H. cbn [sstep] in H. destruct (inbox s i) as [|r q] eqn:I; [discriminate H|]. injection H as <-.
  exists r. cbn [inbox outbox idle sent got]. unfold fset, replies. rewrite Nat.eqb_refl. split; [reflexivity|].
  split; [|split; [|auto]].
  - destruct (run r); [now rewrite Nat.eqb_refl|now rewrite app_nil_r].
  - intros j N. apply Nat.eqb_neq in N. rewrite N. destruct (run r); [now rewrite N|]; auto.
Qed.
(** Receiving a reply takes it from its slave's queue and marks the slave as idle. *)
Theorem C49_get : forall s i s', sstep Req Rep run np s (EGet i) = SOk s' ->
  exists a, outbox s i = a :: outbox s' i /\ got s' i = got s i ++ [a] /\ idle s' = idle s ++ [i] /\
    (forall j, j <> i -> outbox s' j = outbox s j /\ got s' j = got s j) /\ inbox s' = inbox s /\ sent s' = sent s.
Proof.
  intros s i s' H. cbn [sstep] in H. destruct (outbox s i) as [|a q] eqn:I; [discriminate H|]. injection H as <-.
  exists a. cbn [inbox outbox idle sent got]. unfold fset. rewrite Nat.eqb_refl. repeat split.
  all: apply Nat.eqb_neq in H; now rewrite H.
Qed.
End C49.
Example C49_run_ex : exists s', MPI_Model.sstep nat nat (fun _ => None) 3
  (MPI_Model.mksys [2] (fun i => if i =? 1 then [5] else []) (fun i => if i =? 2 then [9] else []) (fun _ => []) (fun _ => [])) (MPI_Model.ERun 1)
  = MPI_Model.SOk s' /\ MPI_Model.outbox s' 2 = [9].
Proof. eexists. split; [cbn; reflexivity|reflexivity]. Qed.
Print Assumptions C49_run.
Print Assumptions C49_get.

(** ** C53: a parameter list closed together with the nested one by ">>" *)
Section C53.
Import Tok_Model Parse_Model Parse_Props.
Lemma gta_plain : forall a, Forall (fun t => strchr "=<>" (first t) = false) a ->
  forall f t2 t1 ac targs x tl, (ac <> 0)%Z -> (length a <= f)%nat ->
  exists t2' t1', gta f ac targs (at_ t2 t1 (a ++ x :: tl)) = gta (f - length a) ac (targs ++ ttxt a) (Inp t2' t1' x tl).
Proof.
  induction a as [|t a IH]; intros F f t2 t1 ac targs x tl AC L.
  - exists t2, t1. cbn [app at_ length]. unfold ttxt. cbn [map concat]. now rewrite app_nil_r, Nat.sub_0_r.
  - apply Forall_cons_iff in F as [F F']. destruct f as [|f]; [cbn in L; lia|]. cbn [app at_ gta tk].
    assert (S1 : ceq (first t) "=" = false /\ ceq (first t) "<" = false /\ ceq (first t) ">" = false).
    { unfold strchr, mem in F. cbn in F. destruct (ceq (first t) zero), (ceq (first t) "<"), (ceq (first t) ">"), (ceq (first t) "="); auto. }
    destruct S1 as (-> & S2 & S3). cbn [pbind tk]. rewrite S2, S3.
    replace (ac =? 0)%Z with false by (symmetry; apply Z.eqb_neq; lia).
    assert (N : exists u m, a ++ x :: tl = u :: m) by (destruct a; cbn; eauto).
    destruct N as (u & m & N). unfold next. cbn [more tk1 tk]. rewrite N. cbn [pbind].
    destruct (IH F' f t1 t ac (targs ++ t ++ (if teq t "." then [] else [" "%char])) x tl) as (p & q & E);
      [assumption|cbn in L; lia|].
    rewrite N in E. cbn [at_] in E. rewrite E. exists p, q. cbn [length].
    rewrite Nat.sub_succ. f_equal. rewrite ttxt_cons. now rewrite <- !app_assoc.
Qed.
Theorem C53_template_double : forall t2 t1 a b kb nx rest,
  Forall (fun t => strchr "=<>" (first t) = false) a -> tpl b kb ->
  exists t2' t1', get_template_args (Inp t2 t1 (bs "<") (a ++ bs "<" :: b ++ bs ">>" :: nx :: rest))
    = POk (ttxt (bs "<" :: a ++ bs "<" :: kb ++ [bs ">>"])) (Inp t2' t1' nx rest).
Proof.
  intros t2 t1 a b kb nx rest A B. unfold get_template_args, pbound. cbn [more].
  cbn [gta tk]. replace (ceq (first (bs "<")) "=") with false by reflexivity. cbn [pbind tk].
  replace (ceq (first (bs "<")) "<") with true by reflexivity.
  replace (teq (bs "<") ".") with false by reflexivity.
  replace (Z.of_nat (length (bs "<"))) with 1%Z by reflexivity.
  replace (0 + 1)%Z with 1%Z by reflexivity. replace (1 =? 0)%Z with false by reflexivity.
  set (more1 := b ++ bs ">>" :: nx :: rest).
  assert (N : exists u m, a ++ bs "<" :: more1 = u :: m) by (destruct a; cbn [app]; eauto).
  destruct N as (u & m & N). unfold next at 1. cbn [more tk1 tk].
  destruct (gta_plain a A (length (a ++ bs "<" :: more1)) t1 (bs "<") 1%Z ([] ++ bs "<" ++ [" "%char]) (bs "<") more1) as (p & q & E);
    [lia|rewrite app_length; lia|].
  rewrite N in *. cbn [pbind]. cbn [at_] in E. rewrite E. clear E.
  replace (length (u :: m) - length a) with (S (length more1)) by (rewrite <- N, app_length; cbn [length]; lia).
  cbn [gta tk]. replace (ceq (first (bs "<")) "=") with false by reflexivity. cbn [pbind tk].
  replace (ceq (first (bs "<")) "<") with true by reflexivity.
  replace (teq (bs "<") ".") with false by reflexivity.
  replace (1 + Z.of_nat (length (bs "<")))%Z with 2%Z by reflexivity. replace (2 =? 0)%Z with false by reflexivity.
  assert (N2 : exists u m, more1 = u :: m) by (unfold more1; destruct b; cbn [app]; eauto).
  destruct N2 as (u2 & m2 & N2). unfold next at 1. cbn [more tk1 tk].
  destruct (gta_tpl b kb B (length more1) q (bs "<") 2%Z (([] ++ bs "<" ++ [" "%char]) ++ ttxt a ++ bs "<" ++ [" "%char]) (bs ">>") (nx :: rest)) as (f' & c & d & E & L);
    [lia|reflexivity|unfold more1; lia|].
  fold more1 in E. rewrite N2 in *. cbn [pbind]. cbn [at_] in E. rewrite <- (app_assoc _ (ttxt a)). rewrite E.
  cbn [length] in L. destruct f' as [|f']; [lia|]. cbn [gta tk].
  replace (ceq (first (bs ">>")) "=") with false by reflexivity. cbn [pbind tk].
  replace (ceq (first (bs ">>")) "<") with false by reflexivity.
  replace (ceq (first (bs ">>")) ">") with true by reflexivity.
  replace (teq (bs ">>") ".") with false by reflexivity.
  replace (2 - Z.of_nat (length (bs ">>")) =? 0)%Z with true by reflexivity.
  cbn [next more pbind tk tk1]. exists d, (bs ">>"). f_equal.
  rewrite ttxt_cons, ttxt_app, ttxt_cons, ttxt_app, ttxt_cons.
  replace (teq (bs "<") ".") with false by reflexivity. replace (teq (bs ">>") ".") with false by reflexivity.
  replace (ttxt []) with (@nil ascii) by reflexivity. rewrite <- ?app_assoc. cbn [app]. now rewrite ?app_nil_r, <- ?app_assoc.
Qed.
End C53.
Example C53_template_double_ex :
  Parse_Model.get_template_args (Parse_Model.Inp [] [] (bs "<") (map bs ["template"; "<"; "class"; "T"; ">>"; "class"; "C"]%string))
  = Parse_Model.POk (bs "< template < class T >> ") (Parse_Model.Inp (bs "T") (bs ">>") (bs "class") [bs "C"]).
Proof. vm_compute. reflexivity. Qed.
Print Assumptions C53_template_double.

(** ** C56: the constants of the class file format (JVM specification 4.4) *)
Section C56.
Import Java_Model Java_Props.
Inductive jconst :=
| CUtf8 (s : list ascii) | CInteger (v : N) | CFloat (v : N) | CLong (v : N) | CDouble (v : N) | CClass (v : N) | CString (v : N)
| CField (a b : N) | CMethod (a b : N) | CIfMethod (a b : N) | CNameType (a b : N).
Definition as_cp (c : jconst) : cp_info :=
  match c with
  | CUtf8 s => Cp 1 (PStr s) | CInteger v => Cp 3 (PU4 v) | CFloat v => Cp 4 (PU4 v)
  | CLong v => Cp 5 (PU8 v) | CDouble v => Cp 6 (PU8 v) | CClass v => Cp 7 (PU2 v) | CString v => Cp 8 (PU2 v)
  | CField a b => Cp 9 (PRef a b) | CMethod a b => Cp 10 (PRef a b) | CIfMethod a b => Cp 11 (PRef a b)
  | CNameType a b => Cp 12 (PNT a b)
  end.
Definition layout (c : jconst) : list ascii :=
  match c with
  | CUtf8 s => ascii_of_N 1 :: be 2 (len s) ++ s
  | CInteger v => ascii_of_N 3 :: be 4 v | CFloat v => ascii_of_N 4 :: be 4 v
  | CLong v => ascii_of_N 5 :: be 8 v | CDouble v => ascii_of_N 6 :: be 8 v
  | CClass v => ascii_of_N 7 :: be 2 v | CString v => ascii_of_N 8 :: be 2 v
  | CField a b => ascii_of_N 9 :: be 2 a ++ be 2 b | CMethod a b => ascii_of_N 10 :: be 2 a ++ be 2 b
  | CIfMethod a b => ascii_of_N 11 :: be 2 a ++ be 2 b | CNameType a b => ascii_of_N 12 :: be 2 a ++ be 2 b
  end.
(** Each of the eleven kinds of constant is written as the format prescribes (strings up to
    2^15-1 bytes). *)
Theorem C56_constants : forall c, match c with CUtf8 s => (len s < 2 ^ 15)%N | _ => True end ->
  put_cp (as_cp c) = Some (layout c).
Proof.
  intros c H. destruct c; cbn [as_cp put_cp kind_of tag info option_map layout];
    unfold put_cp; cbn [kind_of tag info option_map]; unfold put_u2, put_u4, put_u8; rewrite ?put_be_be; try reflexivity.
  unfold put_str, to_u2, short_of.
  rewrite N.mod_small by (assert (2 ^ 15 < 2 ^ 16)%N by reflexivity; lia).
  replace (len s <? 2 ^ 15)%N with true by lia. replace (Z.of_N (len s) <? 0)%Z with false by lia.
  unfold put_u2. rewrite put_be_be. unfold len. now rewrite Nat2N.id, firstn_all.
Qed.
End C56.
Example C56_constants_ex : Java_Model.put_cp (as_cp (CDouble 4607182418800017408)) = Some (map ascii_of_N [6; 63; 240; 0; 0; 0; 0; 0; 0]%N).
Proof. vm_compute. reflexivity. Qed.
Print Assumptions C56_constants.

(** * Properties of PythonBuffer *)
From Coq Require Import Permutation.
From Verif Require Import Base SMap Desc_Model Desc_Props Json_Model Json_Spec Json_Proofs Json_Proofs2 Json_Props
  PyBuf_Model PyBuf_Proofs PyBuf_Proofs2.

(** used in the examples: 7-bit strings *)
Definition ascii7 (s : list ascii) : bool := forallb (fun c => N_of_ascii c <? 128)%N s.

Lemma reached : forall valid ops s, Forall (okop valid) ops -> prun valid ops pinit = POk s ->
  exists L, PI s L /\ length L = leaked valid ops pinit.
Proof.
  intros valid ops s F E. pose proof (prun_ok valid ops pinit [] F PI_init) as P. rewrite E in P.
  destruct P as (L & P & N). rewrite app_nil_r in P. eauto.
Qed.

(** ** C87: JSON to Python and back *)
(** In every state that a program can reach without null pointers, a document turned into
    Python objects and back is the same document. *)
Theorem C87_roundtrip : forall valid ops s j, Forall (okop valid) ops -> prun valid ops pinit = POk s ->
  wfj valid j ->
  exists x h1 h2, newj valid j (hp s) = HOk x h1 /\ get_json x h1 = HOk j h2 /\
    (forall y o, obof (hp s) y = Some o -> obof h2 y = Some o).
Proof.
  intros valid ops s j F E W. destruct (reached valid ops s F E) as (L & [I1 ON] & _).
  destruct (newj_ok valid j (wfj_okj valid j W) (hp s) _ I1 (or_introl eq_refl) ON)
    as (x & h1 & L1 & E1 & I2 & _ & X1 & _ & V & _).
  destruct (V W (S (height j)) (Nat.lt_succ_diag_r _)) as [V1 _].
  destruct (get_val _ _ _ _ _ I2 V1) as (h2 & L2 & E2 & _ & S2). exists x, h1, h2.
  split; [exact E1|]. split; [exact E2|]. intros y o O. rewrite S2. now apply X1.
Qed.
Print Assumptions C87_roundtrip.
Definition j_ex : jv :=
  JObj [(bs "a", JArr [JInt (-5); JNull; JStr (bs "x")]); (bs "b", JObj [(bs "c", JBool true); (bs "d", JReal 7)])].
Example C87_ex : wfj ascii7 j_ex /\
  exists h1 h2, newj ascii7 j_ex (hp pinit) = HOk 7 h1 /\ get_json 7 h1 = HOk j_ex h2.
Proof.
  split.
  - cbn [wfj j_ex fold_right fst snd]. repeat split; vm_compute; intuition discriminate.
  - eexists. eexists. split; [vm_compute; reflexivity|]. vm_compute. reflexivity.
Qed.
(** Strings and member names are cut at a NUL character. *)
Theorem C87_nul_refuted : exists j j' x h1 h2, newj ascii7 j (hp pinit) = HOk x h1 /\ get_json x h1 = HOk j' h2 /\
  j = JObj [([nul; "a"%char], JInt 1); ([nul; "b"%char], JInt 2); (bs "c", JStr ["d"%char; nul; "e"%char])] /\
  j' = JObj [([], JInt 2); (bs "c", JStr (bs "d"))].
Proof.
  exists (JObj [([nul; "a"%char], JInt 1); ([nul; "b"%char], JInt 2); (bs "c", JStr ["d"%char; nul; "e"%char])]).
  do 4 eexists. split; [vm_compute; reflexivity|]. split; [vm_compute; reflexivity|]. split; reflexivity.
Qed.
(** A member whose name is not UTF-8 is left out without an error. *)
Theorem C87_key_refuted : exists j x h1 h2, newj ascii7 j (hp pinit) = HOk x h1 /\ get_json x h1 = HOk (JObj []) h2 /\
  j = JObj [(["200"%char], JInt 1)].
Proof.
  exists (JObj [(["200"%char], JInt 1)]). do 3 eexists. split; [vm_compute; reflexivity|].
  split; [vm_compute; reflexivity|reflexivity].
Qed.
(** A number of 2^63 or more becomes negative. *)
Theorem C87_uint_refuted : exists z x h1 h2, newj ascii7 (JInt z) (hp pinit) = HOk x h1 /\
  get_json x h1 = HOk (JInt (-9223372036854775807)) h2 /\ z = 9223372036854775809%Z.
Proof.
  exists 9223372036854775809%Z. do 3 eexists. split; [vm_compute; reflexivity|].
  split; [vm_compute; reflexivity|reflexivity].
Qed.

(** ** C88: counts and lifetimes *)
(** Whatever a program does with PythonBuffer variables (no null pointers, no strings that
    Python cannot decode), it never uses a freed object, and each object's count is the
    number of variables and containers referring to it plus the references abandoned, whose
    number [leaked] adds up; it runs for ever only in a get of an object that is inside
    itself. *)
Theorem C88_counts : forall valid ops, Forall (okop valid) ops ->
  match prun valid ops pinit with
  | POk s => exists L, length L = leaked valid ops pinit /\ obof (hp s) none = Some PNone /\
      forall x, match look (hp s) x with
                | Some c => rc c = count_occ Nat.eq_dec (none :: live (vars s) ++ L ++ slots (hp s)) x /\ 0 < rc c
                | None => ~ In x (live (vars s)) /\ ~ In x (slots (hp s))
                end
  | PUb => False
  | PLoop => exists ops1 k ops2 s1 x y, ops = ops1 ++ OGet k :: ops2 /\ prun valid ops1 pinit = POk s1 /\
      var s1 k = Some x /\ (y = x \/ inside (hp s1) x y) /\ inside (hp s1) y y
  end.
Proof.
  intros valid ops F. pose proof (prun_ok valid ops pinit [] F PI_init) as P.
  destruct (prun valid ops pinit) as [s| |] eqn:E; [|exact P|clear P].
  - destruct P as (L & [[N I1] ON] & K). rewrite app_nil_r in I1. exists L. split; [exact K|]. split; [exact ON|].
    intros x. specialize (I1 x). destruct (look (hp s) x) as [c|].
    + replace (none :: live (vars s) ++ L ++ slots (hp s)) with ((none :: live (vars s) ++ L) ++ slots (hp s))
        by (cbn [app]; now rewrite <- app_assoc). unfold cnt in I1. exact I1.
    + assert (Q : ~ In x ((none :: live (vars s) ++ L) ++ slots (hp s))) by (rewrite cnt_in; unfold cnt in *; lia).
      split; intros Q1; apply Q; apply in_or_app; [left; right; apply in_or_app; now left|now right].
  - revert E. generalize PI_init. generalize (@nil nat) as L. 
    assert (Q : forall ops, Forall (okop valid) ops -> forall s L, PI s L -> prun valid ops s = PLoop ->
      exists ops1 k ops2 s1 x y, ops = ops1 ++ OGet k :: ops2 /\ prun valid ops1 s = POk s1 /\
        var s1 k = Some x /\ (y = x \/ inside (hp s1) x y) /\ inside (hp s1) y y).
    { clear. induction ops as [|o ops IH]; intros F s L P E; [discriminate|]. inversion F as [|? ? F1 F2]; subst.
      cbn [prun] in E. pose proof (pstep_ok valid s L o F1 P) as S1.
      destruct (pstep valid s o) as [s'| |] eqn:Es; [| discriminate|].
      - destruct S1 as (L1 & P1 & _). destruct (IH F2 s' _ P1 E) as (o1 & k & o2 & s1 & x & y & -> & R & Q).
        exists (o :: o1), k, o2, s1, x, y. split; [reflexivity|]. split; [|exact Q]. cbn [prun]. now rewrite Es.
      - destruct S1 as (k & x & -> & V & G). destruct P as [I1 _].
        destruct (var_in s k x V) as [Vi _].
        assert (LV : look (hp s) x <> None).
        { destruct (Inv_live _ _ x I1) as (c & ->); [|discriminate]. apply in_or_app. left. right. apply in_or_app. now left. }
        apply (getj_loop _ _ x I1 LV) in G. destruct G as (y & Y1 & Y2).
        exists [], k, ops, s, x, y. auto. }
    intros L P E. exact (Q ops F pinit L P E).
Qed.
Print Assumptions C88_counts.
Definition ops_ex : list pop :=
  [OJson (JArr [JNull; JArr []]); ODefault; OCopy 0; OPush 0 1; OPushJson 2 (JStr (bs "s")); OArray 0; OGet 2; OAssign 1 0;
   ODestroy 0; ODestroy 2].
Example C88_counts_ex : Forall (okop ascii7) ops_ex /\ leaked ascii7 ops_ex pinit = 9 /\
  exists s, prun ascii7 ops_ex pinit = POk s.
Proof.
  split; [unfold ops_ex; repeat (constructor; [vm_compute; auto|]); constructor|].
  split; [vm_compute; reflexivity|]. eexists. vm_compute. reflexivity.
Qed.
(** A program that abandons no reference leaves nothing behind but None, with the
    interpreter's own reference, unless an object contains itself. *)
Theorem C88_clean : forall valid ops s, Forall (okop valid) ops -> prun valid ops pinit = POk s ->
  leaked valid ops pinit = 0 -> live (vars s) = [] -> (forall y, ~ inside (hp s) y y) ->
  hp s = [(none, Cell 1 PNone)].
Proof.
  intros valid ops s F E L0 LV AC. destruct (reached valid ops s F E) as (L & P & K). rewrite L0 in K.
  destruct L; [|discriminate]. destruct (no_leak_clean s P LV AC) as (n & H).
  destruct P as [[_ I1] _]. rewrite LV, H in I1. specialize (I1 none). vm_compute in I1.
  rewrite H. destruct I1 as [-> _]. reflexivity.
Qed.
Print Assumptions C88_clean.
Example C88_clean_ex :
  let ops := [OJson (JArr [JNull; JArr [JInt 3]]); ODefault; OCopy 0; OPush 0 1; ODestroy 0; ODestroy 1; ODestroy 2] in
  Forall (okop ascii7) ops /\ leaked ascii7 ops pinit = 0 /\ prun ascii7 ops pinit = POk (mkpst [(none, Cell 1 PNone)] [None; None; None]).
Proof.
  split; [repeat (constructor; [vm_compute; auto|]); constructor|]. split; vm_compute; reflexivity.
Qed.
(** The assignment operator forgets the reference the variable had. *)
Theorem C88_assign_refuted : exists ops s, Forall (okop ascii7) ops /\ prun ascii7 ops pinit = POk s /\
  live (vars s) = [] /\ length (hp s) = 2 /\ ops = [OJson (JArr []); ODefault; OAssign 0 1; ODestroy 0; ODestroy 1].
Proof.
  exists ([OJson (JArr []); ODefault; OAssign 0 1; ODestroy 0; ODestroy 1]). eexists.
  split; [repeat (constructor; [vm_compute; auto|]); constructor|]. split; [vm_compute; reflexivity|].
  split; [vm_compute; reflexivity|]. split; [vm_compute; reflexivity|reflexivity].
Qed.
(** newPyObjectJson keeps a reference to every member of an object. *)
Theorem C88_member_refuted : exists ops s, Forall (okop ascii7) ops /\ prun ascii7 ops pinit = POk s /\
  live (vars s) = [] /\ length (hp s) = 2 /\ ops = [OJson (JObj [(bs "a", JArr [])]); ODestroy 0].
Proof.
  exists ([OJson (JObj [(bs "a", JArr [])]); ODestroy 0]). eexists.
  split; [repeat (constructor; [vm_compute; auto|]); constructor|]. split; [vm_compute; reflexivity|].
  split; [vm_compute; reflexivity|]. split; [vm_compute; reflexivity|reflexivity].
Qed.
(** array() makes two references to each element and gives up one. *)
Theorem C88_array_refuted : exists ops s, Forall (okop ascii7) ops /\ prun ascii7 ops pinit = POk s /\
  live (vars s) = [] /\ length (hp s) = 2 /\ ops = [OJson (JArr [JArr []]); OArray 0; ODestroy 0; ODestroy 1].
Proof.
  exists ([OJson (JArr [JArr []]); OArray 0; ODestroy 0; ODestroy 1]). eexists.
  split; [repeat (constructor; [vm_compute; auto|]); constructor|]. split; [vm_compute; reflexivity|].
  split; [vm_compute; reflexivity|]. split; [vm_compute; reflexivity|reflexivity].
Qed.
(** Reading a list or a dict as JSON leaves a reference to every element behind. *)
Theorem C88_get_refuted : exists ops s, Forall (okop ascii7) ops /\ prun ascii7 ops pinit = POk s /\
  live (vars s) = [] /\ length (hp s) = 2 /\ ops = [OJson (JArr [JArr []]); OGet 0; ODestroy 0].
Proof.
  exists ([OJson (JArr [JArr []]); OGet 0; ODestroy 0]). eexists.
  split; [repeat (constructor; [vm_compute; auto|]); constructor|]. split; [vm_compute; reflexivity|].
  split; [vm_compute; reflexivity|]. split; [vm_compute; reflexivity|reflexivity].
Qed.
(** PythonBuffer(nullptr) refers to None without counting; destroying it takes a reference
    away from somebody else, and in the end None is freed. *)
Theorem C88_null_refuted : exists ops, prun ascii7 ops pinit = PUb /\ ops = [ONull; ODestroy 0; ODefault].
Proof. exists [ONull; ODestroy 0; ODefault]. split; [vm_compute; reflexivity|reflexivity]. Qed.
(** A string that is not UTF-8 becomes a null pointer, which is then used. *)
Theorem C88_utf8_refuted : exists ops, prun ascii7 ops pinit = PUb /\ ops = [OJson (JStr ["200"%char])].
Proof. exists [OJson (JStr ["200"%char])]. split; [vm_compute; reflexivity|reflexivity]. Qed.
(** A list that contains itself is read for ever. *)
Theorem C88_cycle_refuted : exists ops, Forall (okop ascii7) ops /\ prun ascii7 ops pinit = PLoop /\
  ops = [OJson (JArr []); OPush 0 0; OGet 0].
Proof.
  exists [OJson (JArr []); OPush 0 0; OGet 0].
  split; [repeat (constructor; [vm_compute; auto|]); constructor|]. split; [vm_compute; reflexivity|reflexivity].
Qed.

(** ** C89: the streaming operators *)
(** b<<v; b>>w makes w equal to v: for numbers, bool, char, strings, enumerations, and
    resizable sequences, nested to any depth, of these (char excepted) and of anything that
    goes through JSON. *)
Theorem C89_stream : forall valid klt narrow i2d wr ops s t v, Forall (okop valid) ops ->
  prun valid ops pinit = POk s -> topt t -> ht klt narrow t v -> topval valid t v ->
  exists x h1 h2, shl valid wr t v (hp s) = HOk x h1 /\ shr klt narrow i2d t x h1 = HOk (Some v) h2.
Proof.
  intros valid klt narrow i2d wr ops s t v F E T H PV. destruct (reached valid ops s F E) as (L & [I1 ON] & _).
  destruct (shl_shr valid klt narrow i2d wr t v (hp s) _ T H PV I1 (or_introl eq_refl) ON)
    as (x & h1 & L1 & h2 & L2 & E1 & _ & E2 & _). eauto.
Qed.
Print Assumptions C89_stream.
Ltac ex_tac := repeat match goal with
  | |- _ /\ _ => split
  | |- NoDup _ => constructor
  | |- Forall _ _ => constructor
  | |- True => exact I
  | |- ~ In dot _ => now apply nodotb_ok
  | |- (_ <= _)%Z => vm_compute; discriminate
  | |- (_ < _)%Z => vm_compute; reflexivity
  | |- _ = _ => reflexivity
  | |- _ <> _ => discriminate
  | |- ~ In _ _ => cbn; intuition discriminate
  | |- wfj _ _ => vm_compute; intuition discriminate
  end.
Definition tcls : jty := TStruct (FCons (bs "k") tint (FCons (bs "s") TStr FNil)).
Definition vseq : jval := VL [VL [VL [VI 3; VS (bs "x")]]; VL []; VL [VL [VI (-1); VS []]; VL [VI 7; VS (bs "yz")]]].
Example C89_ex : topt (TSeq None (TSeq None tcls)) /\ ht no_klt idN (TSeq None (TSeq None tcls)) vseq /\
  topval ascii7 (TSeq None (TSeq None tcls)) vseq /\
  exists x h1 h2, shl ascii7 (fun _ => []) (TSeq None (TSeq None tcls)) vseq (hp pinit) = HOk x h1 /\
    shr no_klt idN i2d0 (TSeq None (TSeq None tcls)) x h1 = HOk (Some vseq) h2.
Proof.
  split; [cbn -[bs]; unfold nodot; ex_tac|]. split; [cbn -[bs Z.pow]; unfold ordered, inrange, nodot; ex_tac|].
  split; [cbn -[bs Z.pow]; ex_tac|].
  do 3 eexists. split; [vm_compute; reflexivity|]. vm_compute. reflexivity.
Qed.
(** A class is written as the text of a JSON document, in one Python string; reading it back
    finds no members, so that the value is left as it was, without an error. *)
Theorem C89_class_refuted : exists t v x h1 h2, ht no_klt idN t v /\ t = tcls /\
  shl ascii7 (fun _ => bs "{""k"":3,""s"":""x""}") t v (hp pinit) = HOk x h1 /\
  shr no_klt idN i2d0 t x h1 = HOk (Some (VL [VI 0; VS []])) h2 /\ v = VL [VI 3; VS (bs "x")].
Proof.
  exists tcls, (VL [VI 3; VS (bs "x")]). do 3 eexists. split; [cbn -[bs Z.pow]; unfold ordered, inrange, nodot; ex_tac|].
  split; [reflexivity|]. split; [vm_compute; reflexivity|]. split; [vm_compute; reflexivity|reflexivity].
Qed.
(** The elements of a sequence of char are written as numbers but read as strings: a null
    pointer is used. *)
Theorem C89_chars_refuted : exists v x h1, ht no_klt idN (TSeq None TChar) v /\
  shl ascii7 (fun _ => []) (TSeq None TChar) v (hp pinit) = HOk x h1 /\
  shr no_klt idN i2d0 (TSeq None TChar) x h1 = HUb.
Proof.
  exists (VL [VC "a"%char]). do 2 eexists. split; [vm_compute; repeat constructor|]. split; [vm_compute; reflexivity|]. vm_compute. reflexivity.
Qed.
(** A char of 0x80 or more is no UTF-8 string: writing it uses a null pointer. *)
Theorem C89_char_refuted : exists c, shl ascii7 (fun _ => []) TChar (VC c) (hp pinit) = HUb /\ c = "200"%char.
Proof. exists "200"%char. split; [vm_compute; reflexivity|reflexivity]. Qed.

(** The characters of a str before its first null character; nothing for other objects. *)
Definition text_of (o : pobj) (s : list ascii) : Prop :=
  exists w r, o = PStr w /\ w = s ++ r /\ ~ In nul s /\ (r = [] \/ exists r', r = nul :: r').
Lemma cstr_text : forall w, text_of (PStr w) (cstr w).
Proof.
  intros w. assert (H : exists r, w = cstr w ++ r /\ ~ In nul (cstr w) /\ (r = [] \/ exists r', r = nul :: r')).
  { induction w as [|c w IH]; [exists []; cbn; auto|]. destruct IH as (r & E & N & H).
    cbn [cstr]. destruct (ascii_dec c nul) as [->|Ec].
    - exists (nul :: w). split; [reflexivity|]. split; [intros []|]. right. now exists w.
    - exists r. split; [cbn [app]; f_equal; exact E|]. split; [|exact H]. intros [I2|I2]; auto. }
  destruct H as (r & H). now exists w, r.
Qed.
(** A string, a char or an enum is read from a str: all of it up to a null character, its
    first character, and the value of that symbol.  From any other object they are read
    through a null pointer. *)
Theorem C89_text : forall klt narrow i2d x h c t, look h x = Some c -> (t = TStr \/ t = TChar \/ exists ks, t = TEnum ks) ->
  (forall s, text_of (ob c) s -> shr klt narrow i2d t x h = HOk (Some match t with
     | TChar => VC (match s with [] => nul | a :: _ => a end)
     | TEnum ks => VI (ek_val (ek_make ks) s)
     | _ => VS s end) h) /\
  ((forall w, ob c <> PStr w) -> shr klt narrow i2d t x h = HUb).
Proof.
  intros klt narrow i2d x h c t L T.
  assert (U : forall o s, text_of o s -> get_str o = Some s).
  { intros o s (w & r & -> & -> & N & R). cbn. f_equal. induction s as [|a s IH]; cbn [app cstr].
    - destruct R as [->|[r' ->]]; reflexivity.
    - destruct (ascii_dec a nul) as [->|Ea]; [exfalso; apply N; now left|]. rewrite IH; auto. intros I2. apply N. now right. }
  split.
  - intros s Hs. destruct T as [->|[->|[ks ->]]]; cbn [shr]; rewrite L, (U _ _ Hs); [reflexivity| |reflexivity]. now destruct s.
  - intros Hn. destruct T as [->|[->|[ks ->]]]; cbn [shr]; rewrite L; destruct (ob c) eqn:Eo; try reflexivity; exfalso; eapply Hn; reflexivity.
Qed.
Example C89_text_ex : look [(0, Cell 1 (PStr (bs "ab")))] 0 = Some (Cell 1 (PStr (bs "ab"))) /\ text_of (PStr (bs "ab")) (bs "ab") /\
  shr no_klt idN i2d0 TChar 0 [(0, Cell 1 (PStr (bs "ab")))] = HOk (Some (VC "a"%char)) [(0, Cell 1 (PStr (bs "ab")))].
Proof.
  split; [reflexivity|]. split; [|vm_compute; reflexivity]. exact (cstr_text (bs "ab")).
Qed.
Print Assumptions C89_text.

(** * Further properties of the JSON reader: C21, C22, C26, C58 *)
From Verif Require Import Base Base_Proofs SMap Desc_Model Desc_Props Json_Model Json_Spec Json_Proofs Json_Proofs2 Json_Props.

(** ** C21: integers are converted as C++ converts them *)
(** [r] is the value of an integer type of the given width congruent to [z] *)
Definition same_int (sgn : bool) (bits z r : Z) : Prop :=
  ((r - z) mod 2 ^ bits = 0 /\
   (if sgn then - 2 ^ (bits - 1) <= r < 2 ^ (bits - 1) else 0 <= r < 2 ^ bits))%Z.
Definition via_bits (w : via) : Z := match w with ViaInt => 32 | ViaU64 | ViaI64 => 64 end.

Lemma wrap_same : forall sgn bits z, (0 < bits)%Z -> same_int sgn bits z (wrap sgn bits z).
Proof.
  intros sgn bits z H. unfold same_int, wrap.
  assert (E : (2 ^ bits = 2 * 2 ^ (bits - 1))%Z).
  { replace bits with (Z.succ (bits - 1))%Z at 1 by lia. now rewrite Z.pow_succ_r by lia. }
  assert (P : (0 < 2 ^ (bits - 1))%Z) by (apply Z.pow_pos_nonneg; lia).
  destruct sgn.
  - split.
    + rewrite (Z.mod_eq (z + _)) by lia.
      match goal with |- context [(?a * (?b / ?a))%Z] =>
        replace ((b - a * (b / a)) - 2 ^ (bits - 1) - z)%Z with ((- (b / a)) * a)%Z by lia end.
      apply Z_mod_mult.
    + pose proof (Z.mod_pos_bound (z + 2 ^ (bits - 1)) (2 ^ bits)%Z). lia.
  - split.
    + rewrite (Z.mod_eq z) by lia.
      replace (z - 2 ^ bits * (z / 2 ^ bits) - z)%Z with ((- (z / 2 ^ bits)) * 2 ^ bits)%Z by lia.
      apply Z_mod_mult.
    + apply Z.mod_pos_bound. lia.
Qed.
Lemma same_narrow : forall sgn sgn' b b' z y r, (0 < b <= b')%Z ->
  same_int sgn' b' z y -> same_int sgn b y r -> same_int sgn b z r.
Proof.
  intros sgn sgn' b b' z y r H [A _] [B C]. split; [|exact C].
  assert (P : (0 < 2 ^ b)%Z) by (apply Z.pow_pos_nonneg; lia).
  assert (P' : (0 < 2 ^ (b' - b))%Z) by (apply Z.pow_pos_nonneg; lia).
  assert (E : (2 ^ b' = 2 ^ b * 2 ^ (b' - b))%Z).
  { rewrite <- Z.pow_add_r by lia. f_equal. lia. }
  apply Z.mod_divide in A; [|lia]. apply Z.mod_divide in B; [|lia]. apply Z.mod_divide; [lia|].
  destruct A as [p A], B as [q B]. exists (p * 2 ^ (b' - b) + q)%Z. rewrite E in A. lia.
Qed.
Lemma wrap_via_same : forall w z, exists s, same_int s (via_bits w) z (wrap_via w z).
Proof.
  intros [| |] z; cbn [via_bits wrap_via]; eexists; apply wrap_same; lia.
Qed.
(** A number read into an integer type of any width up to that of the json_spirit getter is
    the value of that type congruent to it: what C++ conversions give, never an error. *)
Theorem C21_int_conversion : forall klt narrow i2d te w sgn bits x d a z,
  (0 < bits <= via_bits w)%Z -> json_find x d = FOk (JInt z) ->
  exists r, unpack klt narrow i2d te (TInt w sgn bits) x d a = JOk (VI r) /\ same_int sgn bits z r.
Proof.
  intros klt narrow i2d te w sgn bits x d a z H E. eexists. split.
  - cbn [unpack]. unfold unpack_leaf, find_or. rewrite E. cbn [get_value]. reflexivity.
  - destruct (wrap_via_same w z) as [s W].
    eapply same_narrow; [exact H|exact W|]. apply wrap_same. lia.
Qed.
Example C21_int_conversion_ex : unpack0 true (TInt ViaInt false 8) (JInt (-1)) [] VNul = JOk (VI 255)
  /\ unpack0 true (TInt ViaU64 false 16) (JInt 65537) [] VNul = JOk (VI 1)
  /\ unpack0 true (TInt ViaInt true 8) (JInt 200) [] VNul = JOk (VI (-56)).
Proof. vm_compute. auto. Qed.
Print Assumptions C21_int_conversion.

(** A string read into a char gives its first character, and NUL when it is empty. *)
Theorem C21_char_first : forall klt narrow i2d te x d a s, json_find x d = FOk (JStr s) ->
  unpack klt narrow i2d te TChar x d a = JOk (VC (match s with c :: _ => c | [] => "000"%char end)).
Proof.
  intros klt narrow i2d te x d a s E. cbn [unpack]. unfold unpack_leaf, find_or. rewrite E. now destruct s.
Qed.
Example C21_char_first_ex : unpack0 true TChar (JStr (bs "xyz")) [] (VC "q"%char) = JOk (VC "x"%char)
  /\ unpack0 true TChar (JStr []) [] (VC "q"%char) = JOk (VC "000"%char).
Proof. vm_compute. auto. Qed.
Print Assumptions C21_char_first.

(** Every other kind of value makes a fundamental type or a string throw, whatever the flags. *)
Definition fits (t : jty) (y : jv) : bool :=
  match t, y with
  | TBool, JBool _ | TChar, JStr _ | TStr, JStr _ | TInt _ _ _, JInt _ => true
  | TFlt, (JNull | JReal _ | JInt _) | TDbl, (JNull | JReal _ | JInt _) => true
  | _, _ => false
  end.
Definition scalar (t : jty) : bool :=
  match t with TBool | TChar | TInt _ _ _ | TFlt | TDbl | TStr => true | _ => false end.
Theorem C21_kind_mismatch : forall klt narrow i2d te t x d a y, scalar t = true -> json_find x d = FOk y ->
  (fits t y = false <-> unpack klt narrow i2d te t x d a = JErr EOther).
Proof.
  intros klt narrow i2d te t x d a y S E.
  assert (H : unpack klt narrow i2d te t x d a =
              match get_value narrow i2d t y with Some v => JOk v | None => JErr EOther end).
  { destruct t; try discriminate S; cbn [unpack]; unfold unpack_leaf, find_or; now rewrite E. }
  rewrite H. destruct t; try discriminate S; destruct y; cbn; split; congruence.
Qed.
Example C21_kind_mismatch_ex : unpack0 false tint (JReal 3) [] (VI 0) = JErr EOther
  /\ unpack0 false TStr (JInt 3) [] (VS []) = JErr EOther.
Proof. vm_compute. auto. Qed.
Print Assumptions C21_kind_mismatch.

(** ** C22: an array read into a container of fixed size changes the elements it lists and
    no others *)
Lemma unseq_split : forall f l vals r, unseq f l vals = JOk r ->
  length r = length vals /\
  (forall i, length l <= i -> nth_error r i = nth_error vals i) /\
  (forall i y v, nth_error l i = Some y -> nth_error vals i = Some v ->
     exists u, f y v = JOk u /\ nth_error r i = Some u).
Proof.
  induction l as [|y l IH]; intros vals r H.
  - cbn in H. injection H as <-. repeat split; auto. intros [|i] y v E; discriminate E.
  - destruct vals as [|v vals].
    + cbn in H. injection H as <-. repeat split; auto. intros [|i] ? ? _ E; discriminate E.
    + cbn [unseq] in H. destruct (f y v) as [u| |] eqn:F; try discriminate H. cbn [jbind] in H.
      destruct (unseq f l vals) as [us| |] eqn:U; try discriminate H. cbn [jbind] in H.
      injection H as <-. destruct (IH _ _ U) as [L [A B]]. repeat split.
      * cbn. now f_equal.
      * intros [|i] Hi; [cbn in Hi; lia|]. cbn. apply A. cbn in Hi. lia.
      * intros [|i] y' v' E1 E2; cbn in *.
        -- injection E1 as <-. injection E2 as <-. eauto.
        -- now apply B.
Qed.
Theorem C22_fixed_elements : forall klt narrow i2d te n t x d l vals r,
  json_find x d = FOk (JArr l) ->
  unpack klt narrow i2d te (TSeq (Some n) t) x d (VL vals) = JOk r ->
  exists rs, r = VL rs /\ length rs = length vals /\
    (forall i, length l <= i -> nth_error rs i = nth_error vals i) /\
    (forall i y v, nth_error l i = Some y -> nth_error vals i = Some v ->
       exists u, unpack klt narrow i2d false t y [] v = JOk u /\ nth_error rs i = Some u).
Proof.
  intros klt narrow i2d te n t x d l vals r E H. cbn [unpack] in H. unfold find_or in H. rewrite E in H.
  destruct (unseq _ l vals) as [rs| |] eqn:U; try discriminate H. injection H as <-.
  exists rs. split; [reflexivity|]. now apply unseq_split in U.
Qed.
Example C22_fixed_elements_ex :
  unpack0 true (TSeq (Some 3) tint) (JArr [JInt 7]) [] (VL [VI 1; VI 2; VI 3]) = JOk (VL [VI 7; VI 2; VI 3]).
Proof. vm_compute. reflexivity. Qed.
Print Assumptions C22_fixed_elements.

(** ** C26: an unknown type name *)
Fixpoint tags (als : alts) : list (list ascii) :=
  match als with ANil => [] | ACons tg _ als' => tg :: tags als' end.
Lemma alts_unknown : forall klt narrow i2d te x d als tag, ~ In tag (tags als) ->
  unpack_alts klt narrow i2d te als tag x d = JErr EOther.
Proof.
  intros klt narrow i2d te x d. induction als as [|tg fs als IH]; intros tag N; [reflexivity|].
  cbn [unpack_alts]. destruct (beq tg tag) eqn:B.
  - apply beq_eq in B. exfalso. apply N. left. exact B.
  - apply IH. intro. apply N. now right.
Qed.
(** A type name that is not registered makes the read throw: no object is made. *)
Theorem C26_unknown_type : forall klt narrow i2d te als kvs tag a,
  mfind bcmp (bs "type") kvs = Some (JStr tag) -> ~ In tag (tags als) ->
  unpack klt narrow i2d te (TPoly als) (JObj kvs) [] a = JErr EOther.
Proof.
  intros klt narrow i2d te als kvs tag a F N. cbn [unpack]. rewrite F.
  unfold unpack_leaf, find_or. rewrite C23_lookup_any. cbn -[mfind]. 
  change (mfind _ _ kvs) with (mfind bcmp (bs "type") kvs). rewrite F.
  cbn [get_value jbind]. now apply alts_unknown.
Qed.
Example C26_unknown_type_ex : exists als kvs, mfind bcmp (bs "type") kvs = Some (JStr (bs "Z"))
  /\ ~ In (bs "Z") (tags als) /\ unpack0 true (TPoly als) (JObj kvs) [] VNul = JErr EOther.
Proof.
  exists (ACons (bs "A") FNil ANil), [(bs "type", JStr (bs "Z"))]. split; [|split]; try (vm_compute; reflexivity).
  intros [H|[]]. discriminate H.
Qed.
Print Assumptions C26_unknown_type.

(** ** C58: null empties a StringKeyMap *)
Theorem C58_json_null : forall klt narrow i2d te t x d a, json_find x d = FOk JNull ->
  unpack klt narrow i2d te (TMap t) x d a = JOk (VM []).
Proof. intros klt narrow i2d te t x d a E. cbn [unpack]. unfold find_or. now rewrite E. Qed.
Example C58_json_null_ex : unpack0 true (TMap tint) JNull [] (VM [(bs "k", VI 1)]) = JOk (VM []).
Proof. vm_compute. reflexivity. Qed.
Print Assumptions C58_json_null.

(** * Further properties of the XML reader: C27, C29, C30 *)
From Verif Require Import Base Base_Proofs SMap Dec Desc_Model Desc_Props Json_Model Json_Spec Xml_Model Xml_Spec Xml_Proofs Xml_Proofs2 Xml_Proofs3 Xml_Proofs4 Xml_Proofs5 Xml_Props.

(** ** C27: character references *)
(** the value of a hexadecimal digit, from a table *)
Definition hexdigits : list (ascii * N) :=
  combine (bs "0123456789abcdefABCDEF") [0;1;2;3;4;5;6;7;8;9;10;11;12;13;14;15;10;11;12;13;14;15]%N.
Inductive hexnum : list ascii -> N -> Prop :=
| hexone : forall c v, In (c, v) hexdigits -> hexnum [c] v
| hexmore : forall s n c v, hexnum s n -> In (c, v) hexdigits -> hexnum (s ++ [c]) (n * 16 + v).

Lemma hex_digval : forall c v, In (c, v) hexdigits -> digval 16 c = Some v /\ isspace c = false /\
  c <> "-"%char /\ c <> "+"%char /\ c <> "x"%char /\ c <> "X"%char.
Proof.
  intros c v H. cbn in H.
  repeat (destruct H as [H|H]; [injection H as <- <-; repeat split; (reflexivity || discriminate)|]). destruct H.
Qed.
Lemma hexnum_all : forall s n, hexnum s n -> Forall (fun c => exists v, In (c, v) hexdigits) s /\ s <> [].
Proof.
  induction 1 as [c v H|s n c v H [A B] D].
  - split; [|discriminate]. repeat constructor. eauto.
  - split; [|now destruct s]. apply Forall_app. split; [exact A|]. repeat constructor. eauto.
Qed.
Lemma digits_snoc : forall s c v acc any, Forall (fun c => exists v, In (c, v) hexdigits) s -> In (c, v) hexdigits ->
  digits 16 (s ++ [c]) acc any = (fst (digits 16 s acc any) * 16 + v, true)%N.
Proof.
  induction s as [|a s IH]; intros c v acc any A D.
  - cbn [app digits fst]. now rewrite (proj1 (hex_digval _ _ D)).
  - apply Forall_cons_iff in A as [[u A] A']. cbn [app digits]. rewrite (proj1 (hex_digval _ _ A)).
    now apply IH.
Qed.
Lemma digits_hex : forall s n, hexnum s n -> digits 16 s 0 false = (n, true).
Proof.
  induction 1 as [c v H|s n c v H IH D].
  - cbn. now rewrite (proj1 (hex_digval _ _ H)).
  - rewrite (digits_snoc s c v) by (try apply (hexnum_all _ _ H); exact D). now rewrite IH.
Qed.
Lemma strtol_hex : forall s n, hexnum s n -> strtol 16 s = Z.of_N n.
Proof.
  intros s n H. destruct (hexnum_all _ _ H) as [A N]. unfold strtol.
  assert (G : gobble_ws s = s).
  { destruct s as [|c s']; [reflexivity|]. apply Forall_cons_iff in A as [[v A] _]. cbn [gobble_ws].
    now rewrite (proj1 (proj2 (hex_digval _ _ A))). }
  rewrite G.
  assert (E : match s with
              | c :: s' => if ascii_dec c "-" then (true, s') else if ascii_dec c "+" then (false, s') else (false, s)
              | [] => (false, s) end = (false, s)).
  { destruct s as [|c s']; [reflexivity|]. apply Forall_cons_iff in A as [[v A] _].
    destruct (hex_digval _ _ A) as (_ & _ & M & P & _).
    destruct (ascii_dec c "-"); [contradiction|]. destruct (ascii_dec c "+"); [contradiction|reflexivity]. }
  rewrite E.
  assert (F : match s with
              | z :: x :: h :: s' =>
                  if ((16 =? 16)%N && (if ascii_dec z "0" then true else false)
                     && ((if ascii_dec x "x" then true else false) || (if ascii_dec x "X" then true else false))
                     && match digval 16 h with Some _ => true | None => false end)%bool
                  then h :: s' else s
              | _ => s end = s).
  { destruct s as [|z [|x [|h s']]]; try reflexivity.
    apply Forall_cons_iff in A as [_ A]. apply Forall_cons_iff in A as [[v A] _].
    destruct (hex_digval _ _ A) as (_ & _ & _ & _ & P & Q).
    destruct (ascii_dec x "x"); [contradiction|]. destruct (ascii_dec x "X"); [contradiction|].
    cbn [orb]. now rewrite andb_false_r. }
  rewrite F, (digits_hex _ _ H). reflexivity.
Qed.
(** "&#x...;" stands for the character of that code, for any number of digits; from 128 on
    it is refused. *)
Theorem C27_hex_reference : forall s n rest, hexnum s n ->
  parse_entity (bs "#x" ++ s ++ bs ";" ++ rest) = if (n <? 128)%N then Some (ascii_of_N n, rest) else None.
Proof.
  intros s n rest H. unfold parse_entity.
  assert (A := proj1 (hexnum_all _ _ H)).
  assert (T : forall l, Forall (fun c => exists v, In (c, v) hexdigits) l ->
              to_semi (l ++ bs ";" ++ rest) = Some (l, rest)).
  { induction l as [|c l IH]; intros F; [reflexivity|]. apply Forall_cons_iff in F as [[v F] F'].
    cbn [app to_semi]. rewrite (IH F'). destruct (ascii_dec c ";") as [->|]; [|reflexivity].
    cbn in F. repeat (destruct F as [F|F]; [discriminate F|]). destruct F. }
  change (bs "#x" ++ s ++ bs ";" ++ rest) with ("#"%char :: "x"%char :: (s ++ bs ";" ++ rest)).
  cbn [to_semi]. rewrite (T s A). unfold entity. cbn [beq bs list_ascii_of_string].
  cbn -[strtol in_char to_char]. rewrite (strtol_hex _ _ H). unfold in_char, to_char.
  destruct (n <? 128)%N eqn:L.
  - replace ((-128 <=? Z.of_N n)%Z && (Z.of_N n <=? 127)%Z)%bool with true by lia.
    rewrite Z.mod_small by lia. now rewrite N2Z.id.
  - replace ((-128 <=? Z.of_N n)%Z && (Z.of_N n <=? 127)%Z)%bool with false by lia. reflexivity.
Qed.
Example C27_hex_reference_ex : hexnum (bs "3C") 60 /\ parse_entity (bs "#x3C;b") = Some ("<"%char, bs "b").
Proof.
  split; [|vm_compute; reflexivity].
  refine (hexmore [_] 3 _ 12 (hexone _ _ _) _); cbn; intuition.
Qed.
Print Assumptions C27_hex_reference.

(** ** C29: numbers outside the range of the type are read as the nearest end of the range *)
Theorem C29_int_saturates : forall bits z, (0 < bits)%Z ->
  read_int true bits (decZ z) = Z.max (- 2 ^ (bits - 1)) (Z.min (2 ^ (bits - 1) - 1) z).
Proof.
  intros bits z B. unfold read_int. rewrite gobble_none.
  2: { eapply Forall_impl; [|apply decZ_plain]. intros c Hc. now apply plain_spec. }
  assert (P : (0 < 2 ^ (bits - 1))%Z) by (apply Z.pow_pos_nonneg; lia).
  assert (E : forall n, digits 10 (dec n) 0 false = (n, true)).
  { intro n. rewrite <- (app_nil_r (dec n)). now apply digits_dec. }
  unfold decZ. destruct (z <? 0)%Z eqn:L.
  - cbn [ascii_dec]. destruct (ascii_dec "-" "-"); [|congruence]. rewrite E.
    replace (Z.of_N (Z.to_N (- z))) with (- z)%Z by lia. replace (- - z)%Z with z by lia.
    cbv zeta beta iota. set (X := (2 ^ (bits - 1))%Z) in *. clearbody X. destruct (z <? - X)%Z eqn:?; [lia|]. destruct (X <=? z)%Z eqn:?; lia.
  - assert (F : match dec (Z.to_N z) with
                | c :: s' => if ascii_dec c "-" then (true, s') else if ascii_dec c "+" then (false, s') else (false, dec (Z.to_N z))
                | [] => (false, dec (Z.to_N z)) end = (false, dec (Z.to_N z))).
    { pose proof (dec_isdigit (Z.to_N z)) as D. destruct (dec (Z.to_N z)) as [|c r]; [reflexivity|].
      apply Forall_cons_iff in D as [D _].
      destruct (ascii_dec c "-") as [->|]; [unfold isdigit in D; cbn in D; lia|].
      destruct (ascii_dec c "+") as [->|]; [unfold isdigit in D; cbn in D; lia|reflexivity]. }
    rewrite F, E. rewrite Z2N.id by lia.
    cbv zeta beta iota. set (X := (2 ^ (bits - 1))%Z) in *. clearbody X. destruct (z <? - X)%Z eqn:?; [lia|]. destruct (X <=? z)%Z eqn:?; lia.
Qed.
Example C29_int_saturates_ex : of0 (XInt true 16) (bs "<root>40000</root>") (VI 0) = POk (VI 32767)
  /\ of0 (XInt true 16) (bs "<root>-40000</root>") (VI 0) = POk (VI (-32768)).
Proof. vm_compute. auto. Qed.
Print Assumptions C29_int_saturates.

(** Which texts are read as true: one of six words, in any case, with any white space in it. *)
Definition truths := [bs "1"; bs "t"; bs "true"; bs "y"; bs "yes"; bs "on"].
Inductive spells : list ascii -> list ascii -> Prop :=
| sp_end : spells [] []
| sp_ws : forall c w s, In c [" "; ascii_of_N 9; ascii_of_N 10; ascii_of_N 11; ascii_of_N 12; ascii_of_N 13]%char ->
    spells w s -> spells w (c :: s)
| sp_same : forall c w s, spells w s -> spells (c :: w) (c :: s)
| sp_upper : forall c w s, (97 <= N_of_ascii c <= 122)%N -> spells w s ->
    spells (c :: w) (ascii_of_N (N_of_ascii c - 32) :: s).

Definition wschar (c : ascii) : bool :=
  existsb (fun x => if ascii_dec x c then true else false)
    [" "; ascii_of_N 9; ascii_of_N 10; ascii_of_N 11; ascii_of_N 12; ascii_of_N 13]%char.
Lemma all_chars : forall P : ascii -> bool, forallb (fun n => P (ascii_of_nat n)) (seq 0 256) = true ->
  forall c, P c = true.
Proof.
  intros P H c. rewrite <- (ascii_nat_embedding c). rewrite forallb_forall in H. apply H.
  apply in_seq. pose proof (nat_ascii_bounded c). lia.
Qed.
Lemma ws_isspace : forall c, isspace c = wschar c.
Proof.
  intro c. apply eqb_prop. revert c. apply all_chars. vm_compute. reflexivity.
Qed.
Definition plainw (w : list ascii) : Prop :=
  Forall (fun c => isspace c = false /\ lower c = c) w.
Lemma truths_plain : forall w, In w truths -> plainw w.
Proof.
  intros w H. cbn in H.
  repeat (destruct H as [<-|H]; [repeat constructor|]). destruct H.
Qed.
Lemma upper_lower : forall c, (97 <= N_of_ascii c <= 122)%N ->
  lower (ascii_of_N (N_of_ascii c - 32)) = c /\ isspace (ascii_of_N (N_of_ascii c - 32)) = false.
Proof.
  intros c H.
  assert (A : forall c, (negb ((97 <=? N_of_ascii c) && (N_of_ascii c <=? 122)) ||
     ((if ascii_dec (lower (ascii_of_N (N_of_ascii c - 32))) c then true else false) && negb (isspace (ascii_of_N (N_of_ascii c - 32)))))%N = true).
  { apply all_chars. vm_compute. reflexivity. }
  specialize (A c). replace ((97 <=? N_of_ascii c) && (N_of_ascii c <=? 122))%N with true in A by lia.
  cbn [negb orb] in A. apply andb_true_iff in A as [A B]. split; [|now apply negb_true_iff].
  now destruct (ascii_dec _ c).
Qed.
Lemma lower_cases : forall c, lower c = c \/ ((97 <= N_of_ascii (lower c) <= 122)%N /\ c = ascii_of_N (N_of_ascii (lower c) - 32)).
Proof.
  intro c.
  assert (A : forall c, ((if ascii_dec (lower c) c then true else false) ||
    ((97 <=? N_of_ascii (lower c)) && (N_of_ascii (lower c) <=? 122) && (if ascii_dec c (ascii_of_N (N_of_ascii (lower c) - 32)) then true else false)))%N = true).
  { apply all_chars. vm_compute. reflexivity. }
  specialize (A c). apply orb_true_iff in A as [A|A].
  - left. now destruct (ascii_dec (lower c) c).
  - right. apply andb_true_iff in A as [A B]. apply andb_true_iff in A as [A1 A2]. split; [lia|].
    now destruct (ascii_dec c _).
Qed.
Lemma spells_norm : forall w s, plainw w ->
  (spells w s <-> map lower (filter (fun c => negb (isspace c)) s) = w).
Proof.
  intros w s P. split.
  - intro H. revert P. induction H as [|c w s I H IH|c w s H IH|c w s R H IH]; intro P.
    + reflexivity.
    + cbn [filter]. replace (isspace c) with true; [now apply IH|]. rewrite ws_isspace. symmetry.
      apply existsb_exists. exists c. split; [exact I|]. now destruct (ascii_dec c c).
    + apply Forall_cons_iff in P as [[P1 P2] P]. cbn [filter]. rewrite P1. cbn [negb map]. rewrite P2. f_equal. now apply IH.
    + apply Forall_cons_iff in P as [[P1 P2] P]. destruct (upper_lower c R) as [U1 U2].
      cbn [filter]. rewrite U2. cbn [negb map]. rewrite U1. f_equal. now apply IH.
  - revert w P. induction s as [|c s IH]; intros w P E.
    + cbn in E. subst w. constructor.
    + cbn [filter] in E. destruct (isspace c) eqn:W.
      * apply sp_ws; [|now apply IH]. rewrite ws_isspace in W. apply existsb_exists in W as [x [X Y]].
        destruct (ascii_dec x c); [subst; exact X|discriminate Y].
      * cbn [negb map] in E. subst w. apply Forall_cons_iff in P as [_ P].
        destruct (lower_cases c) as [L|[L1 L2]].
        -- rewrite L. apply sp_same. now apply IH.
        -- rewrite L2 at 2. apply sp_upper; [exact L1|]. now apply IH.
Qed.
Theorem C29_bool_words : forall s, read_bool s = true <-> exists w, In w truths /\ spells w s.
Proof.
  intro s. unfold read_bool. set (v := map lower _). split.
  - intro H. rewrite !orb_true_iff in H.
    assert (I : In v truths). { rewrite !beq_eq in H. unfold truths. clearbody v.
      repeat (destruct H as [H|H]); rewrite H; clear; unfold In; intuition. }
    exists v. split; [exact I|]. apply spells_norm; [now apply truths_plain|reflexivity].
  - intros [w [I H]]. apply spells_norm in H; [|now apply truths_plain]. fold v in H. rewrite H.
    rewrite !orb_true_iff, !beq_eq. clear H. unfold truths, In in I.
    repeat (destruct I as [<-|I]; [clear; intuition|]). destruct I.
Qed.
Example C29_bool_words_ex : read_bool (bs " Y") = true /\ read_bool (bs "TrUe ") = true /\ read_bool (bs "2") = false.
Proof. vm_compute. auto. Qed.
Print Assumptions C29_bool_words.

(** ** C30: an absent pointer is reset, whatever it pointed to *)
Theorem C30_absent_pointer : forall fget klt x t d v, exists_ (xtc x) d = false ->
  xunpack fget klt x (XPtr t) d v = POk VNul.
Proof. intros fget klt x t d v E. cbn [xunpack]. now rewrite E. Qed.
Theorem C30_absent_pointer_refuted : exists t s v,
  of0 t s (VL [v]) = POk (VL [VNul]) /\ v <> VNul.
Proof.
  exists (XStruct (XCons (bs "p") (XPtr xint) XNil)), (bs "<root><q>1</q></root>"), (VPtr (VI 3)).
  split; [vm_compute; reflexivity|discriminate].
Qed.
Example C30_absent_pointer_ex : exists x, exists_ (xtc x) (bs "root.p") = false.
Proof. exists {| xcm := []; xtc := []; miss := false |}. vm_compute. reflexivity. Qed.
Print Assumptions C30_absent_pointer.
Print Assumptions C30_absent_pointer_refuted.

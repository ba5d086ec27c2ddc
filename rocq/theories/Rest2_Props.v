(** * Properties of REST access to containers (C39, C40) and of function calls (C41, C42) *)
From Verif Require Import Base Base_Proofs SMap Dec Desc_Model Desc_Props Json_Model Rest_Model Rest2_Model.
Ltac Zify.zify_post_hook ::= Z.div_mod_to_equations.

(** ** Strings *)
Lemma startsWith_app : forall p s, startsWith (p ++ s) p = true.
Proof. intros. unfold startsWith. rewrite firstn_app, Nat.sub_diag, firstn_all, app_nil_r. apply beq_refl. Qed.
Lemma startsWith_spec : forall s p, startsWith s p = true <-> exists r, s = p ++ r.
Proof.
  intros s p. split.
  - unfold startsWith. intros H. apply beq_eq in H. exists (skipn (length p) s). rewrite <- H at 1. symmetry. apply firstn_skipn.
  - intros [r ->]. apply startsWith_app.
Qed.
Definition nodot (s : list ascii) : Prop := ~ In dot s.
(** a tail: nothing, or something starting with a dot *)
Definition tailp (t : list ascii) : Prop := t = [] \/ exists r, t = dot :: r.
Lemma sfind_nodot : forall s t, nodot s -> sfind dot (s ++ dot :: t) = Some (length s).
Proof.
  induction s as [|c s IH]; intros t H; cbn [app sfind].
  - now destruct (ascii_dec dot dot).
  - destruct (ascii_dec c dot) as [->|Q]; [exfalso; apply H; now left|]. rewrite IH; [reflexivity|].
    intros I. apply H. now right.
Qed.
Lemma sfind_none : forall s, nodot s -> sfind dot s = None.
Proof.
  induction s as [|c s IH]; intros H; cbn [sfind]; [reflexivity|].
  destruct (ascii_dec c dot) as [->|Q]; [exfalso; apply H; now left|]. rewrite IH; [reflexivity|].
  intros I. apply H. now right.
Qed.
Lemma digits_nodot : forall s, Forall isdigit s -> nodot s.
Proof. intros s H I. rewrite Forall_forall in H. apply H in I. unfold isdigit in I. cbn in I. lia. Qed.

Lemma digit_not_special : forall c, isdigit c -> isspace c = false /\ c <> "-"%char /\ c <> "+"%char.
Proof.
  intros c H. unfold isdigit in H. repeat split.
  - unfold isspace. lia.
  - intros ->. cbn in H. lia.
  - intros ->. cbn in H. lia.
Qed.
Lemma stops_tail : forall t, tailp t -> stops t.
Proof. intros t [->|[r ->]]; [exact I|reflexivity]. Qed.
Lemma stoi_pos : forall n t, tailp t -> stoi (dec n ++ t) =
  if (Z.of_N n <? 2 ^ 31)%Z then JOk (Z.of_N n) else JErr EOther.
Proof.
  intros n t H. unfold stoi. assert (D := dec_isdigit n). assert (NE := dec_nonempty n).
  assert (Dg := digits_dec n t (stops_tail t H)).
  destruct (dec n) as [|c s]; [congruence|]. apply Forall_cons_iff in D as [Dc D].
  destruct (digit_not_special c Dc) as (S1 & S2 & S3). cbn [app] in *.
  assert (Sk : skipspace (c :: s ++ t) = c :: s ++ t) by (cbn [skipspace]; now rewrite S1).
  rewrite Sk. destruct (ascii_dec c "-"); [congruence|]. destruct (ascii_dec c "+"); [congruence|].
  rewrite Dg. replace (- 2 ^ 31 <=? Z.of_N n)%Z with true by lia. reflexivity.
Qed.
Lemma stoi_neg : forall n t, tailp t -> (n <= 2 ^ 31)%N -> stoi ("-"%char :: dec n ++ t) = JOk (- Z.of_N n)%Z.
Proof.
  intros n t H L. unfold stoi. change (skipspace ("-"%char :: dec n ++ t)) with ("-"%char :: dec n ++ t).
  cbv zeta iota beta. destruct (ascii_dec "-" "-"); [|congruence]. rewrite (digits_dec n t (stops_tail t H)).
  assert (P31 : (2 ^ 31 = 2147483648)%N) by reflexivity.
  assert (P31' : (2 ^ 31 = 2147483648)%Z) by reflexivity.
  replace ((- 2 ^ 31 <=? - Z.of_N n) && (- Z.of_N n <? 2 ^ 31))%Z with true by lia. reflexivity.
Qed.

(** ".@elem.<idx><tail>" *)
Definition elemq (nothrow : bool) (idx tail : list ascii) : list ascii :=
  bs ".@elem" ++ (if nothrow then bs "NoThrow" else []) ++ dot :: idx ++ tail.
Lemma elemq_starts : forall nt idx tail, startsWith (elemq nt idx tail) (bs ".@elem") = true.
Proof. intros. apply startsWith_app. Qed.
Lemma elemq_nothrow : forall nt idx tail, startsWith (elemq nt idx tail) (bs ".@elemNoThrow") = nt.
Proof.
  intros [|] idx tail; unfold elemq.
  - exact (startsWith_app (bs ".@elemNoThrow") (dot :: idx ++ tail)).
  - reflexivity.
Qed.
Definition stem (nt : bool) : list ascii := bs ".@elem" ++ (if nt then bs "NoThrow" else []).
Lemma elemq_stem : forall nt idx tail, elemq nt idx tail = stem nt ++ dot :: idx ++ tail.
Proof. intros. unfold elemq, stem. now rewrite <- app_assoc. Qed.
Lemma elemq_find1 : forall nt idx tail, find_from (elemq nt idx tail) 1 = Some (length (stem nt)).
Proof.
  intros [|] idx tail.
  - change (elemq true idx tail) with (dot :: bs "@elemNoThrow" ++ dot :: idx ++ tail).
    unfold find_from. cbn [skipn]. rewrite sfind_nodot; [reflexivity|]. vm_compute. intuition discriminate.
  - change (elemq false idx tail) with (dot :: bs "@elem" ++ dot :: idx ++ tail).
    unfold find_from. cbn [skipn]. rewrite sfind_nodot; [reflexivity|]. vm_compute. intuition discriminate.
Qed.
Lemma skipn_stem : forall nt x, skipn (S (length (stem nt))) (stem nt ++ dot :: x) = x.
Proof.
  intros. replace (S (length (stem nt))) with (length (stem nt) + 1) by lia. rewrite skipn_app.
  rewrite skipn_all2 by lia. replace (length (stem nt) + 1 - length (stem nt)) with 1 by lia. reflexivity.
Qed.
(** where the index ends *)
Lemma elemq_end : forall nt idx tail, nodot idx -> tailp tail ->
  match find_from (elemq nt idx tail) (S (length (stem nt))) with Some e => e | None => length (elemq nt idx tail) end
  = S (length (stem nt)) + length idx.
Proof.
  intros nt idx tail Hi Ht. unfold find_from. rewrite elemq_stem, skipn_stem.
  destruct Ht as [->|[r ->]].
  - rewrite app_nil_r, sfind_none by exact Hi. rewrite app_length. cbn [length]. lia.
  - now rewrite sfind_nodot.
Qed.
Lemma tail_at : forall nt idx tail, skipn (S (length (stem nt)) + length idx) (elemq nt idx tail) = tail.
Proof.
  intros. rewrite elemq_stem. rewrite Nat.add_comm, <- skipn_skipn, skipn_stem, skipn_app, Nat.sub_diag, skipn_all. reflexivity.
Qed.
Lemma firstn_tail : forall (idx tail : list ascii) n, length idx <= n -> tailp tail ->
  exists t, firstn n (idx ++ tail) = idx ++ t /\ tailp t.
Proof.
  intros idx tail n L Ht. rewrite firstn_app, (firstn_all2 idx) by exact L. eexists. split; [reflexivity|].
  destruct Ht as [->|[r ->]]; [rewrite firstn_nil; now left|].
  destruct (n - length idx); [now left|]. right. eexists. reflexivity.
Qed.

(** ** C39: sequences *)
Section C39.
Variables E R : Type.
Variable dflt : E.
Variable conv : E -> jv -> E * jr unit.
Variable eproc : E -> list ascii -> jv -> E * jr R.
Variable convseq : list E -> jv -> list E * jr unit.
Variable oproc : list E -> list ascii -> jv -> list E * jr R.
Variable d2u : N -> jr N.
Notation seq_process := (seq_process E R dflt conv eproc convseq oproc d2u).
Notation elemImpl := (elemImpl E).

(** the list operations *)
Definition set_nth (l : list E) (i : nat) (e : E) : list E := firstn i l ++ e :: skipn (S i) l.
Definition del_nth (l : list E) (i : nat) : list E := firstn i l ++ skipn (S i) l.
Lemma update_set : forall l i e, i < length l -> update l i e = set_nth l i e.
Proof.
  unfold set_nth. induction l as [|x l IH]; intros [|i] e H; cbn [length update firstn skipn app] in *; try lia; [reflexivity|].
  now rewrite IH by lia.
Qed.
Lemma remove_del : forall (l : list E) i, i < length l -> remove_nth l i = del_nth l i.
Proof.
  unfold del_nth. induction l as [|x l IH]; intros [|i] H; cbn [length remove_nth firstn skipn app] in *; try lia; [reflexivity|].
  now rewrite IH by lia.
Qed.

(** ".@elem.i…" goes to element i, with the rest of the query, and changes nothing else *)
Theorem C39_elem : forall obj nt i tail args,
  i < length obj -> (N.of_nat i < 2 ^ 31)%N -> tailp tail ->
  seq_process obj (elemq nt (dec (N.of_nat i)) tail) args =
  (let '(x, r) := eproc (nth i obj dflt) tail args in
   (set_nth obj i x, y <~ r ;; JOk (SElem (N.of_nat i) y))).
Proof.
  intros obj nt i tail args L L31 Ht. unfold seq_process. rewrite elemq_starts.
  assert (Nd : nodot (dec (N.of_nat i))) by apply digits_nodot, dec_isdigit.
  unfold elemImpl. rewrite elemq_find1, (elemq_end nt _ _ Nd Ht).
  rewrite elemq_stem at 1. rewrite skipn_stem.
  destruct (firstn_tail (dec (N.of_nat i)) tail (S (length (stem nt)) + length (dec (N.of_nat i))) ltac:(lia) Ht) as (t & -> & Ht').
  assert (P31 : (2 ^ 31 = 2147483648)%N) by reflexivity.
  assert (P31' : (2 ^ 31 = 2147483648)%Z) by reflexivity.
  assert (P64 : (2 ^ 64 = 18446744073709551616)%Z) by reflexivity.
  rewrite (stoi_pos _ _ Ht'). replace (Z.of_N (N.of_nat i) <? 2 ^ 31)%Z with true by lia. cbn [jbind].
  unfold to_size. rewrite Z.mod_small by lia. rewrite N2Z.id.
  replace (len obj <=? N.of_nat i)%N with false by (unfold len; lia).
  rewrite Nat2N.id. rewrite (nth_error_nth' obj dflt L). rewrite tail_at.
  destruct (eproc (nth i obj dflt) tail args) as [x r]. now rewrite update_set.
Qed.

(** an index outside the sequence, negative or not *)
Theorem C39_out_of_range : forall obj nt (i : Z) tail args,
  (len obj < 2 ^ 63)%N -> (- 2 ^ 31 <= i < 2 ^ 31)%Z -> ~ (0 <= i < Z.of_nat (length obj))%Z -> tailp tail ->
  seq_process obj (elemq nt (decZ i) tail) args = (obj, if nt then JOk SVoid else JErr EOther).
Proof.
  intros obj nt i tail args LO Ri Out Ht. unfold seq_process. rewrite elemq_starts.
  assert (P31 : (2 ^ 31 = 2147483648)%N) by reflexivity.
  assert (P31' : (2 ^ 31 = 2147483648)%Z) by reflexivity.
  assert (P63 : (2 ^ 63 = 9223372036854775808)%N) by reflexivity.
  assert (P64 : (2 ^ 64 = 18446744073709551616)%Z) by reflexivity.
  assert (Nd : nodot (decZ i)).
  { unfold decZ. destruct (i <? 0)%Z; [|apply digits_nodot, dec_isdigit].
    intros [H|H]; [discriminate|]. revert H. apply digits_nodot, dec_isdigit. }
  unfold elemImpl. rewrite elemq_find1, (elemq_end nt _ _ Nd Ht).
  rewrite elemq_stem at 1. rewrite skipn_stem.
  destruct (firstn_tail (decZ i) tail (S (length (stem nt)) + length (decZ i)) ltac:(lia) Ht) as (t & -> & Ht').
  replace (stoi (decZ i ++ t)) with (JOk i).
  - cbn [jbind]. replace (len obj <=? to_size i)%N with true.
    + rewrite elemq_nothrow. destruct nt; reflexivity.
    + symmetry. apply N.leb_le. unfold to_size, len in *. lia.
  - unfold decZ. destruct (Z.ltb_spec i 0) as [L|L].
    + cbn [app]. rewrite stoi_neg by (try exact Ht'; lia). f_equal. lia.
    + rewrite (stoi_pos _ _ Ht'). replace (Z.of_N (Z.to_N i) <? 2 ^ 31)%Z with true by lia. f_equal. lia.
Qed.

(** whatever the query: "@elem" either fails or yields void without touching the
    sequence, or works on one of its elements *)
Theorem C39_elem_safe : forall obj rem args, startsWith rem (bs ".@elem") = true ->
  (exists e, seq_process obj rem args = (obj, JErr e)) \/
  seq_process obj rem args = (obj, JOk SVoid) \/
  exists i tail x r, i < length obj /\ eproc (nth i obj dflt) tail args = (x, r) /\
    seq_process obj rem args = (set_nth obj i x, y <~ r ;; JOk (SElem (N.of_nat i) y)).
Proof.
  intros obj rem args H. unfold seq_process. rewrite H. unfold elemImpl.
  destruct (find_from rem 1) as [p|]; [|left; eauto].
  destruct (stoi _) as [z|e|] eqn:Z0; cbn [jbind]; [|left; eauto|].
  - destruct (N.leb_spec (len obj) (to_size z)) as [L|L].
    + destruct (startsWith rem (bs ".@elemNoThrow")); [right; now left|left; eauto].
    + right. right. assert (L' : N.to_nat (to_size z) < length obj) by (unfold len in L; lia).
      rewrite (nth_error_nth' obj dflt L').
      set (t := skipn _ rem).
      destruct (eproc (nth (N.to_nat (to_size z)) obj dflt) t args) as [x r] eqn:Ep.
      exists (N.to_nat (to_size z)), t, x, r. split; [exact L'|]. split; [exact Ep|].
      rewrite update_set by exact L'. now rewrite N2Nat.id.
  - exfalso. revert Z0. unfold stoi.
    match goal with |- (let '(_, _) := ?m in _) = _ -> _ => destruct m as [neg s0] end.
    destruct (digits 10 s0 0 false) as [v [|]]; [|discriminate]. destruct (_ && _)%bool; discriminate.
Qed.

(** "@insert" appends the converted argument *)
Theorem C39_insert : forall obj args v u x, conv dflt args = (v, JOk u) ->
  seq_process obj (bs ".@insert" ++ x) args = (obj ++ [v], JOk SRef).
Proof.
  intros obj args v u x H. unfold seq_process.
  change (startsWith (bs ".@insert" ++ x) (bs ".@elem")) with false. cbv iota.
  rewrite startsWith_app. unfold seq_insert. now rewrite H.
Qed.
Theorem C39_insert_error : forall obj args v e x, conv dflt args = (v, JErr e) ->
  seq_process obj (bs ".@insert" ++ x) args = (obj, JErr e).
Proof.
  intros obj args v e x H. unfold seq_process.
  change (startsWith (bs ".@insert" ++ x) (bs ".@elem")) with false. cbv iota.
  rewrite startsWith_app. unfold seq_insert. now rewrite H.
Qed.
(** "@erase i" removes element i; nothing happens for an index outside *)
Theorem C39_erase : forall obj (i : Z) x,
  (len obj < 2 ^ 63)%N -> (- 2 ^ 63 <= i < 2 ^ 63)%Z ->
  seq_process obj (bs ".@erase" ++ x) (JInt i) =
  (if ((0 <=? i) && (i <? Z.of_nat (length obj)))%Z then del_nth obj (Z.to_nat i) else obj, JOk SRef).
Proof.
  intros obj i x LO Ri. unfold seq_process.
  change (startsWith (bs ".@erase" ++ x) (bs ".@elem")) with false.
  change (startsWith (bs ".@erase" ++ x) (bs ".@insert")) with false. cbv iota.
  rewrite startsWith_app. unfold seq_erase. cbn [conv_idx].
  assert (P63 : (2 ^ 63 = 9223372036854775808)%N) by reflexivity.
  assert (P63' : (2 ^ 63 = 9223372036854775808)%Z) by reflexivity.
  assert (P64 : (2 ^ 64 = 18446744073709551616)%Z) by reflexivity.
  unfold to_size, len in *. f_equal.
  destruct (Z.leb_spec 0 i) as [L0|L0]; cbn [andb].
  - rewrite Z.mod_small by lia. destruct (Z.ltb_spec i (Z.of_nat (length obj))) as [L|L].
    + replace (Z.to_N i <? N.of_nat (length obj))%N with true by lia.
      replace (N.to_nat (Z.to_N i)) with (Z.to_nat i) by lia. apply remove_del. lia.
    + replace (Z.to_N i <? N.of_nat (length obj))%N with false by lia. reflexivity.
  - replace (Z.to_N (i mod 2 ^ 64) <? N.of_nat (length obj))%N with false by lia. reflexivity.
Qed.
(** "@size" *)
Theorem C39_size : forall obj args x, seq_process obj (bs ".@size" ++ x) args = (obj, JOk (SSize (N.of_nat (length obj)))).
Proof.
  intros obj args x. unfold seq_process.
  change (startsWith (bs ".@size" ++ x) (bs ".@elem")) with false.
  change (startsWith (bs ".@size" ++ x) (bs ".@insert")) with false.
  change (startsWith (bs ".@size" ++ x) (bs ".@erase")) with false. cbv iota.
  unfold sequenceProcess. rewrite startsWith_app. reflexivity.
Qed.

(** *** Histories *)
(** a command of a client, and the list operation it stands for *)
Inductive cmd := CGet (i : Z) | CSet (i : Z) (v : E) | CInsert (v : E) | CErase (i : Z) | CSize.
Variable enc : E -> jv.                           (* how a value is written in JSON *)
Variable shown : E -> R.                          (* what reading an element answers *)
Definition query_of (c : cmd) : list ascii * jv :=
  match c with
  | CGet i => (elemq false (decZ i) [], JNull)
  | CSet i v => (elemq false (decZ i) [], enc v)
  | CInsert v => (bs ".@insert", enc v)
  | CErase i => (bs ".@erase", JInt i)
  | CSize => (bs ".@size", JNull)
  end.
Definition inside (l : list E) (i : Z) : bool := ((0 <=? i) && (i <? Z.of_nat (length l)))%Z.
Definition spec_step (l : list E) (c : cmd) : list E * jr (sout R) :=
  match c with
  | CGet i => (l, if inside l i then JOk (SElem (Z.to_N i) (shown (nth (Z.to_nat i) l dflt))) else JErr EOther)
  | CSet i v => if inside l i then (set_nth l (Z.to_nat i) v, JOk (SElem (Z.to_N i) (shown v))) else (l, JErr EOther)
  | CInsert v => (l ++ [v], JOk SRef)
  | CErase i => (if inside l i then del_nth l (Z.to_nat i) else l, JOk SRef)
  | CSize => (l, JOk (SSize (N.of_nat (length l))))
  end.
Fixpoint spec_run (l : list E) (cs : list cmd) : list E * list (jr (sout R)) :=
  match cs with
  | [] => (l, [])
  | c :: cs' => let '(l', r) := spec_step l c in
                let '(l'', rs) := spec_run l' cs' in (l'', r :: rs)
  end.
Fixpoint run (l : list E) (qs : list (list ascii * jv)) : list E * list (jr (sout R)) :=
  match qs with
  | [] => (l, [])
  | (q, a) :: qs' => let '(l', r) := seq_process l q a in
                     let '(l'', rs) := run l' qs' in (l'', r :: rs)
  end.
Definition cmd_ok (c : cmd) : Prop :=
  match c with CGet i | CSet i _ | CErase i => (- 2 ^ 31 <= i < 2 ^ 31)%Z | _ => True end.

(** any history of commands does to the sequence what the list operations do, and
    answers the same *)
Theorem C39_history : forall cs l,
  (forall v, conv dflt (enc v) = (v, JOk tt)) ->
  (forall e v, eproc e [] (enc v) = (v, JOk (shown v))) ->
  (forall e, eproc e [] JNull = (e, JOk (shown e))) ->
  Forall cmd_ok cs -> (len l + N.of_nat (length cs) < 2 ^ 31)%N ->
  run l (map query_of cs) = spec_run l cs.
Proof.
  intros cs l Hc He Hn. revert l. induction cs as [|c cs IH]; intros l Ok L; [reflexivity|].
  apply Forall_cons_iff in Ok as [Oc Ok]. cbn [map run spec_run].
  assert (P31 : (2 ^ 31 = 2147483648)%N) by reflexivity.
  assert (P31' : (2 ^ 31 = 2147483648)%Z) by reflexivity.
  assert (P63 : (2 ^ 63 = 9223372036854775808)%N) by reflexivity.
  assert (P63' : (2 ^ 63 = 9223372036854775808)%Z) by reflexivity.
  cbn [length] in L. unfold len in L.
  assert (St : seq_process l (fst (query_of c)) (snd (query_of c)) = spec_step l c).
  { destruct c as [i|i v|v|i|]; cbn [query_of fst snd spec_step cmd_ok] in *.
    - unfold inside. destruct ((0 <=? i) && (i <? Z.of_nat (length l)))%Z eqn:In0.
      + assert (Ei : decZ i = dec (N.of_nat (Z.to_nat i))).
        { unfold decZ. replace (i <? 0)%Z with false by lia. f_equal. lia. }
        rewrite Ei, C39_elem; [|lia|lia|now left]. rewrite Hn. cbn [jbind].
        replace (N.of_nat (Z.to_nat i)) with (Z.to_N i) by lia. f_equal.
        unfold set_nth. assert (Li : Z.to_nat i < length l) by lia. revert Li. generalize (Z.to_nat i). clear.
        induction l as [|x l IH]; intros [|i] H; cbn [length] in *; try lia; [reflexivity|].
        change (x :: (firstn i l ++ nth i l dflt :: skipn (S i) l) = x :: l). f_equal. apply IH. lia.
      + apply (C39_out_of_range l false i []); [unfold len; lia|lia|lia|now left].
    - unfold inside. destruct ((0 <=? i) && (i <? Z.of_nat (length l)))%Z eqn:In0.
      + assert (Ei : decZ i = dec (N.of_nat (Z.to_nat i))).
        { unfold decZ. replace (i <? 0)%Z with false by lia. f_equal. lia. }
        rewrite Ei, C39_elem; [|lia|lia|now left]. rewrite He. cbn [jbind].
        replace (N.of_nat (Z.to_nat i)) with (Z.to_N i) by lia. reflexivity.
      + apply (C39_out_of_range l false i []); [unfold len; lia|lia|lia|now left].
    - rewrite <- (app_nil_r (bs ".@insert")). now apply C39_insert with tt.
    - rewrite <- (app_nil_r (bs ".@erase")). apply C39_erase; [unfold len; lia|lia].
    - rewrite <- (app_nil_r (bs ".@size")). apply C39_size. }
  destruct (query_of c) as [q a]. cbn [fst snd] in St. rewrite St.
  assert (Len : length (fst (spec_step l c)) <= S (length l)).
  { destruct c as [i|i v|v|i|]; cbn [spec_step]; try (cbn [fst]; lia).
    - destruct (inside l i) eqn:In0; cbn [fst]; [|lia]. unfold inside in In0. unfold set_nth. rewrite app_length. cbn [length].
      rewrite firstn_length, skipn_length. lia.
    - cbn [fst]. rewrite app_length. cbn [length]. lia.
    - destruct (inside l i) eqn:In0; cbn [fst]; [|lia]. unfold del_nth. rewrite app_length, firstn_length, skipn_length. lia. }
  destruct (spec_step l c) as [l' r]. cbn [fst] in Len. rewrite IH; [reflexivity|exact Ok|unfold len; lia].
Qed.
End C39.

(** an instance: a vector of strings *)
Definition sconv (_ : list ascii) (j : jv) : list ascii * jr unit :=
  match j with JStr s => (s, JOk tt) | _ => ([], JErr EJson) end.
Definition sproc (e : list ascii) (q : list ascii) (j : jv) : list ascii * jr (list ascii) :=
  match j with JStr s => (s, JOk s) | _ => (e, JOk e) end.
Definition sseq := seq_process (list ascii) (list ascii) [] sconv sproc (fun l _ => (l, JErr EOther)) (fun l _ _ => (l, JErr EOther)) (fun _ => JUB).
Example C39_ex : let l := [bs "a"; bs "b"; bs "c"] in
  sseq l (bs ".@elem.1") JNull = (l, JOk (SElem 1 (bs "b"))) /\
  sseq l (bs ".@elem.1") (JStr (bs "x")) = ([bs "a"; bs "x"; bs "c"], JOk (SElem 1 (bs "x"))) /\
  sseq l (bs ".@elem.-1") JNull = (l, JErr EOther) /\
  sseq l (bs ".@elemNoThrow.3") JNull = (l, JOk SVoid) /\
  sseq l (bs ".@erase") (JInt 1) = ([bs "a"; bs "c"], JOk SRef) /\
  Forall (cmd_ok (list ascii)) [CGet _ (-1); CSet _ 1 (bs "q")] /\
  (forall v, sconv [] (JStr v) = (v, JOk tt)) /\ (forall e, sproc e [] JNull = (e, JOk e)).
Proof.
  cbv zeta. do 5 (split; [vm_compute; reflexivity|]). split; [|split; reflexivity].
  repeat constructor; cbn; lia.
Qed.
(** without an index "@erase" removes the first element; an index outside is ignored
    rather than reported *)
Theorem C39_erase_refuted : exists (l : list (list ascii)),
  sseq l (bs ".@erase") JNull = (tl l, JOk SRef) /\ l <> tl l /\
  sseq l (bs ".@erase") (JInt 7) = (l, JOk SRef) /\ (7 > length l).
Proof. exists [bs "a"; bs "b"]. split; [vm_compute; reflexivity|]. split; [discriminate|]. split; [vm_compute; reflexivity|cbn; lia]. Qed.
(** "@elemNoThrow" does throw for an index that is not an [int] *)
Theorem C39_nothrow_refuted : exists (l : list (list ascii)) (i : N),
  (N.of_nat (length l) <= i)%N /\ sseq l (elemq true (dec i) []) JNull = (l, JErr EOther).
Proof. exists [], 2147483648%N. split; [vm_compute; discriminate|vm_compute; reflexivity]. Qed.
(** characters after the digits are ignored *)
Theorem C39_index_syntax_refuted : exists (l : list (list ascii)) (q : list ascii),
  q = bs ".@elem.1x" /\ sseq l q JNull = (l, JOk (SElem 1 (bs "b"))).
Proof. exists [bs "a"; bs "b"], (bs ".@elem.1x"). vm_compute. auto. Qed.

Print Assumptions C39_elem.
Print Assumptions C39_out_of_range.
Print Assumptions C39_elem_safe.
Print Assumptions C39_insert.
Print Assumptions C39_insert_error.
Print Assumptions C39_erase.
Print Assumptions C39_size.
Print Assumptions C39_history.
Print Assumptions C39_erase_refuted.
Print Assumptions C39_nothrow_refuted.
Print Assumptions C39_index_syntax_refuted.

(** ** C40: associative containers *)
Section C40.
Variables K V R : Type.
Variable cmp : K -> K -> comparison.
Hypothesis cmp_eq : forall x y, cmp x y = Eq <-> x = y.
Notation assoc := (list (K * V)).
Variable rawkey : list ascii -> jr K.
Variable jsonkey : list ascii -> jr (K * list ascii).
Variable assign : assoc -> K -> jv -> assoc * jr unit.
Variable convm : assoc -> jv -> assoc * jr unit.
Variable convpair : jv -> jr (K * V).
Variable convkey : jv -> jr K.
Variable vproc : V -> list ascii -> jv -> V * jr R.
Variable dummy : list ascii -> jv -> jr R.
Variable oproc : assoc -> list ascii -> jv -> assoc * jr R.
Variable vdflt : V.
Variable convv : V -> jv -> V * jr unit.
Notation assoc_process := (assoc_process K V R cmp rawkey jsonkey assign convm convpair convkey vproc dummy oproc).
Notation assoc_elem := (assoc_elem K V R cmp rawkey jsonkey assign vproc dummy).
Notation mdel := (mdel K V cmp).

(** the container is the partial function [fun k => mfind cmp k obj] *)
Lemma mfind_mdel : forall k k' m, mfind cmp k' (mdel k m) = match cmp k' k with Eq => None | _ => mfind cmp k' m end.
Proof using cmp_eq.
  intros k k' m. unfold mdel. induction m as [|[k0 v] m IH]; cbn [filter mfind fst]; [now destruct (cmp k' k)|].
  destruct (cmp k k0) eqn:E0; cbn [mfind].
  - rewrite IH. apply cmp_eq in E0. subst k0. destruct (cmp k' k); reflexivity.
  - rewrite IH. destruct (cmp k' k0) eqn:E1; [|reflexivity..]. destruct (cmp k' k) eqn:E2; [|reflexivity..].
    apply cmp_eq in E1, E2. subst. rewrite (proj2 (cmp_eq _ _)) in E0 by reflexivity. discriminate.
  - rewrite IH. destruct (cmp k' k0) eqn:E1; [|reflexivity..]. destruct (cmp k' k) eqn:E2; [|reflexivity..].
    apply cmp_eq in E1, E2. subst. rewrite (proj2 (cmp_eq _ _)) in E0 by reflexivity. discriminate.
Qed.

(** reading commands, whatever follows the command word *)
Theorem C40_readonly : forall obj x,
  fst (assoc_process obj (bs ".@elem" ++ x) JNull) = obj /\
  (forall a, fst (assoc_process obj (bs ".@size" ++ x) a) = obj /\
             snd (assoc_process obj (bs ".@size" ++ x) a) = JOk (ASize (len obj))) /\
  (forall a, fst (assoc_process obj (bs ".@keys" ++ x) a) = obj /\
             snd (assoc_process obj (bs ".@keys" ++ x) a) = JOk (AKeys (map fst obj))).
Proof.
  intros obj x. split; [|split].
  - change (assoc_process obj (bs ".@elem" ++ x) JNull) with
      (if startsWith (bs ".@elem" ++ x) (bs ".@elem") then assoc_elem obj (bs ".@elem" ++ x) JNull
       else assoc_process obj (bs ".@elem" ++ x) JNull).
    rewrite startsWith_app. unfold assoc_elem. destruct (find_from _ 1) as [p|]; [|reflexivity].
    destruct (parse_key _ _ _ _ _) as [[key tail]|e|]; [|reflexivity..].
    replace (match tail with [] => (obj, JOk tt) | _ :: _ => (obj, JOk tt) end) with (obj, JOk tt) by (destruct tail; reflexivity).
    destruct (mfind cmp key obj) as [v|].
    + destruct tail; [reflexivity|]. destruct (vproc v _ _); reflexivity.
    + destruct (startsWith _ _); reflexivity.
  - intros a. split; reflexivity.
  - intros a. split; reflexivity.
Qed.

(** an element reached by name: the query ".@elem.<key>" with a key written raw *)
Definition akey (nt : bool) (key tail : list ascii) : list ascii := elemq nt key tail.
Definition rawlike (key : list ascii) : Prop :=
  nodot key /\ match key with [] => False | c :: _ => jsonlead c = false /\ c <> zero end.
Lemma parse_raw : forall nt key tail, rawlike key -> tailp tail ->
  parse_key K rawkey jsonkey (elemq nt key tail) (S (length (stem nt))) = (k <~ rawkey key ;; JOk (k, tail)).
Proof.
  intros nt key tail [Nd H] Ht. unfold parse_key. rewrite elemq_stem, skipn_stem.
  destruct key as [|c s]; [destruct H|]. destruct H as [J Z]. cbn [app].
  rewrite J. replace (beq [c] [zero]) with false.
  2:{ symmetry. destruct (beq [c] [zero]) eqn:B; [|reflexivity]. apply beq_eq in B. congruence. }
  cbn [orb]. set (n := match sfind dot (c :: s ++ tail) with Some p => p | None => length (c :: s ++ tail) end).
  assert (N0 : n = length (c :: s)).
  { unfold n. destruct Ht as [->|[r ->]].
    - rewrite app_nil_r, sfind_none by exact Nd. reflexivity.
    - change (c :: s ++ dot :: r) with ((c :: s) ++ dot :: r). now rewrite sfind_nodot. }
  rewrite N0. change (c :: s ++ tail) with ((c :: s) ++ tail). rewrite firstn_app, Nat.sub_diag, firstn_all. cbn [firstn].
  rewrite app_nil_r, skipn_app, Nat.sub_diag, skipn_all. reflexivity.
Qed.
Lemma elemq_cons : forall nt key tail, exists c s, elemq nt key tail = c :: s.
Proof. intros [|] key tail; unfold elemq; cbn; eauto. Qed.
Lemma assoc_process_elem : forall obj nt key tail a,
  assoc_process obj (elemq nt key tail) a = assoc_elem obj (elemq nt key tail) a.
Proof.
  intros obj nt key tail a. unfold assoc_process. destruct (elemq_cons nt key tail) as (c & s & E0).
  rewrite E0, <- E0, elemq_starts. reflexivity.
Qed.

(** reading gives the element stored under the key *)
Theorem C40_get : forall obj nt key k, rawlike key -> rawkey key = JOk k ->
  assoc_process obj (akey nt key []) JNull =
  (obj, match mfind cmp k obj with
        | Some v => JOk (AVal v)
        | None => if nt then x <~ dummy [] JNull ;; JOk (ADummy x) else JErr EOther
        end).
Proof.
  intros obj nt key k Hk Hr. unfold akey. rewrite assoc_process_elem. unfold assoc_elem.
  rewrite elemq_find1, parse_raw, Hr by (try exact Hk; now left). cbn [jbind].
  destruct (mfind cmp k obj); [reflexivity|]. rewrite elemq_nothrow. destruct nt; reflexivity.
Qed.

(** assignment: only the named key changes, and it gets the converted value *)
Theorem C40_set : forall obj nt key k a v u, rawlike key -> rawkey key = JOk k -> a <> JNull ->
  (forall o k x, assign o k x = assign_map K V cmp vdflt convv o k x) ->
  convv (match mfind cmp k obj with Some w => w | None => vdflt end) a = (v, JOk u) ->
  snd (assoc_process obj (akey nt key []) a) = JOk (AVal v) /\
  forall k', mfind cmp k' (fst (assoc_process obj (akey nt key []) a)) =
             match cmp k' k with Eq => Some v | _ => mfind cmp k' obj end.
Proof using cmp_eq.
  intros obj nt key k a v u Hk Hr Ha As Cv. unfold akey. rewrite assoc_process_elem. unfold assoc_elem.
  rewrite elemq_find1, parse_raw, Hr by (try exact Hk; now left). cbn [jbind].
  replace (match a with JNull => (obj, JOk tt) | _ => assign obj k a end) with (assign obj k a) by (destruct a; congruence).
  rewrite As. unfold assign_map. rewrite Cv. rewrite (mfind_mset_same cmp cmp_eq). cbn [fst snd].
  split; [reflexivity|]. intros k'. now rewrite (mfind_mset cmp cmp_eq).
Qed.
(** an assignment that fails can at most leave the named key changed *)
Theorem C40_set_frame : forall obj nt key k a, rawlike key -> rawkey key = JOk k ->
  (forall o k x, assign o k x = assign_map K V cmp vdflt convv o k x) ->
  forall k', k' <> k -> mfind cmp k' (fst (assoc_process obj (akey nt key []) a)) = mfind cmp k' obj.
Proof using cmp_eq.
  intros obj nt key k a Hk Hr As k' Nk. unfold akey. rewrite assoc_process_elem. unfold assoc_elem.
  rewrite elemq_find1, parse_raw, Hr by (try exact Hk; now left). cbn [jbind].
  set (p := match a with JNull => (obj, JOk tt) | _ => assign obj k a end).
  assert (Hp : mfind cmp k' (fst p) = mfind cmp k' obj).
  { unfold p. destruct a; try reflexivity; rewrite As; unfold assign_map; destruct (convv _ _) as [v r]; cbn [fst];
      now rewrite (mfind_mset_other cmp cmp_eq) by exact Nk. }
  destruct p as [o r]. cbn [fst] in Hp. destruct r as [u|e|]; [|exact Hp..].
  destruct (mfind cmp k o) as [v|]; [exact Hp|]. destruct (startsWith _ _); exact Hp.
Qed.
(** sets: assigning true or false inserts or erases the key *)
Theorem C40_set_container : forall (m : list (K * unit)) k b k',
  mfind cmp k' (fst (assign_set cmp m k (JBool b))) =
  match cmp k' k with Eq => if b then Some tt else None | _ => mfind cmp k' m end.
Proof using cmp_eq.
  intros m k b k'. destruct b; cbn [assign_set fst]; [apply (mfind_mset cmp cmp_eq)|].
  unfold Rest2_Model.mdel. induction m as [|[k0 v] m IH]; cbn [filter mfind fst]; [now destruct (cmp k' k)|].
  destruct (cmp k k0) eqn:E0; cbn [mfind]; rewrite IH.
  - apply cmp_eq in E0. subst k0. destruct (cmp k' k); reflexivity.
  - destruct (cmp k' k0) eqn:E1; [|reflexivity..]. destruct (cmp k' k) eqn:E2; [|reflexivity..].
    apply cmp_eq in E1, E2. subst. rewrite (proj2 (cmp_eq _ _)) in E0 by reflexivity. discriminate.
  - destruct (cmp k' k0) eqn:E1; [|reflexivity..]. destruct (cmp k' k) eqn:E2; [|reflexivity..].
    apply cmp_eq in E1, E2. subst. rewrite (proj2 (cmp_eq _ _)) in E0 by reflexivity. discriminate.
Qed.

(** insertion of a new key; an existing key is reported and left alone *)
Theorem C40_insert : forall obj a k v x, convpair a = JOk (k, v) ->
  assoc_process obj (bs ".@insert" ++ x) a =
  match mfind cmp k obj with
  | Some _ => (obj, JErr EOther)
  | None => (mset cmp k v obj, JOk ARef)
  end.
Proof. intros obj a k v x H. cbn. unfold assoc_insert. rewrite H. destruct (mfind cmp k obj); reflexivity. Qed.
Theorem C40_erase : forall obj a k x, convkey a = JOk k ->
  snd (assoc_process obj (bs ".@erase" ++ x) a) = JOk ARef /\
  forall k', mfind cmp k' (fst (assoc_process obj (bs ".@erase" ++ x) a)) =
             match cmp k' k with Eq => None | _ => mfind cmp k' obj end.
Proof using cmp_eq.
  intros obj a k x H.
  change (assoc_process obj (bs ".@erase" ++ x) a) with (assoc_erase K V R cmp convkey obj a).
  unfold assoc_erase. rewrite H. split; [reflexivity|]. intros k'. apply mfind_mdel.
Qed.

(** a query that goes on below the element works on a copy of it: it never changes the
    container *)
Theorem C40_below_element : forall obj nt key k tail a, rawlike key -> rawkey key = JOk k ->
  tail <> [] -> tailp tail -> fst (assoc_process obj (akey nt key tail) a) = obj.
Proof.
  intros obj nt key k tail a Hk Hr Ht Tp. unfold akey. rewrite assoc_process_elem. unfold assoc_elem.
  rewrite elemq_find1, parse_raw, Hr by assumption. cbn [jbind].
  destruct tail as [|c t]; [congruence|]. destruct (mfind cmp k obj) as [v|].
  - destruct (vproc v (c :: t) a); reflexivity.
  - destruct (startsWith _ _); reflexivity.
Qed.
(** a key that begins like a JSON string, object or array is read as JSON, to its end *)
Theorem C40_json_key : forall obj nt c s, In c [""""%char; "'"%char; "{"%char; "["%char] ->
  (forall k, jsonkey (c :: s) = JOk (k, []) ->
     assoc_process obj (akey nt (c :: s) []) JNull =
     (obj, match mfind cmp k obj with
           | Some v => JOk (AVal v)
           | None => if nt then x <~ dummy [] JNull ;; JOk (ADummy x) else JErr EOther
           end))
  /\ (forall e a, jsonkey (c :: s) = JErr e -> assoc_process obj (akey nt (c :: s) []) a = (obj, JErr e)).
Proof.
  intros obj nt c s H.
  assert (P : parse_key K rawkey jsonkey (elemq nt (c :: s) []) (S (length (stem nt))) = jsonkey (c :: s)).
  { unfold parse_key. rewrite elemq_stem, skipn_stem, app_nil_r. replace (jsonlead c) with true; [reflexivity|].
    unfold jsonlead. symmetry. apply existsb_exists. exists c. split; [exact H|]. now destruct (ascii_dec c c). }
  split.
  - intros k E. unfold akey. rewrite assoc_process_elem. unfold assoc_elem. rewrite elemq_find1, P, E, elemq_nothrow.
    destruct (mfind cmp k obj); [reflexivity|]. destruct nt; reflexivity.
  - intros e a E. unfold akey. rewrite assoc_process_elem. unfold assoc_elem. now rewrite elemq_find1, P, E.
Qed.
(** an empty key reads past the end of the query *)
Theorem C40_empty_key_ub : forall obj nt a, snd (assoc_process obj (akey nt [] []) a) = JUB.
Proof.
  intros obj nt a. unfold akey. rewrite assoc_process_elem. unfold assoc_elem. rewrite elemq_find1.
  unfold parse_key. rewrite elemq_stem, skipn_stem. reflexivity.
Qed.
End C40.

(** map<string, pair<string,string>>-like: the mapped value has a member ".m" *)
Definition mapped := (list ascii * list ascii)%type.
Definition mconv (v : mapped) (j : jv) : mapped * jr unit :=
  match j with JStr s => ((s, snd v), JOk tt) | _ => (v, JErr EJson) end.
Definition mproc (v : mapped) (q : list ascii) (j : jv) : mapped * jr (list ascii) :=
  match j with JStr s => ((fst v, s), JOk s) | _ => (v, JOk (snd v)) end.
Definition sassoc := assoc_process (list ascii) mapped (list ascii) bcmp
  (fun s => JOk s) (fun _ => JErr EJson) (assign_map _ _ bcmp ([], []) mconv)
  (fun m _ => (m, JErr EOther)) (fun _ => JErr EOther) (fun j => match j with JStr s => JOk s | _ => JErr EJson end)
  mproc (fun _ _ => JErr EOther) (fun m _ _ => (m, JErr EOther)).
Definition m40 : list (list ascii * mapped) := [(bs "a", (bs "1", bs "2")); (bs "b", (bs "3", bs "4"))].
Example C40_ex :
  sassoc m40 (bs ".@elem.b") JNull = (m40, JOk (AVal (bs "3", bs "4"))) /\
  sassoc m40 (bs ".@elem.c") JNull = (m40, JErr EOther) /\
  sassoc m40 (bs ".@elem.b") (JStr (bs "x")) = ([(bs "a", (bs "1", bs "2")); (bs "b", (bs "x", bs "4"))], JOk (AVal (bs "x", bs "4"))) /\
  sassoc m40 (bs ".@erase") (JStr (bs "a")) = ([(bs "b", (bs "3", bs "4"))], JOk ARef) /\
  rawlike (bs "b") /\ elemq false (bs "b") [] = bs ".@elem.b".
Proof.
  do 4 (split; [vm_compute; reflexivity|]). split; [|vm_compute; reflexivity].
  split; [vm_compute; intuition discriminate|]. split; [reflexivity|discriminate].
Qed.
(** assigning to a member of an element answers the new value and loses it *)
Theorem C40_member_assignment_refuted : exists m q x,
  snd (sassoc m q (JStr x)) = JOk (ASub x) /\
  snd (sassoc (fst (sassoc m q (JStr x))) q JNull) <> JOk (ASub x).
Proof. exists m40, (bs ".@elem.b.m"), (bs "new"). split; [vm_compute; reflexivity|]. vm_compute. discriminate. Qed.
(** reading through getElem adds the missing key *)
Theorem C40_getElem_refuted : exists (m : list (list ascii * mapped)) k,
  fst (getElem _ _ bcmp ([], []) m k) <> m.
Proof. exists m40, (bs "c"). vm_compute. discriminate. Qed.

Print Assumptions C40_readonly.
Print Assumptions C40_get.
Print Assumptions C40_set.
Print Assumptions C40_set_frame.
Print Assumptions C40_set_container.
Print Assumptions C40_insert.
Print Assumptions C40_erase.
Print Assumptions C40_below_element.
Print Assumptions C40_empty_key_ub.
Print Assumptions C40_member_assignment_refuted.
Print Assumptions C40_getElem_refuted.
Print Assumptions C40_json_key.

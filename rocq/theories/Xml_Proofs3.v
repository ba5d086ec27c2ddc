(** * Termination of the XML tokenizer and parser *)
From Verif Require Import Base Base_Proofs SMap Dec Desc_Model Json_Model Xml_Model.

Lemma gobble_ws_len : forall s, length (gobble_ws s) <= length s.
Proof. induction s as [|c s IH]; cbn; [lia|]. destruct (isspace c); cbn; lia. Qed.
Lemma gobble_comment_len : forall s level instr s', gobble_comment level instr s = Some s' -> length s' <= length s.
Proof.
  induction s as [|c s IH]; intros [|l] instr s' H; cbn [gobble_comment] in H; try discriminate.
  - injection H as <-. apply le_n.
  - injection H as <-. apply (gobble_ws_len (c :: s)).
  - cbn [length]. destruct (if ascii_dec c """" then negb instr else instr).
    + apply IH in H. lia.
    + destruct (ascii_dec c "<"); [apply IH in H; lia|].
      destruct (ascii_dec c ">"); apply IH in H; lia.
Qed.
Lemma to_semi_len : forall s a r, to_semi s = Some (a, r) -> length r < length s.
Proof.
  induction s as [|c s IH]; intros a r H; cbn [to_semi] in H; [discriminate|]. cbn [length].
  destruct (ascii_dec c ";"); [injection H as <- <-; lia|].
  destruct (to_semi s) as [[a' r']|]; [|discriminate]. injection H as <- <-. specialize (IH _ _ eq_refl). lia.
Qed.
Lemma parse_entity_len : forall s x r, parse_entity s = Some (x, r) -> length r < length s.
Proof.
  intros s x r H. unfold parse_entity in H. destruct (to_semi s) as [[a b]|] eqn:E; [|discriminate].
  apply to_semi_len in E. destruct (entity a); [|discriminate]. injection H as <- <-. exact E.
Qed.
Lemma lookahead_len : forall n leadin c s l c' s', lookahead n leadin c s = (l, c', s') -> length s' <= length s.
Proof.
  induction n as [|n IH]; intros leadin c s l c' s' H; cbn [lookahead] in H; [injection H as <- <- <-; lia|].
  destruct s as [|x s]; [injection H as <- <- <-; cbn; lia|]. cbn [length].
  destruct (ascii_dec x ">"); [injection H as <- <- <-; lia|].
  apply IH in H. lia.
Qed.
Lemma cdata_len : forall s leadin tok, match cdata leadin tok s with
  | CDone _ s' | CNul _ s' => length s' < length s | CErr => True end.
Proof.
  induction s as [|c s IH]; intros leadin tok; cbn [cdata]; [exact I|]. cbn [length].
  assert (G : forall l t, match cdata l t s with CDone _ s' | CNul _ s' => length s' < S (length s) | CErr => True end).
  { intros l t. specialize (IH l t). destruct (cdata l t s); [lia..|exact I]. }
  destruct (ascii_dec c nul); [lia|]. destruct (ascii_dec c "]"); [destruct (beq leadin (bs "]")); apply G|].
  destruct (_ && _); [lia|apply G].
Qed.
(** end of file, or some input was consumed *)
Definition tfine (s : list ascii) (r : tres) : Prop :=
  match r with
  | TFuel => False
  | TErr => True
  | TTok t i n => (t = [] /\ i = [] /\ n = nul) \/ length i < length s
  end.
Lemma tfine_le : forall s s' r, tfine s' r -> length s' <= length s -> tfine s r.
Proof. intros s s' [t i n| |]; cbn; try tauto. intuition lia. Qed.
Lemma retval_fine : forall c tok s s', length s < length s' -> tfine s' (retval c tok s).
Proof.
  intros c tok s s' L. unfold retval. destruct tok; [|cbn; lia].
  destruct (ascii_dec c "/"); [cbn; lia|]. destruct (ascii_dec c "\"); cbn; lia.
Qed.
Lemma strlit_fine : forall f term tok s, f > length s -> tfine s (strlit f term tok s).
Proof.
  induction f as [|f IH]; intros term tok s L; [lia|]. cbn [strlit]. destruct s as [|c s]; [exact I|].
  cbn [length] in L. destruct (ascii_dec c term); [cbn; lia|].
  destruct (ascii_dec c "&").
  - destruct (parse_entity s) as [[x s']|] eqn:E; [|exact I]. apply parse_entity_len in E.
    eapply tfine_le; [apply IH; lia|cbn [length]; lia].
  - eapply tfine_le; [apply IH; lia|cbn [length]; lia].
Qed.
Lemma tloop_fine : forall f tok s, f > length s -> tfine s (tloop f tok s).
Proof.
  induction f as [|f IH]; intros tok s L; [lia|].
  destruct s as [|c s]; [destruct tok; cbn; auto|]. cbn [tloop]. cbn [length] in L.
  assert (G : forall t s', length s' <= length s -> tfine (c :: s) (tloop f t s')).
  { intros t s' L'. eapply tfine_le; [apply IH; lia|cbn [length]; lia]. }
  assert (K : forall x t s', length s' <= length s -> tfine (c :: s) (retval x t s')).
  { intros x t s' L'. apply retval_fine. cbn [length]. lia. }
  assert (S1 : forall x, tfine (c :: s) (strlit f x tok s)).
  { intros x. eapply tfine_le; [apply strlit_fine; lia|cbn [length]; lia]. }
  destruct (isspace c); [apply K; lia|].
  destruct (ascii_dec c "&").
  { destruct (parse_entity s) as [[x s']|] eqn:E; [|exact I]. apply parse_entity_len in E. apply G. lia. }
  destruct (ascii_dec c "'"); [apply S1|]. destruct (ascii_dec c """"); [apply S1|].
  destruct (ascii_dec c "<").
  { destruct s as [|c1 s1]; [exact I|]. cbn [length] in *.
    destruct (ascii_dec c1 "!").
    - destruct (lookahead 7 [] c1 s1) as [[leadin lst] s2] eqn:E. apply lookahead_len in E.
      destruct (beq leadin (bs "[CDATA[")).
      + pose proof (cdata_len s2 [] tok) as C. destruct (cdata [] tok s2) as [t s3|t s3|]; [| |exact I].
        * destruct t; [apply G; lia|]. cbn. lia.
        * apply G. lia.
      + destruct (ascii_dec lst ">"); [apply G; lia|].
        destruct (gobble_comment 1 false s2) eqn:E2; [|exact I]. apply gobble_comment_len in E2. apply G. lia.
    - destruct (ascii_dec c1 "?").
      + destruct (gobble_comment 1 false s1) eqn:E2; [|exact I]. apply gobble_comment_len in E2. apply G. lia.
      + destruct (ascii_dec c1 "/"); apply K; cbn [length]; lia. }
  destruct (ascii_dec c "/").
  { destruct s as [|c1 s1]; [exact I|]. destruct (ascii_dec c1 ">"); [apply K; cbn [length]; lia|apply G; lia]. }
  destruct (ascii_dec c ">"); [apply K; lia|]. destruct (ascii_dec c "="); [apply K; lia|]. apply G; lia.
Qed.

(** how much a tokenizer state can still produce *)
Definition meas (st : tst) : nat := 2 * length (inp st) + (if ascii_dec (nxt st) nul then 0 else 1).
Lemma token_fine : forall st, match token st with
  | TTok t i n => (t = [] /\ i = [] /\ n = nul) \/ meas {| inp := i; nxt := n |} < meas st
  | TErr => True
  | TFuel => False end.
Proof.
  intros [s c]. unfold token, meas. cbn [inp nxt]. destruct (ascii_dec c nul).
  - pose proof (tloop_fine (S (length s)) [] s ltac:(lia)) as H.
    destruct (tloop (S (length s)) [] s) as [t i n| |]; cbn in H; auto.
    destruct H as [H|H]; [auto|right]. destruct (ascii_dec n nul); lia.
  - unfold retval. right. destruct (ascii_dec nul nul); [lia|congruence].
Qed.
Definition fine {A} (P : A -> Prop) (r : pres A) : Prop :=
  match r with PFuel => False | PErr => True | POk a => P a end.
Lemma fine_bind : forall {A B} (P : A -> Prop) (Q : B -> Prop) m k, fine P m -> (forall a, P a -> fine Q (k a)) -> fine Q (pbind m k).
Proof. intros A B P Q [a| |] k H HK; cbn in *; auto. Qed.
Lemma fine_impl : forall {A} (P Q : A -> Prop) r, fine P r -> (forall a, P a -> Q a) -> fine Q r.
Proof. intros A P Q [a| |] H HK; cbn in *; auto. Qed.
Lemma token_no_eof_fine : forall st, fine (fun p => meas (snd p) < meas st) (token_no_eof st).
Proof.
  intros st. unfold token_no_eof. pose proof (token_fine st) as H.
  destruct (token st) as [t i n| |]; [|exact I|contradiction]. destruct t; [exact I|]. cbn.
  destruct H as [(H & _)|H]; [discriminate|exact H].
Qed.
Lemma skip_ws_fine : forall f st, f > meas st -> fine (fun p => meas (snd p) < meas st) (skip_ws f st).
Proof.
  induction f as [|f IH]; intros st L; [lia|]. cbn [skip_ws].
  eapply fine_bind; [apply token_no_eof_fine|]. intros [tok st'] H. cbn [snd] in H.
  destruct (all_space tok); [|exact H]. eapply fine_impl; [apply IH; lia|]. let a := fresh in let Ha := fresh in (intros a Ha; cbn beta in *; lia).
Qed.
Lemma attributes_fine : forall f st sidx cm, f > meas st ->
  fine (fun p => meas (snd (fst p)) < meas st) (attributes f st sidx cm).
Proof.
  induction f as [|f IH]; intros st sidx cm L; [lia|]. cbn [attributes].
  eapply fine_bind; [apply token_no_eof_fine|]. intros [tok st'] H. cbn [snd] in H.
  destruct (beq tok (bs ">")); [exact H|]. destruct (beq tok (bs "/>")); [exact H|].
  destruct (all_space tok); [eapply fine_impl; [apply IH; lia|let a := fresh in let Ha := fresh in (intros a Ha; cbn beta in *; lia)]|].
  eapply (fine_bind (fun p => meas (fst p) < meas st')).
  - unfold process_attribute. eapply fine_bind; [apply skip_ws_fine; lia|]. intros [t s1] H1. cbn [snd] in H1.
    destruct (beq t (bs "=")); [|exact I]. eapply fine_bind; [apply skip_ws_fine; lia|]. intros [t2 s2] H2. cbn [snd fst fine] in *. lia.
  - intros [s2 cm2] H2. cbn [fst] in H2. eapply fine_impl; [apply IH; lia|let a := fresh in let Ha := fresh in (intros a Ha; cbn beta in *; lia)].
Qed.
Lemma skip_to_gt_fine : forall f tok st, f > meas st -> fine (fun s => meas s <= meas st) (skip_to_gt f tok st).
Proof.
  induction f as [|f IH]; intros tok st L; [lia|]. cbn [skip_to_gt]. destruct (beq tok (bs ">")); [cbn; lia|].
  eapply fine_bind; [apply token_no_eof_fine|]. intros [t s] H. cbn [snd] in H.
  eapply fine_impl; [apply IH; lia|let a := fresh in let Ha := fresh in (intros a Ha; cbn beta in *; lia)].
Qed.
Lemma pelem_pcont_fine : forall f,
  (forall st scope cm tc, f >= meas st + 2 -> fine (fun p => meas (fst (fst p)) < meas st) (pelem f st scope cm tc)) /\
  (forall st sidx content cm tc, f >= meas st + 1 ->
     fine (fun p => meas (snd (fst (fst p))) < meas st) (pcont f st sidx content cm tc)).
Proof.
  induction f as [|f [IH1 IH2]]; (split; [intros st scope cm tc L|intros st sidx content cm tc L]); [lia|lia| |].
  - cbn [pelem]. eapply fine_bind; [apply attributes_fine; lia|]. intros [[e st1] cm1] H1. cbn [fst snd] in H1.
    destruct e; [exact H1|]. eapply fine_bind; [apply IH2; lia|]. intros [[[ct st2] cm2] tc2] H2. cbn [fst snd] in H2.
    eapply fine_bind; [apply token_no_eof_fine|]. intros [tok st3] H3. cbn [snd] in H3.
    destruct (endtag_ok scope tok); [|exact I].
    eapply fine_bind; [apply skip_to_gt_fine; lia|]. intros st4 H4. cbn [fine fst]. cbn beta in *. lia.
  - cbn [pcont]. eapply fine_bind; [apply token_no_eof_fine|]. intros [tok st1] H1. cbn [snd] in H1.
    destruct (beq tok (bs "</")); [exact H1|].
    destruct (beq tok (bs "<")); [|eapply fine_impl; [apply IH2; lia|let a := fresh in let Ha := fresh in (intros a Ha; cbn beta in *; lia)]].
    eapply fine_bind; [apply token_no_eof_fine|]. intros [name st2] H2. cbn [snd] in H2.
    eapply fine_bind; [apply IH1; lia|]. intros [[st3 cm3] tc3] H3. cbn [fst] in H3.
    eapply fine_impl; [apply IH2; lia|let a := fresh in let Ha := fresh in (intros a Ha; cbn beta in *; lia)].
Qed.
Lemma skip_ws0_fine : forall f st, f > meas st -> match skip_ws0 f st with
  | TTok t i n => t = [] \/ meas {| inp := i; nxt := n |} < meas st | TErr => True | TFuel => False end.
Proof.
  induction f as [|f IH]; intros st L; [lia|]. cbn [skip_ws0]. pose proof (token_fine st) as H.
  destruct (token st) as [t i n| |]; auto. destruct (all_space t) eqn:E.
  - destruct H as [(-> & _)|H]; [discriminate E|]. specialize (IH {| inp := i; nxt := n |} ltac:(lia)).
    destruct (skip_ws0 f _) as [t' i' n'| |]; auto. destruct IH; [auto|right; lia].
  - destruct H as [(-> & _)|H]; auto.
Qed.
Theorem parse_fine : forall s cm tc, parse s cm tc <> PFuel.
Proof.
  intros s cm tc. assert (M : meas {| inp := s; nxt := nul |} = 2 * length s) by (unfold meas; cbn; lia).
  assert (G : fine (fun _ => True) (parse s cm tc)).
  { unfold parse. pose proof (skip_ws0_fine (fuel_for s) {| inp := s; nxt := nul |}) as H. rewrite M in H.
    unfold fuel_for in *. specialize (H ltac:(lia)).
    destruct (skip_ws0 _ _) as [t i n| |]; [|exact I|contradiction]. destruct t as [|x t]; [exact I|].
    destruct H as [H|H]; [discriminate|].
    destruct (beq (x :: t) (bs "<")); [|exact I].
    eapply fine_bind; [apply token_no_eof_fine|]. intros [name st] H1. cbn [snd] in H1.
    eapply fine_bind; [apply pelem_pcont_fine; lia|]. intros [[s1 c1] t1] _. exact I. }
  destruct (parse s cm tc); [discriminate|discriminate|contradiction].
Qed.

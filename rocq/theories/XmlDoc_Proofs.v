(** * Proofs: reading documents as people write them *)
From Verif Require Import Base Base_Proofs SMap Dec Desc_Model Json_Model Json_Spec Xml_Model Xml_Spec Xml_Proofs Xml_Proofs2 XmlDoc_Spec.

(** ** References *)
Lemma to_semi_name : forall r rest, ~ In ";"%char r -> to_semi (r ++ ";"%char :: rest) = Some (r, rest).
Proof.
  induction r as [|c r IH]; intros rest H; cbn [app to_semi].
  - reflexivity.
  - destruct (ascii_dec c ";") as [->|]; [exfalso; apply H; now left|].
    rewrite IH; [reflexivity|]. intros C. apply H. now right.
Qed.
Definition nums (k : nat) : list N := map N.of_nat (seq 0 k).
Lemma in_nums : forall n k, (n < N.of_nat k)%N -> In n (nums k).
Proof.
  intros n k H. unfold nums. apply in_map_iff. exists (N.to_nat n). split; [lia|]. apply in_seq. lia.
Qed.
Definition dec_ok (n : N) : bool :=
  match entity (bs "#" ++ dec n) with Some c => if ascii_dec c (chr n) then true else false | None => false end.
Definition hex_ok (a b : N) : bool :=
  match entity (bs "#x" ++ [hexdigit a; hexdigit b]) with Some c => if ascii_dec c (chr (16 * a + b)) then true else false | None => false end
  && (if ascii_dec (hexdigit a) ";" then false else true) && (if ascii_dec (hexdigit b) ";" then false else true).
Lemma dec_all : forallb dec_ok (nums 128) = true.
Proof. vm_compute. reflexivity. Qed.
Lemma hex_all : forallb (fun a => forallb (hex_ok a) (nums 16)) (nums 8) = true.
Proof. vm_compute. reflexivity. Qed.
Lemma refers_entity : forall r c, refers r c -> entity r = Some c /\ ~ In ";"%char r.
Proof.
  intros r c H. destruct H as [| | | | |n L|a b La Lb].
  1-5: split; [reflexivity|]; intros C; cbn in C; intuition discriminate.
  - pose proof dec_all as A. rewrite forallb_forall in A. specialize (A n (in_nums n 128 L)). unfold dec_ok in A.
    destruct (entity (bs "#" ++ dec n)) as [x|]; [|discriminate]. destruct (ascii_dec x (chr n)); [|discriminate]. subst x.
    split; [reflexivity|]. intros C. apply in_app_or in C as [C|C].
    + cbn in C. intuition discriminate.
    + revert C. apply dec_notin. right. cbn. lia.
  - pose proof hex_all as A. rewrite forallb_forall in A. specialize (A a (in_nums a 8 La)).
    rewrite forallb_forall in A. specialize (A b (in_nums b 16 Lb)). unfold hex_ok in A.
    apply andb_prop in A as [A A3]. apply andb_prop in A as [A1 A2].
    destruct (entity _) as [x|]; [|discriminate]. destruct (ascii_dec x (chr (16 * a + b))); [|discriminate]. subst x.
    split; [reflexivity|]. intros C. apply in_app_or in C as [C|C].
    + cbn in C. intuition discriminate.
    + destruct C as [C|[C|[]]]; rewrite C in *; cbn in *; discriminate.
Qed.
Lemma parse_ref : forall r c rest, refers r c -> parse_entity (r ++ ";"%char :: rest) = Some (c, rest).
Proof.
  intros r c rest H. apply refers_entity in H as [E N]. unfold parse_entity. now rewrite to_semi_name, E by exact N.
Qed.

(** ** Tokens do not depend on the fuel *)
Lemma to_semi_len : forall s a r, to_semi s = Some (a, r) -> length r < length s.
Proof.
  induction s as [|c s IH]; intros a r H; cbn in H; [discriminate|].
  destruct (ascii_dec c ";"); [injection H as <- <-; cbn; lia|].
  destruct (to_semi s) as [[x y]|] eqn:E; [|discriminate]. injection H as <- <-. specialize (IH x y eq_refl). cbn. lia.
Qed.
Lemma parse_entity_len : forall s c r, parse_entity s = Some (c, r) -> length r < length s.
Proof.
  intros s c r H. unfold parse_entity in H. destruct (to_semi s) as [[a b]|] eqn:E; [|discriminate].
  apply to_semi_len in E. destruct (entity a); [|discriminate]. injection H as _ <-. exact E.
Qed.
Lemma gobble_ws_len : forall s, length (gobble_ws s) <= length s.
Proof. induction s as [|c s IH]; cbn; [lia|]. destruct (isspace c); cbn; lia. Qed.
Lemma gobble_comment_len : forall s l q r, gobble_comment l q s = Some r -> length r <= length s.
Proof.
  induction s as [|c s IH]; intros l q r H; destruct l as [|l]; cbn [gobble_comment] in H.
  - injection H as <-. apply le_n.
  - discriminate.
  - injection H as <-. exact (gobble_ws_len (c :: s)).
  - cbv zeta in H. cbn [length].
    assert (X : forall l' q' , gobble_comment l' q' s = Some r -> length r <= S (length s)) by (intros l' q' H'; apply IH in H'; lia).
    destruct (if ascii_dec c """" then negb q else q); [eauto|].
    destruct (ascii_dec c "<"); [eauto|]. destruct (ascii_dec c ">"); eauto.
Qed.
Lemma lookahead_len : forall n l c s a b r, lookahead n l c s = (a, b, r) -> length r <= length s.
Proof.
  induction n as [|n IH]; intros l c s a b r H; cbn in H.
  - injection H as _ _ <-. lia.
  - destruct s as [|x s]; [injection H as _ _ <-; lia|].
    destruct (ascii_dec x ">"); [injection H as _ _ <-; cbn; lia|]. apply IH in H. cbn. lia.
Qed.
Lemma cdata_len : forall s l t t' r, cdata l t s = CDone t' r \/ cdata l t s = CNul t' r -> length r <= length s.
Proof.
  induction s as [|c s IH]; intros l t t' r H; cbn [cdata] in H; [now destruct H|].
  assert (X : forall l2 t2, cdata l2 t2 s = CDone t' r \/ cdata l2 t2 s = CNul t' r -> length r <= S (length s))
    by (intros l2 t2 H2; apply IH in H2; lia). cbn [length].
  destruct (ascii_dec c nul); [destruct H as [H|H]; [discriminate|]; injection H as _ <-; lia|].
  destruct (ascii_dec c "]").
  - destruct (beq l (bs "]")); eauto.
  - destruct (_ && beq l (bs "]]")); [destruct H as [H|H]; [|discriminate]; injection H as _ <-; lia|eauto].
Qed.
Lemma strlit_fuel : forall f f' q tok s, length s < f -> length s < f' -> strlit f q tok s = strlit f' q tok s.
Proof.
  induction f as [|f IH]; intros f' q tok s L L'; [lia|]. destruct f' as [|f']; [lia|]. cbn [strlit].
  destruct s as [|c s]; [reflexivity|]. cbn [length] in *. destruct (ascii_dec c q); [reflexivity|].
  destruct (ascii_dec c "&").
  - destruct (parse_entity s) as [[x r]|] eqn:E; [|reflexivity]. apply parse_entity_len in E. apply IH; lia.
  - apply IH; lia.
Qed.
Lemma tloop_fuel : forall f f' tok s, length s < f -> length s < f' -> tloop f tok s = tloop f' tok s.
Proof.
  induction f as [|f IH]; intros f' tok s L L'; [lia|]. destruct f' as [|f']; [lia|]. cbn [tloop].
  destruct s as [|c s]; [reflexivity|]. cbn [length] in *.
  destruct (isspace c); [reflexivity|].
  destruct (ascii_dec c "&").
  { destruct (parse_entity s) as [[x r]|] eqn:E; [|reflexivity]. apply parse_entity_len in E. apply IH; lia. }
  destruct (ascii_dec c "'"); [apply strlit_fuel; lia|].
  destruct (ascii_dec c """"); [apply strlit_fuel; lia|].
  destruct (ascii_dec c "<").
  { destruct s as [|c1 s1]; [reflexivity|]. cbn [length] in *. destruct (ascii_dec c1 "!").
    - destruct (lookahead 7 [] c1 s1) as [[a b] s2] eqn:E. apply lookahead_len in E.
      destruct (beq a (bs "[CDATA[")).
      + destruct (cdata [] tok s2) as [t r|t r|] eqn:E2; [| |reflexivity].
        * assert (length r <= length s2) by (eapply cdata_len; left; exact E2). destruct t; [apply IH; lia|reflexivity].
        * assert (length r <= length s2) by (eapply cdata_len; right; exact E2). apply IH; lia.
      + destruct (ascii_dec b ">"); [apply IH; lia|].
        destruct (gobble_comment 1 false s2) as [r|] eqn:E2; [|reflexivity]. apply gobble_comment_len in E2. apply IH; lia.
    - destruct (ascii_dec c1 "?"); [|reflexivity].
      destruct (gobble_comment 1 false s1) as [r|] eqn:E2; [|reflexivity]. apply gobble_comment_len in E2. apply IH; lia. }
  destruct (ascii_dec c "/").
  { destruct s as [|c1 s1]; [reflexivity|]. destruct (ascii_dec c1 ">"); [reflexivity|]. apply IH; lia. }
  destruct (ascii_dec c ">"); [reflexivity|]. destruct (ascii_dec c "="); [reflexivity|]. apply IH; lia.
Qed.
(** the rest of a token of which [tok] has been read *)
Definition tl (tok s : list ascii) : tres := tloop (S (length s)) tok s.
Lemma tl_any : forall f tok s, length s < f -> tloop f tok s = tl tok s.
Proof. intros. apply tloop_fuel; unfold tl; lia. Qed.
Lemma tl_S : forall tok s, exists f, length s <= f /\ tl tok s = tloop (S f) tok s.
Proof. intros. exists (length s). split; [lia|reflexivity]. Qed.
Ltac tl1 := match goal with |- tl ?t ?s = _ => let f := fresh "f" in let F := fresh "F" in
  destruct (tl_S t s) as (f & F & ->); cbn [length] in F; cbn [tloop] end.
Lemma token_tl : forall s, token_no_eof (st0 s) =
  match tl [] s with TTok [] _ _ => PErr | TTok t i n => POk (t, {| inp := i; nxt := n |}) | TErr => PErr | TFuel => PFuel end.
Proof. reflexivity. Qed.

Lemma tl_space : forall c tok s, isspace c = true -> tl tok (c :: s) = retval c tok s.
Proof. intros c tok s H. tl1. now rewrite H. Qed.
Lemma ref_app : forall r s, ref r ++ s = ("&"%char :: r ++ ";"%char :: s).
Proof. intros r s. unfold ref. rewrite <- !app_assoc. reflexivity. Qed.
Lemma tl_ref : forall r c tok s, refers r c -> tl tok (ref r ++ s) = tl (tok ++ [c]) s.
Proof.
  intros r c tok s H. rewrite ref_app. tl1.
  change (isspace "&") with false. cbn match. destruct (ascii_dec "&" "&"); [|congruence].
  rewrite (parse_ref r c s H).
  apply tl_any. rewrite app_length in F. cbn in F. lia.
Qed.
(** neither a delimiter nor the beginning of markup *)
Definition ordinary (c : ascii) : bool :=
  negb (delim c) && forallb (fun x => if ascii_dec c x then false else true) (bs "&<'""/").
Ltac ne c H := destruct c as [[] [] [] [] [] [] [] []]; try discriminate H; vm_compute in H; try discriminate H.
Lemma ordinary_cases : forall c, ordinary c = true -> isspace c = false /\ c <> "&"%char /\ c <> "<"%char /\ c <> "'"%char /\
  c <> """"%char /\ c <> "/"%char /\ c <> ">"%char /\ c <> "="%char.
Proof.
  intros c H. unfold ordinary, delim in H. apply andb_prop in H as [H1 H2]. apply negb_true_iff, orb_false_elim in H1 as [H1 H3].
  apply orb_false_elim in H1 as [H1 H4]. split; [exact H1|].
  repeat split; intros ->; vm_compute in H2, H3, H4; discriminate.
Qed.
Lemma tl_char : forall c tok s, ordinary c = true -> tl tok (c :: s) = tl (tok ++ [c]) s.
Proof.
  intros c tok s H. apply ordinary_cases in H as (H & N1 & N2 & N3 & N4 & N5 & N6 & N7).
  tl1. rewrite H.
  destruct (ascii_dec c "&"); [contradiction|]. destruct (ascii_dec c "'"); [contradiction|].
  destruct (ascii_dec c """"); [contradiction|]. destruct (ascii_dec c "<"); [contradiction|].
  destruct (ascii_dec c "/"); [contradiction|]. destruct (ascii_dec c ">"); [contradiction|].
  destruct (ascii_dec c "="); [contradiction|]. apply tl_any. lia.
Qed.
Lemma tl_delim : forall c tok s, delim c = true -> tl tok (c :: s) = retval c tok s.
Proof.
  intros c tok s H. unfold delim in H. apply orb_prop in H as [H|H].
  - apply orb_prop in H as [H|H]; [now apply tl_space|]. destruct (ascii_dec c "=") as [->|]; [reflexivity|discriminate].
  - destruct (ascii_dec c ">") as [->|]; [reflexivity|discriminate].
Qed.
Lemma tl_slash : forall c tok s, c <> ">"%char -> tl tok ("/" :: c :: s)%char = tl (tok ++ ["/"%char]) (c :: s).
Proof. intros c tok s H. tl1. destruct (ascii_dec c ">"); [contradiction|]. apply tl_any. cbn [length]. lia. Qed.
Lemma tl_empty : forall tok s, tl tok (bs "/>" ++ s) = retval "\" tok s.
Proof. reflexivity. Qed.
Lemma tl_open : forall c tok s, namechar c = true -> tl tok ("<" :: c :: s)%char = retval "<" tok (c :: s).
Proof.
  intros c tok s H. tl1.
  assert (c <> "!"%char /\ c <> "?"%char /\ c <> "/"%char) as (A & B & C)
    by (repeat split; intros ->; vm_compute in H; discriminate).
  destruct (ascii_dec c "!"); [contradiction|]. destruct (ascii_dec c "?"); [contradiction|].
  destruct (ascii_dec c "/"); [contradiction|]. reflexivity.
Qed.
Lemma tl_close : forall tok s, tl tok (bs "</" ++ s) = retval "/" tok s.
Proof. reflexivity. Qed.
Lemma tl_quote : forall q tok s, q = "'"%char \/ q = """"%char -> tl tok (q :: s) = strlit (S (length s)) q tok s.
Proof. intros q tok s [->| ->]; reflexivity. Qed.

(** string literals *)
Lemma strlit_quoted : forall q raw v, quoted q raw v -> forall f tok rest, length (raw ++ q :: rest) < f -> q <> "&"%char ->
  strlit f q tok (raw ++ q :: rest) = TTok (tok ++ v) rest nul.
Proof.
  intros q raw v H. induction H as [|c raw v N1 N2 H IH|r c raw v HR H IH]; intros f tok rest L Q; (destruct f as [|f]; [lia|]).
  - cbn [app strlit]. destruct (ascii_dec q q); [|congruence]. now rewrite app_nil_r.
  - cbn [app strlit length] in *. destruct (ascii_dec c q); [contradiction|]. destruct (ascii_dec c "&"); [contradiction|].
    rewrite IH by (auto; lia). now rewrite <- app_assoc.
  - rewrite <- app_assoc, ref_app in *. cbn [strlit length] in *.
    destruct (ascii_dec "&" q) as [E|]; [congruence|]. destruct (ascii_dec "&" "&"); [|congruence].
    rewrite (parse_ref r c _ HR). rewrite IH; [now rewrite <- app_assoc| |exact Q].
    rewrite app_length in L. cbn in L. lia.
Qed.

(** ** Comments, declarations, processing instructions *)
Lemma gobble_string : forall s l rest, ~ In """"%char s ->
  gobble_comment (S l) true (s ++ """"%char :: rest) = gobble_comment (S l) false rest.
Proof.
  induction s as [|c s IH]; intros l rest H.
  - reflexivity.
  - cbn [app gobble_comment]. cbv zeta. destruct (ascii_dec c """") as [->|]; [exfalso; apply H; now left|].
    apply IH. intros C. apply H. now right.
Qed.
Lemma gobble_closed : forall s, closed s -> forall l rest, gobble_comment (S l) false (s ++ rest) = gobble_comment (S l) false rest.
Proof.
  intros s H. induction H as [|c s N1 N2 N3 H IH|s s' N H IH|s s' H1 IH1 H2 IH2]; intros l rest.
  - reflexivity.
  - cbn [app gobble_comment]. cbv zeta. destruct (ascii_dec c """"); [contradiction|].
    destruct (ascii_dec c "<"); [contradiction|]. destruct (ascii_dec c ">"); [contradiction|]. apply IH.
  - change (("""" :: s ++ """" :: s')%char ++ rest) with (""""%char :: (s ++ """"%char :: s') ++ rest).
    rewrite <- app_assoc. cbn [app]. transitivity (gobble_comment (S l) true (s ++ """"%char :: s' ++ rest)); [reflexivity|].
    rewrite gobble_string by exact N. apply IH.
  - change (("<" :: s ++ ">" :: s')%char ++ rest) with ("<"%char :: (s ++ ">"%char :: s') ++ rest).
    rewrite <- app_assoc. cbn [app]. transitivity (gobble_comment (S (S l)) false (s ++ ">"%char :: s' ++ rest)); [reflexivity|].
    rewrite IH1. transitivity (gobble_comment (S l) false (s' ++ rest)); [reflexivity|]. apply IH2.
Qed.
Lemma gobble_gt : forall s, gobble_comment 1 false (">"%char :: s) = Some (gobble_ws s).
Proof. intros [|c s]; reflexivity. Qed.
Lemma gobble_blank : forall w s, blank w -> gobble_ws (w ++ s) = gobble_ws s.
Proof.
  induction w as [|c w IH]; intros s H; [reflexivity|]. apply Forall_cons_iff in H as [H1 H2]. cbn [app gobble_ws].
  rewrite H1. now apply IH.
Qed.
Lemma last_cons : forall (h : list ascii) x c, last (x :: h) c = last h x.
Proof.
  induction h as [|y h IH]; intros x c; [reflexivity|]. change (last (x :: y :: h) c) with (last (y :: h) c).
  rewrite IH. now rewrite <- (IH y x).
Qed.
Lemma lookahead_take : forall h n l c s, ~ In ">"%char h ->
  lookahead (length h + n) l c (h ++ s) = lookahead n (l ++ h) (last h c) s.
Proof.
  induction h as [|x h IH]; intros n l c s H.
  - now rewrite app_nil_r.
  - cbn [length Nat.add app lookahead]. destruct (ascii_dec x ">") as [->|]; [exfalso; apply H; now left|].
    rewrite IH by (intros C; apply H; now right). rewrite <- app_assoc. cbn [app].
    now rewrite last_cons.
Qed.
Lemma last_in : forall (h : list ascii) c, h <> [] -> In (last h c) h.
Proof.
  induction h as [|x h IH]; intros c H; [congruence|]. destruct h as [|y h]; [now left|]. right.
  change (last (x :: y :: h) c) with (last (y :: h) c). apply IH. discriminate.
Qed.
(** what is swallowed after a note *)
Definition after (x : note) (s : list ascii) : list ascii := match x with NShort _ => s | _ => gobble_ws s end.
Lemma tl_note : forall x tok s, oknote x -> tl tok (rnote x ++ s) = tl tok (after x s).
Proof.
  intros [h|h b|b] tok s H; cbn [oknote rnote after] in *.
  - destruct H as [L N]. rewrite <- !app_assoc.
    change (bs "<!" ++ h ++ bs ">" ++ s) with ("<" :: "!" :: (h ++ ">" :: s))%char.
    tl1. change (isspace "<") with false. cbn match.
    destruct (ascii_dec "<" "&"); [discriminate|]. destruct (ascii_dec "<" "'"); [discriminate|]. destruct (ascii_dec "<" """"); [discriminate|].
    destruct (ascii_dec "<" "<"); [|congruence]. destruct (ascii_dec "!" "!"); [|congruence].
    replace 7 with (length h + S (6 - length h)) by lia. rewrite lookahead_take by exact N.
    cbn [app lookahead]. destruct (ascii_dec ">" ">"); [|congruence].
    rewrite beq_neq by (intros ->; cbn in L; lia). apply tl_any. rewrite app_length in F. cbn in F. lia.
  - destruct H as (L & N & C & B). rewrite <- !app_assoc.
    change (bs "<!" ++ h ++ b ++ bs ">" ++ s) with ("<" :: "!" :: (h ++ b ++ ">" :: s))%char.
    tl1. change (isspace "<") with false. cbn match.
    destruct (ascii_dec "<" "&"); [discriminate|]. destruct (ascii_dec "<" "'"); [discriminate|]. destruct (ascii_dec "<" """"); [discriminate|].
    destruct (ascii_dec "<" "<"); [|congruence]. destruct (ascii_dec "!" "!"); [|congruence].
    replace 7 with (length h + 0) by lia. rewrite lookahead_take by exact N.
    cbn [app lookahead]. rewrite beq_neq by exact C.
    assert (NE : h <> []) by (intros ->; cbn in L; lia).
    destruct (ascii_dec (last h "!"%char) ">") as [E|]; [exfalso; apply N; rewrite <- E; now apply last_in|].
    rewrite gobble_closed by exact B. rewrite gobble_gt.
    apply tl_any. pose proof (gobble_ws_len s). rewrite !app_length in F. cbn [length] in F. lia.
  - rewrite <- !app_assoc. change (bs "<?" ++ b ++ bs ">" ++ s) with ("<" :: "?" :: (b ++ ">" :: s))%char.
    tl1. change (isspace "<") with false. cbn match.
    destruct (ascii_dec "<" "&"); [discriminate|]. destruct (ascii_dec "<" "'"); [discriminate|]. destruct (ascii_dec "<" """"); [discriminate|].
    destruct (ascii_dec "<" "<"); [|congruence]. destruct (ascii_dec "?" "!"); [discriminate|]. destruct (ascii_dec "?" "?"); [|congruence].
    rewrite gobble_closed by exact H. rewrite gobble_gt.
    apply tl_any. pose proof (gobble_ws_len s). rewrite !app_length in F. cbn [length] in F. lia.
Qed.

(** ** CDATA *)
Lemma cdata_body : forall s tok rest, Forall (fun c => c <> "]"%char /\ c <> nul) s ->
  cdata [] tok (s ++ bs "]]>" ++ rest) = CDone (tok ++ s) rest.
Proof.
  induction s as [|c s IH]; intros tok rest H.
  - rewrite app_nil_r. reflexivity.
  - apply Forall_cons_iff in H as [[H1 H2] H3]. cbn [app cdata]. destruct (ascii_dec c nul); [contradiction|].
    destruct (ascii_dec c "]"); [contradiction|]. change (beq [] (bs "]]")) with false. rewrite andb_false_r.
    rewrite IH by exact H3. cbn [app]. now rewrite <- app_assoc.
Qed.
Lemma tl_cdata : forall s tok rest, Forall (fun c => c <> "]"%char /\ c <> nul) s ->
  tl tok (bs "<![CDATA[" ++ s ++ bs "]]>" ++ rest) =
  match tok ++ s with [] => tl [] rest | t => TTok t rest nul end.
Proof.
  intros s tok rest H.
  change (bs "<![CDATA[" ++ s ++ bs "]]>" ++ rest) with ("<" :: "!" :: (bs "[CDATA[" ++ s ++ bs "]]>" ++ rest))%char.
  tl1. change (isspace "<") with false. cbn match.
  destruct (ascii_dec "<" "&"); [discriminate|]. destruct (ascii_dec "<" "'"); [discriminate|]. destruct (ascii_dec "<" """"); [discriminate|].
  destruct (ascii_dec "<" "<"); [|congruence]. destruct (ascii_dec "!" "!"); [|congruence].
  change (lookahead 7 [] "!" (bs "[CDATA[" ++ s ++ bs "]]>" ++ rest)) with (bs "[CDATA[", "["%char, s ++ bs "]]>" ++ rest).
  cbn match. change (beq (bs "[CDATA[") (bs "[CDATA[")) with true. cbn match.
  rewrite cdata_body by exact H. destruct (tok ++ s) eqn:E; [|reflexivity].
  apply tl_any. rewrite !app_length in F. cbn in F. lia.
Qed.

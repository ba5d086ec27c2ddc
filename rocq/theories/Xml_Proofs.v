(** * Proofs about the XML tokenizer and parser *)
From Verif Require Import Base Base_Proofs SMap Dec Desc_Model Json_Model Json_Spec Xml_Model Xml_Spec.

(** ** Characters *)
(** how one character of quoted text is seen by the tokenizer *)
Definition qcase (c : ascii) : bool :=
  match quote c with
  | [x] => beq [x] [c] && okchar c && negb (isspace x) && negb (existsb (fun y => if ascii_dec x y then true else false) (bs "&<>'"""))
  | a :: r => (if ascii_dec a "&" then true else false)
              && match to_semi r with
                 | Some (name, []) => match entity name with
                                      | Some y => (if ascii_dec y (dq c) then true else false)
                                      | None => false
                                      end
                 | _ => false
                 end
  | [] => false
  end.
Lemma qcase_all : forall c, qcase c = true.
Proof. intros [[] [] [] [] [] [] [] []]; vm_compute; reflexivity. Qed.

Lemma to_semi_app : forall s name r rest, to_semi s = Some (name, r) -> to_semi (s ++ rest) = Some (name, r ++ rest).
Proof.
  induction s as [|c s IH]; intros name r rest H; cbn [to_semi app] in *; [discriminate|].
  destruct (ascii_dec c ";"); [now injection H as <- <-|].
  destruct (to_semi s) as [[a b]|] eqn:E; [|discriminate]. injection H as <- <-.
  now rewrite (IH a b rest eq_refl).
Qed.
(** quoting is either the identity on an ordinary character, or an entity *)
Lemma quote_cases : forall c,
  (quote c = [c] /\ dq c = c /\ isspace c = false /\ c <> "&"%char /\ c <> "<"%char /\ c <> ">"%char /\ c <> "'"%char /\ c <> """"%char) \/
  (exists q, quote c = "&"%char :: q /\ forall rest, parse_entity (q ++ rest) = Some (dq c, rest)).
Proof.
  intros c. pose proof (qcase_all c) as Q. unfold qcase in Q.
  destruct (quote c) as [|a [|b r]] eqn:E; [discriminate| |].
  - left. apply andb_prop in Q as [Q Q3]. apply andb_prop in Q as [Q Q2]. apply andb_prop in Q as [Q1 Q0].
    apply beq_eq in Q1. injection Q1 as ->. apply negb_true_iff in Q2, Q3.
    split; [reflexivity|]. split; [unfold dq; now rewrite Q0|]. split; [exact Q2|].
    repeat split; intros ->; vm_compute in Q3; discriminate Q3.
  - right. apply andb_prop in Q as [Q1 Q2]. destruct (ascii_dec a "&") as [->|]; [|discriminate].
    exists (b :: r). split; [reflexivity|]. intros rest.
    destruct (to_semi (b :: r)) as [[name q]|] eqn:E2; [|discriminate]. destruct q; [|discriminate].
    destruct (entity name) as [y|] eqn:E3; [|discriminate]. destruct (ascii_dec y (dq c)) as [->|]; [|discriminate].
    unfold parse_entity. rewrite (to_semi_app _ _ _ rest E2), E3. reflexivity.
Qed.

Lemma quotes_app : forall a b, quotes (a ++ b) = quotes a ++ quotes b.
Proof. intros. unfold quotes. now rewrite map_app, concat_app. Qed.
Lemma quotes_cons : forall c s, quotes (c :: s) = quote c ++ quotes s.
Proof. reflexivity. Qed.
Lemma quote_nonempty : forall c, quote c <> [].
Proof. intros c. unfold quote. repeat (destruct ascii_dec; [discriminate|]). destruct (isgraph c); discriminate. Qed.
Lemma quote_eq : quote "=" = ["="%char].
Proof. reflexivity. Qed.
Lemma quote_gt : forall c r, quote c = ">"%char :: r -> False.
Proof.
  intros c r E. destruct (quote_cases c) as [(E1 & _ & _ & _ & _ & E2 & _)|(q & E1 & _)].
  - rewrite E1 in E. now injection E as E3 _.
  - rewrite E1 in E. discriminate.
Qed.

(** ** Tokens *)
Definition not_gt (s : list ascii) : Prop := match s with c :: _ => c <> ">"%char | [] => False end.
Lemma quotes_not_gt : forall s rest, not_gt rest -> not_gt (quotes s ++ rest).
Proof.
  intros [|c s] rest N; [exact N|]. rewrite quotes_cons.
  destruct (quote c) as [|a q] eqn:E; [now apply quote_nonempty in E|]. cbn [app not_gt]. intros ->.
  eapply quote_gt; eauto.
Qed.
(** one quoted character other than '=' *)
Lemma tloop_char : forall c f tok rest, c <> "="%char -> not_gt rest ->
  f > length (quote c ++ rest) ->
  exists f', f' > length rest /\ tloop f tok (quote c ++ rest) = tloop f' (tok ++ [dq c]) rest.
Proof.
  intros c f tok rest NE N F. destruct f as [|f]; [lia|]. rewrite app_length in F.
  destruct (quote_cases c) as [(E & D & S & N1 & N2 & N3 & N4 & N5)|(q & E & P)].
  - rewrite E, D in *. cbn [app length] in *. exists f. split; [lia|]. cbn [tloop]. rewrite S.
    destruct (ascii_dec c "&"); [contradiction|]. destruct (ascii_dec c "'"); [contradiction|].
    destruct (ascii_dec c """"); [contradiction|]. destruct (ascii_dec c "<"); [contradiction|].
    destruct (ascii_dec c "/") as [->|].
    + destruct rest as [|c1 s1]; [contradiction|]. cbn in N. destruct (ascii_dec c1 ">"); [contradiction|]. reflexivity.
    + destruct (ascii_dec c ">"); [contradiction|]. destruct (ascii_dec c "="); [contradiction|]. reflexivity.
  - rewrite E in *. cbn [app length] in *. exists f. split; [lia|]. cbn [tloop].
    change (isspace "&") with false. destruct (ascii_dec "&" "&"); [|congruence]. now rewrite P.
Qed.
Lemma tloop_text : forall seg f tok rest, ~ In "="%char seg -> not_gt rest ->
  f > length (quotes seg ++ rest) ->
  exists f', f' > length rest /\ tloop f tok (quotes seg ++ rest) = tloop f' (tok ++ map dq seg) rest.
Proof.
  induction seg as [|c seg IH]; intros f tok rest H N F.
  - exists f. split; [exact F|]. now rewrite app_nil_r.
  - rewrite quotes_cons, <- app_assoc in *.
    destruct (tloop_char c f tok (quotes seg ++ rest)) as (f1 & F1 & E1).
    + intros ->. apply H. now left.
    + now apply quotes_not_gt.
    + exact F.
    + destruct (IH f1 (tok ++ [dq c]) rest) as (f2 & F2 & E2); [intros C; apply H; now right|exact N|exact F1|].
      exists f2. split; [exact F2|]. rewrite E1, E2, <- app_assoc. reflexivity.
Qed.

Definition st0 (s : list ascii) : tst := {| inp := s; nxt := nul |}.
(** the token at the end of a content *)
Lemma token_close : forall rest, token_no_eof (st0 (bs "</" ++ rest)) = POk (bs "</", st0 rest).
Proof. intros. reflexivity. Qed.
Lemma token_eq : forall rest, token_no_eof (st0 ("="%char :: rest)) = POk (["="%char], st0 rest).
Proof. intros. reflexivity. Qed.
Lemma token_pending : forall c s, c <> nul -> c <> "/"%char -> c <> "\"%char ->
  token_no_eof {| inp := s; nxt := c |} = POk ([c], st0 s).
Proof.
  intros c s N1 N2 N3. unfold token_no_eof, token. cbn [nxt inp]. destruct (ascii_dec c nul); [contradiction|].
  unfold retval. destruct (ascii_dec c "/"); [contradiction|]. destruct (ascii_dec c "\"); [contradiction|]. reflexivity.
Qed.
Lemma token_pending_close : forall s, token_no_eof {| inp := s; nxt := "/" |} = POk (bs "</", st0 s).
Proof. reflexivity. Qed.
Lemma tloop_close : forall f tok rest, f > length (bs "</" ++ rest) -> tok <> [] ->
  tloop f tok (bs "</" ++ rest) = TTok tok rest "/".
Proof. intros [|f] tok rest F H; [lia|]. cbn. destruct tok; [congruence|reflexivity]. Qed.
Lemma tloop_eq : forall f tok rest, f > length ("="%char :: rest) -> tok <> [] ->
  tloop f tok ("="%char :: rest) = TTok tok rest "=".
Proof. intros [|f] tok rest F H; [lia|]. cbn. destruct tok; [congruence|reflexivity]. Qed.

Lemma token_text : forall seg rest t i n, ~ In "="%char seg -> seg <> [] -> not_gt rest ->
  (forall f, f > length rest -> tloop f (map dq seg) rest = TTok t i n) -> t <> [] ->
  token_no_eof (st0 (quotes seg ++ rest)) = POk (t, {| inp := i; nxt := n |}).
Proof.
  intros seg rest t i n H NE N HT Ht. unfold token_no_eof, token. cbn [nxt inp st0].
  destruct (ascii_dec nul nul); [|congruence].
  destruct (tloop_text seg (S (length (quotes seg ++ rest))) [] rest H N) as (f & F & E); [lia|].
  rewrite E. cbn [app]. rewrite HT by exact F. destruct t; [congruence|reflexivity].
Qed.

(** ** Element content *)
Lemma splitc_app : forall c a b, ~ In c a -> splitc c (a ++ c :: b) = a :: splitc c b.
Proof.
  intros c a b. induction a as [|x a IH]; intros H; cbn [app splitc].
  - destruct (ascii_dec c c); congruence.
  - destruct (ascii_dec x c) as [->|]; [exfalso; apply H; now left|].
    rewrite IH; [reflexivity|]. intros C. apply H. now right.
Qed.
Lemma splitc_none : forall c a, ~ In c a -> splitc c a = [a].
Proof.
  intros c a. induction a as [|x a IH]; intros H; cbn [splitc]; [reflexivity|].
  destruct (ascii_dec x c) as [->|]; [exfalso; apply H; now left|].
  rewrite IH; [reflexivity|]. intros C. apply H. now right.
Qed.
Lemma first_occ : forall (c : ascii) s, (~ In c s) \/ exists a b, s = a ++ c :: b /\ ~ In c a.
Proof.
  intros c s. induction s as [|x s IH]; [left; intros []|].
  destruct (ascii_dec x c) as [->|N]; [right; exists [], s; split; [reflexivity|intros []]|].
  destruct IH as [IH|(a & b & -> & IH)].
  - left. intros [->|C]; [now apply N|auto].
  - right. exists (x :: a), b. split; [reflexivity|]. intros [->|C]; [now apply N|auto].
Qed.

Definition reads (raw txt : list ascii) : Prop :=
  forall f rest sidx content cm tc, f > length raw + 1 ->
  pcont f (st0 (raw ++ bs "</" ++ rest)) sidx content cm tc = POk (content ++ txt, st0 rest, cm, tc).

Lemma beq_neq : forall a b, a <> b -> beq a b = false.
Proof. intros a b H. destruct (beq a b) eqn:E; [|reflexivity]. now apply beq_eq in E. Qed.

Lemma pcont_step : forall f st sidx content cm tc tok st1,
  token_no_eof st = POk (tok, st1) -> tok <> bs "</" -> tok <> bs "<" ->
  pcont (S f) st sidx content cm tc = pcont f st1 sidx (content ++ tok) cm tc.
Proof.
  intros f st sidx content cm tc tok st1 E N1 N2. cbn [pcont]. rewrite E. cbn [pbind].
  now rewrite !beq_neq by assumption.
Qed.
Lemma pcont_end : forall f st sidx content cm tc st1, f > 0 ->
  token_no_eof st = POk (bs "</", st1) ->
  pcont f st sidx content cm tc = POk (content, st1, cm, tc).
Proof. intros [|f] st sidx content cm tc st1 F E; [lia|]. cbn [pcont]. rewrite E. reflexivity. Qed.

Lemma dq_eq : forall c, dq c = "="%char <-> c = "="%char.
Proof.
  intros c. unfold dq. destruct (okchar c) eqn:E; [reflexivity|]. split; [discriminate|]. intros ->. discriminate E.
Qed.
Lemma dq_eq_in : forall s, In "="%char (map dq s) <-> In "="%char s.
Proof.
  intros s. rewrite in_map_iff. split.
  - intros (c & E & I). apply (proj1 (dq_eq c)) in E. rewrite <- E. exact I.
  - intros I. exists "="%char. split; [reflexivity|exact I].
Qed.
Lemma quotes_length : forall s, length s <= length (quotes s).
Proof.
  induction s as [|c s IH]; [apply le_n|]. rewrite quotes_cons, app_length.
  pose proof (quote_nonempty c). destruct (quote c); [congruence|]. cbn [length]. lia.
Qed.
Lemma reads_text : forall s, oksegs (map dq s) -> reads (quotes s) (map dq s).
Proof.
  intros s. remember (length s) as n eqn:En. revert s En.
  induction n as [n IH] using lt_wf_ind. intros s En H2 f rest sidx content cm tc F.
  destruct (first_occ "=" s) as [N|(a & b & -> & N)].
  - unfold oksegs in H2. rewrite splitc_none in H2 by (now rewrite dq_eq_in). apply Forall_cons_iff in H2 as [[H2 H3] _].
    destruct s as [|c s'] eqn:Es.
    + cbn [quotes map concat app]. rewrite app_nil_r. apply pcont_end; [lia|]. apply token_close.
    + rewrite <- Es in *. assert (s <> []) by (rewrite Es; discriminate).
      assert (ET : token_no_eof (st0 (quotes s ++ bs "</" ++ rest)) = POk (map dq s, {| inp := rest; nxt := "/" |})).
      { assert (map dq s <> []) by (rewrite Es; discriminate).
        apply token_text; auto; [discriminate|]. intros f0 F0. now apply tloop_close. }
      destruct f as [|f]; [lia|]. rewrite (pcont_step f _ _ _ _ _ _ _ ET) by assumption.
      apply pcont_end; [|apply token_pending_close].
      pose proof (quotes_length s). rewrite Es in H0 at 1. cbn [length] in H0. lia.
  - unfold oksegs in H2. rewrite map_app in H2. cbn [map] in H2. change (dq "=") with "="%char in H2.
    rewrite splitc_app in H2 by (now rewrite dq_eq_in). apply Forall_cons_iff in H2 as [[H2 H3] H4].
    assert (R : reads (quotes b) (map dq b)).
    { apply (IH (length b)); [rewrite En, app_length; cbn [length]; lia|reflexivity|exact H4]. }
    rewrite map_app. cbn [map]. change (dq "=") with "="%char.
    rewrite quotes_app, quotes_cons, quote_eq in *. rewrite app_length in F. cbn [app length] in F.
    rewrite <- app_assoc. cbn [app].
    assert (G : forall f content, f > length (quotes b) + 2 ->
       pcont f (st0 ("="%char :: quotes b ++ bs "</" ++ rest)) sidx content cm tc =
       POk (content ++ "="%char :: map dq b, st0 rest, cm, tc)).
    { intros g ct G. destruct g as [|g]; [lia|].
      rewrite (pcont_step g _ _ _ _ _ _ _ (token_eq _)) by discriminate.
      rewrite R by lia. now rewrite <- app_assoc. }
    assert (G' : forall f content, f > length (quotes b) + 2 ->
       pcont f {| inp := quotes b ++ bs "</" ++ rest; nxt := "=" |} sidx content cm tc =
       POk (content ++ "="%char :: map dq b, st0 rest, cm, tc)).
    { intros g ct G0. destruct g as [|g]; [lia|].
      rewrite (pcont_step g _ _ _ _ _ ["="%char] (st0 (quotes b ++ bs "</" ++ rest))) by (discriminate || (apply token_pending; discriminate)).
      rewrite R by lia. now rewrite <- app_assoc. }
    destruct a as [|x a'] eqn:Ea.
    + cbn [app quotes map concat]. apply G. cbn [quotes map concat length] in F. lia.
    + rewrite <- Ea in *. assert (a <> []) by (rewrite Ea; discriminate).
      assert (ET : token_no_eof (st0 (quotes a ++ "="%char :: quotes b ++ bs "</" ++ rest)) =
                   POk (map dq a, {| inp := quotes b ++ bs "</" ++ rest; nxt := "=" |})).
      { assert (map dq a <> []) by (rewrite Ea; discriminate).
        apply token_text; auto; [discriminate|]. intros f0 F0. now apply tloop_eq. }
      destruct f as [|f]; [lia|]. rewrite (pcont_step f _ _ _ _ _ _ _ ET) by assumption.
      rewrite G'; [now rewrite <- app_assoc|].
      pose proof (quotes_length a). rewrite Ea in H0 at 1. cbn [length] in H0. lia.
Qed.

(** ** CDATA *)
Lemma cdata_ok : forall s tok rest, Forall (fun c => c <> "]"%char /\ c <> nul) s ->
  cdata [] tok (s ++ bs "]]>" ++ rest) = CDone (tok ++ s) rest.
Proof.
  induction s as [|c s IH]; intros tok rest H.
  - cbn. now rewrite app_nil_r.
  - apply Forall_cons_iff in H as [[H1 H2] H3]. cbn [app cdata].
    destruct (ascii_dec c nul); [contradiction|]. destruct (ascii_dec c "]"); [contradiction|].
    change (beq [] (bs "]]")) with false. rewrite andb_false_r. cbn [app].
    rewrite IH by exact H3. now rewrite <- app_assoc.
Qed.
Lemma tloop_cdata : forall n s2, tloop (S n) [] (bs "<![CDATA[" ++ s2) =
  match cdata [] [] s2 with
  | CErr => TErr
  | CDone tok' s3 => match tok' with [] => tloop n tok' s3 | _ => TTok tok' s3 nul end
  | CNul tok' s3 => tloop n tok' s3
  end.
Proof. intros. cbn [app bs list_ascii_of_string tloop]. reflexivity. Qed.
Lemma tloop_close0 : forall f rest, f > 0 -> tloop f [] (bs "</" ++ rest) = TTok (bs "</") rest nul.
Proof. intros [|f] rest H; [lia|]. reflexivity. Qed.
Lemma reads_cdata : forall s, Forall (fun c => c <> "]"%char /\ c <> nul) s -> s <> bs "<" -> s <> bs "</" ->
  reads (bs "<![CDATA[" ++ s ++ bs "]]>") s.
Proof.
  intros s H N1 N2 f rest sidx content cm tc F.
  assert (L : length (bs "<![CDATA[" ++ s ++ bs "]]>") = length s + 12) by (rewrite !app_length; cbn; lia).
  rewrite L in F. destruct f as [|f]; [lia|].
  assert (ET : token_no_eof (st0 ((bs "<![CDATA[" ++ s ++ bs "]]>") ++ bs "</" ++ rest)) =
               match s with [] => POk (bs "</", st0 rest) | _ => POk (s, st0 (bs "</" ++ rest)) end).
  { rewrite <- !app_assoc. unfold token_no_eof, token. cbn [nxt inp st0].
    destruct (ascii_dec nul nul); [|congruence]. rewrite tloop_cdata, cdata_ok by exact H. cbn [app].
    destruct s as [|c s']; [|reflexivity].
    rewrite tloop_close0; [reflexivity|]. rewrite app_length. cbn [length bs list_ascii_of_string]. lia. }
  destruct s as [|c s'].
  - rewrite app_nil_r. apply pcont_end; [lia|]. exact ET.
  - rewrite (pcont_step f _ _ _ _ _ _ _ ET) by assumption.
    apply pcont_end; [lia|]. apply token_close.
Qed.
Lemma reads_ok : forall raw txt, okleaf raw txt -> reads raw txt.
Proof. intros raw txt [s H|s H N1 N2]; [now apply reads_text|now apply reads_cdata]. Qed.

(** ** Names and tags *)
Lemma namechar_spec : forall c, namechar c = true ->
  quote c = [c] /\ okchar c = true /\ isspace c = false /\ c <> "="%char /\ c <> ">"%char /\ c <> "<"%char /\ c <> "/"%char /\ c <> "!"%char /\
  c <> "?"%char /\ c <> dot /\ c <> hash /\ c <> nul /\ c <> nl.
Proof.
  intros c. assert (A : (if namechar c then (beq (quote c) [c]) && okchar c && negb (isspace c) &&
     forallb (fun x => if ascii_dec c x then false else true) [ "="; ">"; "<"; "/"; "!"; "?"; dot; hash; nul; nl]%char else true) = true).
  { destruct c as [[] [] [] [] [] [] [] []]; vm_compute; reflexivity. }
  intros H. rewrite H in A. apply andb_prop in A as [A B]. apply andb_prop in A as [A A3]. apply andb_prop in A as [A1 A2].
  apply beq_eq in A1. apply negb_true_iff in A3. rewrite forallb_forall in B.
  assert (N : forall x, In x [ "="; ">"; "<"; "/"; "!"; "?"; dot; hash; nul; nl]%char -> c <> x).
  { intros x Hx ->. specialize (B x Hx). destruct (ascii_dec x x); congruence. }
  split; [exact A1|]. split; [exact A2|]. split; [exact A3|].
  repeat split; apply N; cbn; tauto.
Qed.
Lemma tloop_gt : forall f tok rest, f > length (">"%char :: rest) -> tok <> [] ->
  tloop f tok (">"%char :: rest) = TTok tok rest ">".
Proof. intros [|f] tok rest F H; [lia|]. cbn. destruct tok; [congruence|reflexivity]. Qed.
(** a name is followed by '>', so the last '/' check of [tloop_text] does not apply *)
Lemma tloop_name : forall n f tok rest, Forall (fun c => namechar c = true) n -> f > length (n ++ rest) ->
  exists f', f' > length rest /\ tloop f tok (n ++ rest) = tloop f' (tok ++ n) rest.
Proof.
  induction n as [|c n IH]; intros f tok rest H F.
  - exists f. split; [exact F|]. now rewrite app_nil_r.
  - apply Forall_cons_iff in H as [H1 H2]. destruct f as [|f]; [lia|]. cbn [app length] in F.
    destruct (namechar_spec c H1) as (Q & OK & S & N1 & N2 & N3 & N4 & _).
    destruct (quote_cases c) as [(_ & _ & _ & M1 & M2 & M3 & M4 & M5)|(q & E & _)]; [|rewrite Q in E; injection E as ->; discriminate H1].
    destruct (IH f (tok ++ [c]) rest H2) as (f' & F' & E); [lia|].
    exists f'. split; [exact F'|]. rewrite <- app_assoc in E. cbn [app] in E. rewrite <- E.
    cbn [app tloop]. rewrite S.
    destruct (ascii_dec c "&"); [contradiction|]. destruct (ascii_dec c "'"); [contradiction|].
    destruct (ascii_dec c """"); [contradiction|]. destruct (ascii_dec c "<"); [contradiction|].
    destruct (ascii_dec c "/"); [contradiction|]. destruct (ascii_dec c ">"); [contradiction|].
    destruct (ascii_dec c "="); [contradiction|]. reflexivity.
Qed.
Lemma token_name : forall n rest, okname n ->
  token_no_eof (st0 (n ++ bs ">" ++ rest)) = POk (n, {| inp := rest; nxt := ">" |}).
Proof.
  intros n rest [NE H]. unfold token_no_eof, token. cbn [nxt inp st0]. destruct (ascii_dec nul nul); [|congruence].
  destruct (tloop_name n (S (length (n ++ bs ">" ++ rest))) [] (bs ">" ++ rest) H) as (f & F & E); [lia|].
  rewrite E. cbn [app bs list_ascii_of_string]. rewrite tloop_gt by assumption. destruct n; [congruence|reflexivity].
Qed.
Lemma token_open : forall n rest, okname n -> token_no_eof (st0 (bs "<" ++ n ++ rest)) = POk (bs "<", st0 (n ++ rest)).
Proof.
  intros n rest [NE H]. destruct n as [|c n]; [congruence|]. apply Forall_cons_iff in H as [H _].
  destruct (namechar_spec c H) as (_ & _ & _ & _ & _ & _ & N1 & N2 & N3 & _).
  unfold token_no_eof, token. cbn [nxt inp st0 bs list_ascii_of_string app].
  destruct (ascii_dec nul nul); [|congruence]. cbn [tloop].
  change (isspace "<") with false. cbn [ascii_dec]. 
  destruct (ascii_dec "<" "&"); [discriminate|]. destruct (ascii_dec "<" "'"); [discriminate|].
  destruct (ascii_dec "<" """"); [discriminate|]. destruct (ascii_dec "<" "<"); [|congruence].
  destruct (ascii_dec c "!"); [contradiction|]. destruct (ascii_dec c "?"); [contradiction|].
  destruct (ascii_dec c "/"); [contradiction|]. reflexivity.
Qed.
Lemma token_ws : forall c rest, isspace c = true -> token_no_eof (st0 (c :: rest)) = POk ([c], st0 rest).
Proof.
  intros c rest H. unfold token_no_eof, token. cbn [nxt inp st0]. destruct (ascii_dec nul nul); [|congruence].
  cbn [tloop]. rewrite H. unfold retval.
  destruct (ascii_dec c "/") as [->|]; [discriminate H|]. destruct (ascii_dec c "\") as [->|]; [discriminate H|]. reflexivity.
Qed.
Lemma pcont_ws : forall ws f rest sidx content cm tc, Forall (fun c => isspace c = true) ws -> f >= length ws ->
  pcont f (st0 (ws ++ rest)) sidx content cm tc = pcont (f - length ws) (st0 rest) sidx (content ++ ws) cm tc.
Proof.
  induction ws as [|c ws IH]; intros f rest sidx content cm tc H F.
  - cbn [app length]. now rewrite Nat.sub_0_r, app_nil_r.
  - apply Forall_cons_iff in H as [H1 H2]. cbn [length] in F. destruct f as [|f]; [lia|]. cbn [app].
    rewrite (pcont_step f _ _ _ _ _ _ _ (token_ws c _ H1)) by (intros E; injection E as -> ; discriminate || discriminate).
    rewrite IH by (exact H2 || lia). cbn [length Nat.sub]. now rewrite <- app_assoc.
Qed.
Lemma srfind_longer : forall t s, length s < length t -> srfind t s = None.
Proof.
  intros t s. induction s as [|c s IH]; intros L; cbn [srfind].
  - destruct t; [cbn in L; lia|reflexivity].
  - cbn [length] in L. rewrite IH by lia. rewrite beq_neq; [reflexivity|].
    intros E. apply (f_equal (@length ascii)) in E. rewrite firstn_length in E. cbn [length] in E. lia.
Qed.
Lemma srfind_suffix : forall p t, t <> [] -> srfind t (p ++ t) = Some (length p).
Proof.
  induction p as [|c p IH]; intros t H; cbn [app srfind length].
  - destruct t as [|x t]; [congruence|]. cbn [srfind]. rewrite srfind_longer by (cbn; lia).
    rewrite firstn_all, beq_refl. reflexivity.
  - now rewrite IH.
Qed.
Lemma endtag_suffix : forall p t, t <> [] -> endtag_ok (p ++ t) t = true.
Proof.
  intros p t H. unfold endtag_ok. rewrite srfind_suffix by exact H. rewrite app_length.
  replace (length p + length t - length p) with (length t) by lia. apply Nat.eqb_refl.
Qed.

(** ** The parser on documents *)
Section Ind.
Variable P : xt -> Prop.
Hypothesis HL : forall n raw txt, P (Leaf n raw txt).
Hypothesis HN : forall n kids, Forall P kids -> P (Node n kids).
Fixpoint xt_ind2 (t : xt) : P t :=
  match t with
  | Leaf n raw txt => HL n raw txt
  | Node n kids => HN n kids ((fix all (l : list xt) : Forall P l :=
      match l with [] => Forall_nil _ | k :: l' => Forall_cons k (xt_ind2 k) (all l') end) kids)
  end.
End Ind.
Lemma okdoc_node : forall ok n kids, okdoc ok (Node n kids) <-> okname n /\ Forall (okdoc ok) kids.
Proof.
  intros ok n kids. cbn [okdoc]. apply and_iff_compat_l.
  induction kids as [|k kids IH]; [split; auto|]. rewrite Forall_cons_iff, IH. reflexivity.
Qed.
Lemma okdoc_name : forall ok t, okdoc ok t -> okname (xname t).
Proof. intros ok [n raw txt|n kids] H; [apply H|apply okdoc_node in H; apply H]. Qed.

Section Parse.
Variable pp : bool.
Notation ind := (ind pp). Notation eol := (eol pp). Notation body := (body pp). Notation spaces := (spaces pp).
(** what the parser records, on the maps themselves *)
Definition put (sidx content : list ascii) (cm : cmap) : cmap :=
  match content with [] => cm | _ => mset bcmp sidx content cm end.
Fixpoint record (lvl : nat) (scope : list ascii) (t : xt) (cm : cmap) (tc : tmap) : cmap * tmap :=
  let k := cnt tc scope in
  let sidx := idx scope k in
  let tc := mset bcmp scope (k + 1)%N tc in
  match t with
  | Leaf _ _ txt => (put sidx txt cm, tc)
  | Node _ kids =>
      let '(cm, tc) := (fix all (l : list xt) (cm : cmap) (tc : tmap) : cmap * tmap :=
                          match l with
                          | [] => (cm, tc)
                          | k :: l' => let '(cm, tc) := record (S lvl) (sidx ++ dot :: xname k) k cm tc in all l' cm tc
                          end) kids cm tc in
      (put sidx (spaces lvl kids) cm, tc)
  end.
Fixpoint records (lvl : nat) (sidx : list ascii) (l : list xt) (cm : cmap) (tc : tmap) : cmap * tmap :=
  match l with
  | [] => (cm, tc)
  | k :: l' => let '(cm, tc) := record lvl (sidx ++ dot :: xname k) k cm tc in records lvl sidx l' cm tc
  end.
Lemma record_node : forall lvl scope n kids cm tc,
  record lvl scope (Node n kids) cm tc =
  let k := cnt tc scope in
  let '(cm, tc) := records (S lvl) (idx scope k) kids cm (mset bcmp scope (k + 1)%N tc) in
  (put (idx scope k) (spaces lvl kids) cm, tc).
Proof.
  intros. cbn [record]. cbv zeta.
  assert (G : forall l cm tc sidx, (fix all (l : list xt) (cm : cmap) (tc : tmap) : cmap * tmap :=
                          match l with
                          | [] => (cm, tc)
                          | k :: l' => let '(cm, tc) := record (S lvl) (sidx ++ dot :: xname k) k cm tc in all l' cm tc
                          end) l cm tc = records (S lvl) sidx l cm tc).
  { clear. induction l as [|k l IH]; intros cm tc sidx; [reflexivity|]. cbn [records].
    destruct (record (S lvl) (sidx ++ dot :: xname k) k cm tc). apply IH. }
  rewrite G. reflexivity.
Qed.

Lemma ind_ws : forall l, Forall (fun c => isspace c = true) (ind l).
Proof. intros l. unfold Xml_Spec.ind. destruct pp; [|constructor]. induction l; constructor; auto. Qed.
Lemma eol_ws : Forall (fun c => isspace c = true) eol.
Proof. unfold Xml_Spec.eol. destruct pp; repeat constructor. Qed.

Definition kidtext (lvl : nat) (k : xt) : list ascii :=
  ind lvl ++ bs "<" ++ xname k ++ bs ">" ++ body lvl k ++ eol.
Definition ends_with (scope n : list ascii) : Prop := exists p, scope = p ++ n.
Definition Pel (t : xt) : Prop := forall lvl f rest scope cm tc,
  okdoc okleaf t -> ends_with scope (xname t) -> f > length (body lvl t) + 2 ->
  pelem f {| inp := body lvl t ++ rest; nxt := ">" |} scope cm tc =
  (let '(cm', tc') := record lvl scope t cm tc in POk (st0 rest, cm', tc')).

Lemma pelem_close : forall f f2 scope n content rest rest2 cm cm2 tc tc2 st1,
  okname n -> ends_with scope n ->
  attributes f {| inp := rest; nxt := ">" |} (idx scope (cnt tc scope)) cm = POk (false, st1, cm) ->
  pcont f st1 (idx scope (cnt tc scope)) [] cm (mset bcmp scope (cnt tc scope + 1)%N tc) =
    POk (content, st0 (n ++ bs ">" ++ rest2), cm2, tc2) ->
  f = S f2 ->
  pelem (S f) {| inp := rest; nxt := ">" |} scope cm tc =
  POk (st0 rest2, put (idx scope (cnt tc scope)) content cm2, tc2).
Proof.
  intros f f2 scope n content rest rest2 cm cm2 tc tc2 st1 ON [p ->] EA EC ->. cbn [pelem]. cbv zeta.
  rewrite EA. cbn [pbind]. rewrite EC. cbn [pbind].
  rewrite token_name by exact ON. cbn [pbind]. rewrite endtag_suffix by apply ON.
  cbn [skip_to_gt]. rewrite beq_neq.
  2:{ intros ->. destruct ON as [_ ON]. apply Forall_cons_iff in ON as [ON _]. discriminate ON. }
  rewrite token_pending by discriminate. cbn [pbind].
  replace (skip_to_gt f2 [">"%char] (st0 rest2)) with (POk (st0 rest2)) by (now destruct f2).
  reflexivity.
Qed.
Lemma attr_gt : forall f rest sidx cm, attributes (S f) {| inp := rest; nxt := ">" |} sidx cm = POk (false, st0 rest, cm).
Proof. intros. cbn [attributes]. rewrite token_pending by discriminate. reflexivity. Qed.

Lemma pcont_kids : forall kids, Forall Pel kids -> Forall (okdoc okleaf) kids ->
  forall lvl f rest sidx content cm tc, f > length (concat (map (kidtext lvl) kids)) ->
  exists f', f' >= f - length (concat (map (kidtext lvl) kids)) /\
  pcont f (st0 (concat (map (kidtext lvl) kids) ++ rest)) sidx content cm tc =
  (let '(cm', tc') := records lvl sidx kids cm tc in
   pcont f' (st0 rest) sidx (content ++ concat (map (fun _ => ind lvl ++ eol) kids)) cm' tc').
Proof.
  induction kids as [|k kids IH]; intros HP HO lvl f rest sidx content cm tc F.
  - exists f. split; [cbn; lia|]. cbn. now rewrite app_nil_r.
  - apply Forall_cons_iff in HP as [HP1 HP2]. apply Forall_cons_iff in HO as [HO1 HO2].
    cbn [map concat] in *. rewrite app_length in F. unfold kidtext at 1 in F.
    pose proof (okdoc_name _ _ HO1) as ON.
    assert (1 <= length (xname k)) by (destruct ON as [ON _]; destruct (xname k); [congruence|cbn; lia]).
    rewrite !app_length in F. cbn [bs list_ascii_of_string length] in F.
    unfold kidtext at 1 3. rewrite <- !app_assoc.
    rewrite pcont_ws by (apply ind_ws || lia).
    set (f1 := f - length (ind lvl)). assert (F1 : f1 = f - length (ind lvl)) by reflexivity.
    destruct f1 as [|f1]; [lia|]. cbn [pcont].
    rewrite token_open by exact ON. cbn [pbind].
    change (beq (bs "<") (bs "</")) with false. change (beq (bs "<") (bs "<")) with true. cbv iota.
    rewrite token_name by exact ON. cbn [pbind].
    cbn [records]. rewrite (HP1 lvl); [|exact HO1|exists (sidx ++ [dot]); now rewrite <- app_assoc|lia].
    destruct (record lvl (sidx ++ dot :: xname k) k cm tc) as [cm1 tc1]. cbn [pbind].
    rewrite pcont_ws by (apply eol_ws || lia).
    destruct (IH HP2 HO2 lvl (f1 - length eol) rest sidx ((content ++ ind lvl) ++ eol) cm1 tc1) as (f' & F' & E); [lia|].
    exists f'. split.
    + rewrite !app_length. cbn [bs list_ascii_of_string length]. lia.
    + rewrite E. destruct (records lvl sidx kids cm1 tc1). rewrite <- !app_assoc. reflexivity.
Qed.

Lemma pelem_ok : forall t, Pel t.
Proof.
  apply xt_ind2.
  - intros n raw txt lvl f rest scope cm tc [ON OL] EW F.
    destruct f as [|f]; [lia|]. destruct f as [|f]; [lia|].
    cbn [Xml_Spec.body] in *. rewrite !app_length in F. cbn [bs list_ascii_of_string length] in F.
    rewrite <- !app_assoc. cbn [record]. cbv zeta.
    eapply pelem_close; [exact ON|exact EW|apply attr_gt| |reflexivity].
    rewrite (reads_ok _ _ OL) by lia. reflexivity.
  - intros n kids IH lvl f rest scope cm tc HO EW F. apply okdoc_node in HO as [ON HK].
    destruct f as [|f]; [lia|]. destruct f as [|f]; [lia|].
    assert (EB : body lvl (Node n kids) = eol ++ concat (map (kidtext (S lvl)) kids) ++ ind lvl ++ bs "</" ++ n ++ bs ">") by reflexivity.
    rewrite EB in *. rewrite !app_length in F. cbn [bs list_ascii_of_string length] in F.
    rewrite <- !app_assoc. rewrite record_node. cbv zeta.
    destruct (pcont_kids kids IH HK (S lvl) (S f - length eol) (ind lvl ++ bs "</" ++ n ++ bs ">" ++ rest)
      (idx scope (cnt tc scope)) ([] ++ eol) cm (mset bcmp scope (cnt tc scope + 1)%N tc)) as (f' & F' & E).
    { lia. }
    destruct (records (S lvl) (idx scope (cnt tc scope)) kids cm (mset bcmp scope (cnt tc scope + 1)%N tc)) as [cm2 tc2] eqn:ER.
    eapply pelem_close; [exact ON|exact EW|apply attr_gt| |reflexivity].
    rewrite pcont_ws by (apply eol_ws || lia). rewrite E.
    rewrite pcont_ws by (apply ind_ws || lia).
    rewrite (pcont_end _ _ _ _ _ _ (st0 (n ++ bs ">" ++ rest))); [|lia|apply token_close].
    cbn [app]. unfold Xml_Spec.spaces. rewrite <- app_assoc. reflexivity.
Qed.

Lemma skip_ws0_ok : forall ws f rest n, Forall (fun c => isspace c = true) ws -> okname n -> f > length ws ->
  skip_ws0 f (st0 (ws ++ bs "<" ++ n ++ rest)) = TTok (bs "<") (n ++ rest) nul.
Proof.
  induction ws as [|c ws IH]; intros f rest n H ON F.
  - destruct f as [|f]; [lia|]. cbn [app skip_ws0].
    pose proof (token_open n rest ON) as E. unfold token_no_eof in E.
    destruct (token (st0 (bs "<" ++ n ++ rest))) as [[|c t] i x| |]; try discriminate E.
    injection E as -> -> -> ->. reflexivity.
  - apply Forall_cons_iff in H as [H1 H2]. cbn [length] in F. destruct f as [|f]; [lia|]. cbn [app skip_ws0].
    pose proof (token_ws c (ws ++ bs "<" ++ n ++ rest) H1) as E. unfold token_no_eof in E.
    destruct (token (st0 (c :: ws ++ bs "<" ++ n ++ rest))) as [[|c0 t] i x| |]; try discriminate E.
    injection E as -> -> -> ->. cbn [all_space forallb]. rewrite H1. cbn [andb]. apply IH; auto; lia.
Qed.

(** Parsing a rendered document performs exactly the recordings of [record]; whatever
    follows the root element is not looked at. *)
Theorem parse_render : forall t rest cm tc, okdoc okleaf t ->
  parse (render pp 1 t ++ rest) cm tc = POk (record 1 (xname t) t cm tc).
Proof.
  intros t rest cm tc H. pose proof (okdoc_name _ _ H) as ON.
  unfold parse, render. rewrite <- !app_assoc.
  set (f := fuel_for _).
  assert (F : f = 3 + 2 * length (ind 1 ++ bs "<" ++ xname t ++ bs ">" ++ body 1 t ++ eol ++ rest)) by reflexivity.
  rewrite !app_length in F. cbn [bs list_ascii_of_string length] in F.
  change {| inp := ?s; nxt := nul |} with (st0 s).
  rewrite skip_ws0_ok by (apply ind_ws || exact ON || lia).
  change (beq (bs "<") (bs "<")) with true. cbn [bs list_ascii_of_string]. cbv iota.
  change {| inp := ?s; nxt := nul |} with (st0 s).
  change (">"%char :: ?x) with (bs ">" ++ x).
  rewrite token_name by exact ON. cbn [pbind].
  rewrite (pelem_ok t 1); [|exact H|exists []; reflexivity|lia].
  destruct (record 1 (xname t) t cm tc). reflexivity.
Qed.
End Parse.

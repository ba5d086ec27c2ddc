(** * The tokeniser on plain text: C52, completeness *)
From Verif Require Import Base Base_Proofs Desc_Model Tok_Model Tok_Props.

(** the characters of identifiers, numbers and keywords *)
Definition idchars : list ascii :=
  bs "0123456789ABCDEFGHIJKLMNOPQRSTUVWXYZabcdefghijklmnopqrstuvwxyz_".
Theorem C52_identifier_characters : forall c, isident c = true <-> In c idchars.
Proof.
  assert (A : forall c, eqb (isident c) (existsb (ceq c) idchars) = true).
  { intro c. rewrite <- (ascii_nat_embedding c).
    assert (H : forallb (fun n => eqb (isident (ascii_of_nat n)) (existsb (ceq (ascii_of_nat n)) idchars)) (seq 0 256) = true)
      by (vm_compute; reflexivity).
    rewrite forallb_forall in H. apply H. apply in_seq. pose proof (nat_ascii_bounded c). lia. }
  intro c. specialize (A c). apply eqb_prop in A. rewrite A, existsb_exists. split.
  - intros [x [I E]]. apply Ascii.eqb_eq in E. now subst.
  - intro I. exists c. split; [exact I|]. apply Ascii.eqb_refl.
Qed.
Example C52_identifier_characters_ex : isident "_"%char = true /\ isident "-"%char = false.
Proof. vm_compute. auto. Qed.
Print Assumptions C52_identifier_characters.

(** a word, an operator, or a string literal without escapes and brackets *)
Inductive plain_token : list ascii -> Prop :=
| pt_word : forall t, t <> [] -> Forall (fun c => In c idchars) t -> plain_token t
| pt_op : forall t, In t op_table -> t <> [bsl] -> plain_token t
| pt_string : forall q b, q = """"%char \/ q = "'"%char -> Forall (fun c => c <> q /\ c <> bsl /\ c <> "["%char) b ->
    plain_token (q :: b ++ [q]).
(** the white space characters *)
Definition blanks : list ascii := [" "; "009"; "010"; "011"; "012"; "013"]%char.
(** a text of tokens, each followed by one of them *)
Definition spaced (l : list (list ascii * ascii)) : list ascii := concat (map (fun p => fst p ++ [snd p]) l).

Lemma id_plain : forall c, In c idchars -> isident c = true /\ isspace c = false /\ ceq c "#" = false /\
  (ceq c """" || ceq c "'")%bool = false /\ strchr ops c = false /\ ceq c bsl = false /\ ceq c "[" = false.
Proof.
  intros c H.
  assert (A : forallb (fun c => isident c && negb (isspace c) && negb (ceq c "#") && negb (ceq c """" || ceq c "'") &&
    negb (strchr ops c) && negb (ceq c bsl) && negb (ceq c "["))%bool idchars = true) by (vm_compute; reflexivity).
  rewrite forallb_forall in A. specialize (A c H). rewrite !andb_true_iff, !negb_true_iff in A. intuition.
Qed.
Lemma blank_plain : forall c, In c blanks -> isident c = false /\ isspace c = true /\ ceq c bsl = false /\ ceq c "[" = false.
Proof.
  intros c H.
  assert (A : forallb (fun c => negb (isident c) && isspace c && negb (ceq c bsl) && negb (ceq c "["))%bool blanks = true) by (vm_compute; reflexivity).
  rewrite forallb_forall in A. specialize (A c H). rewrite !andb_true_iff, !negb_true_iff in A. intuition.
Qed.
Lemma gn_plain : forall x r, ceq x bsl = false -> ceq x "[" = false -> gn None (x :: r) = GC (Some x) r false [x].
Proof. intros x r A B. cbn [gn]. now rewrite A, B. Qed.

Lemma ident_word : forall xs y r f o tk lt tb, Forall (fun c => In c idchars) xs -> In y blanks ->
  length (xs ++ y :: r) < f -> forall x, In x idchars ->
  exists o', ident f (mktin (xs ++ y :: r) false (Some x) o tk lt tb) = TOk tt (mktin r false (Some y) o' (tk ++ x :: xs) lt tb).
Proof.
  induction xs as [|x' xs IH]; intros y r f o tk lt tb F Y L x X.
  - destruct f as [|f]; [cbn in L; lia|]. destruct f as [|f]; [cbn in L; lia|].
    cbn [ident]. unfold test at 1. cbn [cur]. rewrite (proj1 (id_plain x X)). unfold take, getnextc, addc.
    cbn [app settok rest ef cur out token lasttoken tokenBeforeLast].
    destruct (blank_plain y Y) as (A & B & C & D). rewrite (gn_plain y r C D). cbn [tbind].
    unfold test. cbn [cur]. rewrite A. eexists. reflexivity.
  - destruct f as [|f]; [cbn in L; lia|]. apply Forall_cons_iff in F as [F F'].
    cbn [ident]. unfold test. cbn [cur]. rewrite (proj1 (id_plain x X)). unfold take, getnextc, addc.
    cbn [app settok rest ef cur out token lasttoken tokenBeforeLast].
    destruct (id_plain x' F) as (_ & _ & _ & _ & _ & C & D). rewrite (gn_plain x' _ C D). cbn [tbind].
    destruct (IH y r f (o ++ [x']) (tk ++ [x]) lt tb F' Y) with (x := x') as [o' E]; [cbn in L; lia|exact F|].
    exists o'. rewrite E, <- app_assoc. reflexivity.
Qed.
Lemma strlit_body : forall q, q = """"%char \/ q = "'"%char -> forall b y r f o tk lt tb,
  Forall (fun c => c <> q /\ c <> bsl /\ c <> "["%char) b -> In y blanks ->
  length (b ++ q :: y :: r) < f -> forall x, x <> bsl ->
  exists o', strlit f q false (mktin (b ++ q :: y :: r) false (Some x) o tk lt tb) =
             TOk tt (mktin r false (Some y) o' (tk ++ x :: b ++ [q]) lt tb).
Proof.
  intros q Q. assert (Qp : ceq q bsl = false /\ ceq q "[" = false) by (destruct Q as [-> | ->]; split; reflexivity).
  destruct Qp as [Q1 Q2].
  assert (N : forall a b, a <> b -> ceq a b = false) by (intros a b H; now apply Ascii.eqb_neq).
  induction b as [|x' b IH]; intros y r f o tk lt tb F Y L x X.
  - destruct f as [|f]; [cbn in L; lia|]. cbn [strlit].
    unfold getnextc, addc. cbn [app settok rest ef cur out token lasttoken tokenBeforeLast].
    rewrite (gn_plain q _ Q1 Q2). cbn [tbind]. unfold is. cbn [cur]. rewrite (N _ _ X).
    replace (ceq q q) with true by (symmetry; apply Ascii.eqb_refl). cbn [negb orb andb].
    cbn [app settok rest ef cur out token lasttoken tokenBeforeLast].
    destruct (blank_plain y Y) as (_ & _ & C & D). rewrite (gn_plain y r C D). exists ((o ++ [q]) ++ [y]).
    rewrite <- (app_assoc tk). reflexivity.
  - destruct f as [|f]; [cbn in L; lia|]. apply Forall_cons_iff in F as [(F1 & F2 & F3) F'].
    cbn [strlit].
    unfold getnextc at 1, addc at 1. cbn [app settok rest ef cur out token lasttoken tokenBeforeLast].
    rewrite (gn_plain x' _ (N _ _ F2) (N _ _ F3)). cbn [tbind]. unfold is. cbn [cur]. rewrite (N _ _ X), (N _ _ F1). cbn [negb orb andb].
    destruct (IH y r f (o ++ [x']) (tk ++ [x]) lt tb F' Y) with (x := x') as [o' E]; [cbn in L; lia|exact F2|].
    exists o'. unfold addc. cbn [app settok rest ef cur out token lasttoken tokenBeforeLast]. rewrite E, <- (app_assoc tk). reflexivity.
Qed.
Lemma skipspace_one : forall w x l o tk lt tb, isspace w = true -> isspace x = false -> ceq x bsl = false -> ceq x "[" = false ->
  skipspace (mktin (x :: l) false (Some w) o tk lt tb) = TOk tt (mktin l false (Some x) (o ++ [x]) tk lt tb).
Proof.
  intros w x l o tk lt tb W X B C. unfold skipspace, bound. cbn [rest length while_ cur isspace_o]. rewrite W.
  unfold getnextc. cbn [rest]. rewrite (gn_plain x l B C).
  cbn [tbind token lasttoken tokenBeforeLast while_ cur isspace_o]. rewrite X. reflexivity.
Qed.
Lemma next_blank : forall w w' r o tk lt tb, In w blanks -> In w' blanks ->
  nexttok (mktin r false (Some w) o tk lt tb) = nexttok (mktin r false (Some w') o tk lt tb).
Proof.
  intros w w' r o tk lt tb W W'. unfold nexttok, bound. cbn [rest again]. unfold settok.
  cbn [rest ef cur out token lasttoken tokenBeforeLast]. unfold skipspace, bound. cbn [rest while_ cur isspace_o].
  now rewrite (proj1 (proj2 (blank_plain w W))), (proj1 (proj2 (blank_plain w' W'))).
Qed.
Lemma next_op : Forall (fun t => t <> [bsl] -> Forall (fun y => forall r o tk lt tb, exists o',
  nexttok (mktin (t ++ y :: r) false (Some " "%char) o tk lt tb) = TOk tt (mktin r false (Some y) o' t tk lt)) blanks) op_table.
Proof.
  unfold op_table, blanks. cbn [map app bs list_ascii_of_string].
  repeat match goal with
  | |- Forall _ [] => apply Forall_nil
  | |- Forall _ (_ :: _) => apply Forall_cons
  | |- _ <> [bsl] -> _ => let H := fresh in intro H; first [exfalso; apply H; reflexivity|clear H]
  end; intros; eexists; vm_compute; reflexivity.
Qed.
Lemma next_plain : forall t y, plain_token t -> In y blanks -> forall w r o tk lt tb, In w blanks -> exists o',
  nexttok (mktin (t ++ y :: r) false (Some w) o tk lt tb) = TOk tt (mktin r false (Some y) o' t tk lt).
Proof.
  intros t y P Y w r o tk lt tb W. destruct P as [t N F|t I NB|q b Q F].
  - destruct t as [|x xs]; [congruence|]. apply Forall_cons_iff in F as [X F].
    destruct (id_plain x X) as (P1 & P2 & P3 & P4 & P5 & P6 & P7).
    unfold nexttok, bound. cbn [app rest length again]. unfold settok. cbn [rest ef cur out token lasttoken tokenBeforeLast].
    rewrite (skipspace_one w x _ _ _ _ _ (proj1 (proj2 (blank_plain w W))) P2 P6 P7). cbn [tbind].
    unfold bound at 1. cbn [rest hashes]. unfold is. cbn [cur]. 
    destruct (length (xs ++ y :: r)) as [|k] eqn:K; [rewrite app_length in K; cbn in K; lia|].
    cbn [hashes]. unfold is. cbn [cur]. rewrite P3. cbn [tbind ef cur]. rewrite P4, P5, P1. cbn [negb].
    edestruct (ident_word xs y r (bound (mktin (xs ++ y :: r) false (Some x) (o ++ [x]) [] tk lt)) (o ++ [x]) [] tk lt) with (x := x) as [o' E];
      [exact F|exact Y|unfold bound; cbn [rest]; lia|exact X|].
    exists o'. exact E.
  - rewrite (next_blank w " "%char) by (try exact W; now left). pose proof next_op as H.
    rewrite Forall_forall in H. specialize (H t I NB). rewrite Forall_forall in H. apply (H y Y).
  - assert (P : isspace q = false /\ ceq q bsl = false /\ ceq q "[" = false /\ ceq q "#" = false /\ (ceq q """" || ceq q "'")%bool = true /\ q <> bsl)
      by (destruct Q as [-> | ->]; repeat split; (reflexivity || discriminate)).
    destruct P as (P1 & P2 & P3 & P4 & P5 & P6).
    replace ((q :: b ++ [q]) ++ y :: r) with (q :: (b ++ q :: y :: r)) by (cbn [app]; rewrite <- app_assoc; reflexivity).
    unfold nexttok, bound. cbn [app rest length again]. unfold settok. cbn [rest ef cur out token lasttoken tokenBeforeLast].
    rewrite (skipspace_one w q _ _ _ _ _ (proj1 (proj2 (blank_plain w W))) P1 P2 P3). cbn [tbind].
    unfold bound at 1. cbn [rest hashes].
    destruct (length (b ++ q :: y :: r)) as [|k] eqn:K; [rewrite app_length in K; cbn in K; lia|].
    cbn [hashes]. unfold is. cbn [cur]. rewrite P4. cbn [tbind ef cur]. rewrite P5.
    edestruct (strlit_body q Q b y r (bound (mktin (b ++ q :: y :: r) false (Some q) (o ++ [q]) [] tk lt)) (o ++ [q]) [] tk lt) with (x := q) as [o' E];
      [exact F|exact Y|unfold bound; cbn [rest]; lia|exact P6|].
    exists o'. exact E.
Qed.
Lemma lex_spaced : forall l, Forall (fun p => plain_token (fst p) /\ In (snd p) blanks) l ->
  forall f w o tk lt tb, In w blanks -> length l < f ->
  exists o', lex f (mktin (spaced l) false (Some w) o tk lt tb) = (map fst l, LEof o').
Proof.
  induction l as [|[t y] l IH]; intros F f w o tk lt tb W L.
  - destruct f as [|f]; [cbn in L; lia|]. cbn [spaced map concat lex].
    cbn in W. repeat (destruct W as [<-|W]; [eexists; vm_compute; reflexivity|]). destruct W.
  - destruct f as [|f]; [cbn in L; lia|]. apply Forall_cons_iff in F as [[F1 F2] F]. cbn [fst snd] in F1, F2.
    unfold spaced. cbn [map concat fst snd]. rewrite <- app_assoc. cbn [app]. fold (spaced l).
    destruct (next_plain t y F1 F2 w (spaced l) o tk lt tb W) as [o1 E]. cbn [lex]. rewrite E.
    destruct (IH F f y o1 t tk lt F2) as [o' E2]; [cbn in L; lia|]. cbn [token]. rewrite E2. exists o'. reflexivity.
Qed.
(** A text of words, operators and plain string literals, each followed by a blank, gives
    exactly those tokens, then end of file. *)
Theorem C52_plain_text : forall w l, In w blanks -> Forall (fun p => plain_token (fst p) /\ In (snd p) blanks) l ->
  exists o, lex_file (w :: spaced l) = (map fst l, LEof o).
Proof.
  intros w l W F. unfold lex_file, tok_init, getnextc. cbn [rest out token lasttoken tokenBeforeLast].
  destruct (blank_plain w W) as (_ & _ & C & D). rewrite (gn_plain w _ C D).
  apply lex_spaced; [exact F|exact W|]. cbn [length].
  clear - F. induction l as [|[t y] l IH]; [cbn; lia|]. apply Forall_cons_iff in F as [_ F].
  unfold spaced in *. cbn [map concat fst snd length]. rewrite !app_length. cbn [length]. specialize (IH F). lia.
Qed.
Example C52_plain_text_ex : exists l, length l = 5 /\ Forall (fun p => plain_token (fst p) /\ In (snd p) blanks) l /\
  map fst l = [bs "a_b1"; bs "->*"; bs "["; bs """x y"""; bs ";"] /\ fst (lex_file (" "%char :: spaced l)) = map fst l.
Proof.
  exists [(bs "a_b1", " "%char); (bs "->*", lf); (bs "[", " "%char); (bs """x y""", " "%char); (bs ";", lf)].
  split; [reflexivity|]. split; [|split; [reflexivity|vm_compute; reflexivity]].
  repeat apply Forall_cons; try apply Forall_nil; (split; [|cbn; intuition]).
  - apply pt_word; [discriminate|]. repeat apply Forall_cons; try apply Forall_nil; cbn; intuition.
  - apply pt_op; [cbn; intuition|discriminate].
  - apply pt_op; [cbn; intuition|discriminate].
  - refine (pt_string """"%char (bs "x y") (or_introl eq_refl) _). repeat apply Forall_cons; try apply Forall_nil; repeat split; discriminate.
  - apply pt_op; [cbn; intuition|discriminate].
Qed.
Print Assumptions C52_plain_text.

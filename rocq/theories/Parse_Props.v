(** * Properties of the token-level helpers (C53, C54, C55, C66) *)
From Verif Require Import Base Base_Proofs SMap Desc_Model Tok_Model Parse_Model.

(** ** Specification *)
(** a balanced sequence of tokens for the delimiters [l] and [r] *)
Inductive bal (l r : tok) : list tok -> Prop :=
| bal_nil : bal l r []
| bal_tok t ts : t <> l -> t <> r -> bal l r ts -> bal l r (t :: ts)
| bal_nest b ts : bal l r b -> bal l r ts -> bal l r (l :: b ++ r :: ts).
(** the tokens as text, each followed by a space *)
Definition txt (ts : list tok) : list ascii := concat (map (fun t => t ++ [" "%char]) ts).
(** the input after reading [n] further tokens *)
Fixpoint after (n : nat) (i : inp) : inp :=
  match n with
  | O => i
  | S n => match more i with [] => i | t :: m => after n (Inp (tk1 i) (tk i) t m) end
  end.

(** ** C53 *)
Lemma beqP (a b : tok) : reflect (a = b) (beq a b).
Proof.
  destruct (beq a b) eqn:E; constructor.
  - now apply beq_eq.
  - intros ->. rewrite beq_refl in E. discriminate.
Qed.
Lemma txt_app a b : txt (a ++ b) = txt a ++ txt b.
Proof. unfold txt. now rewrite map_app, concat_app. Qed.
Lemma txt_cons a b : txt (a :: b) = a ++ [" "%char] ++ txt b.
Proof. unfold txt. cbn [map concat]. now rewrite <- app_assoc. Qed.
Lemma bal_app l r a b : bal l r a -> bal l r b -> bal l r (a ++ b).
Proof.
  induction 1; intros; cbn; auto using bal_tok.
  rewrite <- app_assoc. cbn. now apply bal_nest; auto.
Qed.

Definition nodbl (l : tok) (ts : list tok) : Prop := l = bs "<" -> ~ In (bs ">>") ts.

Lemma nodbl_test l u ts : nodbl l (u :: ts) -> (teq u ">>" && teq l "<")%bool = false.
Proof.
  intros H. unfold teq. destruct (beqP u (bs ">>")); [|reflexivity].
  destruct (beqP l (bs "<")); [|reflexivity]. exfalso. apply (H e0). left. auto.
Qed.

Lemma after_add k m i : after (k + m) i = after m (after k i).
Proof.
  revert m i. induction k as [|k IH]; intros m [z2 z1 z z0]; [reflexivity|].
  cbn [Nat.add after more tk1 tk]. destruct z0; [|apply IH]. destruct m; reflexivity.
Qed.
Lemma gob_bal l r b : l <> r -> bal l r b -> forall ts t1 t c acc, (0 <= c)%Z -> nodbl l b ->
  exists t1' t', gob l r (b ++ ts) t1 t c acc = gob l r ts t1' t' c (acc ++ txt b)
    /\ (forall x, exists x', after (length b) (Inp x t1 t (b ++ ts)) = Inp x' t1' t' ts).
Proof.
  intros LR. induction 1; intros ts0 t1 t' c acc C ND.
  - exists t1, t'. split; [unfold txt; cbn; now rewrite app_nil_r|]. intros x. exists x. reflexivity.
  - cbn [app gob]. rewrite (nodbl_test _ _ _ ND).
    destruct (beqP t r); [congruence|]. destruct (beqP t l); [congruence|]. cbn [andb].
    edestruct (IHbal ts0 t' t c) as (a & d & E & A); [assumption| intros Q I; apply (ND Q); right; exact I|].
    exists a, d. split; [rewrite E, txt_cons; f_equal; now rewrite <- !app_assoc|]. intros x. cbn [length after more Parse_Model.tk1 Parse_Model.tk]. apply A.
  - cbn [app gob]. rewrite (nodbl_test _ _ _ ND).
    destruct (beqP l r); [congruence|]. rewrite beq_refl. cbn [andb].
    rewrite <- app_assoc. cbn [app].
    assert (N1 : nodbl l b) by (intros Q I; apply (ND Q); right; apply in_or_app; auto).
    assert (N2 : nodbl l (r :: ts)) by (intros Q I; apply (ND Q); right; apply in_or_app; right; exact I).
    edestruct (IHbal1 (r :: ts ++ ts0) t' l (c + 1)%Z) as (a & d & E & A); [lia|exact N1|].
    rewrite E. cbn [gob].
    replace (c + 1 <=? 0)%Z with false by (symmetry; apply Z.leb_gt; lia).
    rewrite (nodbl_test _ _ _ N2), andb_false_r, beq_refl.
    destruct (beqP r l); [congruence|].
    replace (c + 1 - 1)%Z with c by lia.
    edestruct (IHbal2 ts0 d r c) as (a' & d' & E' & A'); [assumption| intros Q I; apply (N2 Q); right; exact I|].
    exists a', d'. split.
    + rewrite E'. f_equal. rewrite !txt_cons, txt_app, txt_cons. rewrite <- !app_assoc. reflexivity.
    + intros x. cbn [length after more Parse_Model.tk1 Parse_Model.tk].
      rewrite app_length. cbn [length].
      rewrite after_add. destruct (A t1) as (x' & ->). cbn [after more Parse_Model.tk1 Parse_Model.tk]. apply A'.
Qed.

(** it stops at the delimiter that closes the one it started in, having collected what is between *)
Theorem C53_stops : forall l r i body rest,
  bs l <> bs r -> tk i <> bs l ++ bs r -> bal (bs l) (bs r) body -> nodbl (bs l) body ->
  more i = body ++ bs r :: rest ->
  gobble l r i = POk (tk1 i ++ [" "%char] ++ tk i ++ [" "%char] ++ txt body) (after (S (length body)) i)
  /\ more (after (S (length body)) i) = rest /\ tk (after (S (length body)) i) = bs r.
Proof.
  intros l r [t2 t1 t m] body rest LR TK B ND M. cbn [more tk tk1] in *. subst m.
  unfold gobble. cbn [tk tk1 more].
  destruct (beqP t (bs l ++ bs r)); [congruence|].
  destruct (gob_bal (bs l) (bs r) body LR B (bs r :: rest) t1 t 0%Z (t1 ++ [" "%char] ++ t ++ [" "%char])) as (a & d & E & A); [lia|assumption|].
  rewrite E. cbn [gob]. rewrite beq_refl. cbn [andb Z.leb].
  destruct (A t2) as (x' & A').
  replace (S (length body)) with (length body + 1)%nat by lia.
  rewrite after_add, A'. cbn [after more tk tk1]. split; [|split; reflexivity].
  f_equal. now rewrite <- !app_assoc.
Qed.
(** the pair written as one token *)
Theorem C53_pair : forall l r i, tk i = bs l ++ bs r ->
  gobble l r i = POk (tk1 i ++ [" "%char] ++ tk i ++ [" "%char]) i.
Proof. intros. unfold gobble. rewrite H, beq_refl. reflexivity. Qed.

(** [n] + 1 balanced sequences separated by closing delimiters *)
Inductive baln (l r : tok) : nat -> list tok -> Prop :=
| baln_0 b : bal l r b -> baln l r 0 b
| baln_S n b b' : bal l r b -> baln l r n b' -> baln l r (S n) (b ++ r :: b').
Lemma baln_pre l r n x b : bal l r x -> baln l r n b -> baln l r n (x ++ b).
Proof.
  intros X B. inversion B; subst.
  - apply baln_0. now apply bal_app.
  - rewrite app_assoc. apply baln_S; auto. now apply bal_app.
Qed.
Lemma gob_only l r : l <> r -> forall ts t1 t n acc a j, nodbl l ts ->
  gob l r ts t1 t (Z.of_nat n) acc = POk a j ->
  exists body rest, ts = body ++ r :: rest /\ baln l r n body.
Proof.
  intros LR. induction ts as [|u m IH]; intros t1 t n acc a j ND H; [discriminate|].
  cbn [gob] in H. rewrite (nodbl_test _ _ _ ND) in H.
  assert (ND' : nodbl l m) by (intros Q X; apply (ND Q); right; exact X).
  destruct (beqP u r) as [->|UR].
  - destruct n as [|n].
    + exists [], m. split; [reflexivity|]. apply baln_0, bal_nil.
    + replace (Z.of_nat (S n) <=? 0)%Z with false in H by (symmetry; apply Z.leb_gt; lia).
      cbn [andb] in H. destruct (beqP r l); [congruence|].
      replace (Z.of_nat (S n) - 1)%Z with (Z.of_nat n) in H by lia.
      destruct (IH _ _ _ _ _ _ ND' H) as (b & rs & -> & B).
      exists (r :: b), rs. split; [reflexivity|]. apply (baln_S l r n [] b); [apply bal_nil|assumption].
  - cbn [andb] in H. destruct (beqP u l) as [->|UL].
    + replace (Z.of_nat n + 1)%Z with (Z.of_nat (S n)) in H by lia.
      destruct (IH _ _ _ _ _ _ ND' H) as (b & rs & -> & B).
      exists (l :: b), rs. split; [reflexivity|]. inversion B; subst.
      replace (l :: b0 ++ r :: b') with ((l :: b0 ++ r :: []) ++ b') by (cbn; now rewrite <- app_assoc).
      apply baln_pre; [|assumption]. apply bal_nest; [assumption|apply bal_nil].
    + destruct (IH _ _ _ _ _ _ ND' H) as (b & rs & -> & B).
      exists (u :: b), rs. split; [reflexivity|].
      apply (baln_pre l r n [u] b); [|assumption]. apply bal_tok; auto. apply bal_nil.
Qed.
(** whenever it stops, what it skipped was balanced: there is no other place to stop *)
Theorem C53_only : forall l r i a j,
  bs l <> bs r -> tk i <> bs l ++ bs r -> nodbl (bs l) (more i) -> gobble l r i = POk a j ->
  exists body rest, more i = body ++ bs r :: rest /\ bal (bs l) (bs r) body
    /\ j = after (S (length body)) i /\ more j = rest.
Proof.
  intros l r i a j LR TK ND H.
  assert (H' := H). unfold gobble in H'. destruct (beqP (tk i) (bs l ++ bs r)); [congruence|].
  destruct (gob_only _ _ LR _ _ _ 0 _ _ _ ND H') as (b & rs & E & B). inversion B; subst.
  assert (N1 : nodbl (bs l) b) by (intros Q X; apply (ND Q); rewrite E; apply in_or_app; auto).
  destruct (C53_stops l r i b rs LR TK H0 N1 E) as (G & M & _).
  rewrite G in H. assert (j = after (S (length b)) i) by congruence. subst j. eauto 8.
Qed.
(** it meets the end of the file exactly when the delimiter is not closed *)
Theorem C53_eof : forall l r i,
  bs l <> bs r -> tk i <> bs l ++ bs r -> nodbl (bs l) (more i) ->
  gobble l r i = PEof <-> ~ exists body rest, more i = body ++ bs r :: rest /\ bal (bs l) (bs r) body.
Proof.
  intros l r i LR TK ND. split.
  - intros H (b & rs & E & B).
    assert (N1 : nodbl (bs l) b) by (intros Q X; apply (ND Q); rewrite E; apply in_or_app; auto).
    destruct (C53_stops l r i b rs LR TK B N1 E) as (G & _). congruence.
  - intros H. destruct (gobble l r i) as [a j| |] eqn:G; [exfalso|reflexivity|exfalso].
    + destruct (C53_only l r i a j LR TK ND G) as (b & rs & E & B & _). eauto.
    + assert (F : forall l r ts t1 t c acc, gob l r ts t1 t c acc <> PFuel).
      { clear. induction ts as [|u m IH]; intros; cbn [gob]; [discriminate|].
        destruct (_ && _)%bool; [discriminate|]. destruct (_ && _)%bool; [destruct (_ <=? _)%Z; [discriminate|]|]; apply IH. }
      unfold gobble in G. destruct (beq _ _); [discriminate|]. now apply F in G.
Qed.
Example C53_ex : gobble "(" ")" (Inp [] (bs "f") (bs "(") (map bs ["a"; "("; "b"; ")"; "()"; ")"; ";"]%string))
  = POk (bs "f ( a ( b ) () ") (Inp (bs ")") (bs "()") (bs ")") [bs ";"])
  /\ bal (bs "(") (bs ")") (map bs ["a"; "("; "b"; ")"; "()"]%string).
Proof.
  split; [vm_compute; reflexivity|].
  apply bal_tok; [discriminate|discriminate|].
  apply (bal_nest (bs "(") (bs ")") [bs "b"] [bs "()"]); (apply bal_tok; [discriminate|discriminate|apply bal_nil]).
Qed.

(** angle brackets with the token [>>], which closes two *)
Definition ang (t : tok) : Z := if teq t "<" then 1 else if teq t ">" then -1 else if teq t ">>" then -2 else 0.
Fixpoint angs (ts : list tok) : Z := match ts with [] => 0 | t :: ts => (ang t + angs ts)%Z end.
(** [d] brackets are open; the number of tokens up to and with the one that closes them all *)
Fixpoint closes (d : Z) (ts : list tok) : option nat :=
  match ts with
  | [] => None
  | t :: ts => if (d + ang t <=? 0)%Z then Some 1%nat else option_map S (closes (d + ang t) ts)
  end.
Lemma gob_angle : forall ts x t1 t c acc, (0 <= c)%Z ->
  (forall p q, ts = p ++ bs ">>" :: q -> (c + 1 + angs p)%Z <> 3%Z) ->
  match closes (c + 1) ts with
  | Some n => exists a, gob (bs "<") (bs ">") ts t1 t c acc = POk a (after n (Inp x t1 t ts))
  | None => gob (bs "<") (bs ">") ts t1 t c acc = PEof
  end.
Proof.
  induction ts as [|u m IH]; intros x t1 t c acc C H; [reflexivity|].
  cbn [closes gob]. unfold ang at 1 2. unfold teq.
  assert (STEP : forall c', (0 <= c')%Z -> (c' = c + ang u)%Z ->
     match option_map S (closes (c' + 1) m) with
     | Some n => exists a, gob (bs "<") (bs ">") m t u c' (acc ++ u ++ [" "%char]) = POk a (after n (Inp x t1 t (u :: m)))
     | None => gob (bs "<") (bs ">") m t u c' (acc ++ u ++ [" "%char]) = PEof
     end).
  { intros c' C' EC.
    assert (IH' := IH t1 t u c' (acc ++ u ++ [" "%char]) C').
    destruct (closes (c' + 1) m); cbn [option_map after more tk1 tk].
    - apply IH'. intros p q E. specialize (H (u :: p) q). cbn [app angs] in H. rewrite E in H.
      specialize (H eq_refl). lia.
    - apply IH'. intros p q E. specialize (H (u :: p) q). cbn [app angs] in H. rewrite E in H.
      specialize (H eq_refl). lia. }
  unfold ang, teq in STEP.
  destruct (beqP u (bs "<")) as [->|U1].
  - replace (beq (bs "<") (bs ">")) with false by reflexivity. replace (beq (bs "<") (bs ">>")) with false by reflexivity.
    cbn [andb]. replace (c + 1 + 1 <=? 0)%Z with false by (symmetry; apply Z.leb_gt; lia).
    apply (STEP (c + 1)%Z); [lia|]. lia.
  - destruct (beqP u (bs ">")) as [->|U2].
    + replace (beq (bs ">") (bs ">>")) with false by reflexivity. cbn [andb].
      destruct (c <=? 0)%Z eqn:C0.
      * replace (c + 1 + -1 <=? 0)%Z with true by (symmetry; apply Z.leb_le; lia).
        eexists. reflexivity.
      * replace (c + 1 + -1 <=? 0)%Z with false by (symmetry; apply Z.leb_gt; lia).
        replace (c + 1 + -1)%Z with (c - 1 + 1)%Z by lia. apply STEP; [lia|].
        lia.
    + cbn [andb]. destruct (beqP u (bs ">>")) as [->|U3].
      * replace (beq (bs "<") (bs "<")) with true by reflexivity. cbn [andb].
        assert (c <> 2)%Z by (specialize (H [] m eq_refl); cbn [angs] in H; lia).
        destruct (c - 2 <=? 0)%Z eqn:C0.
        -- replace (c + 1 + -2 <=? 0)%Z with true by (symmetry; apply Z.leb_le; lia). eexists; reflexivity.
        -- replace (c + 1 + -2 <=? 0)%Z with false by (symmetry; apply Z.leb_gt; lia).
           replace (c + 1 + -2)%Z with (c - 2 + 1)%Z by lia. apply STEP; [lia|].
           lia.
      * cbn [andb]. rewrite Z.add_0_r.
        replace (c + 1 <=? 0)%Z with false by (symmetry; apply Z.leb_gt; lia).
        apply STEP; [lia|].
        lia.
Qed.
(** correct for angle brackets unless [>>] comes when exactly three are open *)
Theorem C53_angle : forall i, tk i <> bs "<>" ->
  (forall p q, more i = p ++ bs ">>" :: q -> (1 + angs p)%Z <> 3%Z) ->
  match closes 1 (more i) with
  | Some n => exists a, gobble "<" ">" i = POk a (after n i)
  | None => gobble "<" ">" i = PEof
  end.
Proof.
  intros [t2 t1 t m] T H. cbn [more tk] in *. unfold gobble. cbn [tk tk1 more].
  destruct (beqP t (bs "<" ++ bs ">")); [exfalso; apply T; subst; reflexivity|].
  exact (gob_angle m t2 t1 t 0%Z _ (Z.le_refl 0) H).
Qed.
(** with three open brackets [>>] ends the scan although one is still open: in A<B<C<D>>,E> x; the
    scan stops before the comma *)
Theorem C53_angle_refuted : exists i, more i = map bs ["B"; "<"; "C"; "<"; "D"; ">>"; ","; "E"; ">"; "x"; ";"]%string
  /\ closes 1 (more i) = Some 9%nat /\ exists a, gobble "<" ">" i = POk a (after 6 i).
Proof.
  exists (Inp [] (bs "A") (bs "<") (map bs ["B"; "<"; "C"; "<"; "D"; ">>"; ","; "E"; ">"; "x"; ";"]%string)).
  split; [reflexivity|]. split; [vm_compute; reflexivity|]. eexists. vm_compute. reflexivity.
Qed.
Example C53_angle_ex : exists i, closes 1 (more i) = Some 4%nat /\
  (forall p q, more i = p ++ bs ">>" :: q -> (1 + angs p)%Z <> 3%Z).
Proof.
  exists (Inp [] (bs "A") (bs "<") (map bs ["B"; "<"; "C"; ">>"; "x"]%string)). split; [vm_compute; reflexivity|].
  intros p q E. cbn [more] in E.
  destruct p as [|? [|? [|? [|? [|? [|? ?]]]]]]; cbn in E; try discriminate E; injection E; intros; subst; vm_compute; discriminate.
Qed.

(** ** get_template_args *)
(** a default argument: tokens and bracketed groups *)
Inductive dflt : list tok -> Prop :=
| d_nil : dflt []
| d_tok t ts : t <> [] -> strchr "<>," (first t) = false -> dflt ts -> dflt (t :: ts)
| d_group b ts : bal (bs "<") (bs ">") b -> ~ In (bs ">>") b -> dflt ts -> dflt (bs "<" :: b ++ bs ">" :: ts).
(** a list of template parameters, and the same with the default arguments left out *)
Inductive tpl : list tok -> list tok -> Prop :=
| t_nil : tpl [] []
| t_tok t ts ks : strchr "=<>" (first t) = false -> tpl ts ks -> tpl (t :: ts) (t :: ks)
| t_nest b kb ts ks : tpl b kb -> tpl ts ks -> tpl (bs "<" :: b ++ bs ">" :: ts) (bs "<" :: kb ++ bs ">" :: ks)
| t_dflt e d ts ks : first e = "="%char -> dflt d -> tpl ts ks ->
    (ts = [] \/ exists ts', ts = bs "," :: ts') -> tpl (e :: d ++ ts) ks.
Definition ttxt (ts : list tok) : list ascii :=
  concat (map (fun t => t ++ (if teq t "." then [] else [" "%char])) ts).
(** the input with the tokens [ts] ahead, the first of them being the current token *)
Definition at_ (t2 t1 : tok) (ts : list tok) : inp :=
  match ts with [] => Inp t2 t1 [] [] | t :: m => Inp t2 t1 t m end.

Lemma ttxt_cons t ts : ttxt (t :: ts) = t ++ (if teq t "." then [] else [" "%char]) ++ ttxt ts.
Proof. unfold ttxt. cbn [map concat]. now rewrite <- app_assoc. Qed.
Lemma ttxt_app a b : ttxt (a ++ b) = ttxt a ++ ttxt b.
Proof. unfold ttxt. now rewrite map_app, concat_app. Qed.

Lemma skipdef_dflt d : dflt d -> forall f t2 t1 x tl, strchr ">," (first x) = true -> (length (d ++ x :: tl) <= f)%nat ->
  exists t2' t1', skipdef f (at_ t2 t1 (d ++ x :: tl)) = POk tt (Inp t2' t1' x tl).
Proof.
  induction 1; intros f t2 t1 x tl X F; cbn [app length] in F; (destruct f as [|f]; [lia|]).
  - cbn [app at_ skipdef tk]. rewrite X. eauto.
  - cbn [app at_ skipdef tk].
    assert (S1 : strchr ">," (first t) = false /\ ceq (first t) "<" = false).
    { unfold strchr, mem in *. cbn in *. destruct (ceq (first t) zero), (ceq (first t) "<"), (ceq (first t) ">"), (ceq (first t) ","); auto. }
    destruct S1 as [-> ->]. cbn [pbind next more].
    destruct ts as [|u ts]; cbn [app].
    + edestruct (IHdflt f t1 t x tl) as (a & b & E); [assumption|cbn in *; lia|]. cbn [app at_] in E. eauto.
    + edestruct (IHdflt f t1 t x tl) as (a & b & E); [assumption|cbn in *; lia|]. cbn [app at_] in E. eauto.
  - cbn [app at_ skipdef tk]. replace (strchr ">," (first (bs "<"))) with false by reflexivity.
    replace (ceq (first (bs "<")) "<") with true by reflexivity.
    rewrite <- app_assoc. cbn [app].
    destruct (C53_stops "<" ">" (Inp t2 t1 (bs "<") (b ++ bs ">" :: ts ++ x :: tl)) b (ts ++ x :: tl)) as (G & MM & TT);
      [discriminate|discriminate|assumption| intros _; assumption|reflexivity|].
    rewrite G. cbn [pbind].
    destruct (after (S (length b)) _) as [a2 a1 a am]. cbn [more tk] in MM, TT. subst a am.
    unfold next at 1. cbn [more].
    rewrite app_length in F. cbn [length] in F. rewrite app_length in F. cbn [length] in F.
    destruct ts as [|u ts]; cbn [app pbind tk1 tk].
    + edestruct (IHdflt f a1 (bs ">") x tl) as (p & q & E); [assumption|cbn in *; lia|]. cbn [app at_] in E. eauto.
    + edestruct (IHdflt f a1 (bs ">") x tl) as (p & q & E); [assumption|rewrite app_length; cbn in *; lia|]. cbn [app at_] in E. eauto.
Qed.

Lemma gta_tpl ts ks : tpl ts ks -> forall f t2 t1 ac targs x tl, (0 < ac)%Z -> strchr ">," (first x) = true ->
  (length (ts ++ x :: tl) <= f)%nat ->
  exists f' t2' t1', gta f ac targs (at_ t2 t1 (ts ++ x :: tl)) = gta f' ac (targs ++ ttxt ks) (Inp t2' t1' x tl)
    /\ (length (x :: tl) <= f')%nat.
Proof.
  induction 1; intros f t2 t1 ac targs x tl AC X F.
  - exists f, t2, t1. cbn [app at_]. unfold ttxt. cbn. rewrite app_nil_r. auto.
  - cbn [app length] in F. destruct f as [|f]; [lia|]. cbn [app at_ gta tk].
    assert (S1 : ceq (first t) "=" = false /\ ceq (first t) "<" = false /\ ceq (first t) ">" = false).
    { unfold strchr, mem in H. cbn in H. destruct (ceq (first t) zero), (ceq (first t) "<"), (ceq (first t) ">"), (ceq (first t) "="); auto. }
    destruct S1 as (-> & S2 & S3). cbn [pbind tk]. rewrite S2, S3.
    replace (ac =? 0)%Z with false by (symmetry; apply Z.eqb_neq; lia).
    assert (N : exists u m, ts ++ x :: tl = u :: m) by (destruct ts; cbn; eauto).
    destruct N as (u & m & N). unfold next. cbn [more tk1 tk]. rewrite N. cbn [pbind].
    edestruct (IHtpl f t1 t ac (targs ++ t ++ (if teq t "." then [] else [" "%char])) x tl) as (f' & a & b & E & L);
      [assumption|assumption|rewrite N in *; cbn in *; lia|].
    rewrite N in E. cbn [at_] in E. rewrite E. exists f', a, b. split; [|assumption].
    f_equal. rewrite ttxt_cons. now rewrite <- !app_assoc.
  - cbn [app length] in F. destruct f as [|f]; [lia|]. cbn [app at_ gta tk].
    replace (ceq (first (bs "<")) "=") with false by reflexivity. cbn [pbind tk].
    replace (ceq (first (bs "<")) "<") with true by reflexivity.
    replace (teq (bs "<") ".") with false by reflexivity.
    replace (Z.of_nat (length (bs "<"))) with 1%Z by reflexivity.
    replace (ac + 1 =? 0)%Z with false by (symmetry; apply Z.eqb_neq; lia).
    rewrite <- app_assoc in *. cbn [app] in *.
    assert (N : exists u m, b ++ bs ">" :: ts ++ x :: tl = u :: m) by (destruct b; cbn [app]; eauto).
    destruct N as (u & m & N). unfold next. cbn [more tk1 tk]. rewrite N. cbn [pbind].
    edestruct (IHtpl1 f t1 (bs "<") (ac + 1)%Z (targs ++ bs "<" ++ [" "%char]) (bs ">") (ts ++ x :: tl)) as (f' & a & d & E & L);
      [lia|reflexivity|lia|].
    rewrite N in E. cbn [at_] in E. rewrite E. clear E N.
    cbn [length] in L. destruct f' as [|f']; [lia|]. cbn [gta tk].
    replace (ceq (first (bs ">")) "=") with false by reflexivity. cbn [pbind tk].
    replace (ceq (first (bs ">")) "<") with false by reflexivity.
    replace (ceq (first (bs ">")) ">") with true by reflexivity.
    replace (teq (bs ">") ".") with false by reflexivity.
    replace (Z.of_nat (length (bs ">"))) with 1%Z by reflexivity.
    replace (ac + 1 - 1)%Z with ac by lia.
    replace (ac =? 0)%Z with false by (symmetry; apply Z.eqb_neq; lia).
    assert (N : exists u m, ts ++ x :: tl = u :: m) by (destruct ts; cbn; eauto).
    destruct N as (u' & m' & N). unfold next. cbn [more tk1 tk]. rewrite N. cbn [pbind].
    edestruct (IHtpl2 f' d (bs ">") ac (((targs ++ bs "<" ++ [" "%char]) ++ ttxt kb) ++ bs ">" ++ [" "%char]) x tl) as (f'' & a' & d' & E & L');
      [assumption|assumption|rewrite N in *; cbn in *; lia|].
    rewrite N in E. cbn [at_] in E. rewrite E. exists f'', a', d'. split; [|assumption].
    f_equal. rewrite ttxt_cons, ttxt_app, ttxt_cons.
    replace (teq (bs "<") ".") with false by reflexivity. replace (teq (bs ">") ".") with false by reflexivity.
    now rewrite <- !app_assoc.
  - (* a default argument: the same turn goes on with the token that ends it *)
    assert (TERM : exists y tl', ts ++ x :: tl = y :: tl' /\ strchr ">," (first y) = true).
    { destruct H2 as [->|(ts' & ->)]; cbn [app]; eexists _, _; split; try reflexivity; assumption. }
    destruct TERM as (y & tl' & N & Y).
    cbn [app] in F |- *. rewrite <- app_assoc. rewrite <- app_assoc in F. rewrite N. rewrite N in F.
    assert (FF := F). cbn [app length] in F. destruct f as [|f]; [lia|].
    edestruct (skipdef_dflt d H0 (length (d ++ y :: tl')) t1 e y tl' Y) as (a & b & E0); [lia|].
    edestruct (IHtpl (S f) a b ac targs x tl) as (f' & a' & b' & EE & L);
      [assumption|assumption|rewrite N; cbn [length]; rewrite app_length in F; cbn [length] in F; lia|].
    exists f', a', b'. split; [|assumption]. rewrite <- EE. rewrite N. cbn [app at_].
    assert (SD : skipdef (pbound (Inp t2 t1 e (d ++ y :: tl'))) (Inp t2 t1 e (d ++ y :: tl')) = POk tt (Inp a b y tl')).
    { unfold pbound. cbn [more].
      assert (N' : exists u m, d ++ y :: tl' = u :: m) by (destruct d; cbn; eauto).
      destruct N' as (u & m & N'). rewrite N' in *. cbn [at_] in *. 
      change (skipdef (S (length (u :: m))) (Inp t2 t1 e (u :: m)))
        with (if strchr ">," (first e) then POk tt (Inp t2 t1 e (u :: m)) else
              pbind (if ceq (first e) "<" then pbind (gobble "<" ">" (Inp t2 t1 e (u :: m))) (fun _ i => POk tt i) else POk tt (Inp t2 t1 e (u :: m)))
              (fun _ i => pbind (next i) (fun _ i => skipdef (length (u :: m)) i))).
      rewrite H. replace (strchr ">," "=") with false by reflexivity.
      replace (ceq "=" "<") with false by reflexivity. cbn [pbind next more tk1 tk]. exact E0. }
    cbn [gta tk]. rewrite H. replace (ceq "=" "=") with true by reflexivity. rewrite SD. cbn [pbind tk].
    replace (ceq (first y) "=") with false; [reflexivity|].
    symmetry. unfold strchr, mem in Y. cbn in Y. unfold ceq in *.
    destruct (Ascii.eqb_spec (first y) "="); [|reflexivity]. rewrite e0 in Y. discriminate Y.
Qed.
(** the template parameters are collected up to the bracket that closes them, without their default
    arguments, and the current token is the one after it *)
Theorem C53_template : forall t2 t1 ts ks nx rest, tpl ts ks ->
  exists t2' t1', get_template_args (Inp t2 t1 (bs "<") (ts ++ bs ">" :: nx :: rest))
    = POk (ttxt (bs "<" :: ks ++ [bs ">"])) (Inp t2' t1' nx rest).
Proof.
  intros t2 t1 ts ks nx rest T. unfold get_template_args, pbound. cbn [more].
  cbn [gta tk]. replace (ceq (first (bs "<")) "=") with false by reflexivity. cbn [pbind tk].
  replace (ceq (first (bs "<")) "<") with true by reflexivity.
  replace (teq (bs "<") ".") with false by reflexivity.
  replace (Z.of_nat (length (bs "<"))) with 1%Z by reflexivity.
  replace (0 + 1)%Z with 1%Z by reflexivity. replace (1 =? 0)%Z with false by reflexivity.
  assert (N : exists u m, ts ++ bs ">" :: nx :: rest = u :: m) by (destruct ts; cbn [app]; eauto).
  destruct N as (u & m & N). unfold next. cbn [more tk1 tk].
  destruct (gta_tpl ts ks T (length (ts ++ bs ">" :: nx :: rest)) t1 (bs "<") 1%Z ([] ++ bs "<" ++ [" "%char]) (bs ">") (nx :: rest)) as (f' & a & b & E & L);
    [lia|reflexivity|lia|].
  rewrite N in *. cbn [pbind]. cbn [at_] in E. rewrite E.
  cbn [length] in L. destruct f' as [|f']; [lia|]. cbn [gta tk].
  replace (ceq (first (bs ">")) "=") with false by reflexivity. cbn [pbind tk].
  replace (ceq (first (bs ">")) "<") with false by reflexivity.
  replace (ceq (first (bs ">")) ">") with true by reflexivity.
  replace (teq (bs ">") ".") with false by reflexivity.
  replace (1 - Z.of_nat (length (bs ">")) =? 0)%Z with true by reflexivity.
  cbn [next more pbind tk tk1]. exists b, (bs ">"). f_equal.
  rewrite ttxt_cons, ttxt_app, ttxt_cons. replace (teq (bs "<") ".") with false by reflexivity. replace (teq (bs ">") ".") with false by reflexivity.
  unfold ttxt at 2. cbn [map concat app]. rewrite <- ?app_assoc. cbn [app]. now rewrite ?app_nil_r.
Qed.
Example C53_template_ex :
  get_template_args (Inp [] [] (bs "<") (map bs ["class"; "T"; "="; "A"; "<"; "int"; ">"; ","; "int"; "N"; "="; "3"; ">"; "class"; "C"]%string))
  = POk (bs "< class T , int N > ") (Inp (bs "3") (bs ">") (bs "class") [bs "C"])
  /\ tpl (map bs ["class"; "T"; "="; "A"; "<"; "int"; ">"; ","; "int"; "N"; "="; "3"]%string) (map bs ["class"; "T"; ","; "int"; "N"]%string).
Proof.
  split; [vm_compute; reflexivity|]. cbn [map].
  apply t_tok; [reflexivity|]. apply t_tok; [reflexivity|].
  apply (t_dflt (bs "=") [bs "A"; bs "<"; bs "int"; bs ">"]); [reflexivity| | |right; eauto].
  - apply d_tok; [discriminate|reflexivity|]. apply (d_group [bs "int"] []); [|intros [X|[]]; discriminate X|apply d_nil].
    apply bal_tok; [discriminate|discriminate|apply bal_nil].
  - apply t_tok; [reflexivity|]. apply t_tok; [reflexivity|]. apply t_tok; [reflexivity|].
    apply (t_dflt (bs "=") [bs "3"] []); [reflexivity| |apply t_nil|now left].
    apply d_tok; [discriminate|reflexivity|apply d_nil].
Qed.
(** template<class T=A<int>> class C {}; the default argument takes the bracket that closes the
    parameter list with it, and the rest of the file is read *)
Theorem C53_template_refuted : exists i, tk i = bs "<" /\
  more i = map bs ["class"; "T"; "="; "A"; "<"; "int"; ">>"; "class"; "C"; "{"; "}"; ";"; "class"; "D"; ";"]%string /\
  get_template_args i = PEof.
Proof.
  exists (Inp [] [] (bs "<") (map bs ["class"; "T"; "="; "A"; "<"; "int"; ">>"; "class"; "C"; "{"; "}"; ";"; "class"; "D"; ";"]%string)).
  vm_compute. auto.
Qed.

(** ** C54 *)
Definition occ (s l : list ascii) : Prop := exists a b, l = a ++ s ++ b.
(** [a] is what precedes the first occurrence of [s] in [l] *)
Definition first_occ (s l a b : list ascii) : Prop :=
  l = a ++ s ++ b /\ forall a' b', l = a' ++ s ++ b' -> (length a <= length a')%nat.
(** what an occurrence followed by [b] becomes *)
Definition subst_ (s full b : list ascii) : list ascii :=
  match skipws b with c :: _ => if ceq c "<" then s else full | [] => full end.

Lemma startsP s l : starts s l = true <-> exists b, l = s ++ b.
Proof.
  unfold starts. destruct (list_eq_dec _ _ _) as [E|E]; split; intros H; try easy.
  - exists (skipn (length s) l). rewrite <- E at 1. now rewrite firstn_skipn.
  - destruct H as (b & ->). exfalso. apply E. rewrite firstn_app, firstn_all, Nat.sub_diag. cbn. now rewrite app_nil_r.
Qed.
Lemma find_at_some s l : forall i k, find_at s l i = Some k -> exists a b, first_occ s l a b /\ k = (i + length a)%nat.
Proof.
  induction l as [|c l IH]; intros i k H; cbn [find_at] in H.
  - destruct (starts s []) eqn:E; [|discriminate]. apply startsP in E. destruct E as (b & E).
    exists [], b. split; [split; [exact E|intros; cbn; lia]|]. cbn. injection H. lia.
  - destruct (starts s (c :: l)) eqn:E.
    + apply startsP in E. destruct E as (b & E).
      exists [], b. split; [split; [exact E|intros; cbn; lia]|]. cbn. injection H. lia.
    + destruct (IH _ _ H) as (a & b & (E1 & E2) & ->). exists (c :: a), b. split; [|cbn; lia].
      split; [cbn; now rewrite <- E1|]. intros [|x a'] b' E3.
      * exfalso. enough (starts s (c :: l) = true) by congruence. apply startsP. eauto.
      * cbn in E3. injection E3 as -> E3. apply E2 in E3. cbn. lia.
Qed.
Lemma find_at_none s l : forall i, find_at s l i = None <-> ~ occ s l.
Proof.
  induction l as [|c l IH]; intros i; cbn [find_at].
  - destruct (starts s []) eqn:E.
    + split; [discriminate|]. intros H. exfalso. apply H. apply startsP in E. destruct E as (b & E). exists [], b. exact E.
    + split; [|reflexivity]. intros _ (a & b & H). destruct a; [|discriminate]. enough (starts s [] = true) by congruence.
      apply startsP. eauto.
  - destruct (starts s (c :: l)) eqn:E.
    + split; [discriminate|]. intros H. exfalso. apply H. apply startsP in E. destruct E as (b & E). exists [], b. exact E.
    + rewrite IH. split; intros H (a & b & X); apply H.
      * destruct a as [|x a]; [|cbn in X; injection X as -> X; exists a, b; exact X].
        exfalso. enough (starts s (c :: l) = true) by congruence. apply startsP. eauto.
      * exists (c :: a), b. cbn. now rewrite X.
Qed.
Lemma first_unique s l a b a' b' : first_occ s l a b -> first_occ s l a' b' -> a = a' /\ b = b'.
Proof.
  intros (E & M) (E' & M').
  assert (L : length a = length a') by (apply Nat.le_antisymm; [eapply M|eapply M']; eauto).
  rewrite E in E'. 
  assert (A : a = a').
  { clear - L E'. revert a' L E'. induction a as [|x a IH]; intros [|y a'] L E; try discriminate; [reflexivity|].
    cbn in *. injection E as -> E. f_equal. apply IH; [lia|exact E]. }
  subst a'. split; [reflexivity|]. apply app_inv_head in E'. now apply app_inv_head in E'.
Qed.
Lemma find_first s l a b i : first_occ s l a b -> find_at s l i = Some (i + length a)%nat.
Proof.
  intros F. destruct (find_at s l i) as [k|] eqn:E.
  - apply find_at_some in E. destruct E as (a' & b' & F' & ->).
    destruct (first_unique _ _ _ _ _ _ F F') as [-> _]. reflexivity.
  - apply find_at_none in E. exfalso. apply E. destruct F as (F & _). exists a, b. exact F.
Qed.
Lemma skipn_app_exact {A} (a b : list A) : skipn (length a) (a ++ b) = b.
Proof. rewrite skipn_app, skipn_all, Nat.sub_diag. reflexivity. Qed.
Lemma find_from_app s p l : find_from s (p ++ l) (length p) = find_at s l (length p).
Proof.
  unfold find_from. rewrite app_length. replace (length p <=? length p + length l)%nat with true by (symmetry; apply Nat.leb_le; lia).
  now rewrite skipn_app_exact.
Qed.

(** one turn of the loop; [p] is the text before the position [i] *)
Lemma shorn_step f s full p l r a b : first_occ s l a b ->
  shorn (S f) (p ++ l) s full (length p) (find_from s (p ++ l) (length p)) r
  = shorn f ((p ++ a ++ s) ++ b) s full (length (p ++ a ++ s)) (find_from s ((p ++ a ++ s) ++ b) (length (p ++ a ++ s)))
      (r ++ firstn (length p + length a) l ++ subst_ s full b).
Proof.
  intros F. rewrite find_from_app, (find_first _ _ _ _ _ F). cbn [shorn].
  rewrite skipn_app_exact. destruct F as (E & _).
  assert (EL : p ++ l = (p ++ a ++ s) ++ b) by (rewrite E, <- !app_assoc; reflexivity).
  assert (LL : (length p + length a + length s)%nat = length (p ++ a ++ s)) by (rewrite !app_length; lia).
  rewrite LL, EL. rewrite skipn_app_exact. unfold subst_. now rewrite <- (app_assoc r).
Qed.
Lemma shorn_last f s full p l r : ~ occ s l ->
  shorn (S f) (p ++ l) s full (length p) (find_from s (p ++ l) (length p)) r = Some (r ++ l).
Proof.
  intros N. rewrite find_from_app. apply (find_at_none s l (length p)) in N. rewrite N. cbn [shorn]. now rewrite skipn_app_exact.
Qed.

(** a text without the name is not changed *)
Theorem C54_none : forall input s full, ~ occ s input -> replaceShornTypes input s full = Some input.
Proof. intros input s full N. unfold replaceShornTypes. exact (shorn_last _ s full [] input [] N). Qed.
(** one occurrence is replaced unless an opening angle bracket follows, and nothing else changes *)
Theorem C54_one : forall input s full a b, first_occ s input a b -> ~ occ s b ->
  replaceShornTypes input s full = Some (a ++ subst_ s full b ++ b).
Proof.
  intros input s full a b F N. unfold replaceShornTypes.
  rewrite (shorn_step _ s full [] input [] a b F).
  rewrite (shorn_last _ s full ([] ++ a ++ s) b _ N).
  destruct F as (-> & _). cbn [length Nat.add app]. rewrite firstn_app, firstn_all, Nat.sub_diag. cbn [firstn]. rewrite app_nil_r.
  now rewrite <- app_assoc.
Qed.
(** with two occurrences the text after the first is copied too far: [length a + length s] characters
    too many, so that text is doubled *)
Theorem C54_two : forall input s full a b c, first_occ s input a (b ++ s ++ c) -> first_occ s (b ++ s ++ c) b c -> ~ occ s c ->
  replaceShornTypes input s full =
    Some (a ++ subst_ s full (b ++ s ++ c) ++ firstn (length a + length s + length b) (b ++ s ++ c) ++ subst_ s full c ++ c).
Proof.
  intros input s full a b c F G N. unfold replaceShornTypes.
  destruct input as [|x input].
  - destruct F as (E & _). symmetry in E. apply app_eq_nil in E. destruct E as (-> & E). apply app_eq_nil in E. destruct E as (-> & _).
    exfalso. apply N. exists [], c. reflexivity.
  - rewrite (shorn_step _ s full [] (x :: input) [] a _ F).
    rewrite (shorn_step _ s full ([] ++ a ++ s) (b ++ s ++ c) _ b c G).
    cbn [length]. rewrite (shorn_last _ s full _ c _ N).
    f_equal. cbn [app length Nat.add]. rewrite app_length.
    destruct F as (-> & _). rewrite firstn_app, firstn_all, Nat.sub_diag. cbn [firstn]. rewrite app_nil_r.
    now rewrite <- !app_assoc.
Qed.
(** map<Foo,Foo> with Foo standing for Foo<T>: the result is not even balanced *)
Theorem C54_two_refuted : exists input s full,
  input = bs "map<Foo,Foo>" /\ s = bs "Foo" /\ full = bs "::Foo<T>" /\
  replaceShornTypes input s full = Some (bs "map<::Foo<T>,Foo>::Foo<T>>") /\
  bs "map<::Foo<T>,Foo>::Foo<T>>" <> bs "map<::Foo<T>,::Foo<T>>".
Proof. exists (bs "map<Foo,Foo>"), (bs "Foo"), (bs "::Foo<T>"). repeat (split; [vm_compute; reflexivity|]). discriminate. Qed.
(** a longer identifier that contains the name is changed as well *)
Theorem C54_part_refuted : exists input s full,
  input = bs "FooBar x" /\ s = bs "Foo" /\ full = bs "::Foo<T>" /\ replaceShornTypes input s full = Some (bs "::Foo<T>Bar x").
Proof. exists (bs "FooBar x"), (bs "Foo"), (bs "::Foo<T>"). repeat split; vm_compute; reflexivity. Qed.
(** the loop ends unless the name is empty, and then it never does *)
Theorem C54_terminates : forall input s full, s <> [] -> replaceShornTypes input s full <> None.
Proof.
  intros input s full NE. unfold replaceShornTypes.
  enough (G : forall f p l r, (S (length l) <= f)%nat -> shorn f (p ++ l) s full (length p) (find_from s (p ++ l) (length p)) r <> None).
  { apply (G (S (S (length input))) [] input []). lia. }
  induction f as [|f IH]; intros p l r F; [lia|].
  destruct (find_at s l 0) as [k|] eqn:E.
  - apply find_at_some in E. destruct E as (a & b & FO & _). rewrite (shorn_step _ _ _ _ _ _ _ _ FO). apply IH.
    destruct FO as (-> & _). rewrite !app_length in F. destruct s; [congruence|]. cbn [length] in F. lia.
  - apply find_at_none in E. rewrite (shorn_last _ _ _ _ _ _ E). discriminate.
Qed.
Theorem C54_empty : forall fuel input full, shorn fuel input [] full 0 (find_from [] input 0) [] = None.
Proof.
  intros fuel input full. generalize (@nil ascii) at 3. induction fuel as [|f IH]; intros r; [reflexivity|].
  assert (E : find_from [] input 0 = Some 0%nat).
  { unfold find_from. cbn [Nat.leb skipn]. destruct input; reflexivity. }
  rewrite E. cbn [shorn]. change (0 + length (@nil ascii))%nat with 0%nat. apply IH.
Qed.
Example C54_ex : first_occ (bs "Foo") (bs "vector<Foo> x") (bs "vector<") (bs "> x") /\ ~ occ (bs "Foo") (bs "> x")
  /\ replaceShornTypes (bs "vector<Foo> x") (bs "Foo") (bs "Foo<T>") = Some (bs "vector<Foo<T>> x").
Proof.
  assert (N : find_at (bs "Foo") (bs "> x") 0 = None) by (vm_compute; reflexivity).
  split; [|split; [exact (proj1 (find_at_none _ _ _) N)|vm_compute; reflexivity]].
  assert (S1 : find_at (bs "Foo") (bs "vector<Foo> x") 0 = Some 7%nat) by (vm_compute; reflexivity).
  apply find_at_some in S1. destruct S1 as (a & b & (E & M) & L). cbn [Nat.add] in L. split; [reflexivity|].
  intros a' b' E'. specialize (M _ _ E'). change (length (bs "vector<")) with 7%nat. lia.
Qed.

(** ** C66: the arguments of a template *)
(** a token of a parameter declaration that is not a separator *)
Inductive ptok :=
| PId (t : tok)              (* an identifier or a keyword *)
| PPunct (t : tok)           (* an operator such as * or :: *)
| PDots                      (* ... *)
| PGroup (b : list tok).     (* a bracketed group *)
Definition punct (c : ascii) : Prop := isident c = false /\ isspace c = false /\ mem c "<>=,." = false.
Definition ptok_ok (p : ptok) : Prop :=
  match p with
  | PId t => t <> [] /\ Forall (fun c => isident c = true) t
  | PPunct t => t <> [] /\ Forall punct t
  | PDots => True
  | PGroup b => bal (bs "<") (bs ">") b /\ Forall (fun t => t = bs "<" \/ t = bs ">" \/ Forall (fun c => mem c "<>" = false) t) b
  end.
Definition ptoks (p : ptok) : list tok :=
  match p with PId t => [t] | PPunct t => [t] | PDots => [bs "..."] | PGroup b => bs "<" :: b ++ [bs ">"] end.
(** a parameter: its type, and its name if it has one; one that has none must end in an operator *)
Record param := { ptype : list ptok; pdots : bool; pname : tok }.
Definition param_ok (p : param) : Prop :=
  Forall ptok_ok (ptype p) /\ ~ In PDots (ptype p) /\ pname p <> [] /\ Forall (fun c => isident c = true) (pname p).
Definition param_toks (p : param) : list tok :=
  flat_map ptoks (ptype p) ++ (if pdots p then [bs "..."] else []) ++ [pname p].
Fixpoint params_toks (ps : list param) : list tok :=
  match ps with
  | [] => []
  | [p] => param_toks p
  | p :: ps => param_toks p ++ bs "," :: params_toks ps
  end.
(** how an argument is written in the list of arguments *)
Definition arg (p : param) : list ascii := pname p ++ (if pdots p then bs "..." else []).
Fixpoint args (ps : list param) : list ascii :=
  match ps with
  | [] => []
  | [p] => arg p
  | p :: ps => arg p ++ bs "," ++ args ps
  end.

Definition room (f : nat) (l : list ascii) : Prop := (length l + length l < f)%nat.
Lemma isspace_sp : isspace " " = true. Proof. reflexivity. Qed.
Lemma ident_nospace : forall c, isident c = true -> isspace c = false /\ mem c "<>=,." = false /\ ceq c "<" = false /\ ceq c "=" = false /\ mem c ">," = false.
Proof.
  assert (A : forallb (fun n => let c := ascii_of_nat n in implb (isident c)
    (negb (isspace c) && negb (mem c "<>=,.") && negb (ceq c "<") && negb (ceq c "=") && negb (mem c ">,")))%bool (seq 0 256) = true)
    by (vm_compute; reflexivity).
  intros c H. rewrite forallb_forall in A. specialize (A (nat_of_ascii c)). cbv zeta in A.
  rewrite ascii_nat_embedding in A. rewrite H in A. cbn [implb] in A.
  assert (B : In (nat_of_ascii c) (seq 0 256)).
  { apply in_seq. split; [lia|]. cbn [Nat.add]. pose proof (nat_ascii_bounded c). exact H0. }
  apply A in B. rewrite !andb_true_iff, !negb_true_iff in B. tauto.
Qed.
Lemma punct_no c : punct c -> ceq c "<" = false /\ ceq c "=" = false /\ mem c ">," = false /\ ceq c "." = false.
Proof.
  intros (_ & _ & H). unfold mem in H. cbn [list_ascii_of_string existsb] in H. rewrite !orb_false_iff in H.
  destruct H as (A & B & C & D & E & _). repeat split; auto. unfold mem. cbn [list_ascii_of_string existsb]. now rewrite B, D.
Qed.

Lemma ext_id k r el t : Forall (fun c => isident c = true) t -> forall f t0, room f (t ++ k) ->
  exists f', ext f (t ++ k) r t0 el = ext f' k r (t0 ++ t) el /\ room f' k.
Proof.
  induction 1; intros f t0 R.
  - exists f. rewrite app_nil_r. auto.
  - unfold room in R. cbn [app length] in R. destruct f as [|f]; [lia|]. cbn [app ext]. rewrite H.
    edestruct (IHForall f (t0 ++ [x])) as (f' & E & R'); [unfold room; lia|].
    exists f'. rewrite E, <- app_assoc. auto.
Qed.
Lemma ext_punct k r el t : Forall punct t -> forall f t0, t <> [] -> room f (t ++ k) ->
  exists f', ext f (t ++ k) r t0 el = ext f' k r [] el /\ room f' k.
Proof.
  induction 1; intros f t0 NE R; [congruence|]. unfold room in R. cbn [app length] in R. destruct f as [|f]; [lia|].
  cbn [app ext]. destruct H as (H1 & H2 & H3). destruct (punct_no x) as (P1 & P2 & P3 & P4); [repeat split; auto|].
  rewrite H1. cbn [skipws]. rewrite H2, P1, P2, P3, H1, P4.
  destruct l as [|y l].
  - exists f. split; [reflexivity|]. unfold room. cbn [app] in R. lia.
  - apply IHForall; [discriminate|]. unfold room. cbn [app length] in *. lia.
Qed.
Lemma ext_sp f c l r t el : isspace c = false -> isident c = false ->
  ext (S f) (" "%char :: c :: l) r t el = ext (S f) (c :: l) r t el.
Proof. intros S1 S2. cbn [ext]. change (isident " ") with false. cbv iota. rewrite S2. cbn [skipws]. rewrite isspace_sp, S1. reflexivity. Qed.
Lemma skipangle_txt b : bal (bs "<") (bs ">") b ->
  Forall (fun t => t = bs "<" \/ t = bs ">" \/ Forall (fun c => mem c "<>" = false) t) b ->
  forall k n, skipangle (ttxt b ++ k) n = skipangle k n.
Proof.
  assert (PL : forall t k n, Forall (fun c => mem c "<>" = false) t -> skipangle (t ++ k) n = skipangle k n).
  { induction 1 as [|c t H _ IH]; [reflexivity|]. cbn [app skipangle]. unfold mem in H. cbn [list_ascii_of_string existsb] in H.
    rewrite !orb_false_iff in H. destruct H as (-> & -> & _). exact IH. }
  assert (SP : forall t k n, skipangle ((if teq t "." then [] else [" "%char]) ++ k) n = skipangle k n).
  { intros t k n. destruct (teq t "."); reflexivity. }
  induction 1; intros F k n; [reflexivity| |].
  - inversion F; subst. rewrite ttxt_cons, <- !app_assoc.
    destruct H4 as [?|[?|?]]; [congruence|congruence|]. rewrite PL by assumption. rewrite SP. now apply IHbal.
  - inversion F; subst. apply Forall_app in H4. destruct H4 as (F1 & F2). inversion F2; subst.
    rewrite ttxt_cons, ttxt_app, ttxt_cons, <- !app_assoc.
    change (bs "<" ++ (if teq (bs "<") "." then [] else [" "%char]) ++ ttxt b ++ bs ">" ++ (if teq (bs ">") "." then [] else [" "%char]) ++ ttxt ts ++ k)
      with ("<"%char :: " "%char :: ttxt b ++ ">"%char :: " "%char :: ttxt ts ++ k).
    cbn [skipangle]. change (skipangle (" "%char :: ttxt b ++ ">"%char :: " "%char :: ttxt ts ++ k) (S n) = skipangle k n).
    change (skipangle (ttxt b ++ ">"%char :: " "%char :: ttxt ts ++ k) (S n) = skipangle k n).
    rewrite IHbal1 by assumption. change (skipangle (ttxt ts ++ k) n = skipangle k n). now apply IHbal2.
Qed.
Definition dots_of (p : ptok) : list ascii := match p with PDots => bs "..." | _ => [] end.
Lemma room_le f l l' : (length l' <= length l)%nat -> room f l -> room f l'. Proof. unfold room. lia. Qed.

Lemma ident_teq t : t <> [] -> Forall (fun c => isident c = true) t -> teq t "." = false.
Proof.
  intros NE F. unfold teq. destruct (beqP t (bs ".")) as [->|]; [|reflexivity]. inversion F. discriminate.
Qed.
Lemma punct_teq t : t <> [] -> Forall punct t -> teq t "." = false.
Proof.
  intros NE F. unfold teq. destruct (beqP t (bs ".")) as [->|]; [|reflexivity]. inversion F as [|? ? (_ & _ & X)]. discriminate X.
Qed.

Lemma ext_ptok p : ptok_ok p -> forall f k r t0 el, room f (" "%char :: ttxt (ptoks p) ++ k) ->
  exists f' t', ext f (" "%char :: ttxt (ptoks p) ++ k) r t0 el = ext f' (" "%char :: k) r t' (el ++ dots_of p)
    /\ room f' (" "%char :: k) /\ (forall t, p = PId t -> t' = t).
Proof.
  intros OK f k r t0 el R. destruct p as [t|t| |b]; cbn [ptoks ptok_ok dots_of] in *.
  - destruct OK as (NE & F). rewrite ttxt_cons, (ident_teq _ NE F) in *. change (ttxt []) with (@nil ascii) in *. rewrite app_nil_r in *.
    rewrite <- app_assoc in *. cbn [app] in *. destruct t as [|c t]; [congruence|].
    assert (HC : isident c = true) by (inversion F; assumption). destruct (ident_nospace _ HC) as (S1 & _ & S3 & S4 & S5).
    assert (E : exists f1, ext f (" "%char :: (c :: t) ++ " "%char :: k) r t0 el = ext f1 ((c :: t) ++ " "%char :: k) r [] el /\ room f1 ((c :: t) ++ " "%char :: k)).
    { unfold room in R. cbn [app length] in R. destruct f as [|f]; [lia|]. exists f. split; [|unfold room; cbn [app length]; lia].
      cbn [app ext]. change (isident " ") with false. cbv iota. cbn [skipws]. rewrite isspace_sp, S1, S3, S4, S5, HC. reflexivity. }
    destruct E as (f1 & -> & R1).
    destruct (ext_id (" "%char :: k) r el (c :: t) F f1 [] R1) as (f' & E & R'). exists f', ([] ++ c :: t).
    rewrite app_nil_r. split; [exact E|]. split; [exact R'|]. intros ? [= <-]. reflexivity.
  - destruct OK as (NE & F). rewrite ttxt_cons, (punct_teq _ NE F) in *. change (ttxt []) with (@nil ascii) in *. rewrite !app_nil_r in *.
    rewrite <- app_assoc in *. cbn [app] in *. destruct t as [|c t]; [congruence|].
    assert (HC : punct c) by (inversion F; assumption). destruct HC as (H1 & H2 & _).
    destruct f as [|f]; [unfold room in R; lia|]. cbn [app]. rewrite ext_sp by assumption.
    destruct (ext_punct (" "%char :: k) r el (c :: t) F (S f) t0) as (f' & E & R'); [discriminate|eapply room_le; [|exact R]; cbn; lia|].
    exists f', []. split; [exact E|]. split; [exact R'|]. discriminate.
  - change (ttxt [bs "..."]) with (bs "... ") in *. change (" "%char :: bs "... " ++ k) with (" "%char :: "."%char :: "."%char :: "."%char :: " "%char :: k) in *.
    unfold room in R. cbn [length] in R. destruct f as [|[|[|f]]]; try lia.
    exists f, []. split; [|split; [unfold room; cbn [length]; lia|discriminate]].
    rewrite ext_sp by reflexivity.
    change (ext f (" "%char :: k) r [] (((el ++ ["."%char]) ++ ["."%char]) ++ ["."%char]) = ext f (" "%char :: k) r [] (el ++ bs "...")).
    now rewrite <- !app_assoc.
  - destruct OK as (B & F). rewrite ttxt_cons, ttxt_app in *. change (ttxt [bs ">"]) with (bs "> ") in *.
    change (teq (bs "<") ".") with false in *. cbv iota in *. rewrite app_nil_r.
    assert (EL : (bs "<" ++ [" "%char] ++ ttxt b ++ bs "> ") ++ k = "<"%char :: " "%char :: ttxt b ++ ">"%char :: " "%char :: k).
    { cbn [app bs list_ascii_of_string]. now rewrite <- !app_assoc. }
    rewrite EL in *. unfold room in R. cbn [length] in R. rewrite app_length in R. cbn [length] in R.
    destruct f as [|f]; [lia|]. exists f, []. split; [|split; [unfold room; cbn [length]; lia|discriminate]].
    rewrite ext_sp by reflexivity. 
    change (ext (S f) ("<"%char :: " "%char :: ttxt b ++ ">"%char :: " "%char :: k) r t0 el) with
      (match skipangle (ttxt b ++ ">"%char :: " "%char :: k) 0 with Some l'' => ext f l'' r [] el | None => None end).
    rewrite (skipangle_txt b B F). reflexivity.
Qed.
Lemma ext_type ps : Forall ptok_ok ps -> ~ In PDots ps -> forall f k r t0 el, room f (" "%char :: ttxt (flat_map ptoks ps) ++ k) ->
  exists f' t', ext f (" "%char :: ttxt (flat_map ptoks ps) ++ k) r t0 el = ext f' (" "%char :: k) r t' el /\ room f' (" "%char :: k).
Proof.
  induction 1 as [|p ps H _ IH]; intros ND f k r t0 el R.
  - exists f, t0. auto.
  - cbn [flat_map] in *. rewrite ttxt_app, <- app_assoc in *.
    destruct (ext_ptok p H f _ r t0 el R) as (f1 & t1 & -> & R1 & _).
    assert (D : dots_of p = []) by (destruct p; try reflexivity; exfalso; apply ND; now left). rewrite D, app_nil_r.
    apply IH; [|exact R1]. intros X. apply ND. now right.
Qed.
Lemma ext_param p : param_ok p -> forall f k r t0 c, (c = ">"%char \/ c = ","%char) ->
  room f (" "%char :: ttxt (param_toks p) ++ c :: " "%char :: k) ->
  exists f', ext f (" "%char :: ttxt (param_toks p) ++ c :: " "%char :: k) r t0 [] = ext f' (" "%char :: k) (r ++ arg p ++ [c]) [] [] /\ room f' (" "%char :: k).
Proof.
  intros (F & ND & NE & NM) f k r t0 c C R. unfold param_toks in *. rewrite !ttxt_app, <- !app_assoc in *.
  destruct (ext_type _ F ND f _ r t0 [] R) as (f1 & t1 & -> & R1). clear R.
  assert (DD : exists f2 t2, ext f1 (" "%char :: ttxt (if pdots p then [bs "..."] else []) ++ ttxt [pname p] ++ c :: " "%char :: k) r t1 []
    = ext f2 (" "%char :: ttxt [pname p] ++ c :: " "%char :: k) r t2 (if pdots p then bs "..." else []) /\ room f2 (" "%char :: ttxt [pname p] ++ c :: " "%char :: k)).
  { destruct (pdots p); [|exists f1, t1; auto].
    destruct (ext_ptok PDots Logic.I f1 _ r t1 [] R1) as (f2 & t2 & E & R2 & _). exists f2, t2. auto. }
  destruct DD as (f2 & t2 & -> & R2).
  destruct (ext_ptok (PId (pname p)) (conj NE NM) f2 _ r t2 (if pdots p then bs "..." else []) R2) as (f3 & t3 & E & R3 & T).
  cbn [ptoks dots_of] in E. rewrite app_nil_r in E. rewrite E. rewrite (T _ eq_refl).
  unfold room in R3. cbn [length] in R3. destruct f3 as [|f3]; [lia|]. exists f3. split; [|unfold room; cbn [length]; lia].
  rewrite ext_sp by (destruct C; subst; reflexivity).
  unfold arg. destruct C; subst c; cbn [ext]; cbn; now rewrite <- !app_assoc.
Qed.
(** the list of arguments names each parameter once, in order, packs followed by an ellipsis *)
Theorem C66_args : forall ps, ps <> [] -> Forall param_ok ps ->
  extract_targs (ttxt (bs "<" :: params_toks ps ++ [bs ">"])) = Some (bs "<" ++ args ps ++ bs ">").
Proof.
  intros ps NE F. rewrite ttxt_cons, ttxt_app. change (teq (bs "<") ".") with false. change (ttxt [bs ">"]) with (bs "> ").
  unfold extract_targs. cbn [bs list_ascii_of_string app].
  enough (G : forall ps, ps <> [] -> Forall param_ok ps -> forall f r t0, room f (" "%char :: ttxt (params_toks ps) ++ bs "> ") ->
     ext f (" "%char :: ttxt (params_toks ps) ++ bs "> ") r t0 [] = Some (r ++ args ps ++ bs ">")).
  { refine (G ps NE F _ (bs "<") [] _). unfold room. cbn. lia. }
  clear ps NE F. induction ps as [|p ps IH]; intros NE F f r t0 R; [congruence|]. inversion F; subst.
  destruct ps as [|q ps].
  - cbn [params_toks args] in *.
    change (bs "> ") with (">"%char :: " "%char :: []) in *.
    destruct (ext_param p H1 f [] r t0 ">"%char (or_introl eq_refl) R) as (f' & -> & R').
    unfold room in R'. cbn [length] in R'. destruct f' as [|f']; [lia|]. reflexivity.
  - change (params_toks (p :: q :: ps)) with (param_toks p ++ bs "," :: params_toks (q :: ps)) in *.
    change (args (p :: q :: ps)) with (arg p ++ bs "," ++ args (q :: ps)).
    rewrite ttxt_app, ttxt_cons in *. change (teq (bs ",") ".") with false in *. cbv iota in *. rewrite <- !app_assoc in *.
    change (bs "," ++ [" "%char] ++ ttxt (params_toks (q :: ps)) ++ bs "> ") with (","%char :: " "%char :: ttxt (params_toks (q :: ps)) ++ bs "> ") in *.
    destruct (ext_param p H1 f _ r t0 ","%char (or_intror eq_refl) R) as (f' & -> & R').
    rewrite (IH ltac:(discriminate) H2 f' (r ++ arg p ++ [","%char]) [] R'). f_equal. now rewrite <- !app_assoc.
Qed.
Example C66_ex :
  let ps := [ {| ptype := [PId (bs "class")]; pdots := false; pname := bs "T" |};
              {| ptype := [PId (bs "template"); PGroup [bs "class"]; PId (bs "class")]; pdots := false; pname := bs "C" |};
              {| ptype := [PId (bs "class")]; pdots := true; pname := bs "A" |} ] in
  Forall param_ok ps /\ extract_targs (bs "< class T , template < class > class C , class ... A > ") = Some (bs "<T,C,A...>").
Proof.
  split; [|vm_compute; reflexivity].
  assert (ID : forall t, t <> [] -> forallb isident t = true -> ptok_ok (PId t)).
  { intros t N H. split; [exact N|]. apply Forall_forall. apply forallb_forall. exact H. }
  assert (NM : forall t, forallb isident t = true -> Forall (fun c => isident c = true) t) by (intros t H; apply Forall_forall, forallb_forall, H).
  repeat apply Forall_cons; try apply Forall_nil; (split; [|split; [|split; [discriminate|apply NM; reflexivity]]]).
  - repeat constructor; try discriminate.
  - intros [X|[]]; discriminate.
  - constructor; [apply ID; [discriminate|reflexivity]|]. constructor; [|constructor; [apply ID; [discriminate|reflexivity]|constructor]].
    split; [apply bal_tok; [discriminate|discriminate|apply bal_nil]|].
    constructor; [|constructor]. right. right. apply Forall_forall. intros c X. cbn in X. repeat (destruct X as [<-|X]; [reflexivity|]). destruct X.
  - intros [X|[X|[X|[]]]]; discriminate.
  - repeat constructor; try discriminate.
  - intros [X|[]]; discriminate.
Qed.
(** a parameter without a name: the keyword is taken for the name *)
Theorem C66_unnamed_refuted : exists targs, targs = bs "< class , int > " /\ extract_targs targs = Some (bs "<class,int>").
Proof. eexists. split; [reflexivity|]. vm_compute. reflexivity. Qed.
Print Assumptions C53_stops.
Print Assumptions C53_pair.
Print Assumptions C53_only.
Print Assumptions C53_eof.
Print Assumptions C53_angle.
Print Assumptions C53_angle_refuted.
Print Assumptions C53_template.
Print Assumptions C53_template_refuted.
Print Assumptions C54_none.
Print Assumptions C54_one.
Print Assumptions C54_two.
Print Assumptions C54_two_refuted.
Print Assumptions C54_part_refuted.
Print Assumptions C54_terminates.
Print Assumptions C54_empty.
Print Assumptions C66_args.
Print Assumptions C66_unnamed_refuted.

(** * Whole classes and files: base classes, enumerations, namespaces *)
From Verif Require Import Base Base_Proofs SMap Dec Desc_Model Tok_Model Parse_Model Parse_Props Ns_Props.
From Verif Require Import ClassParse_Model ClassParse_Proofs ClassParse_Spec ClassFile_Spec ClassMem_Proofs.

Lemma teq_is t s : teq t s = is t s. Proof. reflexivity. Qed.
Lemma is_ne t s : t <> bs s -> teq t s = false.
Proof. unfold teq. destruct (beqP t (bs s)); congruence. Qed.

(** ** Base classes *)
Lemma angled_ne d ts : angled d ts -> ts <> [].
Proof. destruct 1; discriminate. Qed.
Lemma base_angle_run d ts : angled d ts -> (1 <= d)%nat -> forall f b t2 t1 t y r m, (length m < f)%nat ->
  ts ++ y :: r = t :: m ->
  exists a1 z, base_angle f (Z.of_nat d) b (Inp t2 t1 t m) = POk (b ++ args_text ts) (Inp a1 z y r).
Proof.
  assert (LAST : forall f b a z y r, (z = bs ">" \/ z = bs ">>") -> (1 <= f)%nat -> base_angle f 0 b (Inp a z y r) = POk b (Inp a z y r)).
  { intros f b a z y r Z F. destruct f as [|f]; [lia|]. destruct Z as [->| ->]; reflexivity. }
  assert (GO : forall e f b t2 t1 t u m, (1 <= e)%nat ->
     base_angle (S f) (Z.of_nat e) b (Inp t2 t1 t (u :: m)) =
       let ac := if teq t "<" then (Z.of_nat e + 1)%Z else Z.of_nat e in
       let ac := if teq t ">" then (ac - 1)%Z else if teq t ">>" then (if (1 <? ac)%Z then ac - 2 else ac - 1)%Z else ac in
       let b := b ++ t ++ bs " " in
       base_angle f ac (if ((teq t ">" || teq t ">>") && negb (ac =? 0)%Z)%bool then b ++ bs " " else b) (Inp t1 t u m)).
  { intros e f b t2 t1 t u m A. cbn [base_angle tk tk1 next more pbind].
    replace (Z.of_nat e =? 0)%Z with false by (symmetry; apply Z.eqb_neq; lia). reflexivity. }
  induction 1 as [| |d u ts N1 N2 N3 AN IH|d ts AN IH|d ts AN IH|d ts AN IH]; intros A f b t2 t1 t y r m F E.
  - cbn [app] in E. hdtl E t m. cbn [length] in F. destruct f as [|f]; [lia|]. rewrite GO by lia.
    change (teq (bs ">") "<") with false. change (teq (bs ">") ">") with true. cbv iota zeta. change (Z.of_nat 1 - 1 =? 0)%Z with true.
    cbn [orb andb negb]. change (Z.of_nat 1 - 1)%Z with 0%Z. rewrite LAST by (auto; lia). now exists t1, (bs ">").
  - cbn [app] in E. hdtl E t m. cbn [length] in F. destruct f as [|f]; [lia|]. rewrite GO by lia.
    change (teq (bs ">>") "<") with false. change (teq (bs ">>") ">") with false. change (teq (bs ">>") ">>") with true. cbv iota zeta.
    change (1 <? Z.of_nat 2)%Z with true. change (Z.of_nat 2 - 2)%Z with 0%Z. change (0 =? 0)%Z with true.
    cbn [orb andb negb]. rewrite LAST by (auto; lia). now exists t1, (bs ">>").
  - pose proof (angled_ne _ _ AN) as NE. cbn [app] in E. assert (t = u) by congruence. assert (m = ts ++ y :: r) by congruence. subst t m. clear E.
    destruct f as [|f]; [lia|]. destruct (ts ++ y :: r) as [|u' m'] eqn:E; [destruct ts; discriminate|]. cbn [length] in F.
    rewrite GO by lia. rewrite (is_ne _ _ N1), (is_ne _ _ N2), (is_ne _ _ N3). cbv iota zeta. cbn [orb andb].
    destruct (IH A f (b ++ u ++ bs " ") t1 u u' y r m' ltac:(lia) E) as (a1 & z & ->). exists a1, z. f_equal. cbn [args_text].
    change (is u ">") with (teq u ">"). change (is u ">>") with (teq u ">>"). rewrite (is_ne _ _ N2), (is_ne _ _ N3). cbn [orb]. destruct ts; [congruence|]. rewrite <- !app_assoc. reflexivity.
  - pose proof (angled_ne _ _ AN) as NE. cbn [app] in E. assert (t = bs "<") by congruence. assert (m = ts ++ y :: r) by congruence. subst t m. clear E.
    destruct f as [|f]; [lia|]. destruct (ts ++ y :: r) as [|u' m'] eqn:E; [destruct ts; discriminate|]. cbn [length] in F.
    rewrite GO by lia. change (teq (bs "<") "<") with true. change (teq (bs "<") ">") with false. change (teq (bs "<") ">>") with false. cbv iota zeta. cbn [orb andb].
    replace (Z.of_nat d + 1)%Z with (Z.of_nat (S d)) by lia.
    destruct (IH ltac:(lia) f (b ++ bs "<" ++ bs " ") t1 (bs "<") u' y r m' ltac:(lia) E) as (a1 & z & ->). exists a1, z. f_equal. cbn [args_text].
    change (is (bs "<") ">") with false. change (is (bs "<") ">>") with false. cbn [orb]. destruct ts; [congruence|]. rewrite <- !app_assoc. reflexivity.
  - pose proof (angled_ne _ _ AN) as NE. cbn [app] in E. assert (t = bs ">") by congruence. assert (m = ts ++ y :: r) by congruence. subst t m. clear E.
    destruct f as [|f]; [lia|]. destruct (ts ++ y :: r) as [|u' m'] eqn:E; [destruct ts; discriminate|]. cbn [length] in F.
    rewrite GO by lia. change (teq (bs ">") "<") with false. change (teq (bs ">") ">") with true. cbv iota zeta.
    replace (Z.of_nat (S (S d)) - 1)%Z with (Z.of_nat (S d)) by lia.
    replace (Z.of_nat (S d) =? 0)%Z with false by (symmetry; apply Z.eqb_neq; lia). cbn [orb andb negb].
    destruct (IH ltac:(lia) f ((b ++ bs ">" ++ bs " ") ++ bs " ") t1 (bs ">") u' y r m' ltac:(lia) E) as (a1 & z & ->). exists a1, z. f_equal. cbn [args_text].
    change (is (bs ">") ">") with true. cbn [orb]. destruct ts; [congruence|]. rewrite <- !app_assoc. reflexivity.
  - pose proof (angled_ne _ _ AN) as NE. cbn [app] in E. assert (t = bs ">>") by congruence. assert (m = ts ++ y :: r) by congruence. subst t m. clear E.
    destruct f as [|f]; [lia|]. destruct (ts ++ y :: r) as [|u' m'] eqn:E; [destruct ts; discriminate|]. cbn [length] in F.
    rewrite GO by lia. change (teq (bs ">>") "<") with false. change (teq (bs ">>") ">") with false. change (teq (bs ">>") ">>") with true. cbv iota zeta.
    replace (1 <? Z.of_nat (S (S (S d))))%Z with true by (symmetry; apply Z.ltb_lt; lia).
    replace (Z.of_nat (S (S (S d))) - 2)%Z with (Z.of_nat (S d)) by lia.
    replace (Z.of_nat (S d) =? 0)%Z with false by (symmetry; apply Z.eqb_neq; lia). cbn [orb andb negb].
    destruct (IH ltac:(lia) f ((b ++ bs ">>" ++ bs " ") ++ bs " ") t1 (bs ">>") u' y r m' ltac:(lia) E) as (a1 & z & ->). exists a1, z. f_equal. cbn [args_text].
    change (is (bs ">>") ">") with false. change (is (bs ">>") ">>") with true. cbn [orb]. destruct ts; [congruence|]. rewrite <- !app_assoc. reflexivity.
Qed.

Lemma base_angle_first f b t2 w u m : teq w ">" = false -> teq w ">>" = false ->
  base_angle (S f) 0 b (Inp t2 w (bs "<") (u :: m)) = base_angle f 1 (b ++ bs "< ") (Inp w (bs "<") u m).
Proof. intros A B. cbn [base_angle tk tk1 next more pbind]. rewrite A, B. reflexivity. Qed.
Section Bases.
  Variables (o : opts) (k : bool) (targs : tok).
  (** the end of a turn: after the template arguments *)
  Definition base_at (f : nat) (acts : list act) (pr : bool) (b : tok) (i : inp) : pres (list act * bool) :=
    let here := (strchr ",{" (first (tk i)) && negb (beq b []))%bool in
    let acts := if (here && (negb (respect_private o) || negb pr))%bool then acts ++ [base_act o targs b] else acts in
    let pr := if here then k else pr in
    let b := if here then [] else b ++ tk i in
    if teq (tk i) "{" then POk (acts, pr) i
    else pbind (next i) (fun _ i => bases o k targs f acts pr b i).
  Definition quiet (t : tok) : bool :=
    negb (teq t "virtual" || teq t ":" || teq t "private" || teq t "protected" || teq t "public" || teq t "<")%bool.
  Lemma bases_at f acts pr b i : quiet (tk i) = true -> bases o k targs (S f) acts pr b i = base_at f acts pr b i.
  Proof.
    unfold quiet. intros Q. apply Bool.negb_true_iff in Q. rewrite !Bool.orb_false_iff in Q. destruct Q as (((((A & B) & C) & D) & E) & F).
    cbn [bases]. rewrite A, B, C, D, E, F. reflexivity.
  Qed.
  Lemma word_facts t : base_word t = true -> quiet t = true /\ strchr ",{" (first t) = false /\ teq t "{" = false /\ teq t ">" = false /\ teq t ">>" = false /\ t <> [].
  Proof.
    unfold base_word. intros H. apply Bool.andb_true_iff in H. destruct H as (H & N). apply Bool.negb_true_iff in N. rewrite !Bool.orb_false_iff in N.
    destruct N as (((N1 & N2) & N3) & N4). apply Bool.orb_true_iff in H. destruct H as [H|H].
    - assert (P : forall s, ident (bs s) = false -> teq t s = false).
      { intros s X. apply is_ne. intros ->. congruence. }
      split; [|split; [|split; [|split; [|split]]]]; [|destruct t as [|c t]; [discriminate H|]|apply P; reflexivity|apply P; reflexivity|apply P; reflexivity|intros ->; discriminate].
      + unfold quiet. change (is t "virtual") with (teq t "virtual") in N1. change (is t "private") with (teq t "private") in N2. change (is t "protected") with (teq t "protected") in N3. change (is t "public") with (teq t "public") in N4.
        rewrite N1, N2, N3, N4, (P ":"%string), (P "<"%string) by reflexivity. reflexivity.
      + cbn [ident] in H. change (first (c :: t)) with c. destruct (strchr ",{" c) eqn:E; [|reflexivity]. exfalso. revert H E.
        assert (X : forall n, (n < 256)%nat -> letter (ascii_of_nat n) = true -> strchr ",{" (ascii_of_nat n) = true -> False).
        { intros n L.
          assert (Y : forallb (fun n => negb (letter (ascii_of_nat n) && strchr ",{" (ascii_of_nat n))) (seq 0 256) = true) by (vm_compute; reflexivity).
          rewrite forallb_forall in Y. specialize (Y n). intros A B. rewrite A, B in Y. specialize (Y ltac:(apply in_seq; lia)). discriminate. }
        intros A B. apply (X (nat_of_ascii c)); rewrite ?ascii_nat_embedding; auto. apply nat_ascii_bounded.
    - unfold is in H. apply beq_eq in H. subst t. repeat split; try reflexivity. discriminate.
  Qed.
  Definition stopper (x : tok) : Prop := x = bs "," \/ x = bs "{".
  Lemma stopper_quiet x : stopper x -> quiet x = true. Proof. intros [->| ->]; reflexivity. Qed.
  Lemma ptoks_head ps x m t m' : Forall piece_ok ps -> stopper x -> ptoks ps ++ x :: m = t :: m' -> quiet t = true.
  Proof.
    intros P X E. destruct P as [|p ps P _]; [cbn in E; assert (t = x) by congruence; subst; now apply stopper_quiet|].
    destruct p as [w|w ts]; unfold ptoks in E; cbn [map concat ptoks1 app] in E; assert (t = w) by congruence; subst;
      [now apply word_facts|destruct P as (P & _); now apply word_facts].
  Qed.
  Lemma at_word f acts pr b t2 t1 w u m : base_word w = true ->
    base_at f acts pr b (Inp t2 t1 w (u :: m)) = bases o k targs f acts pr (b ++ w) (Inp t1 w u m).
  Proof.
    intros W. apply word_facts in W. destruct W as (_ & W & B & _). unfold base_at. cbn [tk]. rewrite W, B. reflexivity.
  Qed.
  Lemma name_run ps : Forall piece_ok ps -> forall f acts pr b t2 t1 t m x r, stopper x -> (length m <= f)%nat -> ptoks ps ++ x :: r = t :: m ->
    exists f' a2 a1, (length r <= f')%nat /\ base_at f acts pr b (Inp t2 t1 t m) = base_at f' acts pr (b ++ ptext ps) (Inp a2 a1 x r).
  Proof.
    induction 1 as [|p ps P PS IH]; intros f acts pr b t2 t1 t m x r X F E.
    - cbn in E. assert (t = x) by congruence. assert (m = r) by congruence. subst. exists f, t2, t1. split; [exact F|].
      unfold ptext. cbn [map concat]. now rewrite app_nil_r.
    - unfold ptoks in E. cbn [map concat] in E. fold (ptoks ps) in E. rewrite <- app_assoc in E.
      destruct p as [w|w ts]; cbn [ptoks1 app] in E.
      + assert (t = w) by congruence. assert (EM : m = ptoks ps ++ x :: r) by congruence. subst t. clear E.
        destruct m as [|u m]; [destruct (ptoks ps); discriminate|].
        rewrite (at_word _ _ _ _ _ _ _ _ _ P). destruct f as [|f]; [cbn in F; lia|]. cbn [length] in F.
        rewrite bases_at by (cbn [tk]; eapply ptoks_head; eauto).
        destruct (IH f acts pr (b ++ w) t1 w u m x r X ltac:(lia) (eq_sym EM)) as (f' & a2 & a1 & F' & ->).
        exists f', a2, a1. split; [exact F'|]. unfold ptext. cbn [map concat ptext1]. now rewrite <- app_assoc.
      + destruct P as (P & BA & _).
        assert (t = w) by congruence. assert (EM : m = bs "<" :: ts ++ ptoks ps ++ x :: r) by congruence. subst t m. clear E.
        rewrite (at_word _ _ _ _ _ _ _ _ _ P). destruct f as [|f]; [cbn in F; lia|]. cbn [length] in F.
        cbn [bases tk]. change (teq (bs "<") "virtual") with false. change (teq (bs "<") ":") with false. change (teq (bs "<") "private") with false.
        change (teq (bs "<") "protected") with false. change (teq (bs "<") "public") with false. change (teq (bs "<") "<") with true. cbn [orb].
        unfold pbound. cbn [more].
        assert (L1 : (length (ptoks ps ++ x :: r) < length (ts ++ ptoks ps ++ x :: r))%nat).
        { rewrite (app_length ts). pose proof (angled_ne _ _ BA) as NE. destruct ts; [congruence|]. cbn [length]. lia. }
        destruct (ptoks ps ++ x :: r) as [|u2 m2] eqn:E2; [destruct (ptoks ps); discriminate|]. cbn [length] in L1.
        destruct (ts ++ u2 :: m2) as [|u m] eqn:E1; [destruct ts; discriminate|]. cbn [length].
        apply word_facts in P. destruct P as (_ & _ & _ & P1 & P2 & _).
        rewrite (base_angle_first _ _ _ _ _ _ P1 P2).
        destruct (base_angle_run _ _ BA ltac:(lia) (S (length m)) ((b ++ w) ++ bs "< ") w (bs "<") u u2 m2 m ltac:(lia) E1) as (a1 & z & E3).
        change (Z.of_nat 1) with 1%Z in E3. rewrite E3. cbn [pbind]. cbn [length] in F, L1.
        destruct (IH f acts pr (((b ++ w) ++ bs "< ") ++ args_text ts) a1 z u2 m2 x r X ltac:(lia) E2) as (f' & c2 & c1 & F' & E').
        exists f', c2, c1. split; [exact F'|].
        etransitivity; [exact E'|]. f_equal. unfold ptext. cbn [map concat ptext1]. rewrite <- !app_assoc. reflexivity.
  Qed.
  Lemma virtual_turn f acts pr b t2 t1 u m : bases o k targs (S f) acts pr b (Inp t2 t1 (bs "virtual") (u :: m)) = bases o k targs f acts pr b (Inp t1 (bs "virtual") u m).
  Proof. reflexivity. Qed.
  Definition acc_priv (a : access) : bool := match a with Public => false | _ => true end.
  Lemma access_turn a f acts pr b t2 t1 u m : bases o k targs (S f) acts pr b (Inp t2 t1 (acctok a) (u :: m)) = bases o k targs f acts (acc_priv a) b (Inp t1 (acctok a) u m).
  Proof. destruct a, k; reflexivity. Qed.
  Lemma colon_turn f acts pr b t2 t1 u m : bases o k targs (S f) acts pr b (Inp t2 t1 (bs ":") (u :: m)) = bases o k targs f acts k b (Inp t1 (bs ":") u m).
  Proof. destruct k; reflexivity. Qed.
  Lemma spec_run1 v1 acc v2 ps x r : Forall piece_ok ps -> stopper x -> forall f acts pr t2 t1 t m, (length m < f)%nat ->
    vtok v1 ++ match acc with Some a => [acctok a] | None => [] end ++ vtok v2 ++ ptoks ps ++ x :: r = t :: m ->
    exists f' a2 a1, (length r <= f')%nat /\ bases o k targs f acts pr [] (Inp t2 t1 t m) =
       base_at f' acts (match acc with Some a => acc_priv a | None => pr end) (ptext ps) (Inp a2 a1 x r).
  Proof.
    intros P X.
    assert (N : forall f acts pr t2 t1 t m, (length m < f)%nat -> ptoks ps ++ x :: r = t :: m ->
      exists f' a2 a1, (length r <= f')%nat /\ bases o k targs f acts pr [] (Inp t2 t1 t m) = base_at f' acts pr (ptext ps) (Inp a2 a1 x r)).
    { intros f acts pr t2 t1 t m F E. destruct f as [|f]; [lia|]. rewrite bases_at by (cbn [tk]; eapply ptoks_head; eauto).
      destruct (name_run ps P f acts pr [] t2 t1 t m x r X ltac:(lia) E) as (f' & a2 & a1 & F' & ->). exists f', a2, a1. auto. }
    assert (V : forall v f acts pr t2 t1 t m, (length m < f)%nat -> vtok v ++ ptoks ps ++ x :: r = t :: m ->
      exists f' a2 a1, (length r <= f')%nat /\ bases o k targs f acts pr [] (Inp t2 t1 t m) = base_at f' acts pr (ptext ps) (Inp a2 a1 x r)).
    { intros v f acts pr t2 t1 t m F E. destruct v; cbn [vtok app] in E; [|now apply N].
      assert (t = bs "virtual") by congruence. assert (EM : ptoks ps ++ x :: r = m) by congruence. subst t. clear E.
      destruct m as [|u m]; [destruct (ptoks ps); discriminate|]. destruct f as [|f]; [lia|]. cbn [length] in F. rewrite virtual_turn. apply N; [lia|exact EM]. }
    assert (A : forall f acts pr t2 t1 t m, (length m < f)%nat -> match acc with Some a => [acctok a] | None => [] end ++ vtok v2 ++ ptoks ps ++ x :: r = t :: m ->
      exists f' a2 a1, (length r <= f')%nat /\ bases o k targs f acts pr [] (Inp t2 t1 t m) =
         base_at f' acts (match acc with Some a => acc_priv a | None => pr end) (ptext ps) (Inp a2 a1 x r)).
    { intros f acts pr t2 t1 t m F E. destruct acc as [a|]; cbn [app] in E; [|now apply (V v2)].
      assert (t = acctok a) by congruence. assert (EM : vtok v2 ++ ptoks ps ++ x :: r = m) by congruence. subst t. clear E.
      destruct m as [|u m]; [destruct v2; [discriminate|destruct (ptoks ps); discriminate]|]. destruct f as [|f]; [lia|]. cbn [length] in F. rewrite access_turn. apply (V v2); [lia|exact EM]. }
    intros f acts pr t2 t1 t m F E. destruct v1; cbn [vtok app] in E; [|now apply A].
    assert (t = bs "virtual") by congruence. assert (EM : match acc with Some a => [acctok a] | None => [] end ++ vtok v2 ++ ptoks ps ++ x :: r = m) by congruence. subst t. clear E.
    destruct m as [|u m]; [destruct acc; [discriminate|destruct v2; [discriminate|destruct (ptoks ps); discriminate]]|].
    destruct f as [|f]; [lia|]. cbn [length] in F. rewrite virtual_turn. apply A; [lia|exact EM].
  Qed.
  Lemma ptext_ne ps : ps <> [] -> Forall piece_ok ps -> ptext ps <> [].
  Proof.
    intros N P E. destruct P as [|p ps P _]; [congruence|]. unfold ptext in E. cbn [map concat] in E. apply app_eq_nil in E. destruct E as (E & _).
    destruct p as [w|w ts]; cbn [ptext1] in E; [|destruct P as (P & _); apply app_eq_nil in E; destruct E as (E & _)]; apply word_facts in P; subst; tauto.
  Qed.
  Definition bact (b : bspec) : list act := if base_seen (respect_private o) k b then [base_act o targs (ptext (b_name b))] else [].
  Lemma spec_run b x r f acts t2 t1 t m : bspec_ok b -> stopper x -> (length m < f)%nat -> btoks1 b ++ x :: r = t :: m ->
    exists f' a2 a1, (length r <= f')%nat /\ bases o k targs f acts k [] (Inp t2 t1 t m) =
      if teq x "{" then POk (acts ++ bact b, k) (Inp a2 a1 x r)
      else pbind (next (Inp a2 a1 x r)) (fun _ i => bases o k targs f' (acts ++ bact b) k [] i).
  Proof.
    intros (NE & P) X F E. unfold btoks1 in E. rewrite <- !app_assoc in E.
    destruct (spec_run1 _ _ _ _ _ _ P X f acts k t2 t1 t m F E) as (f' & a2 & a1 & F' & ->). exists f', a2, a1. split; [exact F'|].
    unfold base_at. cbn [tk]. replace (strchr ",{" (first x)) with true by (destruct X; subst; reflexivity).
    replace (beq (ptext (b_name b)) []) with false. 2: { destruct (beqP (ptext (b_name b)) []) as [E1|]; [|reflexivity]. exfalso. now apply ptext_ne in E1. }
    cbn [negb andb]. unfold bact, base_seen.
    replace (negb match b_access b with Some a => acc_priv a | None => k end)
      with match b_access b with Some Public => true | Some _ => false | None => negb k end by (destruct (b_access b) as [[]|]; reflexivity).
    destruct (_ || _)%bool; [reflexivity|]. now rewrite app_nil_r.
  Qed.
  Lemma specs_run bl : Forall bspec_ok bl -> forall b f acts t2 t1 t m r, bspec_ok b -> (length m < f)%nat ->
    btoks1 b ++ concat (map (fun b => bs "," :: btoks1 b) bl) ++ bs "{" :: r = t :: m ->
    exists a2 a1, bases o k targs f acts k [] (Inp t2 t1 t m) = POk (acts ++ concat (map bact (b :: bl)), k) (Inp a2 a1 (bs "{") r).
  Proof.
    induction 1 as [|b2 bl B2 _ IH]; intros b f acts t2 t1 t m r B F E.
    - cbn [map concat app] in E.
      destruct (spec_run b (bs "{") r f acts t2 t1 t m B (or_intror eq_refl) F E) as (f' & a2 & a1 & _ & ->).
      exists a2, a1. cbn [map concat]. rewrite app_nil_r. reflexivity.
    - cbn [map concat app] in E. rewrite <- app_assoc in E.
      destruct (spec_run b (bs ",") _ f acts t2 t1 t m B (or_introl eq_refl) F E) as (f' & a2 & a1 & F' & ->).
      change (teq (bs ",") "{") with false. cbv iota. unfold next. cbn [more].
      destruct (btoks1 b2 ++ concat (map (fun b => bs "," :: btoks1 b) bl) ++ bs "{" :: r) as [|u m2] eqn:E2.
      { exfalso. destruct (btoks1 b2); [|discriminate]. destruct (concat _); discriminate. }
      cbn [pbind tk1 tk]. cbn [length] in F'.
      destruct (IH b2 f' (acts ++ bact b) a1 (bs ",") u m2 r B2 ltac:(lia) E2) as (c2 & c1 & ->).
      exists c2, c1. cbn [map concat]. now rewrite <- app_assoc.
  Qed.
  Lemma bases_run bl : Forall bspec_ok bl -> forall f t2 t1 t m r, (length m < f)%nat -> btoks bl ++ bs "{" :: r = t :: m ->
    exists a2 a1, bases o k targs f [] k [] (Inp t2 t1 t m) = POk (concat (map bact bl), k) (Inp a2 a1 (bs "{") r).
  Proof.
    intros B f t2 t1 t m r F E. destruct B as [|b bl B BL]; cbn [btoks app] in E.
    - assert (t = bs "{") by congruence. assert (m = r) by congruence. subst. destruct f as [|f]; [lia|]. exists t2, t1. reflexivity.
    - assert (t = bs ":") by congruence. assert (EM : (btoks1 b ++ concat (map (fun b => bs "," :: btoks1 b) bl)) ++ bs "{" :: r = m) by congruence. subst t. clear E.
      rewrite <- app_assoc in EM. destruct m as [|u m].
      { exfalso. destruct (btoks1 b); [|discriminate]. destruct (concat _); discriminate. }
      destruct f as [|f]; [lia|]. cbn [length] in F. rewrite colon_turn.
      exact (specs_run bl BL b f [] t1 (bs ":") u m r B ltac:(lia) EM).
  Qed.
End Bases.

(** ** A class *)
Lemma filter_all {A} (f : A -> bool) l : Forall (fun a => f a = true) l -> filter f l = l.
Proof. induction 1 as [|a l H _ IH]; [reflexivity|]. cbn [filter]. now rewrite H, IH. Qed.
Lemma filter_map {A B} (f : B -> bool) (h : A -> B) l : filter f (map h l) = map h (filter (fun a => f (h a)) l).
Proof. induction l as [|a l IH]; [reflexivity|]. cbn [map filter]. destruct (f (h a)); cbn [map]; now rewrite IH. Qed.
Lemma fun_names_dot ms : filter (beq []) (fun_names ms) = [].
Proof.
  unfold fun_names. induction ms as [|m ms IH]; [reflexivity|]. cbn [map concat]. rewrite filter_app, IH, app_nil_r. destruct m; reflexivity.
Qed.
Lemma bact_names o k targs bl : Forall (fun a => a_name a = []) (concat (map (bact o k targs) bl)).
Proof.
  induction bl as [|b bl IH]; [constructor|]. cbn [map concat]. apply Forall_app. split; [|exact IH].
  unfold bact. destruct base_seen; [|constructor]. constructor; [reflexivity|constructor].
Qed.
Lemma class_run o fuel k prefix targs g bl ms rest t2 t1 t m :
  overloading o = false -> (has_lt prefix = true -> class_part prefix <> []) -> Forall bspec_ok bl -> Forall mem_ok ms -> no_leak false ms ->
  (0 < fuel)%nat -> btoks bl ++ bs "{" :: mtoks ms ++ bs "}" :: rest = t :: m ->
  exists a b, parse_class o fuel k prefix targs g (Inp t2 t1 t m) =
    COk (concat (map (bact o k targs) bl) ++ map to_act (acts_of (use_mbr o) (respect_private o) prefix (class_part prefix) k ms)) g (Inp a b (bs "}") rest).
Proof.
  intros OV CP B M NL FU E. destruct fuel as [|fuel]; [lia|]. cbn [parse_class]. unfold cbind, lift, get, cret. unfold pbound at 1. cbn [more].
  destruct (bases_run o k targs bl B (S (length m)) t2 t1 t m _ ltac:(lia) E) as (a2 & a1 & ->).
  unfold pbound. cbn [more].
  match goal with |- context [members o ?pc prefix targs ?f ?l g ?i] =>
    destruct (members_body o pc prefix targs g [] OV CP ms (concat (map (bact o k targs) bl)) k (respect_private o && k)%bool a2 a1 (bs "{") rest f M NL) as (l' & a & b & R & L1 & L2 & L3) end.
  { split; reflexivity. } { lia. }
  unfold LL in R. rewrite R. exists a, b. f_equal. unfold prune. rewrite OV, L1, L2, L3. cbn [existsb negb andb]. rewrite filter_app. f_equal.
  - apply filter_all. eapply Forall_impl; [|apply bact_names]. intros x ->. unfold countb. now rewrite fun_names_dot.
  - rewrite filter_map. reflexivity.
Qed.

(** ** Names *)
Definition free (s : tok) : Prop := ~ In "<"%char s /\ ~ In ">"%char s.
Lemma word_chars t : word t -> forall c, In c t -> c <> "<"%char /\ c <> ">"%char /\ c <> ":"%char.
Proof.
  intros (_ & F) c I. rewrite Forall_forall in F. specialize (F c I). repeat split; intros ->; destruct F as [F|F]; try discriminate F; revert F; cbv; lia.
Qed.
Lemma word_free t : word t -> free t.
Proof. intros W. split; intros X; apply (word_chars _ W) in X; tauto. Qed.
Lemma word_colon t : word t -> ~ In ":"%char t.
Proof. intros W X. apply (word_chars _ W) in X. tauto. Qed.
Lemma free_app a b : free a -> free b -> free (a ++ b).
Proof. intros (A & B) (C & D). split; intros X; apply in_app_or in X; tauto. Qed.
Lemma free_colons : free (bs "::"). Proof. split; intros X; cbn in X; intuition discriminate. Qed.
Lemma free_has_lt s : free s -> has_lt s = false.
Proof.
  intros (A & _). unfold has_lt. destruct (existsb _ s) eqn:E; [|reflexivity]. apply existsb_exists in E. destruct E as (c & I & E).
  exfalso. apply A. unfold ceq in E. apply Ascii.eqb_eq in E. now subst.
Qed.
Lemma find_at_none s l : forall i, s <> [] -> (forall c, In c s -> ~ In c l) -> find_at s l i = None.
Proof.
  induction l as [|c l IH]; intros i N H; destruct s as [|d s]; try congruence; cbn.
  - reflexivity.
  - destruct (starts (d :: s) (c :: l)) eqn:E.
    + exfalso. apply startsP in E. destruct E as (x & E). cbn [app] in E. assert (c = d) by congruence. subst. apply (H d); now left.
    + apply IH; [discriminate|]. intros x X Y. apply (H x X). now right.
Qed.
Lemma class_part_name ns name : ends ns -> free ns -> word name -> class_part (ns ++ name ++ bs "::") = name.
Proof.
  intros (x & ->) F W. unfold class_part.
  replace (firstn (length ((x ++ bs "::") ++ name ++ bs "::") - 2) ((x ++ bs "::") ++ name ++ bs "::")) with ((x ++ bs "::") ++ name).
  2: { rewrite (app_assoc (x ++ bs "::")). rewrite app_length. change (length (bs "::")) with 2%nat. rewrite Nat.add_sub, firstn_app, Nat.sub_diag, firstn_all. cbn [firstn]. now rewrite app_nil_r. }
  assert (FR : free ((x ++ bs "::") ++ name)) by (apply free_app; [exact F|now apply word_free]).
  replace (find_from (bs "<") ((x ++ bs "::") ++ name) 0) with (@None nat).
  2: { symmetry. unfold find_from. cbn [Nat.leb skipn]. apply find_at_none; [discriminate|]. intros c [<-|[]]. apply FR. }
  rewrite firstn_all. rewrite <- app_assoc. rewrite rfind2_last, (rfind2_colon _ (word_colon _ W)).
  rewrite app_assoc. replace (length x + 2)%nat with (length (x ++ bs "::")) by (rewrite app_length; reflexivity).
  rewrite skipn_app, skipn_all, Nat.sub_diag. reflexivity.
Qed.
Lemma seen_templ_free s : free s -> seen_templ s [false] = Some false.
Proof.
  induction s as [|c s IH]; intros (A & B); [reflexivity|]. cbn [seen_templ].
  replace (ceq c "<") with false. 2: { symmetry. apply Bool.not_true_iff_false. intros E. unfold ceq in E. apply Ascii.eqb_eq in E. subst. apply A. now left. }
  replace (ceq c ">") with false. 2: { symmetry. apply Bool.not_true_iff_false. intros E. unfold ceq in E. apply Ascii.eqb_eq in E. subst. apply B. now left. }
  rewrite IH by (split; intros X; [apply A|apply B]; now right). now destruct (_ && _)%bool.
Qed.
Lemma new_action_run ty a templ g i : ends (g_ns g) ->
  new_action ty a templ g i = COk tt (add_action (Action ty a (firstn (length (g_ns g) - 2) (g_ns g)) templ) g) i.
Proof.
  intros (x & E). unfold new_action, cbind, get_ns, upd. rewrite E.
  replace (rfind2 (x ++ bs "::")) with (Some (length x)).
  2: { rewrite <- (app_nil_r (bs "::")). rewrite rfind2_last. reflexivity. }
  rewrite app_length. change (length (bs "::")) with 2%nat. now rewrite Nat.add_sub.
Qed.

Definition base_acts (o : opts) (b : tok) : act :=
  Act [] (bs "classdesc::base_cast<" ++ b ++ bs " >::cast(arg)") (if onBase o then b else []) false (onBase o).
Lemma base_act_plain o b : base_act o [] b = base_acts o b.
Proof.
  unfold base_act, typename_needed. destruct (last_colon b); [|reflexivity].
  replace (existsb _ _) with false; [reflexivity|]. induction (token_set b) as [|t l IH]; [reflexivity|]. cbn [existsb andb token_set token_list]. exact IH.
Qed.
Lemma bacts_plain o k bl : concat (map (bact o k []) bl) = map (base_acts o) (base_names (respect_private o) k bl).
Proof.
  unfold base_names. induction bl as [|b bl IH]; [reflexivity|]. cbn [map concat filter]. unfold bact at 1.
  destruct (base_seen _ _ b); cbn [map app]; rewrite IH; [now rewrite base_act_plain|reflexivity].
Qed.
Definition class_eff (o : opts) (k : bool) (ns p name : tok) (bases : list tok) (cs : list call) (g : glob) : glob :=
  add_type (true, p ++ name)
    (add_action (Action (kw k ++ bs " " ++ p ++ name) (map (base_acts o) bases ++ map to_act cs) (firstn (length ns - 2) ns) []) g).
(** a class template *)
Definition base_acts_t (o : opts) (fb : bool * tok) : act :=
  Act [] (bs "classdesc::base_cast<" ++ (if fst fb then bs "typename " else []) ++ snd fb ++ bs " >::cast(arg)") (if onBase o then snd fb else []) false (onBase o).
Definition templ_eff (o : opts) (k : bool) (ns name templ args : tok) (bases : list (bool * tok)) (cs : list call) (g : glob) : glob :=
  add_type (true, ns ++ name ++ args)
    (add_action (Action (kw k ++ bs " " ++ ns ++ name ++ args) (map (base_acts_t o) bases ++ map to_act cs) (firstn (length ns - 2) ns) templ) g).
Lemma word_tok t s : word t -> ident (bs s) = false -> teq t s = false.
Proof. intros (I & _) E. apply is_ne. intros ->. congruence. Qed.
Lemma word_idt t : word t -> idt t = true.
Proof. intros (I & _). destruct t; [discriminate|exact I]. Qed.
Lemma fwd_item o k ns name rest t2 g : word name ->
  assign_class_action (pcls o) ns [] [] false g (Inp t2 (kw k) name (bs ";" :: rest)) = COk tt (add_type (false, ns ++ name) g) (Inp (kw k) name (bs ";") rest).
Proof.
  intros W. unfold assign_class_action, cbind, get, nxt, lift, next. cbn [more tk1 tk].
  change (teq (bs ";") "<") with false. change (extract_targs []) with (Some ([] : tok)). unfold opt, cret. unfold pbound, qualified. cbn [more tk].
  change (teq (bs ";") "::") with false. cbn [tk]. change (strchr ":{" (first (bs ";"))) with false. unfold upd. now rewrite app_nil_r.
Qed.

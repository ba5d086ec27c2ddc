(** * The command line of the generator: C82 *)
From Verif Require Import Base Base_Proofs SMap Dec Desc_Model Tok_Model Parse_Model Parse_Props ClassParse_Model Gen_Model.

(** What each option should do, independent of the loop *)
Inductive known : list tok -> (conf -> conf) -> Prop :=
| kn_workdir d : known [bs "-workdir"; d] (k_workdir (d ++ bs "/"))
| kn_objc : known [bs "-objc"] (k_objc true)
| kn_overload : known [bs "-overload"] k_over
| kn_include h : known [bs "-include"; h] (k_include h)
| kn_nodef : known [bs "-nodef"] (k_def false)
| kn_private : known [bs "-respect_private"] k_priv
| kn_mbr : known [bs "-use_mbr_pointers"] k_mbr
| kn_path d : known [bs "-I"; d] (k_path d)
| kn_typeName : known [bs "-typeName"] k_tn
| kn_onbase : known [bs "-onbase"] k_base
| kn_input f : known [bs "-i"; f] (k_input f)
| kn_qt : known [bs "-qt"] (k_qt true).
(** [reads args c c' rest]: options only, then [rest] *)
Inductive reads : list tok -> conf -> conf -> list tok -> Prop :=
| rd_end c rest : reads rest c c rest
| rd_opt o f args c c' rest : known o f -> reads args (f c) c' rest -> reads (o ++ args) c c' rest.
Definition names (l : list tok) : Prop := match l with [] => True | a :: _ => first a <> "-"%char end.
Definition option_names : list tok := map fst optable.

Lemma known_split o f : known o f -> exists n k, In (n, k) optable /\
  ((k = Flag f /\ o = [n]) \/ (exists x h, k = WithArg h /\ f = h x /\ o = [n; x])).
Proof.
  assert (T : forall n k, nth_error optable n = Some k -> In k optable) by (intros; eapply nth_error_In; eauto).
  destruct 1.
  - exists (bs "-workdir"), (WithArg (fun a => k_workdir (a ++ bs "/"))). split; [apply (T 0%nat); reflexivity|]. right. exists d. eexists. repeat split.
  - exists (bs "-objc"). eexists. split; [apply (T 1%nat); reflexivity|]. left. split; reflexivity.
  - exists (bs "-overload"). eexists. split; [apply (T 2%nat); reflexivity|]. left. split; reflexivity.
  - exists (bs "-include"). eexists. split; [apply (T 3%nat); reflexivity|]. right. exists h. eexists. repeat split.
  - exists (bs "-nodef"). eexists. split; [apply (T 4%nat); reflexivity|]. left. split; reflexivity.
  - exists (bs "-respect_private"). eexists. split; [apply (T 5%nat); reflexivity|]. left. split; reflexivity.
  - exists (bs "-use_mbr_pointers"). eexists. split; [apply (T 6%nat); reflexivity|]. left. split; reflexivity.
  - exists (bs "-I"). eexists. split; [apply (T 7%nat); reflexivity|]. right. exists d. eexists. repeat split.
  - exists (bs "-typeName"). eexists. split; [apply (T 8%nat); reflexivity|]. left. split; reflexivity.
  - exists (bs "-onbase"). eexists. split; [apply (T 9%nat); reflexivity|]. left. split; reflexivity.
  - exists (bs "-i"). eexists. split; [apply (T 10%nat); reflexivity|]. right. exists f. eexists. repeat split.
  - exists (bs "-qt"). eexists. split; [apply (T 12%nat); reflexivity|]. left. split; reflexivity.
Qed.
Fixpoint distinct (l : list tok) : bool := match l with [] => true | a :: l => (negb (existsb (beq a) l) && distinct l)%bool end.
Lemma table_distinct : distinct option_names = true. Proof. vm_compute. reflexivity. Qed.
Lemma distinct_fun (l : list (tok * optk)) : distinct (map fst l) = true -> forall n k k', In (n, k) l -> In (n, k') l -> k = k'.
Proof.
  induction l as [|(m, j) l IH]; intros D n k k' A B; [destruct A|]. cbn [map fst distinct] in D. apply Bool.andb_true_iff in D. destruct D as (D1 & D2).
  assert (X : forall k, In (m, k) l -> False).
  { intros q Q. apply Bool.negb_true_iff in D1. assert (existsb (beq m) (map fst l) = true); [|congruence].
    apply existsb_exists. exists m. split; [apply (in_map fst) in Q; exact Q|apply beq_refl]. }
  destruct A as [A|A], B as [B|B].
  - congruence.
  - assert (m = n) by congruence. subst. now apply X in B.
  - assert (m = n) by congruence. subst. now apply X in A.
  - eapply IH; eauto.
Qed.
Lemma table_dash n k : In (n, k) optable -> first n = "-"%char.
Proof. intros H. repeat (destruct H as [H|H]; [assert (E : n = fst (n, k)) by reflexivity; rewrite E, <- H; reflexivity|]). destruct H. Qed.

(** one turn takes options only, and takes the first if it is in the part of the table left *)
Lemma turn_run tab : (exists pre, optable = pre ++ tab) -> forall args c c' rest, reads args c c' rest ->
  (match rest with a :: _ => ~ In a (map fst optable) | [] => True end) ->
  exists args1 c1, turn_opts tab c args = ORun c1 args1 /\ reads args1 c1 c' rest /\ (length args1 <= length args)%nat
    /\ (match args with a :: _ => In a (map fst tab) -> (length args1 < length args)%nat | [] => True end).
Proof.
  induction tab as [|(n, k) tab IH]; intros (pre & T) args c c' rest R NO; cbn [turn_opts].
  - exists args, c. repeat split; auto. destruct args; [exact I|intros []].
  - assert (T' : exists pre, optable = pre ++ tab) by (exists (pre ++ [(n, k)]); rewrite T, <- app_assoc; reflexivity).
    destruct args as [|a args].
    { exists [], c. repeat split; auto. }
    assert (INk : In (n, k) optable) by (rewrite T; apply in_or_app; right; left; reflexivity).
    destruct (beq a n) eqn:E.
    + apply beq_eq in E. subst a. inversion R as [? ? E1|o f args0 ? ? ? KN R0 E1]; subst.
      { exfalso. apply NO. apply (in_map fst) in INk. exact INk. }
      destruct (known_split o f KN) as (n' & k' & IN & D).
      destruct D as [(-> & ->)|(x & h & -> & -> & ->)]; cbn [app] in E1; injection E1 as <- <-;
        pose proof (distinct_fun optable table_distinct _ _ _ INk IN) as ->.
      * destruct (IH T' _ _ _ _ R0 NO) as (a1 & c1 & A & B & C & D). exists a1, c1. cbn [app length] in *. split; [exact A|]; split; [exact B|]; split; [lia|intros; lia].
      * destruct (IH T' _ _ _ _ R0 NO) as (a1 & c1 & A & B & C & D). exists a1, c1. cbn [app length] in *. split; [exact A|]; split; [exact B|]; split; [lia|intros; lia].
    + destruct (IH T' _ _ _ _ R NO) as (a1 & c1 & A & B & C & D). exists a1, c1. repeat split; auto.
      intros [H|H]; [cbn in H; subst; rewrite beq_refl in E; discriminate|auto].
Qed.
Lemma reads_case args c c' rest : reads args c c' rest -> (args = rest /\ c = c') \/
  (exists a l, args = a :: l /\ In a (map fst optable) /\ first a = "-"%char).
Proof.
  destruct 1 as [|o f args c c' rest KN R]; [auto|]. right. destruct (known_split o f KN) as (n & k & IN & D).
  assert (In n (map fst optable)) by (apply (in_map fst) in IN; exact IN). pose proof (table_dash _ _ IN).
  destruct D as [(_ & ->)|(x & h & _ & _ & ->)]; cbn [app]; eauto 6.
Qed.
Lemma loop_run f : forall args c c' rest, reads args c c' rest ->
  (match rest with a :: _ => ~ In a (map fst optable) | [] => True end) -> (length args < f)%nat ->
  exists f', (length rest < f')%nat /\ loop_opts f c args = loop_opts f' c' rest.
Proof.
  induction f as [|f IH]; intros args c c' rest R NO L; [lia|].
  destruct (reads_case _ _ _ _ R) as [(-> & ->)|(a & l & -> & IN & DS)]; [exists (S f); split; [exact L|reflexivity]|].
  destruct (turn_run optable (ex_intro _ [] eq_refl) _ _ _ _ R NO) as (a1 & c1 & T & R1 & _ & LT). specialize (LT IN).
  destruct (IH _ _ _ _ R1 NO ltac:(cbn [length] in *; lia)) as (f' & F & E).
  exists f'. split; [exact F|]. rewrite <- E. cbn [loop_opts]. rewrite DS. change (ceq "-" "-") with true. cbv iota.
  rewrite T. replace (length a1 <? length (a :: l))%nat with true by (symmetry; apply Nat.ltb_lt; lia). reflexivity.
Qed.
Lemma names_out rest : names rest -> match rest with a :: _ => ~ In a (map fst optable) | [] => True end.
Proof.
  destruct rest as [|a l]; [auto|]. cbn [names]. intros H IN. apply in_map_iff in IN. destruct IN as ((n & k) & E & IN). cbn in E. subst.
  apply H. eapply table_dash; eauto.
Qed.

Theorem C82_options : forall args c rest, args <> [] -> reads args conf0 c rest -> names rest -> options args = ORun c rest.
Proof.
  intros args c rest NE R N. unfold options. destruct args as [|a args]; [congruence|].
  destruct (loop_run (S (length (a :: args))) _ _ _ _ R (names_out _ N) ltac:(lia)) as (f & F & E). rewrite E.
  destruct f as [|f]; [lia|]. destruct rest as [|r rest]; [reflexivity|]. cbn [loop_opts].
  replace (ceq (first r) "-") with false; [reflexivity|]. symmetry. apply Ascii.eqb_neq. exact N.
Qed.
Print Assumptions C82_options.
Example C82_options_ex : let args := map bs ["-nodef"; "-I"; "inc"; "-workdir"; "-w"; "-nodef"; "pack"; "-x"]%string in
  reads args conf0 (k_def false (k_workdir (bs "-w/") (k_path (bs "inc") (k_def false conf0)))) [bs "pack"; bs "-x"] /\ names [bs "pack"; bs "-x"].
Proof.
  cbv zeta. split; [|discriminate].
  change (map bs _) with ([bs "-nodef"] ++ [bs "-I"; bs "inc"] ++ [bs "-workdir"; bs "-w"] ++ [bs "-nodef"] ++ [bs "pack"; bs "-x"]).
  eapply rd_opt; [apply kn_nodef|]. eapply rd_opt; [apply kn_path|]. eapply rd_opt; [apply kn_workdir|]. eapply rd_opt; [apply kn_nodef|]. apply rd_end.
Qed.
(** the version is printed as soon as it is asked for; an argument missing ends the program with 1 *)
Theorem C82_version : forall args c rest, reads args conf0 c (bs "-v" :: rest) -> exists s, options args = OExit 0 s.
Proof.
  intros args c rest R. unfold options. destruct args as [|a args].
  { inversion R as [|o f args0 ? ? ? KN]; subst. destruct KN; discriminate. }
  clear - R. remember (a :: args) as l eqn:El. clear El. exists (bs "Version: ").
  assert (T : forall tab, (exists pre, optable = pre ++ tab) -> forall args c0, reads args c0 c (bs "-v" :: rest) ->
     turn_opts tab c0 args = OExit 0 (bs "Version: ") \/
     exists args1 c1, turn_opts tab c0 args = ORun c1 args1 /\ reads args1 c1 c (bs "-v" :: rest) /\ (length args1 <= length args)%nat
    /\ (match args with a :: _ => In a (map fst tab) -> (length args1 < length args)%nat | [] => True end)).
  { induction tab as [|(n, k) tab IH]; intros (pre & T) as_ c0 R0; cbn [turn_opts].
    - right. exists as_, c0. repeat split; auto. destruct as_; [exact I|intros []].
    - assert (T' : exists pre, optable = pre ++ tab) by (exists (pre ++ [(n, k)]); rewrite T, <- app_assoc; reflexivity).
      destruct as_ as [|b as_]. { right. exists [], c0. repeat split; auto. }
      assert (INk : In (n, k) optable) by (rewrite T; apply in_or_app; right; left; reflexivity).
      destruct (beq b n) eqn:E.
      + apply beq_eq in E. subst b. inversion R0 as [? ? E1|o f args0 ? ? ? KN R1 E1]; subst.
        { left. assert (k = Version) as ->; [|reflexivity].
          eapply (distinct_fun optable table_distinct); [eassumption|]. eapply (nth_error_In _ 11). reflexivity. }
        destruct (known_split o f KN) as (n' & k' & IN & D).
        destruct D as [(-> & ->)|(x & h & -> & -> & ->)]; cbn [app] in E1; injection E1 as <- <-;
          pose proof (distinct_fun optable table_distinct _ _ _ INk IN) as ->;
          (destruct (IH T' _ _ R1) as [A|(a1 & c1 & A & B & C & D)]; [left; exact A|]; right; exists a1, c1; cbn [app length] in *; split; [exact A|]; split; [exact B|]; split; [lia|intros; lia]).
      + destruct (IH T' _ _ R0) as [A|(a1 & c1 & A & B & C & D)]; [left; exact A|]. right. exists a1, c1. repeat split; auto.
        intros [H|H]; [cbn in H; subst; rewrite beq_refl in E; discriminate|auto]. }
  assert (G : forall f args c0, reads args c0 c (bs "-v" :: rest) -> (length args < f)%nat -> loop_opts f c0 args = OExit 0 (bs "Version: ")).
  { induction f as [|f IH]; intros as_ c0 R0 L; [lia|].
    assert (HD : exists b m, as_ = b :: m /\ In b (map fst optable) /\ first b = "-"%char).
    { destruct (reads_case _ _ _ _ R0) as [(-> & _)|X]; [|exact X]. exists (bs "-v"), rest. split; [reflexivity|].
      split; [|reflexivity]. eapply (nth_error_In _ 11). reflexivity. }
    destruct HD as (b & m & -> & IN & DS). cbn [loop_opts]. rewrite DS. change (ceq "-" "-") with true. cbv iota.
    destruct (T optable (ex_intro _ [] eq_refl) _ _ R0) as [A|(a1 & c1 & A & B & C & D)]; rewrite A; [reflexivity|]. specialize (D IN).
    replace (length a1 <? length (b :: m))%nat with true by (symmetry; apply Nat.ltb_lt; lia). apply IH; [exact B|cbn [length] in *; lia]. }
  apply (G _ _ _ R). lia.
Qed.
Print Assumptions C82_version.
Example C82_version_ex : exists c, reads (map bs ["-typeName"; "-v"; "-zz"]%string) conf0 c [bs "-v"; bs "-zz"].
Proof. eexists. change (map bs _) with ([bs "-typeName"] ++ [bs "-v"; bs "-zz"]). eapply rd_opt; [apply kn_typeName|]. apply rd_end. Qed.
(** an option that is not known makes the loop run for ever: for every command line with one *)
Theorem C82_unknown : forall args c a rest, reads args conf0 c (a :: rest) -> first a = "-"%char -> ~ In a option_names ->
  options args = OLoop.
Proof.
  intros args c a rest R DS NO. unfold options. destruct args as [|b args].
  { inversion R as [|o f args0 ? ? ? KN]; subst. destruct KN; discriminate. }
  destruct (loop_run (S (length (b :: args))) _ _ _ _ R NO ltac:(lia)) as (f & F & E). rewrite E. destruct f as [|f]; [lia|].
  assert (T : forall tab c, (forall n, In n (map fst tab) -> In n (map fst optable)) -> turn_opts tab c (a :: rest) = ORun c (a :: rest)).
  { induction tab as [|(n, k) tab IH]; intros c0 H; [reflexivity|]. cbn [turn_opts]. destruct (beq a n) eqn:Q.
    - apply beq_eq in Q. subst. exfalso. apply NO. apply H. left. reflexivity.
    - apply IH. intros m M. apply H. right. exact M. }
  cbn [loop_opts]. rewrite DS. change (ceq "-" "-") with true. cbv iota. rewrite T by auto. now rewrite Nat.ltb_irrefl.
Qed.
Print Assumptions C82_unknown.
Theorem C82_ends_refuted : exists args, options args = OLoop /\ args = map bs ["-nodef"; "--help"]%string.
Proof. exists (map bs ["-nodef"; "--help"]%string). split; [vm_compute; reflexivity|reflexivity]. Qed.
Theorem C82_missing : forall args c n f, reads args conf0 c [n] -> In (n, WithArg f) optable -> exists s, options args = OExit 1 s.
Proof.
  intros args c n f R INn. unfold options. destruct args as [|a args].
  { inversion R as [|o f0 args0 ? ? ? KN]; subst. destruct KN; discriminate. }
  exists (bs "option argument missing"). clear - R INn. remember (a :: args) as l eqn:El. clear El.
  assert (T : forall tab, (exists pre, optable = pre ++ tab) -> forall args c0, reads args c0 c [n] ->
     turn_opts tab c0 args = OExit 1 (bs "option argument missing") \/
     exists args1 c1, turn_opts tab c0 args = ORun c1 args1 /\ reads args1 c1 c [n] /\ (length args1 <= length args)%nat
    /\ (match args with a :: _ => In a (map fst tab) -> (length args1 < length args)%nat | [] => True end)).
  { induction tab as [|(m, k) tab IH]; intros (pre & T) as_ c0 R0; cbn [turn_opts].
    - right. exists as_, c0. repeat split; auto. destruct as_; [exact I|intros []].
    - assert (T' : exists pre, optable = pre ++ tab) by (exists (pre ++ [(m, k)]); rewrite T, <- app_assoc; reflexivity).
      destruct as_ as [|b as_]. { right. exists [], c0. repeat split; auto. }
      assert (INk : In (m, k) optable) by (rewrite T; apply in_or_app; right; left; reflexivity).
      destruct (beq b m) eqn:E.
      + apply beq_eq in E. subst b. inversion R0 as [? ? E1|o f0 args0 ? ? ? KN R1 E1]; subst.
        { left. assert (k = WithArg f) as ->; [|reflexivity]. eapply (distinct_fun optable table_distinct); eassumption. }
        destruct (known_split o f0 KN) as (n' & k' & IN & D).
        destruct D as [(-> & ->)|(x & h & -> & -> & ->)]; cbn [app] in E1; injection E1 as <- <-;
          pose proof (distinct_fun optable table_distinct _ _ _ INk IN) as ->;
          (destruct (IH T' _ _ R1) as [A|(a1 & c1 & A & B & C & D)]; [left; exact A|]; right; exists a1, c1; cbn [app length] in *; split; [exact A|]; split; [exact B|]; split; [lia|intros; lia]).
      + destruct (IH T' _ _ R0) as [A|(a1 & c1 & A & B & C & D)]; [left; exact A|]. right. exists a1, c1. repeat split; auto.
        intros [H|H]; [cbn in H; subst; rewrite beq_refl in E; discriminate|auto]. }
  assert (G : forall f args c0, reads args c0 c [n] -> (length args < f)%nat -> loop_opts f c0 args = OExit 1 (bs "option argument missing")).
  { induction f0 as [|f0 IH]; intros as_ c0 R0 L; [lia|].
    assert (HD : exists b m, as_ = b :: m /\ In b (map fst optable) /\ first b = "-"%char).
    { destruct (reads_case _ _ _ _ R0) as [(-> & _)|X]; [|exact X]. exists n, []. split; [reflexivity|].
      split; [apply (in_map fst) in INn; exact INn|eapply table_dash; eauto]. }
    destruct HD as (b & m & -> & IN & DS). cbn [loop_opts]. rewrite DS. change (ceq "-" "-") with true. cbv iota.
    destruct (T optable (ex_intro _ [] eq_refl) _ _ R0) as [A|(a1 & c1 & A & B & C & D)]; rewrite A; [reflexivity|]. specialize (D IN).
    replace (length a1 <? length (b :: m))%nat with true by (symmetry; apply Nat.ltb_lt; lia). apply IH; [exact B|cbn [length] in *; lia]. }
  apply (G _ _ _ R). lia.
Qed.
Print Assumptions C82_missing.
Example C82_missing_ex : exists c f, reads (map bs ["-typeName"; "-I"]%string) conf0 c [bs "-I"] /\ In (bs "-I", WithArg f) optable.
Proof.
  eexists _, _. split; [change (map bs _) with ([bs "-typeName"] ++ [bs "-I"]); eapply rd_opt; [apply kn_typeName|]; apply rd_end|].
  eapply (nth_error_In _ 7). reflexivity.
Qed.

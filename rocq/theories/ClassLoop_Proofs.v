(** * The loop of main over a file *)
From Verif Require Import Base Base_Proofs SMap Dec Desc_Model Tok_Model Parse_Model Parse_Props Ns_Props.
From Verif Require Import ClassParse_Model ClassParse_Proofs ClassParse_Spec ClassFile_Spec ClassMem_Proofs ClassFile_Proofs ClassEnum_Proofs ClassNest_Proofs ClassTempl_Proofs.

Lemma balanced_bal l r ts : balanced l r ts -> bal l r ts.
Proof. induction 1; [apply bal_nil|now apply bal_tok|now apply bal_nest]. Qed.
Lemma set_ns_same g : set_ns (g_ns g) g = g. Proof. destruct g; reflexivity. Qed.
Lemma add_keys_set name ks : forall ns g, add_keys name ks (set_ns ns g) = set_ns ns (add_keys name ks g).
Proof. induction ks as [|k ks IH]; intros ns g; [reflexivity|]. unfold add_keys. cbn [fold_left]. apply (IH ns (add_enum (name, k) g)). Qed.
Lemma ev_eff_set o e ns g : ev_eff o (set_ns ns g) e = set_ns ns (ev_eff o g e).
Proof.
  destruct e as [| | | |sc en p name keys| | |en [tag|] name bases cs]; [reflexivity|reflexivity|reflexivity|reflexivity| |reflexivity|reflexivity|reflexivity|reflexivity]. cbn [ev_eff]. unfold enum_eff.
  change (add_nested (p, name) (set_ns ns g)) with (set_ns ns (add_nested (p, name) g)). rewrite add_keys_set. reflexivity.
Qed.
Lemma evs_eff_set o es : forall ns g, evs_eff o es (set_ns ns g) = set_ns ns (evs_eff o es g).
Proof. unfold evs_eff. induction es as [|e es IH]; intros ns g; [reflexivity|]. cbn [fold_left]. now rewrite ev_eff_set, IH. Qed.

Lemma prag_line p : starts (bs "#pragma") (bs "#pragma " ++ p) = true. Proof. reflexivity. Qed.
Lemma starts_firstn s l : starts s l = true -> firstn (length s) l = s.
Proof. intros H. apply startsP in H. destruct H as (x & ->). rewrite firstn_app, Nat.sub_diag, firstn_O, app_nil_r. apply firstn_all. Qed.
Lemma starts_app a b p : starts (a ++ b) (a ++ p) = starts b p.
Proof.
  destruct (starts b p) eqn:E.
  - apply startsP in E. destruct E as (x & ->). apply startsP. exists x. apply app_assoc.
  - destruct (starts (a ++ b) (a ++ p)) eqn:F; [|reflexivity]. apply startsP in F. destruct F as (x & F).
    rewrite <- app_assoc in F. apply app_inv_head in F. assert (starts b p = true) by (apply startsP; eauto). congruence.
Qed.
Lemma prag_other p : (forall k, In k node_kinds -> firstn (length k) p <> k) -> prag_of (bs "#pragma " ++ p) = Some [].
Proof.
  intros H. assert (X : forall k, In k node_kinds -> starts k p = false).
  { intros k I. destruct (starts k p) eqn:E; [|reflexivity]. apply starts_firstn in E. now apply H in I. }
  unfold prag_of, prag_sub.
  change (bs "#pragma omit") with (bs "#pragma " ++ bs "omit").
  change (bs "#pragma treenode") with (bs "#pragma " ++ bs "treenode").
  change (bs "#pragma graphnode") with (bs "#pragma " ++ bs "graphnode").
  rewrite !starts_app, !X by (unfold node_kinds; cbn [In]; auto). reflexivity.
Qed.
Lemma ceq_eqb c d : ceq c d = Ascii.eqb c d. Proof. reflexivity. Qed.
Lemma prag_node k name : In k node_kinds ->
  prag_of (bs "#pragma " ++ k ++ bs " " ++ name) = Some [(node_kind k, filter (fun c => negb (Ascii.eqb c " ")) name)].
Proof. intros [<-|[<-|[<-|[]]]]; reflexivity. Qed.
Lemma add_prag_nil g : add_prag [] g = g. Proof. destruct g. unfold add_prag. cbn. now rewrite app_nil_r. Qed.

Lemma word_brace t : word t -> t <> bs "{" /\ t <> bs "}" /\ t <> bs "=".
Proof. intros (I & _). repeat split; intros ->; discriminate. Qed.
Lemma btoks_brace bl : Forall bspec_ok bl -> ~ In (bs "{") (btoks bl) /\ ~ In (bs "}") (btoks bl).
Proof.
  assert (W : forall t, base_word t = true -> t <> bs "{" /\ t <> bs "}").
  { intros t H. split; intros ->; discriminate. }
  assert (P : forall ps, Forall piece_ok ps -> ~ In (bs "{") (ptoks ps) /\ ~ In (bs "}") (ptoks ps)).
  { induction 1 as [|p ps Q _ IH]; [split; intros []|]. unfold ptoks. cbn [map concat]. fold (ptoks ps).
    assert (X : ~ In (bs "{") (ptoks1 p) /\ ~ In (bs "}") (ptoks1 p)).
    { destruct p as [t|t ts]; cbn [ptoks1].
      - apply W in Q. split; intros [X|[]]; subst; tauto.
      - destruct Q as (Q & _ & N1 & N2). apply W in Q. split; (intros [X|[X|X]]; [subst; tauto|discriminate|tauto]). }
    split; intros Y; apply in_app_or in Y; tauto. }
  assert (S1 : forall b, bspec_ok b -> ~ In (bs "{") (btoks1 b) /\ ~ In (bs "}") (btoks1 b)).
  { intros b (_ & B). apply P in B. unfold btoks1.
    split; intros X; (repeat (apply in_app_or in X; destruct X as [X|X]); [| | |tauto]);
      [destruct (b_v1 b); cbn in X; intuition discriminate|destruct (b_access b) as [[]|]; cbn in X; intuition discriminate|destruct (b_v2 b); cbn in X; intuition discriminate
      |destruct (b_v1 b); cbn in X; intuition discriminate|destruct (b_access b) as [[]|]; cbn in X; intuition discriminate|destruct (b_v2 b); cbn in X; intuition discriminate]. }
  intros B. destruct B as [|b bl B BL]; [split; intros []|]. cbn [btoks].
  assert (R : ~ In (bs "{") (concat (map (fun b => bs "," :: btoks1 b) bl)) /\ ~ In (bs "}") (concat (map (fun b => bs "," :: btoks1 b) bl))).
  { induction BL as [|b2 bl B2 _ IH]; [split; intros []|]. cbn [map concat]. apply S1 in B2.
    split; intros X; apply in_app_or in X; destruct X as [[X|X]|X]; try discriminate; tauto. }
  apply S1 in B. split; (intros [X|X]; [discriminate|]; apply in_app_or in X; tauto).
Qed.
Lemma outside_facts t : outside t = true ->
  teq t "typedef" = false /\ teq t "template" = false /\ teq t "class" = false /\ teq t "struct" = false /\ teq t "enum" = false /\ teq t "using" = false
  /\ teq t "namespace" = false /\ teq t "(" = false /\ teq t "{" = false /\ teq t "}" = false /\ starts (bs "#pragma") t = false.
Proof.
  unfold outside. intros H. apply Bool.negb_true_iff in H. rewrite !Bool.orb_false_iff in H.
  destruct H as ((((((((((A & B) & C) & D) & E) & F) & G) & H) & I) & J) & K). repeat split; auto.
  destruct (starts (bs "#pragma") t) eqn:S; [|reflexivity]. apply startsP in S. destruct S as (x & ->). vm_compute in K. discriminate.
Qed.
Lemma file_bal mbr re ns ts es : file mbr re ns ts es -> bal (bs "{") (bs "}") ts.
Proof.
  induction 1.
  - apply bal_nil.
  - apply outside_facts in H. destruct H as (_ & _ & _ & _ & _ & _ & _ & _ & H & H' & _). apply bal_tok; auto; intros ->; discriminate.
  - now apply bal_nest.
  - apply word_brace in H. apply bal_tok; [discriminate|discriminate|]. apply bal_tok; try tauto. now apply bal_nest.
  - apply bal_tok; [discriminate|discriminate|]. now apply bal_nest.
  - apply word_brace in H. apply bal_tok; [discriminate|discriminate|]. apply bal_tok; try tauto. apply bal_tok; [discriminate|discriminate|].
    apply bal_app; [now apply bal_none|]. now apply bal_tok.
  - apply bal_tok; [discriminate|discriminate|]. apply bal_app; [now apply bal_none|]. now apply bal_tok.
  - apply bal_tok; [discriminate|discriminate|]. apply bal_app; [now apply bal_none|]. now apply bal_tok.
  - apply word_brace in H. apply bal_tok; [discriminate|discriminate|]. apply bal_tok; [destruct k; discriminate|destruct k; discriminate|]. apply bal_tok; try tauto.
    rewrite Forall_forall in H0. apply bal_app; [apply bal_none; intros X; destruct (H0 _ X) as (Y & Z); [discriminate Y|now apply Z]|]. now apply bal_tok.
  - apply word_brace in H. apply bal_tok; [discriminate|discriminate|]. apply bal_tok; [destruct k; discriminate|destruct k; discriminate|]. apply bal_tok; try tauto.
    apply btoks_brace in H0. apply bal_app; [now apply bal_none|]. apply bal_nest; [now apply balanced_bal|assumption].
  - apply bal_tok; [discriminate|discriminate|]. apply bal_tok; [destruct k; discriminate|destruct k; discriminate|].
    apply btoks_brace in H0. apply bal_app; [now apply bal_none|]. apply bal_nest; [now apply balanced_bal|assumption].
  - apply bal_tok; [discriminate|discriminate|]. apply bal_tok; [discriminate|discriminate|]. apply bal_app; [now apply bal_none|].
    assert (QN : bal (bs "{") (bs "}") (q ++ n :: bs ";" :: ts)).
    { change (q ++ n :: bs ";" :: ts) with (q ++ [n] ++ bs ";" :: ts). rewrite app_assoc. destruct H2 as (_ & X & Y). apply bal_app; [now apply bal_none|]. now apply bal_tok. }
    destruct b as [b|]; cbn [ubody]; [|exact QN]. cbn [app]. rewrite <- app_assoc. cbn [app]. apply bal_nest; [now apply balanced_bal|exact QN].
  - apply bal_tok; [discriminate|discriminate|auto].
  - apply bal_tok; [discriminate|discriminate|auto].
  - apply bal_tok; [discriminate|discriminate|]. apply bal_app; [now apply balanced_bal|]. now apply bal_tok.
  - apply word_brace in H. apply bal_tok; [destruct k; discriminate|destruct k; discriminate|]. apply bal_tok; try tauto. now apply bal_tok.
  - apply word_brace in H. apply bal_tok; [destruct k; discriminate|destruct k; discriminate|]. apply bal_tok; try tauto.
    apply btoks_brace in H0. apply bal_app; [now apply bal_none|]. apply bal_nest; [now apply balanced_bal|assumption].
  - apply bal_app; [now apply balanced_bal|assumption].
  - destruct H as (_ & _ & _ & PB). apply word_brace in H0.
    apply bal_tok; [discriminate|discriminate|]. apply bal_tok; [discriminate|discriminate|]. apply bal_app; [now apply balanced_bal|]. apply bal_tok; [discriminate|discriminate|].
    apply bal_tok; [destruct k; discriminate|destruct k; discriminate|]. apply bal_tok; try tauto. apply btoks_brace in H2.
    apply bal_app; [|apply bal_app; [now apply bal_none|apply bal_nest; [now apply balanced_bal|assumption]]].
    destruct sp as [(s1, s2)|]; [|apply bal_nil]. destruct H1 as (_ & SB & _). cbn [sptoks]. apply bal_tok; [discriminate|discriminate|]. apply bal_app; [now apply balanced_bal|]. apply bal_tok; [discriminate|discriminate|]. apply bal_nil.
  - destruct H as (_ & _ & _ & PB). apply word_brace in H0.
    apply bal_tok; [discriminate|discriminate|]. apply bal_tok; [discriminate|discriminate|]. apply bal_app; [now apply balanced_bal|]. apply bal_tok; [discriminate|discriminate|].
    apply bal_tok; [destruct k; discriminate|destruct k; discriminate|]. apply bal_tok; try tauto. now apply bal_tok.
  - apply outside_facts in H1. destruct H1 as (_ & _ & _ & _ & _ & _ & _ & _ & X & Y & _).
    apply bal_tok; [discriminate|discriminate|]. apply bal_tok; [discriminate|discriminate|]. apply bal_app; [now apply balanced_bal|]. apply bal_tok; [discriminate|discriminate|].
    apply bal_tok; auto; intros ->; discriminate.
  - apply bal_tok; [discriminate|discriminate|]. apply bal_tok; [discriminate|discriminate|]. apply bal_app; [now apply balanced_bal|]. apply bal_tok; [discriminate|discriminate|].
    apply bal_tok; [discriminate|discriminate|]. apply bal_app; [now apply bal_none|]. now apply bal_tok.
  - cbn [In] in H. apply bal_tok; [discriminate|discriminate|]. apply bal_tok; auto; intros ->; tauto.
  - apply word_brace in H. destruct H0 as (_ & SB & _). apply btoks_brace in H1.
    do 3 (apply bal_tok; [discriminate|discriminate|]).
    apply bal_tok; [destruct k; discriminate|destruct k; discriminate|]. apply bal_tok; try tauto.
    apply bal_app; [|apply bal_app; [now apply bal_none|apply bal_nest; [now apply balanced_bal|assumption]]].
    cbn [sptoks]. apply bal_tok; [discriminate|discriminate|]. apply bal_app; [now apply balanced_bal|]. apply bal_tok; [discriminate|discriminate|]. apply bal_nil.
  - apply word_brace in H. destruct H0 as (_ & SB & _).
    do 3 (apply bal_tok; [discriminate|discriminate|]).
    apply bal_tok; [destruct k; discriminate|destruct k; discriminate|]. apply bal_tok; try tauto.
    apply bal_app; [|now apply bal_tok].
    cbn [sptoks]. apply bal_tok; [discriminate|discriminate|]. apply bal_app; [now apply balanced_bal|]. apply bal_tok; [discriminate|discriminate|]. apply bal_nil.
  - apply bal_tok; [discriminate|discriminate|]. apply bal_nest; [now apply balanced_bal|assumption].
Qed.

(** a class with bases and members, from its name *)
Lemma class_item o ns k name bl b rs cs fs us rest t1 g : overloading o = false -> ends ns -> free ns -> g_ns g = ns -> word name -> Forall bspec_ok bl ->
  body (use_mbr o) (respect_private o) ns false (ns ++ name ++ bs "::") name false k false b rs cs fs us ->
  exists x y, assign_class_action (pcls o) ns [] [] false g (Inp t1 (kw k) name (btoks bl ++ bs "{" :: b ++ bs "}" :: rest)) =
    COk tt (evs_eff o (rs ++ [EvClass k ns ns name (base_names (respect_private o) k bl) (chosen cs fs us)]) g) (Inp x y (bs "}") rest).
Proof.
  intros OV EN FR GN W B BD. destruct (body_names _ _ _ _ _ _ _ _ _ _ _ _ _ _ BD) as (U & N). unfold pcls.
  assert (SC : scope false (ns ++ name ++ bs "::") name false []).
  { split; [reflexivity|]. split; [now apply word_ne|]. split; [exists (ns ++ name); now rewrite app_assoc|]. split; [|split; [now apply class_part_name|reflexivity]].
    apply free_app; [exact FR|]. apply free_app; [now apply word_free|exact free_colons]. }
  assert (G : good o ns false (ns ++ name ++ bs "::") name false (k && negb false) false b rs cs fs us).
  { rewrite Bool.andb_true_r. now apply body_run. }
  destruct (class_call o OV ns EN false ns name false k false name b rs cs fs us bl W B G U N pbound [] g t1 rest SC) as (x & y & R).
  - now apply free_has_lt.
  - auto.
  - intros i L. unfold pbound. lia.
  - exact GN.
  - exists x, y. exact R.
Qed.
(** ** typedefs *)
Lemma word_first t : word t -> first_in ";:{" t = false.
Proof.
  intros (ID & F). destruct t as [|c t]; [discriminate ID|]. inversion F as [|x y A B E]. subst. unfold first_in. apply Bool.not_true_iff_false. intros X.
  apply Bool.orb_true_iff in X. assert (Y : c = zero \/ In c (list_ascii_of_string ";:{")).
  { destruct X as [X|X]; [left; now apply Ascii.eqb_eq|right]. apply existsb_exists in X. destruct X as (d & X & Y). apply Ascii.eqb_eq in Y. now subst d. }
  cbn in Y. clear - A Y. destruct Y as [->|[<-|[<-|[<-|[]]]]]; destruct A as [A|A]; try discriminate A; revert A; cbv; lia.
Qed.
Lemma tdname_end q : forall n f p t2 t1 t m, ~ In (bs ";") (q ++ [n]) -> ~ In (bs "{") (q ++ [n]) -> teq t ";" = false -> teq t "{" = false -> (length (q ++ n :: bs ";" :: m) < f)%nat ->
  exists a, tdname f p (Inp t2 t1 t (q ++ n :: bs ";" :: m)) = POk (teq (last q t) "*") (Inp a n (bs ";") m).
Proof.
  induction q as [|u q IH]; intros n f p t2 t1 t m A B T T' F; (destruct f as [|f]; [lia|]); cbn [app] in *.
  - cbn [tdname tk]. rewrite T, T'. cbn [pbind next more tk tk1]. destruct f as [|f]; [cbn in F; lia|]. cbn [tdname tk].
    rewrite (is_ne n ";"), (is_ne n "{") by (intros ->; first [apply A; now left|apply B; now left]). cbn [pbind next more tk tk1]. destruct f as [|f]; [cbn in F; lia|]. cbn [tdname tk].
    change (teq (bs ";") ";") with true. cbv iota. eauto.
  - cbn [tdname tk]. rewrite T, T'. cbn [pbind next more tk tk1].
    destruct (IH n f (teq t1 "*") t1 t u m) as (a & ->);
      [intros X; apply A; now right|intros X; apply B; now right|apply is_ne; intros ->; apply A; now left|apply is_ne; intros ->; apply B; now left|cbn [length] in F; lia|].
    exists a. f_equal. f_equal. destruct q as [|v q]; [reflexivity|]. change (last (v :: q) u = last (v :: q) t). apply last_default. discriminate.
Qed.
Lemma tdname_body b q n f p t2 t1 m : balanced (bs "{") (bs "}") b -> ~ In (bs ";") (q ++ [n]) -> ~ In (bs "{") (q ++ [n]) -> (length (q ++ n :: bs ";" :: m) < f)%nat ->
  exists a, tdname f p (Inp t2 t1 (bs "{") (b ++ bs "}" :: q ++ n :: bs ";" :: m)) = POk (teq (last q (bs "}")) "*") (Inp a n (bs ";") m).
Proof.
  intros BA A B F. destruct f as [|f]; [lia|]. destruct (gobb_braces g0 t2 t1 b (q ++ n :: bs ";" :: m) BA) as (x & a & c & G). unfold gobb, lift in G.
  destruct (gobble "{" "}" _) as [z i| |] eqn:GB in G; try discriminate. assert (i = Inp a c (bs "}") (q ++ n :: bs ";" :: m)) by congruence. subst i. clear G.
  cbn [tdname tk]. change (teq (bs "{") ";") with false. change (teq (bs "{") "{") with true. cbv iota. rewrite GB. cbn [pbind].
  destruct (tdname_end q n (S f) false a c (bs "}") m A B eq_refl eq_refl F) as (a' & E). cbn [tdname tk] in E. change (teq (bs "}") ";") with false in E. change (teq (bs "}") "{") with false in E.
  cbn [pbind] in E. eauto.
Qed.
Lemma tdname_to u : forall f p t2 t1 t m b q n, ~ In (bs ";") u -> ~ In (bs "{") u -> teq t ";" = false -> teq t "{" = false ->
  balanced (bs "{") (bs "}") b -> ~ In (bs ";") (q ++ [n]) -> ~ In (bs "{") (q ++ [n]) -> (length (u ++ bs "{" :: b ++ bs "}" :: q ++ n :: bs ";" :: m) < f)%nat ->
  exists a, tdname f p (Inp t2 t1 t (u ++ bs "{" :: b ++ bs "}" :: q ++ n :: bs ";" :: m)) = POk (teq (last q (bs "}")) "*") (Inp a n (bs ";") m).
Proof.
  induction u as [|v u IH]; intros f p t2 t1 t m b q n A B T T' BA QA QB F; (destruct f as [|f]; [lia|]); cbn [app] in *.
  - cbn [tdname tk]. rewrite T, T'. cbn [pbind next more tk tk1]. apply tdname_body; auto. cbn [length] in F. rewrite app_length in F. cbn [length] in F. lia.
  - cbn [tdname tk]. rewrite T, T'. cbn [pbind next more tk tk1].
    apply IH; auto; [intros X; apply A; now right|intros X; apply B; now right|apply is_ne; intros ->; apply A; now left|apply is_ne; intros ->; apply B; now left|cbn [length] in F; lia].
Qed.
Lemma tdname_class bl b q n f p t2 t1 t m0 m : Forall bspec_ok bl -> ~ In (bs ";") (btoks bl) -> balanced (bs "{") (bs "}") b -> ~ In (bs ";") (q ++ [n]) -> ~ In (bs "{") (q ++ [n]) ->
  (length (btoks bl ++ bs "{" :: b ++ bs "}" :: q ++ n :: bs ";" :: m) <= f)%nat -> btoks bl ++ bs "{" :: b ++ bs "}" :: q ++ n :: bs ";" :: m = t :: m0 ->
  exists a, tdname f p (Inp t2 t1 t m0) = POk (teq (last q (bs "}")) "*") (Inp a n (bs ";") m).
Proof.
  intros BL N1 BA A B F E. assert (N2 : ~ In (bs "{") (btoks bl)) by now apply btoks_brace in BL.
  destruct (btoks bl) as [|c u] eqn:EB; cbn [app] in E.
  - hdtl E t m0. apply tdname_body; auto. cbn [app length] in F. rewrite app_length in F. cbn [length] in F. lia.
  - hdtl E t m0. apply tdname_to; auto; [intros X; apply N1; now right|intros X; apply N2; now right|apply is_ne; intros ->; apply N1; now left|apply is_ne; intros ->; apply N2; now left].
Qed.
Lemma ends_class_part name : word name -> class_part (name ++ bs "::") = name.
Proof.
  intros W. unfold class_part. rewrite cut2. replace (find_from (bs "<") name 0) with (@None nat).
  2: { symmetry. unfold find_from. cbn [Nat.leb skipn]. apply find_at_none; [discriminate|]. intros c [<-|[]]. apply (word_free _ W). }
  rewrite firstn_all. pose proof (rfind2_colon _ (word_colon _ W)) as R. cbn [rfind2] in R. destruct (rfind2 name); [discriminate|reflexivity].
Qed.
Lemma typedef_class o ns k (tag : option tok) bl b rs cs fs us q n rest t1 t0 g name : overloading o = false -> ends ns -> g_ns g = ns ->
  name = match tag with Some t => t | None => n end -> word name -> Forall bspec_ok bl -> ~ In (bs ";") (btoks bl) ->
  body (use_mbr o) (respect_private o) ns false (name ++ bs "::") name false k false b rs cs fs us ->
  balanced (bs "{") (bs "}") b -> td_ok q n -> (tag = None -> last q (bs "}") <> bs "*") ->
  exists x y, parse_typedef (pcls o) [] g (Inp t1 t0 (bs "typedef") (kw k :: match tag with Some t => [t] | None => [] end ++ btoks bl ++ bs "{" :: b ++ bs "}" :: q ++ n :: bs ";" :: rest)) =
    COk tt (evs_eff o (rs ++ [EvTypedef ns (Some match tag with Some t => t | None => [] end) name (base_names (respect_private o) k bl) (chosen cs fs us)]) g) (Inp x y (bs "}") (q ++ n :: bs ";" :: rest)).
Proof.
  intros OV EN GN NM W BL BS BD BA (QA & QB & QC) ST. destruct (body_names _ _ _ _ _ _ _ _ _ _ _ _ _ _ BD) as (U & N).
  assert (SC : scope false (name ++ bs "::") name false []).
  { split; [reflexivity|]. split; [now apply word_ne|]. split; [now exists name|]. split; [|split; [now apply ends_class_part|reflexivity]].
    apply free_app; [now apply word_free|exact free_colons]. }
  assert (G : good o ns false (name ++ bs "::") name false k false b rs cs fs us) by now apply body_run.
  set (tail := bs "{" :: b ++ bs "}" :: q ++ n :: bs ";" :: rest). set (tg := match tag with Some t => [t] | None => [] end).
  assert (HB : exists t m, btoks bl ++ tail = t :: m /\ (t = bs ":" \/ t = bs "{")).
  { unfold tail. destruct bl; cbn [btoks app]; [eexists _, _; split; [reflexivity|now right]|eexists _, _; split; [reflexivity|now left]]. }
  destruct HB as (t & m & E & T).
  assert (LB : (length b <= length m)%nat).
  { unfold tail in E. apply (f_equal (@length _)) in E. rewrite app_length in E. cbn [length] in E. rewrite app_length in E. cbn [length] in E. lia. }
  assert (HT : exists u us', tg ++ btoks bl ++ tail = u :: us').
  { unfold tg. destruct tag; cbn [app]; [eauto|]. rewrite E. eauto. }
  destruct HT as (u & us' & EU).
  assert (ID : (if idt u then u else []) = match tag with Some t => t | None => [] end).
  { unfold tg in EU. destruct tag as [w|]; cbn [app] in EU.
    - assert (u = w) by congruence. subst u. rewrite <- NM. now rewrite (word_idt _ W).
    - assert (u = t) by congruence. subst u. destruct T as [-> | ->]; reflexivity. }
  assert (TGF : Forall (fun t => first_in ";:{" t = false) tg).
  { unfold tg. destruct tag as [w|]; constructor; [|constructor]. rewrite <- NM. now apply word_first. }
  assert (TX : strchr ";:{" (first t) = true) by (destruct T as [-> | ->]; reflexivity).
  assert (EU' : tg ++ t :: m = u :: us') by (rewrite <- E; exact EU).
  assert (KW : Forall (fun t => first_in ";:{" t = false) (kw k :: tg)) by (constructor; [destruct k; reflexivity|exact TGF]).
  destruct (skipset_any ";:{" tg TGF (S (length us')) (bs "typedef") (kw k) t m u us' TX ltac:(lia) EU') as (a2 & a1 & SK1).
  destruct (skipset_any ";:{" (kw k :: tg) KW (S (length (u :: us'))) t0 (bs "typedef") t m (kw k) (u :: us') TX ltac:(lia)) as (c2 & c1 & SK2).
  { cbn [app]. now rewrite EU'. }
  destruct (tdname_class bl b q n (S (length m)) false a2 a1 t m rest BL BS BA QA QB) as (d & TN).
  { fold tail. rewrite E. cbn [length]. lia. } { exact E. }
  unfold parse_typedef. unfold cbind at 1, nxt, lift at 1, next. cbn [more tk1 tk]. rewrite cbind_get. cbn [tk].
  replace (teq (kw k) "struct" || teq (kw k) "class")%bool with true by (destruct k; reflexivity). cbv iota.
  fold tail. fold tg. rewrite EU.
  unfold cbind at 1, nxt, lift at 1, next. cbn [more tk1 tk]. rewrite cbind_get. cbn [tk]. rewrite ID.
  erewrite cbind_ok by (unfold skip_set, lift, pbound; cbn [more]; rewrite SK1; reflexivity). rewrite cbind_get. cbn [tk].
  replace (teq t ";") with false by (destruct T as [-> | ->]; reflexivity).
  erewrite cbind_ok; [|unfold get_typedef_name; erewrite cbind_ok by (unfold lift, pbound; cbn [more]; rewrite TN; reflexivity); rewrite cbind_get; cbn [tk1]; reflexivity].
  match goal with |- context [cbind ?M ?K g (Inp d n (bs ";") rest)] =>
    assert (NMR : exists nm j, M g (Inp d n (bs ";") rest) = COk nm g j /\ (tag = None -> nm = n)) end.
  { destruct tag as [w|].
    - destruct (_ || _)%bool; [|eexists _, _; split; [reflexivity|discriminate]].
      assert (u = w) by (unfold tg in EU; cbn [app] in EU; congruence). subst u.
      unfold cbind at 1, put. unfold cbind at 1, nxt, lift at 1, next. cbn [more tk1 tk]. rewrite cbind_get. cbn [tk]. rewrite <- NM in *. rewrite (word_idt _ W). eexists _, _. split; [reflexivity|discriminate].
    - rewrite (is_ne (last q (bs "}")) "*") by (now apply ST). rewrite <- NM in *. rewrite (word_tok name "]" W eq_refl). cbn [orb]. eexists _, _. split; [reflexivity|]. cbn [app]. auto. }
  destruct NMR as (nm & j & NMR & NMN). erewrite cbind_ok by exact NMR. clear NMR.
  unfold cbind at 1, put. erewrite cbind_ok by (unfold skip_set, lift, pbound; cbn [more]; rewrite SK2; reflexivity).
  assert (NN : match (match tag with Some t => t | None => [] end) with [] => nm | _ => [] ++ (match tag with Some t => t | None => [] end) end = name).
  { destruct tag as [w|]; [|rewrite NM; auto]. subst name. cbn [app]. destruct w; [|reflexivity]. destruct W as (W & _). discriminate. }
  cbv zeta. rewrite NN. unfold pcls at 1. replace (teq (kw k) "class") with k by (destruct k; reflexivity).
  destruct (good_class o OV ns false (name ++ bs "::") name false k b rs cs fs us bl G U N BL (pbound (Inp c2 c1 t m)) [] g c2 c1 t m (q ++ n :: bs ";" :: rest) SC ltac:(unfold pbound; cbn [more]; lia) GN E) as (x & y & PC).
  erewrite cbind_ok by exact PC. exists x, y. rewrite evs_eff_app. set (g' := evs_eff o rs g). assert (EN' : g_ns g' = ns) by (unfold g'; now rewrite evs_eff_ns).
  unfold cbind at 1, upd. rewrite new_action_run by (cbn [g_ns add_type]; rewrite EN'; exact EN). cbn [g_ns add_type]. rewrite EN', bacts_plain. reflexivity.
Qed.
Lemma typedef_union o ns u b q n rest t1 t0 g : ends ns -> g_ns g = ns -> ~ In (bs ";") u -> ~ In (bs "{") u -> td_ok q n ->
  match b with None => q = [] | Some b => balanced (bs "{") (bs "}") b end ->
  exists x, parse_typedef (pcls o) [] g (Inp t1 t0 (bs "typedef") (bs "union" :: u ++ ubody b ++ q ++ n :: bs ";" :: rest)) =
    COk tt (evs_eff o [EvTypedef ns None n []
           [if (is (last (bs "union" :: u ++ ubody b ++ q) []) "*" || is n "]")%bool then Call [] (bs "arg") [] false
            else Call [] (bs "classdesc::is_array(),(char&)arg,1,sizeof(arg)") [] false]] g) (Inp x n (bs ";") rest).
Proof.
  intros EN GN A B (QA & QB & QC) BQ.
  assert (TN : exists a, tdname (S (length (u ++ ubody b ++ q ++ n :: bs ";" :: rest))) false (Inp t0 (bs "typedef") (bs "union") (u ++ ubody b ++ q ++ n :: bs ";" :: rest))
     = POk (teq (last (bs "union" :: u ++ ubody b ++ q) []) "*") (Inp a n (bs ";") rest)).
  { destruct b as [b|]; cbn [ubody].
    - cbn [app]. rewrite <- !app_assoc. cbn [app].
      destruct (tdname_to u (S (length (u ++ bs "{" :: b ++ bs "}" :: q ++ n :: bs ";" :: rest))) false t0 (bs "typedef") (bs "union") rest b q n A B eq_refl eq_refl BQ QA QB ltac:(lia)) as (a & E).
      exists a. rewrite E. do 2 f_equal. replace (bs "union" :: u ++ bs "{" :: b ++ bs "}" :: q) with ((bs "union" :: u ++ bs "{" :: b) ++ bs "}" :: q) by (cbn [app]; rewrite <- !app_assoc; reflexivity).
      clear. generalize (bs "union" :: u ++ bs "{" :: b). intros l. generalize (bs "}"). generalize ([] : tok). induction l as [|c l IH]; intros e t.
      + cbn [app]. destruct q as [|v q]; [reflexivity|]. change (last (v :: q) t = last (v :: q) e). apply last_default. discriminate.
      + cbn [app]. rewrite (IH e t). destruct l; reflexivity.
    - subst q. cbn [app]. rewrite !app_nil_r. destruct (tdname_end u n (S (length (u ++ n :: bs ";" :: rest))) false t0 (bs "typedef") (bs "union") rest) as (a & E); try reflexivity; try lia.
      + intros X. apply in_app_or in X. destruct X as [X|X]; [tauto|]. apply QA. exact X.
      + intros X. apply in_app_or in X. destruct X as [X|X]; [tauto|]. apply QB. exact X.
      + exists a. rewrite E. do 2 f_equal. clear. destruct u as [|v u]; [reflexivity|]. change (last (v :: u) (bs "union") = last (v :: u) []). apply last_default. discriminate. }
  destruct TN as (a & TN). exists a. unfold parse_typedef. unfold cbind at 1, nxt, lift at 1, next. cbn [more tk1 tk]. rewrite cbind_get. cbn [tk].
  change (teq (bs "union") "struct" || teq (bs "union") "class")%bool with false. change (teq (bs "union") "union") with true. cbv iota.
  erewrite cbind_ok; [|unfold get_typedef_name; erewrite cbind_ok by (unfold lift, pbound; cbn [more]; rewrite TN; reflexivity); rewrite cbind_get; cbn [tk1]; reflexivity].
  rewrite cbind_get. cbn [tk1]. unfold is, teq. destruct (_ || _)%bool; cbn [app]; rewrite new_action_run by (rewrite GN; exact EN); rewrite GN; reflexivity.
Qed.
Section Loop.
  Variable o : opts.
  Hypothesis OV : overloading o = false.
  Notation loop := (mloop o).
  Definition after_ns (f : nat) (targs : tok) (marks : list nat) : C unit := targs :- m_decl o targs ;; loop f targs marks.
  Lemma loop_S f targs marks g t2 t1 t u m : starts (bs "#pragma") u = false ->
    loop (S f) targs marks g (Inp t2 t1 t (u :: m)) = cbind (m_namespace marks) (fun marks => after_ns f targs marks) g (Inp t1 t u m).
  Proof.
    intros H. cbn [mloop]. unfold cbind at 1, nxt, lift, next. cbn [more tk tk1]. rewrite cbind_get. cbn [tk]. rewrite H. reflexivity.
  Qed.
  (** the namespace end test, then the entry *)
  Definition enter_ns (ns : tok) (marks : list nat) : C (list nat) :=
    nm :- lift (enter ns marks) ;; upd (set_ns (fst nm)) ;- cret (snd nm).
  Lemma ns_run ns marks L ns' marks' g i : cfg ns marks L ns' marks' -> (length (more i) < L)%nat -> low marks (length (more i)) -> teq (tk i) "using" = false ->
    m_namespace marks' (set_ns ns' g) i = enter_ns ns marks (set_ns ns g) i.
  Proof.
    intros C R LO U. pose proof (pops_ok _ _ _ _ _ _ C R LO) as P. unfold m_namespace. rewrite cbind_get, U. cbn [when].
    unfold cbind at 1, cret at 1. rewrite cbind_get. unfold cbind at 1, get_ns at 1. cbn [g_ns set_ns].
    unfold pops in P. destruct marks' as [|h ms].
    - assert (ns' = ns) by congruence. assert (marks = []) by congruence. subst. reflexivity.
    - destruct (_ <? _)%nat.
      + destruct (pop_name ns') as [n|]; [|discriminate]. assert (n = ns) by congruence. assert (ms = marks) by congruence. subst. reflexivity.
      + assert (ns' = ns) by congruence. assert (marks = h :: ms) by congruence. subst. reflexivity.
  Qed.
  Lemma enter_quiet ns marks g i : teq (tk i) "namespace" = false -> enter_ns ns marks (set_ns ns g) i = COk marks (set_ns ns g) i.
  Proof. intros H. unfold enter_ns, cbind, lift, enter. rewrite H. reflexivity. Qed.
  Definition idle (t : tok) : Prop :=
    teq t "typedef" = false /\ teq t "template" = false /\ teq t "class" = false /\ teq t "struct" = false /\ teq t "enum" = false.
  Lemma decl_idle i g : idle (tk i) -> m_decl o [] g i = cbind (when (teq (tk i) "(") (gobb "(" ")" ;- cret tt)) (fun _ => cret []) g i.
  Proof.
    intros (A & B & C & D & E). unfold m_decl. rewrite cbind_get, A. cbn [when]. unfold cbind at 1, cret at 1. rewrite cbind_get, B.
    unfold cbind at 1, cret at 1. unfold m_class, m_enum. unfold cbind at 1. rewrite cbind_get, C, D. cbn [orb]. unfold cret at 1.
    unfold cbind at 1. rewrite cbind_get, E. unfold cret at 1. rewrite cbind_get. reflexivity.
  Qed.
  Lemma decl_quiet i g : idle (tk i) -> teq (tk i) "(" = false -> m_decl o [] g i = COk [] g i.
  Proof. intros I P. rewrite decl_idle by exact I. rewrite P. reflexivity. Qed.
  Lemma decl_tail (t : tok) (g : glob) (i : inp) : teq (tk i) "enum" = false -> teq (tk i) "(" = false ->
    (m_enum o ;- i :- get ;; when (teq (tk i) "(") (gobb "(" ")" ;- cret tt) ;- cret t) g i = COk t g i.
  Proof.
    intros E P. erewrite cbind_ok. 2: { unfold m_enum. rewrite cbind_get, E. reflexivity. } rewrite cbind_get, P. reflexivity.
  Qed.
  Definition reach (f : nat) (marks' : list nat) (g' : glob) (i : inp) (es : list event) (ns : tok) (marks : list nat) (g : glob) (tl : list tok) : Prop :=
    exists f' ns2 marks2 a2 a1 a, cfg ns marks (length tl) ns2 marks2 /\ (S (length tl) <= f')%nat /\
      loop f [] marks' g' i = loop f' [] marks2 (set_ns ns2 (evs_eff o es g)) (Inp a2 a1 a tl).
  Lemma reach_step f marks' g' i e es ns marks g tl f1 marks1 ns1 j :
    loop f [] marks' g' i = loop f1 [] marks1 (set_ns ns1 (evs_eff o e g)) j ->
    reach f1 marks1 (set_ns ns1 (evs_eff o e g)) j es ns marks (evs_eff o e g) tl -> reach f marks' g' i (e ++ es) ns marks g tl.
  Proof. intros H (f' & n' & m' & a2 & a1 & a & C & F & E). exists f', n', m', a2, a1, a. rewrite H, E, evs_eff_app. auto. Qed.
  (** a token that leads to nothing *)
  Lemma quiet_step f ns marks L ns' marks' g t2 t1 t u m : cfg ns marks L ns' marks' -> (length m < L)%nat -> low marks (length m) ->
    starts (bs "#pragma") u = false -> teq u "using" = false -> teq u "namespace" = false -> teq u "(" = false -> idle u ->
    loop (S f) [] marks' (set_ns ns' g) (Inp t2 t1 t (u :: m)) = loop f [] marks (set_ns ns g) (Inp t1 t u m).
  Proof.
    intros C R LO PR U N P I. rewrite loop_S by exact PR. erewrite cbind_ok; [|erewrite ns_run by (cbn [more tk]; eassumption); now apply enter_quiet].
    unfold after_ns. erewrite cbind_ok; [|apply decl_quiet; [exact I|exact P]]. reflexivity.
  Qed.
  Lemma cbind_eq {A B} (m m' : C A) (F : A -> C B) g i g' j : m g i = m' g' j -> cbind m F g i = cbind m' F g' j.
  Proof. intros E. unfold cbind. now rewrite E. Qed.
  Lemma cbind_ret {A B D} (w : C A) (X : B) (F : B -> C D) g i : cbind (cbind w (fun _ => cret X)) F g i = cbind w (fun _ => F X) g i.
  Proof. unfold cbind. destruct (w g i); reflexivity. Qed.
  Lemma decl_typedef i j g g' : parse_typedef (pcls o) [] g i = COk tt g' j -> teq (tk i) "typedef" = true -> idle (tk j) -> teq (tk j) "(" = false ->
    m_decl o [] g i = COk [] g' j.
  Proof.
    intros E T I P. unfold m_decl. rewrite cbind_get, T. cbn [when]. erewrite cbind_ok by exact E.
    destruct I as (A & B & C & D & E'). rewrite cbind_get, B.
    unfold cbind at 1, cret at 1. unfold m_class, m_enum. unfold cbind at 1. rewrite cbind_get, C, D. cbn [orb]. unfold cret at 1.
    unfold cbind at 1. rewrite cbind_get, E'. unfold cret at 1. rewrite cbind_get. rewrite P. reflexivity.
  Qed.
  (** template < par > nx *)
  Lemma decl_templ par kar nx rest g a b : tpl par kar -> exists x y, forall targs,
    m_decl o targs g (Inp a b (bs "template") (bs "<" :: par ++ bs ">" :: nx :: rest)) =
    ((when (teq nx "using") (skip_tok ";")) ;-
     (targs :- m_class o (if (negb (teq nx "class" || teq nx "struct") || teq (ttxt (bs "<" :: kar ++ [bs ">"])) "< > ")%bool then [] else ttxt (bs "<" :: kar ++ [bs ">"])) ;;
      m_enum o ;- i :- get ;; when (teq (tk i) "(") (gobb "(" ")" ;- cret tt) ;- cret targs)) g (Inp x y nx rest).
  Proof.
    intros T. destruct (C53_template b (bs "template") par kar nx rest T) as (x & y & G). exists x, y. intros targs.
    unfold m_decl. rewrite cbind_get. cbn [tk]. change (teq (bs "template") "typedef") with false. cbn [when]. unfold cbind at 1, cret at 1. rewrite cbind_get. cbn [tk].
    change (teq (bs "template") "template") with true. cbv iota.
    match goal with |- cbind ?A ?F ?g ?i = cbind ?w (fun _ => cbind (m_class o ?X) _) ?g ?j => assert (IN : A g i = cbind w (fun _ => cret (X, false)) g j) end.
    { unfold cbind at 1, nxt, lift at 1, next. cbn [more tk1 tk]. rewrite cbind_get. cbn [tk]. change (teq (bs "<") "<") with true. cbn [negb]. unfold cbind at 1, lift at 1. rewrite G. rewrite cbind_get. reflexivity. }
    rewrite (cbind_eq _ _ _ _ _ _ _ IN). etransitivity; [apply cbind_ret|reflexivity].
  Qed.
  Ltac lows LO := eapply low_le; [|exact LO]; cbn [length]; repeat (progress (rewrite ?app_length; cbn [length])); lia.

  Lemma loop_file ns ts es : file (use_mbr o) (respect_private o) ns ts es -> forall f ns' marks marks' g t2 t1 t tl,
    ends ns -> free ns -> cfg ns marks (length (ts ++ tl)) ns' marks' -> low marks (length tl) -> (S (length (ts ++ tl)) <= f)%nat ->
    reach f marks' (set_ns ns' g) (Inp t2 t1 t (ts ++ tl)) es ns marks g tl.
  Proof.
    induction 1; intros f ns' marks marks' g t2 t1 t0 tl EN FR C LO F; (destruct f as [|f]; [lia|]); cbn [app length] in F, C |- *.
    - exists (S f), ns', marks', t2, t1, t0. auto.
    - (* a plain token *)
      apply outside_facts in H. destruct H as (H1 & H2 & H3 & H4 & H5 & H6 & H7 & H8 & H9 & H10 & H11).
      apply (reach_step _ _ _ _ [] es _ _ _ _ f marks ns (Inp t1 t0 t (ts ++ tl))).
      + eapply quiet_step; [exact C|lia|lows LO|assumption|assumption|assumption|assumption|repeat split; assumption].
      + apply IHfile; auto. 2: lia. left. auto.
    - (* braces *)
      rewrite <- app_assoc in *. cbn [app] in *.
      destruct (IHfile1 f ns marks marks g t1 t0 (bs "{") (bs "}" :: ts ++ tl)) as (f1 & n1 & m1 & a2 & a1 & a & C1 & F1 & E1); auto.
      { now left. } { lows LO. } { lia. }
      destruct f1 as [|f1]; [lia|]. cbn [length] in F1.
      destruct (IHfile2 f1 ns marks marks (evs_eff o eb g) a1 a (bs "}") tl) as (f2 & n2 & m2 & c2 & c1 & c & C2 & F2 & E2); auto.
      { now left. } { lia. }
      exists f2, n2, m2, c2, c1, c. split; [exact C2|]. split; [exact F2|]. rewrite evs_eff_app, <- E2.
      etransitivity; [eapply quiet_step; [exact C|lia|lows LO|reflexivity|reflexivity|reflexivity|reflexivity|repeat split]|]. rewrite E1.
      eapply quiet_step; [exact C1|cbn [length]; lia|lows LO|reflexivity|reflexivity|reflexivity|reflexivity|repeat split].
    - (* a namespace *)
      pose proof (word_brace _ H) as (NB & NB' & NE).
      rewrite <- app_assoc in *. cbn [app] in *.
      set (nsn := ns ++ name ++ bs "::") in *.
      assert (LEN : (length (b ++ bs "}" :: ts ++ tl) = length b + S (length ts + length tl))%nat) by (rewrite !app_length; cbn [length]; rewrite app_length; reflexivity).
      assert (G : exists v a2 a1, gobble "{" "}" (Inp (bs "namespace") name (bs "{") (b ++ bs "}" :: ts ++ tl)) = POk v (Inp a2 a1 (bs "}") (ts ++ tl))).
      { destruct (C53_stops "{" "}" (Inp (bs "namespace") name (bs "{") (b ++ bs "}" :: ts ++ tl)) b (ts ++ tl)) as (G & G1 & G2);
          [discriminate|discriminate|eapply file_bal; eassumption|intros X; discriminate X|reflexivity|].
        rewrite G. destruct (after _ _) as [x2 x1 x xm]. cbn [more tk] in G1, G2. subst. eauto. }
      destruct G as (v & g2 & g1 & G).
      destruct (IHfile1 f nsn (length (ts ++ tl) :: marks) (length (ts ++ tl) :: marks) g (bs "namespace") name (bs "{") (bs "}" :: ts ++ tl)) as (f1 & n1 & m1 & a2 & a1 & a & C1 & F1 & E1).
      { apply ends_push. } { apply free_app; [exact FR|apply free_app; [now apply word_free|apply free_colons]]. } { now left. } { cbn [low length]. lia. } { lia. }
      destruct f1 as [|f1]; [lia|]. cbn [length] in F1.
      destruct (IHfile2 f1 nsn marks (length (ts ++ tl) :: marks) (evs_eff o eb g) a1 a (bs "}") tl) as (f2 & n2 & m2 & c2 & c1 & c & C2 & F2 & E2).
      { exact EN. } { exact FR. } { right. exists (length (ts ++ tl)). split; [reflexivity|]. split; [apply pop_name_push; [exact EN|now apply word_colon]|lia]. } { exact LO. } { lia. }
      exists f2, n2, m2, c2, c1, c. split; [exact C2|]. split; [exact F2|]. rewrite evs_eff_app, <- E2.
      rewrite loop_S by reflexivity.
      erewrite cbind_ok.
      2: { erewrite ns_run; [|exact C|cbn [more length]; lia|cbn [more]; lows LO|reflexivity].
        unfold enter_ns. erewrite cbind_ok.
        2: { unfold lift, enter. cbn [tk]. change (teq (bs "namespace") "namespace") with true. cbv iota. cbn [next more tk1 tk pbind].
             rewrite (is_ne _ _ NB). cbn [next more tk1 tk pbind]. change (teq (bs "{") "=") with false. change (teq (bs "{") "{") with true. cbv iota.
             rewrite G. cbn [pbind more]. reflexivity. }
        cbn [fst snd]. fold nsn. unfold cbind, upd, cret. reflexivity. }
      unfold after_ns. erewrite cbind_ok; [|apply decl_quiet; [repeat split|reflexivity]].
      cbn [set_ns]. etransitivity; [exact E1|].
      eapply quiet_step; [exact C1|cbn [length]; lia|cbn [low]; lia|reflexivity|reflexivity|reflexivity|reflexivity|repeat split].
    - (* an unnamed namespace *)
      rewrite <- app_assoc in *. cbn [app] in *.
      assert (LEN : (length (b ++ bs "}" :: ts ++ tl) = length b + S (length ts + length tl))%nat) by (rewrite !app_length; cbn [length]; rewrite app_length; reflexivity).
      destruct (IHfile1 f ns marks marks g t0 (bs "namespace") (bs "{") (bs "}" :: ts ++ tl)) as (f1 & n1 & m1 & a2 & a1 & a & C1 & F1 & E1); auto.
      { now left. } { lows LO. } { lia. }
      destruct f1 as [|f1]; [lia|]. cbn [length] in F1.
      destruct (IHfile2 f1 ns marks marks (evs_eff o eb g) a1 a (bs "}") tl) as (f2 & n2 & m2 & c2 & c1 & c & C2 & F2 & E2); auto.
      { now left. } { lia. }
      exists f2, n2, m2, c2, c1, c. split; [exact C2|]. split; [exact F2|]. rewrite evs_eff_app, <- E2.
      rewrite loop_S by reflexivity.
      erewrite cbind_ok.
      2: { erewrite ns_run; [|exact C|cbn [more length]; lia|cbn [more]; lows LO|reflexivity].
        unfold enter_ns. erewrite cbind_ok.
        2: { unfold lift, enter. cbn [tk]. change (teq (bs "namespace") "namespace") with true. cbv iota. cbn [next more tk1 tk pbind].
             change (teq (bs "{") "{") with true. reflexivity. }
        cbn [fst snd]. unfold cbind, upd, cret. reflexivity. }
      unfold after_ns. erewrite cbind_ok; [|apply decl_quiet; [repeat split|reflexivity]].
      cbn [set_ns]. etransitivity; [exact E1|].
      eapply quiet_step; [exact C1|cbn [length]; lia|lows LO|reflexivity|reflexivity|reflexivity|reflexivity|repeat split].
    - (* a namespace alias *)
      pose proof (word_brace _ H) as (NB & NB' & NE).
      rewrite <- app_assoc in *. cbn [app] in *.
      assert (LEN : (length (b ++ bs ";" :: ts ++ tl) = length b + S (length ts + length tl))%nat) by (rewrite !app_length; cbn [length]; rewrite app_length; reflexivity).
      destruct (skip_to_body (fun _ _ => None) ";"%string b H0 (length (b ++ bs ";" :: ts ++ tl)) (bs "namespace") name (bs "=") (ts ++ tl)) as (a2 & a1 & SK); [lia|discriminate|].
      apply (reach_step _ _ _ _ [] es _ _ _ _ f marks ns (Inp a2 a1 (bs ";") (ts ++ tl))).
      + rewrite loop_S by reflexivity. erewrite cbind_ok.
        2: { erewrite ns_run; [|exact C|cbn [more length]; lia|cbn [more]; lows LO|reflexivity].
          unfold enter_ns. erewrite cbind_ok.
          2: { unfold lift, enter. cbn [tk]. change (teq (bs "namespace") "namespace") with true. cbv iota. cbn [next more tk1 tk pbind].
               rewrite (is_ne _ _ NB). cbn [next more tk1 tk pbind]. change (teq (bs "=") "=") with true. cbv iota. unfold pbound. cbn [more]. rewrite SK. reflexivity. }
          cbn [fst snd]. unfold cbind, upd, cret. reflexivity. }
        unfold after_ns. erewrite cbind_ok; [|apply decl_quiet; [repeat split|reflexivity]]. reflexivity.
      + apply IHfile; auto. { now left. } rewrite app_length. lia.
    - (* using *)
      rewrite <- app_assoc in *. cbn [app] in *.
      assert (LEN : (length (b ++ bs ";" :: ts ++ tl) = length b + S (length ts + length tl))%nat) by (rewrite !app_length; cbn [length]; rewrite app_length; reflexivity).
      destruct (skip_to_body (fun _ _ => None) ";"%string b H (length (b ++ bs ";" :: ts ++ tl)) t1 t0 (bs "using") (ts ++ tl)) as (a2 & a1 & SK); [lia|discriminate|].
      apply (reach_step _ _ _ _ [] es _ _ _ _ f marks ns (Inp a2 a1 (bs ";") (ts ++ tl))).
      + rewrite loop_S by reflexivity.
        assert (N : m_namespace marks' (set_ns ns' g) (Inp t1 t0 (bs "using") (b ++ bs ";" :: ts ++ tl)) = m_namespace marks' (set_ns ns' g) (Inp a2 a1 (bs ";") (ts ++ tl))).
        { unfold m_namespace at 1. rewrite cbind_get. cbn [tk]. change (teq (bs "using") "using") with true. cbn [when]. unfold cbind at 1, skip_tok, lift at 1, pbound. cbn [more].
          rewrite SK. reflexivity. }
        erewrite cbind_ok.
        2: { rewrite N. erewrite ns_run; [|exact C|cbn [more]; rewrite app_length; lia|cbn [more]; lows LO|reflexivity]. now apply enter_quiet. }
        unfold after_ns. erewrite cbind_ok; [|apply decl_quiet; [repeat split|reflexivity]]. reflexivity.
      + apply IHfile; auto. { now left. } rewrite app_length. lia.
    - (* a typedef *)
      rewrite <- app_assoc in *. cbn [app] in *.
      assert (LEN : (length (q ++ bs ";" :: ts ++ tl) = length q + S (length ts + length tl))%nat) by (rewrite !app_length; cbn [length]; rewrite app_length; reflexivity).
      assert (TD : exists a2 a1, parse_typedef (pcls o) [] (set_ns ns g) (Inp t1 t0 (bs "typedef") (q ++ bs ";" :: ts ++ tl)) = COk tt (set_ns ns g) (Inp a2 a1 (bs ";") (ts ++ tl))).
      { destruct q as [|u q].
        - cbn [app]. unfold parse_typedef. unfold cbind at 1, nxt, lift at 1, next. cbn [more tk1 tk]. rewrite cbind_get. cbn [tk].
          change (teq (bs ";") "struct" || teq (bs ";") "class")%bool with false. change (teq (bs ";") "union") with false. cbv iota. rewrite skip_tok_here. eauto.
        - cbn [app hd] in *. unfold parse_typedef. unfold cbind at 1, nxt, lift at 1, next. cbn [more tk1 tk]. rewrite cbind_get. cbn [tk].
          rewrite (is_ne u "struct"), (is_ne u "class"), (is_ne u "union") by (intros ->; apply H2; cbn; auto). cbn [orb].
          destruct (skip_tok_last ";" q t0 (bs "typedef") u (ts ++ tl) (set_ns ns g)) as (a & SK); [intros X; apply H; now right|apply is_ne; intros ->; apply H; now left|]. eauto. }
      destruct TD as (a2 & a1 & TD).
      apply (reach_step _ _ _ _ [] es _ _ _ _ f marks ns (Inp a2 a1 (bs ";") (ts ++ tl))).
      + rewrite loop_S by reflexivity. erewrite cbind_ok.
        2: { erewrite ns_run; [|exact C|cbn [more length]; lia|cbn [more]; lows LO|reflexivity]. now apply enter_quiet. }
        unfold after_ns. erewrite cbind_ok; [|apply (decl_typedef _ _ _ _ TD); [reflexivity|repeat split|reflexivity]]. reflexivity.
      + apply IHfile; auto. { now left. } rewrite app_length. lia.
    - (* a typedef of a structure *)
      rewrite <- app_assoc in *. cbn [app] in *.
      assert (LEN : (length (q ++ bs ";" :: ts ++ tl) = length q + S (length ts + length tl))%nat) by (rewrite !app_length; cbn [length]; rewrite app_length; reflexivity).
      assert (TD : exists a2 a1, parse_typedef (pcls o) [] (set_ns ns g) (Inp t1 t0 (bs "typedef") (kw k :: name :: q ++ bs ";" :: ts ++ tl)) = COk tt (set_ns ns (evs_eff o [EvFwd [] name] g)) (Inp a2 a1 (bs ";") (ts ++ tl))).
      { unfold parse_typedef. unfold cbind at 1, nxt, lift at 1, next. cbn [more tk1 tk]. rewrite cbind_get. cbn [tk].
        replace (teq (kw k) "struct" || teq (kw k) "class")%bool with true by (destruct k; reflexivity). cbv iota.
        unfold cbind at 1, nxt, lift at 1, next. cbn [more tk1 tk]. rewrite cbind_get. cbn [tk]. rewrite (word_idt _ H).
        destruct (skipset_any ";:{" (name :: q)) with (f := pbound (Inp (bs "typedef") (kw k) name (q ++ bs ";" :: ts ++ tl))) (t2 := bs "typedef") (t1 := kw k) (x := bs ";") (m := ts ++ tl) (u := name) (us := q ++ bs ";" :: ts ++ tl) as (a2 & a1 & SK).
        - constructor; [|eapply Forall_impl; [|exact H0]; intros t1' (X & _); exact X]. now apply word_first.
        - reflexivity.
        - unfold pbound. cbn [more]. lia.
        - reflexivity.
        - exists a2, a1. erewrite cbind_ok; [|unfold skip_set, lift; rewrite SK; reflexivity]. rewrite cbind_get. reflexivity. }
      destruct TD as (a2 & a1 & TD).
      apply (reach_step _ _ _ _ [EvFwd [] name] es _ _ _ _ f marks ns (Inp a2 a1 (bs ";") (ts ++ tl))).
      + rewrite loop_S by reflexivity. erewrite cbind_ok.
        2: { erewrite ns_run; [|exact C|cbn [more length]; lia|cbn [more]; lows LO|reflexivity]. now apply enter_quiet. }
        unfold after_ns. erewrite cbind_ok; [|apply (decl_typedef _ _ _ _ TD); [reflexivity|repeat split|reflexivity]]. reflexivity.
      + apply IHfile; auto. { now left. } rewrite app_length. lia.
    - (* a typedef of a structure defined in it *)
      rewrite <- !app_assoc in *. cbn [app] in *. rewrite <- !app_assoc in *. cbn [app] in *. rewrite <- !app_assoc in *. cbn [app] in *.
      destruct (typedef_class o ns k (Some name) bl b rs cs fs us q n (ts ++ tl) t1 t0 (set_ns ns g) name OV EN eq_refl eq_refl H H0 H1 H2 H3 H4 ltac:(discriminate)) as (a2 & a1 & TD). cbn [app] in TD.
      set (ev := EvTypedef _ _ _ _ _) in *. replace (rs ++ ev :: es) with ((rs ++ [ev]) ++ es) by (rewrite <- app_assoc; reflexivity).
      apply (reach_step _ _ _ _ (rs ++ [ev]) es _ _ _ _ f marks ns (Inp a2 a1 (bs "}") (q ++ n :: bs ";" :: ts ++ tl))).
      + rewrite loop_S by reflexivity. erewrite cbind_ok.
        2: { erewrite ns_run; [|exact C|cbn [more length]; lia|cbn [more]; lows LO|reflexivity]. now apply enter_quiet. }
        unfold after_ns. erewrite cbind_ok; [|apply (decl_typedef _ _ _ _ TD); [reflexivity|repeat split|reflexivity]]. now rewrite evs_eff_set.
      + assert (AS : (q ++ n :: bs ";" :: ts) ++ tl = q ++ n :: bs ";" :: ts ++ tl) by (rewrite <- app_assoc; reflexivity). rewrite <- AS in *.
        assert (LE : (length ((q ++ n :: bs ";" :: ts) ++ tl) < length (btoks bl ++ bs "{" :: b ++ bs "}" :: (q ++ n :: bs ";" :: ts) ++ tl))%nat).
        { rewrite (app_length (btoks bl)). cbn [length]. rewrite (app_length b). cbn [length]. lia. }
        apply IHfile; auto. { now left. } lia.
    - rewrite <- !app_assoc in *. cbn [app] in *. rewrite <- !app_assoc in *. cbn [app] in *. rewrite <- !app_assoc in *. cbn [app] in *.
      destruct (typedef_class o ns k None bl b rs cs fs us q n (ts ++ tl) t1 t0 (set_ns ns g) n OV EN eq_refl eq_refl H H0 H1 H2 H3 H4 ltac:(auto)) as (a2 & a1 & TD). cbn [app] in TD.
      set (ev := EvTypedef _ _ _ _ _) in *. replace (rs ++ ev :: es) with ((rs ++ [ev]) ++ es) by (rewrite <- app_assoc; reflexivity).
      apply (reach_step _ _ _ _ (rs ++ [ev]) es _ _ _ _ f marks ns (Inp a2 a1 (bs "}") (q ++ n :: bs ";" :: ts ++ tl))).
      + rewrite loop_S by reflexivity. erewrite cbind_ok.
        2: { erewrite ns_run; [|exact C|cbn [more length]; lia|cbn [more]; lows LO|reflexivity]. now apply enter_quiet. }
        unfold after_ns. erewrite cbind_ok; [|apply (decl_typedef _ _ _ _ TD); [reflexivity|repeat split|reflexivity]]. now rewrite evs_eff_set.
      + assert (AS : (q ++ n :: bs ";" :: ts) ++ tl = q ++ n :: bs ";" :: ts ++ tl) by (rewrite <- app_assoc; reflexivity). rewrite <- AS in *.
        assert (LE : (length ((q ++ n :: bs ";" :: ts) ++ tl) < length (btoks bl ++ bs "{" :: b ++ bs "}" :: (q ++ n :: bs ";" :: ts) ++ tl))%nat).
        { rewrite (app_length (btoks bl)). cbn [length]. rewrite (app_length b). cbn [length]. lia. }
        apply IHfile; auto. { now left. } lia.
    - (* of a union *)
      rewrite <- !app_assoc in *. cbn [app] in *.
      destruct (typedef_union o ns u b q n (ts ++ tl) t1 t0 (set_ns ns g) EN eq_refl H H0 H2 H3) as (a2 & TD).
      set (ev := EvTypedef _ _ _ _ _) in *.
      apply (reach_step _ _ _ _ [ev] es _ _ _ _ f marks ns (Inp a2 n (bs ";") (ts ++ tl))).
      + rewrite loop_S by reflexivity. erewrite cbind_ok.
        2: { erewrite ns_run; [|exact C|cbn [more length]; lia|cbn [more]; lows LO|reflexivity]. now apply enter_quiet. }
        unfold after_ns. erewrite cbind_ok; [|apply (decl_typedef _ _ _ _ TD); [reflexivity|repeat split|reflexivity]]. now rewrite evs_eff_set.
      + assert (LE : (length (ts ++ tl) < length (u ++ ubody b ++ q ++ n :: bs ";" :: ts ++ tl))%nat).
        { rewrite (app_length u), (app_length (ubody b)), (app_length q). cbn [length]. lia. }
        apply IHfile; auto. { now left. } lia.
    - (* a pragma *)
      destruct (IHfile f ns' marks marks' g t1 t0 (bs "#pragma " ++ p) tl) as (f1 & n1 & m1 & a2 & a1 & a & C1 & F1 & E1); auto.
      { eapply cfg_le; [|exact C]. lia. } { lia. }
      exists f1, n1, m1, a2, a1, a. split; [exact C1|]. split; [exact F1|].
      cbn [mloop]. unfold cbind at 1, nxt, lift, next. cbn [more tk tk1]. rewrite cbind_get. cbn [tk]. rewrite prag_line, (prag_other p) by exact H.
      unfold cbind, opt, upd. rewrite add_prag_nil. exact E1.
    - (* a pragma of the generator *)
      destruct (IHfile f ns' marks marks' (add_prag [(node_kind k, filter (fun c => negb (Ascii.eqb c " ")) name)] g) t1 t0 (bs "#pragma " ++ k ++ bs " " ++ name) tl)
        as (f1 & n1 & m1 & a2 & a1 & a & C1 & F1 & E1); auto.
      { eapply cfg_le; [|exact C]. lia. } { lia. }
      exists f1, n1, m1, a2, a1, a. split; [exact C1|]. split; [exact F1|].
      cbn [mloop]. unfold cbind at 1, nxt, lift, next. cbn [more tk tk1]. rewrite cbind_get. cbn [tk]. rewrite prag_line, (prag_node k name) by exact H.
      unfold cbind, opt, upd. exact E1.
    - (* parentheses *)
      rewrite <- app_assoc in *. cbn [app] in *.
      assert (LEN : (length (b ++ bs ")" :: ts ++ tl) = length b + S (length ts + length tl))%nat) by (rewrite !app_length; cbn [length]; rewrite app_length; reflexivity).
      assert (G : exists v a2 a1, gobble "(" ")" (Inp t1 t0 (bs "(") (b ++ bs ")" :: ts ++ tl)) = POk v (Inp a2 a1 (bs ")") (ts ++ tl))).
      { destruct (C53_stops "(" ")" (Inp t1 t0 (bs "(") (b ++ bs ")" :: ts ++ tl)) b (ts ++ tl)) as (G & G1 & G2);
          [discriminate|discriminate|now apply balanced_bal|intros X; discriminate X|reflexivity|].
        rewrite G. destruct (after _ _) as [x2 x1 x xm]. cbn [more tk] in G1, G2. subst. eauto. }
      destruct G as (v & g2 & g1 & G).
      apply (reach_step _ _ _ _ [] es _ _ _ _ f marks ns (Inp g2 g1 (bs ")") (ts ++ tl))).
      + rewrite loop_S by reflexivity. erewrite cbind_ok.
        2: { erewrite ns_run; [|exact C|cbn [more length]; lia|cbn [more]; lows LO|reflexivity]. now apply enter_quiet. }
        unfold after_ns. erewrite cbind_ok.
        2: { rewrite decl_idle by (repeat split). cbn [tk]. change (teq (bs "(") "(") with true. cbn [when]. unfold cbind, gobb, lift, cret. rewrite G. reflexivity. }
        reflexivity.
      + apply IHfile; auto. { now left. } rewrite app_length. lia.
    - (* a class declared *)
      apply (reach_step _ _ _ _ [EvFwd ns name] es _ _ _ _ f marks ns (Inp (kw k) name (bs ";") (ts ++ tl))).
      + rewrite loop_S by (destruct k; reflexivity). erewrite cbind_ok.
        2: { erewrite ns_run; [|exact C|cbn [more length]; lia|cbn [more]; lows LO|destruct k; reflexivity]. apply enter_quiet. destruct k; reflexivity. }
        unfold after_ns. erewrite cbind_ok.
        2: { unfold m_decl. rewrite cbind_get. cbn [tk]. replace (teq (kw k) "typedef") with false by (destruct k; reflexivity). cbn [when]. unfold cbind at 1, cret at 1.
          rewrite cbind_get. cbn [tk]. replace (teq (kw k) "template") with false by (destruct k; reflexivity). unfold cbind at 1, cret at 1.
          erewrite cbind_ok.
          2: { unfold m_class. rewrite cbind_get. cbn [tk]. replace (teq (kw k) "class" || teq (kw k) "struct")%bool with true by (destruct k; reflexivity).
            unfold cbind at 1, nxt, lift, next. cbn [more tk1 tk]. rewrite cbind_get. cbn [tk]. unfold cbind at 1, get_ns. cbn [g_ns set_ns]. rewrite (word_idt _ H). cbn [when].
            erewrite cbind_ok; [|apply (fwd_item o k ns name (ts ++ tl) t0 (set_ns ns g) H)]. reflexivity. }
          apply decl_tail; reflexivity. }
        reflexivity.
      + apply IHfile; auto. { now left. } rewrite app_length in *. lia.
    - (* a class defined *)
      rewrite <- !app_assoc in *. cbn [app] in *. rewrite <- app_assoc in *. cbn [app] in *.
      destruct (class_item o ns k name bl b rs cs fs us (ts ++ tl) t0 (set_ns ns g) OV EN FR eq_refl H H0 H1) as (a2 & a1 & CI).
      replace (rs ++ EvClass k ns ns name (base_names (respect_private o) k bl) (chosen cs fs us) :: es)
        with ((rs ++ [EvClass k ns ns name (base_names (respect_private o) k bl) (chosen cs fs us)]) ++ es) by (rewrite <- app_assoc; reflexivity).
      apply (reach_step _ _ _ _ (rs ++ [EvClass k ns ns name (base_names (respect_private o) k bl) (chosen cs fs us)]) es _ _ _ _ f marks ns (Inp a2 a1 (bs "}") (ts ++ tl))).
      + rewrite loop_S by (destruct k; reflexivity). erewrite cbind_ok.
        2: { erewrite ns_run; [|exact C|cbn [more length]; lia|cbn [more]; lows LO|destruct k; reflexivity]. apply enter_quiet. destruct k; reflexivity. }
        unfold after_ns. erewrite cbind_ok.
        2: { unfold m_decl. rewrite cbind_get. cbn [tk]. replace (teq (kw k) "typedef") with false by (destruct k; reflexivity). cbn [when]. unfold cbind at 1, cret at 1.
          rewrite cbind_get. cbn [tk]. replace (teq (kw k) "template") with false by (destruct k; reflexivity). unfold cbind at 1, cret at 1.
          erewrite cbind_ok.
          2: { unfold m_class. rewrite cbind_get. cbn [tk]. replace (teq (kw k) "class" || teq (kw k) "struct")%bool with true by (destruct k; reflexivity).
            unfold cbind at 1, nxt, lift, next. cbn [more tk1 tk]. rewrite cbind_get. cbn [tk]. unfold cbind at 1, get_ns. cbn [g_ns set_ns]. rewrite (word_idt _ H). cbn [when].
            erewrite cbind_ok; [|exact CI]. rewrite evs_eff_set. reflexivity. }
          apply decl_tail; reflexivity. }
        reflexivity.
      + assert (LE : (length (ts ++ tl) < length (btoks bl ++ bs "{" :: b ++ bs "}" :: ts ++ tl))%nat).
        { rewrite (app_length (btoks bl)). cbn [length]. rewrite (app_length b). cbn [length]. lia. }
        apply IHfile; auto. { now left. } lia.
    - (* an enumeration *)
      rewrite <- !app_assoc in *.
      assert (ET : exists t m, enumtoks e ++ ts ++ tl = bs "enum" :: t :: m).
      { unfold enumtoks. cbn [app]. destruct (e_class e); cbn [app]; eauto. }
      destruct ET as (u & m & ET).
      destruct (enum_item o ns e (ts ++ tl) (set_ns ns g) t0 (bs "enum") u m H EN eq_refl ET) as (a2 & a1 & EI).
      assert (LE : (length (ts ++ tl) < length (bs "enum" :: u :: m))%nat).
      { rewrite <- ET, (app_length (enumtoks e)). assert (X : (0 < length (enumtoks e))%nat) by (unfold enumtoks; cbn [app length]; lia). lia. }
      rewrite ET in *. cbn [length] in F, C.
      apply (reach_step _ _ _ _ [EvEnum (e_class e) ns ns (e_name e) (enum_names e)] es _ _ _ _ f marks ns (Inp a2 a1 (bs ";") (ts ++ tl))).
      + assert (LS : (length tl <= length m)%nat).
        { assert (X : (3 <= length (enumtoks e))%nat) by (unfold enumtoks; rewrite !app_length; cbn [length]; lia).
          apply (f_equal (@length _)) in ET. rewrite !app_length in ET. cbn [length] in ET. lia. }
        rewrite loop_S by reflexivity. erewrite cbind_ok.
        2: { erewrite ns_run; [|exact C|cbn [more length]; lia|cbn [more length]; eapply low_le; [|exact LO]; lia|reflexivity]. now apply enter_quiet. }
        unfold after_ns. erewrite cbind_ok.
        2: { unfold m_decl. rewrite cbind_get. cbn [tk]. change (teq (bs "enum") "typedef") with false. cbn [when]. unfold cbind at 1, cret at 1.
          rewrite cbind_get. cbn [tk]. change (teq (bs "enum") "template") with false. unfold cbind at 1, cret at 1.
          erewrite cbind_ok. 2: { unfold m_class. rewrite cbind_get. cbn [tk]. change (teq (bs "enum") "class" || teq (bs "enum") "struct")%bool with false. reflexivity. }
          erewrite cbind_ok.
          2: { unfold m_enum. rewrite cbind_get. cbn [tk]. change (teq (bs "enum") "enum") with true. unfold cbind at 1, nxt, lift, next. cbn [more tk1 tk].
            rewrite cbind_get. cbn [tk]. unfold cbind at 1, get_ns. cbn [g_ns set_ns].
            replace (idt u) with true. 2: { symmetry. unfold enumtoks in ET. destruct H as (W & _). cbn [app] in ET. destruct (e_class e); cbn [app] in ET;
               [assert (u = bs "class") by congruence; subst; reflexivity|assert (u = e_name e) by congruence; subst; now apply word_idt]. }
            exact EI. }
          rewrite cbind_get. reflexivity. }
        cbn [evs_eff fold_left]. unfold evs_eff. cbn [fold_left]. rewrite <- ev_eff_set. reflexivity.
      + apply IHfile; auto. { now left. } cbn [length] in LE. lia.
    - (* a class template *)
      assert (TP : tpl par (params_toks ps)) by (now destruct H as (_ & _ & X & _)).
      assert (TL : teq (templ_of ps) "< > " = false) by (destruct H as (X & Y & _); now apply templ_long).
      rewrite <- !app_assoc in *. cbn [app] in *. rewrite <- !app_assoc in *. cbn [app] in *. rewrite <- !app_assoc in *. cbn [app] in *. rewrite <- ?app_assoc in *. cbn [app] in *.
      set (rest := ts ++ tl) in *. set (ev := EvTempl _ _ _ _ _ _ _).
      destruct (decl_templ par (params_toks ps) (kw k) (name :: sptoks sp ++ btoks bl ++ bs "{" :: b ++ bs "}" :: rest) (set_ns ns g) t1 t0 TP) as (x & y & DT).
      destruct (templ_item o ns ps par k name sp bl fl b rs cs fs us rest y (set_ns ns g) OV EN FR eq_refl H H0 H1 H2 H3 H4) as (a2 & a1 & CI).
      assert (LE : (length rest < length (bs "<" :: par ++ bs ">" :: kw k :: name :: sptoks sp ++ btoks bl ++ bs "{" :: b ++ bs "}" :: rest))%nat).
      { cbn [length]. rewrite (app_length par). cbn [length]. rewrite (app_length (sptoks sp)), (app_length (btoks bl)). cbn [length]. rewrite (app_length b). cbn [length]. lia. }
      replace (rs ++ ev :: es) with ((rs ++ [ev]) ++ es) by (rewrite <- app_assoc; reflexivity).
      apply (reach_step _ _ _ _ (rs ++ [ev]) es _ _ _ _ f marks ns (Inp a2 a1 (bs "}") rest)).
      + rewrite loop_S by reflexivity. erewrite cbind_ok.
        2: { erewrite ns_run; [|exact C|cbn [more length]; lia|cbn [more]; eapply low_le; [|exact LO]; cbn [length] in LE |- *; assert (LT : (length tl <= length rest)%nat) by (unfold rest; rewrite app_length; lia); lia|reflexivity]. apply enter_quiet. reflexivity. }
        unfold after_ns. erewrite cbind_ok.
        2: { rewrite DT. replace (teq (kw k) "using") with false by (destruct k; reflexivity). cbn [when]. unfold cbind at 1, cret at 1.
          replace (teq (kw k) "class" || teq (kw k) "struct")%bool with true by (destruct k; reflexivity). cbn [negb orb].
          change (ttxt (bs "<" :: params_toks ps ++ [bs ">"])) with (templ_of ps). rewrite TL.
          erewrite cbind_ok.
          2: { unfold m_class. rewrite cbind_get. cbn [tk]. replace (teq (kw k) "class" || teq (kw k) "struct")%bool with true by (destruct k; reflexivity).
            unfold cbind at 1, nxt, lift, next. cbn [more tk1 tk]. rewrite cbind_get. cbn [tk]. unfold cbind at 1, get_ns. cbn [g_ns set_ns]. rewrite (word_idt _ H0). cbn [when].
            erewrite cbind_ok; [|exact CI]. rewrite evs_eff_set. reflexivity. }
          apply decl_tail; reflexivity. }
        reflexivity.
      + apply IHfile; auto. { now left. } fold rest. cbn [length] in LE, F. lia.
    - (* a class template declared *)
      assert (TP : tpl par (params_toks ps)) by (now destruct H as (_ & _ & X & _)).
      assert (TL : teq (templ_of ps) "< > " = false) by (destruct H as (X & Y & _); now apply templ_long).
      rewrite <- !app_assoc in *. cbn [app] in *. set (rest := ts ++ tl) in *.
      destruct (decl_templ par (params_toks ps) (kw k) (name :: bs ";" :: rest) (set_ns ns g) t1 t0 TP) as (x & y & DT).
      assert (LE : (length rest < length (bs "<" :: par ++ bs ">" :: kw k :: name :: bs ";" :: rest))%nat) by (cbn [length]; rewrite (app_length par); cbn [length]; lia).
      apply (reach_step _ _ _ _ [EvFwd ns (name ++ targs_of ps None)] es _ _ _ _ f marks ns (Inp (kw k) name (bs ";") rest)).
      + rewrite loop_S by reflexivity. erewrite cbind_ok.
        2: { erewrite ns_run; [|exact C|cbn [more length]; lia|cbn [more]; eapply low_le; [|exact LO]; cbn [length] in LE |- *; assert (LT : (length tl <= length rest)%nat) by (unfold rest; rewrite app_length; lia); lia|reflexivity]. apply enter_quiet. reflexivity. }
        unfold after_ns. erewrite cbind_ok.
        2: { rewrite DT. replace (teq (kw k) "using") with false by (destruct k; reflexivity). cbn [when]. unfold cbind at 1, cret at 1.
          replace (teq (kw k) "class" || teq (kw k) "struct")%bool with true by (destruct k; reflexivity). cbn [negb orb].
          change (ttxt (bs "<" :: params_toks ps ++ [bs ">"])) with (templ_of ps). rewrite TL.
          erewrite cbind_ok.
          2: { unfold m_class. rewrite cbind_get. cbn [tk]. replace (teq (kw k) "class" || teq (kw k) "struct")%bool with true by (destruct k; reflexivity).
            unfold cbind at 1, nxt, lift, next. cbn [more tk1 tk]. rewrite cbind_get. cbn [tk]. unfold cbind at 1, get_ns. cbn [g_ns set_ns]. rewrite (word_idt _ H0). cbn [when].
            erewrite cbind_ok; [|apply (templ_fwd o ns ps par k name rest y (set_ns ns g) H H0)]. reflexivity. }
          apply decl_tail; reflexivity. }
        reflexivity.
      + apply IHfile; auto. { now left. } fold rest. cbn [length] in LE, F. lia.
    - (* another template *)
      apply outside_facts in H1. destruct H1 as (K1 & K2 & K3 & K4 & K5 & K6 & K7 & K8 & K9 & K10 & K11).
      rewrite <- !app_assoc in *. cbn [app] in *. set (rest := ts ++ tl) in *.
      destruct (decl_templ par kar t rest (set_ns ns g) t1 t0 H) as (x & y & DT).
      assert (LE : (length rest < length (bs "<" :: par ++ bs ">" :: t :: rest))%nat) by (cbn [length]; rewrite (app_length par); cbn [length]; lia).
      apply (reach_step _ _ _ _ [] es _ _ _ _ f marks ns (Inp x y t rest)).
      + rewrite loop_S by reflexivity. erewrite cbind_ok.
        2: { erewrite ns_run; [|exact C|cbn [more length]; lia|cbn [more]; eapply low_le; [|exact LO]; cbn [length] in LE |- *; assert (LT : (length tl <= length rest)%nat) by (unfold rest; rewrite app_length; lia); lia|reflexivity]. apply enter_quiet. reflexivity. }
        unfold after_ns. erewrite cbind_ok.
        2: { rewrite DT, K6. cbn [when]. unfold cbind at 1, cret at 1. rewrite K3, K4. cbn [negb orb].
          erewrite cbind_ok. 2: { unfold m_class. rewrite cbind_get. cbn [tk]. rewrite K3, K4. cbn [orb]. reflexivity. }
          apply decl_tail; assumption. }
        reflexivity.
      + apply IHfile; auto. { now left. } fold rest. cbn [length] in LE, F. lia.
    - (* an alias template *)
      rewrite <- !app_assoc in *. cbn [app] in *. rewrite <- !app_assoc in *. cbn [app] in *. set (rest := ts ++ tl) in *.
      destruct (decl_templ par kar (bs "using") (b ++ bs ";" :: rest) (set_ns ns g) t1 t0 H) as (x & y & DT).
      assert (LE : (length rest < length (bs "<" :: par ++ bs ">" :: bs "using" :: b ++ bs ";" :: rest))%nat) by (cbn [length]; rewrite (app_length par); cbn [length]; rewrite (app_length b); cbn [length]; lia).
      destruct (skip_to_body (fun _ _ => None) ";"%string b H1 (length (b ++ bs ";" :: rest)) x y (bs "using") rest) as (a2 & a1 & SK); [rewrite app_length; cbn [length]; lia|discriminate|].
      apply (reach_step _ _ _ _ [] es _ _ _ _ f marks ns (Inp a2 a1 (bs ";") rest)).
      + rewrite loop_S by reflexivity. erewrite cbind_ok.
        2: { erewrite ns_run; [|exact C|cbn [more length]; lia|cbn [more]; eapply low_le; [|exact LO]; cbn [length] in LE |- *; assert (LT : (length tl <= length rest)%nat) by (unfold rest; rewrite app_length; lia); lia|reflexivity]. apply enter_quiet. reflexivity. }
        unfold after_ns. erewrite cbind_ok.
        2: { rewrite DT. change (teq (bs "using") "using") with true. cbn [when]. unfold cbind at 1, skip_tok, lift at 1, pbound. cbn [more]. rewrite SK.
          change (teq (bs "using") "class" || teq (bs "using") "struct")%bool with false. cbn [negb orb].
          erewrite cbind_ok. 2: { unfold m_class. rewrite cbind_get. cbn [tk]. change (teq (bs ";") "class" || teq (bs ";") "struct")%bool with false. reflexivity. }
          apply decl_tail; reflexivity. }
        reflexivity.
      + apply IHfile; auto. { now left. } fold rest. cbn [length] in LE, F. lia.
    - (* an explicit instantiation *)
      assert (NL : teq t "<" = false) by (apply is_ne; intros ->; apply H; now left).
      apply (reach_step _ _ _ _ [] es _ _ _ _ f marks ns (Inp t0 (bs "template") t (ts ++ tl))).
      + rewrite loop_S by reflexivity. erewrite cbind_ok.
        2: { erewrite ns_run; [|exact C|cbn [more length]; lia|cbn [more]; lows LO|reflexivity]. apply enter_quiet. reflexivity. }
        unfold after_ns. erewrite cbind_ok.
        2: { unfold m_decl. rewrite cbind_get. cbn [tk]. change (teq (bs "template") "typedef") with false. cbn [when]. unfold cbind at 1, cret at 1. rewrite cbind_get. cbn [tk].
          change (teq (bs "template") "template") with true. cbv iota. unfold cbind at 1, cbind at 1, nxt, lift at 1, next. cbn [more tk1 tk]. rewrite cbind_get. cbn [tk]. rewrite NL. reflexivity. }
        reflexivity.
      + apply IHfile; auto. { now left. } lia.
    - (* a full specialisation *)
      rewrite <- !app_assoc in *. cbn [app] in *. rewrite <- !app_assoc in *. cbn [app] in *. rewrite <- ?app_assoc in *. cbn [app] in *.
      set (rest := ts ++ tl) in *. set (sp := Some (a, ka)) in *. set (ev := EvClass _ _ _ _ _ _).
      destruct (decl_templ [] [] (kw k) (name :: sptoks sp ++ btoks bl ++ bs "{" :: b ++ bs "}" :: rest) (set_ns ns g) t1 t0 t_nil) as (x & y & DT). cbn [app] in DT.
      destruct (spec_item o ns k name a ka bl b rs cs fs us rest y (set_ns ns g) OV EN FR eq_refl H H0 H1 H2) as (a2 & a1 & CI).
      assert (LE : (length rest < length (bs "<" :: bs ">" :: kw k :: name :: sptoks sp ++ btoks bl ++ bs "{" :: b ++ bs "}" :: rest))%nat).
      { cbn [length]. rewrite (app_length (sptoks sp)), (app_length (btoks bl)). cbn [length]. rewrite (app_length b). cbn [length]. lia. }
      replace (rs ++ ev :: es) with ((rs ++ [ev]) ++ es) by (rewrite <- app_assoc; reflexivity).
      apply (reach_step _ _ _ _ (rs ++ [ev]) es _ _ _ _ f marks ns (Inp a2 a1 (bs "}") rest)).
      + rewrite loop_S by reflexivity. erewrite cbind_ok.
        2: { erewrite ns_run; [|exact C|cbn [more length]; lia|cbn [more]; eapply low_le; [|exact LO]; cbn [length] in LE |- *; assert (LT : (length tl <= length rest)%nat) by (unfold rest; rewrite app_length; lia); lia|reflexivity]. apply enter_quiet. reflexivity. }
        unfold after_ns. erewrite cbind_ok.
        2: { rewrite DT. replace (teq (kw k) "using") with false by (destruct k; reflexivity). cbn [when]. unfold cbind at 1, cret at 1.
          replace (teq (kw k) "class" || teq (kw k) "struct")%bool with true by (destruct k; reflexivity). cbn [negb orb].
          change (teq (ttxt [bs "<"; bs ">"]) "< > ") with true. cbv iota.
          erewrite cbind_ok.
          2: { unfold m_class. rewrite cbind_get. cbn [tk]. replace (teq (kw k) "class" || teq (kw k) "struct")%bool with true by (destruct k; reflexivity).
            unfold cbind at 1, nxt, lift, next. cbn [more tk1 tk]. rewrite cbind_get. cbn [tk]. unfold cbind at 1, get_ns. cbn [g_ns set_ns]. rewrite (word_idt _ H). cbn [when].
            erewrite cbind_ok; [|exact CI]. rewrite evs_eff_set. reflexivity. }
          apply decl_tail; reflexivity. }
        reflexivity.
      + apply IHfile; auto. { now left. } fold rest. cbn [length] in LE, F. lia.
    - (* a full specialisation declared *)
      rewrite <- ?app_assoc in *. cbn [app] in *. rewrite <- ?app_assoc in *. cbn [app] in *. set (rest := ts ++ tl) in *. set (sp := Some (a, ka)) in *.
      destruct (decl_templ [] [] (kw k) (name :: sptoks sp ++ bs ";" :: rest) (set_ns ns g) t1 t0 t_nil) as (x & y & DT). cbn [app] in DT.
      destruct (spec_fwd o ns k name a ka rest y (set_ns ns g) H0) as (a2 & a1 & CI).
      assert (LE : (length rest < length (bs "<" :: bs ">" :: kw k :: name :: sptoks sp ++ bs ";" :: rest))%nat) by (cbn [length]; rewrite (app_length (sptoks sp)); cbn [length]; lia).
      apply (reach_step _ _ _ _ [EvFwd ns (name ++ targs_of [] sp)] es _ _ _ _ f marks ns (Inp a2 a1 (bs ";") rest)).
      + rewrite loop_S by reflexivity. erewrite cbind_ok.
        2: { erewrite ns_run; [|exact C|cbn [more length]; lia|cbn [more]; eapply low_le; [|exact LO]; cbn [length] in LE |- *; assert (LT : (length tl <= length rest)%nat) by (unfold rest; rewrite app_length; lia); lia|reflexivity]. apply enter_quiet. reflexivity. }
        unfold after_ns. erewrite cbind_ok.
        2: { rewrite DT. replace (teq (kw k) "using") with false by (destruct k; reflexivity). cbn [when]. unfold cbind at 1, cret at 1.
          replace (teq (kw k) "class" || teq (kw k) "struct")%bool with true by (destruct k; reflexivity). cbn [negb orb].
          change (teq (ttxt [bs "<"; bs ">"]) "< > ") with true. cbv iota.
          erewrite cbind_ok.
          2: { unfold m_class. rewrite cbind_get. cbn [tk]. replace (teq (kw k) "class" || teq (kw k) "struct")%bool with true by (destruct k; reflexivity).
            unfold cbind at 1, nxt, lift, next. cbn [more tk1 tk]. rewrite cbind_get. cbn [tk]. unfold cbind at 1, get_ns. cbn [g_ns set_ns]. rewrite (word_idt _ H). cbn [when].
            erewrite cbind_ok; [|exact CI]. reflexivity. }
          apply decl_tail; reflexivity. }
        reflexivity.
      + apply IHfile; auto. { now left. } fold rest. cbn [length] in LE, F. lia.
    - (* an unnamed enumeration *)
      rewrite <- app_assoc in *. cbn [app] in *.
      assert (LEN : (length (b ++ bs "}" :: ts ++ tl) = length b + S (length ts + length tl))%nat) by (rewrite !app_length; cbn [length]; rewrite app_length; reflexivity).
      assert (G : exists v a2 a1, gobble "{" "}" (Inp t0 (bs "enum") (bs "{") (b ++ bs "}" :: ts ++ tl)) = POk v (Inp a2 a1 (bs "}") (ts ++ tl))).
      { destruct (C53_stops "{" "}" (Inp t0 (bs "enum") (bs "{") (b ++ bs "}" :: ts ++ tl)) b (ts ++ tl)) as (G & G1 & G2);
          [discriminate|discriminate|now apply balanced_bal|intros X; discriminate X|reflexivity|].
        rewrite G. destruct (after _ _) as [x2 x1 x xm]. cbn [more tk] in G1, G2. subst. eauto. }
      destruct G as (v & g2 & g1 & G).
      apply (reach_step _ _ _ _ [] es _ _ _ _ f marks ns (Inp g2 g1 (bs "}") (ts ++ tl))).
      + rewrite loop_S by reflexivity. erewrite cbind_ok.
        2: { erewrite ns_run; [|exact C|cbn [more length]; lia|cbn [more length]; lows LO|reflexivity]. now apply enter_quiet. }
        unfold after_ns. erewrite cbind_ok.
        2: { unfold m_decl. rewrite cbind_get. cbn [tk]. change (teq (bs "enum") "typedef") with false. cbn [when]. unfold cbind at 1, cret at 1.
          rewrite cbind_get. cbn [tk]. change (teq (bs "enum") "template") with false. unfold cbind at 1, cret at 1.
          erewrite cbind_ok. 2: { unfold m_class. rewrite cbind_get. cbn [tk]. change (teq (bs "enum") "class" || teq (bs "enum") "struct")%bool with false. reflexivity. }
          erewrite cbind_ok.
          2: { unfold m_enum. rewrite cbind_get. cbn [tk]. change (teq (bs "enum") "enum") with true. unfold cbind at 1, nxt, lift, next. cbn [more tk1 tk].
            rewrite cbind_get. cbn [tk]. unfold cbind at 1, get_ns. cbn [g_ns set_ns].
            change (idt (bs "{")) with false. cbv iota. unfold cbind, gobb, lift, cret. rewrite G. reflexivity. }
          rewrite cbind_get. reflexivity. }
        reflexivity.
      + apply IHfile; auto. { now left. } cbn [length] in F. rewrite app_length. lia.
  Qed.
End Loop.

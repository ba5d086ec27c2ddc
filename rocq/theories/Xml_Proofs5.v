(** * The XML descriptor: the round trip of documents, well-formedness, keys *)
From Verif Require Import Base Base_Proofs SMap Dec Desc_Model Desc_Props Json_Model Json_Spec Json_Proofs2 Xml_Model Xml_Spec Xml_Proofs Xml_Proofs2 Xml_Proofs3 Xml_Proofs4.
Ltac Zify.zify_post_hook ::= Z.div_mod_to_equations.

(** ** Round trip *)
Lemma tree_le1 : forall fput t cst n v, tree fput cst t n v = [] \/ exists tr, tree fput cst t n v = [tr].
Proof.
  intros fput t. induction t; intros cst nm v; cbn [tree]; destruct v; eauto; try (destruct cst; now eauto).
  destruct (IHt false nm v) as [E|[tr E]]; rewrite E; [destruct cst; eauto|eauto].
Qed.
Lemma records_nil : forall pp, records_doc pp [] [] [].
Proof.
  intros pp. split; [|split; [|split]]; try reflexivity.
  - intros [|[m i] R] _ H; [congruence|reflexivity].
  - intros [|[m i] R] n _ _; reflexivity.
Qed.
Lemma root_dp : dp root ([] ++ [(root, 0%N)]). Proof. reflexivity. Qed.
Theorem xml_roundtrip : forall pp fput fget klt t v,
  xwf false t -> xht fput fget klt false t v -> cd_ok pp (cdata_free t) ->
  of_xml fget klt t (to_xml pp fput t v) (xdflt t) = POk v.
Proof.
  intros pp fput fget klt t v W H C. rewrite to_xml_tree by assumption.
  pose proof (proj1 (tree_okdocs fput fget klt) t false root v W H root_ok) as D.
  pose proof (tree_named fput t false root v) as Nm.
  assert (G : goodp ([] ++ [(root, 0%N)])) by (constructor; [exact root_ok|constructor]).
  assert (K : forall cm tc, records_doc pp (tree fput false t root v) cm tc ->
     xunpack fget klt {| xcm := cm; xtc := tc; miss := false |} t root (xdflt t) = POk v).
  { intros cm tc R.
    apply (proj1 (read_all fput fget klt _ {| xcm := cm; xtc := tc; miss := false |} (records_holds _ _ _ _ R) eq_refl) t false v root [] root 0%N);
      auto using root_dp.
    exists (doc (tree fput false t root v)). split; [reflexivity|]. cbn [kids_of doc]. split.
    - now apply at_first.
    - intros ->. reflexivity. }
  unfold of_xml. destruct (tree_le1 fput t false root v) as [E|[tr E]]; rewrite E in *.
  - change (parse (concat (map (render pp 1) [])) [] []) with (@POk (cmap * tmap) ([], [])). cbn [pbind]. apply K, records_nil.
  - cbn [map concat]. apply Forall_cons_iff in D as [D _].
    destruct (parse_doc pp tr [] D) as (cm & tc & E1 & R). rewrite E1. cbn [pbind]. now apply K.
Qed.

(** text of any bytes *)
Lemma text_doc : forall pp s, oksegs (map dq s) -> s <> [] -> forall fput fget klt old,
  of_xml fget klt XStr (to_xml pp fput XStr (VS s)) (VS old) = POk (VS (map dq s)).
Proof.
  intros pp s H NE fput fget klt old. rewrite to_xml_tree; [|exact I|right; reflexivity]. cbn [tree map concat].
  destruct (parse_doc pp (Leaf root (quotes s) (map dq s)) []) as (cm & tc & E1 & R).
  { split; [exact root_ok|now apply ok_text]. }
  change (render pp 1 (Leaf root (quotes s) s)) with (render pp 1 (Leaf root (quotes s) (map dq s))).
  unfold of_xml. rewrite E1. cbn [pbind xunpack]. unfold lookup. cbn [xcm].
  rewrite (dp_ks _ _ root_dp). destruct R as [A _]. rewrite A; [|constructor; [exact root_ok|constructor]|discriminate].
  cbn [app sel doc kids_of nth_named xname]. rewrite beq_refl. cbn [N.eqb].
  unfold cont. destruct s; [congruence|reflexivity].
Qed.

(** ** Well-formedness *)
Definition rawok (raw _ : list ascii) : Prop :=
  Forall (fun c => c <> "<"%char /\ c <> ">"%char) raw /\ amps raw = true.
Lemma scan_text : forall raw rest n stk, Forall (fun c => c <> "<"%char /\ c <> ">"%char) raw ->
  scan (raw ++ rest) (n :: stk) MText = scan rest (n :: stk) MText.
Proof.
  induction raw as [|c raw IH]; intros rest n stk H; [reflexivity|]. apply Forall_cons_iff in H as [[H1 H2] H]. cbn [app scan].
  destruct (ascii_dec c "<"); [contradiction|]. destruct (ascii_dec c ">"); [contradiction|]. now apply IH.
Qed.
Lemma scan_space : forall s rest stk, Forall (fun c => isspace c = true) s -> scan (s ++ rest) stk MText = scan rest stk MText.
Proof.
  induction s as [|c s IH]; intros rest stk H; [reflexivity|]. apply Forall_cons_iff in H as [H1 H]. cbn [app scan].
  destruct (ascii_dec c "<") as [->|]; [discriminate|]. destruct (ascii_dec c ">") as [->|]; [discriminate|].
  rewrite H1. destruct stk; now apply IH.
Qed.
Lemma name_not : forall n x, okname n -> In x (bs "&<>'""=/!?.#") -> ~ In x n.
Proof.
  intros n x [_ H] Hx C. rewrite Forall_forall in H. specialize (H x C). unfold namechar in H. apply andb_prop in H as [_ H].
  rewrite forallb_forall in H. specialize (H x Hx). destruct (ascii_dec x x); congruence.
Qed.
Lemma scan_mopen : forall n acc rest stk, Forall (fun c => namechar c = true) n ->
  scan (n ++ bs ">" ++ rest) stk (MOpen acc) = scan rest ((acc ++ n) :: stk) MText.
Proof.
  induction n as [|c n IH]; intros acc rest stk H.
  - now rewrite app_nil_r.
  - apply Forall_cons_iff in H as [H1 H]. cbn [app scan]. destruct (ascii_dec c ">") as [->|]; [discriminate|].
    rewrite H1. cbn [andb]. rewrite IH by exact H. now rewrite <- app_assoc.
Qed.
Lemma scan_open : forall n rest stk, okname n -> scan (bs "<" ++ n ++ bs ">" ++ rest) stk MText = scan rest (n :: stk) MText.
Proof.
  intros [|c n] rest stk [NE H]; [congruence|]. apply Forall_cons_iff in H as [H1 H].
  change (scan ("<"%char :: c :: n ++ bs ">" ++ rest) stk MText = scan rest ((c :: n) :: stk) MText).
  cbn [scan]. destruct (ascii_dec "<" "<"); [|congruence]. destruct (ascii_dec c "/") as [->|]; [discriminate|].
  rewrite H1. cbn [andb]. now apply scan_mopen.
Qed.
Lemma scan_mclose : forall n acc rest m stk, ~ In ">"%char n ->
  scan (n ++ bs ">" ++ rest) (m :: stk) (MClose acc) = beq m (acc ++ n) && scan rest stk MText.
Proof.
  induction n as [|c n IH]; intros acc rest m stk H.
  - now rewrite app_nil_r.
  - cbn [app scan]. destruct (ascii_dec c ">") as [->|]; [exfalso; apply H; now left|].
    rewrite IH by (intros C; apply H; now right). now rewrite <- app_assoc.
Qed.
Lemma scan_close : forall n rest stk, okname n -> scan (bs "</" ++ n ++ bs ">" ++ rest) (n :: stk) MText = scan rest stk MText.
Proof.
  intros n rest stk H. change (scan (n ++ bs ">" ++ rest) (n :: stk) (MClose []) = scan rest stk MText).
  rewrite scan_mclose by (apply name_not; [exact H|cbn; tauto]). cbn [app]. now rewrite beq_refl.
Qed.
Lemma ind_space : forall pp lvl, Forall (fun c => isspace c = true) (ind pp lvl).
Proof. intros [] lvl; [|constructor]. unfold ind. induction lvl; constructor; auto. Qed.
Lemma eol_space : forall pp, Forall (fun c => isspace c = true) (eol pp).
Proof. intros []; repeat constructor. Qed.
Lemma scan_body : forall pp t lvl rest stk, okdoc rawok t ->
  scan (body pp lvl t ++ rest) (xname t :: stk) MText = scan rest stk MText.
Proof.
  intros pp t. induction t as [n raw txt|n kids IH] using xt_ind2; intros lvl rest stk H.
  - destruct H as [Hn [H _]]. cbn [body xname]. rewrite <- !app_assoc, scan_text by exact H. now apply scan_close.
  - apply okdoc_node in H as [Hn H]. cbn [body xname]. rewrite <- !app_assoc, scan_space by apply eol_space.
    assert (G : forall tl, scan (concat (map (fun k => ind pp (S lvl) ++ bs "<" ++ xname k ++ bs ">" ++ body pp (S lvl) k ++ eol pp) kids) ++ tl)
       (n :: stk) MText = scan tl (n :: stk) MText).
    { induction kids as [|k kids IHk]; intros tl; [reflexivity|].
      apply Forall_cons_iff in IH as [I1 I2]. apply Forall_cons_iff in H as [H1 H2].
      cbn [map concat]. rewrite <- !app_assoc, scan_space by apply ind_space.
      rewrite scan_open by (eapply okdoc_name; exact H1). rewrite I1 by exact H1.
      rewrite scan_space by apply eol_space. now apply IHk. }
    rewrite G, scan_space by apply ind_space. now apply scan_close.
Qed.
Lemma scan_render : forall pp t lvl, okdoc rawok t -> scan (render pp lvl t) [] MText = true.
Proof.
  intros pp t lvl H. unfold render. rewrite scan_space by apply ind_space. rewrite scan_open by (eapply okdoc_name; exact H).
  rewrite scan_body by exact H. rewrite <- (app_nil_r (eol pp)), scan_space by apply eol_space. reflexivity.
Qed.

Lemma to_semi_app : forall s a r b, to_semi s = Some (a, r) -> to_semi (s ++ b) = Some (a, r ++ b).
Proof.
  induction s as [|c s IH]; intros a r b H; [discriminate|]. cbn [app to_semi] in *.
  destruct (ascii_dec c ";"); [injection H as <- <-; reflexivity|].
  destruct (to_semi s) as [[a' r']|] eqn:E; [|discriminate]. injection H as <- <-. now rewrite (IH a' r' b eq_refl).
Qed.
Lemma amps_app : forall a b, amps a = true -> amps (a ++ b) = amps b.
Proof.
  induction a as [|c a IH]; intros b H; [reflexivity|]. cbn [app amps] in *. apply andb_prop in H as [H1 H2].
  rewrite IH by exact H2. destruct (ascii_dec c "&"); [|reflexivity].
  destruct (to_semi a) as [[nm r]|] eqn:E; [|discriminate]. rewrite (to_semi_app _ _ _ b E). now rewrite H1.
Qed.
Lemma amps_none : forall a, ~ In "&"%char a -> amps a = true.
Proof.
  induction a as [|c a IH]; intros H; [reflexivity|]. cbn [amps]. destruct (ascii_dec c "&") as [->|]; [exfalso; apply H; now left|].
  apply IH. intros C. apply H. now right.
Qed.
Lemma amps_name : forall n, okname n -> amps n = true.
Proof. intros n H. apply amps_none, name_not; [exact H|now left]. Qed.
Lemma amps_space : forall s, Forall (fun c => isspace c = true) s -> amps s = true.
Proof. intros s H. apply amps_none. intros C. rewrite Forall_forall in H. specialize (H _ C). discriminate. Qed.
Lemma amps_body : forall pp t lvl, okdoc rawok t -> amps (body pp lvl t) = true.
Proof.
  intros pp t. induction t as [n raw txt|n kids IH] using xt_ind2; intros lvl H.
  - destruct H as [Hn [_ H]]. cbn [body]. rewrite amps_app by exact H. rewrite amps_app by reflexivity.
    now rewrite amps_app by (now apply amps_name).
  - apply okdoc_node in H as [Hn H]. cbn [body]. rewrite amps_app by (apply amps_space, eol_space).
    assert (G : amps (concat (map (fun k => ind pp (S lvl) ++ bs "<" ++ xname k ++ bs ">" ++ body pp (S lvl) k ++ eol pp) kids)) = true).
    { induction kids as [|k kids IHk]; [reflexivity|].
      apply Forall_cons_iff in IH as [I1 I2]. apply Forall_cons_iff in H as [H1 H2].
      cbn [map concat]. rewrite <- !app_assoc, amps_app by (apply amps_space, ind_space). rewrite amps_app by reflexivity.
      rewrite amps_app by (apply amps_name; eapply okdoc_name; exact H1). rewrite amps_app by reflexivity.
      rewrite amps_app by (now apply I1). rewrite amps_app by (apply amps_space, eol_space). now apply IHk. }
    rewrite amps_app by exact G. rewrite amps_app by (apply amps_space, ind_space). rewrite amps_app by reflexivity.
    now rewrite amps_app by (now apply amps_name).
Qed.
Lemma amps_render : forall pp t lvl, okdoc rawok t -> amps (render pp lvl t) = true.
Proof.
  intros pp t lvl H. unfold render. rewrite amps_app by (apply amps_space, ind_space). rewrite amps_app by reflexivity.
  rewrite amps_app by (apply amps_name; eapply okdoc_name; exact H). rewrite amps_app by reflexivity.
  rewrite amps_app by (now apply amps_body). apply amps_space, eol_space.
Qed.

(** what is written *)
Definition qraw (c : ascii) : bool :=
  forallb (fun x => negb (if ascii_dec x "<" then true else false) && negb (if ascii_dec x ">" then true else false)) (quote c)
  && amps (quote c).
Lemma qraw_all : forall c, qraw c = true.
Proof. intros [[] [] [] [] [] [] [] []]; vm_compute; reflexivity. Qed.
Lemma rawok_app : forall a b t, rawok a t -> rawok b t -> rawok (a ++ b) t.
Proof. intros a b t [H1 H2] [H3 H4]. split; [now apply Forall_app|]. now rewrite amps_app. Qed.
Lemma quote_raw : forall c t, rawok (quote c) t.
Proof.
  intros c t. pose proof (qraw_all c) as Q. unfold qraw in Q. apply andb_prop in Q as [Q1 Q2]. split; [|exact Q2].
  apply Forall_forall. intros x Hx. rewrite forallb_forall in Q1. specialize (Q1 x Hx).
  destruct (ascii_dec x "<"); [discriminate|]. destruct (ascii_dec x ">"); [discriminate|]. auto.
Qed.
Lemma quotes_raw : forall s t, rawok (quotes s) t.
Proof. induction s as [|c s IH]; intros t; [repeat constructor|]. rewrite quotes_cons. apply rawok_app; [apply quote_raw|apply IH]. Qed.
Lemma plain_raw : forall s t, Forall (fun c => plain c = true) s -> rawok s t.
Proof. intros s t H. rewrite <- (plain_quotes s H). apply quotes_raw. Qed.

Section Raw.
Variable fput : N -> list ascii.
Hypothesis Hf : forall x, Forall (fun c => plain c = true) (fput x).
Notation rawdocs := (Forall (okdoc rawok)).
Lemma rawdocs_concat : forall {A} (f : A -> list xt) l, (forall x, rawdocs (f x)) -> rawdocs (concat (map f l)).
Proof. induction l as [|x l IH]; intros H; cbn; [constructor|]. apply Forall_app. split; auto. Qed.
Lemma rawdocs_node : forall n kids, okname n -> rawdocs kids -> rawdocs [Node n kids].
Proof. intros n kids H H'. constructor; [|constructor]. apply okdoc_node. auto. Qed.
Lemma rawdocs_leaf : forall n raw txt, okname n -> rawok raw txt -> rawdocs [Leaf n raw txt].
Proof. intros. constructor; [|constructor]. split; assumption. Qed.
Lemma ek_sym_raw : forall ks z t, NoDup (map fst ks) -> Forall (fun p => fst p <> [] /\ Forall (fun c => plain c = true) (fst p)) ks ->
  rawok (ek_sym (ek_make ks) z) t.
Proof.
  intros ks z t _ H. destruct (in_dec Z.eq_dec z (map snd ks)) as [I|I].
  - apply plain_raw. now apply ek_sym_plain.
  - rewrite (proj1 (proj1 (proj2 (C33_unknown ks)) z I)). repeat constructor.
Qed.

Lemma tree_raw : (forall t cst n v, xwf cst t -> cdata_free t = true -> okname n -> rawdocs (tree fput cst t n v)) /\
  (forall ts : xtys, True) /\
  (forall fs vs, xwf_flds fs -> cdata_free_flds fs = true -> rawdocs (tree_flds fput fs vs)) /\
  (forall als tag vs, xwf_alts als -> cdata_free_alts als = true -> rawdocs (tree_alts fput als tag vs)).
Proof.
  apply xty_mutind; try (intros; exact I).
  - intros cst n v _ _ Hn. destruct v; try constructor; [|constructor]. split; [exact Hn|]. destruct b; apply plain_raw; repeat constructor.
  - intros cst n v _ _ Hn. destruct v; try constructor; [|constructor]. split; [exact Hn|]. apply quote_raw.
  - intros sgn bits cst n v _ _ Hn. destruct v; try constructor; [|constructor]. split; [exact Hn|]. apply plain_raw, decZ_plain.
  - intros cst n v _ _ Hn. destruct v; try constructor; [|constructor]. split; [exact Hn|]. apply plain_raw, Hf.
  - intros cst n v _ _ Hn. destruct v; try constructor; [|constructor]. split; [exact Hn|]. apply quotes_raw.
  - intros cst n v [].
  - intros cst n v _ C. discriminate.
  - intros ks cst n v [W1 W2] _ Hn. destruct v; try constructor; [|constructor]. split; [exact Hn|]. now apply ek_sym_raw.
  - intros fixed e t IH cst n v [He Ht] C Hn. destruct v; try constructor; [|constructor]. apply okdoc_node. split; [exact Hn|].
    apply rawdocs_concat. intros x. now apply IH.
  - intros m e t IH cst n v (He & Hs & Ht) C Hn. destruct v; try constructor; [|constructor]. apply okdoc_node. split; [exact Hn|].
    apply rawdocs_concat. intros x. now apply IH.
  - intros multi c e t IH cst n v [He Ht] C Hn. destruct v; try constructor; [|constructor]. apply okdoc_node. split; [exact Hn|].
    apply rawdocs_concat. intros x. now apply IH.
  - intros a IHa b IHb cst n v [Ha Hb] C Hn. apply andb_prop in C as [C1 C2].
    destruct v; try constructor; [|constructor]. apply okdoc_node. split; [exact Hn|].
    apply Forall_app. split; [apply IHa; auto using first_ok|apply IHb; auto using second_ok].
  - intros ts _ cst n v [].
  - intros fs IH cst n v [_ Hff] C Hn. destruct v; try constructor; [|constructor]. apply okdoc_node. split; [exact Hn|]. now apply IH.
  - intros t IH cst n v (Hs & Ht & Hw) C Hn.
    assert (E0 : rawdocs (if cst then [Node n []] else [])).
    { destruct cst; [|constructor]. apply rawdocs_node; [exact Hn|constructor]. }
    cbn [tree]. destruct v; try exact E0.
    pose proof (IH false n v Hw C Hn) as G. destruct (tree fput false t n v); [exact E0|exact G].
  - intros als IH cst n v Ha C Hn.
    assert (E0 : rawdocs (if cst then [Node n []] else [])).
    { destruct cst; [|constructor]. apply rawdocs_node; [exact Hn|constructor]. }
    cbn [tree]. destruct v; try exact E0. apply rawdocs_node; [exact Hn|].
    constructor; [|now apply IH]. split; [exact type_ok|]. apply quotes_raw.
  - intros t IH cst n v [].
  - intros vs _ _. constructor.
  - intros m t IHt fs IH vs (Hm & Ht & Hff) C. apply andb_prop in C as [C1 C2]. destruct vs as [|x vs]; [constructor|].
    apply Forall_app. split; [now apply IHt|now apply IH].
  - intros tag vs _ _. constructor.
  - intros tg fs IHf als IHa tag vs (_ & _ & _ & Hff & Ha) C. apply andb_prop in C as [C1 C2]. cbn.
    destruct (beq tg tag); [now apply IHf|now apply IHa].
Qed.
Theorem wellformed : forall pp t v, xwf false t -> cdata_free t = true ->
  scan (to_xml pp fput t v) [] MText = true /\ amps (to_xml pp fput t v) = true.
Proof.
  intros pp t v W C. rewrite to_xml_tree by (auto; right; exact C).
  pose proof (proj1 tree_raw t false root v W C root_ok) as R.
  destruct (tree_le1 fput t false root v) as [E|[tr E]]; rewrite E in *; [split; reflexivity|].
  apply Forall_cons_iff in R as [R _]. cbn [map concat]. rewrite app_nil_r. split; [now apply scan_render|now apply amps_render].
Qed.
End Raw.

(** ** Every key of the database has a '#' *)
Definition hk (cm : cmap) : Prop := forall k, has hash k = false -> mfind bcmp k cm = None.
Lemma hk_mset : forall k v cm, hk cm -> has hash k = true -> hk (mset bcmp k v cm).
Proof.
  intros k v cm H Hk k' Hk'. assert (N : k' <> k) by congruence. rewrite (mfind_mset_other bcmp bcmp_eq) by exact N. now apply H.
Qed.
Definition hkr {A} (f : A -> cmap) (r : pres A) : Prop := match r with POk a => hk (f a) | _ => True end.
Lemma has_idx : forall p i, has hash (idx p i) = true.
Proof. intros p i. unfold idx. rewrite has_app. cbn. now rewrite orb_true_r. Qed.
Lemma attributes_hk : forall f st sidx cm, has hash sidx = true -> hk cm -> hkr snd (attributes f st sidx cm).
Proof.
  induction f as [|f IH]; intros st sidx cm Hs H; [exact I|]. cbn [attributes].
  destruct (token_no_eof st) as [[tok st1]| |]; [|exact I|exact I]. cbn [pbind].
  destruct (beq tok (bs ">")); [exact H|]. destruct (beq tok (bs "/>")); [exact H|].
  destruct (all_space tok); [now apply IH|]. unfold process_attribute.
  destruct (skip_ws f st1) as [[tok2 st2]| |]; [|exact I|exact I]. cbn [pbind].
  destruct (beq tok2 (bs "=")); [|exact I].
  destruct (skip_ws f st2) as [[tok3 st3]| |]; [|exact I|exact I]. cbn [pbind].
  apply IH; [exact Hs|]. apply hk_mset; [exact H|]. now rewrite has_app, Hs.
Qed.
Lemma pelem_pcont_hk : forall f,
  (forall st scope cm tc, hk cm -> hkr (fun r => snd (fst r)) (pelem f st scope cm tc)) /\
  (forall st sidx content cm tc, has hash sidx = true -> hk cm -> hkr (fun r => snd (fst r)) (pcont f st sidx content cm tc)).
Proof.
  induction f as [|f [IH1 IH2]]; [split; intros; exact I|]. split.
  - intros st scope cm tc H. cbn [pelem].
    pose proof (attributes_hk f st (idx scope (cnt tc scope)) cm (has_idx _ _) H) as G.
    destruct (attributes f st (idx scope (cnt tc scope)) cm) as [[[e st1] cm1]| |]; [|exact I|exact I]. cbn [pbind hkr snd] in *.
    destruct e; [exact G|].
    specialize (IH2 st1 (idx scope (cnt tc scope)) [] cm1 (mset bcmp scope (cnt tc scope + 1)%N tc) (has_idx _ _) G).
    destruct (pcont f st1 _ [] cm1 _) as [[[[content st2] cm2] tc2]| |]; [|exact I|exact I]. cbn [pbind hkr fst snd] in *.
    destruct (token_no_eof st2) as [[tok st3]| |]; [|exact I|exact I]. cbn [pbind].
    destruct (endtag_ok scope tok); [|exact I]. destruct (skip_to_gt f tok st3); [|exact I|exact I]. cbn [pbind hkr fst snd].
    destruct content; [exact IH2|]. apply hk_mset; [exact IH2|apply has_idx].
  - intros st sidx content cm tc Hs H. cbn [pcont].
    destruct (token_no_eof st) as [[tok st1]| |]; [|exact I|exact I]. cbn [pbind].
    destruct (beq tok (bs "</")); [exact H|]. destruct (beq tok (bs "<")); [|now apply IH2].
    destruct (token_no_eof st1) as [[name st2]| |]; [|exact I|exact I]. cbn [pbind].
    specialize (IH1 st2 (sidx ++ dot :: name) cm tc H).
    destruct (pelem f st2 (sidx ++ dot :: name) cm tc) as [[[st3 cm3] tc3]| |]; [|exact I|exact I]. cbn [pbind hkr fst snd] in *.
    now apply IH2.
Qed.
Theorem parse_hk : forall s cm tc, hk cm -> hkr fst (parse s cm tc).
Proof.
  intros s cm tc H. unfold parse. destruct (skip_ws0 _ _) as [tok i n| |]; [|exact I|exact I].
  destruct tok; [exact H|]. destruct (beq _ _); [|exact I].
  destruct (token_no_eof _) as [[name st]| |]; [|exact I|exact I]. cbn [pbind].
  pose proof (proj1 (pelem_pcont_hk (fuel_for s)) st name cm tc H) as G.
  destruct (pelem _ _ _ _ _) as [[[st3 cm3] tc3]| |]; [|exact I|exact I]. exact G.
Qed.

(** * The XML descriptor: what is written, and the round trip of values *)
From Verif Require Import Base Base_Proofs SMap Dec Desc_Model Desc_Props Json_Model Json_Spec Json_Proofs2 Xml_Model Xml_Spec Xml_Proofs Xml_Proofs2.
Ltac Zify.zify_post_hook ::= Z.div_mod_to_equations.

Lemma tree_named : forall fput t cst n v, Forall (fun tr => xname tr = n) (tree fput cst t n v).
Proof.
  intros fput t. induction t; intros cst nm v; cbn [tree]; destruct v; try (repeat constructor; reflexivity);
    try (destruct cst; repeat constructor; reflexivity).
  destruct (tree fput false t nm v) eqn:E.
  - destruct cst; repeat constructor; reflexivity.
  - rewrite <- E. apply IHt.
Qed.

(** ** Writing *)
Section Write.
Variable pp : bool.
Variable fput : N -> list ascii.
Notation xpack := (xpack pp fput). Notation xpack_flds := (xpack_flds pp fput). Notation xpack_alts := (xpack_alts pp fput).
Notation tree := (tree fput). Notation tree_flds := (tree_flds fput). Notation tree_alts := (tree_alts fput).
Notation render := (render pp). Notation with_tag := (with_tag pp).

Definition wdesc (d : list ascii) (l : nat) (n : list ascii) : Prop :=
  ~ In nul d /\ level d = S l /\ tail d = n.
Lemma cstr_id : forall s, ~ In nul s -> cstr s = s.
Proof.
  induction s as [|c s IH]; intros H; cbn; [reflexivity|]. destruct (ascii_dec c nul) as [->|]; [exfalso; apply H; now left|].
  rewrite IH; [reflexivity|]. intros C. apply H. now right.
Qed.
Lemma filter_dot_nil : forall s, ~ In dot s -> filter (fun c => if ascii_dec c dot then true else false) s = [].
Proof.
  induction s as [|c s IH]; intros H; cbn; [reflexivity|]. destruct (ascii_dec c dot) as [->|]; [exfalso; apply H; now left|].
  apply IH. intros C. apply H. now right.
Qed.
Lemma level_eq : forall s, ~ In nul s -> s <> [] -> level s = S (length (filter (fun c => if ascii_dec c dot then true else false) s)).
Proof. intros s H N. unfold level. rewrite cstr_id by exact H. destruct s; [congruence|reflexivity]. Qed.
Lemma wdesc_sub : forall d l n e, wdesc d l n -> okname e -> wdesc (d ++ dot :: e) (S l) e.
Proof.
  intros d l n e (H1 & H2 & H3) He.
  assert (NE : ~ In nul (d ++ dot :: e)).
  { rewrite in_app_iff. intros [C|[C|C]]; [auto|discriminate C|]. revert C. now apply name_notin. }
  split; [exact NE|]. split.
  - assert (d <> []) by (intros ->; discriminate H2).
    rewrite level_eq in * by (assumption || (destruct d; discriminate)).
    rewrite filter_app, app_length. cbn [filter]. destruct (ascii_dec dot dot); [|congruence].
    rewrite (filter_dot_nil e) by (now apply name_notin). cbn [length]. lia.
  - unfold tail. rewrite rfind_app by (now apply name_notin).
    change (d ++ dot :: e) with (d ++ [dot] ++ e). rewrite app_assoc.
    replace (S (length d)) with (length (d ++ [dot])) by (rewrite app_length; cbn; lia).
    induction (d ++ [dot]); cbn; auto.
Qed.
Lemma pretty_ind : forall d l n, wdesc d l n -> pretty pp d = ind pp (S l).
Proof. intros d l n (_ & H & _). unfold pretty, ind. now rewrite H. Qed.
Lemma with_tag_at : forall d l n body o, wdesc d l n -> body (S l) = (o, S l) ->
  with_tag d l body = (ind pp (S l) ++ bs "<" ++ n ++ bs ">" ++ eol pp ++ o ++ ind pp (S l) ++ bs "</" ++ n ++ bs ">" ++ eol pp, l).
Proof.
  intros d l n body o H E. unfold Xml_Model.with_tag. pose proof (pretty_ind _ _ _ H) as P. destruct H as (_ & H2 & H3).
  rewrite H2. replace (l <? S l)%nat with true by (symmetry; apply Nat.ltb_lt; lia). rewrite E.
  unfold opentag, closetag. rewrite P, H3. unfold endpretty, eol. replace (S l - 1) with l by lia.
  rewrite <- !app_assoc. reflexivity.
Qed.
Lemma with_tag_idem : forall d tl B, with_tag d tl (fun t => with_tag d t B) = with_tag d tl B.
Proof.
  intros d tl B. unfold Xml_Model.with_tag. rewrite Nat.ltb_irrefl. destruct (tl <? level d)%nat; reflexivity.
Qed.
Lemma with_tag_ext : forall d tl B B', (forall x, B x = B' x) -> with_tag d tl B = with_tag d tl B'.
Proof. intros d tl B B' H. unfold Xml_Model.with_tag. now rewrite !H. Qed.
Lemma render_node : forall l n kids, render (S l) (Node n kids) =
  ind pp (S l) ++ bs "<" ++ n ++ bs ">" ++ eol pp ++ concat (map (render (S (S l))) kids) ++
  ind pp (S l) ++ bs "</" ++ n ++ bs ">" ++ eol pp.
Proof.
  intros. unfold Xml_Spec.render at 1. cbn [xname body]. rewrite <- !app_assoc. reflexivity.
Qed.
Lemma pack_text_at : forall d l n s txt, wdesc d l n ->
  pack_text pp d s l = (concat (map (render (S l)) [Leaf n s txt]), l).
Proof.
  intros d l n s txt H. unfold pack_text. rewrite (pretty_ind _ _ _ H). destruct H as (_ & _ & ->).
  cbn [map concat]. rewrite app_nil_r. unfold Xml_Spec.render. cbn [xname body].
  rewrite <- !app_assoc. reflexivity.
Qed.
Lemma with_tag_node : forall d l n body kids, wdesc d l n ->
  body (S l) = (concat (map (render (S (S l))) kids), S l) ->
  with_tag d l body = (concat (map (render (S l)) [Node n kids]), l).
Proof.
  intros d l n body kids H E. rewrite (with_tag_at _ _ _ _ _ H E). cbn [map concat]. rewrite app_nil_r, render_node. reflexivity.
Qed.
Lemma many_ok : forall {A} (f : A -> nat -> list ascii * nat) g l tl,
  (forall x, In x l -> f x tl = (g x, tl)) -> many f l tl = (concat (map g l), tl).
Proof.
  induction l as [|x l IH]; intros tl H; cbn; [reflexivity|].
  rewrite H by (now left). rewrite IH; [reflexivity|]. intros y Hy. apply H. now right.
Qed.
Lemma concat_map_map : forall {A B C} (g : B -> list C) (f : A -> list B) l,
  concat (map g (concat (map f l))) = concat (map (fun x => concat (map g (f x))) l).
Proof. intros. induction l as [|x l IH]; cbn; [reflexivity|]. now rewrite map_app, concat_app, IH. Qed.

(** the objects written with a [Tag] around them *)
Lemma tagged_pack : forall t d n x, tagged t = true ->
  ((forall tl, xpack false t d x tl = ([], tl)) /\ tree false t n x = []) \/
  (exists B, (forall tl, xpack false t d x tl = with_tag d tl B) /\ exists tr, tree false t n x = [tr]).
Proof.
  intros t d n x H. destruct t; try discriminate H; destruct x; cbn [Xml_Model.xpack Xml_Spec.tree];
    first [left; split; reflexivity | right; eexists; split; [reflexivity|eexists; reflexivity]].
Qed.

Definition cd_ok (b : bool) : Prop := pp = false \/ b = true.
Lemma cd_and : forall a b, cd_ok (a && b) -> cd_ok a /\ cd_ok b.
Proof. intros a b [H|H]; [split; now left|]. apply andb_prop in H as [-> ->]. split; now right. Qed.
Definition Pw (t : xty) : Prop := forall cst d l n v, xwf cst t -> cd_ok (cdata_free t) -> wdesc d l n ->
  xpack cst t d v l = (concat (map (render (S l)) (tree cst t n v)), l).
Definition Pwf (fs : xflds) : Prop := forall d l n vs, xwf_flds fs -> cd_ok (cdata_free_flds fs) -> wdesc d l n ->
  xpack_flds fs d vs (S l) = (concat (map (render (S (S l))) (tree_flds fs vs)), S l).
Definition Pwa (als : xalts) : Prop := forall d l n tag vs, xwf_alts als -> cd_ok (cdata_free_alts als) -> wdesc d l n ->
  xpack_alts als tag d vs (S l) = (concat (map (render (S (S l))) (tree_alts als tag vs)), S l).

Lemma first_ok : okname (bs "first"). Proof. split; [discriminate|repeat constructor]. Qed.
Lemma second_ok : okname (bs "second"). Proof. split; [discriminate|repeat constructor]. Qed.
Lemma type_ok : okname (bs "type"). Proof. split; [discriminate|repeat constructor]. Qed.
Lemma root_ok : okname root. Proof. split; [discriminate|repeat constructor]. Qed.

Lemma write_all : (forall t, Pw t) /\ (forall ts : xtys, True) /\ (forall fs, Pwf fs) /\ (forall als, Pwa als).
Proof.
  apply xty_mutind; try (intros; exact I); unfold Pw, Pwf, Pwa.
  - intros cst d l n v _ _ W; destruct v; try reflexivity. now apply pack_text_at.
  - intros cst d l n v _ _ W; destruct v; try reflexivity. now apply pack_text_at.
  - intros sgn bits cst d l n v _ _ W; destruct v; try reflexivity. now apply pack_text_at.
  - intros cst d l n v _ _ W; destruct v; try reflexivity. now apply pack_text_at.
  - intros cst d l n v _ _ W; destruct v; try reflexivity. now apply pack_text_at.
  - intros cst d l n v []. 
  - intros cst d l n v _ [C|C] W; [|discriminate C]. destruct v; try reflexivity. cbn [Xml_Model.xpack Xml_Spec.tree].
    rewrite (with_tag_at _ _ _ _ _ W eq_refl). unfold ind, eol. rewrite C. cbn [map concat app]. rewrite app_nil_r.
    unfold Xml_Spec.render, ind, eol. cbn [xname body app]. rewrite <- ?app_assoc, ?app_nil_r. reflexivity.
  - intros ks cst d l n v _ _ W; destruct v; try reflexivity. now apply pack_text_at.
  - intros fixed e t IH cst d l n v [He Ht] C W; destruct v; try reflexivity. cbn [Xml_Model.xpack Xml_Spec.tree].
    apply with_tag_node; [exact W|]. rewrite concat_map_map. apply many_ok. intros x _.
    apply IH; auto. eapply wdesc_sub; eauto.
  - intros m e t IH cst d l n v (He & Hs & Ht) C W; destruct v; try reflexivity. cbn [Xml_Model.xpack Xml_Spec.tree].
    apply with_tag_node; [exact W|]. rewrite concat_map_map. apply many_ok. intros x _.
    apply IH; auto. eapply wdesc_sub; eauto.
  - intros multi c e t IH cst d l n v [He Ht] C W; destruct v; try reflexivity. cbn [Xml_Model.xpack Xml_Spec.tree].
    apply with_tag_node; [exact W|]. rewrite concat_map_map. apply many_ok. intros x _.
    apply IH; auto. eapply wdesc_sub; eauto.
  - intros a IHa b IHb cst d l n v [Ha Hb] C W; destruct v; try reflexivity. cbn [Xml_Model.xpack Xml_Spec.tree].
    apply cd_and in C as [Ca Cb]. rewrite with_tag_idem. apply with_tag_node; [exact W|]. unfold seq2.
    change (d ++ bs ".first") with (d ++ dot :: bs "first"). change (d ++ bs ".second") with (d ++ dot :: bs "second").
    rewrite (IHa false _ (S l) (bs "first")); [|exact Ha|exact Ca|eapply wdesc_sub; eauto using first_ok].
    rewrite (IHb false _ (S l) (bs "second")); [|exact Hb|exact Cb|eapply wdesc_sub; eauto using second_ok].
    now rewrite map_app, concat_app.
  - intros ts _ cst d l n v [].
  - intros fs IH cst d l n v [_ Hf] C W; destruct v; try reflexivity. cbn [Xml_Model.xpack Xml_Spec.tree].
    apply with_tag_node; [exact W|]. eapply IH; eauto.
  - intros t IH cst d l n v (Hs & Ht & Hw) C W. cbn [Xml_Model.xpack Xml_Spec.tree].
    set (B := fun tl => match v with VPtr x => xpack false t d x tl | _ => ([], tl) end).
    assert (N0 : cst = true -> (forall tl, B tl = ([], tl)) ->
      with_tag d l B = (concat (map (render (S l)) [Node n []]), l)).
    { intros _ HB. apply with_tag_node; [exact W|]. now rewrite HB. }
    destruct cst.
    + destruct v; try (apply N0; reflexivity).
      destruct (tagged_pack t d n v (Ht eq_refl)) as [[E1 E2]|(B' & E1 & tr & E2)].
      * rewrite E2. apply N0; [reflexivity|exact E1].
      * pose proof (IH false d l n v Hw C W) as E. rewrite E2 in E |- *. rewrite <- E. rewrite E1.
        rewrite <- (with_tag_idem d l B'). apply with_tag_ext. intros tl. unfold B. now rewrite E1.
    + destruct v; try reflexivity. unfold B. rewrite (IH false d l n v Hw C W). destruct (tree false t n v); reflexivity.
  - intros als IH cst d l n v Ha C W. cbn [Xml_Model.xpack Xml_Spec.tree].
    assert (N0 : with_tag d l (fun tl => ([], tl)) = (concat (map (render (S l)) [Node n []]), l)).
    { now apply with_tag_node. }
    destruct v; try (destruct cst; [exact N0|reflexivity]).
    assert (E : with_tag d l (seq2 (pack_text pp (d ++ bs ".type") (quotes tag)) (xpack_alts als tag d l0)) =
      (concat (map (render (S l)) [Node n (Leaf (bs "type") (quotes tag) tag :: tree_alts als tag l0)]), l)).
    { apply with_tag_node; [exact W|]. unfold seq2.
      change (d ++ bs ".type") with (d ++ dot :: bs "type").
      rewrite (pack_text_at _ _ (bs "type") _ tag) by (eapply wdesc_sub; eauto using type_ok).
      rewrite (IH d l n tag l0 Ha C W). cbn [map concat]. now rewrite app_nil_r. }
    destruct cst; [|exact E]. etransitivity; [|exact E]. apply with_tag_idem.
  - intros t IH cst d l n v [].
  - intros d l n vs _ _ W. reflexivity.
  - intros m t IHt fs IH d l n vs (Hm & Ht & Hf) C W. destruct vs as [|x vs]; [reflexivity|].
    apply cd_and in C as [C1 C2]. cbn [Xml_Model.xpack_flds Xml_Spec.tree_flds]. unfold seq2.
    rewrite (IHt false _ (S l) m) by (auto; eapply wdesc_sub; eauto). rewrite (IH d l n vs Hf C2 W).
    now rewrite map_app, concat_app.
  - intros d l n tag vs _ _ W. reflexivity.
  - intros tg fs IHf als IHa d l n tag vs (_ & _ & _ & Hf & Ha) C W.
    apply cd_and in C as [C1 C2]. cbn [Xml_Model.xpack_alts Xml_Spec.tree_alts].
    destruct (beq tg tag); [eapply IHf; eauto|eapply IHa; eauto].
Qed.
Theorem to_xml_tree : forall t v, xwf false t -> cd_ok (cdata_free t) ->
  to_xml pp fput t v = concat (map (render 1) (tree false t root v)).
Proof.
  intros t v H C. unfold to_xml. rewrite (proj1 write_all t false root 0 root v H C); [reflexivity|].
  split; [|split; reflexivity]. cbn. intuition discriminate.
Qed.
End Write.

(** ** The documents written can be parsed *)
Lemma plain_spec : forall c, plain c = true -> quote c = [c] /\ okchar c = true /\ isspace c = false /\ c <> "<"%char /\ c <> nul.
Proof.
  intros c. assert (A : (if plain c then okchar c && negb (isspace c) && (if ascii_dec c "<" then false else true) && (if ascii_dec c nul then false else true) else true) = true).
  { destruct c as [[] [] [] [] [] [] [] []]; vm_compute; reflexivity. }
  intros H. rewrite H in A. apply andb_prop in A as [A A4]. apply andb_prop in A as [A A3]. apply andb_prop in A as [A1 A2].
  split; [now apply beq_eq|]. split; [exact A1|]. apply negb_true_iff in A2. split; [exact A2|].
  split; intros ->; [discriminate A3|discriminate A4].
Qed.
Lemma plain_quotes : forall s, Forall (fun c => plain c = true) s -> quotes s = s.
Proof.
  induction s as [|c s IH]; intros H; [reflexivity|]. apply Forall_cons_iff in H as [H1 H2].
  rewrite quotes_cons, (proj1 (plain_spec c H1)), IH by exact H2. reflexivity.
Qed.
Lemma splitc_in : forall c s seg x, In seg (splitc c s) -> In x seg -> In x s.
Proof.
  intros c s. induction s as [|y s IH]; intros seg x H1 H2; cbn [splitc] in H1.
  - destruct H1 as [<-|[]]. destruct H2.
  - destruct (ascii_dec y c).
    + destruct H1 as [<-|H1]; [destruct H2|]. right. eauto.
    + destruct (splitc c s) as [|a r]; cbn in H1.
      * destruct H1 as [<-|[]]. destruct H2 as [->|[]]. now left.
      * destruct H1 as [<-|H1].
        -- destruct H2 as [->|H2]; [now left|]. right. apply (IH a); [now left|exact H2].
        -- right. apply (IH seg); [now right|exact H2].
Qed.
Lemma nolt_oktext : forall s, Forall (fun c => okchar c = true) s -> ~ In "<"%char s -> oktext s.
Proof.
  intros s H N. split; [exact H|]. apply Forall_forall. intros seg Hs. split; intros ->; apply N.
  - eapply splitc_in; [exact Hs|now left].
  - eapply splitc_in; [exact Hs|now left].
Qed.
Lemma dq_id : forall s, Forall (fun c => okchar c = true) s -> map dq s = s.
Proof.
  induction s as [|c s IH]; intros H; [reflexivity|]. apply Forall_cons_iff in H as [H1 H2]. cbn [map].
  unfold dq at 1. now rewrite H1, IH.
Qed.
Lemma oktext_leaf : forall s, oktext s -> okleaf (quotes s) s.
Proof. intros s [H1 H2]. rewrite <- (dq_id s H1) at 2. apply ok_text. now rewrite dq_id. Qed.
Lemma plain_leaf : forall s, Forall (fun c => plain c = true) s -> okleaf s s.
Proof.
  intros s H. rewrite <- (plain_quotes s H) at 1. apply oktext_leaf. apply nolt_oktext.
  - eapply Forall_impl; [|exact H]. intros c Hc. now apply plain_spec.
  - intros C. rewrite Forall_forall in H. specialize (H _ C). discriminate H.
Qed.
Lemma decZ_plain : forall z, Forall (fun c => plain c = true) (decZ z).
Proof.
  assert (D : forall c, isdigit c -> plain c = true).
  { intros c. assert (A : (if ((48 <=? N_of_ascii c) && (N_of_ascii c <=? 57))%N then plain c else true) = true)
      by (destruct c as [[] [] [] [] [] [] [] []]; vm_compute; reflexivity).
    intros [H1 H2]. replace ((48 <=? N_of_ascii c) && (N_of_ascii c <=? 57))%N with true in A by lia. exact A. }
  assert (N : forall n, Forall (fun c => plain c = true) (dec n)).
  { intros n. eapply Forall_impl; [|apply dec_isdigit]. exact D. }
  intros z. unfold decZ. destruct (z <? 0)%Z; [|apply N]. constructor; [reflexivity|apply N].
Qed.

Section Read.
Variable pp : bool.
Variable fput : N -> list ascii.
Variable fget : list ascii -> N -> N.
Variable klt : nat -> jval -> jval -> bool.
Notation tree := (tree fput). Notation tree_flds := (tree_flds fput). Notation tree_alts := (tree_alts fput).
Notation xht := (xht fput fget klt). Notation xht_flds := (xht_flds fput fget klt). Notation xht_alts := (xht_alts fput fget klt).

Definition okdocs (l : list xt) : Prop := Forall (okdoc okleaf) l.
Lemma okdocs_concat : forall {A} (f : A -> list xt) l, Forall (fun x => okdocs (f x)) l -> okdocs (concat (map f l)).
Proof. induction l as [|x l IH]; intros H; cbn; [constructor|]. apply Forall_cons_iff in H as [H1 H2]. apply Forall_app. split; auto. now apply IH. Qed.
Lemma okdocs_node : forall n kids, okname n -> okdocs kids -> okdocs [Node n kids].
Proof. intros n kids H H'. constructor; [|constructor]. apply okdoc_node. auto. Qed.
Lemma okdocs_leaf : forall n raw txt, okname n -> okleaf raw txt -> okdocs [Leaf n raw txt].
Proof. intros. constructor; [|constructor]. split; assumption. Qed.
Lemma ek_sym_plain : forall ks z, Forall (fun p => fst p <> [] /\ Forall (fun c => plain c = true) (fst p)) ks ->
  In z (map snd ks) -> ek_sym (ek_make ks) z <> [] /\ Forall (fun c => plain c = true) (ek_sym (ek_make ks) z).
Proof.
  intros ks z H I. apply ek_sym_in in I. apply in_map_iff in I as (p & <- & I).
  rewrite Forall_forall in H. exact (H p I).
Qed.
Lemma char_text : forall c, okchar c = true -> c <> "<"%char -> oktext [c].
Proof. intros c H N. apply nolt_oktext; [now repeat constructor|]. intros [C|[]]. congruence. Qed.

Lemma tree_okdocs : (forall t cst n v, xwf cst t -> xht cst t v -> okname n -> okdocs (tree cst t n v)) /\
  (forall ts : xtys, True) /\
  (forall fs vs, xwf_flds fs -> xht_flds fs vs -> okdocs (tree_flds fs vs)) /\
  (forall als tag vs, xwf_alts als -> xht_alts als tag vs -> okdocs (tree_alts als tag vs)).
Proof.
  apply xty_mutind; try (intros; exact I).
  - intros cst n v _ _ Hn. destruct v; try constructor; [|constructor]. split; [exact Hn|]. destruct b; apply plain_leaf; repeat constructor.
  - intros cst n v _ H Hn. destruct v; try constructor; [|constructor]. destruct H as (H1 & H2 & H3). split; [exact Hn|].
    replace (quote c) with (quotes [c]) by (cbn; now rewrite app_nil_r). apply oktext_leaf. now apply char_text.
  - intros sgn bits cst n v _ H Hn. destruct v; try constructor; [|constructor]. split; [exact Hn|]. apply plain_leaf, decZ_plain.
  - intros cst n v _ H Hn. destruct v; try constructor; [|constructor]. split; [exact Hn|]. apply plain_leaf, H.
  - intros cst n v _ H Hn. destruct v; try constructor; [|constructor]. split; [exact Hn|]. now apply oktext_leaf.
  - intros cst n v [].
  - intros cst n v _ H Hn. destruct v; try constructor; [|constructor]. split; [exact Hn|]. destruct H as (H1 & H2 & H3). now apply ok_cdata.
  - intros ks cst n v [_ W] H Hn. destruct v; try constructor; [|constructor]. split; [exact Hn|]. apply plain_leaf. now apply ek_sym_plain.
  - intros fixed e t IH cst n v [He Ht] H Hn. destruct v; try constructor; [|constructor]. apply okdoc_node. split; [exact Hn|].
    apply okdocs_concat. destruct H as [H _]. eapply Forall_impl; [|exact H]. intros x Hx. now apply IH.
  - intros m e t IH cst n v (He & Hs & Ht) H Hn. destruct v; try constructor; [|constructor]. apply okdoc_node. split; [exact Hn|].
    apply okdocs_concat. destruct H as [H _]. eapply Forall_impl; [|exact H]. intros x Hx. now apply IH.
  - intros multi c e t IH cst n v [He Ht] H Hn. destruct v; try constructor; [|constructor]. apply okdoc_node. split; [exact Hn|].
    apply okdocs_concat. destruct H as [H _]. eapply Forall_impl; [|exact H]. intros x Hx. now apply IH.
  - intros a IHa b IHb cst n v [Ha Hb] H Hn. destruct v; try constructor; [|constructor]. apply okdoc_node. split; [exact Hn|].
    destruct H as [H1 H2]. apply Forall_app. split; [apply IHa; auto using first_ok|apply IHb; auto using second_ok].
  - intros ts _ cst n v [].
  - intros fs IH cst n v [_ Hf] H Hn. destruct v; try constructor; [|constructor]. apply okdoc_node. split; [exact Hn|]. now apply IH.
  - intros t IH cst n v (Hs & Ht & Hw) H Hn.
    assert (E0 : okdocs (if cst then [Node n []] else [])).
    { destruct cst; [|constructor]. apply okdocs_node; [exact Hn|constructor]. }
    cbn [Xml_Spec.tree]. destruct v; try exact E0.
    pose proof (IH false n v Hw H Hn) as G. destruct (tree false t n v); [exact E0|exact G].
  - intros als IH cst n v Ha H Hn.
    assert (E0 : okdocs (if cst then [Node n []] else [])).
    { destruct cst; [|constructor]. apply okdocs_node; [exact Hn|constructor]. }
    cbn [Xml_Spec.tree]. destruct v; try exact E0. apply okdocs_node; [exact Hn|].
    assert (G : okdocs (tree_alts als tag l)) by (now apply IH).
    constructor; [|exact G]. split; [exact type_ok|]. apply oktext_leaf.
    clear - Ha H. revert Ha H. cbn [Xml_Spec.xht xwf]. induction als as [|tg fs als IH]; intros Ha H; [destruct H|].
    destruct Ha as (_ & H1 & _ & _ & H2). cbn in H. destruct (beq tg tag) eqn:B; [apply beq_eq in B; now subst|now apply IH].
  - intros t IH cst n v [].
  - intros vs _ _. constructor.
  - intros m t IHt fs IH vs (Hm & Ht & Hf) H. destruct vs as [|x vs]; [constructor|]. destruct H as [H1 H2].
    apply Forall_app. split; [now apply IHt|now apply IH].
  - intros tag vs _ _. constructor.
  - intros tg fs IHf als IHa tag vs (_ & _ & _ & Hf & Ha) H. cbn in *. destruct (beq tg tag); [now apply IHf|now apply IHa].
Qed.

(** ** Reading *)
Lemma splitc_snoc : forall d e, ~ In dot e -> splitc dot (d ++ dot :: e) = splitc dot d ++ [e].
Proof.
  induction d as [|c d IH]; intros e H; cbn [app splitc].
  - destruct (ascii_dec dot dot); [|congruence]. now rewrite splitc_none.
  - destruct (ascii_dec c dot); [now rewrite IH|]. rewrite IH by exact H.
    pose proof (splitc_nonempty dot d). destruct (splitc dot d); [congruence|reflexivity].
Qed.
(** [d], completed by addHashNoughts, is the key of the path [R] *)
Definition dp (d : list ascii) (R : path) : Prop := map nought (splitc dot d) = map comp R.
Lemma dp_ks : forall d R, dp d R -> add_hash_noughts d = ks R.
Proof. intros d R H. rewrite ahn_split, H. reflexivity. Qed.
Lemma dp_sub : forall d R e, dp d R -> okname e -> dp (d ++ dot :: e) (R ++ [(e, 0%N)]).
Proof.
  intros d R e H He. unfold dp. rewrite splitc_snoc by (now apply name_notin). rewrite !map_app, H. f_equal. cbn [map]. f_equal.
  unfold nought. destruct (has hash e) eqn:E; [|reflexivity]. apply has_in in E. exfalso. revert E. now apply name_notin.
Qed.
Lemma dp_idx : forall d R e i, dp d R -> okname e -> dp (idx (d ++ dot :: e) i) (R ++ [(e, i)]).
Proof.
  intros d R e i H He. unfold dp, idx. rewrite <- app_assoc. cbn [app].
  rewrite splitc_snoc by (apply (comp_nodot (e, i)); exact He).
  rewrite !map_app, H. f_equal. cbn [map]. f_equal. unfold nought, comp, idx. cbn [fst snd].
  rewrite has_app. cbn. now rewrite orb_true_r.
Qed.
Lemma count_dp : forall tc d R e i, dp d (R ++ [(e, i)]) -> count tc d = cnt tc (kc R e).
Proof.
  intros tc d R e i H. unfold count. rewrite (dp_ks _ _ H), ks_snoc. unfold idx.
  rewrite rfind_app by (apply dec_notin; cbn; lia). now rewrite firstn_len.
Qed.

Lemma sel_app : forall R T x, sel T (R ++ [x]) = match sel T R with Some P => nth_named (kids_of P) (fst x) (snd x) | None => None end.
Proof.
  induction R as [|[m i] R IH]; intros T [n k]; cbn [app sel fst snd].
  - now destruct (nth_named (kids_of T) n k).
  - destruct (nth_named (kids_of T) m i); [apply IH|reflexivity].
Qed.
Lemma nth_named_lt : forall l m i t, nth_named l m i = Some t -> (i < named l m)%N.
Proof.
  induction l as [|k l IH]; intros m i t H; cbn [nth_named] in H; [discriminate|]. rewrite named_cons.
  destruct (beq (xname k) m); [|apply IH in H; lia].
  destruct (N.eqb_spec i 0) as [->|N]; [lia|]. apply IH in H. lia.
Qed.
Lemma nth_named_other : forall a b m i, Forall (fun t => xname t <> m) a -> nth_named (a ++ b) m i = nth_named b m i.
Proof.
  induction a as [|t a IH]; intros b m i H; [reflexivity|]. apply Forall_cons_iff in H as [H1 H2]. cbn [app nth_named].
  rewrite beq_neq by exact H1. now apply IH.
Qed.
Lemma named_app : forall a b m, named (a ++ b) m = (named a m + named b m)%N.
Proof. intros. unfold named. rewrite filter_app, len_app. reflexivity. Qed.
Lemma named_other : forall a m, Forall (fun t => xname t <> m) a -> named a m = 0%N.
Proof.
  induction a as [|t a IH]; intros m H; [reflexivity|]. apply Forall_cons_iff in H as [H1 H2].
  rewrite named_cons, beq_neq, IH by assumption. reflexivity.
Qed.
Lemma nth_named_none : forall a m i, Forall (fun t => xname t <> m) a -> nth_named a m i = None.
Proof. intros a m i H. rewrite <- (app_nil_r a). rewrite nth_named_other by exact H. reflexivity. Qed.

(** what of a document the reader looks at: the text of its leaves, and the counts *)
Definition holds_doc (docs : list xt) (cm : cmap) (tc : tmap) : Prop :=
  (forall R n raw txt, goodp R -> R <> [] -> sel (doc docs) R = Some (Leaf n raw txt) ->
     mfind bcmp (ks R) cm = match txt with [] => None | _ => Some txt end) /\
  (forall R n, goodp R -> okname n -> cnt tc (kc R n) =
     match sel (doc docs) R with Some t' => named (kids_of t') n | None => 0%N end).
Lemma records_holds : forall pp docs cm tc, records_doc pp docs cm tc -> holds_doc docs cm tc.
Proof.
  intros p0 docs cm tc (A & B & _). split; [|exact B]. intros R n raw txt G N S. rewrite A, S by assumption. now destruct txt.
Qed.
Section Db.
Variable docs : list xt.
Variable x : xdb.
Hypothesis Hdb : holds_doc docs (xcm x) (xtc x).
Hypothesis Hmiss : miss x = false.
Notation xunpack := (xunpack fget klt x). Notation xunpack_flds := (xunpack_flds fget klt x).

Lemma lookup_leaf : forall d R n raw txt, dp d R -> goodp R -> R <> [] -> sel (doc docs) R = Some (Leaf n raw txt) ->
  lookup x d = POk (match txt with [] => None | _ => Some txt end).
Proof.
  intros d R n raw txt H G N S. unfold lookup. rewrite (dp_ks _ _ H). destruct Hdb as [A _]. rewrite (A R n raw txt) by assumption.
  destruct txt; [now rewrite Hmiss|reflexivity].
Qed.
Lemma count_at : forall d R n k, dp d (R ++ [(n, k)]) -> goodp (R ++ [(n, k)]) ->
  count (xtc x) d = match sel (doc docs) R with Some P => named (kids_of P) n | None => 0%N end.
Proof.
  intros d R n k H G. rewrite (count_dp _ _ _ _ _ H). destruct Hdb as (_ & A).
  apply goodp_app in G as [G1 G2]. apply goodp_cons in G2 as [G2 _]. now apply A.
Qed.

Definition at_ (R : path) (n : list ascii) (k : N) (l : list xt) : Prop :=
  exists P, sel (doc docs) R = Some P /\ nth_named (kids_of P) n k = hd_error l /\ (l = [] -> named (kids_of P) n = 0%N).
Definition Pr (t : xty) : Prop := forall cst v d R n k,
  xwf cst t -> xht cst t v -> dp d (R ++ [(n, k)]) -> goodp (R ++ [(n, k)]) ->
  at_ R n k (tree cst t n v) -> xunpack t d (xdflt t) = POk v.
Definition Prf (fs : xflds) : Prop := forall vs d R P,
  NoDup (xnames fs) -> xwf_flds fs -> xht_flds fs vs -> dp d R -> goodp R -> sel (doc docs) R = Some P ->
  (forall m, In m (xnames fs) -> (forall i, nth_named (kids_of P) m i = nth_named (tree_flds fs vs) m i) /\
     named (kids_of P) m = named (tree_flds fs vs) m) ->
  xunpack_flds fs d (xdflt_flds fs) = POk vs.
Definition Pra (als : xalts) : Prop := forall tag vs d R P,
  xwf_alts als -> xht_alts als tag vs -> dp d R -> goodp R -> sel (doc docs) R = Some P ->
  kids_of P = Leaf (bs "type") (quotes tag) tag :: tree_alts als tag vs ->
  xunpack_alts fget klt x als tag d = POk (VPoly tag vs).

Lemma at_sel : forall R n k l, at_ R n k l -> sel (doc docs) (R ++ [(n, k)]) = hd_error l.
Proof. intros R n k l (P & E1 & E2 & _). now rewrite sel_app, E1. Qed.

Lemma tree_flds_names : forall fs vs m, ~ In m (xnames fs) -> Forall (fun t => xname t <> m) (tree_flds fs vs).
Proof.
  induction fs as [|n t fs IH]; intros vs m H; [constructor|]. destruct vs as [|v vs]; [constructor|].
  cbn [Xml_Spec.tree_flds xnames] in *. apply Forall_app. split.
  - eapply Forall_impl; [|apply tree_named]. intros tr E C. apply H. left. congruence.
  - apply IH. intros C. apply H. now right.
Qed.
Lemma tree_solid : forall t cst n v, solid t = true -> xwf cst t -> xht cst t v -> exists tr, tree cst t n v = [tr].
Proof.
  intros t cst n v S W H. destruct t; try discriminate S; destruct v; try (destruct H; fail); cbn; eauto; destruct W.
Qed.
Lemma tree_cst : forall t n v, xwf true t -> xht true t v -> exists tr, tree true t n v = [tr].
Proof.
  intros t n v W H. destruct t; try (apply tree_solid; auto; fail).
  - cbn [Xml_Spec.tree]. destruct v; try (exists (Node n []); reflexivity).
    destruct W as (S & _ & W). destruct (tree_solid t false n v S W H) as [tr E]. rewrite E. eauto.
  - cbn [Xml_Spec.tree]. destruct v; eauto.
Qed.

Lemma nth_named_concat : forall (f : jval -> list xt) e l,
  Forall (fun x => exists tr, f x = [tr] /\ xname tr = e) l ->
  (forall i, nth_named (concat (map f l)) e (N.of_nat i) = match nth_error l i with Some x => hd_error (f x) | None => None end) /\
  named (concat (map f l)) e = len l.
Proof.
  intros f e l H. induction l as [|v l IH].
  - split; [intros [|i]; reflexivity|reflexivity].
  - apply Forall_cons_iff in H as [(tr & E1 & E2) H]. destruct (IH H) as [I1 I2]. cbn [map concat]. rewrite E1. cbn [app].
    split.
    + intros i. cbn [nth_named]. rewrite E2, beq_refl. destruct i as [|i].
      * cbn. now rewrite E1.
      * replace (N.of_nat (S i) =? 0)%N with false by lia. replace (N.of_nat (S i) - 1)%N with (N.of_nat i) by lia.
        cbn [nth_error]. apply I1.
    + rewrite named_cons, E2, beq_refl, I2, len_cons. lia.
Qed.
Lemma at_first : forall l m, Forall (fun t => xname t = m) l -> nth_named l m 0 = hd_error l.
Proof. intros [|t l] m H; [reflexivity|]. apply Forall_cons_iff in H as [<- _]. cbn. now rewrite beq_refl. Qed.
Lemma nth_named_prefix : forall a b m i, Forall (fun t => xname t <> m) b -> nth_named (a ++ b) m i = nth_named a m i.
Proof.
  induction a as [|t a IH]; intros b m i H; cbn [app nth_named]; [now apply nth_named_none|].
  destruct (beq (xname t) m); [destruct (i =? 0)%N; [reflexivity|now apply IH]|now apply IH].
Qed.
Lemma xeach_ok : forall (f : N -> jval -> pres jval) dv l i,
  (forall j v, nth_error l j = Some v -> f (i + N.of_nat j)%N dv = POk v) ->
  xeach f i (repeat dv (length l)) = POk l.
Proof.
  intros f dv. induction l as [|v l IH]; intros i H; [reflexivity|]. cbn [length repeat xeach].
  pose proof (H 0 v eq_refl) as H0. rewrite N.add_0_r in H0. rewrite H0. cbn [pbind].
  rewrite IH; [reflexivity|]. intros j w E. specialize (H (S j) w E).
  now replace (i + 1 + N.of_nat j)%N with (i + N.of_nat (S j))%N by lia.
Qed.
Lemma xins_ok : forall (f : N -> pres jval) multi c l i acc,
  (forall j v, nth_error l j = Some v -> f (i + N.of_nat j)%N = POk v) -> ordered klt multi c (acc ++ l) ->
  xins klt f multi c (length l) i acc = POk (acc ++ l).
Proof.
  intros f multi c. induction l as [|v l IH]; intros i acc H O; cbn [length xins]; [now rewrite app_nil_r|].
  pose proof (H 0 v eq_refl) as H0. rewrite N.add_0_r in H0. rewrite H0. cbn [pbind].
  rewrite ins_last.
  - rewrite IH; [now rewrite <- app_assoc| |now rewrite <- app_assoc].
    intros j w E. specialize (H (S j) w E). now replace (i + 1 + N.of_nat j)%N with (i + N.of_nat (S j))%N by lia.
  - apply Forall_forall. intros y Hy. apply (fop_app _ _ _ O y v Hy). now left.
Qed.

(** the elements of a container *)
Lemma elems_ok : forall cst t e d R n kids l, Pr t -> okname e -> xwf cst t -> Forall (xht cst t) l ->
  Forall (fun v => exists tr, tree cst t e v = [tr] /\ xname tr = e) l ->
  dp d R -> goodp R -> sel (doc docs) R = Some (Node n kids) -> kids = concat (map (tree cst t e) l) ->
  count (xtc x) (d ++ dot :: e) = len l /\
  forall j v, nth_error l j = Some v -> xunpack t (idx (d ++ dot :: e) (N.of_nat j)) (xdflt t) = POk v.
Proof.
  intros cst t e d R n kids l IH He W H F D G S ->. destruct (nth_named_concat (tree cst t e) e l F) as [N1 N2].
  assert (GE : forall i, goodp (R ++ [(e, i)])) by (intros i; apply goodp_app; split; [exact G|repeat constructor; apply He]).
  split.
  - rewrite (count_at _ R e 0%N); [|now apply dp_sub|apply GE]. rewrite S. exact N2.
  - intros j v E. eapply (IH cst); [exact W| |apply dp_idx; [exact D|exact He]|apply GE|].
    + rewrite Forall_forall in H. apply H. eapply nth_error_In; eauto.
    + exists (Node n (concat (map (tree cst t e) l))). split; [exact S|]. cbn [kids_of]. split.
      * rewrite N1, E. reflexivity.
      * intros C. rewrite Forall_forall in F. destruct (F v) as (tr & C2 & _); [eapply nth_error_In; eauto|congruence].
Qed.
Lemma cst_elems : forall t e l, xwf true t -> Forall (xht true t) l ->
  Forall (fun v => exists tr, tree true t e v = [tr] /\ xname tr = e) l.
Proof.
  intros t e l W H. eapply Forall_impl; [|exact H]. intros v Hv. destruct (tree_cst t e v W Hv) as [tr E].
  exists tr. split; [exact E|]. pose proof (tree_named fput t true e v) as T. rewrite E in T. now apply Forall_cons_iff in T as [T _].
Qed.
Lemma gobble_none : forall s, Forall (fun c => isspace c = false) s -> gobble_ws s = s.
Proof. intros [|c s] H; [reflexivity|]. apply Forall_cons_iff in H as [H _]. cbn. now rewrite H. Qed.
Lemma read_int_dec : forall sgn bits z, (bits = 16 \/ bits = 32 \/ bits = 64)%Z -> inrange sgn bits z ->
  read_int sgn bits (decZ z) = z.
Proof.
  intros sgn bits z B H. unfold read_int. rewrite gobble_none.
  2:{ eapply Forall_impl; [|apply decZ_plain]. intros c Hc. now apply plain_spec. }
  assert (DD : forall n, exists c r, dec n = c :: r /\ isdigit c).
  { intros n. pose proof (dec_nonempty n). pose proof (dec_isdigit n) as D. destruct (dec n) as [|c r]; [congruence|].
    apply Forall_cons_iff in D as [D _]. eauto. }
  assert (DG : forall n, digits 10 (dec n) 0 false = (n, true)).
  { intros n. rewrite <- (app_nil_r (dec n)). now apply digits_dec. }
  unfold decZ. destruct (Z.ltb_spec z 0) as [L|L].
  - destruct (ascii_dec "-" "-"); [|congruence]. rewrite DG.
    replace (Z.of_N (Z.to_N (- z))) with (- z)%Z by lia. destruct sgn; unfold inrange in H.
    + replace (- - z)%Z with z by lia. replace (z <? - 2 ^ (bits - 1))%Z with false by lia.
      replace (2 ^ (bits - 1) <=? z)%Z with false by lia. reflexivity.
    + lia.
  - destruct (DD (Z.to_N z)) as (c & r & E & D). rewrite E.
    destruct (ascii_dec c "-") as [->|]; [unfold isdigit in D; cbn in D; lia|].
    destruct (ascii_dec c "+") as [->|]; [unfold isdigit in D; cbn in D; lia|].
    rewrite <- E, DG. replace (Z.of_N (Z.to_N z)) with z by lia. destruct sgn; unfold inrange in H.
    + replace (z <? - 2 ^ (bits - 1))%Z with false by lia.
      replace (2 ^ (bits - 1) <=? z)%Z with false by lia. reflexivity.
    + replace (2 ^ bits <=? z)%Z with false by lia. reflexivity.
Qed.
Lemma decZ_nonempty : forall z, decZ z <> [].
Proof. intros z. unfold decZ. destruct (z <? 0)%Z; [discriminate|apply dec_nonempty]. Qed.

Lemma snoc_ne : forall (R : path) y, R ++ [y] <> [].
Proof. intros [|] y; discriminate. Qed.

Lemma read_all : (forall t, Pr t) /\ (forall ts : xtys, True) /\ (forall fs, Prf fs) /\ (forall als, Pra als).
Proof.
  apply xty_mutind; try (intros; exact I); unfold Pr, Prf, Pra.
  - intros cst v d R n k _ H D G A. destruct v; try destruct H. apply at_sel in A. cbn [Xml_Model.xunpack].
    rewrite (lookup_leaf _ _ _ _ _ D G (snoc_ne _ _) A). destruct b; reflexivity.
  - intros cst v d R n k _ H D G A. destruct v; try destruct H. destruct H0 as [H0 H1]. apply at_sel in A. cbn [Xml_Model.xunpack].
    rewrite (lookup_leaf _ _ _ _ _ D G (snoc_ne _ _) A). cbn. unfold read_char. cbn [gobble_ws]. now rewrite H0.
  - intros sgn bits cst v d R n k W H D G A. destruct v; try destruct H. apply at_sel in A. cbn [Xml_Model.xunpack].
    rewrite (lookup_leaf _ _ _ _ _ D G (snoc_ne _ _) A). pose proof (decZ_nonempty z). destruct (decZ z) eqn:E; [congruence|].
    cbn [pbind]. rewrite <- E. now rewrite read_int_dec.
  - intros cst v d R n k _ H D G A. destruct v; try destruct H. destruct H0 as [H0 H1]. apply at_sel in A. cbn [Xml_Model.xunpack xdflt].
    rewrite (lookup_leaf _ _ _ _ _ D G (snoc_ne _ _) A). destruct (fput d0) eqn:E; [congruence|]. cbn [pbind]. now rewrite H1.
  - intros cst v d R n k _ H D G A. destruct v; try destruct H. apply at_sel in A. cbn [Xml_Model.xunpack xdflt].
    rewrite (lookup_leaf _ _ _ _ _ D G (snoc_ne _ _) A). destruct s; reflexivity.
  - intros cst v d R n k [].
  - intros cst v d R n k _ H D G A. destruct v; try (destruct H; fail). apply at_sel in A. cbn [Xml_Model.xunpack xdflt].
    rewrite (lookup_leaf _ _ _ _ _ D G (snoc_ne _ _) A). destruct s; reflexivity.
  - intros ks cst v d R n k [W1 W2] H D G A. destruct v; try (destruct H; fail). apply at_sel in A. cbn [Xml_Model.xunpack].
    rewrite (lookup_leaf _ _ _ _ _ D G (snoc_ne _ _) A).
    destruct (ek_sym_plain ks z W2 H) as [N P]. destruct (ek_sym (ek_make ks) z) eqn:E; [congruence|]. cbn [pbind].
    rewrite <- E in *. rewrite filter_id.
    + now rewrite C33_value_symbol_value.
    + eapply Forall_impl; [|exact P]. intros c Hc. now apply plain_spec.
  - intros fixed e t IH cst v d R n k [He W] H D G A. destruct v; try (destruct H; fail). apply at_sel in A. destruct H as [H1 H2].
    cbn [hd_error Xml_Spec.tree] in A.
    destruct (elems_ok true t e d _ n _ l IH He W H1 (cst_elems _ _ _ W H1) D G A eq_refl) as [C E].
    cbn [Xml_Model.xunpack xdflt]. rewrite C. unfold len. rewrite Nnat.Nat2N.id.
    destruct fixed as [m|].
    + subst m. rewrite firstn_all2 by (rewrite repeat_length; lia). rewrite skipn_all2 by (rewrite repeat_length; lia).
      rewrite xeach_ok; [cbn [pbind]; now rewrite app_nil_r|]. intros j v E1. now apply E.
    + rewrite xeach_ok; [reflexivity|]. intros j v E1. now apply E.
  - intros m e t IH cst v d R n k (He & S & W) H D G A. destruct v; try (destruct H; fail). apply at_sel in A. destruct H as [H1 H2].
    cbn [hd_error Xml_Spec.tree] in A.
    assert (F : Forall (fun v => exists tr, tree false t e v = [tr] /\ xname tr = e) l).
    { eapply Forall_impl; [|exact H1]. intros v Hv. destruct (tree_solid t false e v S W Hv) as [tr E].
      exists tr. split; [exact E|]. pose proof (tree_named fput t false e v) as T. rewrite E in T. now apply Forall_cons_iff in T as [T _]. }
    destruct (elems_ok false t e d _ n _ l IH He W H1 F D G A eq_refl) as [C E].
    cbn [Xml_Model.xunpack xdflt]. subst m. rewrite xeach_ok; [reflexivity|]. intros j v E1. now apply E.
  - intros multi c e t IH cst v d R n k [He W] H D G A. destruct v; try (destruct H; fail). apply at_sel in A. destruct H as [H1 H2].
    cbn [hd_error Xml_Spec.tree] in A.
    destruct (elems_ok true t e d _ n _ l IH He W H1 (cst_elems _ _ _ W H1) D G A eq_refl) as [C E].
    cbn [Xml_Model.xunpack xdflt].
    assert (Ed : match d with [] => e | _ => d ++ dot :: e end = d ++ dot :: e).
    { destruct d; [|reflexivity]. exfalso. unfold dp in D. cbn in D.
      apply (f_equal (@rev _)) in D. rewrite map_app, rev_app_distr in D. cbn in D. injection D as D _.
      unfold comp, idx in D. cbn [fst snd] in D. apply goodp_app in G as [_ G]. apply goodp_cons in G as [[G1 G2] _]. cbn [fst] in G1, G2.
      destruct n as [|c0 n]; [congruence|]. cbn [app] in D. injection D as D _. apply Forall_cons_iff in G2 as [G2 _]. rewrite <- D in G2. discriminate G2. }
    rewrite Ed, C. unfold len. rewrite Nnat.Nat2N.id.
    rewrite (xins_ok _ multi c l 0%N []); [reflexivity| |exact H2]. intros j v E1. now apply E.
  - intros a IHa b IHb cst v d R n k [Wa Wb] H D G A. destruct v as [| | | | | |v1 v2| | | |]; try (destruct H; fail).
    apply at_sel in A. destruct H as [H1 H2]. cbn [hd_error Xml_Spec.tree] in A. cbn [Xml_Model.xunpack xdflt].
    change (d ++ bs ".first") with (d ++ dot :: bs "first"). change (d ++ bs ".second") with (d ++ dot :: bs "second").
    assert (GE : forall e, okname e -> goodp ((R ++ [(n, k)]) ++ [(e, 0%N)])).
    { intros e He. apply goodp_app; split; [exact G|]. constructor; [exact He|constructor]. }
    assert (NF : Forall (fun t => xname t <> bs "second") (tree false a (bs "first") v1)).
    { eapply Forall_impl; [|apply tree_named]. intros tr ->. discriminate. }
    assert (NS : Forall (fun t => xname t <> bs "first") (tree false b (bs "second") v2)).
    { eapply Forall_impl; [|apply tree_named]. intros tr ->. discriminate. }
    rewrite (IHa false v1 _ (R ++ [(n, k)]) (bs "first") 0%N Wa H1); [cbn [pbind] | apply dp_sub; [exact D|apply first_ok] | apply GE, first_ok | ].
    + rewrite (IHb false v2 _ (R ++ [(n, k)]) (bs "second") 0%N Wb H2); [reflexivity | apply dp_sub; [exact D|apply second_ok] | apply GE, second_ok | ].
      eexists. split; [exact A|]. cbn [kids_of]. rewrite nth_named_other, named_app, (named_other _ _ NF) by exact NF. split.
      * apply at_first. apply tree_named.
      * intros ->. reflexivity.
    + eexists. split; [exact A|]. cbn [kids_of]. rewrite named_app, (named_other _ _ NS). split.
      * rewrite nth_named_prefix by exact NS. apply at_first. apply tree_named.
      * intros ->. reflexivity.
  - intros ts _ cst v d R n k [].
  - intros fs IH cst v d R n k [ND W] H D G A. destruct v; try (destruct H; fail). apply at_sel in A. cbn [hd_error Xml_Spec.tree] in A.
    change (xunpack (XStruct fs) d (xdflt (XStruct fs))) with ('(r) <= xunpack_flds fs d (xdflt_flds fs) ;; POk (VL r)).
    rewrite (IH l d _ _ ND W H D G A); [reflexivity|]. intros m _. cbn [kids_of]. auto.
  - intros t IH cst v d R n k (S & _ & W) H D G A. cbn [Xml_Model.xunpack xdflt]. unfold exists_.
    rewrite (count_at _ _ _ _ D G). pose proof A as A0. destruct A as (P & E1 & E2 & E3). rewrite E1. destruct v; try (destruct H; fail).
    + cbn in H. subst cst. cbn [Xml_Spec.tree] in *. rewrite E3 by reflexivity. reflexivity.
    + destruct (tree_solid t false n v S W H) as [tr ET].
      assert (ET2 : tree cst (XPtr t) n (VPtr v) = [tr]) by (cbn [Xml_Spec.tree]; now rewrite ET).
      rewrite ET2 in *. apply nth_named_lt in E2. replace (0 <? named (kids_of P) n)%N with true by lia.
      rewrite (IH false v d R n k W H D G); [reflexivity|]. now rewrite ET.
  - intros als IH cst v d R n k W H D G A.
    change (xunpack (XPoly als) d (xdflt (XPoly als))) with
      (if exists_ (xtc x) (d ++ bs ".type") then
        '(o) <= lookup x (d ++ bs ".type") ;;
        xunpack_alts fget klt x als (match o with Some s => s | None => [] end) d
      else POk VNul). unfold exists_.
    change (d ++ bs ".type") with (d ++ dot :: bs "type").
    assert (GT : goodp ((R ++ [(n, k)]) ++ [(bs "type", 0%N)])).
    { apply goodp_app; split; [exact G|]. constructor; [apply type_ok|constructor]. }
    pose proof (dp_sub _ _ _ D type_ok) as DT. rewrite (count_at _ _ _ _ DT GT). pose proof (at_sel _ _ _ _ A) as A1.
    destruct v; try (destruct H; fail).
    + cbn [Xml_Spec.tree] in A1. rewrite A1. destruct cst; reflexivity.
    + change (hd_error (tree cst (XPoly als) n (VPoly tag l))) with
        (Some (Node n (Leaf (bs "type") (quotes tag) tag :: tree_alts als tag l))) in A1.
      rewrite A1. cbn [kids_of]. rewrite named_cons.
      change (beq (xname (Leaf (bs "type") (quotes tag) tag)) (bs "type")) with true. cbv iota.
      replace (0 <? 1 + named (tree_alts als tag l) (bs "type"))%N with true by lia.
      rewrite (lookup_leaf _ _ (bs "type") (quotes tag) tag DT GT (snoc_ne _ _)).
      2:{ rewrite sel_app, A1. reflexivity. }
      cbn [pbind].
      assert (NT : tag <> []).
      { clear - W H. revert W H. cbn [Xml_Spec.xht xwf]. induction als as [|tg fs als IH]; intros W H; [destruct H|].
        destruct W as (W1 & _ & _ & _ & W2). cbn in H. destruct (beq tg tag) eqn:B; [apply beq_eq in B; now subst|now apply IH]. }
      destruct tag as [|c0 tag]; [congruence|]. cbv iota. eapply IH; eauto.
  - intros t IH cst v d R n k [].
  - intros vs d R P _ _ H _ _ _ _. destruct vs; [reflexivity|destruct H].
  - intros m t IHt fs IH vs d R P ND (Hm & Wt & Wf) H D G E K. destruct vs as [|v vs]; [destruct H|]. destruct H as [H1 H2].
    cbn [xnames] in ND, K. apply NoDup_cons_iff in ND as [N1 N2].
    assert (NF : forall m', In m' (xnames fs) -> Forall (fun t => xname t <> m') (tree false t m v)).
    { intros m' I. eapply Forall_impl; [|apply tree_named]. intros tr -> ->. contradiction. }
    pose proof (tree_flds_names fs vs m N1) as NS.
    change (xunpack_flds (XCons m t fs) d (xdflt_flds (XCons m t fs))) with
      ('(r) <= xunpack t (d ++ dot :: m) (xdflt t) ;; '(rs) <= xunpack_flds fs d (xdflt_flds fs) ;; POk (r :: rs)).
    rewrite (IHt false v _ R m 0%N Wt H1); [cbn [pbind]| now apply dp_sub | apply goodp_app; split; [exact G|constructor; [exact Hm|constructor]] | ].
    + rewrite (IH vs d R P N2 Wf H2 D G E); [reflexivity|]. intros m' I.
      destruct (K m' (or_intror I)) as [K1 K2]. change (tree_flds (XCons m t fs) (v :: vs)) with (tree false t m v ++ tree_flds fs vs) in K1, K2.
      split.
      * intros i. rewrite K1. apply nth_named_other. now apply NF.
      * rewrite K2, named_app, (named_other _ _ (NF m' I)). reflexivity.
    + exists P. split; [exact E|]. destruct (K m (or_introl eq_refl)) as [K1 K2]. change (tree_flds (XCons m t fs) (v :: vs)) with (tree false t m v ++ tree_flds fs vs) in K1, K2. split.
      * rewrite K1, nth_named_prefix by exact NS. apply at_first. apply tree_named.
      * intros ET. rewrite K2, ET. now apply named_other.
  - intros tag vs d R P _ [].
  - intros tg fs IHf als IHa tag vs d R P (_ & _ & ND & Wf & Wa) H D G E K.
    change (xunpack_alts fget klt x (XACons tg fs als) tag d) with
      (if beq tg tag then '(r) <= xunpack_flds fs d (xdflt_flds fs) ;; POk (VPoly tag r) else xunpack_alts fget klt x als tag d).
    change (tree_alts (XACons tg fs als) tag vs) with (if beq tg tag then tree_flds fs vs else tree_alts als tag vs) in K.
    change (xht_alts (XACons tg fs als) tag vs) with (if beq tg tag then xht_flds fs vs else xht_alts als tag vs) in H. destruct (beq tg tag) eqn:B.
    + apply beq_eq in B. subst tg. apply NoDup_cons_iff in ND as [N1 N2].
      rewrite (IHf vs d R P N2 Wf H D G E); [reflexivity|]. intros m I. rewrite K.
      assert (NM : Forall (fun t => xname t <> m) [Leaf (bs "type") (quotes tag) tag]).
      { constructor; [|constructor]. cbn. intros <-. contradiction. }
      split.
      * intros i. now apply (nth_named_other [_]).
      * change (Leaf (bs "type") (quotes tag) tag :: tree_flds fs vs) with ([Leaf (bs "type") (quotes tag) tag] ++ tree_flds fs vs).
        rewrite named_app, (named_other _ _ NM). reflexivity.
    + eapply IHa; eauto.
Qed.
End Db.
End Read.

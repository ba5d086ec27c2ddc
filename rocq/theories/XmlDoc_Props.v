(** * C96: reading XML documents as people write them *)
From Verif Require Import Base Base_Proofs SMap Dec Desc_Model Json_Model Json_Spec Xml_Model Xml_Spec Xml_Proofs Xml_Proofs2 Xml_Proofs3 Xml_Proofs4 Xml_Proofs5 Xml_Props XmlDoc_Spec XmlDoc_Proofs XmlDoc_Proofs2 XmlDoc_Proofs3.

(** Whatever comes before, between and after the elements, a document is accepted, and the
    reader records the text of every element, every attribute, the number of children of
    every name, and nothing else. *)
Theorem C96_document : forall ps t rest, Forall okpro ps -> is_el t = true -> okitem t ->
  exists cm tc, parse (concat (map rpro ps) ++ ritem t ++ rest) [] [] = POk (cm, tc) /\ records_el t cm tc.
Proof. exact parse_records. Qed.
Definition sp : list ascii := [" "%char].
Definition at1 (n v : list ascii) : attr :=
  {| a_ws := sp; a_name := n; a_ws1 := []; a_ws2 := sp; a_q := "'"%char; a_raw := v; a_val := v |}.
Definition doc1 : item :=
  IElem root [at1 (bs "v") (bs "1.0")] sp false
    [ IText (chr 10 :: sp) (chr 10 :: sp);
      INote (NLong (bs "-- some") (bs " <b>""x>"" text --")) sp;
      IElem (bs "a") [] [] false [IText (bs "x &amp; y/>z ") (bs "x & y/>z "); ICdata (bs "<b>&"); INote (NShort (bs "----")) []; IText (bs "&#65;") (bs "A")] sp;
      INote (NPi (bs "go on ?")) [];
      IElem (bs "a") [at1 (bs "id") (bs "7")] [] true [] [] ] [].
Definition pro1 : list pro := [PNote (NPi (bs "xml version=""1.0""?")); PSpace [chr 10]; PNote (NLong (bs "DOCTYPE") (bs " root []")); PSpace sp].
Ltac nin := cbn; intuition discriminate.
Ltac okn := split; [discriminate|repeat constructor].
Ltac lits := repeat (first [ apply s_nil | apply s_lit; [reflexivity|] ]).
Ltac cchars := repeat (first [ apply c_nil | apply c_char; [discriminate|discriminate|discriminate|] ]).
Lemma at1_ok : forall n v, okname n -> (forall c, In c v -> c <> "'"%char /\ c <> "&"%char) -> ~ blank v -> okattr (at1 n v).
Proof.
  intros n v On Hv Nb. split; [discriminate|]. split; [repeat constructor|]. split; [exact On|]. split; [constructor|].
  split; [repeat constructor|]. split; [now left|]. split; [|exact Nb]. cbn [at1 a_raw a_val a_q]. clear Nb.
  induction v as [|c v IH]; constructor; try (apply Hv; now left). apply IH. intros x Hx. apply Hv. now right.
Qed.
Example C96_document_ex : Forall okpro pro1 /\ is_el doc1 = true /\ okitem doc1 /\
  option_map text_of (select [doc1] [(root, 0%N); (bs "a", 0%N)]) = Some (bs "x & y/>z <b>&A") /\
  (exists t, select [doc1] [(root, 0%N); (bs "a", 1%N)] = Some t /\ attr_val (attrs_of t) (bs "id") = Some (bs "7")) /\
  count_el (items_of doc1) (bs "a") = 2%N.
Proof.
  split; [|split; [reflexivity|split; [|split; [reflexivity|split; [|reflexivity]]]]].
  - constructor; [|constructor; [repeat constructor|constructor; [|constructor; [repeat constructor|constructor]]]].
    + cbn. apply c_char; try discriminate. do 11 (apply c_char; try discriminate). apply (c_str (bs "1.0") (bs "?")); [nin|cchars].
    + split; [reflexivity|]. split; [nin|]. split; [discriminate|]. cbn. cchars.
  - apply okitem_el. split; [apply root_ok|]. split.
    { constructor; [|constructor]. apply at1_ok; [okn| |].
      - intros c H. cbn in H. intuition (subst; discriminate).
      - intros H. inversion H. discriminate. }
    split; [repeat constructor|]. split; [constructor|]. split; [discriminate|].
    cbn [okitems]. split; [cbn; lits|]. split; [exact I|].
    split.
    { split; [|split; [repeat constructor|exact I]]. split; [reflexivity|]. split; [nin|]. split; [discriminate|].
      cbn. apply c_char; try discriminate. apply (c_nest (bs "b") _); [cchars|]. apply (c_str (bs "x>") _); [nin|cchars]. }
    split; [exact I|]. split.
    { apply okitem_el. split; [okn|]. split; [constructor|]. split; [constructor|]. split; [repeat constructor|]. split; [discriminate|].
      cbn [okitems]. split.
      { cbn. apply s_lit; [reflexivity|]. apply s_lit; [reflexivity|].
        apply (s_ref _ (bs "amp") "&"%char (bs " y/>z ") (bs " y/>z ")); [constructor|discriminate|lits]. }
      split; [exact I|]. split.
      { split; [|split; discriminate]. repeat constructor; discriminate. }
      split; [exact I|]. split.
      { split; [|split; [constructor|reflexivity]]. split; [cbn; lia|nin]. }
      split; [exact I|]. split; [|split; [exact I|exact I]].
      apply (s_ref _ (bs "#65") "A"%char [] []); [|discriminate|constructor].
      exact (r_dec 65 eq_refl). }
    split; [exact I|]. split.
    { split; [cbn; cchars|split; [constructor|exact I]]. }
    split; [exact I|]. split; [|split; [exact I|exact I]].
    apply okitem_el. split; [okn|]. split.
    { constructor; [|constructor]. apply at1_ok; [okn| |].
      - intros c H. cbn in H. intuition (subst; discriminate).
      - intros H. inversion H. discriminate. }
    split; [constructor|]. split; [constructor|]. split; [reflexivity|exact I].
  - eexists. split; reflexivity.
Qed.
Print Assumptions C96_document.

(** ** Objects *)
(** the document [t] nests as the tree [tr] of an object, with the text of its leaves; its
    attributes, comments, and the text between its elements are free *)
Fixpoint matches (tr : xt) (t : item) : Prop :=
  match t with
  | IElem n _ _ _ l _ =>
      n = xname tr /\
      match tr with
      | Leaf _ _ txt => text_of t = txt /\ filter is_el l = []
      | Node _ kids => (fix all (kids : list xt) (l : list item) : Prop :=
          match kids, l with
          | [], [] => True
          | k :: kids', i :: l' => matches k i /\ all kids' l'
          | _, _ => False
          end) kids (filter is_el l)
      end
  | _ => False
  end.
Fixpoint matches_all (kids : list xt) (l : list item) : Prop :=
  match kids, l with
  | [], [] => True
  | k :: kids', i :: l' => matches k i /\ matches_all kids' l'
  | _, _ => False
  end.
Lemma matches_node : forall m kids n ats w e l w', matches (Node m kids) (IElem n ats w e l w') <->
  n = m /\ matches_all kids (filter is_el l).
Proof. intros. reflexivity. Qed.
Lemma matches_name : forall tr t m, matches tr t -> is_named m t = beq (xname tr) m.
Proof. intros [n raw txt|n kids] [| | |n' ats w e l w'] m H; cbn in H; try contradiction; destruct H as [-> _]; reflexivity. Qed.
Lemma nth_el_filter : forall l m i, nth_el (filter is_el l) m i = nth_el l m i.
Proof.
  induction l as [|t l IH]; intros m i; [reflexivity|]. cbn [filter]. destruct (is_el t) eqn:E.
  - cbn [nth_el]. now rewrite !IH.
  - cbn [nth_el]. rewrite IH. destruct t; try discriminate; reflexivity.
Qed.
Lemma count_el_filter : forall l m, count_el (filter is_el l) m = count_el l m.
Proof.
  induction l as [|t l IH]; intros m; [reflexivity|]. cbn [filter]. rewrite count_cons. destruct (is_el t) eqn:E.
  - now rewrite count_cons, IH.
  - rewrite IH. destruct t; try discriminate; reflexivity.
Qed.
Lemma matches_nth : forall kids l m i, matches_all kids l ->
  match nth_named kids m i, nth_el l m i with Some k, Some t => matches k t | None, None => True | _, _ => False end.
Proof.
  induction kids as [|k kids IH]; intros [|t l] m i H; try contradiction; [exact I|]. destruct H as [H1 H2].
  cbn [nth_named nth_el]. rewrite (matches_name k t m H1). destruct (beq (xname k) m); [|now apply IH].
  destruct (i =? 0)%N; [exact H1|now apply IH].
Qed.
Lemma matches_count : forall kids l m, matches_all kids l -> named kids m = count_el l m.
Proof.
  induction kids as [|k kids IH]; intros [|t l] m H; try contradiction; [reflexivity|]. destruct H as [H1 H2].
  now rewrite named_cons, count_cons, (matches_name k t m H1), (IH l).
Qed.
Lemma matches_kids : forall tr t, matches tr t -> matches_all (kids_of tr) (filter is_el (items_of t)).
Proof.
  intros [n raw txt|n kids] [| | |n' ats w e l w'] H; cbn in H; try contradiction.
  - destruct H as (_ & _ & H). cbn [kids_of items_of]. now rewrite H.
  - now apply matches_node in H as [_ H].
Qed.
Lemma matches_sel : forall R tr t, matches tr t ->
  match sel tr R, selt t R with Some k, Some t' => matches k t' | None, None => True | _, _ => False end.
Proof.
  induction R as [|[m i] R IH]; intros tr t H; [exact H|]. cbn [sel selt]. rewrite at_path_in. unfold sel_in.
  rewrite <- nth_el_filter. pose proof (matches_nth _ _ m i (matches_kids tr t H)) as M.
  destruct (nth_named (kids_of tr) m i) as [k|], (nth_el (filter is_el (items_of t)) m i) as [t'|]; try contradiction; [|exact I].
  now apply IH.
Qed.
Lemma matches_holds : forall tr t cm tc, matches tr t -> records_el t cm tc -> holds_doc [tr] cm tc.
Proof.
  intros tr t cm tc M (A & _ & B & C & _).
  assert (SEL : forall R, R <> [] -> match sel (doc [tr]) R, select [t] R with Some k, Some t' => matches k t' | None, None => True | _, _ => False end).
  { intros [|[m i] R] NE; [congruence|]. cbn [sel doc kids_of select]. rewrite at_path_in. unfold sel_in. cbn [nth_named nth_el].
    rewrite (matches_name tr t m M). destruct (beq (xname tr) m); [|exact I]. destruct (i =? 0)%N; [|exact I]. now apply matches_sel. }
  split.
  - intros R n raw txt G NE S. rewrite A by assumption. specialize (SEL R NE). rewrite S in SEL.
    destruct (select [t] R) as [t'|]; [|contradiction].
    destruct t' as [| | |n' ats w e l w']; try contradiction. destruct SEL as (_ & -> & _). reflexivity.
  - intros R n G On. destruct R as [|x R].
    + change (kc [] n) with n. rewrite B by exact On. cbn [sel doc kids_of]. rewrite named_cons, count_cons, (matches_name tr t n M). reflexivity.
    + rewrite kc_cons by discriminate. rewrite C; [|exact G|discriminate|exact On]. specialize (SEL (x :: R) ltac:(discriminate)).
      destruct (sel (doc [tr]) (x :: R)) as [k|], (select [t] (x :: R)) as [t'|]; try contradiction; [|reflexivity].
      rewrite <- count_el_filter. symmetry. apply matches_count, matches_kids, SEL.
Qed.

(** An object is read from any document that nests as its members do, however it is laid
    out: white space, comments, attributes, CDATA and references do not matter. *)
Theorem C96_reads : forall fput fget klt ty v tr ps t rest,
  xwf false ty -> xht fput fget klt false ty v -> tree fput false ty root v = [tr] -> matches tr t ->
  Forall okpro ps -> okitem t ->
  of_xml fget klt ty (concat (map rpro ps) ++ ritem t ++ rest) (xdflt ty) = POk v.
Proof.
  intros fput fget klt ty v tr ps t rest W H E M HP HO.
  assert (HT : is_el t = true) by (destruct t; try (destruct tr; contradiction); reflexivity).
  destruct (parse_records ps t rest HP HT HO) as (cm & tc & E1 & R). unfold of_xml. rewrite E1. cbn [pbind].
  apply (proj1 (read_all fput fget klt _ {| xcm := cm; xtc := tc; miss := false |} (matches_holds tr t cm tc M R) eq_refl) ty false v root [] root 0%N); auto using root_dp.
  - constructor; [exact root_ok|constructor].
  - exists (doc [tr]). split; [reflexivity|]. cbn [kids_of doc]. rewrite E. split.
    + apply at_first. rewrite <- E. apply tree_named.
    + discriminate.
Qed.
Definition ty2 : xty := XStruct (XCons (bs "n") xint (XCons (bs "s") XStr XNil)).
Definition v2 : jval := VL [VI 12; VS (bs "a&b")].
Definition doc2 : item :=
  IElem root [at1 (bs "v") (bs "2")] [] false
    [ INote (NLong (bs "-- an i") (bs "nteger --")) sp;
      IElem (bs "n") [] [] false [IText (bs "1") (bs "1"); INote (NShort (bs "----")) []; IText (bs "2") (bs "2")] [];
      IText (bs " text ") (bs " text ");
      IElem (bs "s") [] sp false [ICdata (bs "a&b")] [] ] sp.
Example C96_reads_ex : xwf false ty2 /\ xht fput0 fget0 klt0 false ty2 v2 /\
  (exists tr, tree fput0 false ty2 root v2 = [tr] /\ matches tr doc2) /\ okitem doc2 /\
  of0 ty2 (ritem doc2) (xdflt ty2) = POk v2.
Proof.
  split; [|split; [|split; [|split; [|vm_compute; reflexivity]]]].
  - cbn. split; [|split; [okn|split; [auto|split; [okn|split; [exact I|exact I]]]]].
    repeat constructor; cbn; intuition discriminate.
  - cbn. split; [split; [|reflexivity]; vm_compute; discriminate|]. split; [|exact I].
    split; [repeat constructor|]. repeat constructor; discriminate.
  - eexists. split; [reflexivity|]. cbn. repeat split.
  - apply okitem_el. split; [apply root_ok|]. split.
    { constructor; [|constructor]. apply at1_ok; [okn| |].
      - intros c H. cbn in H. intuition (subst; discriminate).
      - intros H. inversion H. discriminate. }
    split; [constructor|]. split; [repeat constructor|]. split; [discriminate|].
    cbn [okitems]. split.
    { split; [|split; [repeat constructor|exact I]]. split; [reflexivity|]. split; [nin|]. split; [discriminate|]. cbn. cchars. }
    split; [exact I|]. split.
    { apply okitem_el. split; [okn|]. split; [constructor|]. split; [constructor|]. split; [constructor|]. split; [discriminate|].
      cbn [okitems]. split; [cbn; lits|]. split; [exact I|]. split.
      { split; [|split; [constructor|reflexivity]]. split; [cbn; lia|nin]. }
      split; [exact I|]. split; [cbn; lits|]. split; exact I. }
    split; [exact I|]. split; [cbn; lits|]. split; [exact I|]. split; [|split; exact I].
    apply okitem_el. split; [okn|]. split; [constructor|]. split; [repeat constructor|]. split; [constructor|]. split; [discriminate|].
    cbn [okitems]. split; [|split; exact I]. split; [repeat constructor; discriminate|split; discriminate].
Qed.
Print Assumptions C96_reads.

(** ** Attributes are recorded, but under keys no object is read from *)
Theorem C96_attributes_unread : forall d R a, goodp R -> R <> [] -> okname a -> add_hash_noughts d <> ks R ++ dot :: a.
Proof.
  intros d R a G NE Oa E. rewrite <- kc_cons in E by exact NE.
  assert (E2 : splitc dot (add_hash_noughts d) = map comp R ++ [a]) by (rewrite E; now apply kc_split).
  rewrite ahn_split, splitc_joinc in E2.
  - destruct (@exists_last _ (splitc dot d) (splitc_nonempty dot d)) as (l & y & EL). rewrite EL, map_app in E2. cbn [map] in E2.
    apply app_inj_tail in E2 as [_ E2]. apply (name_notin a hash Oa); [reflexivity|]. rewrite <- E2.
    unfold nought. destruct (has hash y) eqn:H; [now apply has_in|]. apply in_or_app. right. now left.
  - intros C. apply map_eq_nil in C. now apply splitc_nonempty in C.
  - apply Forall_map. eapply Forall_impl; [|apply splitc_notin]. intros y. apply nought_notin.
Qed.
Print Assumptions C96_attributes_unread.
(** so an object whose member is given as an attribute does not get its value *)
Theorem C96_attribute_refuted : exists s, of0 (XStruct (XCons (bs "n") xint XNil)) s (VL [VI 5]) = POk (VL [VI 5]) /\
  s = bs "<root n=""12""/>".
Proof. eexists. split; [|reflexivity]. vm_compute. reflexivity. Qed.
Print Assumptions C96_attribute_refuted.

(** ** Well formed documents that are not accepted, or misread *)
(** an attribute with an empty value is an error *)
Theorem C96_empty_attribute_refuted : exists s, parse s [] [] = PErr /\ s = bs "<root a=""""><b>1</b></root>".
Proof. eexists. split; [|reflexivity]. vm_compute. reflexivity. Qed.
Print Assumptions C96_empty_attribute_refuted.
(** and so is one whose value is white space *)
Theorem C96_blank_attribute_refuted : exists s, parse s [] [] = PErr /\ s = bs "<root a="" ""><b>1</b></root>".
Proof. eexists. split; [|reflexivity]. vm_compute. reflexivity. Qed.
Print Assumptions C96_blank_attribute_refuted.
(** an apostrophe in the text of an element begins a string: the document is rejected, or
    the apostrophes are lost *)
Theorem C96_apostrophe_refuted : exists s s' cm tc, parse (bs "<root>" ++ s ++ bs "</root>") [] [] = PErr /\ s = bs "it's" /\
  parse (bs "<root>" ++ s' ++ bs "</root>") [] [] = POk (cm, tc) /\ s' = bs "1' by 2'" /\ mfind bcmp (bs "root#0") cm = Some (bs "1 by 2").
Proof.
  exists (bs "it's"), (bs "1' by 2'"), [(bs "root#0", bs "1 by 2")], [(bs "root", 1%N)].
  split; [vm_compute; reflexivity|]. split; [reflexivity|]. split; [vm_compute; reflexivity|]. split; [reflexivity|vm_compute; reflexivity].
Qed.
Print Assumptions C96_apostrophe_refuted.
(** white space after a comment is lost *)
Theorem C96_comment_space_refuted : exists s cm tc, parse s [] [] = POk (cm, tc) /\
  s = bs "<root>a<!-- note --> b</root>" /\ mfind bcmp (bs "root#0") cm = Some (bs "ab").
Proof.
  exists (bs "<root>a<!-- note --> b</root>"), [(bs "root#0", bs "ab")], [(bs "root", 1%N)].
  split; [vm_compute; reflexivity|]. split; [reflexivity|vm_compute; reflexivity].
Qed.
Print Assumptions C96_comment_space_refuted.
(** a comment with a '>' ends there, and the rest of it becomes text *)
Theorem C96_comment_gt_refuted : exists s cm tc, parse s [] [] = POk (cm, tc) /\
  s = bs "<root><!-- 1>0 -->b</root>" /\ mfind bcmp (bs "root#0") cm = Some (bs "0 -->b").
Proof.
  exists (bs "<root><!-- 1>0 -->b</root>"), [(bs "root#0", bs "0 -->b")], [(bs "root", 1%N)].
  split; [vm_compute; reflexivity|]. split; [reflexivity|vm_compute; reflexivity].
Qed.
Print Assumptions C96_comment_gt_refuted.
(** a comment with a '<' swallows elements up to the next one with a '>' *)
Theorem C96_comment_lt_refuted : exists s tc, parse s [] [] = POk ([], tc) /\
  s = bs "<root><!-- if 1<2 --><a>x</a><!-- > --></root>".
Proof.
  exists (bs "<root><!-- if 1<2 --><a>x</a><!-- > --></root>"), [(bs "root", 1%N)].
  split; [vm_compute; reflexivity|reflexivity].
Qed.
Print Assumptions C96_comment_lt_refuted.
(** two double quotes in a row in text are an error *)
Theorem C96_quotes_refuted : exists s, parse s [] [] = PErr /\ s = bs "<root><a>a=""""</a></root>".
Proof. eexists. split; [|reflexivity]. vm_compute. reflexivity. Qed.
Print Assumptions C96_quotes_refuted.
(** members are not found under element names with a dot *)
Theorem C96_dotted_refuted : exists s, of0 (XStruct (XCons (bs "a.b") xint XNil)) s (VL [VI 0]) = POk (VL [VI 0]) /\
  s = bs "<root><a.b>1</a.b></root>".
Proof. eexists. split; [|reflexivity]. vm_compute. reflexivity. Qed.
Print Assumptions C96_dotted_refuted.

(** ** Same text, same object: what surrounds the elements has no influence *)
Theorem C96_layout : forall fget klt ty t1 t2 ps1 ps2 rest1 rest2 fput v tr,
  xwf false ty -> xht fput fget klt false ty v -> tree fput false ty root v = [tr] ->
  matches tr t1 -> matches tr t2 -> okitem t1 -> okitem t2 -> Forall okpro ps1 -> Forall okpro ps2 ->
  of_xml fget klt ty (concat (map rpro ps1) ++ ritem t1 ++ rest1) (xdflt ty) =
  of_xml fget klt ty (concat (map rpro ps2) ++ ritem t2 ++ rest2) (xdflt ty).
Proof. intros. now rewrite (C96_reads fput fget klt ty v tr ps1 t1), (C96_reads fput fget klt ty v tr ps2 t2). Qed.
Print Assumptions C96_layout.

(** * Properties of the XML descriptor: C27-C32 and the XML half of C58 *)
From Verif Require Import Base Base_Proofs SMap Dec Desc_Model Desc_Props Json_Model Json_Spec Xml_Model Xml_Spec Xml_Proofs Xml_Proofs2 Xml_Proofs3 Xml_Proofs4 Xml_Proofs5.

(** instances for the examples *)
Definition fput0 : N -> list ascii := fun x => dec x.
Definition fget0 : list ascii -> N -> N := fun s _ => fst (digits 10 s 0 false).
Definition klt0 : nat -> jval -> jval -> bool := fun _ a b =>
  match a, b with
  | VI x, VI y => Z.ltb x y
  | VP (VI x) _, VP (VI y) _ => Z.ltb x y
  | _, _ => false
  end.
Notation of0 := (of_xml fget0 klt0).
Notation to0 := (to_xml false fput0).
Notation topp := (to_xml true fput0).
Definition xint := XInt true 32.

(** ** C27 *)
(** Text of any bytes is read back with every byte 157-255 replaced by NUL, as long as no
    piece between '=' signs then is "<" or "</" (and it is not empty). *)
Theorem C27_text : forall pp fput fget klt s old, s <> [] -> oksegs (map dq s) ->
  of_xml fget klt XStr (to_xml pp fput XStr (VS s)) (VS old) = POk (VS (map dq s)).
Proof. intros. now apply text_doc. Qed.
Example C27_text_ex : of0 XStr (to0 XStr (VS (bs "a<b>&'""=/ c" ++ [chr 10; chr 200]))) (VS (bs "old"))
  = POk (VS (bs "a<b>&'""=/ c" ++ [chr 10; nul])).
Proof. vm_compute. reflexivity. Qed.
Print Assumptions C27_text.

(** Text without those bytes and pieces is read back exactly. *)
Theorem C27_roundtrip_partial : forall pp fput fget klt s old, s <> [] ->
  Forall (fun c => (N_of_ascii c <= 156)%N) s ->
  Forall (fun seg => seg <> bs "<" /\ seg <> bs "</") (splitc "=" s) ->
  of_xml fget klt XStr (to_xml pp fput XStr (VS s)) (VS old) = POk (VS s).
Proof.
  intros pp fput fget klt s old NE H1 H2.
  assert (H : Forall (fun c => okchar c = true) s).
  { eapply Forall_impl; [|exact H1]. intros c Hc. unfold okchar. now apply N.leb_le. }
  rewrite <- (dq_id s H) at 2. apply C27_text; [exact NE|]. now rewrite dq_id.
Qed.
Example C27_roundtrip_ex : let s := bs "x=<y></y>" in
  s <> [] /\ Forall (fun c => (N_of_ascii c <= 156)%N) s /\
  Forall (fun seg => seg <> bs "<" /\ seg <> bs "</") (splitc "=" s).
Proof. cbn. repeat split; try discriminate; repeat constructor; try discriminate; cbn; vm_compute; discriminate. Qed.
Print Assumptions C27_roundtrip_partial.

(** every string with a byte 157-255 (any UTF-8 text outside ASCII has one) is changed *)
Theorem C27_high_bytes : forall pp fput fget klt s old c, In c s -> (157 <= N_of_ascii c)%N -> oksegs (map dq s) ->
  exists s', of_xml fget klt XStr (to_xml pp fput XStr (VS s)) (VS old) = POk (VS s') /\ s' <> s.
Proof.
  intros pp fput fget klt s old c Hc Hn H. exists (map dq s). split.
  - apply C27_text; [|exact H]. intros ->. destruct Hc.
  - intros E0. assert (E : dq c = c).
    { clear - E0 Hc. induction s as [|x s IH]; [destruct Hc|]. injection E0 as E1 E2. destruct Hc as [->|Hc]; auto. }
    unfold dq, okchar in E. replace (N_of_ascii c <=? 156)%N with false in E by (symmetry; apply N.leb_gt; Lia.lia).
    rewrite <- E in Hn. vm_compute in Hn. now apply Hn.
Qed.
(** "é" in UTF-8 *)
Theorem C27_utf8_refuted : exists s, s = [chr 195; chr 169] /\ of0 XStr (to0 XStr (VS s)) (VS []) = POk (VS [nul; nul]).
Proof. eexists. split; [reflexivity|vm_compute; reflexivity]. Qed.
Example C27_high_bytes_ex : In (chr 195) [chr 195; chr 169] /\ oksegs (map dq [chr 195; chr 169]).
Proof. split; [now left|repeat constructor; discriminate]. Qed.
Print Assumptions C27_high_bytes.
Print Assumptions C27_utf8_refuted.
(** the strings "<", "</" and "a=<" are not read back; nor is the empty string *)
Theorem C27_markup_refuted : exists s, Forall (fun c => (N_of_ascii c <= 127)%N) s /\ s <> [] /\
  of0 XStr (to0 XStr (VS s)) (VS []) = PErr.
Proof. exists (bs "<"). split; [|split; [discriminate|vm_compute; reflexivity]]. repeat constructor. vm_compute. discriminate. Qed.
Example C27_markup_ex : of0 XStr (to0 XStr (VS (bs "a=<"))) (VS []) = PErr /\
  of0 XStr (to0 XStr (VS (bs "</"))) (VS []) <> POk (VS (bs "</")).
Proof. split; vm_compute; [reflexivity|discriminate]. Qed.
Print Assumptions C27_markup_refuted.
Theorem C27_empty_refuted : exists old, of0 XStr (to0 XStr (VS [])) (VS old) <> POk (VS []).
Proof. exists (bs "old"). vm_compute. discriminate. Qed.
Print Assumptions C27_empty_refuted.
(** CDATA whose text ends in ']', or written with prettyPrint *)
Theorem C27_cdata_refuted : exists s, ~ In ">"%char s /\
  of0 XCdata (to0 XCdata (VS s)) (VS []) <> POk (VS s).
Proof. exists (bs "a]"). split; [cbn; intuition discriminate|vm_compute; discriminate]. Qed.
Print Assumptions C27_cdata_refuted.
Theorem C27_cdata_pretty_refuted : exists s, of0 XCdata (to0 XCdata (VS s)) (VS []) = POk (VS s) /\
  of0 XCdata (topp XCdata (VS s)) (VS []) <> POk (VS s).
Proof. exists (bs "a"). split; vm_compute; [reflexivity|discriminate]. Qed.
Print Assumptions C27_cdata_pretty_refuted.

(** ** C28 *)
(** the example class: every kind of member *)
Definition cols := [(bs "red", 0%Z); (bs "green", 5%Z)].
Definition t_ex : xty :=
  XStruct (XCons (bs "n") (XInt false 64)
    (XCons (bs "name") XStr
    (XCons (bs "col") (XEnum cols)
    (XCons (bs "m") (XAssoc false 0 (bs "pair") (XPair xint (XSeq None (bs "double") XFlt)))
    (XCons (bs "arr") (XArr 3 (bs "int") xint)
    (XCons (bs "p") (XPtr (XStruct (XCons (bs "c") XChar XNil)))
    (XCons (bs "q") (XPtr xint)
    (XCons (bs "polys") (XSeq None (bs "B") (XPoly (XACons (bs "A") XNil (XACons (bs "B") (XCons (bs "x") XBool XNil) XANil)))) XNil)))))))).
Definition v_ex : jval :=
  VL [VI 18446744073709551615; VS (bs "<joe> & sons"); VI 5;
      VL [VP (VI (-3)) (VL [VD 7; VD 8]); VP (VI 4) (VL [])];
      VL [VI 1; VI 2; VI (-2147483648)];
      VPtr (VL [VC "x"%char]); VNul;
      VL [VPoly (bs "B") [VB true]; VPoly (bs "A") []]].
Lemma ex_xwf : xwf false t_ex.
Proof.
  cbn -[bs]. unfold okname, oktext, oksegs.
  repeat match goal with
  | |- _ /\ _ => split
  | |- NoDup _ => constructor
  | |- Forall _ _ => constructor
  | |- True => exact I
  | |- _ \/ _ => now auto
  | |- _ = _ => reflexivity || discriminate
  | |- _ <> _ => discriminate
  | |- ~ In _ _ => cbn; intuition discriminate
  | |- _ -> _ => intro
  end.
Qed.
Lemma ex_xht : xht fput0 fget0 klt0 false t_ex v_ex.
Proof.
  cbn -[bs Z.pow]. unfold ordered, inrange, oktext, oksegs.
  repeat match goal with
  | |- _ /\ _ => split
  | |- Forall _ _ => constructor
  | |- ForallOrdPairs _ _ => constructor
  | |- True => exact I
  | |- _ \/ _ => now right
  | |- (_ <= _)%Z => vm_compute; discriminate
  | |- (_ < _)%Z => vm_compute; reflexivity
  | |- _ = _ => reflexivity
  | |- _ <> _ => discriminate
  | |- In _ _ => cbn; tauto
  end.
  - right. now left.
  - vm_compute. auto.
  - vm_compute. auto.
Qed.

(** Documents are well formed: tags nest and match, names are names, there is only white
    space outside the root, and in text every '&' begins a reference and there is no '<'
    or '>'.  This holds for every value, also those that do not survive reading. *)
Theorem C28_wellformed_partial : forall pp fput t v,
  (forall x, Forall (fun c => plain c = true) (fput x)) ->
  xwf false t -> cdata_free t = true ->
  scan (to_xml pp fput t v) [] MText = true /\ amps (to_xml pp fput t v) = true.
Proof. intros. now apply wellformed. Qed.
Example C28_wellformed_ex : (forall x, Forall (fun c => plain c = true) (fput0 x)) /\ xwf false t_ex /\ cdata_free t_ex = true /\
  scan (topp t_ex v_ex) [] MText = true /\ (300 <= length (topp t_ex v_ex)).
Proof.
  split; [|split; [exact ex_xwf|split; [reflexivity|split; [vm_compute; reflexivity|vm_compute; lia]]]].
  intros x. unfold fput0. pose proof (decZ_plain (Z.of_N x)) as H. unfold decZ in H.
  destruct (Z.ltb_spec (Z.of_N x) 0); [Lia.lia|]. now rewrite N2Z.id in H.
Qed.
(** the scanner rejects what it should *)
Example C28_scan_rejects : scan (bs "<a><b></a></b>") [] MText = false /\ scan (bs "<a>") [] MText = false /\
  scan (bs "<a>x<</a>") [] MText = false /\ scan (bs "<a></a>x") [] MText = false /\ amps (bs "a & b") = false /\
  scan (bs "<vector<int>></vector<int>>") [] MText = false.
Proof. repeat split. Qed.
Print Assumptions C28_wellformed_partial.

(** the document is exactly the rendering of the tree of the value *)
Theorem C28_tree : forall pp fput t v, xwf false t -> cdata_free t = true ->
  to_xml pp fput t v = concat (map (render pp 1) (tree fput false t root v)).
Proof. intros pp fput t v W C. apply to_xml_tree; [exact W|now right]. Qed.
Example C28_tree_ex : tree fput0 false t_ex root v_ex <> [] /\
  to0 (XSeq None (bs "int") xint) (VL [VI 1; VI 2]) = bs "<root><int>1</int><int>2</int></root>".
Proof. split; [discriminate|vm_compute; reflexivity]. Qed.
Print Assumptions C28_tree.

(** unsigned char is written raw; the element name of a C array is not cut at '<'; the
    keys of a StringKeyMap become names *)
Theorem C28_byte_refuted : exists c, scan (to0 XByte (VC c)) [] MText = false.
Proof. exists "<"%char. vm_compute. reflexivity. Qed.
Print Assumptions C28_byte_refuted.
Theorem C28_array_name_refuted : exists v, scan (to0 (XArr 1 (bs "vector<int>") (XSeq None (bs "int") xint)) v) [] MText = false.
Proof. exists (VL [VL [VI 1]]). vm_compute. reflexivity. Qed.
Print Assumptions C28_array_name_refuted.
Theorem C28_map_key_refuted : exists k, scan (to0 (XMap xint) (VM [(k, VI 1)])) [] MText = false.
Proof. exists (bs "a b"). vm_compute. reflexivity. Qed.
Print Assumptions C28_map_key_refuted.

(** ** C29 *)
(** Parsing any rendered tree of elements records exactly its texts and counts. *)
Theorem C29_structure : forall pp t rest, okdoc okleaf t ->
  exists cm tc, parse (render pp 1 t ++ rest) [] [] = POk (cm, tc) /\ records_doc pp [t] cm tc.
Proof. intros. now apply parse_doc. Qed.
Definition d_ex : xt :=
  Node (bs "root") [Leaf (bs "a") (bs "x") (bs "x"); Node (bs "b") [Leaf (bs "a") (quotes (bs "<y>")) (bs "<y>")]; Leaf (bs "a") [] []].
Example C29_structure_ex : okdoc okleaf d_ex /\ sel (doc [d_ex]) [(bs "root", 0%N); (bs "b", 0%N); (bs "a", 0%N)]
  = Some (Leaf (bs "a") (quotes (bs "<y>")) (bs "<y>")) /\ named (kids_of d_ex) (bs "a") = 2%N.
Proof.
  split; [|split; reflexivity]. cbn [okdoc d_ex].
  assert (T : forall s, oktext s -> okleaf (quotes s) s) by apply oktext_leaf.
  repeat split; try discriminate; try (repeat constructor; fail).
  - apply (T (bs "x")). apply nolt_oktext; [repeat constructor|]. cbn. intuition discriminate.
  - apply (T (bs "<y>")). split; [repeat constructor|]. repeat constructor; discriminate.
  - apply (T []). apply nolt_oktext; [constructor|]. intros [].
Qed.
Print Assumptions C29_structure.

(** Values of any well-formed type are read back. *)
Theorem C29_values_partial : forall pp fput fget klt t v,
  xwf false t -> xht fput fget klt false t v -> pp = false \/ cdata_free t = true ->
  of_xml fget klt t (to_xml pp fput t v) (xdflt t) = POk v.
Proof. intros. now apply xml_roundtrip. Qed.
Example C29_values_ex : xwf false t_ex /\ xht fput0 fget0 klt0 false t_ex v_ex /\ of0 t_ex (topp t_ex v_ex) (xdflt t_ex) = POk v_ex.
Proof. split; [exact ex_xwf|split; [exact ex_xht|vm_compute; reflexivity]]. Qed.
Print Assumptions C29_values_partial.

Theorem C29_tuple_refuted : exists v, of0 (XTup (xtcons (bs "int") xint (xtcons (bs "string") XStr xtnil))) 
   (to0 (XTup (xtcons (bs "int") xint (xtcons (bs "string") XStr xtnil))) v) (VL [VI 0; VS []]) <> POk v.
Proof. exists (VL [VI 1; VS (bs "x")]). vm_compute. discriminate. Qed.
Print Assumptions C29_tuple_refuted.
(** a null pointer in a vector is read back as a pointer to a default object *)
Theorem C29_null_refuted : exists l, of0 (XSeq None (bs "P") (XPtr (XStruct (XCons (bs "c") xint XNil))))
   (to0 (XSeq None (bs "P") (XPtr (XStruct (XCons (bs "c") xint XNil)))) (VL l)) (VL []) = POk (VL [VPtr (VL [VI 0])])
   /\ l = [VNul].
Proof. exists [VNul]. split; [vm_compute; reflexivity|reflexivity]. Qed.
Print Assumptions C29_null_refuted.
(** pointers to leaves in a vector are wrapped twice and lost *)
Theorem C29_ptr_leaf_refuted : exists v, of0 (XSeq None (bs "int") (XPtr xint))
   (to0 (XSeq None (bs "int") (XPtr xint)) v) (VL []) <> POk v.
Proof. exists (VL [VPtr (VI 3)]). vm_compute. discriminate. Qed.
Print Assumptions C29_ptr_leaf_refuted.
Theorem C29_char_refuted : exists c, of0 XChar (to0 XChar (VC c)) (VC "x"%char) = POk (VC "x"%char) /\ c = " "%char.
Proof. exists " "%char. split; [vm_compute; reflexivity|reflexivity]. Qed.
Print Assumptions C29_char_refuted.
(** ill-formed documents are accepted: the end tag may be any suffix of the path, or any
    unrelated name one character longer than the path *)
Theorem C29_endtag_refuted : exists s cm tc, scan s [] MText = false /\ parse s [] [] = POk (cm, tc).
Proof. exists (bs "<root>a</other>"). eexists. eexists. split; [vm_compute; reflexivity|vm_compute; reflexivity]. Qed.
Print Assumptions C29_endtag_refuted.
(** comments: a '>' within seven characters of "<!" ends the comment; an odd number of
    quotes makes it run to the end of the file *)
Theorem C29_comment_refuted : exists s, parse (bs "<root><!--" ++ s ++ bs "--><a>1</a></root>") [] [] = PErr /\
  ~ In "<"%char s /\ ~ In ">"%char s.
Proof. exists (bs "say 5"" long"). split; [vm_compute; reflexivity|split; cbn; intuition discriminate]. Qed.
Print Assumptions C29_comment_refuted.

(** ** C30 *)
(** types of fixed shape without enums *)
Fixpoint rigid (t : xty) : bool :=
  match t with
  | XBool | XChar | XByte | XInt _ _ | XFlt | XStr | XCdata => true
  | XArr _ _ t' => rigid t'
  | XPair a b => rigid a && rigid b
  | XStruct fs => rigid_flds fs
  | _ => false
  end
with rigid_flds (fs : xflds) : bool :=
  match fs with XNil => true | XCons _ t fs' => rigid t && rigid_flds fs' end.
(** objects of that shape *)
Fixpoint shaped (t : xty) (v : jval) {struct t} : Prop :=
  match t, v with
  | XArr _ _ t', VL l => Forall (shaped t') l
  | XPair a b, VP x y => shaped a x /\ shaped b y
  | XStruct fs, VL l => shaped_flds fs l
  | XArr _ _ _, _ | XPair _ _, _ | XStruct _, _ => False
  | _, _ => True
  end
with shaped_flds (fs : xflds) (l : list jval) {struct fs} : Prop :=
  match fs, l with
  | XNil, [] => True
  | XCons _ t fs', x :: l' => shaped t x /\ shaped_flds fs' l'
  | _, _ => False
  end.
(** nothing recorded at or below [d] *)
Definition absent (x : xdb) (d : list ascii) : Prop := forall e, mfind bcmp (add_hash_noughts (d ++ e)) (xcm x) = None.
Lemma absent_lookup : forall x d, absent x d -> miss x = false -> lookup x d = POk None.
Proof. intros x d H M. unfold lookup. specialize (H []). rewrite app_nil_r in H. now rewrite H, M. Qed.
Lemma absent_sub : forall x d e, absent x d -> absent x (d ++ e).
Proof. intros x d e H e'. rewrite <- app_assoc. apply H. Qed.
Theorem C30_absent : forall fget klt x t d v, miss x = false -> absent x d -> rigid t = true -> shaped t v ->
  xunpack fget klt x t d v = POk v.
Proof.
  intros fget klt x t d v M A R S. revert t d v A R S.
  assert (G : (forall t d v, absent x d -> rigid t = true -> shaped t v -> xunpack fget klt x t d v = POk v) /\
    (forall ts : xtys, True) /\
    (forall fs d l, absent x d -> rigid_flds fs = true -> shaped_flds fs l -> xunpack_flds fget klt x fs d l = POk l) /\
    (forall als : xalts, True)).
  { apply xty_mutind; try (intros; exact I); try (intros; discriminate);
      try (intros; cbn [xunpack]; rewrite absent_lookup by assumption; cbn [pbind]; now destruct v).
    - intros n e t IH d v A R S. destruct v; try contradiction. cbn [xunpack].
      assert (E : forall i l, Forall (shaped t) l ->
         xeach (fun i v => xunpack fget klt x t (idx (d ++ dot :: e) i) v) i l = POk l).
      { intros i l0 H. revert i. induction H as [|y ys H1 H2 IHl]; intros i; [reflexivity|]. cbn [xeach].
        rewrite IH; [|unfold idx; rewrite <- app_assoc; now apply absent_sub|exact R|exact H1]. cbn [pbind]. now rewrite IHl. }
      rewrite E by exact S. reflexivity.
    - intros a IHa b IHb d v A R S. apply andb_prop in R as [R1 R2]. destruct v; try contradiction. destruct S as [S1 S2].
      cbn [xunpack]. rewrite IHa by (auto using absent_sub). cbn [pbind]. rewrite IHb by (auto using absent_sub). reflexivity.
    - intros fs IH d v A R S. destruct v; try contradiction. 
      change (pbind (xunpack_flds fget klt x fs d l) (fun r => POk (VL r)) = POk (VL l)). now rewrite IH.
    - intros d [|y l] A R S; [reflexivity|contradiction].
    - intros n t IHt fs IHf d [|y l] A R S; [contradiction|]. apply andb_prop in R as [R1 R2]. destruct S as [S1 S2].
      change (pbind (xunpack fget klt x t (d ++ dot :: n) y) (fun r => pbind (xunpack_flds fget klt x fs d l) (fun rs => POk (r :: rs))) = POk (y :: l)).
      rewrite IHt by (auto using absent_sub). cbn [pbind]. now rewrite IHf. }
  exact (proj1 G).
Qed.
Example C30_absent_ex : let x := {| xcm := []; xtc := []; miss := false |} in
  absent x (bs "root.p") /\ rigid (XStruct (XCons (bs "a") XStr (XCons (bs "b") (XArr 2 (bs "int") xint) XNil))) = true /\
  shaped (XStruct (XCons (bs "a") XStr (XCons (bs "b") (XArr 2 (bs "int") xint) XNil))) (VL [VS (bs "old"); VL [VI 1; VI 2]]).
Proof. split; [intros e; reflexivity|split; [reflexivity|repeat constructor]]. Qed.
Print Assumptions C30_absent.

(** with missingException an absent scalar throws *)
Definition scalar (t : xty) : bool :=
  match t with XBool | XChar | XByte | XInt _ _ | XFlt | XStr | XCdata | XEnum _ => true | _ => false end.
Theorem C30_missing_throws : forall fget klt x t d v, miss x = true -> scalar t = true ->
  mfind bcmp (add_hash_noughts d) (xcm x) = None -> xunpack fget klt x t d v = PErr.
Proof.
  intros fget klt x t d v M S E. assert (L : lookup x d = PErr) by (unfold lookup; now rewrite E, M).
  destruct t; try discriminate; cbn [xunpack]; now rewrite L.
Qed.
Example C30_missing_ex : xunpack fget0 klt0 {| xcm := []; xtc := []; miss := true |} xint (bs "root.n") (VI 3) = PErr.
Proof. reflexivity. Qed.
Print Assumptions C30_missing_throws.

(** an absent element sets an enum to 0, whatever its value was *)
Theorem C30_enum_reset : forall fget klt x ks d z, miss x = false -> ~ In [] (map fst ks) ->
  mfind bcmp (add_hash_noughts d) (xcm x) = None -> xunpack fget klt x (XEnum ks) d (VI z) = POk (VI 0).
Proof.
  intros fget klt x ks d z M N E. cbn [xunpack]. unfold lookup. rewrite E, M. cbn [pbind filter].
  now rewrite (proj1 (proj1 (C33_unknown ks) [] N)).
Qed.
Example C30_enum_ex : ~ In [] (map fst cols). Proof. cbn. intuition discriminate. Qed.
Theorem C30_enum_refuted : exists s z, of0 (XEnum cols) s (VI z) = POk (VI 0) /\ s = bs "<other>1</other>" /\ z = 5%Z.
Proof. exists (bs "<other>1</other>"), 5%Z. split; [vm_compute; reflexivity|auto]. Qed.
Print Assumptions C30_enum_refuted.
Print Assumptions C30_enum_reset.
(** an element present with empty text leaves a string unchanged, for every document *)
Theorem C30_empty_kept : forall pp fget klt t R n, okdoc okleaf t -> goodp R -> R <> [] ->
  sel (doc [t]) R = Some (Leaf n [] []) ->
  exists cm tc, parse (render pp 1 t) [] [] = POk (cm, tc) /\
    forall d old, map nought (splitc dot d) = map comp R ->
      xunpack fget klt {| xcm := cm; xtc := tc; miss := false |} XStr d (VS old) = POk (VS old).
Proof.
  intros pp fget klt t R n H G NE S. destruct (parse_doc pp t [] H) as (cm & tc & E & A & _). rewrite app_nil_r in E.
  exists cm, tc. split; [exact E|]. intros d old D. cbn [xunpack]. unfold lookup. cbn [xcm miss].
  rewrite (dp_ks d R D), A by assumption. now rewrite S.
Qed.
Theorem C30_empty_refuted : exists old, of0 XStr (bs "<root></root>") (VS old) = POk (VS old) /\ old <> [].
Proof. exists (bs "old"). split; [vm_compute; reflexivity|discriminate]. Qed.
Print Assumptions C30_empty_refuted.
Example C30_empty_ex : map nought (splitc dot (bs "root.a")) = map comp [(bs "root", 0%N); (bs "a", 0%N)].
Proof. vm_compute; reflexivity. Qed.
Print Assumptions C30_empty_kept.
(** an attribute with an empty value makes the document unreadable *)
Theorem C30_empty_attribute_refuted : exists s, s = bs "<root a=""""></root>" /\ parse s [] [] = PErr.
Proof. eexists. split; [reflexivity|vm_compute; reflexivity]. Qed.
Print Assumptions C30_empty_attribute_refuted.

(** ** C31 *)
Theorem C31_noughts : forall key,
  add_hash_noughts key = joinc dot (map (fun c => if existsb (fun x => if ascii_dec x hash then true else false) c
                                                  then c else c ++ bs "#0") (splitc dot key)).
Proof.
  intros key. rewrite ahn_split. reflexivity.
Qed.
Example C31_noughts_ex : add_hash_noughts (bs "a.b#2.c") = bs "a#0.b#2.c#0". Proof. reflexivity. Qed.
Print Assumptions C31_noughts.
Theorem C31_idempotent : forall key, add_hash_noughts (add_hash_noughts key) = add_hash_noughts key.
Proof. exact ahn_idem. Qed.
Print Assumptions C31_idempotent.

(** ** C32 *)
Theorem C32_token : forall st, match token st with
  | TTok t i n => (t = [] /\ i = [] /\ n = nul) \/                   (* end of input *)
      (2 * length i + (if ascii_dec n nul then 0 else 1) < 2 * length (inp st) + (if ascii_dec (nxt st) nul then 0 else 1))%nat
  | TErr => True
  | TFuel => False end.
Proof. intros st. exact (token_fine st). Qed.
Example C32_token_ex : token {| inp := bs "<!-- c --><a>"; nxt := nul |} = TTok (bs "<") (bs "a>") nul. Proof. vm_compute. reflexivity. Qed.
Print Assumptions C32_token.
Theorem C32_parse : forall s cm tc, parse s cm tc <> PFuel.
Proof. exact parse_fine. Qed.
Print Assumptions C32_parse.

(** ** C58: StringKeyMap *)
(** whatever document is read, the map is unchanged *)
Theorem C58_xml_unchanged : forall fget klt t s m r,
  of_xml fget klt (XMap t) s (VM m) = POk r -> r = VM m.
Proof.
  intros fget klt t s m r H. unfold of_xml in H. pose proof (parse_hk s [] [] (fun _ _ => eq_refl)) as P.
  destruct (parse s [] []) as [[cm tc]| |]; try discriminate. cbn [pbind hkr fst] in *.
  cbn [xunpack xcm] in H. rewrite (P root eq_refl) in H. congruence.
Qed.
Theorem C58_xml_refuted : exists m, of0 (XMap xint) (to0 (XMap xint) (VM m)) (VM []) = POk (VM []) /\
  m <> [] /\ to0 (XMap xint) (VM m) = bs "<root><k>1</k></root>".
Proof. exists [(bs "k", VI 1)]. split; [vm_compute; reflexivity|split; [discriminate|vm_compute; reflexivity]]. Qed.
Print Assumptions C58_xml_refuted.
Print Assumptions C58_xml_unchanged.

(** * Further facts closing gaps between the other properties: C22, C35, C39, C47, C61, C66, C73, C89 *)
From Verif Require Import Base Base_Proofs SMap.
From Verif Require Desc_Model Json_Model Json_Spec Json_Proofs Json_Proofs2 Json_Props MPI_Model MPI_Props PackBuf_Model MArr_Model Rest2_Model Rest2_Props
  Tok_Model Parse_Model Parse_Props ClassParse_Model PyBuf_Model.

(** ** C22: which error is reported *)
Section C22.
Import Desc_Model Json_Model Json_Spec Json_Proofs Json_Proofs2 Json_Props.
Lemma walk_fails : forall x cs k, (forall y, walk x cs <> FOk y) -> walk x (cs ++ [k]) = walk x cs.
Proof.
  intros x cs k H. rewrite walk_app. destruct (walk x cs) eqn:E; try reflexivity. exfalso. eapply H. reflexivity.
Qed.
(** A member that is absent from an object is reported as such; a path through something
    that is no object is another error. *)
Theorem C22_absent_error : forall klt narrow i2d t x cs a er,
  noticed t -> shape t a -> Forall nodot cs ->
  (walk x cs = FNotFound /\ er = ENotFound) \/ (walk x cs = FNotObj /\ er = EJson) ->
  unpack klt narrow i2d true t x (pstr cs) a = JErr er.
Proof.
  intros klt narrow i2d.
  assert (K : forall x cs er k, (walk x cs = FNotFound /\ er = ENotFound) \/ (walk x cs = FNotObj /\ er = EJson) ->
     (walk x (cs ++ [k]) = FNotFound /\ er = ENotFound) \/ (walk x (cs ++ [k]) = FNotObj /\ er = EJson)).
  { intros x cs er k H. rewrite walk_fails; [exact H|]. intros y E. destruct H as [[H _]|[H _]]; congruence. }
  assert (L : forall {A} x cs (old : A) k er, Forall nodot cs ->
     (walk x cs = FNotFound /\ er = ENotFound) \/ (walk x cs = FNotObj /\ er = EJson) -> find_or true x (pstr cs) old k = JErr er).
  { intros A x cs old k er Hn Hm. unfold find_or. rewrite find_pstr by exact Hn.
    destruct Hm as [[-> ->]|[-> ->]]; reflexivity. }
  assert (Sn : forall cs k, Forall nodot cs -> nodot k -> Forall nodot (cs ++ [k])).
  { intros cs k H1 H2. apply Forall_app. split; [exact H1|]. constructor; [exact H2|constructor]. }
  enough (G : (forall t x cs a er, noticed t -> shape t a -> Forall nodot cs ->
                 (walk x cs = FNotFound /\ er = ENotFound) \/ (walk x cs = FNotObj /\ er = EJson) ->
                 unpack klt narrow i2d true t x (pstr cs) a = JErr er) /\
     (forall ts : tys, True) /\
     (forall fs x cs a er, match fs with FCons n t _ => nodot n /\ noticed t | FNil => False end -> shape_flds fs a ->
        Forall nodot cs -> (walk x cs = FNotFound /\ er = ENotFound) \/ (walk x cs = FNotObj /\ er = EJson) ->
        unpack_flds klt narrow i2d true fs x (pstr cs) a = JErr er) /\
     (forall als : alts, True)) by exact (proj1 G).
  apply jty_mutind; try (intros; exact Logic.I); try (intros; contradiction).
  1-6: intros; cbn [unpack]; now apply L.
  - intros ks0 x cs a er _ _ Hn Hm. cbn [unpack]. unfold unpack_leaf. now rewrite (L _ x cs (VS []) _ er Hn Hm).
  - intros; cbn [unpack]; now apply L.
  - intros; cbn [unpack]; now apply L.
  - intros; cbn [unpack]; now apply L.
  - intros a IHa b IHb x cs v er Kn S1 Hn Hm. destruct v; try contradiction. destruct S1 as [S1 S2].
    cbn [unpack]. change first_ with (dot :: bs "first"). rewrite <- !pstr_snoc.
    rewrite (IHa x (cs ++ [bs "first"]) v1 er Kn S1); [reflexivity| |now apply K].
    apply Sn; [exact Hn|now apply nodotb_ok].
  - intros fs IH x cs v er Kn S1 Hn Hm. destruct v; try contradiction. rewrite unpack_struct_eq.
    rewrite (IH x cs l er); [reflexivity|destruct fs; exact Kn|exact S1|exact Hn|exact Hm].
  - intros; cbn [unpack]; now apply L.
  - intros n t IHt fs IHf x cs a er (K1 & K2) S1 Hn Hm. destruct a as [|v a]; [contradiction|].
    destruct S1 as [S1 S2]. rewrite unpack_flds_eq, <- pstr_snoc.
    rewrite (IHt x (cs ++ [n]) v er K2 S1); [reflexivity| |now apply K]. now apply Sn.
Qed.
Example C22_absent_error_ex : let t := TStruct (FCons (bs "a") tint FNil) in
  noticed t /\ shape t (VL [VI 1]) /\ walk (JObj []) [bs "q"] = FNotFound /\ walk (JInt 3) [bs "q"] = FNotObj /\
  unpack0 true t (JInt 3) (pstr [bs "q"]) (VL [VI 1]) = JErr EJson.
Proof.
  cbn -[bs unpack]. split; [split; [now apply nodotb_ok|exact Logic.I]|]. split; [auto|]. split; [reflexivity|]. split; reflexivity.
Qed.
Print Assumptions C22_absent_error.
End C22.

(** ** C35: an element is given by as many indices as the array has dimensions *)
Section C35.
Import MArr_Model.
Lemma removelast_len : forall (l : list N), length (removelast l) = pred (length l).
Proof. induction l as [|x [|y l] IH]; try reflexivity. cbn [removelast length] in *. now rewrite IH. Qed.
Theorem C35_indices : forall is a, (exists n, addr a is = Some n) <-> is <> [] /\ length is = length (dims a).
Proof.
  induction is as [|i [|j is] IH]; intros a; cbn [addr].
  - split; [intros [n H]; discriminate|intros [H _]; congruence].
  - unfold rank. destruct (Nat.eqb_spec (length (dims a)) 1) as [E|E].
    + split; [intros _; split; [discriminate|now rewrite E]|eauto].
    + split; [intros [n H]; discriminate|intros [_ H]; cbn in H; congruence].
  - unfold rank. destruct (Nat.leb_spec 2 (length (dims a))) as [L|L].
    + rewrite (IH (index a i)). cbn [index dims length]. rewrite removelast_len.
      split; intros [A B]; (split; [discriminate|cbn [length] in *; lia]).
    + split; [intros [n H]; discriminate|intros [_ H]; cbn [length] in H; lia].
Qed.
Example C35_indices_ex : addr {| off := 0; dims := [2; 3]%N; str := 2 |} [1; 1]%N = Some 3%N /\
  addr {| off := 0; dims := [2; 3]%N; str := 2 |} [1]%N = None.
Proof. split; reflexivity. Qed.
Print Assumptions C35_indices.
End C35.

(** ** C39: what other than an integer is taken for an index by "@erase" *)
Section C39.
Import Json_Model Rest2_Model.
Inductive index_of : jv -> nat -> Prop :=
| ix_null : index_of JNull 0
| ix_none : index_of (JArr []) 0
| ix_false : index_of (JBool false) 0
| ix_true : index_of (JBool true) 1
| ix_first : forall n l, (Z.of_nat n < 2 ^ 63)%Z -> index_of (JArr (JInt (Z.of_nat n) :: l)) n.
Lemma remove_split : forall {E} (l : list E) i, (i < length l)%nat -> remove_nth l i = firstn i l ++ skipn (S i) l.
Proof.
  induction l as [|x l IH]; intros [|i] H; cbn [length remove_nth firstn skipn app] in *; try lia; [reflexivity|].
  now rewrite IH by lia.
Qed.
Theorem C39_erase_index : forall (E R : Type) (dflt : E) conv mp convseq oproc d2u (obj : list E) j n x,
  index_of j n -> (len obj < 2 ^ 63)%N ->
  seq_process E R dflt conv mp convseq oproc d2u obj (bs ".@erase" ++ x) j = (firstn n obj ++ skipn (S n) obj, JOk SRef).
Proof.
  intros E R dflt conv mp convseq oproc d2u obj j n x H LO. unfold seq_process.
  change (startsWith (bs ".@erase" ++ x) (bs ".@elem")) with false.
  change (startsWith (bs ".@erase" ++ x) (bs ".@insert")) with false. cbv iota.
  assert (D : forall n, (N.of_nat n < 2 ^ 63)%N -> (if (N.of_nat n <? len obj)%N then remove_nth obj (N.to_nat (N.of_nat n)) else obj) = firstn n obj ++ skipn (S n) obj).
  { clear. intros n _. unfold len. rewrite Nat2N.id. destruct (N.ltb_spec (N.of_nat n) (N.of_nat (length obj))) as [L|L].
    - apply remove_split. lia.
    - rewrite firstn_all2 by lia. rewrite skipn_all2 by lia. now rewrite app_nil_r. }
  replace (startsWith (bs ".@erase" ++ x) (bs ".@erase")) with true by (symmetry; apply Rest2_Props.startsWith_app).
  unfold seq_erase. destruct H; cbn [conv_idx].
  - now rewrite <- (D 0%nat).
  - now rewrite <- (D 0%nat).
  - now rewrite <- (D 0%nat).
  - now rewrite <- (D 1%nat).
  - assert (E1 : to_size (Z.of_nat n) = N.of_nat n).
    { unfold to_size. assert (P : (2 ^ 63 < 2 ^ 64)%Z) by reflexivity. rewrite Z.mod_small by lia. lia. }
    rewrite E1. rewrite <- (D n); [reflexivity|]. assert (P : Z.of_N (2 ^ 63) = (2 ^ 63)%Z) by reflexivity. lia.
Qed.
Example C39_erase_index_ex : index_of (JBool true) 1 /\
  Rest2_Props.sseq [bs "a"; bs "b"; bs "c"] (bs ".@erase") (JBool true) = ([bs "a"; bs "c"], JOk SRef).
Proof. split; [constructor|]. vm_compute. reflexivity. Qed.
Print Assumptions C39_erase_index.
End C39.

(** ** C47: gathering constant sized buffers needs the same size everywhere *)
Section C47.
Import PackBuf_Model MPI_Model MPI_Props.
Lemma gatherv_sizes : forall bufs mem offsets sizes mem', gatherv mem offsets sizes bufs = Some mem' ->
  forall i b, nth_error bufs i = Some b -> nth_error sizes i = Some (to_int (pb_size b)).
Proof.
  induction bufs as [|b0 bufs IH]; intros mem offsets sizes mem' H i b Hi; [destruct i; discriminate|].
  destruct offsets as [|o offsets]; [discriminate|]. destruct sizes as [|s0 sizes]; [discriminate|]. cbn [gatherv] in H.
  match type of H with (if ?q then _ else _) = _ => destruct q eqn:Q; [|discriminate] end. rewrite !andb_true_iff in Q. destruct i as [|i]; cbn [nth_error] in *.
  - injection Hi as <-. f_equal. symmetry. apply Z.eqb_eq. tauto.
  - eapply IH; eauto.
Qed.
Theorem C47_const_sizes : forall junk root w w' b, gather junk root w = Some w' -> Forall (fun b => cbuf b = true) w -> w <> [] ->
  In b w -> (pb_size (mb b) < 2 ^ 31)%N -> (pb_size (mb (nth root w dflt)) < 2 ^ 31)%N -> pb_size (mb b) = pb_size (mb (nth root w dflt)).
Proof.
  intros junk root w w' b H C NE I L Lr. unfold gather in H.
  replace (forallb (fun b => negb (cbuf b)) w) with false in H.
  2: { destruct w as [|b0 w]; [congruence|]. cbn [forallb]. now rewrite (Forall_inv C). }
  replace (forallb cbuf w) with true in H by (symmetry; apply forallb_forall; now apply Forall_forall).
  match type of H with match ?g with _ => _ end = _ => destruct g as [m|] eqn:G; [|discriminate] end. clear H.
  apply In_nth_error in I. destruct I as [i Hi].
  assert (S1 := gatherv_sizes _ _ _ _ _ G i (mb b) (map_nth_error _ _ _ Hi)).
  rewrite (map_nth_error _ _ _ Hi) in S1. injection S1 as S1.
  rewrite !to_int_small in S1 by assumption. lia.
Qed.
Example C47_const_sizes_ex : exists w', gather [] 0 [mkmpi (mk_pb (bs "a") 1 0) [] 0 true; mkmpi (mk_pb (bs "b") 1 0) [] 0 true] = Some w' /\
  gather [] 0 [mkmpi (mk_pb (bs "a") 1 0) [] 0 true; mkmpi (mk_pb (bs "bc") 2 0) [] 0 true] = None.
Proof. eexists. split; [vm_compute; reflexivity|]. vm_compute. reflexivity. Qed.
Print Assumptions C47_const_sizes.

(** ** C61: copying and assigning keep the marks *)
Theorem C61_marks : forall np b x b', mpi_assign np b x = Some b' -> (octr x <= length (offs x))%nat ->
  octr b' = octr x /\ (forall i, (i < octr x)%nat -> nth_error (offs b') i = nth_error (offs x) i) /\
  ((octr x <= S np)%nat -> length (offs b') = S np).
Proof.
  intros np b x b' H L. unfold mpi_assign in H. match type of H with match ?g with _ => _ end = _ => destruct g; try discriminate end. injection H as <-. cbn [octr offs].
  split; [reflexivity|]. split.
  - intros i Hi. rewrite nth_error_app1 by (rewrite firstn_length; lia). revert Hi L. generalize (octr x) as n. generalize (offs x) as l.
    clear. intros l. revert i. induction l as [|a l IH]; intros i n Hi L; [cbn in L; lia|]. destruct n as [|n]; [lia|]. destruct i as [|i]; [reflexivity|].
    cbn [firstn nth_error]. apply IH; cbn in L; lia.
  - intros Ln. rewrite app_length, firstn_length, repeat_length, (Nat.min_l _ _ L). destruct (octr x); lia.
Qed.
Example C61_marks_ex : exists b, mpi_copy 2 true (mkmpi (mk_pb (bs "b") 1 0) [Some 0%Z; Some 1%Z; None] 2 false) = Some b /\ offs b = [Some 0%Z; Some 1%Z; None].
Proof. eexists. split; [vm_compute; reflexivity|]. reflexivity. Qed.
Print Assumptions C61_marks.
End C47.

(** ** C66: default arguments *)
Section C66.
Import Desc_Model Tok_Model Parse_Model Parse_Props.
(** a token without angle brackets, commas and null characters *)
Definition dtok (t : tok) : Prop := Forall (fun c => mem c "<>" = false /\ strchr ">," c = false) t.
Inductive default : list tok -> Prop :=
| d_nil : default []
| d_tok t ts : dtok t -> default ts -> default (t :: ts)
| d_group b ts : bal (bs "<") (bs ">") b -> Forall (fun t => t = bs "<" \/ t = bs ">" \/ Forall (fun c => mem c "<>" = false) t) b ->
    default ts -> default (bs "<" :: b ++ bs ">" :: ts).
Record dparam := { dp : param; dd : option (list tok) }.
Definition dparam_ok (p : dparam) : Prop := param_ok (dp p) /\ match dd p with Some d => default d | None => True end.
Definition dparam_toks (p : dparam) : list tok := param_toks (dp p) ++ match dd p with Some d => bs "=" :: d | None => [] end.
Fixpoint dparams_toks (ps : list dparam) : list tok :=
  match ps with
  | [] => []
  | [p] => dparam_toks p
  | p :: ps => dparam_toks p ++ bs "," :: dparams_toks ps
  end.
Lemma skipeq_sp : forall t k n, skipeq ((if teq t "." then [] else [" "%char]) ++ k) n = skipeq k n.
Proof. intros t k n. destruct (teq t "."); [reflexivity|]. cbn [app skipeq]. reflexivity. Qed.
Lemma noangle c : mem c "<>" = false -> ceq c "<" = false /\ ceq c ">" = false.
Proof. intros H. unfold mem in H. cbn [list_ascii_of_string existsb] in H. rewrite !orb_false_iff in H. tauto. Qed.
Lemma skipeq_in b : bal (bs "<") (bs ">") b ->
  Forall (fun t => t = bs "<" \/ t = bs ">" \/ Forall (fun c => mem c "<>" = false) t) b ->
  forall k n, (0 < n)%Z -> skipeq (ttxt b ++ k) n = skipeq k n.
Proof.
  assert (PL : forall t k n, (0 < n)%Z -> Forall (fun c => mem c "<>" = false) t -> skipeq (t ++ k) n = skipeq k n).
  { induction 2 as [|c t H1 _ IH]; [reflexivity|]. cbn [app skipeq]. destruct (noangle _ H1) as [-> ->].
    replace (n =? 0)%Z with false by lia. rewrite andb_false_r. exact IH. }
  induction 1 as [|t ts N1 N2 _ IH|b ts _ IH1 _ IH2]; intros F k n P; [reflexivity| |].
  - inversion F as [|? ? F1 F2]; subst. rewrite ttxt_cons, <- !app_assoc.
    destruct F1 as [?|[?|F1]]; [congruence|congruence|]. rewrite PL by assumption. rewrite skipeq_sp. now apply IH.
  - inversion F as [|? ? F1 F2]; subst. apply Forall_app in F2. destruct F2 as (F2 & F3). inversion F3; subst.
    rewrite ttxt_cons, ttxt_app, ttxt_cons, <- !app_assoc.
    change (bs "<" ++ (if teq (bs "<") "." then [] else [" "%char]) ++ ttxt b ++ bs ">" ++ (if teq (bs ">") "." then [] else [" "%char]) ++ ttxt ts ++ k)
      with ("<"%char :: " "%char :: ttxt b ++ ">"%char :: " "%char :: ttxt ts ++ k).
    cbn [skipeq]. rewrite !andb_false_l.
    change (skipeq (ttxt b ++ ">"%char :: " "%char :: ttxt ts ++ k) (n + 1) = skipeq k n).
    rewrite IH1 by (assumption || lia). cbn [skipeq]. replace (n + 1 =? 0)%Z with false by lia. rewrite andb_false_r.
    change (skipeq (ttxt ts ++ k) (n + 1 - 1) = skipeq k n). replace (n + 1 - 1)%Z with n by lia. now apply IH2.
Qed.
Lemma skipeq_default d : default d -> forall k, skipeq (ttxt d ++ k) 0 = skipeq k 0.
Proof.
  induction 1 as [|t ts T _ IH|b ts B F _ IH]; intros k; [reflexivity| |].
  - rewrite ttxt_cons, <- !app_assoc. transitivity (skipeq ((if teq t "." then [] else [" "%char]) ++ ttxt ts ++ k) 0).
    + generalize ((if teq t "." then [] else [" "%char]) ++ ttxt ts ++ k) as r. intros r. induction T as [|c t [H1 H2] _ IHt]; [reflexivity|].
      cbn [app skipeq]. rewrite H2. destruct (noangle _ H1) as [-> ->]. exact IHt.
    + rewrite skipeq_sp. apply IH.
  - rewrite ttxt_cons, ttxt_app, ttxt_cons, <- !app_assoc.
    change (bs "<" ++ (if teq (bs "<") "." then [] else [" "%char]) ++ ttxt b ++ bs ">" ++ (if teq (bs ">") "." then [] else [" "%char]) ++ ttxt ts ++ k)
      with ("<"%char :: " "%char :: ttxt b ++ ">"%char :: " "%char :: ttxt ts ++ k).
    change (skipeq ("<"%char :: " "%char :: ttxt b ++ ">"%char :: " "%char :: ttxt ts ++ k) 0) with (skipeq (ttxt b ++ ">"%char :: " "%char :: ttxt ts ++ k) (0 + 1)).
    rewrite skipeq_in by (assumption || lia).
    change (skipeq (">"%char :: " "%char :: ttxt ts ++ k) (0 + 1)) with (skipeq (ttxt ts ++ k) 0). apply IH.
Qed.
Lemma ext_dparam p : dparam_ok p -> forall f k r t0 c, (c = ">"%char \/ c = ","%char) ->
  room f (" "%char :: ttxt (dparam_toks p) ++ c :: " "%char :: k) ->
  exists f', ext f (" "%char :: ttxt (dparam_toks p) ++ c :: " "%char :: k) r t0 [] = ext f' (" "%char :: k) (r ++ arg (dp p) ++ [c]) [] [] /\ room f' (" "%char :: k).
Proof.
  intros (P & D) f k r t0 c C R. unfold dparam_toks in *. destruct (dd p) as [d|]; [|rewrite app_nil_r in *; now apply ext_param].
  destruct P as (F & ND & NE & NM). unfold param_toks in *. rewrite !ttxt_app, <- !app_assoc in *.
  destruct (ext_type _ F ND f _ r t0 [] R) as (f1 & t1 & -> & R1). clear R.
  set (k' := ttxt (bs "=" :: d) ++ c :: " "%char :: k) in *.
  assert (DD : exists f2 t2, ext f1 (" "%char :: ttxt (if pdots (dp p) then [bs "..."] else []) ++ ttxt [pname (dp p)] ++ k') r t1 []
    = ext f2 (" "%char :: ttxt [pname (dp p)] ++ k') r t2 (if pdots (dp p) then bs "..." else []) /\ room f2 (" "%char :: ttxt [pname (dp p)] ++ k')).
  { destruct (pdots (dp p)); [|exists f1, t1; auto].
    destruct (ext_ptok PDots Logic.I f1 _ r t1 [] R1) as (f2 & t2 & E & R2 & _). exists f2, t2. auto. }
  destruct DD as (f2 & t2 & -> & R2).
  destruct (ext_ptok (PId (pname (dp p))) (conj NE NM) f2 _ r t2 (if pdots (dp p) then bs "..." else []) R2) as (f3 & t3 & E & R3 & T).
  cbn [ptoks dots_of] in E. rewrite app_nil_r in E. rewrite E. rewrite (T _ eq_refl).
  unfold room in R3. unfold k' in *. rewrite ttxt_cons in *. change (teq (bs "=") ".") with false in *. cbv iota in *. rewrite <- !app_assoc in *. cbn [bs list_ascii_of_string app] in *.
  cbn [length] in R3. rewrite app_length in R3. cbn [length] in R3.
  destruct f3 as [|f3]; [lia|]. exists f3. split; [|unfold room; cbn [length]; lia].
  rewrite ext_sp by reflexivity.
  change (pname (dp p) ++ (if pdots (dp p) then bs "..." else [])) with (arg (dp p)).
  match goal with |- ext (S f3) ?L r ?P ?Q = _ => change (ext (S f3) L r P Q) with
    (match skipeq (ttxt d ++ c :: " "%char :: k) 0 with
     | Some (e, l'') => if ceq e zero then None else ext f3 l'' (r ++ P ++ Q ++ [e]) [] []
     | None => None end) end.
  rewrite (skipeq_default d D). unfold arg. rewrite <- !app_assoc. destruct C; subst c; reflexivity.
Qed.
(** Default arguments, with template arguments nested to any depth, are left out of the
    list of arguments. *)
Theorem C66_defaults : forall ps, ps <> [] -> Forall dparam_ok ps ->
  extract_targs (ttxt (bs "<" :: dparams_toks ps ++ [bs ">"])) = Some (bs "<" ++ args (map dp ps) ++ bs ">").
Proof.
  intros ps NE F. rewrite ttxt_cons, ttxt_app. change (teq (bs "<") ".") with false. change (ttxt [bs ">"]) with (bs "> ").
  unfold extract_targs. cbn [bs list_ascii_of_string app].
  enough (G : forall ps, ps <> [] -> Forall dparam_ok ps -> forall f r t0, room f (" "%char :: ttxt (dparams_toks ps) ++ bs "> ") ->
     ext f (" "%char :: ttxt (dparams_toks ps) ++ bs "> ") r t0 [] = Some (r ++ args (map dp ps) ++ bs ">")).
  { refine (G ps NE F _ (bs "<") [] _). unfold room. cbn. lia. }
  clear ps NE F. induction ps as [|p ps IH]; intros NE F f r t0 R; [congruence|]. inversion F; subst.
  destruct ps as [|q ps].
  - cbn [dparams_toks args map] in *.
    change (bs "> ") with (">"%char :: " "%char :: []) in *.
    destruct (ext_dparam p H1 f [] r t0 ">"%char (or_introl eq_refl) R) as (f' & -> & R').
    unfold room in R'. cbn [length] in R'. destruct f' as [|f']; [lia|]. reflexivity.
  - change (dparams_toks (p :: q :: ps)) with (dparam_toks p ++ bs "," :: dparams_toks (q :: ps)) in *.
    change (args (map dp (p :: q :: ps))) with (arg (dp p) ++ bs "," ++ args (map dp (q :: ps))).
    rewrite ttxt_app, ttxt_cons in *. change (teq (bs ",") ".") with false in *. cbv iota in *. rewrite <- !app_assoc in *.
    change (bs "," ++ [" "%char] ++ ttxt (dparams_toks (q :: ps)) ++ bs "> ") with (","%char :: " "%char :: ttxt (dparams_toks (q :: ps)) ++ bs "> ") in *.
    destruct (ext_dparam p H1 f _ r t0 ","%char (or_intror eq_refl) R) as (f' & -> & R').
    rewrite (IH ltac:(discriminate) H2 f' (r ++ arg (dp p) ++ [","%char]) [] R'). f_equal. now rewrite <- !app_assoc.
Qed.
Example C66_defaults_ex :
  let p d n := {| dp := {| ptype := [PId (bs "class")]; pdots := false; pname := bs n |}; dd := d |} in
  let ps := [p None "T"; p (Some (map bs ["map"; "<"; "T"; ","; "P"; "<"; "T"; ">"; ">"]%string)) "C"]%string in
  Forall dparam_ok ps /\ extract_targs (bs "< class T , class C = map < T , P < T > > > ") = Some (bs "<T,C>").
Proof.
  split; [|vm_compute; reflexivity].
  assert (NM : forall t, forallb isident t = true -> Forall (fun c => isident c = true) t) by (intros t H; apply Forall_forall, forallb_forall, H).
  assert (PO : forall n, bs n <> [] -> forallb isident (bs n) = true -> param_ok {| ptype := [PId (bs "class")]; pdots := false; pname := bs n |}).
  { intros n N H. split; [|split; [|split; [exact N|now apply NM]]].
    - repeat constructor; try discriminate.
    - intros [X|[]]; discriminate. }
  constructor; [split; [apply PO; [discriminate|reflexivity]|exact Logic.I]|].
  constructor; [split; [apply PO; [discriminate|reflexivity]|]|constructor]. cbn [dd map].
  apply d_tok; [repeat constructor; reflexivity|].
  apply (d_group (map bs ["T"; ","; "P"; "<"; "T"; ">"]%string) []); [..|apply d_nil].
  - cbn [map]. do 3 (apply bal_tok; [discriminate|discriminate|]). apply (bal_nest _ _ [bs "T"] []); [|constructor].
    apply bal_tok; [discriminate|discriminate|constructor].
  - cbn [map]. repeat (constructor; [first [left; reflexivity|right; left; reflexivity|right; right; repeat constructor; reflexivity]|]). constructor.
Qed.
Print Assumptions C66_defaults.
(** A comma inside parentheses ends a default argument: what follows is taken for another
    parameter. *)
Theorem C66_paren_refuted : exists targs, targs = bs "< class T = decltype ( f ( 1 , 2 ) ) , class U > " /\ extract_targs targs = Some (bs "<T,,U>").
Proof. eexists. split; [reflexivity|]. vm_compute. reflexivity. Qed.
Print Assumptions C66_paren_refuted.
End C66.

(** ** C73: the template arguments of a member class template of a class template *)
Section C73.
Import Desc_Model Tok_Model Parse_Model Parse_Props ClassParse_Model.
Lemma find_gt : forall a b k, ~ In ">"%char a -> find_at (bs ">") (a ++ ">"%char :: b) k = Some (k + length a)%nat.
Proof.
  induction a as [|c a IH]; intros b k N; cbn [app find_at].
  - change (starts (bs ">") (">"%char :: b)) with true. cbv iota. f_equal. cbn [length]. lia.
  - destruct (starts (bs ">") (c :: a ++ ">"%char :: b)) eqn:E.
    + exfalso. apply startsP in E. destruct E as (z & E). apply N. left. change (bs ">" ++ z) with (">"%char :: z) in E. congruence.
    + rewrite IH by (intros X; apply N; now right). f_equal. cbn [length]. lia.
Qed.
(** Both lists of arguments are made one; what follows the first '>' of either is left out. *)
Theorem C73_merge : forall c a x b y, ~ In ">"%char a -> ~ In ">"%char b -> c <> ">"%char ->
  merge_targs (c :: a ++ ">"%char :: x) (c :: b ++ ">"%char :: y) = c :: a ++ ","%char :: b ++ bs ">".
Proof.
  intros c a x b y NA NB NC.
  assert (P : forall a x, ~ In ">"%char a -> pos_gt (c :: a ++ ">"%char :: x) = S (length a)).
  { intros a0 x0 N. unfold pos_gt, find_from. cbn [Nat.leb skipn]. change (c :: a0 ++ ">"%char :: x0) with ((c :: a0) ++ ">"%char :: x0).
    rewrite find_gt; [reflexivity|]. intros [H|H]; [congruence|contradiction]. }
  unfold merge_targs. rewrite !P by assumption. cbn [skipn].
  replace (c :: a ++ ">"%char :: x) with ((c :: a) ++ ">"%char :: x) by reflexivity.
  rewrite firstn_app, Nat.sub_diag. cbn [length]. rewrite firstn_all2 by (cbn [length]; lia).
  replace (S (length b)) with (length b + 1)%nat by lia. rewrite firstn_app_2. cbn [length Nat.sub firstn]. rewrite app_nil_r. reflexivity.
Qed.
Example C73_merge_ex : merge_targs (bs "<T>") (bs "<U,V>") = bs "<T,U,V>".
Proof. exact (C73_merge "<"%char (bs "T") [] (bs "U,V") [] ltac:(intros [H|[]]; discriminate) ltac:(intros [H|[H|[H|[]]]]; discriminate) ltac:(discriminate)). Qed.
Print Assumptions C73_merge.
End C73.

(** ** C89: a char is a number in a list *)
Section C89.
Import Json_Model PyBuf_Model.
Theorem C89_char_value : forall valid c h, exists z, newpy valid TChar (VC c) h = alloc (PInt z) h /\
  (- 128 <= z < 128)%Z /\ (z mod 256 = Z.of_N (N_of_ascii c))%Z.
Proof.
  intros valid c h. exists (schar c). split; [reflexivity|].
  destruct c as [[] [] [] [] [] [] [] []]; vm_compute; (split; [split; [discriminate|reflexivity]|reflexivity]).
Qed.
Example C89_char_value_ex : newpy (fun _ => true) TChar (VC "255"%char) [] = alloc (PInt (-1)) [].
Proof. reflexivity. Qed.
Print Assumptions C89_char_value.
End C89.

(** * The type names and the tables of enumerators in the generated text: C78, C79 *)
From Verif Require Import Base Base_Proofs SMap Dec Desc_Model Tok_Model Parse_Model Parse_Props Ns_Props ClassParse_Model ClassParse_Spec ClassFile_Spec ClassParse_Props Gen_Model GenPP_Props Gen_Props GenFile_Props GenTd_Props.

(** ** C78: a template parameter list, as get_template_args records it (classdesc.cc:1388-1426) *)
Inductive tparam :=
| TType (kw name : tok)      (* class T *)
| TPack (kw name : tok)      (* class ... T *)
| TValue (text : tok).       (* int N, with a blank after each token *)
Definition par_text (p : tparam) : tok :=
  match p with
  | TType k n => k ++ bs " " ++ n ++ bs " "
  | TPack k n => k ++ bs " ... " ++ n ++ bs " "
  | TValue t => t ++ bs " "
  end.
(** the C++ expression for the name of each parameter, inside a string literal *)
Definition par_name (p : tparam) : tok :=
  match p with
  | TType _ n => bs """+typeName<" ++ n ++ bs ">()+"" "
  | TPack _ n => bs """+varTn<" ++ n ++ bs "...>()+"" "
  | TValue t => t ++ bs " "
  end.
Definition par_ok (p : tparam) : Prop :=
  match p with
  | TType k n | TPack k n => (k = bs "class" \/ k = bs "typename") /\ word n
  | TValue t => ~ contains "class" t /\ ~ contains "typename" t
  end.
Fixpoint commas (l : list tok) : tok :=
  match l with [] => [] | [x] => x | x :: l => x ++ bs ", " ++ commas l end.
Definition params_text (ps : list tparam) : tok := bs "< " ++ commas (map par_text ps) ++ bs "> ".
Definition params_name (ps : list tparam) : tok := bs "< " ++ commas (map par_name ps) ++ bs "> ".

(** *** searching *)
Notation sp := " "%char.
Definition closed (l : tok) : Prop := l = [] \/ exists l', l = l' ++ [sp].
(** an occurrence in [a ++ b], where [a] ends with a blank, lies in one of them *)
Lemma straddle s a b x y : ~ In sp s -> closed a -> a ++ b = x ++ s ++ y -> occ s a \/ (length a <= length x)%nat.
Proof.
  intros NS CL E. destruct (Nat.le_gt_cases (length a) (length x)) as [L|L]; [auto|]. left.
  assert (X : exists a2, a = x ++ a2 /\ a2 ++ b = s ++ y).
  { clear - E L. revert x E L. induction a as [|c a IH]; intros [|d x] E L; cbn [length app] in *; try lia; [eauto|].
    injection E as <- E. destruct (IH x E) as (a2 & -> & E2); [lia|]. eauto. }
  destruct X as (a2 & -> & E2). assert (NE : a2 <> []) by (intros ->; rewrite app_nil_r in L; lia).
  assert (Y : (exists w, a2 = s ++ w) \/ (exists w, s = a2 ++ w)).
  { clear - E2. revert a2 E2. induction s as [|c s IH]; intros [|d a2] E2; cbn [app] in *; [left; exists []; reflexivity|left; eauto|right; eauto|].
    injection E2 as -> E2. destruct (IH a2 E2) as [(w & ->)|(w & ->)]; [left|right]; exists w; reflexivity. }
  destruct Y as [(w & ->)|(w & ->)]; [exists x, w; reflexivity|]. exfalso. destruct CL as [CL|(l' & CL)]; [destruct x; [now apply NE|discriminate]|].
  apply NS. apply in_or_app. left. destruct (exists_last NE) as (a3 & c & ->). rewrite app_assoc in CL. apply app_inj_tail in CL. destruct CL as (_ & <-).
  apply in_or_app. right. left. reflexivity.
Qed.
Definition good (l : tok) : Prop := closed l /\ ~ occ (bs "class") l /\ ~ occ (bs "typename") l.
Lemma closed_app a b : closed a -> closed b -> closed (a ++ b).
Proof. intros A [->|(b' & ->)]; [now rewrite app_nil_r|]. right. exists (a ++ b'). now rewrite app_assoc. Qed.
Lemma occ_app s a b : ~ In sp s -> closed a -> occ s (a ++ b) -> occ s a \/ occ s b.
Proof.
  intros NS CL (x & y & E). destruct (straddle s a b x y NS CL E) as [H|H]; [auto|]. right.
  assert (X : exists x2, x = a ++ x2 /\ b = x2 ++ s ++ y).
  { clear - E H. revert x E H. induction a as [|c a IH]; intros [|d x] E H; cbn [length app] in *; try lia; [eauto|eauto|]. injection E as <- E. destruct (IH x E) as (x2 & -> & E2); [lia|]. eauto. }
  destruct X as (x2 & -> & ->). exists x2, y. reflexivity.
Qed.
Ltac nosp := let H := fresh in intros H; vm_compute in H; intuition discriminate.
Lemma good_app a b : good a -> good b -> good (a ++ b).
Proof.
  intros (A1 & A2 & A3) (B1 & B2 & B3). split; [now apply closed_app|]. split; intros X; apply occ_app in X; try tauto; nosp.
Qed.
Lemma idx_occ s l : idx s l = None <-> ~ occ (bs s) l.
Proof. unfold idx, find_from. cbn [Nat.leb skipn]. apply find_at_none. Qed.
(** the first occurrence is at the end of [pre], or not before it *)
Lemma idx_here s pre b : ~ In sp (bs s) -> closed pre -> ~ occ (bs s) pre -> idx s (pre ++ bs s ++ b) = Some (length pre).
Proof.
  intros NS CL NO. unfold idx, find_from. cbn [Nat.leb skipn]. rewrite (find_first _ _ pre b); [reflexivity|].
  split; [reflexivity|]. intros a' b' E. destruct (straddle _ _ _ _ _ NS CL E) as [H|H]; [contradiction|lia].
Qed.
Lemma idx_after s pre l : ~ In sp (bs s) -> closed pre -> ~ occ (bs s) pre -> match idx s (pre ++ l) with Some j => (length pre <= j)%nat | None => True end.
Proof.
  intros NS CL NO. unfold idx, find_from. cbn [Nat.leb skipn]. destruct (find_at (bs s) (pre ++ l) 0) as [j|] eqn:E; [|auto].
  apply find_at_some in E. destruct E as (a & b & (E & _) & ->). destruct (straddle _ _ _ _ _ NS CL E) as [H|H]; [contradiction|lia].
Qed.
Lemma first_kw k pre b : good pre -> k = bs "class" \/ k = bs "typename" -> let l := pre ++ k ++ b in
  let j := match idx "class" l with Some j => j | None => length l end in
  match idx "typename" l with Some jj => Nat.min j jj | None => j end = length pre.
Proof.
  intros (CL & NC & NT) H. cbv zeta. destruct H as [-> | ->].
  - rewrite idx_here by (auto; nosp). pose proof (idx_after "typename" pre (bs "class" ++ b) ltac:(nosp) CL NT) as X. destruct (idx "typename" _); [lia|reflexivity].
  - rewrite (idx_here "typename") by (auto; nosp). pose proof (idx_after "class" pre (bs "typename" ++ b) ltac:(nosp) CL NC) as X. destruct (idx "class" _); [lia|].
    rewrite app_length. lia.
Qed.
Lemma word_char n c : word n -> In c n -> isident c = true /\ ceq c "<" = false /\ ceq c ">" = false /\ blank c = false /\ ceq c "." = false.
Proof.
  intros (_ & F) IN. rewrite Forall_forall in F. specialize (F c IN).
  assert (G : forallb (fun n => let c := ascii_of_nat n in negb (letter c || ((48 <=? n) && (n <=? 57))%nat) || (isident c && negb (ceq c "<" || ceq c ">" || blank c || ceq c ".")))%bool (seq 0 256) = true) by (vm_compute; reflexivity).
  rewrite forallb_forall in G. specialize (G (nat_of_ascii c)). cbv zeta in G. rewrite ascii_nat_embedding in G.
  assert (L : In (nat_of_ascii c) (seq 0 256)). { apply in_seq. pose proof (nat_ascii_bounded c). lia. }
  specialize (G L). replace (letter c || ((48 <=? nat_of_ascii c) && (nat_of_ascii c <=? 57))%nat)%bool with true in G.
  - cbn [negb orb] in G. destruct (isident c), (ceq c "<"), (ceq c ">"), (blank c), (ceq c "."); try discriminate G; auto.
  - symmetry. destruct F as [->|(A & B)]; [reflexivity|]. apply Nat.leb_le in A, B. rewrite A, B. apply Bool.orb_true_r.
Qed.
Lemma tn_word n r : word n -> tn_name (n ++ sp :: r) 0 = (n, sp :: r).
Proof.
  intros W. assert (F : forall c, In c n -> isident c = true /\ ceq c "<" = false /\ ceq c ">" = false).
  { intros c IN. pose proof (word_char n c W IN). tauto. }
  clear W. induction n as [|c n IH]; [reflexivity|]. cbn [app tn_name]. destruct (F c (or_introl eq_refl)) as (A & B & C). rewrite A, B, C. cbn [orb].
  rewrite IH; [reflexivity|]. intros x X. apply F. right. exact X.
Qed.
Lemma word_head n : word n -> exists c n', n = c :: n' /\ blank c = false /\ ceq c "." = false.
Proof.
  intros W. destruct n as [|c n']; [destruct W; discriminate|]. exists c, n'. split; [reflexivity|]. pose proof (word_char _ c W (or_introl eq_refl)). tauto.
Qed.
Lemma dropw_no p l : (forall c l', l = c :: l' -> p c = false) -> dropw p l = l.
Proof. destruct l as [|c l]; [reflexivity|]. intros H. cbn [dropw]. now rewrite (H c l eq_refl). Qed.
Lemma drop_kw k r : k = bs "class" \/ k = bs "typename" -> dropw (fun c => negb (blank c || ceq c ".")) (k ++ sp :: r) = sp :: r.
Proof. intros [-> | ->]; reflexivity. Qed.
Lemma tn_type f k n pre r : good pre -> k = bs "class" \/ k = bs "typename" -> word n ->
  tn_loop (S f) (pre ++ k ++ sp :: n ++ sp :: r) = match tn_loop f (sp :: r) with None => None | Some t => Some (pre ++ (bs """+typeName<" ++ n ++ bs ">()+""") ++ t) end.
Proof.
  intros G K W. cbn [tn_loop]. destruct (pre ++ k ++ sp :: n ++ sp :: r) as [|c0 l0] eqn:E; [destruct pre, K as [-> | ->]; discriminate|]. rewrite <- E. clear E c0 l0.
  pose proof (first_kw k pre (sp :: n ++ sp :: r) G K) as J. cbv zeta in J. cbv zeta. rewrite J. rewrite firstn_app, Nat.sub_diag, firstn_O, app_nil_r, firstn_all, skipn_app_exact, drop_kw by exact K.
  destruct (word_head n W) as (c & n' & -> & B & D). rewrite <- !app_comm_cons.
  assert (X : dropw blank (sp :: c :: n' ++ sp :: r) = c :: n' ++ sp :: r). { change (dropw blank (sp :: ?l)) with (dropw blank l). apply dropw_no. intros ? ? [= -> _]. exact B. }
  rewrite X. rewrite (dropw_no (fun c => (blank c || ceq c ".")%bool)) by (intros ? ? [= <- _]; now rewrite B, D).
  rewrite app_comm_cons, tn_word by exact W. destruct (tn_loop f (sp :: r)); [|reflexivity].
  destruct (starts (bs "...") ((c :: n') ++ sp :: r)) eqn:ST; [|reflexivity]. apply startsP in ST. destruct ST as (b & ST). injection ST as -> _. discriminate D.
Qed.
Lemma tn_pack f k n pre r : good pre -> k = bs "class" \/ k = bs "typename" -> word n ->
  tn_loop (S f) (pre ++ k ++ sp :: bs "... " ++ n ++ sp :: r) = match tn_loop f (sp :: r) with None => None | Some t => Some (pre ++ (bs """+varTn<" ++ n ++ bs "...>()+""") ++ t) end.
Proof.
  intros G K W. cbn [tn_loop]. destruct (pre ++ k ++ sp :: bs "... " ++ n ++ sp :: r) as [|c0 l0] eqn:E; [destruct pre, K as [-> | ->]; discriminate|]. rewrite <- E. clear E c0 l0.
  pose proof (first_kw k pre (sp :: bs "... " ++ n ++ sp :: r) G K) as J. cbv zeta in J. cbv zeta. rewrite J. rewrite firstn_app, Nat.sub_diag, firstn_O, app_nil_r, firstn_all, skipn_app_exact, drop_kw by exact K.
  destruct (word_head n W) as (c & n' & -> & B & D).
  assert (X : dropw blank (sp :: bs "... " ++ (c :: n') ++ sp :: r) = bs "... " ++ (c :: n') ++ sp :: r) by reflexivity.
  rewrite X. destruct (bs "... " ++ (c :: n') ++ sp :: r) as [|x0 y0] eqn:E; [discriminate|]. rewrite <- E. clear E J X x0 y0.
  change (dropw (fun c => (blank c || ceq c ".")%bool) (bs "... " ++ (c :: n') ++ sp :: r)) with (dropw (fun c => (blank c || ceq c ".")%bool) ((c :: n') ++ sp :: r)).
  rewrite (dropw_no (fun c => (blank c || ceq c ".")%bool)) by (intros ? ? [= <- _]; now rewrite B, D).
  rewrite (proj2 (startsP (bs "...") (bs "... " ++ (c :: n') ++ sp :: r))) by (exists (sp :: (c :: n') ++ sp :: r); reflexivity). rewrite <- app_comm_cons. rewrite app_comm_cons. rewrite tn_word by exact W. reflexivity.
Qed.
Lemma tn_end f l : ~ occ (bs "class") l -> ~ occ (bs "typename") l -> tn_loop (S f) l = Some l.
Proof.
  intros A B. cbn [tn_loop]. destruct l as [|c0 l0] eqn:E; [reflexivity|]. rewrite <- E in *. clear E c0 l0. apply idx_occ in A, B. rewrite A, B. now rewrite skipn_all, firstn_all.
Qed.
Lemma good_sep : good (bs " ") /\ good (bs ", ") /\ good (bs " , ") /\ good (bs "> ") /\ good (bs "< ").
Proof.
  assert (X : forall l, closed l -> has "class" l = false -> has "typename" l = false -> good l).
  { intros l C A B. split; [exact C|]. unfold has in *. split; apply idx_occ; [destruct (idx "class" l)|destruct (idx "typename" l)]; congruence. }
  split; [apply X; [right; exists []|..]; reflexivity|]. split; [apply X; [right; exists (bs ",")|..]; reflexivity|].
  split; [apply X; [right; exists (bs " ,")|..]; reflexivity|]. split; [apply X; [right; exists (bs ">")|..]; reflexivity|apply X; [right; exists (bs "<")|..]; reflexivity].
Qed.
Definition sep (ps : list tparam) : tok := match ps with [] => [] | _ => bs ", " end.
Lemma commas_cons (h : tparam -> tok) p ps : commas (map h (p :: ps)) = h p ++ sep ps ++ commas (map h ps).
Proof. destruct ps; cbn [map commas sep app]; [now rewrite app_nil_r|reflexivity]. Qed.
Lemma good_value t : ~ contains "class" t -> ~ contains "typename" t -> good (t ++ bs " ").
Proof.
  assert (X : forall s, ~ In sp (bs s) -> bs s <> [] -> occ (bs s) (t ++ bs " ") -> occ (bs s) t).
  { intros s NS NE (a & b & E). destruct b as [|c b _] using rev_ind.
    - exfalso. destruct (exists_last NE) as (u & v & EV). rewrite EV in E, NS. rewrite app_nil_r, app_assoc in E. apply (app_inj_tail t _ " "%char v) in E. destruct E as (_ & <-).
      apply NS. apply in_or_app. right. left. reflexivity.
    - rewrite !app_assoc in E. apply (app_inj_tail t _ " "%char c) in E. destruct E as (-> & _). exists a, b. now rewrite app_assoc. }
  intros A B. split; [right; exists t; reflexivity|]. split; intros Y; apply X in Y; try (now nosp); try discriminate; contradiction.
Qed.
Lemma tn_params ps : Forall par_ok ps -> forall pre f, good pre -> (length (pre ++ commas (map par_text ps) ++ bs "> ") <= f)%nat ->
  tn_loop f (pre ++ commas (map par_text ps) ++ bs "> ") = Some (pre ++ commas (map par_name ps) ++ bs "> ").
Proof.
  induction ps as [|p ps IH]; intros F pre f G L.
  - cbn [map commas app] in *. destruct f as [|f]; [rewrite app_length in L; cbn in L; lia|]. pose proof (good_app _ _ G (proj1 (proj2 (proj2 (proj2 good_sep))))) as (_ & A & B). now apply tn_end.
  - inversion F as [|? ? P F']; subst. rewrite !commas_cons in *. assert (GS : good (sp :: sep ps)) by (destruct ps; apply good_sep).
    destruct p as [k n|k n|t]; cbn [par_text par_name par_ok] in *.
    + destruct P as (K & W). replace (pre ++ ((k ++ bs " " ++ n ++ bs " ") ++ sep ps ++ commas (map par_text ps)) ++ bs "> ") with (pre ++ k ++ sp :: n ++ sp :: (sep ps ++ commas (map par_text ps) ++ bs "> ")) in *
        by (cbn [bs list_ascii_of_string app]; rewrite <- !app_assoc; cbn [app]; rewrite <- !app_assoc; reflexivity).
      destruct f as [|f]; [rewrite !app_length in L; cbn [length] in L; lia|].
      rewrite tn_type by assumption. rewrite app_comm_cons, IH; [|exact F'|exact GS|rewrite !app_length in *; cbn [length] in *; rewrite !app_length in *; cbn [length] in *; rewrite !app_length in *; cbn [length] in *; lia].
      f_equal. change (bs """+typeName<" ++ n ++ bs ">()+"" ") with (bs """+typeName<" ++ n ++ bs ">()+""" ++ bs " ").
      change ((sp :: sep ps) ++ commas (map par_name ps) ++ bs "> ") with (bs " " ++ sep ps ++ commas (map par_name ps) ++ bs "> "). now rewrite <- !app_assoc.
    + destruct P as (K & W). replace (pre ++ ((k ++ bs " ... " ++ n ++ bs " ") ++ sep ps ++ commas (map par_text ps)) ++ bs "> ") with (pre ++ k ++ sp :: bs "... " ++ n ++ sp :: (sep ps ++ commas (map par_text ps) ++ bs "> ")) in *
        by (cbn [bs list_ascii_of_string app]; rewrite <- !app_assoc; cbn [app]; rewrite <- !app_assoc; reflexivity).
      destruct f as [|f]; [rewrite !app_length in L; cbn [length] in L; lia|].
      rewrite tn_pack by assumption. rewrite app_comm_cons, IH; [|exact F'|exact GS|repeat (rewrite !app_length in *; cbn [length] in * ); lia].
      f_equal. change (bs """+varTn<" ++ n ++ bs "...>()+"" ") with (bs """+varTn<" ++ n ++ bs "...>()+""" ++ bs " ").
      change ((sp :: sep ps) ++ commas (map par_name ps) ++ bs "> ") with (bs " " ++ sep ps ++ commas (map par_name ps) ++ bs "> "). now rewrite <- !app_assoc.
    + destruct P as (A & B). assert (G2 : good (pre ++ (t ++ bs " ") ++ sep ps)).
      { apply good_app; [exact G|]. apply good_app; [now apply good_value|]. destruct ps; [|apply good_sep]. split; [left; reflexivity|]. split; intros (x & y & E); destruct x; discriminate. }
      replace (pre ++ ((t ++ bs " ") ++ sep ps ++ commas (map par_text ps)) ++ bs "> ") with ((pre ++ (t ++ bs " ") ++ sep ps) ++ commas (map par_text ps) ++ bs "> ") in * by (now rewrite <- !app_assoc).
      rewrite IH by assumption. f_equal. now rewrite <- !app_assoc.
Qed.
Theorem C78_names : forall ps, Forall par_ok ps -> ~ contains "template" (params_text ps) -> tnTempl (params_text ps) = Some (params_name ps).
Proof.
  intros ps F N. unfold tnTempl. rewrite <- has_contains in N. apply Bool.not_true_is_false in N. rewrite N. apply tn_params; [exact F|apply good_sep|]. apply le_n.
Qed.
Print Assumptions C78_names.
Lemma tblock_body m b (p q e : tok) X : Some ([p; q] ++ X ++ [e]) = Some (tblock (m, b)) -> X = b.
Proof. unfold tblock. cbn [fst snd app]. generalize (bs "#ifndef " ++ m) (bs "#define " ++ m) (bs "#endif"). intros u v w [= _ _ H]. now apply app_inj_tail in H. Qed.
(** the text printed for the name of a class template, when its guard is new *)
Theorem C78_printed : forall c g bf ks o orc D l1 a l2 ps k base rest, output c g bf ks = Some o -> g_out g = [] -> tidy g -> typeNm (c_opts c) = true ->
  g_actions g = l1 ++ a :: l2 -> x_templ a = params_text ps -> Forall par_ok ps -> ~ contains "template" (params_text ps) ->
  x_type a = kw k ++ bs " " ++ base ++ bs "<" ++ rest -> ~ In "<"%char base -> ~ In (tguard a) D -> ~ In (tguard a) (tguards l1) ->
  exists K d x y, pp orc D [] (o_std o) = Some (K, d)
  /\ K = x ++ [bs "template " ++ params_text ps ++ bs " struct tn< " ++ base ++ bs "<" ++ rest ++ bs " >"; bs "{"; bs "static std::string name()";
               bs "  {return """ ++ base ++ params_name ps ++ bs """;}"; bs "};"] ++ y.
Proof.
  intros c g bf ks o orc D l1 a l2 ps k base rest OUT GO TD TN SP TP OK NT TY NB ND NP.
  destruct (C74_once c g bf ks o orc D OUT GO TD) as (K & d & PP & _ & _ & NM). exists K, d.
  assert (Q : type_qualifier (x_type a) = kw k) by (rewrite TY; apply qual_kw). assert (W : without_type_qualifier (x_type a) = base ++ bs "<" ++ rest) by (rewrite TY; apply wo_kw).
  assert (NQ : type_qualifier (x_type a) <> bs "typename") by (rewrite Q; destruct k; discriminate).
  destruct (NM TN l1 a l2 SP NQ ND NP) as (x & y & body & TL & ->). unfold tn_lines in TL. rewrite TP, C78_names in TL by assumption. rewrite W, Q in TL.
  assert (E1 : teq (kw k) "typename" = false) by (destruct k; reflexivity). rewrite E1 in TL. clear E1.
  assert (E2 : templated a = true) by (unfold templated; rewrite TP; reflexivity). rewrite E2 in TL. clear E2.
  assert (E3 : leadeq (x_type a) "enum" = false). { unfold leadeq. destruct (starts (bs "enum") (x_type a)) eqn:E; [|reflexivity]. apply startsP in E. destruct E as (b & E). rewrite TY in E. destruct k; discriminate. }
  rewrite E3 in TL. clear E3. cbv zeta in TL.
  assert (E4 : idx "<" (base ++ bs "<" ++ rest) = Some (length base)).
  { unfold idx, find_from. cbn [Nat.leb skipn]. rewrite (find_first _ _ base rest); [reflexivity|]. split; [reflexivity|]. intros a' b' E. destruct (Nat.le_gt_cases (length base) (length a')) as [L|L]; [exact L|].
    exfalso. apply NB. clear - E L. revert a' E L. induction base as [|c0 base IH]; intros [|d0 a'] E L; cbn [app length] in *; try lia; injection E as <- E; [left; reflexivity|right; apply (IH a'); [exact E|lia]]. }
  rewrite E4, firstn_app, Nat.sub_diag, firstn_O, app_nil_r, firstn_all in TL.
  rewrite ?app_nil_r in TL. apply tblock_body in TL. subst body. exists (x ++ [bs "namespace classdesc {"]), ([bs "}"] ++ y). split; [exact PP|].
  unfold in_ns. rewrite <- !app_assoc. reflexivity.
Qed.
Print Assumptions C78_printed.
Example C78_ex : exists g o l1 a l2, of_text plain_opts "template <class T, int N, typename... U> struct S { T x; }; " = Some g /\ output names_on g none [bs "pack"] = Some o
  /\ g_actions g = l1 ++ a :: l2 /\ x_templ a = params_text [TType (bs "class") (bs "T"); TValue (bs "int N"); TPack (bs "typename") (bs "U")]
  /\ x_type a = kw false ++ bs " " ++ bs "::S" ++ bs "<" ++ bs "T,N,U...>"
  /\ shown (params_name [TType (bs "class") (bs "T"); TValue (bs "int N"); TPack (bs "typename") (bs "U")]) = "< ""+typeName<T>()+"" , int N , ""+varTn<U...>()+"" > "%string
  /\ Forall par_ok [TType (bs "class") (bs "T"); TValue (bs "int N"); TPack (bs "typename") (bs "U")]
  /\ ~ contains "template" (params_text [TType (bs "class") (bs "T"); TValue (bs "int N"); TPack (bs "typename") (bs "U")]).
Proof.
  eexists _, _, [], _, []. split; [vm_compute; reflexivity|]. split; [vm_compute; reflexivity|]. split; [reflexivity|]. split; [vm_compute; reflexivity|]. split; [vm_compute; reflexivity|].
  split; [reflexivity|]. split; [|rewrite <- has_contains; vm_compute; discriminate].
  repeat constructor; try (now left); try (now right); try (left; reflexivity); rewrite <- has_contains; vm_compute; discriminate.
Qed.
(** a parameter without a name, and a value parameter whose name holds the word class *)
Theorem C78_unnamed_refuted : exists g a, of_text plain_opts "template <class> struct S { int x; }; " = Some g /\ g_actions g = [a]
  /\ option_map shown (tnTempl (x_templ a)) = Some "< ""+typeName<>>()+"" "%string.
Proof. eexists _, _. split; [vm_compute; reflexivity|]. split; reflexivity. Qed.
Theorem C78_value_name_refuted : exists g a, of_text plain_opts "template <int my_class> struct S { int x; }; " = Some g /\ g_actions g = [a]
  /\ option_map shown (tnTempl (x_templ a)) = Some "< int my_""+typeName<>>()+"" "%string.
Proof. eexists _, _. split; [vm_compute; reflexivity|]. split; reflexivity. Qed.

(** ** C79: the table of an enumeration *)
Section Table.
  Variables (sc : bool) (ns name : tok).
  (** the enumerator [k], qualified *)
  Definition enumerator (k : tok) : tok := if sc then ns ++ name ++ bs "::" ++ k else ns ++ k.
  Definition exp_entry (k : tok) : tok := bs "  {""" ++ k ++ bs """,int(" ++ enumerator k ++ bs ")}".
  Fixpoint exp_entries (keys : list tok) : list tok :=
    match keys with [] => [] | [k] => [exp_entry k] | k :: ks => (exp_entry k ++ bs ",") :: exp_entries ks end.
  Definition exp_table (keys : list tok) : list tok :=
    let n := ns ++ name in
    [bs "template <> inline std::string typeName< " ++ n ++ bs " >()"; bs "  {return """ ++ n ++ bs """;}"; bs "namespace   {";
     bs "template <> EnumKey enum_keysData< " ++ n ++ bs " >::keysData[]="; bs " {"] ++ exp_entries keys
    ++ [bs " };";
        bs "template <> EnumKeys< " ++ n ++ bs " > enum_keysData< " ++ n ++ bs " >::keys(enum_keysData< " ++ n ++ bs " >::keysData,sizeof(enum_keysData< "
        ++ n ++ bs " >::keysData)/sizeof(enum_keysData< " ++ n ++ bs " >::keysData[0]));";
        bs "template <> int enumKey< " ++ n ++ bs " >(const std::string& x){return int(enum_keysData< " ++ n ++ bs " >::keys(x));}";
        bs "template <> std::string enumKey< " ++ n ++ bs " >(int x){return enum_keysData< " ++ n ++ bs " >::keys(x);}"; bs "}"].
End Table.
Lemma key_entries sc ns name q keys : (forall k, q ++ bs "::" ++ k = enumerator sc ns name k) -> key_lines q keys = exp_entries sc ns name keys.
Proof.
  intros Q. unfold key_lines. destruct keys as [|k keys _] using rev_ind; [reflexivity|]. rewrite rev_app_distr. cbn [rev app]. rewrite rev_involutive.
  induction keys as [|k0 keys IH]; cbn [map app exp_entries].
  - unfold exp_entry. now rewrite <- Q, <- !app_assoc.
  - rewrite IH. destruct (keys ++ [k]) as [|k1 r] eqn:E; [destruct keys; discriminate|]. f_equal. unfold exp_entry. rewrite <- Q, <- !app_assoc. reflexivity.
Qed.
(** the enumerators recorded for a type that occurs once *)
Lemma at_app {A} key (a b : list (tok * A)) : at_key key (a ++ b) = at_key key a ++ at_key key b.
Proof. unfold at_key. now rewrite filter_app, map_app. Qed.
Lemma at_none {A} key (a : list (tok * A)) : (forall p, In p a -> fst p <> key) -> at_key key a = [].
Proof.
  unfold at_key. induction a as [|p a IH]; intros H; [reflexivity|]. cbn [filter]. destruct (beq (fst p) key) eqn:B; [apply beq_eq in B; destruct (H p (or_introl eq_refl) B)|].
  apply IH. intros x X. apply H. right. exact X.
Qed.
Lemma at_all key (l : list tok) : at_key key (map (fun k => (key, k)) l) = l.
Proof. unfold at_key. induction l as [|k l IH]; [reflexivity|]. cbn [map filter fst]. rewrite beq_refl. cbn [map snd]. now rewrite IH. Qed.
Lemma enum_type_inj (sc : bool) (n : tok) (sc' : bool) (n' : tok) : (sc = false -> begins "class" n = false) -> (sc' = false -> begins "class" n' = false) ->
  (if sc then bs "enum class " else bs "enum ") ++ n = (if sc' then bs "enum class " else bs "enum ") ++ n' -> sc = sc' /\ n = n'.
Proof.
  intros A B H. destruct sc, sc'; (split; [try reflexivity|]).
  - now apply app_inv_head in H.
  - symmetry in H. destruct (enum_class n' (B eq_refl) (bs " " ++ n)). exact H.
  - symmetry in H. destruct (enum_class n' (B eq_refl) (bs " " ++ n)). now symmetry.
  - destruct (enum_class n (A eq_refl) (bs " " ++ n')). exact H.
  - destruct (enum_class n (A eq_refl) (bs " " ++ n')). exact H.
  - now apply app_inv_head in H.
Qed.
Lemma shape_colons e : ev_shape e -> is_def e = true -> exists x, ev_name e = bs "::" ++ x.
Proof.
  intros SH DF. destruct (def_path e SH DF) as (ws & E & _ & NE). rewrite E. destruct ws as [|w ws]; [congruence|]. unfold path. cbn [map concat]. rewrite <- app_assoc. eauto.
Qed.
Theorem C79_table : forall c bf ks ts e1 sc ns p name keys e2 orc D, overloading (c_opts c) = false -> typeNm (c_opts c) = true ->
  file (use_mbr (c_opts c)) (respect_private (c_opts c)) (bs "::") ts (e1 ++ EvEnum sc ns p name keys :: e2) -> Forall named_ok (e1 ++ EvEnum sc ns p name keys :: e2) -> keys <> [] ->
  (forall sc' ns' p' name' keys', In (EvEnum sc' ns' p' name' keys') (e1 ++ e2) -> sc' <> sc \/ p' ++ name' <> p ++ name) ->
  ~ In (ev_tguard (EvEnum sc ns p name keys)) (D ++ map ev_tguard (defs e1)) ->
  exists g o K d x y, generate (c_opts c) ts = CEof g /\ output c g bf ks = Some o /\ pp orc D [] (o_std o) = Some (K, d)
  /\ K = x ++ exp_table sc p name keys ++ y.
Proof.
  intros c bf ks ts e1 sc ns p name keys e2 orc D OV TN FI NT0 NK UN NG. set (o := c_opts c) in *. set (e := EvEnum sc ns p name keys) in *.
  destruct (C73_file o ts _ OV FI) as (g & GE & GA & GN & _ & GO & GT & _ & _ & _).
  pose proof (file_any0 _ _ _ _ FI) as SH. assert (NA : forall e0, In e0 (e1 ++ e :: e2) -> named_ok e0) by (now apply Forall_forall).
  assert (TPL : x_templ (act_of o e) = []) by (unfold e; destruct sc; reflexivity).
  rewrite actions_defs in GA.
  destruct (names_exist g (g_actions g)) as (tn & TT). { rewrite GA. apply Forall_forall. intros a X. apply in_map_iff in X. destruct X as (e0 & <- & X). apply filter_In in X. destruct X as (X & _). rewrite Forall_forall in SH. apply templ_any. now apply SH. }
  assert (OUT : exists r, output c g bf ks = Some r) by (unfold output; rewrite TT; eauto). destruct OUT as (r & OUT).
  assert (TD : tidy g) by (intros q X; rewrite GO in X; destruct X).
  destruct (C74_once c g bf ks r orc D OUT GT TD) as (K & d & PP & _ & _ & NM).
  rewrite Forall_forall in SH. assert (INE : In e (e1 ++ e :: e2)) by (apply in_or_app; right; left; reflexivity). pose proof (SH e INE) as SE. pose proof (NA e INE) as NE. cbn [named_ok e] in NE.
  assert (WO : without_type_qualifier (x_type (act_of o e)) = p ++ name /\ type_qualifier (x_type (act_of o e)) = if sc then bs "enum class" else bs "enum").
  { unfold act_of, e. cbn [ev_actions hd x_type]. destruct sc; [split; [apply wo_enumc|apply qual_enumc]|]. unfold without_type_qualifier. rewrite (qual_enum2 _ NE). split; reflexivity. }
  destruct WO as (WO & QU).
  assert (DEF : g_actions g = map (act_of o) (defs e1) ++ act_of o e :: map (act_of o) (defs e2)).
  { rewrite GA. unfold defs. rewrite filter_app. cbn [filter is_def e]. now rewrite map_app. }
  rewrite in_app_iff in NG.
  destruct (NM TN _ _ _ DEF) as (x & y & body & TL & EK).
  { rewrite QU. destruct sc; discriminate. }
  { unfold tguard. rewrite WO. fold (ev_name e). intros X. apply NG. left. exact X. }
  { intros X. apply NG. right. unfold tguards in X. apply in_map_iff in X. destruct X as (a & EQ & X). apply filter_In in X. destruct X as (X & _). apply in_map_iff in X. destruct X as (e0 & <- & X).
    apply in_map_iff. exists e0. split; [|exact X]. unfold tguard in EQ. rewrite WO in EQ. unfold ev_tguard. cbn [ev_name e]. rewrite <- EQ. f_equal. f_equal.
    apply filter_In in X. destruct X as (X & DF). symmetry. apply wo_any; [exact DF|]. apply NA, in_or_app. left. exact X. }
  exists g, r, K, d. unfold tn_lines in TL. rewrite TPL, QU, WO in TL. change (tnTempl []) with (Some (@nil ascii)) in TL. cbv iota in TL.
  assert (E1 : teq (if sc then bs "enum class" else bs "enum") "typename" = false) by (destruct sc; reflexivity). rewrite E1 in TL. clear E1.
  assert (E2 : templated (act_of o e) = false) by (unfold templated; now rewrite TPL). rewrite E2 in TL. clear E2.
  set (T := x_type (act_of o e)) in *. assert (ET : T = (if sc then bs "enum class " else bs "enum ") ++ p ++ name) by reflexivity.
  assert (E3 : leadeq T "enum" = true) by (apply startsP; rewrite ET; destruct sc; eexists; reflexivity). rewrite E3 in TL. clear E3. cbv zeta in TL. apply tblock_body in TL. subst body.
  unfold enum_lines in EK. assert (AK : at_key T (g_enums g) = keys).
  { rewrite GN, map_app, concat_app. cbn [map concat]. rewrite !at_app.
    assert (X : forall l, incl l (e1 ++ e2) -> at_key T (concat (map ev_enums l)) = []).
    { intros l IL. apply at_none. intros q X. apply in_concat in X. destruct X as (y0 & Y & X). apply in_map_iff in Y. destruct Y as (e0 & <- & IN). apply IL in IN.
      destruct e0 as [| | | |sc0 ns1 ns0 n0 ks0| | |]; try destruct X. cbn [ev_enums] in X. apply in_map_iff in X. destruct X as (k0 & <- & _). cbn [fst]. rewrite ET. intros EQ.
      assert (N0 : named_ok (EvEnum sc0 ns1 ns0 n0 ks0)). { apply NA. apply in_app_or in IN. apply in_or_app. cbn [In]. tauto. }
      apply enum_type_inj in EQ; [|intros ->; exact N0|intros ->; exact NE]. destruct (UN sc0 ns1 ns0 n0 ks0 IN); tauto. }
    rewrite !X by (intros z Z; apply in_or_app; auto). cbn [app]. rewrite app_nil_r. unfold e. cbn [ev_enums]. rewrite <- ET. apply at_all. }
  rewrite AK in EK.
  assert (EQ : forall k, enum_qual T (p ++ name) ++ bs "::" ++ k = enumerator sc p name k).
  { intros k. unfold enum_qual, enumerator. destruct sc.
    - assert (E : leadeq T "enum class" = true) by (apply startsP; rewrite ET; exists (sp :: p ++ name); reflexivity). rewrite E. now rewrite <- app_assoc.
    - destruct (leadeq T "enum class") eqn:E. { apply startsP in E. destruct E as (z & E). rewrite ET in E. destruct (enum_class _ NE z E). }
      destruct SE as [(_ & (ws & -> & WS) & WN)|(_ & (ws & WE & -> & WS) & WN)]; (assert (NC : ~ In ":"%char name) by (intros X; pose proof (word_chars name _ WN X); tauto)).
      + rewrite <- app_assoc, path_snoc. destruct (path_last ws name NC) as (R & FR). rewrite R, FR. now rewrite <- app_assoc.
      + rewrite <- (app_assoc (rpath ws)), <- rpath_snoc by exact WE. destruct (rpath_last ws name WE NC) as (R & FR). rewrite R, FR. now rewrite <- app_assoc. }
  rewrite (key_entries sc p name _ keys EQ) in EK. destruct keys as [|k0 keys]; [congruence|].
  exists (x ++ [bs "namespace classdesc {"]), ([bs "}"] ++ y). split; [exact GE|]. split; [exact OUT|]. split; [exact PP|]. rewrite EK. unfold in_ns, exp_table.
  repeat (rewrite <- !app_assoc; cbn [app]). reflexivity.
Qed.
Print Assumptions C79_table.
Example C79_ex : exists ts, file true true (bs "::") ts src1_events /\ overloading (c_opts pointers) = false /\ typeNm (c_opts pointers) = true /\ Forall named_ok src1_events
  /\ src1_events = firstn 2 src1_events ++ EvEnum false (bs "::") (bs "::") (bs "E") [bs "a"; bs "b"] :: []
  /\ ~ In (ev_tguard (EvEnum false (bs "::") (bs "::") (bs "E") [bs "a"; bs "b"])) (map ev_tguard (defs (firstn 2 src1_events)))
  /\ map shown (exp_entries false (bs "::") (bs "E") [bs "a"; bs "b"]) = ["  {""a"",int(::a)},"; "  {""b"",int(::b)}"]%string.
Proof.
  destruct C77_file_ex as (ts & F & _). exists ts. split; [exact F|]. split; [reflexivity|]. split; [reflexivity|]. split; [repeat (constructor; [try reflexivity; exact Logic.I|]); constructor|]. repeat split. vm_compute. intuition discriminate.
Qed.
(** a definition in each branch of a condition: the enumerators of both are put in one table, of which the second has its block left out *)
Definition two_branches : string := "#ifdef X
enum E {a};
#else
enum E {a, b};
#endif
".
Theorem C79_branches_refuted : exists g o x y, of_text (c_opts names_on) two_branches = Some g /\ output names_on g none [] = Some o
  /\ option_map (fun p => map shown (fst p)) (pp (fun _ => false) [] [] (o_std o)) = Some (x ++ [" {"; "  {""a"",int(::a)},"; "  {""a"",int(::a)},"; "  {""b"",int(::b)}"; " };"]%string ++ y).
Proof.
  eexists _, _, [_; _; _; _; _; _; _], _. split; [vm_compute; reflexivity|]. split; [vm_compute; reflexivity|]. vm_compute. reflexivity.
Qed.

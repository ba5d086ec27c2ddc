(** * The text printed for the structures defined in typedefs, and for the types nested in them: C77 *)
From Verif Require Import Base Base_Proofs SMap Dec Desc_Model Tok_Model Parse_Model Parse_Props Ns_Props ClassParse_Model ClassParse_Spec ClassFile_Spec ClassFile_Proofs ClassTempl_Proofs ClassParse_Props Gen_Model GenPP_Props Gen_Props GenFile_Props.

(** ** Names that do not begin with [::] *)
Definition rpath (ws : list tok) : tok := match ws with [] => [] | w :: ws => w ++ path ws end.
(** the innermost of the classes around [ws] that declares [n]; the types outside of all classes are never looked at *)
Definition innermost_rel (nested : list (tok * tok)) (ws : list tok) (s n : tok) : Prop :=
  exists p q, ws = p ++ q /\ p <> [] /\ s = rpath p /\ In (s ++ bs "::", n) nested
  /\ forall p' q', ws = p' ++ q' -> (length p < length p')%nat -> ~ In (rpath p' ++ bs "::", n) nested.
Definition typedef_rel (e : tok * tok) : tok := bs "typedef " ++ bs " " ++ fst e ++ bs "::" ++ snd e ++ bs " " ++ snd e ++ bs ";".
Lemma rpath_snoc ws w : ws <> [] -> rpath (ws ++ [w]) = rpath ws ++ bs "::" ++ w.
Proof. destruct ws as [|v ws]; [congruence|]. intros _. cbn [app rpath]. rewrite <- path_snoc. now rewrite <- app_assoc. Qed.
Lemma rpath_last ws w : ws <> [] -> ~ In ":"%char w -> rfind2 (rpath (ws ++ [w])) = Some (length (rpath ws)) /\ firstn (length (rpath ws)) (rpath (ws ++ [w])) = rpath ws.
Proof.
  intros NE C. rewrite rpath_snoc by exact NE. split.
  - rewrite rfind2_last, (rfind2_colon _ C). reflexivity.
  - rewrite firstn_app, Nat.sub_diag, firstn_O, app_nil_r, firstn_all. reflexivity.
Qed.
Lemma rfind2_no w : ~ In ":"%char w -> rfind2 w = None.
Proof. intros C. pose proof (rfind2_colon _ C) as R. cbn [rfind2] in R. destruct (rfind2 w); [discriminate|reflexivity]. Qed.
Lemma rpath_word ws : ws <> [] -> Forall scope_word ws -> teq (rpath ws) "::" = false.
Proof.
  intros NE F. destruct ws as [|v ws]; [congruence|]. inversion F as [|? ? (C & N) _]; subst. apply Bool.not_true_iff_false. intros E. change (beq (v ++ path ws) (bs "::") = true) in E.
  apply beq_eq in E. destruct v as [|c v]; [congruence|]. injection E as -> _. apply C. now left.
Qed.
Lemma nest_rel nested : forall ws, ws <> [] -> Forall scope_word ws -> forall f avoid, (length ws < f)%nat ->
  exists L, nest_lines f nested (rpath ws) false avoid = map typedef_rel L
  /\ NoDup (map snd L) /\ (forall s n, In (s, n) L <-> ~ In n avoid /\ innermost_rel nested ws s n).
Proof.
  induction ws as [|w ws IH] using rev_ind; intros NE F f avoid LF; [congruence|]. destruct f as [|f]; [lia|]. cbn [nest_lines]. rewrite level_fresh.
  apply Forall_app in F. destruct F as (F & FW). inversion FW as [|? ? (C & _) _]; subst. rewrite app_length in LF. cbn [length] in LF.
  set (scope := rpath (ws ++ [w])) in *. set (nm := fresh _ avoid).
  assert (REC : exists L2, match rfind2 scope with Some p => if teq (firstn p scope) "::" then [] else nest_lines f nested (firstn p scope) false (avoid ++ at_key (scope ++ bs "::") nested) | None => [] end = map typedef_rel L2
     /\ NoDup (map snd L2) /\ (forall s n, In (s, n) L2 <-> ~ In n (avoid ++ at_key (scope ++ bs "::") nested) /\ innermost_rel nested ws s n)).
  { destruct ws as [|v ws].
    - exists []. unfold scope. cbn [app rpath path map concat]. rewrite app_nil_r, (rfind2_no _ C). split; [reflexivity|]. split; [constructor|].
      intros s n. split; [intros []|]. intros (_ & p & q & E & P & _). destruct p; [congruence|discriminate].
    - assert (N2 : v :: ws <> []) by discriminate. destruct (rpath_last (v :: ws) w N2 C) as (R & FN). unfold scope at 1. rewrite R. cbv zeta. unfold scope. rewrite FN, (rpath_word _ N2 F). fold scope.
      destruct (IH N2 F f (avoid ++ at_key (scope ++ bs "::") nested)) as (L2 & H); [lia|]. exists L2. exact H. }
  destruct REC as (L2 & E2 & N2 & I2). cbv zeta beta iota. rewrite E2. exists (map (fun n => (scope, n)) nm ++ L2). split; [rewrite map_app, map_map; f_equal|]. split.
  - rewrite map_app, map_map. cbn [snd]. rewrite map_id.
    assert (DJ : forall n, In n nm -> ~ In n (map snd L2)).
    { intros n X Y. apply in_map_iff in Y. destruct Y as ((s, m) & E & Y). cbn [snd] in E. subst m. apply I2 in Y. destruct Y as (Y & _). apply Y.
      unfold nm in X. rewrite fresh_in in X. apply in_or_app. right. tauto. }
    pose proof (fresh_nodup (at_key (scope ++ bs "::") nested) avoid) as ND. fold nm in ND. clear - DJ ND N2. induction nm as [|x nm IH]; [exact N2|]. inversion ND; subst. cbn [app].
    constructor; [|apply IH; [intros n X; apply DJ; right; exact X|assumption]]. rewrite in_app_iff. intros [X|X]; [contradiction|]. apply (DJ x); [left; reflexivity|exact X].
  - intros s n. rewrite in_app_iff, in_map_iff, I2. unfold nm. split.
    + intros [(m & [= <- <-] & X)|(X & p & q & -> & PN & -> & INp & MX)].
      * rewrite fresh_in, at_key_in in X. split; [tauto|]. exists (ws ++ [w]), []. rewrite app_nil_r. repeat split; [destruct ws; discriminate|tauto|].
        intros p' q' E LL. exfalso. apply (f_equal (@length tok)) in E. rewrite !app_length in E. rewrite app_length in LL. lia.
      * rewrite in_app_iff, at_key_in in X. split; [tauto|]. exists p, (q ++ [w]). split; [now rewrite app_assoc|]. repeat split; [exact PN|exact INp|].
        intros p' q' E LL Y. destruct q' as [|z q'] using rev_ind; [rewrite app_nil_r in E; rewrite <- E in Y; tauto|]. clear IHq'.
        rewrite app_assoc in E. apply app_inj_tail in E. destruct E as (E & _). exact (MX _ _ E LL Y).
    + intros (NA & p & q & E & PN & -> & INp & MX). destruct q as [|z q] using rev_ind.
      * rewrite app_nil_r in E. subst p. left. exists n. split; [reflexivity|]. rewrite fresh_in, at_key_in. auto.
      * clear IHq. rewrite app_assoc in E. apply app_inj_tail in E. destruct E as (E & <-). right. split.
        -- rewrite in_app_iff, at_key_in. intros [X|X]; [contradiction|]. revert X. unfold scope. apply (MX (ws ++ [w]) []); [now rewrite app_nil_r|]. rewrite E, !app_length. cbn. lia.
        -- exists p, q. split; [exact E|]. repeat split; [exact PN|exact INp|]. intros p' q' E' LL. apply (MX p' (q' ++ [w])); [rewrite E', <- app_assoc; reflexivity|exact LL].
Qed.
Theorem C76_relative : forall nested ws, ws <> [] -> Forall scope_word ws ->
  exists L, printNestedTypes nested (rpath ws) false = map typedef_rel L /\ NoDup (map snd L) /\ (forall s n, In (s, n) L <-> innermost_rel nested ws s n).
Proof.
  intros nested ws NE F. destruct (nest_rel nested ws NE F (S (length (rpath ws))) []) as (L & E & N & IL).
  - enough (length ws <= length (rpath ws))%nat by lia. destruct ws as [|v ws]; [cbn; lia|]. cbn [rpath length]. rewrite app_length. pose proof (path_length ws). inversion F as [|? ? (_ & V) _]; subst. destruct v; [congruence|]. cbn [length]. lia.
  - exists L. split; [exact E|]. split; [exact N|]. intros s n. rewrite IL. cbn [In]. tauto.
Qed.
Print Assumptions C76_relative.
Example C76_relative_ex : [bs "S"; bs "T"] <> [] /\ Forall scope_word [bs "S"; bs "T"]
  /\ map shown (printNestedTypes [(bs "S::", bs "A"); (bs "S::T::", bs "A"); (bs "S::T::", bs "B"); (bs "S::", bs "C"); (bs "::", bs "D")] (rpath [bs "S"; bs "T"]) false)
  = ["typedef  S::T::A A;"; "typedef  S::T::B B;"; "typedef  S::C C;"]%string.
Proof. split; [discriminate|]. split; [repeat constructor; try discriminate; cbn; intuition discriminate|vm_compute; reflexivity]. Qed.

(** ** What should be printed *)
(** a type that is named in a typedef has no keyword *)
Definition exp_block2 (d : tok) (mbr onbase typenames : bool) (e : event) (tds : list tok) : list tok :=
  match e with
  | EvTypedef ns _ name bases cs =>
      exp_struct d (bs "<>") [] name (exp_using ns ++ tds) (map (exp_base d onbase) bases ++ map (exp_call d) cs)
        (concat (map (exp_tbase d onbase) bases) ++ concat (map (exp_tcall d mbr [] name) cs))
  | e => exp_block d mbr onbase typenames e tds
  end.
(** no name that begins like a keyword, where there is no [::] before it *)
Definition no_keyword (n : tok) : Prop := Forall (fun k => begins k n = false) ["class"; "struct"; "enum"; "typename"]%string.
Definition printable2 (e : event) : Prop :=
  match e with
  | EvTypedef _ _ n bases cs => word n /\ no_keyword n
      /\ Forall (fun b => ~ contains "classdesc::is_constructor" (bs "classdesc::base_cast<" ++ b ++ bs " >::cast(arg)")) bases
      /\ Forall (fun c => ~ contains "classdesc::is_constructor" (c_arg c)) cs
  | EvEnum false _ p n _ => begins "class" (p ++ n) = false
  | e => printable e
  end.
(** ** The shape of the events *)
Definition call_shape2 (c : call) : Prop := call_shape c \/ (c_arg c = bs "arg" /\ c_member c = []).
Definition rel_scope (p : tok) : Prop := exists ws, ws <> [] /\ p = rpath ws ++ bs "::" /\ Forall word ws.
Definition rel_shape (e : event) : Prop :=
  match e with
  | EvClass _ ns p name _ cs => is_scope ns /\ rel_scope p /\ word name /\ Forall call_shape cs
  | EvEnum _ ns p name _ => is_scope ns /\ rel_scope p /\ word name
  | EvTypedef ns _ _ _ cs => is_scope ns /\ Forall call_shape2 cs
  | _ => False
  end.
Definition any_shape (e : event) : Prop := ev_shape e \/ rel_shape e.
Lemma rel_in p name : rel_scope p -> word name -> rel_scope (p ++ name ++ bs "::").
Proof.
  intros (ws & NE & -> & F) W. exists (ws ++ [name]). split; [destruct ws; discriminate|]. split; [|apply Forall_app; auto]. rewrite rpath_snoc by exact NE. now rewrite <- !app_assoc.
Qed.
Lemma ev_any es : Forall ev_shape es -> Forall any_shape es.
Proof. apply Forall_impl. intros e H. now left. Qed.
Lemma body_rel mbr re ns tpar p c (tp pr co : bool) ts rs cs fs us : body mbr re ns tpar p c tp pr co ts rs cs fs us -> is_scope ns -> rel_scope p -> tp = false ->
  Forall any_shape rs /\ Forall call_shape cs.
Proof.
  induction 1; intros NS P TP; try (destruct (IHbody NS P TP) as (A & B)); auto.
  - split; [exact A|]. apply Forall_app. split; [apply seen_shape, calls1_shape|exact B].
  - split; [exact A|]. apply Forall_app. split; [apply seen_shape, calls1_shape|exact B].
  - split; [|exact B]. apply Forall_app. split; [apply ev_any; destruct (_ && _)%bool; repeat constructor|exact A].
  - split; [exact A|]. apply Forall_app. split; [|exact B]. apply seen_shape. constructor; [|constructor]. right. left. cbn [c_arg]. eexists. reflexivity.
  - split; [|exact B]. constructor; [|exact A]. destruct H as (W & _). right. cbn [rel_shape]. auto.
  - split; [|exact B]. apply Forall_app. split; [apply ev_any; destruct pr; repeat constructor|]. constructor; [left; exact Logic.I|exact A].
  - destruct (IHbody2 NS P TP) as (A & B). destruct (IHbody1 NS (rel_in _ _ P H) TP) as (A1 & B1).
    split; [|exact B]. apply Forall_app. split; [apply ev_any; destruct pr; repeat constructor|]. apply Forall_app. split; [exact A1|]. constructor; [|exact A].
    subst tp. destruct pr; cbn [orb]; [left; exact Logic.I|]. right. cbn [rel_shape]. split; [exact NS|]. split; [exact P|]. split; [exact H|]. now apply chosen_shape.
Qed.
Lemma rel_one n : word n -> rel_scope (n ++ bs "::").
Proof. intros W. exists [n]. split; [discriminate|]. split; [cbn [rpath path map concat]; now rewrite app_nil_r|auto]. Qed.
Lemma shape2 cs : Forall call_shape cs -> Forall call_shape2 cs.
Proof. apply Forall_impl. intros c H. now left. Qed.
Lemma file_any mbr respect ns ts es : file mbr respect ns ts es -> is_scope ns -> Forall any_shape es.
Proof.
  induction 1; intros N; try (specialize (IHfile N)); auto.
  - apply Forall_app. auto.
  - apply Forall_app. split; [|auto]. apply IHfile1. now apply scope_in.
  - apply Forall_app. auto.
  - constructor; [left; exact Logic.I|exact IHfile].
  - destruct (body_rel _ _ _ _ _ _ _ _ _ _ _ _ _ _ H2 N (rel_one _ H) eq_refl) as (A & B).
    apply Forall_app. split; [exact A|]. constructor; [|exact IHfile]. right. cbn [rel_shape]. split; [exact N|]. now apply shape2, chosen_shape.
  - destruct (body_rel _ _ _ _ _ _ _ _ _ _ _ _ _ _ H2 N (rel_one _ H) eq_refl) as (A & B).
    apply Forall_app. split; [exact A|]. constructor; [|exact IHfile]. right. cbn [rel_shape]. split; [exact N|]. now apply shape2, chosen_shape.
  - constructor; [|exact IHfile]. right. cbn [rel_shape]. split; [exact N|]. constructor; [|constructor]. destruct (_ || _)%bool; [right; auto|left; right; left; eexists; reflexivity].
  - constructor; [left; exact Logic.I|exact IHfile].
  - constructor; [left; exact Logic.I|exact IHfile].
  - destruct (body_shape _ _ _ _ _ _ _ _ _ _ _ _ _ _ H1 N (scope_tscope _ (scope_in _ _ N H)) (fun _ => scope_in _ _ N H)) as (A & B).
    apply Forall_app. split; [now apply ev_any|]. constructor; [|exact IHfile]. left. cbn [ev_shape]. split; [exact N|]. split; [exact N|]. split; [now apply word_tword|]. now apply chosen_shape.
  - constructor; [|exact IHfile]. destruct H as (W & _). left. cbn [ev_shape]. split; [exact N|]. split; [now apply scope_tscope|exact W].
  - destruct H as (NE & PO & _). pose proof (targs_tword ps sp name PO H1 H0) as TW.
    destruct (body_shape _ _ _ _ _ _ _ _ _ _ _ _ _ _ H3 N) as (A & B); [rewrite (app_assoc name); now apply tscope_in; [apply scope_tscope|]|discriminate|].
    apply Forall_app. split; [now apply ev_any|]. constructor; [|exact IHfile]. left. cbn [ev_shape]. split; [exact N|]. split; [exact TW|]. split; [now apply templ_end|]. now apply chosen_shape.
  - constructor; [left; exact Logic.I|exact IHfile].
  - pose proof (targs_tword [] (Some (a, ka)) name (Forall_nil _) H0 H) as TW.
    destruct (body_shape _ _ _ _ _ _ _ _ _ _ _ _ _ _ H2 N) as (A & B); [rewrite (app_assoc name); now apply tscope_in; [apply scope_tscope|]|discriminate|].
    apply Forall_app. split; [now apply ev_any|]. constructor; [|exact IHfile]. left. cbn [ev_shape]. split; [exact N|]. split; [exact N|]. split; [exact TW|]. now apply chosen_shape.
  - constructor; [left; exact Logic.I|exact IHfile].
Qed.

(** ** The printed block is the expected one *)
Lemma op_call2 d c : call_shape2 c -> ~ contains "classdesc::is_constructor" (c_arg c) -> op_line d (call_act c) = [exp_call d c].
Proof.
  intros [SH|(A & M)] N; [now apply op_call|]. destruct c as [cn ca cm st]. cbn [c_arg c_member] in *. subst. unfold op_line, call_act, exp_call. cbn [a_name a_action a_member a_base c_name c_arg c_member]. rewrite app_nil_r. reflexivity.
Qed.
Lemma type_call2 o d q cls c : without_type_qualifier (q ++ bs " " ++ cls) = cls -> call_shape2 c -> type_line (use_mbr o) d (q ++ bs " " ++ cls) (call_act c) = exp_tcall d (use_mbr o) q cls c.
Proof.
  intros W [SH|(A & M)]; [now apply type_call|]. destruct c as [cn ca cm st]. cbn [c_arg c_member] in *. subst. reflexivity.
Qed.
Lemma enum_class x : begins "class" x = false -> forall r, bs "enum " ++ x <> bs "enum class" ++ r.
Proof.
  intros B r E. assert (X : x = bs "class" ++ r) by (change (bs "enum " ++ x = bs "enum " ++ bs "class" ++ r) in E; now apply app_inv_head in E). rewrite X, begins_app in B. discriminate.
Qed.
Lemma qual_enum2 x : begins "class" x = false -> type_qualifier (bs "enum " ++ x) = bs "enum".
Proof.
  intros B. unfold type_qualifier. rewrite !begins_starts.
  rewrite (begins_no "class"), (begins_no "struct") by (intros r E; discriminate E). rewrite (begins_no "enum class") by (now apply enum_class).
  change (bs "enum " ++ x) with (bs "enum" ++ bs " " ++ x). now rewrite begins_app.
Qed.
Lemma qual_free n : no_keyword n -> type_qualifier n = [].
Proof.
  intros F. inversion F as [|? ? A F1]; subst. inversion F1 as [|? ? B F2]; subst. inversion F2 as [|? ? C F3]; subst. inversion F3 as [|? ? D _]; subst.
  unfold type_qualifier. rewrite !begins_starts, A, B, C, D. replace (begins "enum class" n) with false; [reflexivity|].
  symmetry. apply begins_no. intros r E. rewrite E in C. change (bs "enum class" ++ r) with (bs "enum" ++ bs " class" ++ r) in C. now rewrite begins_app in C.
Qed.
Lemma wo_free n : word n -> no_keyword n -> without_type_qualifier n = n.
Proof.
  intros W F. unfold without_type_qualifier. rewrite (qual_free n F). cbn [length skipn]. destruct n as [|c n]; [reflexivity|].
  destruct (word_chars (c :: n) c W) as (NB & _); [now left|]. unfold ceq. apply Ascii.eqb_neq in NB. now rewrite NB.
Qed.
Lemma block_rel o g e : g_over g = [] -> is_def e = true -> rel_shape e -> printable2 e ->
  exists a, ev_actions o e = [a] /\ templated a = is_templ e /\ without_type_qualifier (x_type a) = ev_name e
  /\ forall k, inline_lines o g k a = exp_block2 k (use_mbr o) (onBase o) (typeNm o) e (printNestedTypes (g_nested g) (ev_name e) (is_templ e)).
Proof.
  intros GO DF SH NC. destruct e as [k ns p name bases cs| | | |sc ns p name keys| |k ns name templ args bases cs|ns tag name bases cs]; try discriminate; try contradiction; cbn [ev_actions ev_name is_templ exp_block2] in *.
  - destruct SH as ((ws & -> & WS) & _ & WN & CS). destruct NC as (NB & NM). rewrite !Forall_forall in *. set (nm := p ++ name) in *.
    eexists. split; [reflexivity|]. split; [reflexivity|]. cbn [x_type].
    replace ((if k then bs "class " else bs "struct ") ++ nm) with (kw k ++ bs " " ++ nm) by (destruct k; reflexivity).
    split; [apply wo_kw|]. intros d. unfold inline_lines. cbn [x_type x_acts x_ns x_templ templated templ_text]. rewrite wo_kw, qual_kw, GO. cbv zeta.
    unfold type_arg. replace (teq (kw k) "enum class") with false by (destruct k; reflexivity). unfold templated, templ_text. cbn [x_templ at_key filter map]. rewrite app_nil_r, using_eq.
    unfold exp_block, exp_struct. fold nm. rewrite !map_app, !concat_app, !map_map, <- !app_assoc. cbn [app].
    repeat (f_equal; []).
    rewrite (concat_single _ (exp_base d (onBase o)) bases), (concat_single _ (exp_call d) cs).
    2: { intros c IN. apply op_call; auto. } 2: { intros b IN. apply op_base. auto. }
    rewrite (map_concat_ext _ (exp_tbase d (onBase o)) bases) by (intros; apply type_base).
    rewrite (map_concat_ext _ (exp_tcall d (use_mbr o) (kw k) nm) cs) by (intros c IN; apply type_call; [apply wo_kw|auto]).
    reflexivity.
  - destruct SH as ((ws & -> & WS) & _ & WN). set (nm := p ++ name) in *.
    assert (Q : without_type_qualifier ((if sc then bs "enum class " else bs "enum ") ++ nm) = nm).
    { destruct sc; [apply wo_enumc|]. unfold without_type_qualifier. rewrite qual_enum2 by exact NC. reflexivity. }
    assert (TA : type_arg (type_qualifier ((if sc then bs "enum class " else bs "enum ") ++ nm)) nm = bs "enum" ++ bs " " ++ nm).
    { destruct sc; [rewrite qual_enumc; reflexivity|]. now rewrite qual_enum2 by exact NC. }
    eexists. split; [reflexivity|]. split; [reflexivity|]. cbn [x_type]. split; [exact Q|].
    intros d. unfold inline_lines. cbn [x_type x_acts x_ns x_templ]. cbv zeta. rewrite Q, TA, GO. unfold templated, templ_text. cbn [x_templ at_key filter map concat]. rewrite !app_nil_r, using_eq.
    replace (op_line d _) with [bs "::" ++ d ++ bs "(targ,desc+""""," ++ (if typeNm o then bs "classdesc::enum_handle(arg)" else bs "(int&)arg") ++ bs ");"].
    2: { unfold op_line. cbn [a_name a_action a_member a_base]. rewrite app_nil_r. destruct (typeNm o); reflexivity. }
    replace (type_line _ d _ _) with (@nil tok).
    2: { unfold type_line. cbn [a_name a_action a_member a_base]. destruct (typeNm o); reflexivity. }
    unfold exp_block, exp_struct. fold nm. rewrite <- !app_assoc. reflexivity.
  - destruct SH as ((ws & -> & WS) & CS). destruct NC as (WN & NK & NB & NM). rewrite !Forall_forall in *.
    pose proof (wo_free name WN NK) as WO. eexists. split; [reflexivity|]. split; [reflexivity|]. cbn [x_type]. split; [exact WO|].
    intros d. unfold inline_lines. cbn [x_type x_acts x_ns x_templ templated templ_text]. rewrite WO, (qual_free name NK), GO. cbv zeta.
    unfold type_arg. change (teq [] "enum class") with false. cbv iota. unfold templated, templ_text. cbn [x_templ at_key filter map]. rewrite app_nil_r, using_eq.
    unfold exp_struct. rewrite !map_app, !concat_app, !map_map, <- !app_assoc.
    rewrite (concat_single _ (exp_base d (onBase o)) bases), (concat_single _ (exp_call d) cs).
    2: { intros c IN. apply op_call2; auto. } 2: { intros b IN. apply op_base. auto. }
    rewrite (map_concat_ext _ (exp_tbase d (onBase o)) bases) by (intros; apply type_base).
    rewrite (map_concat_ext _ (exp_tcall d (use_mbr o) [] name) cs).
    2: { intros c IN. apply (type_call2 o d [] name c); [|auto]. unfold without_type_qualifier, type_qualifier. rewrite !begins_starts. repeat (rewrite begins_no by (intros r E; discriminate E)). reflexivity. }
    reflexivity.
Qed.
Lemma block_any o g e : g_over g = [] -> is_def e = true -> any_shape e -> printable2 e ->
  exists a, ev_actions o e = [a] /\ templated a = is_templ e /\ without_type_qualifier (x_type a) = ev_name e
  /\ forall k, inline_lines o g k a = exp_block2 k (use_mbr o) (onBase o) (typeNm o) e (printNestedTypes (g_nested g) (ev_name e) (is_templ e)).
Proof.
  intros GO DF [SH|SH] P; [|now apply block_rel]. assert (P1 : printable e) by (destruct e as [| | | |[] ? ? ? ?| | |]; try exact P; try exact Logic.I; contradiction).
  destruct (block_event o g e GO DF SH P1) as (a & A & B & C & D). exists a. split; [exact A|]. split; [exact B|]. split; [exact C|]. intros k. rewrite D. destruct e; try reflexivity. contradiction.
Qed.

(** ** The name under which a pragma would leave the type out *)
(** of a name that does not begin with [::] the second character is left out when it is a colon *)
Definition rel_key (n : tok) : tok := match n with c :: d :: r => if Ascii.eqb d ":" then c :: r else n | _ => n end.
Definition ev_key2 (k : tok) (e : event) : tok := if begins "::" (ev_name e) then ev_key k e else k ++ rel_key (ev_name e).
Lemma plain_same l : (forall c, In c l -> c <> " "%char /\ c <> "<"%char /\ c <> ">"%char) -> forall j, plain_name (S (S j)) l 0 false = l.
Proof.
  induction l as [|c l IH]; intros H j; [reflexivity|]. cbn [plain_name]. change (S (S j) <? 2)%nat with false. cbn [andb]. destruct (H c) as (A & B & C); [now left|].
  unfold ceq. apply Ascii.eqb_neq in A, B, C. rewrite A, B, C. cbn [Z.eqb app]. rewrite IH; [reflexivity|]. intros x X. apply H. now right.
Qed.
Lemma rpath_chars ws c : Forall word ws -> In c (rpath ws) -> c <> " "%char /\ c <> "<"%char /\ c <> ">"%char.
Proof.
  intros F X. assert (P : forall vs, Forall word vs -> In c (path vs) -> c <> " "%char /\ c <> "<"%char /\ c <> ">"%char).
  { induction 1 as [|v vs V FV IH]; intros Y; [destruct Y|]. unfold path in Y. cbn [map concat] in Y. fold (path vs) in Y. rewrite !in_app_iff in Y.
    destruct Y as [[Y|Y]|Y]; [cbn in Y; destruct Y as [<-|[<-|[]]]; repeat split; discriminate|pose proof (word_chars v c V Y); tauto|now apply IH]. }
  destruct ws as [|w ws]; [destruct X|]. inversion F; subst. cbn [rpath] in X. apply in_app_or in X. destruct X as [X|X]; [pose proof (word_chars w c H1 X); tauto|now apply (P ws)].
Qed.
Lemma plain_rel ws : ws <> [] -> Forall word ws -> plain_name 0 (rpath ws) 0 false = rel_key (rpath ws).
Proof.
  intros NE F. destruct ws as [|w ws]; [congruence|]. inversion F as [|? ? W FW]; subst. pose proof (rpath_chars (w :: ws)) as CH.
  destruct w as [|c w]; [destruct W as (ID & _); discriminate|]. destruct (word_chars (c :: w) c W) as (A & B & C & D); [now left|]. cbn [rpath app] in *.
  cbn [plain_name]. unfold ceq at 1. change (0 <? 2)%nat with true. apply Ascii.eqb_neq in A, B, C, D. rewrite D. cbn [andb]. unfold ceq. rewrite A, B, C. cbn [Z.eqb app].
  destruct (w ++ path ws) as [|d l] eqn:EL; [reflexivity|]. cbn [plain_name rel_key]. change (1 <? 2)%nat with true. cbn [andb]. unfold ceq.
  destruct (Ascii.eqb d ":") eqn:D1.
  - rewrite plain_same; [reflexivity|]. intros x X. apply CH; [exact F|]. right. right. exact X.
  - destruct (CH d F) as (A1 & B1 & C1); [right; left; reflexivity|]. apply Ascii.eqb_neq in A1, B1, C1. rewrite A1, B1, C1. cbn [Z.eqb app].
    rewrite plain_same; [reflexivity|]. intros x X. apply CH; [exact F|]. right. right. exact X.
Qed.
Lemma rel_path e : rel_shape e -> printable2 e -> exists ws, ws <> [] /\ ev_name e = rpath ws /\ Forall word ws /\ is_templ e = false.
Proof.
  intros SH P. destruct e as [k ns p name bases cs| | | |sc ns p name keys| |k ns name templ args bases cs|ns tag name bases cs]; try contradiction; cbn [ev_name is_templ].
  - destruct SH as (_ & (ws & NE & -> & F) & W & _). exists (ws ++ [name]). split; [destruct ws; discriminate|]. split; [rewrite rpath_snoc by exact NE; now rewrite <- app_assoc|]. split; [apply Forall_app; auto|reflexivity].
  - destruct SH as (_ & (ws & NE & -> & F) & W). exists (ws ++ [name]). split; [destruct ws; discriminate|]. split; [rewrite rpath_snoc by exact NE; now rewrite <- app_assoc|]. split; [apply Forall_app; auto|reflexivity].
  - destruct P as (W & _). exists [name]. split; [discriminate|]. split; [cbn [rpath path map concat]; now rewrite app_nil_r|]. auto.
Qed.
Lemma rel_colons ws : ws <> [] -> Forall word ws -> begins "::" (rpath ws) = false.
Proof.
  intros NE F. apply begins_no. intros r E. destruct ws as [|w ws]; [congruence|]. inversion F as [|? ? W _]; subst. destruct w as [|c w]; [destruct W as (ID & _); discriminate|].
  injection E as -> _. pose proof (word_chars (":"%char :: w) ":" W). cbn [In] in *. intuition.
Qed.
Lemma path_colons ws : ws <> [] -> begins "::" (path ws) = true.
Proof. destruct ws as [|w ws]; [congruence|]. intros _. unfold path. cbn [map concat]. rewrite <- app_assoc. apply begins_app. Qed.
Lemma key_any e k : any_shape e -> is_def e = true -> printable2 e -> k ++ plain_name 0 (ev_name e) 0 false = ev_key2 k e.
Proof.
  intros [SH|SH] DF P; unfold ev_key2.
  - rewrite (name_key e SH DF). destruct (def_path e SH DF) as (ws & E & _ & NE). rewrite E at 2. rewrite path_colons by exact NE. unfold ev_key. reflexivity.
  - destruct (rel_path e SH P) as (ws & NE & E & F & _). rewrite E, rel_colons, plain_rel by assumption. reflexivity.
Qed.
Lemma templ_any o e : any_shape e -> x_templ (act_of o e) = [] \/ exists y, x_templ (act_of o e) = y ++ bs " > ".
Proof. intros [SH|SH]; [now apply templ_event|]. left. destruct e as [| | | |[] ? ? ? ?| | |]; try contradiction; reflexivity. Qed.
(** ** C77, for all files *)
Theorem C77_typedef : forall c bf ks ts es orc D, overloading (c_opts c) = false ->
  file (use_mbr (c_opts c)) (respect_private (c_opts c)) (bs "::") ts es -> Forall printable2 es ->
  exists g o K d, generate (c_opts c) ts = CEof g /\ output c g bf ks = Some o /\ pp orc D [] (o_std o) = Some (K, d)
  /\ forall pre k e post, ev_pairs ks es = pre ++ (k, e) :: post -> c_workdir c = [] \/ is_templ e = true ->
     ~ In (ev_key2 k e) (ev_omits es ++ concat (map (fun k => omits_in (bf k)) ks)) ->
     ~ In (ev_guard k e) (D ++ map ev_tguard (defs es) ++ map (fun p => ev_guard (fst p) (snd p)) pre) ->
     exists x y ws L, NoDup (map snd L) /\
       (K = x ++ exp_block2 k (use_mbr (c_opts c)) (onBase (c_opts c)) (typeNm (c_opts c)) e (map (typedef_line (is_templ e) ws) L) ++ y
        /\ ev_name e = path ws /\ (forall s n, In (s, n) L <-> innermost (concat (map ev_nested es)) ws s n)
        \/ K = x ++ exp_block2 k (use_mbr (c_opts c)) (onBase (c_opts c)) (typeNm (c_opts c)) e (map typedef_rel L) ++ y
        /\ ev_name e = rpath ws /\ Forall word ws /\ (forall s n, In (s, n) L <-> innermost_rel (concat (map ev_nested es)) ws s n)).
Proof.
  intros c bf ks ts es orc D OV FI NC. set (o := c_opts c) in *. destruct (C73_file o ts es OV FI) as (g & GE & GA & _ & _ & GO & GT & _ & GP & GN).
  assert (SH : Forall any_shape es). { eapply file_any; [exact FI|]. exists []. split; [reflexivity|constructor]. }
  rewrite actions_defs in GA.
  assert (ALL : forall e, In e (defs es) -> any_shape e /\ is_def e = true /\ printable2 e).
  { intros e X. apply filter_In in X. destruct X as (X & DF). rewrite Forall_forall in SH, NC. auto. }
  assert (BE : forall e, In e (defs es) -> templated (act_of o e) = is_templ e /\ without_type_qualifier (x_type (act_of o e)) = ev_name e
     /\ forall k, inline_lines o g k (act_of o e) = exp_block2 k (use_mbr o) (onBase o) (typeNm o) e (printNestedTypes (g_nested g) (ev_name e) (is_templ e))).
  { intros e X. destruct (ALL e X) as (S1 & D1 & N1). destruct (block_any o g e GO D1 S1 N1) as (a & E & T & W & B). unfold act_of. rewrite E. cbn [hd]. auto. }
  destruct (names_exist g (g_actions g)) as (tn & TN).
  { rewrite GA. apply Forall_forall. intros a X. apply in_map_iff in X. destruct X as (e & <- & X). destruct (ALL e X) as (S1 & _). now apply templ_any. }
  assert (OUT : exists r, output c g bf ks = Some r) by (unfold output; rewrite TN; eauto). destruct OUT as (r & OUT).
  assert (TD : tidy g) by (intros p X; rewrite GO in X; destruct X).
  destruct (C74_once c g bf ks r orc D OUT GT TD) as (K & d & PP & _ & ON & _).
  exists g, r, K, d. split; [exact GE|]. split; [exact OUT|]. split; [exact PP|].
  intros pre k e post SP WD NO NG.
  assert (PIN : forall k e, In (k, e) (ev_pairs ks es) -> In e (defs es)).
  { intros k0 e0 X. unfold ev_pairs in X. apply in_concat in X. destruct X as (l & Y & X). apply in_map_iff in Y. destruct Y as (k' & <- & _). apply in_map_iff in X. destruct X as (e' & [= _ ->] & X). exact X. }
  assert (IN : In e (defs es)) by (apply (PIN k); rewrite SP; apply in_or_app; right; left; reflexivity).
  destruct (BE e IN) as (T & W & B). destruct (ALL e IN) as (S1 & D1 & N1).
  assert (GK : forall k e, In e (defs es) -> guard k (act_of o e) = ev_guard k e). { intros k0 e0 X. unfold guard, ev_guard. now rewrite (proj1 (proj2 (BE e0 X))). }
  assert (GT1 : incl (tguards (g_actions g)) (map ev_tguard (defs es))).
  { rewrite GA. intros m X. unfold tguards in X. apply in_map_iff in X. destruct X as (a & <- & X). apply filter_In in X. destruct X as (X & _). apply in_map_iff in X. destruct X as (e0 & <- & X).
    apply in_map_iff. exists e0. split; [|exact X]. unfold ev_tguard, tguard. now rewrite (proj1 (proj2 (BE e0 X))). }
  rewrite !in_app_iff in NG.
  destruct (ON (map (fun p => (fst p, act_of o (snd p))) pre) k (act_of o e) (map (fun p => (fst p, act_of o (snd p))) post)) as (x & y & EK).
  - rewrite GA, pairs_events, SP, map_app. reflexivity.
  - unfold omitted. rewrite GP, of_omit, W, key_any by assumption. exact NO.
  - destruct WD as [WD|WD]; [left; exact WD|right]. rewrite WD in T. unfold templated in T. intros E0. now rewrite E0 in T.
  - rewrite GK by exact IN. tauto.
  - rewrite GK by exact IN. intros X. apply in_app_or in X. destruct X as [X|X]; [apply GT1 in X; tauto|]. apply NG. right. right.
    unfold guards_of in X. rewrite map_map in X. cbn [fst snd] in X. apply in_map_iff in X. destruct X as ((k1, e1) & E1 & X). cbn [fst snd] in E1. apply in_map_iff. exists (k1, e1). split; [|exact X].
    cbn [fst snd]. rewrite <- E1. symmetry. apply GK. apply (PIN k1). rewrite SP. apply in_or_app. left. exact X.
  - fold o in EK. rewrite B in EK. destruct S1 as [S1|S1].
    + destruct (def_path e S1 D1) as (ws & EW & FW & _).
      destruct (C76_nested (g_nested g) (is_templ e) ws) as (L & PL & ND & IL & _). { eapply Forall_impl; [|exact FW]. apply tword_scope. }
      rewrite EW, PL in EK. exists x, y, ws, L. split; [exact ND|]. left. split; [exact EK|]. split; [exact EW|]. rewrite <- GN. exact IL.
    + destruct (rel_path e S1 N1) as (ws & NE & EW & FW & TE). rewrite TE, EW in EK.
      destruct (C76_relative (g_nested g) ws NE) as (L & PL & ND & IL). { eapply Forall_impl; [|exact FW]. intros w X. now apply tword_scope, word_tword. }
      rewrite PL in EK. exists x, y, ws, L. split; [exact ND|]. right. split; [exact EK|]. split; [exact EW|]. split; [exact FW|]. rewrite <- GN. exact IL.
Qed.
Print Assumptions C77_typedef.
(** a type whose name begins with [::], in a file that may have structures in typedefs *)
Lemma abs_file : forall c bf ks ts es orc D, overloading (c_opts c) = false ->
  file (use_mbr (c_opts c)) (respect_private (c_opts c)) (bs "::") ts es -> Forall printable2 es ->
  exists g o K d, generate (c_opts c) ts = CEof g /\ output c g bf ks = Some o /\ pp orc D [] (o_std o) = Some (K, d)
  /\ forall pre k e post, ev_pairs ks es = pre ++ (k, e) :: post -> begins "::" (ev_name e) = true -> c_workdir c = [] \/ is_templ e = true ->
     ~ In (ev_key k e) (ev_omits es ++ concat (map (fun k => omits_in (bf k)) ks)) ->
     ~ In (ev_guard k e) (D ++ map ev_tguard (defs es) ++ map (fun p => ev_guard (fst p) (snd p)) pre) ->
     exists x y ws L, K = x ++ exp_block2 k (use_mbr (c_opts c)) (onBase (c_opts c)) (typeNm (c_opts c)) e (map (typedef_line (is_templ e) ws) L) ++ y
       /\ ev_name e = path ws /\ NoDup (map snd L) /\ (forall s n, In (s, n) L <-> innermost (concat (map ev_nested es)) ws s n).
Proof.
  intros c bf ks ts es orc D OV FI NC. destruct (C77_typedef c bf ks ts es orc D OV FI NC) as (g & o & K & d & A & B & C & H). exists g, o, K, d. split; [exact A|]. split; [exact B|]. split; [exact C|].
  intros pre k e post SP BG WD NO NG. destruct (H pre k e post SP WD) as (x & y & ws & L & ND & [(E & N & I1)|(_ & N & FW & _)]).
  - unfold ev_key2. now rewrite BG.
  - exact NG.
  - exists x, y, ws, L. auto.
  - rewrite N in BG. destruct ws as [|w ws]; [discriminate BG|]. rewrite rel_colons in BG by (assumption || discriminate). discriminate.
Qed.
(** ** The names alone *)
Definition named_ok (e : event) : Prop :=
  match e with EvTypedef _ _ n _ _ => word n /\ no_keyword n | EvEnum false _ p n _ => begins "class" (p ++ n) = false | _ => True end.
Lemma wo_any o e : is_def e = true -> named_ok e -> without_type_qualifier (x_type (act_of o e)) = ev_name e.
Proof.
  intros DF NO. destruct e as [k ns p name bases cs| | | |sc ns p name keys| |k ns name templ args bases cs|ns tag name bases cs]; try discriminate; unfold act_of; cbn [ev_actions hd x_type ev_name].
  - replace ((if k then bs "class " else bs "struct ") ++ p ++ name) with (kw k ++ bs " " ++ p ++ name) by (destruct k; reflexivity). apply wo_kw.
  - destruct sc; [apply wo_enumc|]. unfold without_type_qualifier. rewrite qual_enum2 by exact NO. reflexivity.
  - replace ((if k then bs "class " else bs "struct ") ++ ns ++ name ++ args) with (kw k ++ bs " " ++ ns ++ name ++ args) by (destruct k; reflexivity). apply wo_kw.
  - destruct NO as (W & K). now apply wo_free.
Qed.
Lemma file_any0 mbr respect ts es : file mbr respect (bs "::") ts es -> Forall any_shape es.
Proof. intros F. eapply file_any; [exact F|]. exists []. split; [reflexivity|constructor]. Qed.
Definition td_events : list event :=
  [EvFwd [] (bs "Q"); EvTypedef (bs "::N::") (Some (bs "S")) (bs "S") [] [Call (bs ".x") (bs "&S::x") (bs "arg") false];
   EvTypedef (bs "::N::") (Some []) (bs "V") [] [Call (bs ".y") (bs "&V::y") (bs "arg") false];
   EvTypedef (bs "::") None (bs "P") [] [Call [] (bs "arg") [] false]].
Example C77_typedef_ex : exists ts, file true true (bs "::") ts td_events /\ overloading (c_opts pointers) = false /\ c_workdir pointers = [] /\ Forall printable2 td_events
  /\ length (ev_pairs [bs "pack"; bs "unpack"] td_events) = 6%nat
  /\ (forall k e, In (k, e) (ev_pairs [bs "pack"; bs "unpack"] td_events) -> ~ In (ev_key2 k e) (ev_omits td_events))
  /\ NoDup (map (fun p => ev_guard (fst p) (snd p)) (ev_pairs [bs "pack"; bs "unpack"] td_events) ++ map ev_tguard (defs td_events))
  /\ map shown (exp_block2 (bs "pack") true false true (nth 1 td_events (EvFwd [] [])) [bs "typedef  S::E E;"]) =
  ["template <> struct access_pack<  S > {"; "template <class _CD_ARG_TYPE>";
   "void operator()(classdesc::pack_t& targ, const classdesc::string& desc,_CD_ARG_TYPE& arg)"; "{"; "using namespace ::N;"; "typedef  S::E E;";
   "::pack(targ,desc+"".x"",arg,&S::x);";
   "}"; "template <class _CD_TYPE>"; "void type(classdesc::pack_t& targ, const classdesc::string& desc)"; "{"; "using namespace ::N;"; "typedef  S::E E;";
   "::pack_type<_CD_TYPE, S >(targ,desc+"".x"",&S::x);"; "}"; "};"]%string.
Proof.
  destruct C73_typedef_ex as (ts & es & _ & FI & ->). exists ts. split; [exact FI|]. split; [reflexivity|]. split; [reflexivity|]. split.
  - assert (W : forall s, ident (bs s) = true -> forallb alnum_ (bs s) = true -> word (bs s)).
    { intros s A B. split; [exact A|]. apply Forall_forall. intros c X. rewrite forallb_forall in B. specialize (B c X). unfold alnum_, digit in B. apply Bool.orb_true_iff in B.
      destruct B as [B|B]; [now left|right]. apply Bool.andb_true_iff in B. rewrite !Nat.leb_le in B. exact B. }
    constructor; [exact Logic.I|].
    assert (K : forall ns tag s c, word (bs s) -> no_keyword (bs s) -> has "classdesc::is_constructor" (c_arg c) = false -> printable2 (EvTypedef ns tag (bs s) [] [c])).
    { intros ns tag s c A B C. split; [exact A|]. split; [exact B|]. split; [constructor|]. constructor; [|constructor]. rewrite <- has_contains, C. discriminate. }
    repeat (constructor; [apply K; [apply W; reflexivity|repeat constructor|vm_compute; reflexivity]|]). constructor.
  - split; [reflexivity|]. split; [intros k e _ []|]. split; [|vm_compute; reflexivity].
    apply (NoDup_count_occ' (list_eq_dec Ascii.ascii_dec)). intros x X. vm_compute in X. repeat destruct X as [<-|X]; [vm_compute; reflexivity..|destruct X].
Qed.
(** a type nested in a structure whose typedef has a name of one letter is not left out by a pragma: the name looked for has one colon *)
Theorem C77_typedef_omit_refuted : exists g o, of_text plain_opts "#pragma omit pack T::E
typedef struct { enum E {a}; int x; } T; " = Some g
  /\ output conf0 g none [bs "pack"] = Some o /\ In (bs "template <> struct access_pack< enum T::E > {") (o_std o).
Proof. eexists _, _. split; [vm_compute; reflexivity|]. split; [vm_compute; reflexivity|]. apply existsb_in. vm_compute. reflexivity. Qed.
(** with a name of two letters it is left out *)
Example C77_typedef_omit_ex : exists g o, of_text plain_opts "#pragma omit pack TT::E
typedef struct { enum E {a}; int x; } TT; " = Some g
  /\ output conf0 g none [bs "pack"] = Some o /\ ~ In (bs "template <> struct access_pack< enum TT::E > {") (o_std o) /\ In (bs "template <> struct access_pack<  TT > {") (o_std o).
Proof. eexists _, _. split; [vm_compute; reflexivity|]. split; [vm_compute; reflexivity|]. split; [rewrite <- existsb_in; vm_compute; discriminate|]. apply existsb_in. vm_compute. reflexivity. Qed.

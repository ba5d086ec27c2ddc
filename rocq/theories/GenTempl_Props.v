(** * Class templates, from the declaration to the text printed: C84 *)
From Verif Require Import Base Base_Proofs SMap Dec Desc_Model Tok_Model Parse_Model Parse_Props Ns_Props ClassParse_Model ClassParse_Spec ClassFile_Spec ClassFile_Proofs ClassParse_Props ClassNest_Props
  Gen_Model GenPP_Props Gen_Props GenFile_Props GenTd_Props GenName_Props.

(** ** When a base class is named with typename *)
(** C++ allows it for a qualified name only *)
Theorem C84_qualified : forall templ b, typed templ b -> exists q r, b = q ++ bs "::" ++ r.
Proof. intros templ b (q & r & _ & _ & _ & (E & _) & _). eauto. Qed.
Print Assumptions C84_qualified.
(** and asks for it when an identifier of the parameters is in the qualification *)
Theorem C84_dependent : forall templ b q r w, qual q r b -> word_in w templ -> word_in w q -> typed templ b.
Proof.
  intros templ b q r w Q T (x & d & y & E & X & D & ID & AL & Y). exists q, r, w, (x ++ d), y. split; [exact Q|]. split; [exact T|]. split.
  - destruct Q as (-> & _). exists x, d, (y ++ bs "::" ++ r). rewrite E. split; [now rewrite <- !app_assoc|]. repeat split; auto. destruct y; [reflexivity|exact Y].
  - now rewrite <- app_assoc.
Qed.
Print Assumptions C84_dependent.
Example C84_dependent_ex : qual (bs "A<T>") (bs "B<int>") (bs "A<T>::B<int>") /\ word_in (bs "T") (bs "< class T , int N > ") /\ word_in (bs "T") (bs "A<T>").
Proof.
  split; [|split].
  - split; [reflexivity|]. split; [reflexivity|]. intros q' r' E N. assert (L : (length q' <= 4)%nat \/ (5 <= length q')%nat) by lia. destruct L as [L|L].
    + apply (f_equal (@length ascii)) in E. rewrite !app_length in E. cbn [length bs list_ascii_of_string] in *. lia.
    + exfalso. assert (X : exists z, bs ":B<int>" = z ++ bs "::" ++ r').
      { exists (skipn 5 q'). change (bs ":B<int>") with (skipn 5 (bs "A<T>::B<int>")). rewrite E, skipn_app. replace (5 - length q')%nat with 0%nat by lia. reflexivity. }
      destruct X as (z & X). assert (H : has "::" (bs ":B<int>") = true) by (apply has_contains; exists z, r'; exact X). discriminate.
  - exists (bs "< class "), [], (bs " , int N > "). repeat split; repeat constructor.
  - exists (bs "A<"), [], (bs ">"). repeat split; repeat constructor.
Qed.

(** ** Declarations one after the other *)
Ltac lists := repeat progress (cbn [app]; rewrite <- ?app_assoc).
Lemma file_app mbr re ns u eu : file mbr re ns u eu -> forall v ev, file mbr re ns v ev -> file mbr re ns (u ++ v) (eu ++ ev).
Proof.
  induction 1; intros v ev V; lists.
  - exact V.
  - apply f_tok; auto.
  - apply f_brace; auto.
  - apply f_ns; auto.
  - apply f_anon; auto.
  - apply f_alias; auto.
  - apply f_using; auto.
  - apply f_typedef; auto.
  - apply f_tdfwd; auto.
  - eapply f_tdclass; eauto. specialize (IHfile _ _ V). now rewrite <- app_assoc in IHfile.
  - eapply f_tdanon; eauto. specialize (IHfile _ _ V). now rewrite <- app_assoc in IHfile.
  - apply f_tdunion; auto.
  - apply f_pragma; auto.
  - apply f_node; auto.
  - apply f_paren; auto.
  - apply f_fwd; auto.
  - eapply f_class; eauto.
  - apply f_enum; auto.
  - eapply f_tclass; eauto.
  - apply f_tfwd; auto.
  - eapply f_tother; eauto.
  - eapply f_tusing; eauto.
  - apply f_inst; auto.
  - eapply f_spec; eauto.
  - apply f_sfwd; auto.
  - apply f_enum0; auto.
Qed.

Section Printed.
  Variables (c : conf) (bf : tok -> tok) (ks : list tok).
  Let o := c_opts c.
  (** ** The text for a template, between declarations [u] and [v] *)
  Theorem C84_template : forall u eu v ev ps par k name sp bl fl b rs cs fs us orc D,
    overloading o = false -> file (use_mbr o) (respect_private o) (bs "::") u eu -> file (use_mbr o) (respect_private o) (bs "::") v ev ->
    params_ok ps par -> word name -> sp_ok sp -> Forall bspec_ok bl -> balanced (bs "{") (bs "}") b ->
    body (use_mbr o) (respect_private o) (bs "::") true (bs "::" ++ name ++ targs_of ps sp ++ bs "::") name true k false b rs cs fs us ->
    Forall2 (fun (f : bool) b => last b " "%char <> "<"%char /\ (f = true <-> typed (templ_of ps) b)) fl (base_names (respect_private o) k bl) ->
    let e := EvTempl k (bs "::") name (templ_of ps) (targs_of ps sp) (combine fl (base_names (respect_private o) k bl)) (chosen cs fs us) in
    let es := eu ++ rs ++ e :: ev in
    Forall printable2 es ->
    exists g r K dd, generate o (u ++ (bs "template" :: bs "<" :: par ++ bs ">" :: kw k :: name :: sptoks sp ++ btoks bl ++ bs "{" :: b ++ [bs "}"]) ++ v) = CEof g
    /\ output c g bf ks = Some r /\ pp orc D [] (o_std r) = Some (K, dd)
    /\ forall pre d post, ev_pairs ks es = pre ++ (d, e) :: post ->
       ~ In (ev_key d e) (ev_omits es ++ concat (map (fun k => omits_in (bf k)) ks)) ->
       ~ In (ev_guard d e) (D ++ map ev_tguard (defs es) ++ map (fun p => ev_guard (fst p) (snd p)) pre) ->
       exists x y ws L, K = x ++ exp_struct d (templ_of ps) (kw k) (bs "::" ++ name ++ targs_of ps sp) (map (typedef_line true ws) L)
           (map (fun fb : bool * tok => exp_base d (onBase o) ((if fst fb then bs "typename " else []) ++ snd fb)) (combine fl (base_names (respect_private o) k bl))
             ++ map (exp_call d) (chosen cs fs us))
           (concat (map (fun fb : bool * tok => exp_tbase d (onBase o) (snd fb)) (combine fl (base_names (respect_private o) k bl)))
             ++ concat (map (exp_tcall d (use_mbr o) (kw k) (bs "::" ++ name ++ targs_of ps sp)) (chosen cs fs us))) ++ y
         /\ ev_name e = path ws /\ NoDup (map snd L) /\ (forall s n, In (s, n) L <-> innermost (concat (map ev_nested es)) ws s n).
  Proof.
    intros u eu v ev ps par k name sp bl fl b rs cs fs us orc D OV U V P W SP B BB BD FL e es NC.
    assert (F : file (use_mbr o) (respect_private o) (bs "::") (u ++ (bs "template" :: bs "<" :: par ++ bs ">" :: kw k :: name :: sptoks sp ++ btoks bl ++ bs "{" :: b ++ [bs "}"]) ++ v) es).
    { unfold es. apply file_app; [exact U|]. lists. eapply f_tclass; eauto. }
    destruct (abs_file c bf ks _ es orc D OV F NC) as (g & r & K & dd & G & O & PP & H). exists g, r, K, dd. split; [exact G|]. split; [exact O|]. split; [exact PP|].
    intros pre d post E N1 N2. destruct (H pre d e post E eq_refl (or_intror eq_refl) N1 N2) as (x & y & ws & L & HK & REST). exists x, y, ws, L. split; [exact HK|exact REST].
  Qed.
  (** ** and for a full specialisation *)
  Theorem C84_specialised : forall u eu v ev k name a ka bl b rs cs fs us orc D, c_workdir c = [] ->
    overloading o = false -> file (use_mbr o) (respect_private o) (bs "::") u eu -> file (use_mbr o) (respect_private o) (bs "::") v ev ->
    word name -> sp_ok (Some (a, ka)) -> Forall bspec_ok bl -> balanced (bs "{") (bs "}") b ->
    body (use_mbr o) (respect_private o) (bs "::") false (bs "::" ++ name ++ targs_of [] (Some (a, ka)) ++ bs "::") name true k false b rs cs fs us ->
    let e := EvClass k (bs "::") (bs "::") (name ++ targs_of [] (Some (a, ka))) (base_names (respect_private o) k bl) (chosen cs fs us) in
    let es := eu ++ rs ++ e :: ev in
    Forall printable2 es ->
    exists g r K dd, generate o (u ++ (bs "template" :: bs "<" :: bs ">" :: kw k :: name :: sptoks (Some (a, ka)) ++ btoks bl ++ bs "{" :: b ++ [bs "}"]) ++ v) = CEof g
    /\ output c g bf ks = Some r /\ pp orc D [] (o_std r) = Some (K, dd)
    /\ forall pre d post, ev_pairs ks es = pre ++ (d, e) :: post ->
       ~ In (ev_key d e) (ev_omits es ++ concat (map (fun k => omits_in (bf k)) ks)) ->
       ~ In (ev_guard d e) (D ++ map ev_tguard (defs es) ++ map (fun p => ev_guard (fst p) (snd p)) pre) ->
       exists x y ws L, K = x ++ exp_struct d (bs "<>") (kw k) (bs "::" ++ name ++ targs_of [] (Some (a, ka))) (map (typedef_line false ws) L)
           (map (exp_base d (onBase o)) (base_names (respect_private o) k bl) ++ map (exp_call d) (chosen cs fs us))
           (concat (map (exp_tbase d (onBase o)) (base_names (respect_private o) k bl))
             ++ concat (map (exp_tcall d (use_mbr o) (kw k) (bs "::" ++ name ++ targs_of [] (Some (a, ka)))) (chosen cs fs us))) ++ y
         /\ ev_name e = path ws /\ NoDup (map snd L) /\ (forall s n, In (s, n) L <-> innermost (concat (map ev_nested es)) ws s n).
  Proof.
    intros u eu v ev k name a ka bl b rs cs fs us orc D WD OV U V W SP B BB BD e es NC.
    assert (F : file (use_mbr o) (respect_private o) (bs "::") (u ++ (bs "template" :: bs "<" :: bs ">" :: kw k :: name :: sptoks (Some (a, ka)) ++ btoks bl ++ bs "{" :: b ++ [bs "}"]) ++ v) es).
    { unfold es. apply file_app; [exact U|]. lists. eapply f_spec; eauto. }
    destruct (abs_file c bf ks _ es orc D OV F NC) as (g & r & K & dd & G & O & PP & H). exists g, r, K, dd. split; [exact G|]. split; [exact O|]. split; [exact PP|].
    intros pre d post E N1 N2. destruct (H pre d e post E eq_refl (or_introl WD) N1 N2) as (x & y & ws & L & HK & REST). exists x, y, ws, L. split; [exact HK|exact REST].
  Qed.
  (** ** The name of a template *)
  Theorem C84_name : forall ts e1 k ns name templ args bases cs e2 qs rest orc D, overloading o = false -> typeNm o = true ->
    file (use_mbr o) (respect_private o) (bs "::") ts (e1 ++ EvTempl k ns name templ args bases cs :: e2) -> Forall named_ok (e1 ++ e2) ->
    word name -> templ = params_text qs -> args = bs "<" ++ rest -> Forall par_ok qs -> ~ contains "template" templ ->
    ~ In (ev_tguard (EvTempl k ns name templ args bases cs)) (D ++ map ev_tguard (defs e1)) ->
    exists g r K dd x y, generate o ts = CEof g /\ output c g bf ks = Some r /\ pp orc D [] (o_std r) = Some (K, dd)
    /\ K = x ++ [bs "template " ++ templ ++ bs " struct tn< " ++ ns ++ name ++ args ++ bs " >"; bs "{"; bs "static std::string name()";
                 bs "  {return """ ++ ns ++ name ++ params_name qs ++ bs """;}"; bs "};"] ++ y.
  Proof.
    intros ts e1 k ns name templ args bases cs e2 qs rest orc D OV TN FI NT0 W TE AR OK NT NG. set (e := EvTempl k ns name templ args bases cs) in *.
    destruct (C73_file o ts _ OV FI) as (g & GE & GA & _ & _ & GO & GT & _ & _ & _).
    pose proof (file_any0 _ _ _ _ FI) as SH.
    rewrite actions_defs in GA.
    destruct (names_exist g (g_actions g)) as (tn & TT). { rewrite GA. apply Forall_forall. intros a X. apply in_map_iff in X. destruct X as (e0 & <- & X). apply filter_In in X. destruct X as (X & _). rewrite Forall_forall in SH. apply templ_any. now apply SH. }
    assert (OUT : exists r, output c g bf ks = Some r) by (unfold output; rewrite TT; eauto). destruct OUT as (r & OUT).
    assert (TD : tidy g) by (intros q X; rewrite GO in X; destruct X).
    assert (DEF : g_actions g = map (act_of o) (defs e1) ++ act_of o e :: map (act_of o) (defs e2)).
    { rewrite GA. unfold defs. rewrite filter_app. cbn [filter is_def e]. now rewrite map_app. }
    rewrite Forall_forall in SH. assert (SE : ev_shape e) by (destruct (SH e) as [X|[]]; [apply in_or_app; right; left; reflexivity|exact X]). rewrite in_app_iff in NG.
    assert (TY : x_type (act_of o e) = kw k ++ bs " " ++ (ns ++ name) ++ bs "<" ++ rest).
    { unfold act_of, e. cbn [ev_actions hd x_type]. rewrite AR. destruct k; cbn [kw]; now rewrite <- !app_assoc. }
    assert (WO : without_type_qualifier (x_type (act_of o e)) = ev_name e).
    { rewrite TY, wo_kw. unfold e. cbn [ev_name]. now rewrite AR, <- !app_assoc. }
    assert (NB : ~ In "<"%char (ns ++ name)).
    { intros X. apply in_app_or in X. destruct X as [X|X]; [|apply word_free in W; destruct W; contradiction].
      destruct SE as ((ws & -> & WS) & _). apply in_app_or in X. destruct X as [X|[X|[X|[]]]]; try discriminate. unfold path in X. apply in_concat in X. destruct X as (z & Z & X).
      apply in_map_iff in Z. destruct Z as (w & <- & Z). rewrite Forall_forall in WS. apply WS, word_free in Z. apply in_app_or in X. destruct X as [[X|[X|[]]]|X]; try discriminate. destruct Z; contradiction. }
    destruct (C78_printed c g bf ks r orc D _ _ _ qs k (ns ++ name) rest OUT GT TD TN DEF) as (K & dd & x & y & PP & EK); auto.
    { now rewrite <- TE. }
    { unfold tguard. rewrite WO. intros X. apply NG. left. exact X. }
    { intros X. apply NG. right. unfold tguards in X. apply in_map_iff in X. destruct X as (a & EQ & X). apply filter_In in X. destruct X as (X & _). apply in_map_iff in X. destruct X as (e0 & <- & X).
      apply in_map_iff. exists e0. split; [|exact X]. unfold tguard in EQ. rewrite WO in EQ. unfold ev_tguard. rewrite <- EQ. f_equal. f_equal.
      apply filter_In in X. destruct X as (X & DF). symmetry. apply wo_any; [exact DF|]. rewrite Forall_forall in NT0. apply NT0, in_or_app. left. exact X. }
    exists g, r, K, dd, x, y. split; [exact GE|]. split; [exact OUT|]. split; [exact PP|]. rewrite EK, TE, AR. now rewrite <- !app_assoc.
  Qed.
End Printed.
Print Assumptions C84_template.
Print Assumptions C84_specialised.
Print Assumptions C84_name.
(** [template <class T, int N=3> struct S : public B<T>, T::I { T x; enum E {a}; }; template <> struct S<int,2> { int y; };] *)
Definition ps84 : list param := [{| ptype := [PId (bs "class")]; pdots := false; pname := bs "T" |}; {| ptype := [PId (bs "int")]; pdots := false; pname := bs "N" |}].
Definition par84 : list tok := [bs "class"; bs "T"; bs ","; bs "int"; bs "N"; bs "="; bs "3"].
Definition bl84 : list bspec := [BSpec false (Some Public) false [BInst (bs "B") [bs "T"; bs ">"]]; BSpec false None false [BWord (bs "T"); BWord (bs "::"); BWord (bs "I")]].
Definition a84 : list tok := [bs "int"; bs ","; bs "2"].
Definition int_y : mem := MData (Decl [wd "int"] (bs "y") DNone) [].
Definition T_x : mem := MData (Decl [wd "T"] (bs "x") DNone) [].
Definition en84 : enumdef := EnumDef false (bs "E") None [] (bs "a", None) false.
Definition body84 : list tok := mtoks1 T_x ++ enumtoks en84 ++ [].
Definition src84 : string := "template <class T, int N=3> struct S : public B<T>, T::I { T x; enum E {a}; }; template <> struct S<int,2> { int y; }; ".
Definition S84 : event := EvTempl false (bs "::") (bs "S") (bs "< class T , int N > ") (bs "<T,N>") [(false, bs "B< T > "); (true, bs "T::I")] [Call (bs ".x") (bs "arg.x") [] false].
Definition events84 : list event := [EvEnum false (bs "::") (bs "::S<T,N>::") (bs "E") [bs "a"]; S84; EvClass false (bs "::") (bs "::") (bs "S< int , 2 > ") [] [Call (bs ".y") (bs "arg.y") [] false]].
Lemma params84 : params_ok ps84 par84.
Proof.
  assert (ID : forall t, t <> [] -> forallb isident t = true -> ptok_ok (PId t)).
  { intros t N H. split; [exact N|]. apply Forall_forall. apply forallb_forall. exact H. }
  split; [discriminate|]. split; [|split].
  - repeat constructor; try (apply ID; [discriminate|reflexivity]); try discriminate; cbn; intuition discriminate.
  - unfold par84. cbn. repeat (apply t_tok; [reflexivity|]). apply (t_dflt (bs "=") [bs "3"] [] []); [reflexivity| |apply t_nil|now left]. apply d_tok; [discriminate|reflexivity|apply d_nil].
  - unfold par84. gram.
Qed.
Lemma body84_ok : body false false (bs "::") true (bs "::S<T,N>::") (bs "S") true false false body84 [EvEnum false (bs "::") (bs "::S<T,N>::") (bs "E") [bs "a"]]
  [Call (bs ".x") (bs "arg.x") [] false] [] [].
Proof.
  unfold body84. change [Call (bs ".x") (bs "arg.x") [] false] with (seen false false (calls1 false (bs "::S<T,N>::") (bs "S") T_x) ++ []).
  apply bd_data; [gram|intros; discriminate|]. apply (bd_enum false false (bs "::") true en84); [unfold enum_ok, en84; cbn [e_name e_class e_under e_keys e_last]; engram|]. apply bd_nil.
Qed.
Lemma typed84 : Forall2 (fun (f : bool) b => last b " "%char <> "<"%char /\ (f = true <-> typed (templ_of ps84) b)) [false; true] (base_names false false bl84).
Proof.
  constructor; [|constructor; [|constructor]]; (split; [discriminate|]).
  - split; [discriminate|]. intros T. apply C84_qualified in T. apply has_contains in T. discriminate.
  - split; [intros _|reflexivity]. apply (C84_dependent _ _ (bs "T") (bs "I") (bs "T")).
    + split; [reflexivity|]. split; [reflexivity|]. intros q' r' E _. assert (L : (length q' <= 1)%nat \/ (2 <= length q')%nat) by lia. destruct L as [L|L].
      * apply (f_equal (@length ascii)) in E. rewrite !app_length in E. cbn in E. cbn [length bs list_ascii_of_string] in *. lia.
      * exfalso. apply (f_equal (@length ascii)) in E as E2. rewrite !app_length in E2. cbn in E2.
        assert (X : exists z, bs ":I" = z ++ bs "::" ++ r').
        { exists (skipn 2 q'). change (bs ":I") with (skipn 2 (bs "T::I")). change (ptext _) with (bs "T::I") in E. rewrite E, skipn_app. replace (2 - length q')%nat with 0%nat by lia. reflexivity. }
        destruct X as (z & X). assert (H : has "::" (bs ":I") = true) by (apply has_contains; exists z, r'; exact X). discriminate.
    + exists (bs "< class "), [], (bs " , int N > "). repeat split; repeat constructor.
    + exists [], [], []. repeat split; repeat constructor.
Qed.
Lemma spec84 : sp_ok (Some (a84, a84)).
Proof.
  split; [|split; [unfold a84; gram|]].
  - unfold a84. repeat (apply t_tok; [reflexivity|]). apply t_nil.
  - apply Forall_forall. intros t [<-|[<-|[<-|[]]]]; right; right; repeat constructor; discriminate.
Qed.
Example C84_file_ex : file false false (bs "::") (scan src84) events84.
Proof.
  replace (scan src84) with ((bs "template" :: bs "<" :: par84 ++ bs ">" :: kw false :: bs "S" :: sptoks None ++ btoks bl84 ++ bs "{" :: body84 ++ bs "}" ::
      bs ";" :: bs "template" :: bs "<" :: bs ">" :: kw false :: bs "S" :: sptoks (Some (a84, a84)) ++ btoks [] ++ bs "{" :: (mtoks1 int_y ++ []) ++ [bs "}"; bs ";"])) by (vm_compute; reflexivity).
  replace events84 with ([EvEnum false (bs "::") (bs "::S<T,N>::") (bs "E") [bs "a"]] ++ EvTempl false (bs "::") (bs "S") (templ_of ps84) (targs_of ps84 None)
      (combine [false; true] (base_names false false bl84)) (chosen [Call (bs ".x") (bs "arg.x") [] false] [] [])
    :: ([] ++ EvClass false (bs "::") (bs "::") (bs "S" ++ targs_of [] (Some (a84, a84))) (base_names false false []) (chosen [Call (bs ".y") (bs "arg.y") [] false] [] []) :: [])) by (vm_compute; reflexivity).
  apply (f_tclass false false (bs "::") ps84 par84 false (bs "S") None bl84 [false; true] body84 _ [Call (bs ".x") (bs "arg.x") [] false] [] []
     (bs ";" :: bs "template" :: bs "<" :: bs ">" :: kw false :: bs "S" :: sptoks (Some (a84, a84)) ++ btoks [] ++ bs "{" :: (mtoks1 int_y ++ []) ++ [bs "}"; bs ";"])
     ([] ++ EvClass false (bs "::") (bs "::") (bs "S" ++ targs_of [] (Some (a84, a84))) (base_names false false []) (chosen [Call (bs ".y") (bs "arg.y") [] false] [] []) :: [])).
  - exact params84.
  - now apply wordb.
  - exact Logic.I.
  - repeat constructor; try discriminate; unfold piece_ok; gram; nin.
  - exact body84_ok.
  - exact typed84.
  - unfold body84. cbn. repeat first [apply b_tok; [discriminate|discriminate|]|apply (b_nest (bs "{") (bs "}") [bs "a"]); [gram|]]. apply b_nil.
  - apply f_tok; [reflexivity|].
    apply (f_spec false false (bs "::") false (bs "S") a84 a84 [] (mtoks1 int_y ++ []) [] [Call (bs ".y") (bs "arg.y") [] false] [] [] [bs ";"] []).
    + now apply wordb.
    + exact spec84.
    + constructor.
    + change [Call (bs ".y") (bs "arg.y") [] false] with (seen false false (calls1 false (bs "::" ++ bs "S" ++ targs_of [] (Some (a84, a84)) ++ bs "::") (bs "S") int_y) ++ []).
      apply bd_data; [gram|intros; discriminate|apply bd_nil].
    + cbn. gram.
    + apply f_tok; [reflexivity|apply f_nil].
Qed.
(** the hypotheses of C84_template and C84_specialised, and the lines they ask for *)
Example C84_template_ex : params_ok ps84 par84 /\ word (bs "S") /\ sp_ok None /\ sp_ok (Some (a84, a84)) /\ Forall bspec_ok bl84 /\ Forall printable2 events84
  /\ ~ In (ev_key (bs "d") S84) (ev_omits events84)
  /\ NoDup (map (fun p => ev_guard (fst p) (snd p)) (ev_pairs [bs "d"; bs "pack"] events84) ++ map ev_tguard (defs events84))
  /\ map shown (exp_block (bs "d") false false false S84 [bs "typedef typename ::S<T,N>::E E;"]) =
  ["template < class T , int N >  struct access_d< struct ::S<T,N> > {"; "template <class _CD_ARG_TYPE>";
   "void operator()(classdesc::d_t& targ, const classdesc::string& desc,_CD_ARG_TYPE& arg)"; "{"; "typedef typename ::S<T,N>::E E;";
   "::d(targ,desc+"""",classdesc::base_cast<B< T >  >::cast(arg));"; "::d(targ,desc+"""",classdesc::base_cast<typename T::I >::cast(arg));";
   "::d(targ,desc+"".x"",arg.x);"; "}"; "template <class _CD_TYPE>"; "void type(classdesc::d_t& targ, const classdesc::string& desc)"; "{"; "typedef typename ::S<T,N>::E E;"; "}"; "};"]%string.
Proof.
  split; [exact params84|]. split; [now apply wordb|]. split; [exact Logic.I|]. split; [exact spec84|]. split; [repeat constructor; try discriminate; unfold piece_ok; gram; nin|].
  split; [repeat (constructor; [try reflexivity|]); repeat constructor; rewrite <- has_contains; vm_compute; discriminate|]. split; [intros []|]. split; [|vm_compute; reflexivity].
  apply (NoDup_count_occ' (list_eq_dec Ascii.ascii_dec)). intros x X. vm_compute in X. repeat destruct X as [<-|X]; [vm_compute; reflexivity..|destruct X].
Qed.
Example C84_name_ex : bs "< class T , int N > " = params_text [TType (bs "class") (bs "T"); TValue (bs "int N")] /\ bs "<T,N>" = bs "<" ++ bs "T,N>"
  /\ Forall par_ok [TType (bs "class") (bs "T"); TValue (bs "int N")] /\ ~ contains "template" (bs "< class T , int N > ")
  /\ ~ In (ev_tguard S84) (map ev_tguard (defs (firstn 1 events84))).
Proof.
  split; [reflexivity|]. split; [reflexivity|]. split; [|split; [rewrite <- has_contains; vm_compute; discriminate|vm_compute; intuition discriminate]].
  repeat constructor; try (left; reflexivity); rewrite <- has_contains; vm_compute; discriminate.
Qed.

(** ** What is not so *)
Definition onbase : conf := k_opts (Opts false false true false false) conf0.
(** with -onbase, type() names a dependent base class without typename *)
Theorem C84_onbase_typename_refuted : exists g o, of_text (c_opts onbase) "template <class T> struct S : public T::I { T x; }; " = Some g /\ output onbase g none [bs "d"] = Some o
  /\ In (bs "::d_onbase(targ,desc+"""",classdesc::base_cast<typename T::I >::cast(arg));") (o_std o) /\ In (bs "::d<_CD_TYPE,T::I >(targ,desc+"""");") (o_std o).
Proof. eexists _, _. split; [vm_compute; reflexivity|]. split; [vm_compute; reflexivity|]. split; apply existsb_in; vm_compute; reflexivity. Qed.
(** two partial specialisations that differ in punctuation have one guard: the second is not described *)
Theorem C84_guard_refuted : exists g o K d, of_text plain_opts "template <class T> struct A<T*> { T x; }; template <class T> struct A<T&> { T y; }; " = Some g
  /\ output conf0 g none [bs "d"] = Some o /\ pp (fun _ => false) [] [] (o_std o) = Some (K, d)
  /\ In (bs "template < class T >  struct access_d< struct ::A< T * >  > {") K /\ ~ In (bs "template < class T >  struct access_d< struct ::A< T & >  > {") K.
Proof.
  eexists _, _, _, _. split; [vm_compute; reflexivity|]. split; [vm_compute; reflexivity|]. split; [vm_compute; reflexivity|]. split; [apply existsb_in; vm_compute; reflexivity|].
  rewrite <- existsb_in. vm_compute. discriminate.
Qed.
(** a class nested in a full specialisation is a type like any other, but is not described *)
Theorem C84_nested_refuted : exists g, of_text plain_opts "template <> struct X<int> { struct Y { int a; }; int b; }; " = Some g
  /\ map (fun a => shown (x_type a)) (g_actions g) = ["struct ::X< int > "]%string /\ map (fun p => (shown (fst p), shown (snd p))) (g_nested g) = [("::X< int > ::", "Y")]%string.
Proof. eexists. split; [vm_compute; reflexivity|]. split; vm_compute; reflexivity. Qed.
(** an enumeration of a specialisation is looked for with a blank in its name, those of the pragmas have none *)
Theorem C84_omit_refuted : exists g a o, of_text plain_opts "
#pragma omit d S::E
template <class T> struct S<T*> { enum E {a}; }; " = Some g /\ In a (g_actions g) /\ shown (x_type a) = "enum ::S< T * > ::E"%string
  /\ map (fun p => shown (snd p)) (g_prag g) = ["dS::E"]%string /\ shown (plain_name 0 (without_type_qualifier (x_type a)) 0 false) = "S ::E"%string
  /\ output conf0 g none [bs "d"] = Some o /\ In (bs "template <> struct access_d< enum ::S< T * > ::E > {") (o_std o).
Proof.
  eexists _, _, _. split; [vm_compute; reflexivity|]. split; [left; reflexivity|]. split; [vm_compute; reflexivity|]. split; [vm_compute; reflexivity|]. split; [vm_compute; reflexivity|].
  split; [vm_compute; reflexivity|]. apply existsb_in. vm_compute. reflexivity.
Qed.

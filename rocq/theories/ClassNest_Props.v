(** * Everything a class may contain: C83 *)
From Verif Require Import Base Base_Proofs SMap Dec Desc_Model Tok_Model Parse_Model Parse_Props Ns_Props.
From Verif Require Import ClassParse_Model ClassParse_Proofs ClassParse_Spec ClassFile_Spec ClassMem_Proofs ClassFile_Proofs ClassEnum_Proofs ClassNest_Proofs ClassLoop_Proofs ClassParse_Props.

(** what is recorded for the class itself and in passing, the rest of the tables being unchanged *)
Definition records (o : opts) (rs : list event) (g g' : glob) : Prop :=
  g_actions g' = g_actions g ++ concat (map (ev_actions o) rs) /\ g_enums g' = g_enums g ++ concat (map ev_enums rs)
  /\ g_types g' = g_types g ++ concat (map ev_types rs) /\ g_nested g' = g_nested g ++ concat (map ev_nested rs)
  /\ g_prag g' = g_prag g ++ concat (map ev_prags rs) /\ g_over g' = g_over g /\ g_out g' = g_out g /\ g_err g' = g_err g /\ g_ns g' = g_ns g.
Lemma evs_records o rs g : records o rs g (evs_eff o rs g).
Proof.
  destruct (evs_parts o rs g) as (A & B & C & D & E & F & G & H). unfold records. rewrite A, B, C, D, E, F, G, H, evs_eff_ns. repeat split; reflexivity.
Qed.
(** the class [c], in the scope [p], of the namespace [ns] *)
Theorem C83_class : forall o fuel k ns q c bl b rs cs fs us g t2 t1 t m rest,
  overloading o = false -> ends ns -> g_ns g = ns -> (exists x, q = x ++ bs "::") -> ~ In "<"%char q -> ~ In ">"%char q -> word c ->
  Forall bspec_ok bl -> body (use_mbr o) (respect_private o) ns false (q ++ c ++ bs "::") c false k false b rs cs fs us ->
  (length b < fuel)%nat -> btoks bl ++ bs "{" :: b ++ bs "}" :: rest = t :: m ->
  exists g' x y, parse_class o fuel k (q ++ c ++ bs "::") [] g (Inp t2 t1 t m)
    = COk (map (fun n => Act [] (bs "classdesc::base_cast<" ++ n ++ bs " >::cast(arg)") (if onBase o then n else []) false (onBase o)) (base_names (respect_private o) k bl)
           ++ map (fun c => Act (c_name c) (c_arg c) (c_member c) (c_static c) false) (chosen cs fs us)) g' (Inp x y (bs "}") rest)
    /\ records o rs g g'.
Proof.
  intros o fuel k ns q c bl b rs cs fs us g t2 t1 t m rest OV EN GN (z & Q) NL NG W B BD FU E.
  destruct (body_names _ _ _ _ _ _ _ _ _ _ _ _ _ _ BD) as (U & N).
  assert (SC : scope false (q ++ c ++ bs "::") c false []).
  { split; [reflexivity|]. split; [now apply word_ne|]. split; [exists (q ++ c); now rewrite app_assoc|].
    assert (FQ : free q) by (split; assumption).
    split; [|split; [apply class_part_name; [exists z; exact Q|exact FQ|exact W]|reflexivity]].
    apply free_app; [exact FQ|]. apply free_app; [now apply word_free|exact free_colons]. }
  destruct (good_class o OV ns false _ _ _ _ _ _ _ _ _ bl (body_run o OV ns EN false _ _ _ _ _ _ _ _ _ _ BD) U N B fuel [] g t2 t1 t m rest SC FU GN E) as (x & y & R).
  exists (evs_eff o rs g), x, y. split; [|apply evs_records]. rewrite R. rewrite bacts_plain. reflexivity.
Qed.
Print Assumptions C83_class.
(** a text with every kind of member *)
Definition src2 : string := "namespace N { class S : public B { typedef int T; struct H { int q; }; public: typedef std::vector<int> V; S(int a); S& operator=(const S& s) { return f(s); }
 bool operator()(int a) const; template <class U> void put(U u) {} using B::get; int get(); int a; union { int i; float f; } u; union { int j; };
 enum class Col { red, blue=3 }; enum { big = 7 }; friend class X; class Fwd; struct In : V { int z; struct Deep { double d; void m(); }; static const int c; }; void g(int) {} protected: int h; }; } ".
Definition dm (t n : string) : mem := MData (Decl [wd t] (bs n) DNone) [].
Definition body_H : list tok := mtoks1 (dm "int" "q").
Definition body_Deep : list tok := mtoks1 (dm "double" "d") ++ mtoks1 (MFun [wd "void"] (bs "m") None [] None).
Definition body_In : list tok := mtoks1 (dm "int" "z") ++ kw false :: bs "Deep" :: btoks [] ++ bs "{" :: body_Deep ++ bs "}" :: bs ";" :: mtoks1 (MData (Decl [EStatic; EConst; wd "int"] (bs "c") DNone) []).
Definition en3 : enumdef := EnumDef true (bs "Col") None [(bs "red", None)] (bs "blue", Some [bs "3"]) false.
Definition body_S : list tok :=
  bs "typedef" :: [bs "int"] ++ bs "T" :: bs ";" ::
  kw false :: bs "H" :: btoks [] ++ bs "{" :: body_H ++ bs "}" :: bs ";" ::
  acctok Public :: bs ":" ::
  bs "typedef" :: [bs "std"; bs "::"; bs "vector"; bs "<"; bs "int"; bs ">"] ++ bs "V" :: bs ";" ::
  mtoks1 (MFun [] (bs "S") (Some [bs "int"; bs "a"]) [] None) ++
  etoks [wd "S"; wd "&"] ++ bs "operator" :: [bs "="] ++ argtoks (Some [bs "const"; bs "S"; bs "&"; bs "s"]) ++ [] ++ endtoks (Some [bs "return"; bs "f"; bs "("; bs "s"; bs ")"; bs ";"]) ++
  etoks [wd "bool"] ++ bs "operator" :: [bs "()"] ++ argtoks (Some [bs "int"; bs "a"]) ++ [bs "const"] ++ endtoks None ++
  bs "template" :: bs "<" :: [bs "class"; bs "U"] ++ bs ">" :: mtoks1 (MFun [wd "void"] (bs "put") (Some [bs "U"; bs "u"]) [] (Some [])) ++
  bs "using" :: [bs "B"; bs "::"] ++ bs "get" :: bs ";" ::
  mtoks1 (MFun [wd "int"] (bs "get") None [] None) ++
  mtoks1 (dm "int" "a") ++
  bs "union" :: bs "{" :: [bs "int"; bs "i"; bs ";"; bs "float"; bs "f"; bs ";"] ++ bs "}" :: bs "u" :: bs ";" ::
  bs "union" :: bs "{" :: [bs "int"; bs "j"; bs ";"] ++ bs "}" :: bs ";" ::
  enumtoks en3 ++
  bs "enum" :: [bs "{"; bs "big"; bs "="; bs "7"] ++ bs "}" :: bs ";" ::
  bs "friend" :: [bs "class"; bs "X"] ++ bs ";" ::
  kw true :: bs "Fwd" :: bs ";" ::
  kw false :: bs "In" :: btoks [BSpec false None false [BWord (bs "V")]] ++ bs "{" :: body_In ++ bs "}" :: bs ";" ::
  mtoks1 (MFun [wd "void"] (bs "g") (Some [bs "int"]) [] (Some [])) ++
  acctok Protected :: bs ":" ::
  mtoks1 (dm "int" "h") ++ [].
Example C83_src : scan src2 = [bs "namespace"; bs "N"; bs "{"] ++ kw true :: bs "S" :: btoks [BSpec false (Some Public) false [BWord (bs "B")]] ++ bs "{" :: body_S ++ [bs "}"; bs ";"; bs "}"].
Proof. vm_compute. reflexivity. Qed.
Lemma wordb s : ident (bs s) = true -> forallb letter (bs s) = true -> word (bs s).
Proof. intros A B. split; [exact A|]. apply Forall_forall. intros c I. rewrite forallb_forall in B. left. now apply B. Qed.
Ltac nin := cbn; intuition discriminate.
Definition evs2 : list event :=
  [EvKnown (bs "::N::S::") (bs "H"); EvName (bs "::N::S::") (bs "V"); EvEnum true (bs "::N::") (bs "::N::S::") (bs "Col") [bs "red"; bs "blue"];
   EvName (bs "::N::S::") (bs "Fwd"); EvFwd (bs "::N::S::") (bs "Fwd"); EvName (bs "::N::S::") (bs "In"); EvName (bs "::N::S::In::") (bs "Deep");
   EvClass false (bs "::N::") (bs "::N::S::In::") (bs "Deep") [] [Call (bs ".d") (bs "&::N::S::In::Deep::d") (bs "arg") false; Call (bs ".m") (bs "&::N::S::In::Deep::m") (bs "arg") false];
   EvClass false (bs "::N::") (bs "::N::S::") (bs "In") [bs "V"] [Call (bs ".z") (bs "&::N::S::In::z") (bs "arg") false; Call (bs ".c") (bs "classdesc::is_const_static(),&::N::S::In::c") [] false]].
Definition calls2 : list call :=
  [Call (bs ".a") (bs "&::N::S::a") (bs "arg") false; Call (bs ".u") (bs "classdesc::is_array(),(char&)(arg.u),1,sizeof(arg.u)") (bs "u") false;
   Call (bs ".g") (bs "&::N::S::g") (bs "arg") false].
Example C83_body_ex : exists cs fs us, body true true (bs "::N::") false (bs "::N::S::") (bs "S") false true false body_S evs2 cs fs us /\ chosen cs fs us = calls2.
Proof.
  assert (BD : exists rs cs fs us, body true true (bs "::N::") false (bs "::N::S::") (bs "S") false true false body_S rs cs fs us /\ rs = evs2 /\ chosen cs fs us = calls2).
  { unfold body_S. eexists _, _, _, _. split.
    1: {
    apply (bd_typedef true true (bs "::N::") false [bs "int"] (bs "T")); [nin|nin|nin|].
    eapply (bd_class true true (bs "::N::") false false (bs "H") [] body_H); [now apply wordb|constructor|apply (bd_data true true _ _ (Decl [wd "int"] (bs "q") DNone) []); [gram|intros; discriminate|apply bd_nil]|constructor|].
    apply bd_semi. apply (bd_label true true _ _ Public).
    apply (bd_typedef true true (bs "::N::") false [bs "std"; bs "::"; bs "vector"; bs "<"; bs "int"; bs ">"] (bs "V")); [nin|nin|nin|].
    apply bd_fun; [gram|intros; discriminate|].
    apply bd_oper; [gram|right; gram|gram|gram|unfold bd_ok; gram|].
    apply bd_oper; [gram|left; reflexivity|gram|gram|exact Logic.I|].
    eapply bd_tfun; [|gram|intros; discriminate|]. { apply t_tok; [reflexivity|]. apply t_tok; [reflexivity|]. apply t_nil. }
    apply bd_using; [nin|].
    apply bd_fun; [gram|intros; discriminate|].
    apply bd_data; [gram|intros; discriminate|].
    apply bd_union; [gram|reflexivity|].
    apply bd_union0; [gram|].
    apply bd_enum; [unfold enum_ok, en3; cbn [e_name e_class e_under e_keys e_last]; engram|].
    apply bd_enum0; [discriminate|right; reflexivity|repeat constructor; discriminate|].
    apply bd_semi. apply bd_friend; [nin|]. apply bd_fwd; [now apply wordb|].
    eapply bd_class; [now apply wordb|repeat constructor; discriminate| |intros; discriminate|].
    { unfold body_In. apply bd_data; [gram|intros; discriminate|].
      eapply bd_class; [now apply wordb|constructor| |intros; discriminate|].
      - unfold body_Deep. apply bd_data; [gram|intros; discriminate|]. rewrite <- (app_nil_r (mtoks1 _)). apply bd_fun; [gram|intros; discriminate|apply bd_nil].
      - apply bd_semi. rewrite <- (app_nil_r (mtoks1 _)). apply bd_data; [gram|intros; reflexivity|apply bd_nil]. }
    apply bd_semi. apply bd_fun; [gram|intros; discriminate|]. apply bd_label. apply bd_data; [gram|intros; discriminate|apply bd_nil]. }
    split; vm_compute; reflexivity. }
  destruct BD as (rs & cs & fs & us & B & -> & C). eauto.
Qed.
(** the whole file *)
Definition file_events : list event := evs2 ++ [EvClass true (bs "::N::") (bs "::N::") (bs "S") [bs "B"] calls2].
Example C83_file_ex : file true true (bs "::") (scan src2) file_events.
Proof.
  rewrite C83_src. destruct C83_body_ex as (cs & fs & us & B & C).
  assert (BB : balanced (bs "{") (bs "}") body_S).
  { assert (N : forall b ts, balanced (bs "{") (bs "}") b -> balanced (bs "{") (bs "}") ts -> balanced (bs "{") (bs "}") (bs "{" :: b ++ bs "}" :: ts)) by (intros; now apply b_nest).
    let v := eval vm_compute in body_S in change body_S with v.
    change (["{"%char]) with (bs "{"). change (["}"%char]) with (bs "}").
    repeat first [apply b_nil | apply b_tok; [discriminate|discriminate|]
      | match goal with |- balanced _ _ (_ :: ?l) =>
          let rec cut d a l := lazymatch l with
            | bs "{" :: ?l => cut (S d) (a ++ [bs "{"]) l
            | bs "}" :: ?l => lazymatch d with O => let a' := eval cbn [app] in a in apply (N a' l) | S ?d' => cut d' (a ++ [bs "}"]) l end
            | ?x :: ?l => cut d (a ++ [x]) l
            end in cut O (@nil tok) l end]. }
  change file_events with ((evs2 ++ [EvClass true (bs "::N::") (bs "::N::") (bs "S") [bs "B"] calls2]) ++ []). rewrite <- C.
  change ([bs "namespace"; bs "N"; bs "{"] ++ ?x) with (bs "namespace" :: bs "N" :: bs "{" :: x).
  replace (kw true :: bs "S" :: btoks [BSpec false (Some Public) false [BWord (bs "B")]] ++ bs "{" :: body_S ++ [bs "}"; bs ";"; bs "}"])
    with ((kw true :: bs "S" :: btoks [BSpec false (Some Public) false [BWord (bs "B")]] ++ bs "{" :: body_S ++ bs "}" :: [bs ";"]) ++ bs "}" :: [])
    by (repeat (cbn [app]; rewrite <- ?app_assoc); reflexivity).
  apply f_ns; [now apply wordb| |apply f_nil].
  apply (f_class true true (bs "::N::") true (bs "S") [BSpec false (Some Public) false [BWord (bs "B")]] body_S evs2 cs fs us); [now apply wordb|repeat constructor; discriminate|exact B|exact BB|].
  apply f_tok; [reflexivity|apply f_nil].
Qed.
(** a class inside a private class is described all the same *)
Theorem C83_private_nested_refuted : exists s, s = "class A { struct B { struct C { int x; }; }; }; "%string
  /\ result strict_opts s = Some ([("struct ::A::B::C", [(".x", "&::A::B::C::x")]); ("class ::A", [])], [])%string.
Proof. eexists. split; [reflexivity|]. vm_compute; reflexivity. Qed.
(** a member whose type is written with [struct] makes the class a member type of this one *)
Theorem C83_elaborated_refuted : exists s g, s = "struct A { struct B *p; }; "%string /\ generate plain_opts (scan s) = CEof g
  /\ g_nested g = [(bs "::A::", bs "B")] /\ g_types g = [(false, bs "::A::B"); (true, bs "::A")].
Proof. eexists _, _. split; [reflexivity|]. split; [vm_compute; reflexivity|]. split; reflexivity. Qed.
(** the body of a friend is skipped to its first semicolon only, the rest is taken for members, and its closing brace for the end of the class *)
Theorem C83_friend_body_refuted : exists s, s = "struct A { friend void f() { g(); h(); } int x; }; "%string
  /\ result plain_opts s = Some ([("struct ::A", [(".h", "&::A::h")])], [])%string.
Proof. eexists. split; [reflexivity|]. vm_compute; reflexivity. Qed.
(** an alias hides a member named like the type it stands for *)
Theorem C83_alias_refuted : exists s, s = "struct A { using T = y; int y; int z; }; "%string
  /\ result plain_opts s = Some ([("struct ::A", [(".z", "arg.z")])], [])%string.
Proof. eexists. split; [reflexivity|]. vm_compute; reflexivity. Qed.
(** the function after an operator template is taken for a template, and not recorded *)
Theorem C83_operator_template_refuted : exists s, s = "struct A { template <class T> A& operator=(const T& t); void f(); void g(); }; "%string
  /\ result plain_opts s = Some ([("struct ::A", [(".g", "&::A::g")])], [])%string.
Proof. eexists. split; [reflexivity|]. vm_compute; reflexivity. Qed.
(** the name of a union is recorded as a member, in place of that of the member if there is one *)
Theorem C83_union_name_refuted : exists s, s = "struct A { union U { int i; }; union W { int j; } x; int y; }; "%string
  /\ result plain_opts s = Some ([("struct ::A", [(".U", "arg.U"); (".W", "arg.W"); (".y", "arg.y")])], [])%string.
Proof. eexists. split; [reflexivity|]. vm_compute; reflexivity. Qed.
(** a class inside a class template is not described *)
Theorem C83_inside_template_refuted : exists s, s = "template <class T> struct A { struct B { int x; }; B b; }; "%string
  /\ result plain_opts s = Some ([("struct ::A<T>", [(".b", "arg.b")])], [])%string.
Proof. eexists. split; [reflexivity|]. vm_compute; reflexivity. Qed.
(** a structure named in a typedef inside a class is recorded under its bare name as a known type *)
Theorem C83_typedef_scope_refuted : exists s g, s = "struct A { typedef struct C { int z; } D; }; "%string /\ generate plain_opts (scan s) = CEof g
  /\ In (true, bs "C") (g_types g) /\ ~ In (true, bs "::A::C") (g_types g).
Proof. eexists _, _. split; [reflexivity|]. split; [vm_compute; reflexivity|]. split; [left; reflexivity|]. vm_compute. intuition discriminate. Qed.

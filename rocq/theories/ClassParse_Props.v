(** * What the descriptor generator records for a source file (C69 - C74) *)
From Verif Require Import Base Base_Proofs SMap Dec Desc_Model Tok_Model Parse_Model Parse_Props Ns_Props.
From Verif Require Import ClassParse_Model ClassParse_Proofs ClassParse_Spec ClassFile_Spec ClassMem_Proofs ClassFile_Proofs ClassEnum_Proofs ClassNest_Proofs ClassLoop_Proofs.

(** ** C69: the generator always ends, with the end of the file *)
Lemma mloop_no_ok o f : forall targs marks g i x g' j, mloop o f targs marks g i <> COk x g' j.
Proof.
  induction f as [|f IH]; intros targs marks g i x g' j; [discriminate|]. cbn [mloop]. unfold cbind at 1.
  destruct (nxt g i) as [? g1 i1| | |]; try discriminate. rewrite cbind_get. destruct (starts _ _).
  { unfold cbind, opt, upd. destruct (prag_of (tk i1)); [apply IH|discriminate]. }
  unfold cbind at 1. destruct (m_namespace marks g1 i1) as [? g2 i2| | |]; try discriminate.
  unfold cbind at 1. destruct (m_decl o targs g2 i2) as [? g3 i3| | |]; try discriminate. apply IH.
Qed.
Theorem C69_terminates : forall o ts, (exists g, generate o ts = CEof g) \/ generate o ts = CBad.
Proof.
  intros o ts. unfold generate.
  pose proof (mloop_safe o (S (length ts)) (length ts) [] [] ltac:(lia) g0 (Inp [] [] [] ts) ltac:(unfold len_i; cbn; lia)) as SF.
  destruct (mloop o (S (length ts)) [] [] g0 (Inp [] [] [] ts)) as [x g j|g| |] eqn:E; [|eauto|auto|now exfalso].
  now apply mloop_no_ok in E.
Qed.
Print Assumptions C69_terminates.

(** ** The text of a file, and what is recorded for it *)
Definition plain_opts : opts := Opts false false false false false.
Definition strict_opts : opts := Opts true true true false true.
Definition scan (s : string) : list tok := fst (lex_file (bs s)).
Definition shown (l : tok) : string := string_of_list_ascii l.
(** the classes and enumerations with the names of their members, and the keys *)
Definition summary (g : glob) : list (string * list (string * string)) * list (string * string) :=
  (map (fun a => (shown (x_type a), map (fun m => (shown (a_name m), shown (a_action m))) (x_acts a))) (g_actions g),
   map (fun p => (shown (fst p), shown (snd p))) (g_enums g)).
Definition result (o : opts) (s : string) :=
  match generate o (scan s) with CEof g => Some (summary g) | _ => None end.

(** ** C70: the members of a class *)
(** what the table of actions holds for a call *)
Theorem C70_members : forall o fuel k prefix targs g bl ms rest t2 t1 t m,
  overloading o = false -> (has_lt prefix = true -> class_part prefix <> []) -> Forall bspec_ok bl -> Forall mem_ok ms -> no_leak false ms ->
  (0 < fuel)%nat -> btoks bl ++ bs "{" :: mtoks ms ++ bs "}" :: rest = t :: m ->
  exists bacts a b, parse_class o fuel k prefix targs g (Inp t2 t1 t m) = COk (bacts ++ map to_act (acts_of (use_mbr o) (respect_private o) prefix (class_part prefix) k ms)) g (Inp a b (bs "}") rest)
    /\ Forall (fun x => a_name x = []) bacts.
Proof.
  intros o fuel k prefix targs g bl ms rest t2 t1 t m OV CP B M NL F E.
  destruct (class_run o fuel k prefix targs g bl ms rest t2 t1 t m OV CP B M NL F E) as (a & b & H). eexists _, a, b. split; [exact H|apply bact_names].
Qed.
Print Assumptions C70_members.
(** the members of [struct S { const int a; static int b; private: double d[3]; T<x,y> z = 3; int f(int) const; int f(); void g() {} }] *)
Definition wd (s : string) : elem := EWord (bs s).
Definition ms1 : list mem :=
  [MData (Decl [EConst; wd "int"] (bs "a") DNone) [];
   MData (Decl [wd "int"] (bs "b") DNone) [Decl [wd "*"] (bs "c") DNone];
   MLabel Private;
   MData (Decl [EStatic; EConst; wd "double"] (bs "d") (DArr [[bs "3"]])) [];
   MLabel Public;
   MData (Decl [wd "T"; EAngle [bs "x"; bs ","; bs "y"]] (bs "z") (DInit [bs "3"])) [];
   MFun [wd "int"] (bs "f") (Some [bs "int"]) [bs "const"] None;
   MFun [wd "int"] (bs "f") None [] None;
   MFun [wd "void"] (bs "g") None [] (Some [bs "h"; bs "()"; bs ";"])].
Ltac gram := repeat match goal with
  | |- _ /\ _ => split
  | |- Forall _ (_ :: _) => constructor
  | |- Forall _ [] => constructor
  | |- balanced _ _ [] => apply b_nil
  | |- balanced _ _ (_ :: _) => apply b_tok; [discriminate|discriminate|]
  | |- True => exact I
  | |- _ = _ => reflexivity
  | |- _ -> _ => intros
  | |- ~ _ => intro
  | H : ?A = ?B |- False => discriminate H
  | H : ?A = ?B |- _ => discriminate H
  | |- _ <> _ => discriminate
  | H : In _ _ |- False => cbn in H; repeat (destruct H as [H|H]; [discriminate H|]); exact H
  | H : _ /\ _ |- False => destruct H
  | |- _ => progress (cbn [mem_ok decl_ok dend_ok d_pre d_name d_end has_static has_const elem_ok no_leak dims_ok no_pointer existsb orb andb fst snd key_ok])
  | |- elem_ok (wd _) => unfold wd
  | |- decl_ok _ => unfold decl_ok
  | |- dims_ok _ => unfold dims_ok
  end.
Example C70_members_ex : Forall mem_ok ms1 /\ no_leak false ms1.
Proof. split; [|cbn; intuition congruence]. unfold ms1. gram. Qed.
Example C70_members_ex_value : scan "const int a; int b, *c; private: static const double d[3]; public: T<x,y> z = 3; int f(int) const; int f(); void g() {h();} " = mtoks ms1
  /\ map (fun c => (shown (c_name c), shown (c_arg c), shown (c_member c), c_static c)) (acts_of true true (bs "::S::") (bs "S") false ms1)
     = [(".a", "&::S::a", "arg", false); (".b", "&::S::b", "arg", false); (".c", "&::S::c", "arg", false);
        (".z", "&::S::z", "arg", false); (".g", "&::S::g", "arg", false)]%string.
Proof. split; vm_compute; reflexivity. Qed.

(** [const] is remembered until the next function *)
Theorem C70_const_leak_refuted : exists ms, Forall mem_ok ms /\ ~ no_leak false ms /\
  scan "const int a; static int b; " = mtoks ms /\
  (exists c, In c (acts_of false false (bs "::S::") (bs "S") false ms) /\ c_name c = bs ".b" /\ c_arg c = bs "arg.b" /\ c_static c = true) /\
  result plain_opts "struct S { const int a; static int b; }; " = Some ([("struct ::S", [(".a", "arg.a"); (".b", "classdesc::is_const_static(),arg.b")])], [])%string.
Proof.
  exists [MData (Decl [EConst; wd "int"] (bs "a") DNone) []; MData (Decl [EStatic; wd "int"] (bs "b") DNone) []].
  split; [gram|]. split; [cbn; intuition discriminate|]. split; [vm_compute; reflexivity|]. split; [|vm_compute; reflexivity].
  eexists. split; [right; left; reflexivity|]. repeat split; reflexivity.
Qed.
(** only the first of several static members is recorded as static *)
Theorem C70_static_list_refuted : exists s g, s = "struct S { static int a, b; }; "%string /\ generate plain_opts (scan s) = CEof g
  /\ map (fun a => map (fun m => (shown (a_name m), a_static m)) (x_acts a)) (g_actions g) = [[(".a", true); (".b", false)]]%string.
Proof. eexists _, _. split; [reflexivity|]. split; vm_compute; reflexivity. Qed.
(** a static function returning const is recorded as a static constant *)
Theorem C70_static_const_function_refuted : exists s, s = "struct S { static const int f(); }; "%string
  /\ result plain_opts s = Some ([("struct ::S", [(".f", "classdesc::is_const_static(),&::S::f")])], [])%string.
Proof. eexists. split; [reflexivity|]. vm_compute; reflexivity. Qed.
(** a function after a nested template class is taken for a template, and not recorded *)
Theorem C70_template_leak_refuted : exists s, s = "struct S { template <class U> struct N {}; void m(); void n(); }; "%string
  /\ result plain_opts s = Some ([("struct ::S::N<U>", []); ("struct ::S", [(".n", "&::S::n")])], [])%string.
Proof. eexists. split; [reflexivity|]. vm_compute; reflexivity. Qed.
(** an argument in an initialiser is recorded as a member *)
Theorem C70_initialiser_refuted : exists s, s = "struct S { int b=f(1,y,2); }; "%string
  /\ result plain_opts s = Some ([("struct ::S", [(".b", "arg.b"); (".y", "arg.y")])], [])%string.
Proof. eexists. split; [reflexivity|]. vm_compute; reflexivity. Qed.
(** a member initialiser after a braced one is recorded as a function *)
Theorem C70_braced_init_list_refuted : exists s, s = "struct A { A() : x{1}, y(2) { } int x; int y; }; "%string
  /\ result plain_opts s = Some ([("struct ::A", [(".y", "&::A::y"); (".x", "arg.x"); (".y", "arg.y")])], [])%string.
Proof. eexists. split; [reflexivity|]. vm_compute; reflexivity. Qed.
(** a flexible array member is lost *)
Theorem C70_flexible_array_refuted : exists s, s = "struct S { int c; int a[]; }; "%string
  /\ result plain_opts s = Some ([("struct ::S", [(".c", "arg.c")])], [])%string.
Proof. eexists. split; [reflexivity|]. vm_compute; reflexivity. Qed.
(** static_assert, decltype and the handler of a function try block are recorded as functions *)
Theorem C70_not_a_function_refuted : exists s, s = "struct S { static_assert(sizeof(int)==4); int c; decltype(c) e; int h() try { } catch(...) { } }; "%string
  /\ result plain_opts s = Some ([("struct ::S", [(".static_assert", "&::S::static_assert"); (".c", "arg.c"); (".decltype", "&::S::decltype");
                                                  (".h", "&::S::h"); (".catch", "&::S::catch")])], [])%string.
Proof. eexists. split; [reflexivity|]. vm_compute; reflexivity. Qed.
(** an unnamed bit field is recorded under the name of its type *)
Theorem C70_unnamed_bits_refuted : exists s, s = "struct S { unsigned a: 3; unsigned : 3; }; "%string
  /\ result plain_opts s = Some ([("struct ::S", [(".a", "arg.a"); (".unsigned", "arg.unsigned")])], [])%string.
Proof. eexists. split; [reflexivity|]. vm_compute; reflexivity. Qed.
(** a private member with an elaborated enumeration type hides everything up to the next closing brace *)
Theorem C70_private_enum_refuted : exists s, s = "class S { enum E x; public: int y; void f() {} int z; }; int q; "%string
  /\ result strict_opts s = Some ([("class ::S", [])], [])%string.
Proof. eexists. split; [reflexivity|]. vm_compute; reflexivity. Qed.
(** an unnamed structure: its members are merged into the class, which is taken to end with it *)
Theorem C70_unnamed_struct_refuted : exists s, s = "struct A { int a; struct { int b; } c; int d; }; "%string
  /\ result plain_opts s = Some ([("struct ::A", [(".a", "arg.a"); (".b", "arg.b")])], [])%string.
Proof. eexists. split; [reflexivity|]. vm_compute; reflexivity. Qed.

(** ** C71: base classes *)
Theorem C71_bases : forall o k bl t2 t1 t m rest, Forall bspec_ok bl -> btoks bl ++ bs "{" :: rest = t :: m ->
  exists a b, bases o k [] (pbound (Inp t2 t1 t m)) [] k [] (Inp t2 t1 t m)
    = POk (map (fun n => Act [] (bs "classdesc::base_cast<" ++ n ++ bs " >::cast(arg)") (if onBase o then n else []) false (onBase o))
             (base_names (respect_private o) k bl), k) (Inp a b (bs "{") rest).
Proof.
  intros o k bl t2 t1 t m rest B E. destruct (bases_run o k [] bl B (pbound (Inp t2 t1 t m)) t2 t1 t m rest ltac:(unfold pbound; cbn [more]; lia) E) as (a & b & ->).
  exists a, b. now rewrite bacts_plain.
Qed.
Print Assumptions C71_bases.
Definition bl1 : list bspec :=
  [BSpec false (Some Public) false [BWord (bs "A")]; BSpec true None false [BInst (bs "B") [bs "int"; bs ">"]];
   BSpec false (Some Protected) true [BWord (bs "N"); BWord (bs "::"); BInst (bs "C") [bs "D"; bs "<"; bs "int"; bs ">"; bs ">"]];
   BSpec false (Some Public) false [BInst (bs "V") [bs "V"; bs "<"; bs "V"; bs "<"; bs "int"; bs ">>"; bs ","; bs "V"; bs "<"; bs "A"; bs ">>"]]].
Example C71_bases_ex : Forall bspec_ok bl1 /\ scan ": public A, virtual B<int>, protected virtual N::C<D<int> >, public V<V<V<int>>,V<A>> " = btoks bl1
  /\ map shown (base_names true true bl1) = ["A"; "V< V < V < int >>  , V < A >> "]%string /\ map shown (base_names true false bl1) = ["A"; "B< int > "; "V< V < V < int >>  , V < A >> "]%string
  /\ map shown (base_names false true bl1) = ["A"; "B< int > "; "N::C< D < int >  > "; "V< V < V < int >>  , V < A >> "]%string.
Proof.
  split; [|repeat split; vm_compute; reflexivity]. unfold bl1.
  repeat match goal with
  | |- Forall _ (_ :: _) => constructor
  | |- Forall _ [] => constructor
  | |- bspec_ok _ => split; cbn [b_name]
  | |- _ <> [] => discriminate
  | |- piece_ok (BWord _) => reflexivity
  | |- piece_ok (BInst _ _) => split; [reflexivity|split; [|split]]
  | |- ~ In _ _ => cbn; intuition discriminate
  | |- angled 1 [bs ">"] => apply an_end
  | |- angled 2 [bs ">>"] => apply an_end2
  | |- angled _ (bs "<" :: _) => apply an_open
  | |- angled _ (bs ">" :: _) => apply an_close
  | |- angled _ (bs ">>" :: _) => apply an_close2
  | |- angled _ (_ :: _) => apply an_tok; [discriminate|discriminate|discriminate|]
  end.
Qed.
(** words are joined without a space *)
Theorem C71_template_word_refuted : exists s, s = "struct A : B<int>::template C<int> { }; "%string
  /\ result plain_opts s = Some ([("struct ::A", [("", "classdesc::base_cast<B< int > ::templateC< int >  >::cast(arg)")])], [])%string.
Proof. eexists. split; [reflexivity|]. vm_compute; reflexivity. Qed.
(** a class marked final, or with an export macro, is taken for a declaration *)
Theorem C71_final_refuted : exists s, s = "class A final : B {public: int x;}; class DLL C {public: int y;}; "%string
  /\ result plain_opts s = Some ([], []).
Proof. eexists. split; [reflexivity|]. vm_compute; reflexivity. Qed.

(** ** C72: enumerations *)
Theorem C72_enum : forall o ns e rest g t2 t1 t m, enum_ok e -> ends ns -> g_ns g = ns -> enumtoks e ++ rest = bs "enum" :: t :: m ->
  exists g' a b, assign_enum_action o ns g (Inp t2 t1 t m) = COk tt g' (Inp a b (bs ";") rest)
    /\ g_enums g' = g_enums g ++ map (fun k => ((if e_class e then bs "enum class " else bs "enum ") ++ ns ++ e_name e, k)) (enum_names e)
    /\ (exists act, g_actions g' = g_actions g ++ [Action ((if e_class e then bs "enum class " else bs "enum ") ++ ns ++ e_name e) [act] (firstn (length ns - 2) ns) []])
    /\ g_nested g' = g_nested g ++ [(ns, e_name e)].
Proof.
  intros o ns e rest g t2 t1 t m K EN GN E. destruct (enum_item o ns e rest g t2 t1 t m K EN GN E) as (a & b & ->).
  eexists _, a, b. split; [reflexivity|]. unfold enum_eff. fold (enum_word (e_class e)). generalize (enum_names e) as ks. intros ks.
  set (nm := enum_word (e_class e) ++ ns ++ e_name e).
  assert (P : forall g, g_enums (add_keys nm ks g) = g_enums g ++ map (fun k => (nm, k)) ks /\ g_actions (add_keys nm ks g) = g_actions g /\ g_nested (add_keys nm ks g) = g_nested g).
  { unfold add_keys. clear. induction ks as [|k ks IH]; intros g; [cbn; now rewrite app_nil_r|]. cbn [fold_left map].
    destruct (IH (add_enum (nm, k) g)) as (A & B & C). rewrite A, B, C. cbn [g_enums g_actions g_nested add_enum]. now rewrite <- app_assoc. }
  destruct (P (add_nested (ns, e_name e) g)) as (A & B & C). cbn [g_enums g_actions g_nested add_action add_nested] in *. rewrite A, B, C.
  split; [reflexivity|]. split; [eauto|reflexivity].
Qed.
Print Assumptions C72_enum.
Definition en1 : enumdef := EnumDef true (bs "E") (Some [bs "short"]) [(bs "a", None); (bs "b", Some [bs "3"; bs "+"; bs "f"; bs "()"])] (bs "c", None) true.
Ltac engram := repeat match goal with
  | |- _ /\ _ => split
  | |- word _ => split
  | |- key_ok _ => split; cbn [fst snd]
  | |- Forall _ (_ :: _) => constructor
  | |- Forall _ [] => constructor
  | |- Forall _ (bs ?s) => let v := eval vm_compute in (bs s) in change (bs s) with v
  | |- letter _ = true \/ _ => left
  | |- True => exact I
  | |- _ = _ => reflexivity
  | |- _ <> _ => discriminate
  | |- ~ In _ _ => cbn; intuition discriminate
  end.
Example C72_enum_ex : enum_ok en1 /\ scan "enum class E : short { a, b=3+f(), c, } ; " = enumtoks en1
  /\ result plain_opts "namespace N { enum class E : short { a, b=3+f(), c, }; } "
     = Some ([("enum class ::N::E", [("", "(int&)arg")])], [("enum class ::N::E", "a"); ("enum class ::N::E", "b"); ("enum class ::N::E", "c")])%string.
Proof.
  split; [|split; vm_compute; reflexivity]. unfold enum_ok, en1. cbn [e_name e_class e_under e_keys e_last].
  engram.
Qed.
Theorem C72_variable_refuted : exists s, s = "enum E {a} x, y; "%string
  /\ result plain_opts s = Some ([("enum ::E", [("", "(int&)arg")])], [("enum ::E", "a"); ("enum ::E", "x")])%string.
Proof. eexists. split; [reflexivity|]. vm_compute; reflexivity. Qed.
Theorem C72_empty_refuted : exists s, s = "enum F {}; "%string
  /\ result plain_opts s = Some ([("enum ::F", [("", "(int&)arg")])], [("enum ::F", "{")])%string.
Proof. eexists. split; [reflexivity|]. vm_compute; reflexivity. Qed.
Theorem C72_comma_refuted : exists s, s = "enum G { p = f(1,q) , r}; "%string
  /\ result plain_opts s = Some ([("enum ::G", [("", "(int&)arg")])], [("enum ::G", "p"); ("enum ::G", ")"); ("enum ::G", "r")])%string.
Proof. eexists. split; [reflexivity|]. vm_compute; reflexivity. Qed.
Theorem C72_struct_refuted : exists s, s = "enum struct E {a,b}; "%string /\ result plain_opts s = Some ([], []).
Proof. eexists. split; [reflexivity|]. vm_compute; reflexivity. Qed.

(** ** C73: whole files *)
Definition call_act (c : call) : act := Act (c_name c) (c_arg c) (c_member c) (c_static c) false.
Definition ev_actions (o : opts) (e : event) : list action :=
  match e with
  | EvClass k ns p name bases cs =>
      [Action ((if k then bs "class " else bs "struct ") ++ p ++ name)
         (map (fun n => Act [] (bs "classdesc::base_cast<" ++ n ++ bs " >::cast(arg)") (if onBase o then n else []) false (onBase o)) bases ++ map call_act cs)
         (firstn (length ns - 2) ns) []]
  | EvTempl k ns name templ args bases cs =>
      [Action ((if k then bs "class " else bs "struct ") ++ ns ++ name ++ args)
         (map (fun fb : bool * tok => Act [] (bs "classdesc::base_cast<" ++ (if fst fb then bs "typename " else []) ++ snd fb ++ bs " >::cast(arg)") (if onBase o then snd fb else []) false (onBase o)) bases
          ++ map call_act cs)
         (firstn (length ns - 2) ns) templ]
  (* a typedef is named without keyword and without scope *)
  | EvTypedef ns _ name bases cs =>
      [Action name
         (map (fun n => Act [] (bs "classdesc::base_cast<" ++ n ++ bs " >::cast(arg)") (if onBase o then n else []) false (onBase o)) bases ++ map call_act cs)
         (firstn (length ns - 2) ns) []]
  | EvFwd _ _ | EvKnown _ _ | EvName _ _ | EvPragma _ _ => []
  | EvEnum sc ns p name _ =>
      [Action ((if sc then bs "enum class " else bs "enum ") ++ p ++ name)
         [Act [] (if typeNm o then bs "classdesc::enum_handle(arg)" else bs "(int&)arg") [] false false] (firstn (length ns - 2) ns) []]
  end.
Definition ev_enums (e : event) : list (tok * tok) :=
  match e with EvEnum sc _ p name keys => map (fun k => ((if sc then bs "enum class " else bs "enum ") ++ p ++ name, k)) keys | _ => [] end.
Definition ev_types (e : event) : list (bool * tok) :=
  match e with EvClass _ _ p name _ _ | EvKnown p name => [(true, p ++ name)] | EvTempl _ ns name _ args _ _ => [(true, ns ++ name ++ args)] | EvFwd p name => [(false, p ++ name)] | EvTypedef _ (Some t) _ _ _ => [(true, t)] | _ => [] end.
Definition ev_prags (e : event) : list (pkind * tok) :=
  match e with
  | EvPragma k name => [(if is k "omit" then POmit else if is k "treenode" then PTree else PGraph, name)]
  | _ => []
  end.
(** the enumerations are put in the table of nested types *)
Definition ev_nested (e : event) : list (tok * tok) :=
  match e with EvEnum _ _ p name _ | EvName p name => [(p, name)] | _ => [] end.
Lemma evs_parts o es : forall g, g_actions (evs_eff o es g) = g_actions g ++ concat (map (ev_actions o) es)
  /\ g_enums (evs_eff o es g) = g_enums g ++ concat (map ev_enums es) /\ g_types (evs_eff o es g) = g_types g ++ concat (map ev_types es)
  /\ g_over (evs_eff o es g) = g_over g /\ g_out (evs_eff o es g) = g_out g /\ g_err (evs_eff o es g) = g_err g
  /\ g_prag (evs_eff o es g) = g_prag g ++ concat (map ev_prags es) /\ g_nested (evs_eff o es g) = g_nested g ++ concat (map ev_nested es).
Proof.
  unfold evs_eff. induction es as [|e es IH]; intros g; [cbn; rewrite !app_nil_r; auto 8|]. cbn [fold_left map concat].
  destruct (IH (ev_eff o g e)) as (A & B & C & D & E & F & G & H). rewrite A, B, C, D, E, F, G, H. clear.
  destruct e as [k ns p name bases cs|p name|p name|p name|sc ns p name keys|k name|k ns name templ args bases cs|ns [tag|] name bases cs]; cbn [ev_eff ev_actions ev_enums ev_types ev_prags ev_nested app].
  6: { cbn. rewrite <- !app_assoc. repeat split; reflexivity. }
  6: { unfold templ_eff. cbn [g_actions g_enums g_types g_over g_out g_err g_prag g_nested add_type add_action]. rewrite <- !app_assoc. cbn [app]. repeat split; try reflexivity.
    f_equal. destruct k; reflexivity. }
  6: { cbn [g_actions g_enums g_types g_over g_out g_err g_prag g_nested add_type add_action]. rewrite <- !app_assoc. cbn [app]. repeat split; reflexivity. }
  6: { cbn [g_actions g_enums g_types g_over g_out g_err g_prag g_nested add_type add_action]. rewrite <- !app_assoc. cbn [app]. repeat split; reflexivity. }
  - unfold class_eff. cbn [g_actions g_enums g_types g_over g_out g_err g_prag g_nested add_type add_action]. rewrite <- !app_assoc. cbn [app]. repeat split; try reflexivity.
    f_equal. destruct k; reflexivity.
  - cbn [g_actions g_enums g_types g_over g_out g_err g_prag g_nested add_type]. rewrite <- !app_assoc. cbn [app]. repeat split; reflexivity.
  - cbn [g_actions g_enums g_types g_over g_out g_err g_prag g_nested add_type]. rewrite <- !app_assoc. cbn [app]. repeat split; reflexivity.
  - cbn [g_actions g_enums g_types g_over g_out g_err g_prag g_nested add_nested]. rewrite <- !app_assoc. cbn [app]. repeat split; reflexivity.
  - unfold enum_eff. fold (enum_word sc). set (nm := enum_word sc ++ p ++ name).
    assert (P : forall ks g, g_enums (add_keys nm ks g) = g_enums g ++ map (fun k => (nm, k)) ks /\ g_actions (add_keys nm ks g) = g_actions g
       /\ g_types (add_keys nm ks g) = g_types g /\ g_over (add_keys nm ks g) = g_over g /\ g_out (add_keys nm ks g) = g_out g /\ g_err (add_keys nm ks g) = g_err g
       /\ g_prag (add_keys nm ks g) = g_prag g /\ g_nested (add_keys nm ks g) = g_nested g).
    { unfold add_keys. clear. induction ks as [|k ks IH]; intros g; [cbn; rewrite app_nil_r; auto 8|]. cbn [fold_left map].
      destruct (IH (add_enum (nm, k) g)) as (A & B & C & D & E & F & G & H). rewrite A, B, C, D, E, F, G, H. cbn. rewrite <- app_assoc. auto 8. }
    destruct (P keys (add_nested (p, name) g)) as (A & B & C & D & E & F & G & H).
    cbn [g_actions g_enums g_types g_over g_out g_err g_prag g_nested add_action]. rewrite A, B, C, D, E, F, G, H. cbn [g_actions g_enums g_types g_over g_out g_err g_prag g_nested add_nested].
    rewrite <- !app_assoc. cbn [app]. repeat split; reflexivity.
Qed.
Theorem C73_file : forall o ts es, overloading o = false -> file (use_mbr o) (respect_private o) (bs "::") ts es ->
  exists g, generate o ts = CEof g
    /\ g_actions g = concat (map (ev_actions o) es) /\ g_enums g = concat (map ev_enums es) /\ g_types g = concat (map ev_types es)
    /\ g_over g = [] /\ g_out g = [] /\ g_err g = false
    /\ g_prag g = concat (map ev_prags es) /\ g_nested g = concat (map ev_nested es).
Proof.
  intros o ts es OV H.
  destruct (loop_file o OV (bs "::") ts es H (S (length ts)) (bs "::") [] [] g0 [] [] [] []) as (f & ns2 & marks2 & a2 & a1 & a & _ & F & E).
  { exists []. reflexivity. } { apply free_colons. } { left. auto. } { exact I. } { rewrite app_nil_r. lia. }
  rewrite app_nil_r in E. unfold generate. change (set_ns (bs "::") g0) with g0 in E. destruct f as [|f]; [lia|].
  exists (set_ns ns2 (evs_eff o es g0)). split; [rewrite E; reflexivity|].
  destruct (evs_parts o es g0) as (A & B & C & D & X & Y & Z & U).
  change (g_actions (set_ns ns2 (evs_eff o es g0))) with (g_actions (evs_eff o es g0)).
  change (g_enums (set_ns ns2 (evs_eff o es g0))) with (g_enums (evs_eff o es g0)).
  change (g_types (set_ns ns2 (evs_eff o es g0))) with (g_types (evs_eff o es g0)).
  change (g_over (set_ns ns2 (evs_eff o es g0))) with (g_over (evs_eff o es g0)).
  change (g_out (set_ns ns2 (evs_eff o es g0))) with (g_out (evs_eff o es g0)).
  change (g_err (set_ns ns2 (evs_eff o es g0))) with (g_err (evs_eff o es g0)).
  change (g_prag (set_ns ns2 (evs_eff o es g0))) with (g_prag (evs_eff o es g0)).
  change (g_nested (set_ns ns2 (evs_eff o es g0))) with (g_nested (evs_eff o es g0)).
  rewrite A, B, C, D, X, Y, Z, U. repeat split; reflexivity.
Qed.
Print Assumptions C73_file.
(** the members of C70 are members in the sense of C73 *)
Lemma mems_body mbr re ns tpar p c tp ms : Forall mem_ok ms -> forall pr co, no_leak co ms ->
  body mbr re ns tpar p c tp pr co (mtoks ms) [] (calls mbr re p c (re && pr) ms) (fun_names ms) [].
Proof.
  unfold mtoks, fun_names. induction 1 as [|m ms M _ IH]; intros pr co NL; [apply bd_nil|]. cbn [map concat].
  destruct m as [a|d ds|ty n args quals b]; cbn [no_leak calls app] in *.
  - cbn [mtoks1 app]. apply bd_label. apply (IH (hidden a)). exact NL.
  - destruct NL as (N1 & N2). apply (bd_data mbr re ns tpar d ds); auto.
  - destruct NL as (N1 & N2). apply (bd_fun mbr re ns tpar ty n args quals b); auto.
Qed.
Definition src1 : string := "#pragma once
using namespace std; namespace N { class S : public A { int p; public: int x, *y; }; struct F; } enum E { a, b=2 }; void f(int q) { g(); } ".
Definition ms2 : list mem := [MData (Decl [wd "int"] (bs "p") DNone) []; MLabel Public; MData (Decl [wd "int"] (bs "x") DNone) [Decl [wd "*"] (bs "y") DNone]].
Definition en2 : enumdef := EnumDef false (bs "E") None [(bs "a", None)] (bs "b", Some [bs "2"]) false.
Example C73_file_ex : exists ts es, scan src1 = ts /\ file true true (bs "::") ts es
  /\ es = [EvClass true (bs "::N::") (bs "::N::") (bs "S") [bs "A"] [Call (bs ".x") (bs "&::N::S::x") (bs "arg") false; Call (bs ".y") (bs "&::N::S::y") (bs "arg") false];
           EvFwd (bs "::N::") (bs "F"); EvEnum false (bs "::") (bs "::") (bs "E") [bs "a"; bs "b"]].
Proof.
  eexists _, _. split; [reflexivity|].
  assert (W : forall s, ident (bs s) = true -> forallb letter (bs s) = true -> word (bs s)).
  { intros s A B. split; [exact A|]. apply Forall_forall. intros c I. rewrite forallb_forall in B. left. now apply B. }
  assert (EN : enum_ok en2).
  { unfold enum_ok, en2. cbn [e_name e_class e_under e_keys e_last]. engram. }
  assert (FT : forall ns ts es t, outside t = true -> file true true ns ts es -> file true true ns (t :: ts) es) by (intros; now apply f_tok).
  assert (H : file true true (bs "::")
    (bs "#pragma once" :: bs "using" :: [bs "namespace"; bs "std"] ++ bs ";" ::
     bs "namespace" :: bs "N" :: bs "{" ::
       (kw true :: bs "S" :: btoks [BSpec false (Some Public) false [BWord (bs "A")]] ++ bs "{" :: mtoks ms2 ++ bs "}" :: bs ";" :: kw false :: bs "F" :: bs ";" :: [])
     ++ bs "}" :: enumtoks en2 ++ bs "void" :: bs "f" :: bs "(" :: [bs "int"; bs "q"] ++ bs ")" :: bs "{" :: [bs "g"; bs "()"; bs ";"] ++ bs "}" :: [])
    (([] ++ EvClass true (bs "::N::") (bs "::N::") (bs "S") (base_names true true [BSpec false (Some Public) false [BWord (bs "A")]])
              (chosen (calls true true (bs "::N::S::") (bs "S") true ms2) (fun_names ms2) [])
      :: EvFwd (bs "::N::") (bs "F") :: []) ++ EvEnum false (bs "::") (bs "::") (bs "E") (enum_names en2) :: [] ++ [])).
  { change (bs "#pragma once") with (bs "#pragma " ++ bs "once"). apply f_pragma; [intros k [<-|[<-|[<-|[]]]]; discriminate|]. apply f_using; [cbn; intuition discriminate|cbn; intuition discriminate|cbn; intuition discriminate|].
    apply f_ns; [apply W; reflexivity| |].
    - apply (f_class _ _ (bs "::N::") true (bs "S")); [apply W; reflexivity|repeat constructor; discriminate| | |].
      + apply (mems_body true true (bs "::N::") false _ _ false ms2); [unfold ms2; gram|cbn; tauto].
      + unfold ms2. cbn. repeat (apply b_tok; [discriminate|discriminate|]). apply b_nil.
      + apply FT; [reflexivity|]. apply f_fwd; [apply W; reflexivity|]. apply f_nil.
    - apply (f_enum true true (bs "::") en2); [exact EN| |].
      + unfold enumtoks, en2. cbn. repeat (apply b_tok; [discriminate|discriminate|]).
        change (balanced (bs "{") (bs "}") (bs "{" :: [bs "a"; bs ","; bs "b"; bs "="; bs "2"] ++ bs "}" :: [bs ";"])).
        apply b_nest; repeat (apply b_tok; [discriminate|discriminate|]); apply b_nil.
      + apply FT; [reflexivity|]. apply FT; [reflexivity|]. apply f_paren.
        * repeat (apply b_tok; [discriminate|discriminate|]). apply b_nil.
        * repeat (apply b_tok; [discriminate|discriminate|]). apply b_nil.
        * apply f_brace; [|apply f_nil]. repeat (apply FT; [reflexivity|]). apply f_nil. }
  split; [|reflexivity].
  match type of H with file _ _ _ ?T ?E => replace (scan src1) with T by (vm_compute; reflexivity); exact H end.
Qed.
Definition src_td : string := "typedef unsigned long ul; typedef struct Q R; namespace N { typedef struct S { int x; } T; typedef class { public: int y; } V; } typedef union W { int a; } Z, *P; ".
Example C73_typedef_ex : exists ts es, scan src_td = ts /\ file true true (bs "::") ts es
  /\ es = [EvFwd [] (bs "Q"); EvTypedef (bs "::N::") (Some (bs "S")) (bs "S") [] [Call (bs ".x") (bs "&S::x") (bs "arg") false];
           EvTypedef (bs "::N::") (Some []) (bs "V") [] [Call (bs ".y") (bs "&V::y") (bs "arg") false];
           EvTypedef (bs "::") None (bs "P") [] [Call [] (bs "arg") [] false]].
Proof.
  eexists _, _. split; [reflexivity|].
  assert (W : forall s, ident (bs s) = true -> forallb letter (bs s) = true -> word (bs s)).
  { intros s A B. split; [exact A|]. apply Forall_forall. intros c I. rewrite forallb_forall in B. left. now apply B. }
  assert (FT : forall ns ts es t, outside t = true -> file true true ns ts es -> file true true ns (t :: ts) es) by (intros; now apply f_tok).
  set (m1 := [MData (Decl [wd "int"] (bs "x") DNone) []]). set (m2 := [MLabel Public; MData (Decl [wd "int"] (bs "y") DNone) []]).
  assert (H : file true true (bs "::")
    (bs "typedef" :: [bs "unsigned"; bs "long"; bs "ul"] ++ bs ";" :: bs "typedef" :: kw false :: bs "Q" :: [bs "R"] ++ bs ";" ::
     bs "namespace" :: bs "N" :: bs "{" ::
       (bs "typedef" :: kw false :: bs "S" :: btoks [] ++ bs "{" :: mtoks m1 ++ bs "}" :: [] ++ bs "T" :: bs ";" ::
        bs "typedef" :: kw true :: btoks [] ++ bs "{" :: mtoks m2 ++ bs "}" :: [] ++ bs "V" :: bs ";" :: [])
     ++ bs "}" :: bs "typedef" :: bs "union" :: [bs "W"] ++ ubody (Some [bs "int"; bs "a"; bs ";"]) ++ [bs "Z"; bs ","; bs "*"] ++ bs "P" :: bs ";" :: [])
    (EvFwd [] (bs "Q") ::
     ([] ++ EvTypedef (bs "::N::") (Some (bs "S")) (bs "S") (base_names true false []) (chosen (calls true true (bs "S::") (bs "S") false m1) (fun_names m1) [])
      :: [] ++ EvTypedef (bs "::N::") (Some []) (bs "V") (base_names true true []) (chosen (calls true true (bs "V::") (bs "V") true m2) (fun_names m2) []) :: [])
     ++ EvTypedef (bs "::") None (bs "P") [] [Call [] (bs "arg") [] false] :: [])).
  { apply f_typedef; try (cbn; intuition discriminate). apply f_tdfwd; [apply W; reflexivity|constructor; [split; [reflexivity|discriminate]|constructor]|].
    apply f_ns; [apply W; reflexivity| |].
    - apply (f_tdclass _ _ (bs "::N::") false (bs "S")); [apply W; reflexivity|constructor|cbn; tauto| | | |].
      + apply (mems_body true true (bs "::N::") false _ _ false m1); [unfold m1; gram|cbn; tauto].
      + unfold m1. cbn. repeat (apply b_tok; [discriminate|discriminate|]). apply b_nil.
      + unfold td_ok. cbn. intuition discriminate.
      + apply FT; [reflexivity|]. apply FT; [reflexivity|].
        apply (f_tdanon _ _ (bs "::N::") true); [apply W; reflexivity|constructor|cbn; tauto| | | | |].
        * apply (mems_body true true (bs "::N::") false _ _ false m2); [unfold m2; gram|cbn; tauto].
        * unfold m2. cbn. repeat (apply b_tok; [discriminate|discriminate|]). apply b_nil.
        * unfold td_ok. cbn. intuition discriminate.
        * discriminate.
        * apply FT; [reflexivity|]. apply FT; [reflexivity|]. apply f_nil.
    - apply (f_tdunion true true (bs "::") [bs "W"] (Some [bs "int"; bs "a"; bs ";"]) [bs "Z"; bs ","; bs "*"] (bs "P")); try (cbn; intuition discriminate).
      + unfold td_ok. cbn. intuition discriminate.
      + repeat (apply b_tok; [discriminate|discriminate|]). apply b_nil.
      + apply f_nil. }
  split; [|reflexivity].
  match type of H with file _ _ _ ?T ?E => replace (scan src_td) with T by (vm_compute; reflexivity); exact H end.
Qed.
(** a class inside a function is recorded as if it were global *)
Theorem C73_local_class_refuted : exists s, s = "void f() { struct L { int x; }; } "%string
  /\ result plain_opts s = Some ([("struct ::L", [(".x", "arg.x")])], [])%string.
Proof. eexists. split; [reflexivity|]. vm_compute; reflexivity. Qed.
(** a typedef of an unnamed structure that ends with a pointer loses its name *)
Theorem C73_typedef_pointer_refuted : exists s, s = "typedef struct {int a;} TT, *PT; "%string
  /\ result plain_opts s = Some ([("___ecotmp0         ", [(".a", "arg.a")])], [])%string.
Proof. eexists. split; [reflexivity|]. vm_compute; reflexivity. Qed.
(** the name of a typedef is the token before the semicolon, also when that ends an attribute *)
Theorem C73_typedef_attribute_refuted : exists s, s = "typedef struct { int a; } A __attribute__((packed)); "%string
  /\ result plain_opts s = Some ([(")", [(".a", "arg.a")])], [])%string.
Proof. eexists. split; [reflexivity|]. vm_compute; reflexivity. Qed.
(** and when it is the bracket of an array *)
Theorem C73_typedef_array_refuted : exists s, s = "typedef union { int a; float f; } U[3]; "%string
  /\ result plain_opts s = Some ([("]", [("", "arg")])], [])%string.
Proof. eexists. split; [reflexivity|]. vm_compute; reflexivity. Qed.
(** a typedef of a class named with its scope: the scope operator is taken for the colon before the base
    classes, and what follows up to the next brace is lost *)
Theorem C73_typedef_qualified_refuted : exists s, s = "typedef struct A::B C; struct D { int x; }; "%string
  /\ result plain_opts s = Some ([("A", [("", "classdesc::base_cast<::BC;structD >::cast(arg)"); (".x", "arg.x")])], [])%string.
Proof. eexists. split; [reflexivity|]. vm_compute; reflexivity. Qed.
(** a typedef of an enumeration is not described *)
Theorem C73_typedef_enum_refuted : exists s, s = "typedef enum { a, b } E; "%string /\ result plain_opts s = Some ([], []).
Proof. eexists. split; [reflexivity|]. vm_compute; reflexivity. Qed.
(** a pragma without a name ends the program with an exception *)
Theorem C73_bare_pragma_refuted : exists s, s = "struct A {int x;};
#pragma omit
 "%string /\ generate plain_opts (scan s) = CBad.
Proof. eexists. split; [reflexivity|]. vm_compute; reflexivity. Qed.

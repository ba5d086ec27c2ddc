(** * The signatures of the variables for overloaded members: C81 *)
From Verif Require Import Base Base_Proofs SMap Dec Desc_Model Tok_Model Parse_Model Parse_Props ClassParse_Model ClassParse_Spec ClassParse_Proofs ClassMem_Proofs
  ClassFile_Spec ClassFile_Proofs ClassParse_Props ClassNest_Props ClassOver_Spec ClassOver_Proofs Gen_Model GenPP_Props GenFile_Props GenOver_Props.

(** for every class that is no template: the members recorded and the declarations added are those of
    [sigs], which gives each function that is described and not hidden one declaration of its type *)
Theorem C81_signatures : forall o fuel k prefix targs g bl ms rest t2 t1 t m,
  overloading o = true -> ~ In "<"%char prefix -> Forall bspec_ok bl -> Forall omem_ok ms -> ono_leak false ms ->
  (0 < fuel)%nat -> btoks bl ++ bs "{" :: omem_toks ms ++ bs "}" :: rest = t :: m ->
  exists bacts cs ss g' a b, parse_class o fuel k prefix targs g (Inp t2 t1 t m) = COk (bacts ++ map to_act cs) g' (Inp a b (bs "}") rest)
    /\ Forall (fun x => a_name x = []) bacts
    /\ sigs (use_mbr o) (respect_private o) prefix (class_part prefix) (respect_private o && k) [] ms cs ss
    /\ g_over g' = g_over g ++ map (pair prefix) ss /\ g_actions g' = g_actions g.
Proof.
  intros o fuel k prefix targs g bl ms rest t2 t1 t m OV NL B M NK FU E.
  assert (HL : has_lt prefix = false).
  { unfold has_lt. rewrite <- Bool.not_true_iff_false. intros K. apply existsb_exists in K. destruct K as (c & I & K).
    apply NL. unfold ceq in K. apply Ascii.eqb_eq in K. now subst. }
  destruct (oclass_run o fuel k prefix targs g bl ms rest t2 t1 t m OV HL B M NK FU E) as (cs & ss & a & b & R & SG).
  eexists _, cs, ss, _, a, b. split; [exact R|]. split; [apply bact_names|]. split; [exact SG|]. clear.
  unfold overs. revert g. induction ss as [|s ss IH]; intros g; [cbn; now rewrite app_nil_r|]. cbn [fold_left map].
  destruct (IH (add_over (prefix, s) g)) as (-> & ->). cbn. now rewrite <- app_assoc.
Qed.
Print Assumptions C81_signatures.

(** struct S { int f(const A& x = A(), double y); private: virtual std::vector<int>& f(std::map<int,B> m = {{1,b},{2,c}}, int z) const; public: int a; static void g(); ~S(); S(int); S(S)=delete; } *)
Definition oms : list omem :=
  [OFun (FDecl [wd "int"] (bs "f") (Some [([bs "const"; bs "A"; bs "&"; bs "x"], Some [bs "A"; bs "()"]); ([bs "double"; bs "y"], None)]) [] None);
   OLabel Private;
   OFun (FDecl [wd "virtual"; wd "std"; wd "::"; wd "vector"; EAngle [bs "int"]; wd "&"] (bs "f")
     (Some [([bs "std"; bs "::"; bs "map"; bs "<"; bs "int"; bs ","; bs "B"; bs ">"; bs "m"],
             Some [bs "{"; bs "{"; bs "1"; bs ","; bs "b"; bs "}"; bs ","; bs "{"; bs "2"; bs ","; bs "c"; bs "}"; bs "}"]);
            ([bs "int"; bs "z"], None)]) [bs "const"] None);
   OLabel Public;
   OData (Decl [wd "int"] (bs "a") DNone) [];
   OFun (FDecl [EStatic; wd "void"] (bs "g") None [] None);
   OFun (FDecl [wd "~"] (bs "S") None [] None);
   OFun (FDecl [] (bs "S") (Some [([bs "int"], None)]) [] (Some []));
   OFun (FDecl [] (bs "S") (Some [([bs "S"], None)]) [bs "="; bs "delete"] None)].
Example C81_signatures_ex : scan "int f(const A& x = A(), double y); private: virtual std::vector<int>& f(std::map<int,B> m = {{1,b},{2,c}}, int z) const; public: int a; static void g(); ~S(); S(int) {} S(S)=delete; " = omem_toks oms
  /\ Forall omem_ok oms /\ ono_leak false oms.
Proof.
  split; [vm_compute; reflexivity|]. split; [|cbn; intuition congruence].
  unfold oms. repeat match goal with
    | |- _ /\ _ => split
    | |- Forall _ (_ :: _) => constructor
    | |- Forall _ [] => constructor
    | |- True => exact I
    | |- elem_ok (EAngle _) => split
    | |- elem_ok _ => reflexivity
    | |- ret_word _ => reflexivity
    | |- shaped _ _ => cbn; intuition
    | |- _ = true => reflexivity
    | |- _ = false => reflexivity
    | |- ~ In _ _ => cbn; intuition discriminate
    | |- _ <> _ => discriminate
    | |- balanced _ _ _ => unfold pars_toks; cbn [map commas app fst snd par_toks]; gram
    | |- _ -> _ => intros
    | |- omem_ok _ => cbn [omem_ok mem_ok]
    | |- fdecl_ok _ => unfold fdecl_ok; cbn [f_type f_name f_pars f_quals f_body]
    | |- decl_ok _ => unfold decl_ok; cbn [d_pre d_name d_end dend_ok]
    | |- par_ok _ => unfold par_ok; cbn [fst snd]
    | |- starts_ok _ => unfold pars_toks; cbn [map commas app fst snd par_toks starts_ok]
    | |- exists _, _ => eexists _, _
    | |- ?x = _ :: _ => reflexivity
    end; try discriminate.
  - apply (dt_char "A"); try discriminate. repeat (apply dt_char; [discriminate..|]). apply dt_nil.
  - apply (dt_nest (bs " { 1 , b } , { 2 , c } ") (bs " ")).
    + apply ib_char; [discriminate..|]. apply (ib_nest (bs " 1 , b ") (bs " , { 2 , c } ")); repeat (apply ib_char; [discriminate..|]); [apply ib_nil|].
      apply (ib_nest (bs " 2 , c ") (bs " ")); repeat (apply ib_char; [discriminate..|]); apply ib_nil.
    + repeat (apply dt_char; [discriminate..|]). apply dt_nil.
Qed.
Definition declared (o : opts) (s : string) : option (list string) := option_map (fun g => map (fun p => shown (declare (snd p))) (g_over g)) (of_text o s).
Example C81_signatures_value : declared over_opts "struct S { int f(const A& x = A(), double y); private: virtual std::vector<int>& f(std::map<int,B> m = {{1,b},{2,c}}, int z) const; public: int a; static void g(); ~S(); S(int) {} S(S)=delete; }; "
  = Some [" int(::S::*TmpMemPtr_f1)(const A & x , double y )=&::S::f;";
          "typename std :: vector < int  > &(::S::*TmpMemPtr_f2)(std:: map < int , B > m , int z ) const=&::S::f;";
          " void(*TmpMemPtr_g1)()=&::S::g;"; "void (*TmpMemPtr_S2)(int)=0;"]%string.
Proof. vm_compute. reflexivity. Qed.

(** the type in the declaration is the one recorded, with [typename] in front or after a leading [const]
    when it is qualified and has none; only blanks around it are lost *)
Definition blanks (s : tok) : Prop := Forall (eq " "%char) s.
Lemma dropw_split f s : exists b, s = b ++ dropw f s /\ Forall (fun c => f c = true) b /\ match dropw f s with [] => True | c :: _ => f c = false end.
Proof.
  induction s as [|c s IH]; [exists []; cbn; auto|]. cbn [dropw]. destruct (f c) eqn:F.
  - destruct IH as (b & E & B & H). exists (c :: b). split; [cbn; congruence|]. split; [constructor; auto|exact H].
  - exists []. split; [reflexivity|]. split; [constructor|exact F].
Qed.
Theorem C81_typename : forall r, Forall (fun c => isspace c = true -> c = " "%char) r ->
  (~ contains "::" r \/ contains "typename " r -> insertTypename r = r) /\
  (contains "::" r -> ~ contains "typename " r ->
   exists b1 u b2, r = b1 ++ u ++ b2 /\ blanks b1 /\ blanks b2 /\ hd "x"%char u <> " "%char /\ last u "x"%char <> " "%char
   /\ (forall v, u = bs "const " ++ v -> insertTypename r = bs "const typename " ++ v)
   /\ ((forall v, u <> bs "const " ++ v) -> insertTypename r = bs "typename " ++ u)).
Proof.
  intros r BL. unfold insertTypename.
  assert (ID : map (fun c => if isspace c then " "%char else c) r = r).
  { clear - BL. induction BL as [|c l H _ IH]; [reflexivity|]. cbn [map]. rewrite IH. destruct (isspace c) eqn:Q; [now rewrite H|reflexivity]. }
  rewrite ID. split.
  - intros [N|N]; rewrite <- has_contains in N.
    + apply Bool.not_true_is_false in N. rewrite N. reflexivity.
    + rewrite N, Bool.orb_true_r. reflexivity.
  - intros C T. rewrite <- has_contains in C, T. apply Bool.not_true_is_false in T. rewrite C, T. cbn [negb orb]. cbv iota.
    unfold trimWS. destruct (dropw_split isspace r) as (b1 & E1 & B1 & H1). set (s1 := dropw isspace r) in *.
    destruct (dropw_split isspace (rev s1)) as (b2 & E2 & B2 & H2). set (s2 := dropw isspace (rev s1)) in *.
    assert (S1 : s1 = rev s2 ++ rev b2) by (rewrite <- rev_app_distr, <- E2; symmetry; apply rev_involutive).
    assert (SUB : forall b, (forall c, In c b -> In c r) -> Forall (fun c => isspace c = true) b -> blanks b).
    { intros b I F. apply Forall_forall. intros c K. rewrite Forall_forall in F, BL. symmetry. apply BL; auto. }
    exists b1, (rev s2), (rev b2). split; [now rewrite E1 at 1; rewrite S1|].
    split; [apply SUB; [intros c K; rewrite E1; apply in_or_app; auto|exact B1]|].
    split; [apply SUB; [intros c K; rewrite E1, S1; apply in_or_app; right; apply in_or_app; auto|now apply Forall_rev]|].
    split; [|split; [|split]].
    + destruct (rev s2) as [|c u] eqn:U; [discriminate|]. rewrite S1 in H1. cbn [app] in H1. cbn [hd]. intros ->. discriminate.
    + destruct s2 as [|c u]; [discriminate|]. cbn [rev]. rewrite last_last. intros ->. discriminate.
    + intros v ->. replace (starts (bs "const ") (bs "const " ++ v)) with true; [reflexivity|]. symmetry. apply startsP. eauto.
    + intros N. destruct (starts (bs "const ") (rev s2)) eqn:S; [|reflexivity]. apply startsP in S. destruct S as (v & S). destruct (N v S).
Qed.
Print Assumptions C81_typename.
Example C81_typename_ex : shown (insertTypename (bs " const A :: B &")) = "const typename A :: B &"%string /\ shown (insertTypename (bs " A :: B ")) = "typename A :: B"%string
  /\ contains "::" (bs " const A :: B &") /\ ~ contains "typename " (bs " const A :: B &").
Proof. split; [reflexivity|]. split; [reflexivity|]. rewrite <- !has_contains. split; [reflexivity|discriminate]. Qed.

(** ** What is not declared with its type *)
(** a default that is a call with two arguments: its second argument is taken for a parameter *)
Theorem C81_default_refuted : exists s, s = "struct S { int f(int x = g(1,2)); }; "%string /\ declared over_opts s = Some [" int(::S::*TmpMemPtr_f1)(int x , 2 ) )=&::S::f;"]%string.
Proof. eexists. split; [reflexivity|]. vm_compute. reflexivity. Qed.
Print Assumptions C81_default_refuted.
(** a blank between the parentheses *)
Theorem C81_blank_refuted : exists s, s = "struct S { int f( ); }; "%string /\ declared over_opts s = Some [" int(::S::*TmpMemPtr_f1)(()=&::S::f;"]%string.
Proof. eexists. split; [reflexivity|]. vm_compute. reflexivity. Qed.
Print Assumptions C81_blank_refuted.
(** a first parameter that does not begin with an identifier *)
Theorem C81_global_refuted : exists s, s = "struct S { int f(::A x); int g(...); }; "%string
  /\ declared over_opts s = Some [" int(::S::*TmpMemPtr_f1)(( :: A x )=&::S::f;"; " int(::S::*TmpMemPtr_g1)(( ... )=&::S::g;"]%string.
Proof. eexists. split; [reflexivity|]. vm_compute. reflexivity. Qed.
Print Assumptions C81_global_refuted.
(** a first parameter that is a pointer to a function: the rest of it is lost *)
Theorem C81_callback_refuted : exists s, s = "struct S { int f(int (*g)(int), int z); }; "%string /\ declared over_opts s = Some [" int(::S::*TmpMemPtr_f1)(int ( * g )=&::S::f;"]%string.
Proof. eexists. split; [reflexivity|]. vm_compute. reflexivity. Qed.
Print Assumptions C81_callback_refuted.
(** two angle brackets of the return type written together are repeated *)
Theorem C81_shift_refuted : exists s, s = "struct S { V<V<int>> f(); }; "%string /\ declared over_opts s = Some [" V < V < int >>  >>(::S::*TmpMemPtr_f1)()=&::S::f;"]%string.
Proof. eexists. split; [reflexivity|]. vm_compute. reflexivity. Qed.
Print Assumptions C81_shift_refuted.
(** volatile and reference qualifiers are lost *)
Theorem C81_qualifier_refuted : exists s, s = "struct S { void f() volatile; void f() &; }; "%string
  /\ declared over_opts s = Some [" void(::S::*TmpMemPtr_f1)()=&::S::f;"; " void(::S::*TmpMemPtr_f2)()=&::S::f;"]%string.
Proof. eexists. split; [reflexivity|]. vm_compute. reflexivity. Qed.
Print Assumptions C81_qualifier_refuted.

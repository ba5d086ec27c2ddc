(** * Further theorems about the output of the generator (C74, C76, C78, C80, C81, C82) *)
From Verif Require Import Base Base_Proofs SMap Dec Desc_Model Tok_Model Parse_Model Parse_Props Ns_Props ClassParse_Model ClassParse_Spec ClassFile_Spec ClassParse_Props Gen_Model GenPP_Props Gen_Props GenFile_Props GenName_Props GenOpt_Props.

(** ** C82: the include path is searched in the order of the command line, after "." *)
Definition dash_I (dirs : list tok) : list tok := concat (map (fun d => [bs "-I"; d]) dirs).
Theorem C82_path : forall dirs rest, dirs <> [] -> names rest ->
  exists c, options (dash_I dirs ++ rest) = ORun c rest /\ c_path c = bs "." :: dirs
  /\ c_opts c = Opts false false false false false /\ c_workdir c = [] /\ c_include c = [] /\ c_def c = true /\ c_input c = bs "stdin".
Proof.
  intros dirs rest NE N.
  assert (G : forall dirs c, reads (dash_I dirs ++ rest) c (fold_left (fun c d => k_path d c) dirs c) rest).
  { clear. induction dirs as [|d dirs IH]; intros c; [constructor|]. cbn [fold_left]. unfold dash_I. cbn [map concat]. rewrite <- app_assoc.
    eapply rd_opt; [apply kn_path|apply IH]. }
  eexists. split; [apply C82_options; [|apply G|exact N]|].
  - destruct dirs; [congruence|discriminate].
  - assert (F : forall dirs c, let c' := fold_left (fun c d => k_path d c) dirs c in
       c_path c' = c_path c ++ dirs /\ c_opts c' = c_opts c /\ c_workdir c' = c_workdir c /\ c_include c' = c_include c /\ c_def c' = c_def c /\ c_input c' = c_input c).
    { clear. induction dirs as [|d dirs IH]; intros c; cbn [fold_left]; [rewrite app_nil_r; auto 10|]. destruct (IH (k_path d c)) as (A & B). cbv zeta in *. split; [|exact B].
      rewrite A. unfold k_path. cbn [c_path]. now rewrite <- app_assoc. }
    destruct (F dirs conf0) as (A & B & C & D & E & H). cbv zeta in *. rewrite A, B, C, D, E, H. repeat split.
Qed.
Print Assumptions C82_path.
Example C82_path_ex : names [bs "pack"] /\ exists c, options (map bs ["-I"; "a"; "-I"; "b"; "pack"]%string) = ORun c [bs "pack"] /\ map shown (c_path c) = ["."; "a"; "b"]%string.
Proof. split; [discriminate|]. eexists. split; vm_compute; reflexivity. Qed.

(** ** C82: the settings, each by the options that mention it *)
Inductive cmd := Workdir (d : tok) | Objc | Overload | Include (h : tok) | Nodef | Private | Pointers | Path (d : tok) | TypeName | Onbase | Input (f : tok) | Qt.
Definition words (o : cmd) : list tok :=
  match o with
  | Workdir d => [bs "-workdir"; d] | Objc => [bs "-objc"] | Overload => [bs "-overload"] | Include h => [bs "-include"; h] | Nodef => [bs "-nodef"]
  | Private => [bs "-respect_private"] | Pointers => [bs "-use_mbr_pointers"] | Path d => [bs "-I"; d] | TypeName => [bs "-typeName"] | Onbase => [bs "-onbase"]
  | Input f => [bs "-i"; f] | Qt => [bs "-qt"]
  end.
(** the argument given last, or [d] *)
Fixpoint given_last (f : cmd -> option tok) (d : tok) (os : list cmd) : tok :=
  match os with [] => d | o :: os => given_last f (match f o with Some x => x | None => d end) os end.
Theorem C82_settings : forall os rest, concat (map words os) ++ rest <> [] -> names rest ->
  exists c, options (concat (map words os) ++ rest) = ORun c rest
  /\ (respect_private (c_opts c) = true <-> In Private os)
  /\ (use_mbr (c_opts c) = true <-> In Pointers os)
  /\ (onBase (c_opts c) = true <-> In Onbase os)
  /\ (overloading (c_opts c) = true <-> In Overload os)
  /\ (typeNm (c_opts c) = true <-> In TypeName os)
  /\ (c_def c = false <-> In Nodef os)
  /\ (c_objc c = true <-> In Objc os)
  /\ (c_qt c = true <-> In Qt os)
  /\ c_path c = bs "." :: concat (map (fun o => match o with Path d => [d] | _ => [] end) os)
  /\ c_workdir c = given_last (fun o => match o with Workdir d => Some (d ++ bs "/") | _ => None end) [] os
  /\ c_include c = given_last (fun o => match o with Include h => Some h | _ => None end) [] os
  /\ c_input c = given_last (fun o => match o with Input f => Some f | _ => None end) (bs "stdin") os.
Proof.
  intros os rest NE N.
  assert (G : forall os c, exists c', reads (concat (map words os) ++ rest) c c' rest
    /\ (respect_private (c_opts c') = true <-> respect_private (c_opts c) = true \/ In Private os)
    /\ (use_mbr (c_opts c') = true <-> use_mbr (c_opts c) = true \/ In Pointers os)
    /\ (onBase (c_opts c') = true <-> onBase (c_opts c) = true \/ In Onbase os)
    /\ (overloading (c_opts c') = true <-> overloading (c_opts c) = true \/ In Overload os)
    /\ (typeNm (c_opts c') = true <-> typeNm (c_opts c) = true \/ In TypeName os)
    /\ (c_def c' = false <-> c_def c = false \/ In Nodef os)
    /\ (c_objc c' = true <-> c_objc c = true \/ In Objc os)
    /\ (c_qt c' = true <-> c_qt c = true \/ In Qt os)
    /\ c_path c' = c_path c ++ concat (map (fun o => match o with Path d => [d] | _ => [] end) os)
    /\ c_workdir c' = given_last (fun o => match o with Workdir d => Some (d ++ bs "/") | _ => None end) (c_workdir c) os
    /\ c_include c' = given_last (fun o => match o with Include h => Some h | _ => None end) (c_include c) os
    /\ c_input c' = given_last (fun o => match o with Input f => Some f | _ => None end) (c_input c) os).
  { clear. induction os as [|o os IH]; intros c.
    - exists c. split; [constructor|]. cbn [map concat given_last In]. rewrite app_nil_r. intuition.
    - assert (K : exists f, known (words o) f /\ (respect_private (c_opts (f c)) = true <-> respect_private (c_opts c) = true \/ o = Private)
         /\ (use_mbr (c_opts (f c)) = true <-> use_mbr (c_opts c) = true \/ o = Pointers) /\ (onBase (c_opts (f c)) = true <-> onBase (c_opts c) = true \/ o = Onbase)
         /\ (overloading (c_opts (f c)) = true <-> overloading (c_opts c) = true \/ o = Overload) /\ (typeNm (c_opts (f c)) = true <-> typeNm (c_opts c) = true \/ o = TypeName)
         /\ (c_def (f c) = false <-> c_def c = false \/ o = Nodef) /\ (c_objc (f c) = true <-> c_objc c = true \/ o = Objc) /\ (c_qt (f c) = true <-> c_qt c = true \/ o = Qt)
         /\ c_path (f c) = c_path c ++ match o with Path d => [d] | _ => [] end
         /\ c_workdir (f c) = match o with Workdir d => d ++ bs "/" | _ => c_workdir c end
         /\ c_include (f c) = match o with Include h => h | _ => c_include c end
         /\ c_input (f c) = match o with Input i => i | _ => c_input c end).
      { destruct o; cbn [words]; eexists; (split; [constructor|]); cbn; rewrite ?app_nil_r; intuition discriminate. }
      destruct K as (f & K & K1 & K2 & K3 & K4 & K5 & K6 & K7 & K8 & K9 & K10 & K11 & K12).
      destruct (IH (f c)) as (c' & R & H1 & H2 & H3 & H4 & H5 & H6 & H7 & H8 & H9 & H10 & H11 & H12).
      exists c'. split; [cbn [map concat]; rewrite <- app_assoc; eapply rd_opt; [exact K|exact R]|]. cbn [In map concat given_last].
      rewrite H1, H2, H3, H4, H5, H6, H7, H8, H9, H10, H11, H12, K1, K2, K3, K4, K5, K6, K7, K8, K9, K10, K11, K12, <- app_assoc.
      repeat match goal with |- (_ <-> _) /\ _ => split; [clear; tauto|] end. split; [reflexivity|]. clear. destruct o; auto. }
  destruct (G os conf0) as (c & R & H). exists c. split; [now apply C82_options|]. cbn [conf0 c_opts c_def c_objc c_qt c_path c_workdir c_include c_input respect_private use_mbr onBase overloading typeNm] in H.
  destruct H as (H1 & H2 & H3 & H4 & H5 & H6 & H7 & H8 & H9). rewrite H1, H2, H3, H4, H5, H6, H7, H8. repeat match goal with |- (_ <-> _) /\ _ => split; [clear; intuition discriminate|] end. exact H9.
Qed.
Print Assumptions C82_settings.
Example C82_settings_ex : let os := [Pointers; Workdir (bs "a"); Onbase; Workdir (bs "b"); Path (bs "inc")] in
  concat (map words os) ++ [bs "pack"] <> [] /\ names [bs "pack"] /\
  exists c, options (concat (map words os) ++ [bs "pack"]) = ORun c [bs "pack"] /\ use_mbr (c_opts c) = true /\ c_workdir c = bs "b/".
Proof. cbv zeta. split; [discriminate|]. split; [discriminate|]. eexists. split; [vm_compute; reflexivity|]. split; reflexivity. Qed.

(** ** C81: what is declared *)
(** a C++ declaration of the variable [v]: the pointer type it has and its initial value *)
Inductive var_decl := VarDecl (ret : tok) (cls : option tok) (v args : tok) (cst : bool) (init : tok).
Definition decl_text (d : var_decl) : tok :=
  match d with VarDecl r cls v args cst init =>
    r ++ bs "(" ++ (match cls with Some p => p | None => [] end) ++ bs "*" ++ v ++ bs ")(" ++ args ++ bs ")" ++ (if cst then bs " const" else []) ++ bs "=" ++ init ++ bs ";" end.
(** a member function: pointer to member of its class; const when the function is; a static one: a
    plain pointer; a constructor has no address, the pointer is null *)
Definition var_for (ret : tok) (s : msig) : var_decl :=
  let addr := bs "&" ++ s_prefix s ++ s_name s in
  match s_ty s with
  | TNone => VarDecl ret (Some (s_prefix s)) (s_decl s) (s_args s) false addr
  | TConst => VarDecl ret (Some (s_prefix s)) (s_decl s) (s_args s) true addr
  | TStatic => VarDecl ret None (s_decl s) (s_args s) false addr
  | TCtor => VarDecl (bs "void ") None (s_decl s) (s_args s) false (bs "0")
  end.
(** a return type without "::" keeps its text, blanks normalised *)
Theorem C81_declared : forall s, ~ contains "::" (s_ret s) -> Forall (fun c => isspace c = true -> c = " "%char) (s_ret s) ->
  declare s = decl_text (var_for (s_ret s) s).
Proof.
  intros s NC BL. unfold declare, var_for, decl_text.
  assert (E : insertTypename (s_ret s) = s_ret s).
  { unfold insertTypename. replace (map _ (s_ret s)) with (s_ret s).
    - rewrite <- has_contains in NC. apply Bool.not_true_is_false in NC. rewrite NC. reflexivity.
    - clear NC. induction (s_ret s) as [|c l IH]; [reflexivity|]. inversion BL; subst. cbn [map]. rewrite <- IH by assumption. destruct (isspace c) eqn:Q; [rewrite H1 by reflexivity|]; reflexivity. }
  rewrite E. destruct (s_ty s); repeat (rewrite <- !app_assoc; cbn [app]); reflexivity.
Qed.
Print Assumptions C81_declared.
Example C81_declared_ex : shown (decl_text (var_for (bs "int ") (Sig (bs "TmpMemPtr_f0") (bs "int ") (bs "int a") (bs "::S::") (bs "f") TConst)))
  = "int (::S::*TmpMemPtr_f0)(int a) const=&::S::f;"%string /\ ~ contains "::" (bs "int ").
Proof. split; [vm_compute; reflexivity|]. rewrite <- has_contains. discriminate. Qed.
(** a return type with "::" is preceded by "typename", after a leading const, and the blanks around
    it are dropped: [p] and [q] are those blanks *)
Lemma dropw_blanks : forall p x, Forall (fun c => c = " "%char) p -> dropw isspace (p ++ x) = dropw isspace x.
Proof. induction p as [|c p IH]; intros x H; [reflexivity|]. inversion H; subst. cbn [app dropw]. change (isspace " ") with true. now apply IH. Qed.
Lemma dropw_id : forall c x, isspace c = false -> dropw isspace (c :: x) = c :: x.
Proof. intros c x H. cbn [dropw]. now rewrite H. Qed.
Lemma trim_word : forall p a x b q, Forall (fun c => c = " "%char) p -> Forall (fun c => c = " "%char) q ->
  isspace a = false -> isspace b = false -> trimWS (p ++ (a :: x ++ [b]) ++ q) = a :: x ++ [b].
Proof.
  intros p a x b q P Q A B. unfold trimWS. rewrite dropw_blanks by exact P. cbn [app]. rewrite dropw_id by exact A.
  replace (a :: (x ++ [b]) ++ q) with ((a :: x ++ [b]) ++ q) by reflexivity. rewrite rev_app_distr.
  rewrite dropw_blanks by (apply Forall_forall; intros c H; apply in_rev in H; rewrite Forall_forall in Q; now apply Q).
  change (a :: x ++ [b]) with ((a :: x) ++ [b]). rewrite rev_app_distr. cbn [rev app]. rewrite dropw_id by exact B.
  change (b :: rev x ++ [a]) with ([b] ++ rev (a :: x)). rewrite rev_app_distr. now rewrite rev_involutive.
Qed.
Theorem C81_typename : forall s p (cst : bool) a x b q, Forall (fun c => c = " "%char) p -> Forall (fun c => c = " "%char) q ->
  isspace a = false -> isspace b = false -> Forall (fun c => isspace c = true -> c = " "%char) x ->
  let ty := a :: x ++ [b] in
  (forall y, ty <> bs "const " ++ y) -> contains "::" ty ->
  s_ret s = p ++ (if cst then bs "const " else []) ++ ty ++ q -> ~ contains "typename " (s_ret s) ->
  declare s = decl_text (var_for ((if cst then bs "const " else []) ++ bs "typename " ++ ty) s).
Proof.
  intros s p cst a x b q P Q A B X ty NC CC ER NT.
  assert (E : insertTypename (s_ret s) = (if cst : bool then bs "const " else []) ++ bs "typename " ++ ty).
  { unfold insertTypename.
    assert (ID : map (fun c => if isspace c then " "%char else c) (s_ret s) = s_ret s).
    { assert (F : Forall (fun c => isspace c = true -> c = " "%char) (s_ret s)).
      { rewrite ER. repeat (apply Forall_app; split).
        - eapply Forall_impl; [|exact P]. auto.
        - destruct cst; [|constructor]. repeat (constructor; [vm_compute; intros; congruence|]). constructor.
        - constructor; [congruence|]. apply Forall_app. split; [exact X|]. constructor; [congruence|constructor].
        - eapply Forall_impl; [|exact Q]. auto. }
      clear - F. induction (s_ret s) as [|c l IH]; [reflexivity|]. inversion F; subst. cbn [map]. rewrite IH by assumption.
      destruct (isspace c) eqn:W; [rewrite H1 by reflexivity|]; reflexivity. }
    rewrite ID.
    replace (has "::" (s_ret s)) with true.
    2:{ symmetry. apply has_contains. destruct CC as (u & w & CC). rewrite ER, CC. exists (p ++ (if cst then bs "const " else []) ++ u), (w ++ q).
        now rewrite <- !app_assoc. }
    replace (has "typename " (s_ret s)) with false by (symmetry; apply Bool.not_true_is_false; now rewrite has_contains).
    cbn [negb orb]. cbv zeta. rewrite ER. destruct cst.
    - assert (T : trimWS (p ++ bs "const " ++ ty ++ q) = bs "const " ++ ty).
      { exact (trim_word p "c"%char (bs "onst " ++ a :: x) b q P Q eq_refl B). }
      rewrite T. reflexivity.
    - cbn [app]. assert (T : trimWS (p ++ ty ++ q) = ty) by exact (trim_word p a x b q P Q A B).
      rewrite T. destruct (starts (bs "const ") ty) eqn:SS; [|reflexivity]. exfalso.
      unfold starts in SS. destruct (list_eq_dec ascii_dec _ _) as [SE|]; [|discriminate]. clear SS. rename SE into SS. apply (NC (skipn 6 ty)). rewrite <- SS at 1. symmetry. apply (firstn_skipn 6 ty). }
  unfold declare, var_for, decl_text. rewrite E. destruct (s_ty s); repeat (rewrite <- !app_assoc; cbn [app]); reflexivity.
Qed.
Print Assumptions C81_typename.
Example C81_typename_ex : shown (declare (Sig (bs "TmpMemPtr_f0") (bs " const std::string ") (bs "int a") (bs "::S::") (bs "f") TStatic))
  = "const typename std::string(*TmpMemPtr_f0)(int a)=&::S::f;"%string /\ contains "::" (bs "std::string") /\ ~ contains "typename " (bs " const std::string ").
Proof. split; [vm_compute; reflexivity|]. rewrite <- !has_contains. split; [reflexivity|discriminate]. Qed.
(** the block of a class declares its own temporaries, in both functions, before they are used *)
Theorem C81_block : forall o g k a s, In (without_type_qualifier (x_type a) ++ bs "::", s) (g_over g) ->
  exists x y z, inline_lines o g k a = x ++ [declare s] ++ y ++ [declare s] ++ z
  /\ (forall l, In l (concat (map (op_line k) (x_acts a))) -> In l y) 
  /\ (forall l, In l (concat (map (type_line (use_mbr o) k (type_arg (type_qualifier (x_type a)) (without_type_qualifier (x_type a)))) (x_acts a))) -> In l z).
Proof.
  intros o g k a s IN. unfold inline_lines. cbv zeta. apply at_key_in in IN.
  apply in_split in IN. destruct IN as (O1 & O2 & E). rewrite E, map_app. cbn [map].
  set (P := printNestedTypes _ _ _). set (U := using_ns _). set (OP := concat (map (op_line k) _)). set (TY := concat (map (type_line _ _ _) _)).
  set (H1 := [_; _; _; _]). set (H2 := [_; _; _; _]). set (H3 := [_; _]).
  exists (H1 ++ U ++ P ++ map declare O1), (map declare O2 ++ OP ++ H2 ++ U ++ P ++ map declare O1), (map declare O2 ++ TY ++ H3). split.
  - repeat (rewrite <- !app_assoc; cbn [app]). reflexivity.
  - split; intros l L; rewrite !in_app_iff; tauto.
Qed.
Print Assumptions C81_block.

(** ** C76: the typedefs of -workdir *)
Definition plain_word (w : tok) : Prop := ~ In ":"%char w /\ ~ In " "%char w.
Lemma rfind_sp_none l : ~ In " "%char l -> rfind_sp l = None.
Proof.
  induction l as [|c l IH]; intros N; [reflexivity|]. cbn [rfind_sp]. rewrite IH by (intros X; apply N; right; exact X).
  replace (ceq c " ") with false; [reflexivity|]. symmetry. apply Ascii.eqb_neq. intros ->. apply N. left. reflexivity.
Qed.
Lemma rfind_sp_last a l : ~ In " "%char l -> rfind_sp (a ++ " "%char :: l) = Some (length a).
Proof.
  intros N. induction a as [|c a IH]; cbn [app rfind_sp length]; [rewrite rfind_sp_none by exact N; reflexivity|]. now rewrite IH.
Qed.
Lemma path_nosp ws : Forall plain_word ws -> ~ In " "%char (path ws).
Proof.
  induction 1 as [|w ws (_ & W) F IH]; [intros []|]. unfold path. cbn [map concat]. rewrite !in_app_iff. cbn. intuition discriminate.
Qed.
(** a class [ws::w] gets a typedef for each type recorded in the scope [ws] that encloses it, qualified with it *)
Theorem C76_workdir : forall nested a k ws w, Forall plain_word ws -> plain_word w -> ~ In ":"%char k ->
  x_type a = k ++ bs " " ++ path (ws ++ [w]) ->
  forall l, In l (work_nested nested a) <-> exists n, In (path ws ++ bs "::", n) nested
    /\ l = bs "typedef " ++ (if templated a then bs "typename" else []) ++ bs " " ++ path ws ++ bs "::" ++ n ++ bs " " ++ n ++ bs ";".
Proof.
  intros nested a k ws w F W K E l. unfold work_nested. rewrite E.
  assert (R : rfind2 (k ++ bs " " ++ path (ws ++ [w])) = Some (length (k ++ bs " " ++ path ws))).
  { rewrite path_app. replace (path [w]) with (bs "::" ++ w) by (unfold path; cbn [map concat]; now rewrite app_nil_r).
    replace (k ++ bs " " ++ path ws ++ bs "::" ++ w) with ((k ++ bs " " ++ path ws) ++ bs "::" ++ w) by (rewrite <- !app_assoc; reflexivity).
    rewrite rfind2_last. destruct W as (W & _). rewrite (rfind2_colon _ W). reflexivity. }
  rewrite R.
  assert (SP : rfind_sp (k ++ bs " " ++ path (ws ++ [w])) = Some (length k)).
  { apply rfind_sp_last. apply path_nosp. apply Forall_app. split; [exact F|constructor; [exact W|constructor]]. }
  rewrite SP. cbv zeta.
  assert (LE : (S (length k) <=? length (k ++ bs " " ++ path ws) + 2)%nat = true).
  { apply Nat.leb_le. rewrite !app_length. cbn [length bs list_ascii_of_string]. lia. }
  rewrite LE.
  assert (PF : firstn (length (k ++ bs " " ++ path ws) + 2 - S (length k)) (skipn (S (length k)) (k ++ bs " " ++ path (ws ++ [w]))) = path ws ++ bs "::").
  { replace (skipn (S (length k)) (k ++ bs " " ++ path (ws ++ [w]))) with (path (ws ++ [w])).
    - replace (length (k ++ bs " " ++ path ws) + 2 - S (length k))%nat with (length (path ws ++ bs "::")).
      + rewrite path_app. replace (path [w]) with (bs "::" ++ w) by (unfold path; cbn [map concat]; now rewrite app_nil_r). rewrite (app_assoc (path ws)). generalize (path ws ++ bs "::") as x. clear. intros x. induction x as [|c x IH]; [reflexivity|]. cbn [length app firstn]. now rewrite IH.
      + rewrite !app_length. cbn [length bs list_ascii_of_string]. lia.
    - clear. induction k as [|c k IH]; [reflexivity|]. exact IH. }
  rewrite PF, in_map_iff. split.
  - intros (n & <- & IN). apply at_key_in in IN. exists n. split; [exact IN|]. rewrite <- !app_assoc. reflexivity.
  - intros (n & IN & ->). exists n. split; [rewrite <- !app_assoc; reflexivity|]. now apply at_key_in.
Qed.
Print Assumptions C76_workdir.
(** so the types nested in the class itself, which its members use, get none *)
Theorem C76_workdir_own_refuted : exists g o f text, of_text plain_opts "struct S { struct T { int x; }; T t; }; " = Some g
  /\ output (k_workdir (bs "w/") conf0) g none [bs "pack"] = Some o /\ In (f, text) (o_files o) /\ shown f = "w/struct___S.cc"%string
  /\ In (bs "::S::", bs "T") (g_nested g) /\ ~ In (bs "typedef  ::S::T T;") text.
Proof.
  eexists _, _, _, _. split; [vm_compute; reflexivity|]. split; [vm_compute; reflexivity|]. split; [right; left; reflexivity|]. split; [vm_compute; reflexivity|].
  split; [vm_compute; auto|]. vm_compute. intuition discriminate.
Qed.
Example C76_workdir_ex : work_nested [(bs "::N::", bs "T")] (Action (bs "class ::N::A") [] [] []) = [bs "typedef  ::N::T T;"].
Proof. vm_compute. reflexivity. Qed.

(** ** C80: blanks in the name of a type count as one *)
Inductive squeezed : bool -> tok -> tok -> Prop :=      (* the flag: blanks have been passed *)
| sq_nil b : squeezed b [] []
| sq_blank b l r : squeezed true l r -> squeezed b (" "%char :: l) r
| sq_char b c l r : c <> " "%char -> squeezed false l r -> squeezed b (c :: l) ((if b then bs " " else []) ++ c :: r).
Theorem C80_blanks : forall l r, squeezed false l r -> (forall c, In c l -> c <> "<"%char /\ c <> ">"%char) -> ~ In ":"%char (firstn 2 l) -> plain_name 0 l 0 false = r.
Proof.
  assert (G : forall b l r, squeezed b l r -> forall j, (forall c, In c l -> c <> "<"%char /\ c <> ">"%char) -> ~ In ":"%char (firstn (2 - j) l) -> plain_name j l 0 b = r).
  { induction 1 as [b|b l r SQ IH|b c l r NS SQ IH]; intros j A N; [reflexivity| |].
    - cbn [plain_name]. change (ceq " " ":") with false. change (ceq " " "<") with false. change (ceq " " ">") with false. change (ceq " " " ") with true. rewrite Bool.andb_false_r. cbv iota. cbn [Z.eqb app].
      apply IH; [intros c C; apply A; right; exact C|]. destruct j as [|[|j]]; cbn [Nat.sub firstn] in *; [|intros []|intros []]. intros X. apply N. right. exact X.
    - cbn [plain_name]. destruct (A c (or_introl eq_refl)) as (L & R). replace (ceq c "<") with false by (symmetry; now apply Ascii.eqb_neq). replace (ceq c ">") with false by (symmetry; now apply Ascii.eqb_neq).
      replace (ceq c " ") with false by (symmetry; now apply Ascii.eqb_neq).
      replace ((j <? 2)%nat && ceq c ":")%bool with false.
      + cbn [Z.eqb]. cbv iota. rewrite IH; [destruct b; reflexivity|intros x C; apply A; right; exact C|].
        destruct j as [|[|j]]; cbn [Nat.sub firstn] in *; [|intros []|intros []]. intros X. apply N. right. exact X.
      + symmetry. apply Bool.andb_false_iff. destruct (Nat.ltb_spec j 2) as [J|J]; [|auto]. right. apply Ascii.eqb_neq. intros ->. apply N. destruct j as [|[|j]]; [left; reflexivity|left; reflexivity|lia]. }
  intros l r SQ A N. now apply G.
Qed.
Print Assumptions C80_blanks.
Example C80_blanks_ex : squeezed false (bs "unsigned  int ") (bs "unsigned int").
Proof. repeat first [apply sq_nil | apply sq_blank | (apply (sq_char false); [discriminate|]) | (apply (sq_char true); [discriminate|])]. Qed.

(** ** C74: each file of -workdir includes the header named by -include once, at its beginning *)
Definition at_file (f : tok) (l : list (tok * list tok)) : list (list tok) := map snd (filter (fun p => beq (fst p) f) l).
Definition inc_line (c : conf) : tok := bs "#include """ ++ c_include c ++ bs """".
(** [texts]: what is appended to one file, in order; [w]: the header is already there *)
Definition once_included (c : conf) (w : bool) (texts : list (list tok)) : Prop :=
  match texts with
  | [] => True
  | t :: ts => (if w then True else hd_error t = Some (inc_line c)) /\ Forall (fun t => exists k, hd_error t = Some (bs "#include """ ++ k ++ bs "_base.h""")) (if w then t :: ts else tl t :: ts)
  end.
Lemma at_file_app f a b : at_file f (a ++ b) = at_file f a ++ at_file f b.
Proof. unfold at_file. now rewrite filter_app, map_app. Qed.
Section Once.
  Variables (c : conf) (g : glob) (bf : tok -> tok).
  Hypothesis INC : c_include c <> [].
  Definition based (t : list tok) : Prop := exists k, hd_error t = Some (bs "#include """ ++ k ++ bs "_base.h""").
  (** the texts for [f] when [hw] lists the files begun: all plain if [f] is one of them, else the first one has the header *)
  Definition file_ok (f : tok) (hw hw' : list tok) (r : list (tok * list tok)) : Prop :=
    (In f hw -> Forall based (at_file f r) /\ In f hw')
    /\ (~ In f hw -> (at_file f r = [] /\ ~ In f hw') \/ (exists t ts, at_file f r = (inc_line c :: t) :: ts /\ based t /\ Forall based ts /\ In f hw')).
  Lemma file_ok_nil f hw : file_ok f hw hw [].
  Proof. split; intros H; [split; [constructor|exact H]|left; auto]. Qed.
  Lemma file_ok_app f h1 h2 h3 a b : file_ok f h1 h2 a -> file_ok f h2 h3 b -> file_ok f h1 h3 (a ++ b).
  Proof.
    intros (A1 & A2) (B1 & B2). split; intros H; rewrite at_file_app.
    - destruct (A1 H) as (X & Y). destruct (B1 Y) as (Z & T). split; [apply Forall_app; auto|exact T].
    - destruct (A2 H) as [(X & Y)|(t & ts & X & Y & Z & T)].
      + rewrite X. exact (B2 Y).
      + destruct (B1 T) as (P & Q). right. exists t, (ts ++ at_file f b). rewrite X. split; [reflexivity|]. split; [exact Y|]. split; [apply Forall_app; auto|exact Q].
  Qed.
  Lemma one_ok f omit k a hw : file_ok f hw (snd (one c g omit k a hw)) (o_files (fst (one c g omit k a hw))).
  Proof.
    unfold one. destruct (existsb _ omit); [apply file_ok_nil|]. destruct (_ || templated a)%bool; [apply file_ok_nil|]. cbn [fst snd o_files].
    set (w := work_file _ a). replace (negb (beq (c_include c) [])) with true by (symmetry; apply Bool.negb_true_iff; apply Bool.not_true_iff_false; rewrite beq_eq; exact INC).
    cbn [andb]. assert (B : forall l, based ([bs "#include """ ++ k ++ bs "_base.h"""] ++ l)) by (intros l; exists k; reflexivity).
    split; intros H.
    - unfold at_file. cbn [filter fst]. destruct (beq w f) eqn:E; cbn [map snd].
      + apply beq_eq in E. subst w. rewrite E. assert (X : existsb (beq f) hw = true) by (now apply existsb_in). rewrite X. cbn [negb]. split; [|exact H]. constructor; [apply B|constructor].
      + split; [constructor|]. destruct (existsb _ hw); [exact H|]. apply in_or_app. left. exact H.
    - unfold at_file. cbn [filter fst]. destruct (beq w f) eqn:E; cbn [map snd].
      + apply beq_eq in E. rewrite E. assert (X : existsb (beq f) hw = false) by (apply Bool.not_true_iff_false; now rewrite existsb_in). rewrite X. cbn [negb]. right. eexists _, []. split; [reflexivity|]. split; [apply B|]. split; [constructor|].
        apply in_or_app. right. left. reflexivity.
      + left. split; [reflexivity|]. destruct (existsb _ hw); cbn [negb]; [exact H|]. rewrite in_app_iff. cbn [In]. intros [X|[X|[]]]; [contradiction|]. subst f. rewrite beq_refl in E. discriminate.
  Qed.
  Lemma types_ok f omit k l : forall hw, file_ok f hw (snd (all_types c g omit k l hw)) (o_files (fst (all_types c g omit k l hw))).
  Proof.
    induction l as [|a l IH]; intros hw; cbn [all_types]; [apply file_ok_nil|]. pose proof (one_ok f omit k a hw) as O. destruct (one c g omit k a hw) as (r, h1). pose proof (IH h1) as R. destruct (all_types c g omit k l h1) as (rs, h2).
    cbn [fst snd oapp o_files] in *. eapply file_ok_app; eauto.
  Qed.
  Lemma actions_ok f ks : forall omit hw, exists hw', file_ok f hw hw' (o_files (all_actions c g bf omit ks hw)).
  Proof.
    induction ks as [|k ks IH]; intros omit hw; cbn [all_actions]; [exists hw; apply file_ok_nil|]. pose proof (types_ok f (omit ++ omits_in (bf k)) k (g_actions g) hw) as O.
    destruct (all_types _ _ _ _ _ hw) as (r, h1). destruct (IH (omit ++ omits_in (bf k)) h1) as (h2 & R). exists h2. cbn [fst snd oapp o_files] in *. eapply file_ok_app; eauto.
  Qed.
End Once.
Theorem C74_work_include : forall c g bf ks o f, output c g bf ks = Some o -> c_include c <> [] ->
  at_file f (o_files o) = [] \/
  exists t ts, at_file f (o_files o) = (inc_line c :: t) :: ts
  /\ Forall (fun t => exists k, hd_error t = Some (bs "#include """ ++ k ++ bs "_base.h""")) (t :: ts).
Proof.
  intros c g bf ks o f OUT INC. unfold output in OUT. destruct (optcat _) as [tn|]; [|discriminate]. injection OUT as <-. cbn [o_files].
  destruct (actions_ok c g bf INC f ks (of_kind POmit (g_prag g)) []) as (hw' & _ & H). destruct (H (fun x => x)) as [(E & _)|(t & ts & E & B & BS & _)]; [auto|].
  right. exists t, ts. split; [exact E|]. constructor; assumption.
Qed.
Print Assumptions C74_work_include.
Example C74_work_include_ex : exists g o, of_text plain_opts "struct A { int x; }; " = Some g
  /\ output (k_include (bs "a.h") (k_workdir (bs "w/") conf0)) g none [bs "pack"; bs "unpack"] = Some o
  /\ map (fun t => map shown (firstn 2 t)) (at_file (bs "w/struct___A.cc") (o_files o)) = [["#include ""a.h"""; "#include ""pack_base.h"""]; ["#include ""unpack_base.h"""; "template <class _CD_ARG_TYPE>"]]%string.
Proof. eexists _, _. split; [vm_compute; reflexivity|]. split; vm_compute; reflexivity. Qed.

(** ** C78: the name of a parameter that has template arguments: the closing bracket is not part of it *)
Theorem C78_angle : forall n args r, Forall (fun c => isident c = true) n -> ~ In "<"%char args -> ~ In ">"%char args ->
  tn_name (n ++ bs "<" ++ args ++ bs ">" ++ r) 0 = (n ++ bs "<" ++ args, bs ">" ++ r).
Proof.
  intros n args r F NL NR. assert (I : forall c, isident c = true -> ceq c "<" = false /\ ceq c ">" = false).
  { intros c H. split; apply Ascii.eqb_neq; intros ->; discriminate H. }
  induction F as [|c n C F IH].
  - cbn [app]. change (bs "<" ++ args ++ bs ">" ++ r) with ("<"%char :: args ++ ">"%char :: r). cbn [tn_name]. change (ceq "<" "<") with true. cbv iota.
    assert (G : tn_name (args ++ ">"%char :: r) 1 = (args, ">"%char :: r)).
    { clear - NL NR. induction args as [|c args IH]; [reflexivity|]. cbn [app tn_name].
      replace (ceq c "<") with false by (symmetry; apply Ascii.eqb_neq; intros ->; apply NL; left; reflexivity).
      replace (ceq c ">") with false by (symmetry; apply Ascii.eqb_neq; intros ->; apply NR; left; reflexivity).
      replace (isident c || (0 <? 1)%Z)%bool with true by (symmetry; apply Bool.orb_true_r).
      rewrite IH; [reflexivity| |]; intros X; [apply NL|apply NR]; right; exact X. }
    change (0 + 1)%Z with 1%Z. rewrite G. reflexivity.
  - cbn [app tn_name]. destruct (I c C) as (L & R). rewrite L, R, C. cbn [orb]. cbn [app] in IH. rewrite IH. reflexivity.
Qed.
Print Assumptions C78_angle.
(** a parameter whose type is a member of a template is taken for the template *)
Theorem C78_angle_refuted : exists g a, of_text plain_opts "template <typename A<int,char>::type> struct S { int x; }; " = Some g /\ g_actions g = [a]
  /\ option_map shown (tnTempl (x_templ a)) = Some "< ""+typeName<A>()+"" < int , char > :: type > "%string.
Proof. eexists _, _. split; [vm_compute; reflexivity|]. split; [reflexivity|]. vm_compute. reflexivity. Qed.
(** a text that ends with the keyword gives what is before it *)
Theorem C78_keyword_end : forall f pre k, good pre -> k = bs "class" \/ k = bs "typename" -> tn_loop (S f) (pre ++ k) = Some pre.
Proof.
  intros f pre k G K. cbn [tn_loop]. destruct (pre ++ k) as [|c0 l0] eqn:E; [destruct pre, K as [-> | ->]; discriminate|]. rewrite <- E. clear E c0 l0.
  pose proof (first_kw k pre [] G K) as J. cbv zeta in J. rewrite app_nil_r in J. cbv zeta. rewrite J. rewrite firstn_app, Nat.sub_diag, firstn_O, app_nil_r, firstn_all, skipn_app_exact.
  destruct K as [-> | ->]; reflexivity.
Qed.
Print Assumptions C78_keyword_end.

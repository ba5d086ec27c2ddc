(** * The text printed for a whole file: C77 *)
From Verif Require Import Base Base_Proofs SMap Dec Desc_Model Tok_Model Parse_Model Parse_Props Ns_Props ClassParse_Model ClassParse_Spec ClassFile_Spec ClassFile_Proofs ClassTempl_Proofs ClassParse_Props Gen_Model GenPP_Props Gen_Props.

(** ** What should be printed, from the declarations of the file *)
Definition contains (s : string) (l : tok) : Prop := exists a b, l = a ++ bs s ++ b.
Definition begins (s : string) (l : tok) : bool := beq (firstn (length (bs s)) l) (bs s).
Section Expected.
  Variables (d : tok) (mbr onbase typenames : bool).
  (** operator() *)
  Definition exp_base (n : tok) : tok :=
    bs "::" ++ d ++ (if onbase then bs "_onbase" else []) ++ bs "(targ,desc+"""",classdesc::base_cast<" ++ n ++ bs " >::cast(arg));".
  Definition exp_call (c : call) : tok :=
    bs "::" ++ d ++ bs "(targ,desc+""" ++ c_name c ++ bs ""","
    ++ (if (begins "&" (c_arg c) && negb (beq (c_member c) []))%bool then bs "arg," else []) ++ c_arg c ++ bs ");".
  (** type() *)
  Definition exp_tbase (n : tok) : list tok :=
    if onbase then [bs "::" ++ d ++ bs "<_CD_TYPE," ++ n ++ bs " >(targ,desc+"""");"] else [].
  Definition exp_tcall (q cls : tok) (c : call) : list tok :=
    let line p := [bs "::" ++ d ++ bs "_type<_CD_TYPE," ++ q ++ bs " " ++ cls ++ bs " >(targ,desc+""" ++ c_name c ++ bs """," ++ p ++ bs ");"] in
    if begins "&" (c_arg c) then line (c_arg c)
    else if (begins "classdesc::is_array" (c_arg c) && negb (beq (c_member c) []))%bool then line (bs "&" ++ cls ++ bs "::" ++ c_member c)
    else if (begins "classdesc::is_const_static" (c_arg c) && mbr)%bool then line (c_arg c)
    else [].
  (** [h]: the template parameters *)
  Definition exp_struct (h q cls : tok) (decls ops types : list tok) : list tok :=
    [bs "template " ++ h ++ bs " struct access_" ++ d ++ bs "< " ++ q ++ bs " " ++ cls ++ bs " > {"; bs "template <class _CD_ARG_TYPE>";
     bs "void operator()(classdesc::" ++ d ++ bs "_t& targ, const classdesc::string& desc,_CD_ARG_TYPE& arg)"; bs "{"] ++ decls ++ ops
    ++ [bs "}"; bs "template <class _CD_TYPE>"; bs "void type(classdesc::" ++ d ++ bs "_t& targ, const classdesc::string& desc)"; bs "{"] ++ decls ++ types
    ++ [bs "}"; bs "};"].
  Definition exp_using (ns : tok) : list tok :=
    if beq ns (bs "::") then [] else [bs "using namespace " ++ firstn (length ns - 2) ns ++ bs ";"].
  (** [tds]: the typedefs of the nested types *)
  Definition exp_block (e : event) (tds : list tok) : list tok :=
    match e with
    | EvClass k ns p name bases cs =>
        exp_struct (bs "<>") (kw k) (p ++ name) (exp_using ns ++ tds) (map exp_base bases ++ map exp_call cs)
          (concat (map exp_tbase bases) ++ concat (map (exp_tcall (kw k) (p ++ name)) cs))
    (* a base class that depends on the parameters is named with typename; not so in type(), see C84 *)
    | EvTempl k ns name templ args bases cs =>
        exp_struct templ (kw k) (ns ++ name ++ args) (exp_using ns ++ tds)
          (map (fun fb : bool * tok => exp_base ((if fst fb then bs "typename " else []) ++ snd fb)) bases ++ map exp_call cs)
          (concat (map (fun fb : bool * tok => exp_tbase (snd fb)) bases) ++ concat (map (exp_tcall (kw k) (ns ++ name ++ args)) cs))
    | EvEnum _ ns p name _ =>
        exp_struct (bs "<>") (bs "enum") (p ++ name) (exp_using ns ++ tds)
          [bs "::" ++ d ++ bs "(targ,desc+""""," ++ (if typenames then bs "classdesc::enum_handle(arg)" else bs "(int&)arg") ++ bs ");"] []
    | _ => []
    end.
End Expected.
Definition is_def (e : event) : bool := match e with EvClass _ _ _ _ _ _ | EvEnum _ _ _ _ _ | EvTempl _ _ _ _ _ _ _ | EvTypedef _ _ _ _ _ => true | _ => false end.
Definition is_templ (e : event) : bool := match e with EvTempl _ _ _ _ _ _ _ => true | _ => false end.
Definition ev_name (e : event) : tok := match e with EvClass _ _ p n _ _ | EvEnum _ _ p n _ => p ++ n | EvTempl _ ns n _ a _ _ => ns ++ n ++ a | EvTypedef _ _ n _ _ => n | _ => [] end.
(** not a structure or union that is defined in a typedef: such a type is named without keyword and scope *)
Definition no_td (e : event) : Prop := match e with EvTypedef _ _ _ _ _ => False | _ => True end.
(** and no names that would be taken for a constructor *)
Definition printable (e : event) : Prop :=
  match e with
  | EvTypedef _ _ _ _ _ => False
  | EvClass _ _ _ _ bases cs => Forall (fun b => ~ contains "classdesc::is_constructor" (bs "classdesc::base_cast<" ++ b ++ bs " >::cast(arg)")) bases /\ Forall (fun c => ~ contains "classdesc::is_constructor" (c_arg c)) cs
  | EvTempl _ _ _ _ _ bases cs =>
      Forall (fun fb : bool * tok => ~ contains "classdesc::is_constructor" (bs "classdesc::base_cast<" ++ ((if fst fb then bs "typename " else []) ++ snd fb) ++ bs " >::cast(arg)")) bases
      /\ Forall (fun c => ~ contains "classdesc::is_constructor" (c_arg c)) cs
  | _ => True
  end.

(** ** The shape of the calls recorded *)
Definition call_shape (c : call) : Prop :=
  (exists r, c_arg c = bs "&" ++ r /\ (c_member c = [] \/ c_member c = bs "arg"))
  \/ (exists r, c_arg c = bs "classdesc::is_array()" ++ r)
  \/ (exists r, c_arg c = bs "arg." ++ r /\ c_member c = [])
  \/ (exists r, c_arg c = bs "classdesc::is_const_static()" ++ r /\ c_member c = []).
Definition is_scope (p : tok) : Prop := exists ws, p = path ws ++ bs "::" /\ Forall word ws.
(** the rest of template arguments, in [d] angle brackets *)
Inductive closes : nat -> tok -> Prop :=
| cl_end : closes 1 [">"%char]
| cl_gt d l : closes (S d) l -> closes (S (S d)) (">"%char :: l)
| cl_lt d l : closes (S (S d)) l -> closes (S d) ("<"%char :: l)
| cl_c d c l : plain_char c -> closes d l -> closes d (c :: l).
(** a name in a scope, with template arguments; a blank is after those of a specialisation *)
Definition tword (w : tok) : Prop := exists n a b, w = n ++ a ++ b /\ word n
  /\ (a = [] /\ b = [] \/ (exists l, a = "<"%char :: l /\ closes 1 l) /\ (b = [] \/ b = bs " ")).
Definition is_tscope (p : tok) : Prop := exists ws, p = path ws ++ bs "::" /\ Forall tword ws.
Definition ev_shape (e : event) : Prop :=
  match e with
  | EvClass _ ns p name _ cs => is_scope ns /\ is_scope p /\ tword name /\ Forall call_shape cs
  | EvEnum _ ns p name _ => is_scope ns /\ is_tscope p /\ word name
  | EvTempl _ ns name templ args _ cs => is_scope ns /\ tword (name ++ args) /\ (exists y, templ = y ++ bs " > ") /\ Forall call_shape cs
  | EvTypedef _ _ _ _ _ => False
  | _ => True
  end.
Lemma data_shape mbr prefix s k d : call_shape (data_call mbr prefix s k d).
Proof.
  unfold data_call, call_shape. cbv zeta. destruct (mbr && negb (is (last (etoks (d_pre d)) []) "&"))%bool, (s && k)%bool, (d_end d); cbn [c_arg c_member];
    first [right; right; right; eexists; split; reflexivity|right; left; eexists; reflexivity|left; eexists; split; [reflexivity|auto]|right; right; left; eexists; split; reflexivity].
Qed.
Lemma calls1_shape mbr prefix cls m : Forall call_shape (calls1 mbr prefix cls m).
Proof.
  destruct m as [a|d ds|ty n args quals body]; cbn [calls1]; [constructor| |].
  - constructor; [apply data_shape|]. apply Forall_forall. intros x X. apply in_map_iff in X. destruct X as (d' & <- & _). apply data_shape.
  - destruct (_ || _)%bool; [constructor|]. constructor; [|constructor]. left. unfold fun_call. cbn [c_arg c_member]. eexists. split; [reflexivity|]. destruct (has_static ty); auto.
Qed.
Lemma seen_shape re pr cs : Forall call_shape cs -> Forall call_shape (seen re pr cs).
Proof. intros H. unfold seen. destruct (_ && _)%bool; [constructor|exact H]. Qed.
Lemma chosen_shape cs fs us : Forall call_shape cs -> Forall call_shape (chosen cs fs us).
Proof. intros F. apply Forall_forall. intros x X. apply filter_In in X. destruct X as (X & _). rewrite Forall_forall in F. now apply F. Qed.
Lemma path_snoc ws w : path ws ++ bs "::" ++ w = path (ws ++ [w]).
Proof. rewrite path_app. cbn [path map concat]. now rewrite app_nil_r. Qed.
Lemma scope_in p name : is_scope p -> word name -> is_scope (p ++ name ++ bs "::").
Proof. intros (ws & -> & F) W. exists (ws ++ [name]). split; [|apply Forall_app; auto]. rewrite <- !app_assoc. now rewrite <- path_snoc, <- !app_assoc. Qed.
Lemma word_tword w : word w -> tword w.
Proof. intros W. exists w, [], []. rewrite !app_nil_r. auto. Qed.
Lemma scope_tscope p : is_scope p -> is_tscope p.
Proof. intros (ws & -> & F). exists ws. split; [reflexivity|]. eapply Forall_impl; [|exact F]. exact word_tword. Qed.
Lemma tscope_in p name : is_tscope p -> tword name -> is_tscope (p ++ name ++ bs "::").
Proof. intros (ws & -> & F) W. exists (ws ++ [name]). split; [|apply Forall_app; auto]. rewrite <- !app_assoc. now rewrite <- path_snoc, <- !app_assoc. Qed.
(** the arguments of a template *)
Lemma closes_plain s d l : Forall plain_char s -> closes d l -> closes d (s ++ l).
Proof. induction 1; intros C; [exact C|]. cbn [app]. apply cl_c; auto. Qed.
Lemma closes_tpl ts ks : tpl ts ks -> Forall sp_tok ks -> forall d l, closes (S d) l -> closes (S d) (ttxt ks ++ l).
Proof.
  induction 1; intros F n l C.
  - exact C.
  - inversion F as [|? ? T R]; subst. destruct T as [T|[T|T]]; [apply first_lt in H; tauto|apply first_lt in H; tauto|].
    rewrite ttxt_cons, <- !app_assoc. apply closes_plain; [exact T|]. apply closes_plain; [apply sp_blank|]. apply IHtpl; assumption.
  - inversion F as [|? ? _ R]; subst. apply Forall_app in R. destruct R as (R1 & R2). inversion R2 as [|? ? _ R3]; subst.
    rewrite ttxt_cons, ttxt_app, ttxt_cons, <- ?app_assoc. change (bs "<" ++ ?z) with ("<"%char :: z). apply cl_lt. apply closes_plain; [apply sp_blank|]. apply IHtpl1; [exact R1|].
    change (bs ">" ++ ?z) with (">"%char :: z). apply cl_gt. apply closes_plain; [apply sp_blank|]. apply IHtpl2; assumption.
  - apply IHtpl; assumption.
Qed.
Lemma targs_tword ps sp name : Forall param_ok ps -> sp_ok sp -> word name -> tword (name ++ targs_of ps sp).
Proof.
  intros P SP W. destruct sp as [(ts, ks)|]; cbn [targs_of sp_ok] in *.
  - destruct SP as (T & _ & F). exists name, ("<"%char :: bs " " ++ ttxt ks ++ bs ">"), (bs " "). split; [|split; [exact W|]].
    + rewrite ttxt_cons, ttxt_app. f_equal. change (ttxt [bs ">"]) with (bs ">" ++ bs " "). cbn [app]. rewrite <- !app_assoc. reflexivity.
    + right. split; [|auto]. eexists. split; [reflexivity|]. apply closes_plain; [repeat constructor; discriminate|]. eapply closes_tpl; [exact T|exact F|apply cl_end].
  - exists name, (bs "<" ++ args ps ++ bs ">"), []. split; [now rewrite app_nil_r|]. split; [exact W|]. right. split; [|auto]. exists (args ps ++ bs ">"). split; [reflexivity|].
    apply closes_plain; [now apply args_plain|apply cl_end].
Qed.
Lemma templ_end ps : ps <> [] -> Forall param_ok ps -> exists y, templ_of ps = y ++ bs " > ".
Proof.
  intros NE F. unfold templ_of. assert (X : exists u p, params_toks ps = u ++ [pname p] /\ param_ok p).
  { induction F as [|p ps P F IH]; [congruence|]. destruct ps as [|q ps].
    - exists (flat_map Parse_Props.ptoks (ptype p) ++ (if pdots p then [bs "..."] else [])), p. cbn [params_toks]. unfold param_toks. now rewrite <- app_assoc.
    - destruct IH as (u & r & E & R); [discriminate|]. exists (param_toks p ++ bs "," :: u), r. split; [|exact R].
      change (params_toks (p :: q :: ps)) with (param_toks p ++ bs "," :: params_toks (q :: ps)). rewrite E, <- app_assoc. reflexivity. }
  destruct X as (u & p & -> & (_ & _ & _ & ID)). assert (E : teq (pname p) "." = false) by (apply is_ne; intros Y; rewrite Y in ID; inversion ID; discriminate).
  rewrite ttxt_cons, <- app_assoc, ttxt_app. cbn [app]. rewrite ttxt_cons, E. change (ttxt [bs ">"]) with (bs "> ").
  exists (bs "< " ++ ttxt u ++ pname p). cbn [bs list_ascii_of_string app]. rewrite <- !app_assoc. reflexivity.
Qed.
Lemma body_shape mbr re ns tpar p c (tp pr co : bool) ts rs cs fs us : body mbr re ns tpar p c tp pr co ts rs cs fs us -> is_scope ns -> is_tscope p -> (tp = false -> is_scope p) ->
  Forall ev_shape rs /\ Forall call_shape cs.
Proof.
  induction 1; intros NS P SC; try (destruct (IHbody NS P SC) as (A & B)); auto.
  - split; [exact A|]. apply Forall_app. split; [apply seen_shape, calls1_shape|exact B].
  - split; [exact A|]. apply Forall_app. split; [apply seen_shape, calls1_shape|exact B].
  - split; [|exact B]. apply Forall_app. split; [destruct (_ && _)%bool; repeat constructor|exact A].
  - split; [exact A|]. apply Forall_app. split; [|exact B]. apply seen_shape. constructor; [|constructor]. right. left. cbn [c_arg]. eexists. reflexivity.
  - split; [|exact B]. constructor; [|exact A]. destruct H as (W & _). cbn [ev_shape]. auto.
  - split; [|exact B]. apply Forall_app. split; [destruct pr; repeat constructor|]. constructor; [exact Logic.I|exact A].
  - destruct (IHbody2 NS P SC) as (A & B). destruct (IHbody1 NS (tscope_in _ _ P (word_tword _ H)) (fun E => scope_in _ _ (SC E) H)) as (A1 & B1).
    split; [|exact B]. apply Forall_app. split; [destruct pr; repeat constructor|]. apply Forall_app. split; [exact A1|]. constructor; [|exact A].
    destruct pr, tp; cbn [orb]; try exact Logic.I. cbn [ev_shape]. split; [exact NS|]. split; [now apply SC|]. split; [now apply word_tword|]. now apply chosen_shape.
Qed.
Lemma printable_td es : Forall printable es -> Forall no_td es.
Proof. apply Forall_impl. intros []; cbn; tauto. Qed.
Lemma file_shape mbr respect ns ts es : file mbr respect ns ts es -> Forall no_td es -> is_scope ns -> Forall ev_shape es.
Proof.
  induction 1; intros TD N;
    try (match goal with TD : Forall no_td (_ ++ EvTypedef _ _ _ _ _ :: _) |- _ => apply Forall_app in TD; destruct TD as (_ & TD); inversion TD; contradiction
         | TD : Forall no_td (EvTypedef _ _ _ _ _ :: _) |- _ => inversion TD; contradiction end);
    try (match type of TD with Forall no_td (_ ++ _ :: _) => pose proof (proj2 (proj1 (Forall_app _ _ _) TD)) as TD1; apply Forall_inv_tail in TD1
         | Forall no_td (_ :: _) => pose proof (Forall_inv_tail TD) as TD1 | _ => pose proof TD as TD1 end);
    try (specialize (IHfile TD1 N)); auto.
  - apply Forall_app in TD. apply Forall_app. destruct TD. auto.
  - apply Forall_app in TD. apply Forall_app. destruct TD. split; [|auto]. apply IHfile1; [assumption|]. now apply scope_in.
  - apply Forall_app in TD. apply Forall_app. destruct TD. auto.
  - constructor; [exact Logic.I|exact IHfile].
  - constructor; [exact Logic.I|exact IHfile].
  - constructor; [exact Logic.I|exact IHfile].
  - destruct (body_shape _ _ _ _ _ _ _ _ _ _ _ _ _ _ H1 N (scope_tscope _ (scope_in _ _ N H)) (fun _ => scope_in _ _ N H)) as (A & B).
    apply Forall_app. split; [exact A|]. constructor; [|exact IHfile]. cbn [ev_shape]. split; [exact N|]. split; [exact N|]. split; [now apply word_tword|]. now apply chosen_shape.
  - constructor; [|exact IHfile]. destruct H as (W & _). cbn [ev_shape]. split; [exact N|]. split; [now apply scope_tscope|exact W].
  - destruct H as (NE & PO & _). pose proof (targs_tword ps sp name PO H1 H0) as TW.
    destruct (body_shape _ _ _ _ _ _ _ _ _ _ _ _ _ _ H3 N) as (A & B); [rewrite (app_assoc name); now apply tscope_in; [apply scope_tscope|]|discriminate|].
    apply Forall_app. split; [exact A|]. constructor; [|exact IHfile]. cbn [ev_shape]. split; [exact N|]. split; [exact TW|]. split; [now apply templ_end|]. now apply chosen_shape.
  - constructor; [exact Logic.I|exact IHfile].
  - pose proof (targs_tword [] (Some (a, ka)) name (Forall_nil _) H0 H) as TW.
    destruct (body_shape _ _ _ _ _ _ _ _ _ _ _ _ _ _ H2 N) as (A & B); [rewrite (app_assoc name); now apply tscope_in; [apply scope_tscope|]|discriminate|].
    apply Forall_app. split; [exact A|]. constructor; [|exact IHfile]. cbn [ev_shape]. split; [exact N|]. split; [exact N|]. split; [exact TW|]. now apply chosen_shape.
  - constructor; [exact Logic.I|exact IHfile].
Qed.

(** ** The printed block is the expected one *)
Lemma begins_starts s l : leadeq l s = begins s l.
Proof.
  unfold leadeq, begins. apply Bool.eq_true_iff_eq. rewrite startsP, beq_eq. split.
  - intros (b & ->). rewrite firstn_app, Nat.sub_diag, firstn_O, app_nil_r. apply firstn_all.
  - intros H. exists (skipn (length (bs s)) l). rewrite <- H at 1. now rewrite firstn_skipn.
Qed.
Lemma begins_app s r : begins s (bs s ++ r) = true.
Proof. rewrite <- begins_starts. apply startsP. eauto. Qed.
Lemma begins_no s l : (forall r, l <> bs s ++ r) -> begins s l = false.
Proof. intros H. rewrite <- begins_starts. apply Bool.not_true_iff_false. unfold leadeq. rewrite startsP. intros (r & E). exact (H r E). Qed.
Lemma has_contains s l : has s l = true <-> contains s l.
Proof.
  unfold has, idx, find_from, contains. cbn [Nat.leb skipn]. destruct (find_at (bs s) l 0) as [k|] eqn:E.
  - apply find_at_some in E. destruct E as (a & b & (F & _) & _). split; [intros _; eauto|reflexivity].
  - split; [discriminate|]. intros (a & b & X). apply Parse_Props.find_at_none in E. exfalso. exact (E (ex_intro _ a (ex_intro _ b X))).
Qed.

Ltac lead := rewrite !begins_starts; repeat first [rewrite begins_app | rewrite begins_no by (intros ? ?; discriminate)].
Lemma qual_kw k x : type_qualifier (kw k ++ bs " " ++ x) = kw k.
Proof.
  unfold type_qualifier. destruct k; cbn [kw].
  - rewrite begins_starts. change (bs "class" ++ bs " " ++ x) with (bs "class" ++ " "%char :: x). now rewrite begins_app.
  - rewrite !begins_starts. change (bs "struct" ++ bs " " ++ x) with (bs "struct" ++ " "%char :: x). rewrite begins_app.
    rewrite begins_no by (intros r E; discriminate E). reflexivity.
Qed.
Lemma wo_kw k x : without_type_qualifier (kw k ++ bs " " ++ x) = x.
Proof. unfold without_type_qualifier. rewrite qual_kw, skipn_app, skipn_all, Nat.sub_diag. reflexivity. Qed.
Lemma qual_enum x : type_qualifier (bs "enum " ++ bs "::" ++ x) = bs "enum".
Proof.
  unfold type_qualifier. rewrite !begins_starts.
  rewrite (begins_no "class"), (begins_no "struct"), (begins_no "enum class") by (intros r E; discriminate E).
  change (bs "enum " ++ bs "::" ++ x) with (bs "enum" ++ bs " ::" ++ x). now rewrite begins_app.
Qed.
Lemma wo_enum x : without_type_qualifier (bs "enum " ++ bs "::" ++ x) = bs "::" ++ x.
Proof. unfold without_type_qualifier. rewrite qual_enum. reflexivity. Qed.
Lemma qual_enumc x : type_qualifier (bs "enum class " ++ x) = bs "enum class".
Proof.
  unfold type_qualifier. rewrite !begins_starts. rewrite (begins_no "class"), (begins_no "struct") by (intros r E; discriminate E).
  change (bs "enum class " ++ x) with (bs "enum class" ++ bs " " ++ x). now rewrite begins_app.
Qed.
Lemma wo_enumc x : without_type_qualifier (bs "enum class " ++ x) = x.
Proof. unfold without_type_qualifier. rewrite qual_enumc. reflexivity. Qed.
(** the calls *)
Lemma op_base_m o d m b : ~ contains "classdesc::is_constructor" (bs "classdesc::base_cast<" ++ b ++ bs " >::cast(arg)") -> (onBase o = false -> m = []) ->
  op_line d (Act [] (bs "classdesc::base_cast<" ++ b ++ bs " >::cast(arg)") m false (onBase o)) = [exp_base d (onBase o) b].
Proof.
  intros N M. unfold op_line. cbn [a_name a_action a_member a_base]. rewrite <- has_contains in N. apply Bool.not_true_is_false in N. rewrite N.
  replace (negb (beq m []) && negb (onBase o) && negb (leadeq (bs "classdesc::base_cast<" ++ b ++ bs " >::cast(arg)") "classdesc::is_array"))%bool with false
    by (destruct (onBase o); [rewrite Bool.andb_false_r|rewrite M by reflexivity]; reflexivity).
  unfold exp_base. cbn [app]. do 2 f_equal. rewrite <- !app_assoc. reflexivity.
Qed.
Lemma op_base o d b : ~ contains "classdesc::is_constructor" (bs "classdesc::base_cast<" ++ b ++ bs " >::cast(arg)") ->
  op_line d (Act [] (bs "classdesc::base_cast<" ++ b ++ bs " >::cast(arg)") (if onBase o then b else []) false (onBase o)) = [exp_base d (onBase o) b].
Proof. intros N. apply op_base_m; [exact N|]. intros ->. reflexivity. Qed.
Lemma op_call d c : call_shape c -> ~ contains "classdesc::is_constructor" (c_arg c) -> op_line d (call_act c) = [exp_call d c].
Proof.
  intros SH N. unfold op_line, call_act, exp_call. cbn [a_name a_action a_member a_base]. rewrite <- has_contains in N. apply Bool.not_true_is_false in N. rewrite N, begins_starts.
  rewrite app_nil_r, Bool.andb_true_r. destruct SH as [(r & E & M)|[(r & E)|[(r & E & M)|(r & E & M)]]].
  - rewrite E. rewrite (begins_no "classdesc::is_array") by (intros x X; discriminate X). rewrite begins_app. cbn [negb andb]. rewrite Bool.andb_true_r. destruct M as [-> | ->]; reflexivity.
  - rewrite E. change (bs "classdesc::is_array()" ++ r) with (bs "classdesc::is_array" ++ bs "()" ++ r) at 1. rewrite begins_app. rewrite (begins_no "&") by (intros x X; discriminate X).
    cbn [negb andb]. now rewrite Bool.andb_false_r.
  - rewrite E, M. rewrite (begins_no "&") by (intros x X; discriminate X). reflexivity.
  - rewrite E, M. rewrite (begins_no "&") by (intros x X; discriminate X). reflexivity.
Qed.
Lemma type_base_m o d t z b : type_line (use_mbr o) d t (Act [] (bs "classdesc::base_cast<" ++ z) (if onBase o then b else []) false (onBase o)) = exp_tbase d (onBase o) b.
Proof.
  unfold type_line, exp_tbase. cbn [a_name a_action a_member a_base]. destruct (onBase o); [reflexivity|].
  rewrite !begins_starts. rewrite (begins_no "TmpMemPtr_"), (begins_no "classdesc::is_constructor"), (begins_no "classdesc::is_array"), (begins_no "classdesc::is_const_static") by (intros x X; discriminate X). reflexivity.
Qed.
Lemma type_base o d t b : type_line (use_mbr o) d t (Act [] (bs "classdesc::base_cast<" ++ b ++ bs " >::cast(arg)") (if onBase o then b else []) false (onBase o)) = exp_tbase d (onBase o) b.
Proof. apply type_base_m. Qed.
Lemma type_call o d q cls c : without_type_qualifier (q ++ bs " " ++ cls) = cls -> call_shape c -> type_line (use_mbr o) d (q ++ bs " " ++ cls) (call_act c) = exp_tcall d (use_mbr o) q cls c.
Proof.
  intros W SH. unfold type_line, call_act, exp_tcall. cbn [a_name a_action a_member a_base]. rewrite !begins_starts, W. cbv zeta.
  destruct SH as [(r & E & M)|[(r & E)|[(r & E & M)|(r & E & M)]]]; rewrite E.
  - rewrite begins_app. replace (match idx "::" (bs "&" ++ r) with Some O => false | _ => true end) with true; [change (ceq (first (bs "&" ++ r)) "&") with true; cbn [andb orb]; rewrite <- !app_assoc; reflexivity|].
    unfold idx, find_from. cbn [Nat.leb skipn]. destruct (find_at (bs "::") (bs "&" ++ r) 0) as [[|n]|] eqn:F; try reflexivity.
    apply find_at_some in F. destruct F as (a & b & (X & _) & L). destruct a; [discriminate X|discriminate L].
  - change (bs "classdesc::is_array()" ++ r) with (bs "classdesc::is_array" ++ bs "()" ++ r) . rewrite begins_app.
    rewrite (begins_no "TmpMemPtr_"), (begins_no "classdesc::is_constructor"), (begins_no "classdesc::is_const_static"), (begins_no "&") by (intros x X; discriminate X).
    change (ceq (first (bs "classdesc::is_array" ++ bs "()" ++ r)) "&") with false. cbn [andb orb]. destruct (negb _); [|reflexivity]. rewrite <- !app_assoc. reflexivity.
  - rewrite (begins_no "TmpMemPtr_"), (begins_no "classdesc::is_constructor"), (begins_no "classdesc::is_const_static"), (begins_no "classdesc::is_array"), (begins_no "&") by (intros x X; discriminate X).
    reflexivity.
  - rewrite (begins_no "TmpMemPtr_"), (begins_no "classdesc::is_constructor"), (begins_no "classdesc::is_array"), (begins_no "&") by (intros x X; discriminate X).
    change (bs "classdesc::is_const_static()" ++ r) with (bs "classdesc::is_const_static" ++ bs "()" ++ r). rewrite begins_app.
    change (ceq (first (bs "classdesc::is_const_static" ++ bs "()" ++ r)) "&") with false. cbn [andb orb]. destruct (use_mbr o); [|reflexivity]. rewrite <- !app_assoc. reflexivity.
Qed.
Lemma ns_colons ws name : exists x, (path ws ++ bs "::") ++ name = bs "::" ++ x.
Proof. destruct ws as [|w ws]; [exists name; reflexivity|]. unfold path. cbn [map concat]. rewrite <- !app_assoc. eauto. Qed.
Lemma ns_strip ws : firstn (length (path ws ++ bs "::") - 2) (path ws ++ bs "::") = path ws.
Proof.
  rewrite app_length. cbn [length bs list_ascii_of_string]. replace (length (path ws) + 2 - 2)%nat with (length (path ws)) by lia.
  now rewrite firstn_app, Nat.sub_diag, firstn_O, app_nil_r, firstn_all.
Qed.
Lemma using_eq ws : using_ns (firstn (length (path ws ++ bs "::") - 2) (path ws ++ bs "::")) = exp_using (path ws ++ bs "::").
Proof.
  unfold exp_using. rewrite ns_strip. destruct ws as [|w ws]; [reflexivity|]. unfold using_ns, path. cbn [map concat]. rewrite <- !app_assoc.
  replace (beq _ (bs "::")) with false; [reflexivity|]. symmetry. apply Bool.not_true_iff_false. rewrite beq_eq. intros E.
  apply (f_equal (@length ascii)) in E. rewrite !app_length in E. cbn [length bs list_ascii_of_string] in E. lia.
Qed.
Lemma concat_single {A B} (f : A -> list B) (h : A -> B) l : (forall x, In x l -> f x = [h x]) -> concat (map f l) = map h l.
Proof. induction l as [|x l IH]; intros H; [reflexivity|]. cbn [map concat]. rewrite H by (now left). cbn [app]. f_equal. apply IH. intros y Y. apply H. now right. Qed.
Lemma map_concat_ext {A B} (f h : A -> list B) l : (forall x, In x l -> f x = h x) -> concat (map f l) = concat (map h l).
Proof. intros H. f_equal. now apply map_ext_in. Qed.
Lemma block_event o g e : g_over g = [] -> is_def e = true -> ev_shape e -> printable e ->
  exists a, ev_actions o e = [a] /\ templated a = is_templ e /\ without_type_qualifier (x_type a) = ev_name e
  /\ forall k, inline_lines o g k a = exp_block k (use_mbr o) (onBase o) (typeNm o) e (printNestedTypes (g_nested g) (ev_name e) (is_templ e)).
Proof.
  intros GO DF SH NC. destruct e as [k ns p name bases cs| | | |sc ns p name keys| |k ns name templ args bases cs|]; try discriminate; try contradiction; cbn [ev_actions ev_name is_templ] in *.
  - destruct SH as ((ws & -> & WS) & _ & WN & CS). destruct NC as (NB & NM). rewrite !Forall_forall in *. set (nm := p ++ name) in *.
    eexists. split; [reflexivity|]. split; [reflexivity|]. cbn [x_type].
    replace ((if k then bs "class " else bs "struct ") ++ nm) with (kw k ++ bs " " ++ nm) by (destruct k; reflexivity).
    split; [apply wo_kw|]. intros d. unfold inline_lines. cbn [x_type x_acts x_ns x_templ templated templ_text]. rewrite wo_kw, qual_kw, GO. cbv zeta.
    unfold type_arg. replace (teq (kw k) "enum class") with false by (destruct k; reflexivity). unfold templated, templ_text. cbn [x_templ at_key filter map]. rewrite app_nil_r, using_eq.
    unfold exp_block, exp_struct. fold nm. rewrite !map_app, !concat_app, !map_map, <- !app_assoc. cbn [app].
    repeat (f_equal; []).
    rewrite (concat_single _ (exp_base d (onBase o)) bases), (concat_single _ (exp_call d) cs).
    2: { intros c IN. apply op_call; auto. } 2: { intros b IN. apply op_base. auto. }
    rewrite (map_concat_ext _ (exp_tbase d (onBase o)) bases) by (intros; apply type_base).
    rewrite (map_concat_ext _ (exp_tcall d (use_mbr o) (kw k) nm) cs) by (intros c IN; apply type_call; [apply wo_kw|auto]).
    reflexivity.
  - destruct SH as ((ws & -> & WS) & (vs & -> & VS) & WN). set (nm := (path vs ++ bs "::") ++ name) in *.
    assert (Q : without_type_qualifier ((if sc then bs "enum class " else bs "enum ") ++ nm) = nm).
    { destruct sc; [apply wo_enumc|]. unfold nm. destruct (ns_colons vs name) as (x & ->). apply wo_enum. }
    assert (TA : type_arg (type_qualifier ((if sc then bs "enum class " else bs "enum ") ++ nm)) nm = bs "enum" ++ bs " " ++ nm).
    { destruct sc; [rewrite qual_enumc; reflexivity|]. unfold nm. destruct (ns_colons vs name) as (x & ->). now rewrite qual_enum. }
    eexists. split; [reflexivity|]. split; [reflexivity|]. cbn [x_type]. split; [exact Q|].
    intros d. unfold inline_lines. cbn [x_type x_acts x_ns x_templ]. cbv zeta. rewrite Q, TA, GO. unfold templated, templ_text. cbn [x_templ at_key filter map concat]. rewrite !app_nil_r, using_eq.
    replace (op_line d _) with [bs "::" ++ d ++ bs "(targ,desc+""""," ++ (if typeNm o then bs "classdesc::enum_handle(arg)" else bs "(int&)arg") ++ bs ");"].
    2: { unfold op_line. cbn [a_name a_action a_member a_base]. rewrite app_nil_r. destruct (typeNm o); reflexivity. }
    replace (type_line _ d _ _) with (@nil tok).
    2: { unfold type_line. cbn [a_name a_action a_member a_base]. destruct (typeNm o); reflexivity. }
    unfold exp_block, exp_struct. fold nm. rewrite <- !app_assoc. reflexivity.
  - destruct SH as ((ws & -> & WS) & _ & (y & TY) & CS). destruct NC as (NB & NM). rewrite !Forall_forall in *. set (nm := (path ws ++ bs "::") ++ name ++ args) in *.
    assert (TE : templ <> []) by (rewrite TY; destruct y; discriminate).
    eexists. split; [reflexivity|]. split; [unfold templated; cbn [x_templ]; destruct templ; [congruence|reflexivity]|]. cbn [x_type].
    replace ((if k then bs "class " else bs "struct ") ++ nm) with (kw k ++ bs " " ++ nm) by (destruct k; reflexivity).
    split; [apply wo_kw|]. intros d. unfold inline_lines. cbn [x_type x_acts x_ns]. rewrite wo_kw, qual_kw, GO. cbv zeta.
    unfold type_arg. replace (teq (kw k) "enum class") with false by (destruct k; reflexivity). unfold templated, templ_text. cbn [x_templ at_key filter map].

    replace (match templ with [] => false | _ :: _ => true end) with true by (destruct templ; [congruence|reflexivity]).
    rewrite app_nil_r, using_eq.
    unfold exp_block, exp_struct. fold nm. rewrite !map_app, !concat_app, !map_map, <- !app_assoc. cbn [app].
    repeat (f_equal; []).
    rewrite (concat_single _ (fun fb : bool * tok => exp_base d (onBase o) ((if fst fb then bs "typename " else []) ++ snd fb)) bases), (concat_single _ (exp_call d) cs).
    2: { intros c IN. apply op_call; auto. } 2: { intros b IN. rewrite (app_assoc _ (snd b)). apply op_base_m; [apply NB; exact IN|intros ->; reflexivity]. }
    rewrite (map_concat_ext _ (fun fb : bool * tok => exp_tbase d (onBase o) (snd fb)) bases) by (intros; apply type_base_m).
    rewrite (map_concat_ext _ (exp_tcall d (use_mbr o) (kw k) nm) cs) by (intros c IN; apply type_call; [apply wo_kw|auto]).
    destruct templ; [congruence|reflexivity].
Qed.

(** ** C77 *)
Definition defs (es : list event) : list event := filter is_def es.
Definition ev_pairs (ks : list tok) (es : list event) : list (tok * event) := concat (map (fun k => map (fun e => (k, e)) (defs es)) ks).
Definition ev_guard (k : tok) (e : event) : tok := macro (bs "CLASSDESC_" ++ k ++ bs "_" ++ ev_name e).
Definition ev_tguard (e : event) : tok := macro (bs "CLASSDESC_TYPENAME_" ++ ev_name e).
(** the name under which a pragma would leave the type out *)
Fixpoint noangle (d : nat) (l : tok) : tok :=
  match l with
  | [] => []
  | c :: l => if Ascii.eqb c "<" then noangle (S d) l else if Ascii.eqb c ">" then noangle (d - 1) l else (if (d =? 0)%nat then [c] else []) ++ noangle d l
  end.
Fixpoint no_end (l : tok) : tok :=
  match l with [] => [] | c :: l => match no_end l with [] => if Ascii.eqb c " " then [] else [c] | r => c :: r end end.
(** without the template arguments, and the blanks at the end *)
Definition bare (l : tok) : tok := no_end (noangle 0 l).
Definition ev_key (k : tok) (e : event) : tok := k ++ skipn 2 (bare (ev_name e)).
Definition ev_omits (es : list event) : list tok := concat (map (fun e => match e with EvPragma k n => if is k "omit" then [n] else [] | _ => [] end) es).
Definition bareq (l : tok) (sp : bool) : Prop := forall j, plain_name (S (S j)) l 0 sp = no_end ((if sp then bs " " else []) ++ noangle 0 l).
Lemma no_end_cons c l : c <> " "%char -> no_end (c :: l) = c :: no_end l.
Proof. intros H. cbn [no_end]. apply Ascii.eqb_neq in H. rewrite H. now destruct (no_end l). Qed.
Lemma no_end_sp c l : c <> " "%char -> no_end (" "%char :: c :: l) = " "%char :: c :: no_end l.
Proof. intros H. cbn [no_end]. apply Ascii.eqb_neq in H. rewrite H. now destruct (no_end l). Qed.
Lemma bare_char c l sp : c <> " "%char -> c <> "<"%char -> c <> ">"%char -> bareq l false -> bareq (c :: l) sp.
Proof.
  intros A B C Q j. cbn [plain_name noangle]. change (S (S j) <? 2)%nat with false. cbn [andb]. unfold ceq.
  rewrite (proj2 (Ascii.eqb_neq c "<") B), (proj2 (Ascii.eqb_neq c " ") A), (proj2 (Ascii.eqb_neq c ">") C). cbn [Z.eqb]. rewrite (Q (S j)).
  destruct sp; cbn [Nat.eqb app bs list_ascii_of_string]; [now rewrite no_end_sp|now rewrite no_end_cons].
Qed.
Lemma bare_closes d l m : closes (S d) l -> forall j sp, exists j', plain_name (S (S j)) (l ++ m) (Z.of_nat (S d)) sp = plain_name (S (S j')) m 0 sp /\ noangle (S d) (l ++ m) = noangle 0 m.
Proof.
  intros C. remember (S d) as n eqn:E. revert d E. induction C as [|d0 l C IH|d0 l C IH|d0 c l P C IH]; intros d E j sp.
  - injection E as <-. exists (S j). cbn. auto.
  - injection E as <-. destruct (IH d0 eq_refl (S j) sp) as (j' & P1 & P2). exists j'. cbn [app plain_name noangle]. change (S (S j) <? 2)%nat with false. cbn [andb].
    change (ceq ">" "<") with false. change (ceq ">" ">") with true. change (Ascii.eqb ">" "<") with false. change (Ascii.eqb ">" ">") with true. cbv iota.
    replace (Z.of_nat (S (S d0)) =? 0)%Z with false by (symmetry; apply Z.eqb_neq; lia). replace (Z.of_nat (S (S d0)) - 1)%Z with (Z.of_nat (S d0)) by lia.
    replace (S (S d0) - 1)%nat with (S d0) by lia. auto.
  - injection E as <-. destruct (IH (S d0) eq_refl (S j) sp) as (j' & P1 & P2). exists j'. cbn [app plain_name noangle]. change (S (S j) <? 2)%nat with false. cbn [andb].
    change (ceq "<" "<") with true. change (ceq "<" ">") with false. change (Ascii.eqb "<" "<") with true. cbv iota.
    replace (Z.of_nat (S d0) + 1 =? 0)%Z with false by (symmetry; apply Z.eqb_neq; lia). replace (Z.of_nat (S d0) + 1)%Z with (Z.of_nat (S (S d0))) by lia. auto.
  - subst d0. destruct (IH d eq_refl (S j) sp) as (j' & P1 & P2). exists j'. destruct P as (X & Y & _). cbn [app plain_name noangle]. change (S (S j) <? 2)%nat with false. cbn [andb].
    unfold ceq. apply Ascii.eqb_neq in X, Y. rewrite X, Y. replace (Z.of_nat (S d) =? 0)%Z with false by (symmetry; apply Z.eqb_neq; lia). cbn [Nat.eqb app]. auto.
Qed.
Lemma bare_angle l m sp : closes 1 l -> bareq m sp -> bareq ("<"%char :: l ++ m) sp.
Proof.
  intros C Q j. destruct (bare_closes 0 l m C (S j) sp) as (j' & P1 & P2). change (noangle 0 ("<"%char :: l ++ m)) with (noangle 1 (l ++ m)). rewrite P2, <- (Q j'), <- P1. reflexivity.
Qed.
Lemma bare_blank l : bareq l true -> bareq (" "%char :: l) false.
Proof. intros Q j. pose proof (Q (S j)) as H. cbn [bs list_ascii_of_string app] in H. change (noangle 0 (" "%char :: l)) with (" "%char :: noangle 0 l). rewrite app_nil_l, <- H. reflexivity. Qed.
Lemma word_chars w c : word w -> In c w -> c <> " "%char /\ c <> "<"%char /\ c <> ">"%char /\ c <> ":"%char.
Proof.
  intros (_ & F) IN. rewrite Forall_forall in F. specialize (F c IN).
  assert (G : forallb (fun n => let c := ascii_of_nat n in negb (letter c || ((48 <=? n) && (n <=? 57))%nat) || negb (Ascii.eqb c " " || Ascii.eqb c "<" || Ascii.eqb c ">" || Ascii.eqb c ":"))%bool (seq 0 256) = true) by (vm_compute; reflexivity).
  rewrite forallb_forall in G. specialize (G (nat_of_ascii c)). cbv zeta in G. rewrite ascii_nat_embedding in G.
  assert (L : In (nat_of_ascii c) (seq 0 256)). { apply in_seq. pose proof (nat_ascii_bounded c). lia. }
  specialize (G L). replace (letter c || ((48 <=? nat_of_ascii c) && (nat_of_ascii c <=? 57))%nat)%bool with true in G.
  - cbn [negb orb] in G. repeat split; intros ->; discriminate G.
  - symmetry. destruct F as [->|(A & B)]; [reflexivity|]. apply Nat.leb_le in A, B. rewrite A, B. apply Bool.orb_true_r.
Qed.
Lemma bare_word w l sp : word w -> bareq l false -> bareq (w ++ l) sp.
Proof.
  intros W Q. assert (NE : w <> []) by (destruct W as (ID & _); intros ->; discriminate). assert (F : forall c, In c w -> c <> " "%char /\ c <> "<"%char /\ c <> ">"%char) by (intros c X; pose proof (word_chars w c W X); tauto).
  clear W. revert sp. induction w as [|c w IH]; [congruence|]. intros sp. cbn [app]. destruct (F c (or_introl eq_refl)) as (A & B & C). apply bare_char; try assumption.
  destruct w as [|c' w]; [exact Q|]. apply IH; [discriminate|]. intros x X. apply F. now right.
Qed.
Lemma bare_tword w l sp : tword w -> (forall s, bareq l s) -> bareq (w ++ l) sp.
Proof.
  intros (n & a & b & -> & W & [(-> & ->)|((x & -> & C) & B)]) Q; [rewrite !app_nil_r; apply bare_word; auto|]. rewrite <- !app_assoc. apply bare_word; [exact W|].
  cbn [app]. apply bare_angle; [exact C|]. destruct B as [-> | ->]; [apply Q|]. apply bare_blank. apply Q.
Qed.
Lemma bare_path ws : Forall tword ws -> forall s, bareq (path ws) s.
Proof.
  induction 1 as [|w ws W F IH]; intros s; [intros j; destruct s; reflexivity|].
  assert (X : path (w :: ws) = ":"%char :: ":"%char :: w ++ path ws) by (unfold path; cbn [map concat]; now rewrite <- app_assoc). rewrite X.
  apply bare_char; try discriminate. apply bare_char; try discriminate. now apply bare_tword.
Qed.
Lemma closes_chars d l : closes d l -> ~ In ":"%char l.
Proof. induction 1; intros [X|X]; try discriminate; try tauto. destruct H as (_ & _ & H). congruence. Qed.
Lemma tword_colon w : tword w -> ~ In ":"%char w.
Proof.
  intros (n & a & b & -> & W & T) X. rewrite !in_app_iff in X. destruct X as [X|X]; [pose proof (word_chars n _ W X); tauto|].
  destruct T as [(-> & ->)|((l & -> & C) & B)]; [destruct X as [[]|[]]|]. destruct X as [[X|X]|X]; [discriminate|now apply (closes_chars 1 l C)|].
  destruct B as [-> | ->]; [destruct X|destruct X as [X|[]]; discriminate].
Qed.
Lemma tword_scope w : tword w -> scope_word w.
Proof. intros W. split; [now apply tword_colon|]. destruct W as (n & a & b & -> & (ID & _) & _). destruct n; [discriminate|discriminate]. Qed.
Lemma def_path e : ev_shape e -> is_def e = true -> exists ws, ev_name e = path ws /\ Forall tword ws /\ ws <> [].
Proof.
  intros SH DF.
  assert (X : forall ws w, Forall tword ws -> tword w -> exists vs, (path ws ++ bs "::") ++ w = path vs /\ Forall tword vs /\ vs <> []).
  { intros ws w F W. exists (ws ++ [w]). split; [rewrite <- app_assoc; apply path_snoc|]. split; [apply Forall_app; auto|destruct ws; discriminate]. }
  assert (Y : forall ws, Forall word ws -> Forall tword ws) by (intros ws; apply Forall_impl, word_tword).
  destruct e as [k ns p name bases cs| | | |sc ns p name keys| |k ns name templ args bases cs|]; try discriminate; try contradiction; cbn [ev_name].
  - destruct SH as (_ & (ws & -> & WS) & WN & _). apply X; [now apply Y|exact WN].
  - destruct SH as (_ & (ws & -> & WS) & WN). apply X; [exact WS|now apply word_tword].
  - destruct SH as ((ws & -> & WS) & TW & _). apply X; [now apply Y|exact TW].
Qed.
Lemma name_key e : ev_shape e -> is_def e = true -> plain_name 0 (ev_name e) 0 false = skipn 2 (bare (ev_name e)).
Proof.
  intros SH DF. destruct (def_path e SH DF) as (ws & E & F & NE). rewrite E. destruct ws as [|w ws]; [congruence|].
  assert (X : path (w :: ws) = ":"%char :: ":"%char :: w ++ path ws) by (unfold path; cbn [map concat]; now rewrite <- app_assoc). rewrite X.
  inversion F as [|? ? W FS]; subst. pose proof (bare_tword w (path ws) false W (bare_path ws FS)) as Q. change (plain_name 0 (":"%char :: ":"%char :: w ++ path ws) 0 false) with (plain_name 2 (w ++ path ws) 0 false).
  rewrite (Q 0%nat). unfold bare. change (noangle 0 (":"%char :: ":"%char :: w ++ path ws)) with (":"%char :: ":"%char :: noangle 0 (w ++ path ws)).
  rewrite no_end_cons by discriminate. rewrite no_end_cons by discriminate. reflexivity.
Qed.
Definition act_of (o : opts) (e : event) : action := hd (Action [] [] [] []) (ev_actions o e).
Lemma actions_defs o es : concat (map (ev_actions o) es) = map (act_of o) (defs es).
Proof. induction es as [|e es IH]; [reflexivity|]. cbn [map concat defs filter]. rewrite IH. destruct e; reflexivity. Qed.
Lemma pairs_events o ks es : pairs ks (map (act_of o) (defs es)) = map (fun p => (fst p, act_of o (snd p))) (ev_pairs ks es).
Proof. unfold pairs, ev_pairs. rewrite concat_map, map_map. f_equal. apply map_ext. intros k. now rewrite !map_map. Qed.
Lemma of_omit es : of_kind POmit (concat (map ev_prags es)) = ev_omits es.
Proof.
  induction es as [|e es IH]; [reflexivity|]. unfold ev_omits in *. cbn [map concat]. unfold of_kind in *. rewrite filter_app, map_app, IH. f_equal.
  destruct e; try reflexivity. cbn [ev_prags]. destruct (is kind "omit"); [reflexivity|]. destruct (is kind "treenode"); reflexivity.
Qed.
(** the names of template parameters: substr never throws for parameters written as they are recorded *)
Definition at_end (s l : tok) : Prop := exists x, s = x ++ l.
Lemma dropw_end p l : at_end l (dropw p l).
Proof. induction l as [|c l (x & E)]; [exists []; reflexivity|]. cbn [dropw]. destruct (p c); [exists (c :: x); cbn [app]; now rewrite E at 1|exists []; reflexivity]. Qed.
Lemma at_trans a b c : at_end a b -> at_end b c -> at_end a c.
Proof. intros (x & ->) (y & ->). exists (x ++ y). now rewrite <- app_assoc. Qed.
Lemma tn_name_end l : forall z, at_end l (snd (tn_name l z)).
Proof.
  assert (N : forall (l0 : tok) z, at_end l0 (snd (tn_name l0 z)) -> forall c, at_end (c :: l0) (snd (let '(a, r) := tn_name l0 z in (c :: a, r)))).
  { intros l0 z (x & E) c. destruct (tn_name l0 z) as (a, r). cbn [snd] in *. exists (c :: x). cbn [app]. now rewrite E at 1. }
  induction l as [|c l IH]; intros z; [exists []; reflexivity|]. cbn [tn_name].
  destruct (ceq c "<"); [apply N, IH|]. destruct (ceq c ">").
  - destruct (_ =? _)%Z; [exists []; reflexivity|apply N, IH].
  - destruct (_ || _)%bool; [apply N, IH|exists []; reflexivity].
Qed.
Lemma end_long y t m : at_end (y ++ t) m -> (length t <= length m)%nat -> at_end m t.
Proof.
  intros (x & E) L. exists (firstn (length m - length t) m). rewrite <- (firstn_skipn (length m - length t) m) at 1. f_equal.
  rewrite <- (firstn_skipn (length m - length t) m), app_assoc in E. symmetry.
  assert (Y : length (skipn (length m - length t) m) = length t) by (rewrite skipn_length; lia).
  assert (E' : length y = length (x ++ firstn (length m - length t) m)) by (apply (f_equal (@length ascii)) in E; rewrite !app_length in E; rewrite !app_length; lia).
  apply (f_equal (skipn (length y))) in E. rewrite skipn_app, skipn_all, Nat.sub_diag in E. rewrite E', skipn_app, skipn_all, Nat.sub_diag in E. exact E.
Qed.
Lemma dropw_gt p l : p ">"%char = false -> at_end l (bs "> ") -> at_end (dropw p l) (bs "> ").
Proof.
  intros P (x & ->). induction x as [|c x (y & IH)]; [cbn [app bs list_ascii_of_string dropw]; rewrite P; exists []; reflexivity|].
  cbn [app dropw]. destruct (p c); [exists y; exact IH|exists (c :: x); reflexivity].
Qed.
Lemma dropw_sp p l : p " "%char = false -> at_end l (bs " > ") -> at_end (dropw p l) (bs " > ").
Proof.
  intros P (x & ->). induction x as [|c x (y & IH)]; [cbn [app bs list_ascii_of_string dropw]; rewrite P; exists []; reflexivity|].
  cbn [app dropw]. destruct (p c); [exists y; exact IH|exists (c :: x); reflexivity].
Qed.
Lemma idx_lead s l j : idx s l = Some j -> exists r, skipn j l = bs s ++ r.
Proof.
  unfold idx, find_from. cbn [Nat.leb skipn]. intros H. apply find_at_some in H. destruct H as (a & b & (-> & _) & E). exists b.
  replace j with (length a) by lia. now rewrite skipn_app, skipn_all, Nat.sub_diag.
Qed.
Lemma tn_never y f : forall l, at_end (y ++ bs " > ") l -> exists t, tn_loop f l = Some t.
Proof.
  induction f as [|f IH]; intros l E; [eexists; reflexivity|]. cbn [tn_loop]. destruct l as [|c0 l0] eqn:EL; [eexists; reflexivity|]. rewrite <- EL in *. clear EL c0 l0. cbv zeta.
  set (j0 := match idx "class" l with Some j => j | None => length l end). set (j := match idx "typename" l with Some jj => Nat.min j0 jj | None => j0 end).
  assert (J : skipn j l = [] \/ at_end (skipn j l) (bs " > ")).
  { assert (K : forall s r, skipn j l = bs s ++ r -> (3 <= length (bs s))%nat -> at_end (skipn j l) (bs " > ")).
    { intros s r S3 L. apply (end_long y); [|rewrite S3, app_length; change (length (bs " > ")) with 3%nat; lia]. eapply at_trans; [exact E|]. exists (firstn j l). now rewrite firstn_skipn. }
    assert (J0 : j = length l \/ idx "class" l = Some j \/ idx "typename" l = Some j).
    { unfold j, j0. destruct (idx "class" l) as [a|], (idx "typename" l) as [b|] eqn:B; auto.
      - destruct (Nat.min_spec a b) as [(_ & ->)|(_ & ->)]; auto.
      - destruct (Nat.min_spec (length l) b) as [(_ & ->)|(_ & ->)]; auto. }
    destruct J0 as [-> |[J0|J0]]; [left; apply skipn_all|right; apply idx_lead in J0; destruct J0 as (r & J0); apply (K _ r J0); cbn; lia|right; apply idx_lead in J0; destruct J0 as (r & J0); apply (K _ r J0); cbn; lia]. }
  destruct J as [-> |J]; [cbn [dropw]; eexists; reflexivity|].
  pose proof (dropw_sp (fun c => negb (blank c || ceq c ".")) _ eq_refl J) as J1. pose proof (dropw_end (fun c => negb (blank c || ceq c ".")) (skipn j l)) as J2.
  set (l1 := dropw _ (skipn j l)) in *. assert (G : at_end (dropw blank l1) (bs "> ")). { apply dropw_gt; [reflexivity|]. destruct J1 as (x & ->). exists (x ++ bs " "). now rewrite <- app_assoc. }
  destruct l1 as [|c1 l1'] eqn:E1; [eexists; reflexivity|]. rewrite <- E1 in *. clear E1.
  pose proof (dropw_end blank l1) as J3. set (l2 := dropw blank l1) in *. destruct l2 as [|c2 l2'] eqn:E2; [destruct G as (x & G); destruct x; discriminate|]. rewrite <- E2 in *. clear E2.
  pose proof (dropw_end (fun c => (blank c || ceq c ".")%bool) l2) as J4. set (l3 := dropw _ l2) in *. destruct l3 as [|c3 l3'] eqn:E3; [eexists; reflexivity|]. rewrite <- E3 in *. clear E3.
  pose proof (tn_name_end l3 0) as J5. destruct (tn_name l3 0) as (nm, r) eqn:TN. cbn [snd] in J5.
  destruct (IH r) as (t & ->); [|eexists; reflexivity].
  eapply at_trans; [|exact J5]. eapply at_trans; [|exact J4]. eapply at_trans; [|exact J3]. eapply at_trans; [|exact J2]. eapply at_trans; [exact E|]. exists (firstn j l). now rewrite firstn_skipn.
Qed.
Lemma names_exist g l : Forall (fun a => x_templ a = [] \/ exists y, x_templ a = y ++ bs " > ") l -> exists tn, optcat (map (tn_lines g) l) = Some tn.
Proof.
  assert (T : forall t, t = [] \/ (exists y, t = y ++ bs " > ") -> exists tn, tnTempl t = Some tn).
  { intros t [-> |(y & ->)]; [eexists; reflexivity|]. unfold tnTempl. destruct (has _ _); [eexists; reflexivity|]. apply (tn_never y). exists []. reflexivity. }
  induction l as [|a l IH]; intros F; cbn [map optcat]; [eauto|]. inversion F as [|? ? F1 F2]; subst. destruct (IH F2) as (tn & E). unfold tn_lines at 1. destruct (T _ F1) as (t & ->).
  rewrite E. destruct (teq _ "typename"); eauto.
Qed.
Lemma templ_event o e : ev_shape e -> x_templ (act_of o e) = [] \/ exists y, x_templ (act_of o e) = y ++ bs " > ".
Proof. intros SH. destruct e as [| | | |[] ? ? ? ?| |k ns name templ args bases cs|]; try (left; reflexivity). right. destruct SH as (_ & _ & T & _). exact T. Qed.
Theorem C77_file : forall c bf ks ts es orc D, overloading (c_opts c) = false ->
  file (use_mbr (c_opts c)) (respect_private (c_opts c)) (bs "::") ts es -> Forall printable es ->
  exists g o K d, generate (c_opts c) ts = CEof g /\ output c g bf ks = Some o /\ pp orc D [] (o_std o) = Some (K, d)
  /\ forall pre k e post, ev_pairs ks es = pre ++ (k, e) :: post -> c_workdir c = [] \/ is_templ e = true ->
     ~ In (ev_key k e) (ev_omits es ++ concat (map (fun k => omits_in (bf k)) ks)) ->
     ~ In (ev_guard k e) (D ++ map ev_tguard (defs es) ++ map (fun p => ev_guard (fst p) (snd p)) pre) ->
     exists x y ws L, K = x ++ exp_block k (use_mbr (c_opts c)) (onBase (c_opts c)) (typeNm (c_opts c)) e (map (typedef_line (is_templ e) ws) L) ++ y
       /\ ev_name e = path ws /\ NoDup (map snd L) /\ (forall s n, In (s, n) L <-> innermost (concat (map ev_nested es)) ws s n).
Proof.
  intros c bf ks ts es orc D OV FI NC. pose proof (printable_td _ NC) as NTD. set (o := c_opts c) in *. destruct (C73_file o ts es OV FI) as (g & GE & GA & _ & _ & GO & GT & _ & GP & GN).
  assert (SH : Forall ev_shape es). { eapply file_shape; [exact FI|exact NTD|]. exists []. split; [reflexivity|constructor]. }
  rewrite actions_defs in GA.
  assert (ALL : forall e, In e (defs es) -> ev_shape e /\ is_def e = true /\ printable e).
  { intros e X. apply filter_In in X. destruct X as (X & DF). rewrite Forall_forall in SH, NC. auto. }
  assert (BE : forall e, In e (defs es) -> templated (act_of o e) = is_templ e /\ without_type_qualifier (x_type (act_of o e)) = ev_name e
     /\ forall k, inline_lines o g k (act_of o e) = exp_block k (use_mbr o) (onBase o) (typeNm o) e (printNestedTypes (g_nested g) (ev_name e) (is_templ e))).
  { intros e X. destruct (ALL e X) as (S1 & D1 & N1). destruct (block_event o g e GO D1 S1 N1) as (a & E & T & W & B). unfold act_of. rewrite E. cbn [hd]. auto. }
  destruct (names_exist g (g_actions g)) as (tn & TN).
  { rewrite GA. apply Forall_forall. intros a X. apply in_map_iff in X. destruct X as (e & <- & X). destruct (ALL e X) as (S1 & _). now apply templ_event. }
  assert (OUT : exists r, output c g bf ks = Some r) by (unfold output; rewrite TN; eauto). destruct OUT as (r & OUT).
  assert (TD : tidy g) by (intros p X; rewrite GO in X; destruct X).
  destruct (C74_once c g bf ks r orc D OUT GT TD) as (K & d & PP & _ & ON & _).
  exists g, r, K, d. split; [exact GE|]. split; [exact OUT|]. split; [exact PP|].
  intros pre k e post SP WD NO NG.
  assert (IN : In e (defs es)).
  { assert (X : In (k, e) (ev_pairs ks es)) by (rewrite SP; apply in_or_app; right; left; reflexivity). unfold ev_pairs in X. apply in_concat in X. destruct X as (l & Y & X).
    apply in_map_iff in Y. destruct Y as (k' & <- & _). apply in_map_iff in X. destruct X as (e' & [= _ ->] & X). exact X. }
  destruct (BE e IN) as (T & W & B). destruct (ALL e IN) as (S1 & D1 & N1).
  assert (GK : forall k e, In e (defs es) -> guard k (act_of o e) = ev_guard k e). { intros k0 e0 X. unfold guard, ev_guard. now rewrite (proj1 (proj2 (BE e0 X))). }
  assert (GT1 : incl (tguards (g_actions g)) (map ev_tguard (defs es))).
  { rewrite GA. intros m X. unfold tguards in X. apply in_map_iff in X. destruct X as (a & <- & X). apply filter_In in X. destruct X as (X & _). apply in_map_iff in X. destruct X as (e0 & <- & X).
    apply in_map_iff. exists e0. split; [|exact X]. unfold ev_tguard, tguard. now rewrite (proj1 (proj2 (BE e0 X))). }
  rewrite !in_app_iff in NG.
  destruct (ON (map (fun p => (fst p, act_of o (snd p))) pre) k (act_of o e) (map (fun p => (fst p, act_of o (snd p))) post)) as (x & y & EK).
  - rewrite GA, pairs_events, SP, map_app. reflexivity.
  - unfold omitted. rewrite GP, of_omit, W, name_key by assumption. exact NO.
  - destruct WD as [WD|WD]; [left; exact WD|right]. rewrite WD in T. unfold templated in T. intros E0. now rewrite E0 in T.
  - rewrite GK by exact IN. tauto.
  - rewrite GK by exact IN. intros X. apply in_app_or in X. destruct X as [X|X]; [apply GT1 in X; tauto|]. apply NG. right. right.
    unfold guards_of in X. rewrite map_map in X. cbn [fst snd] in X. apply in_map_iff in X. destruct X as ((k1, e1) & E1 & X). cbn [fst snd] in E1. apply in_map_iff. exists (k1, e1). split; [|exact X].
    cbn [fst snd]. rewrite <- E1. symmetry. apply GK.
    assert (Y : In (k1, e1) (ev_pairs ks es)) by (rewrite SP; apply in_or_app; left; exact X). unfold ev_pairs in Y. apply in_concat in Y. destruct Y as (l & Y & Z).
    apply in_map_iff in Y. destruct Y as (k' & <- & _). apply in_map_iff in Z. destruct Z as (e' & [= _ ->] & Z). exact Z.
  - fold o in EK. rewrite B in EK. destruct (def_path e S1 D1) as (ws & EW & FW & _).
    destruct (C76_nested (g_nested g) (is_templ e) ws) as (L & PL & ND & IL & _). { eapply Forall_impl; [|exact FW]. apply tword_scope. }
    rewrite EW, PL in EK. exists x, y, ws, L. split; [exact EK|]. split; [exact EW|]. split; [exact ND|]. rewrite <- GN. exact IL.
Qed.
Print Assumptions C77_file.
Definition pointers : conf := k_tn (k_mbr (k_priv conf0)).
Definition src1_events : list event :=
  [EvClass true (bs "::N::") (bs "::N::") (bs "S") [bs "A"] [Call (bs ".x") (bs "&::N::S::x") (bs "arg") false; Call (bs ".y") (bs "&::N::S::y") (bs "arg") false];
   EvFwd (bs "::N::") (bs "F"); EvEnum false (bs "::") (bs "::") (bs "E") [bs "a"; bs "b"]].
Example C77_file_ex : exists ts, file true true (bs "::") ts src1_events /\ overloading (c_opts pointers) = false /\ c_workdir pointers = [] /\ Forall printable src1_events
  /\ length (ev_pairs [bs "pack"; bs "unpack"] src1_events) = 4%nat
  /\ (forall k e, In (k, e) (ev_pairs [bs "pack"; bs "unpack"] src1_events) -> ~ In (ev_key k e) (ev_omits src1_events))
  /\ NoDup (map (fun p => ev_guard (fst p) (snd p)) (ev_pairs [bs "pack"; bs "unpack"] src1_events) ++ map ev_tguard (defs src1_events))
  /\ map shown (exp_block (bs "pack") true false true (hd (EvFwd [] []) src1_events) [bs "typedef  ::E E;"]) =
  ["template <> struct access_pack< class ::N::S > {"; "template <class _CD_ARG_TYPE>";
   "void operator()(classdesc::pack_t& targ, const classdesc::string& desc,_CD_ARG_TYPE& arg)"; "{"; "using namespace ::N;"; "typedef  ::E E;";
   "::pack(targ,desc+"""",classdesc::base_cast<A >::cast(arg));"; "::pack(targ,desc+"".x"",arg,&::N::S::x);"; "::pack(targ,desc+"".y"",arg,&::N::S::y);";
   "}"; "template <class _CD_TYPE>"; "void type(classdesc::pack_t& targ, const classdesc::string& desc)"; "{"; "using namespace ::N;"; "typedef  ::E E;";
   "::pack_type<_CD_TYPE,class ::N::S >(targ,desc+"".x"",&::N::S::x);"; "::pack_type<_CD_TYPE,class ::N::S >(targ,desc+"".y"",&::N::S::y);"; "}"; "};"]%string.
Proof.
  destruct C73_file_ex as (ts & es & _ & FI & ->). exists ts. split; [exact FI|]. split; [reflexivity|]. split; [reflexivity|]. split.
  - repeat constructor; rewrite <- has_contains; vm_compute; discriminate.
  - split; [reflexivity|]. split; [intros k e _ []|]. split; [|vm_compute; reflexivity].
    apply (NoDup_count_occ' (list_eq_dec Ascii.ascii_dec)). intros x X. vm_compute in X. repeat destruct X as [<-|X]; [vm_compute; reflexivity..|destruct X].
Qed.

(** ** -workdir: the bodies go to files *)
Definition exp_wcall (d : tok) (c : call) : tok := bs "::" ++ d ++ bs "(targ,desc+""" ++ c_name c ++ bs """," ++ c_arg c ++ bs ");".
Definition exp_wblock (d : tok) (onbase typenames : bool) (e : event) (tds : list tok) : list tok :=
  let q := match e with EvClass k _ _ _ _ _ | EvTempl k _ _ _ _ _ _ => kw k | EvEnum true _ _ _ _ => bs "enum class" | _ => bs "enum" end in
  let ns := match e with EvClass _ ns _ _ _ _ | EvEnum _ ns _ _ _ | EvTempl _ ns _ _ _ _ _ => ns | _ => [] end in
  let head := bs "void classdesc_access::access_" ++ d ++ bs "< " ++ q ++ bs " " ++ ev_name e ++ bs " >::operator()(classdesc::" ++ d ++ bs "_t& targ, const classdesc::string& desc," in
  [bs "#include """ ++ d ++ bs "_base.h"""; bs "template <class _CD_ARG_TYPE>"; head ++ bs "_CD_ARG_TYPE& arg)"; bs "{"] ++ exp_using ns ++ tds
  ++ match e with
     | EvClass _ _ _ _ bases cs => map (exp_base d onbase) bases ++ map (exp_wcall d) cs
     | EvEnum _ _ _ _ _ => [bs "::" ++ d ++ bs "(targ,desc+""""," ++ (if typenames then bs "classdesc::enum_handle(arg)" else bs "(int&)arg") ++ bs ");"]
     | _ => []
     end
  ++ [bs "};"; bs "template"; head ++ q ++ bs " " ++ ev_name e ++ bs "& arg);"; bs "template"; head ++ bs "const " ++ q ++ bs " " ++ ev_name e ++ bs "& arg);"; bs "#include <classdesc_epilogue.h>"].
Lemma work_one c g omit k a hw : c_workdir c <> [] -> x_templ a = [] -> ~ In (k ++ plain_name 0 (without_type_qualifier (x_type a)) 0 false) omit ->
  exists h, (h = [] \/ h = [bs "#include """ ++ c_include c ++ bs """"]) /\
  o_files (fst (one c g omit k a hw)) = [(work_file (c_workdir c) a, h ++ (bs "#include """ ++ k ++ bs "_base.h""") :: work_body g k a)].
Proof.
  intros WD T N. unfold one. cbv zeta. replace (existsb _ omit) with false by (symmetry; apply Bool.not_true_iff_false; rewrite existsb_in; exact N).
  replace (beq (c_workdir c) []) with false by (destruct (c_workdir c); [congruence|reflexivity]). unfold templated. rewrite T. cbn [orb fst o_files].
  destruct (_ && _)%bool; eexists; (split; [|reflexivity]); auto.
Qed.
Lemma work_types c g omit k l : forall hw a, In a l -> c_workdir c <> [] -> x_templ a = [] -> ~ In (k ++ plain_name 0 (without_type_qualifier (x_type a)) 0 false) omit ->
  exists h, (h = [] \/ h = [bs "#include """ ++ c_include c ++ bs """"]) /\
  In (work_file (c_workdir c) a, h ++ (bs "#include """ ++ k ++ bs "_base.h""") :: work_body g k a) (o_files (fst (all_types c g omit k l hw))).
Proof.
  induction l as [|b l IH]; intros hw a IN WD T N; [destruct IN|]. cbn [all_types]. destruct (one c g omit k b hw) as (r, hw1) eqn:E. destruct (all_types c g omit k l hw1) as (rs, hw2) eqn:E2.
  cbn [fst oapp o_files]. destruct IN as [<-|IN].
  - destruct (work_one c g omit k b hw WD T N) as (h & H & F). rewrite E in F. cbn [fst] in F. exists h. split; [exact H|]. rewrite F. left. reflexivity.
  - destruct (IH hw1 a IN WD T N) as (h & H & F). rewrite E2 in F. exists h. split; [exact H|]. apply in_or_app. right. exact F.
Qed.
Lemma work_actions c g bf ks : forall omit hw k a, In k ks -> In a (g_actions g) -> c_workdir c <> [] -> x_templ a = [] ->
  ~ In (k ++ plain_name 0 (without_type_qualifier (x_type a)) 0 false) (omit ++ concat (map (fun k => omits_in (bf k)) ks)) ->
  exists h, (h = [] \/ h = [bs "#include """ ++ c_include c ++ bs """"]) /\
  In (work_file (c_workdir c) a, h ++ (bs "#include """ ++ k ++ bs "_base.h""") :: work_body g k a) (o_files (all_actions c g bf omit ks hw)).
Proof.
  induction ks as [|k0 ks IH]; intros omit hw k a IK IA WD T N; [destruct IK|]. cbn [all_actions]. destruct (all_types c g (omit ++ omits_in (bf k0)) k0 (g_actions g) hw) as (r, hw1) eqn:E.
  cbn [oapp o_files]. cbn [map concat] in N. rewrite !in_app_iff in N. destruct IK as [<-|IK].
  - destruct (work_types c g (omit ++ omits_in (bf k0)) k0 (g_actions g) hw a IA WD T) as (h & H & F); [rewrite in_app_iff; tauto|].
    rewrite E in F. exists h. split; [exact H|]. apply in_or_app. left. exact F.
  - destruct (IH (omit ++ omits_in (bf k0)) hw1 k a IK IA WD T) as (h & H & F); [rewrite !in_app_iff; tauto|].
    exists h. split; [exact H|]. apply in_or_app. right. exact F.
Qed.
Lemma qual_event o e : is_def e = true -> ev_shape e -> type_qualifier (x_type (act_of o e)) = match e with EvClass k _ _ _ _ _ | EvTempl k _ _ _ _ _ _ => kw k | EvEnum true _ _ _ _ => bs "enum class" | _ => bs "enum" end.
Proof.
  intros DF SH. destruct e as [k ns p name bases cs| | | |sc ns p name keys| |k ns name templ args bases cs|]; try discriminate; try contradiction; unfold act_of; cbn [ev_actions hd x_type].
  - replace ((if k then bs "class " else bs "struct ") ++ p ++ name) with (kw k ++ bs " " ++ p ++ name) by (destruct k; reflexivity). apply qual_kw.
  - destruct sc; [apply qual_enumc|]. destruct SH as (_ & (ws & -> & WS) & WN). destruct (ns_colons ws name) as (x & ->). apply qual_enum.
  - replace ((if k then bs "class " else bs "struct ") ++ ns ++ name ++ args) with (kw k ++ bs " " ++ ns ++ name ++ args) by (destruct k; reflexivity). apply qual_kw.
Qed.
Lemma using_event o e : is_def e = true -> ev_shape e -> using_ns (x_ns (act_of o e)) = exp_using (match e with EvClass _ ns _ _ _ _ | EvEnum _ ns _ _ _ | EvTempl _ ns _ _ _ _ _ => ns | _ => [] end).
Proof.
  intros DF SH. destruct e as [k ns p name bases cs| | | |sc ns p name keys| |k ns name templ args bases cs|]; try discriminate; try contradiction; unfold act_of; cbn [ev_actions hd x_ns];
  destruct SH as ((ws & -> & _) & _); apply using_eq.
Qed.
Theorem C77_workdir : forall c bf ks ts es, overloading (c_opts c) = false -> c_workdir c <> [] ->
  file (use_mbr (c_opts c)) (respect_private (c_opts c)) (bs "::") ts es -> Forall no_td es ->
  exists g o, generate (c_opts c) ts = CEof g /\ output c g bf ks = Some o
  /\ forall k e, In k ks -> In e (defs es) -> is_templ e = false -> ~ In (ev_key k e) (ev_omits es ++ concat (map (fun k => omits_in (bf k)) ks)) ->
     exists h tds, (h = [] \/ h = [bs "#include """ ++ c_include c ++ bs """"])
     /\ In (c_workdir c ++ macro (x_type (act_of (c_opts c) e)) ++ bs ".cc", h ++ exp_wblock k (onBase (c_opts c)) (typeNm (c_opts c)) e tds) (o_files o)
     /\ Forall (fun l => begins "typedef " l = true) tds.
Proof.
  intros c bf ks ts es OV WD FI NTD. set (o := c_opts c) in *. destruct (C73_file o ts es OV FI) as (g & GE & GA & _ & _ & GO & GT & _ & GP & GN).
  assert (SH : Forall ev_shape es). { eapply file_shape; [exact FI|exact NTD|]. exists []. split; [reflexivity|constructor]. }
  rewrite actions_defs in GA.
  assert (ALL : forall e, In e (defs es) -> ev_shape e /\ is_def e = true).
  { intros e X. apply filter_In in X. destruct X as (X & DF). rewrite Forall_forall in SH. auto. }
  assert (TM : forall e, In e (defs es) -> is_templ e = false -> x_templ (act_of o e) = []) by (intros e X NT; destruct (ALL e X) as (_ & DF); destruct e; try discriminate; reflexivity).
  assert (WQ : forall e, In e (defs es) -> is_templ e = false -> without_type_qualifier (x_type (act_of o e)) = ev_name e).
  { intros e X NT. destruct (ALL e X) as (S1 & DF). pose proof (block_event o g e GO DF S1) as BE. destruct e as [k ns p name bases cs| | | |sc ns p name keys| | |]; try discriminate; try contradiction.
    - unfold act_of. cbn [ev_actions hd x_type ev_name]. replace ((if k then bs "class " else bs "struct ") ++ p ++ name) with (kw k ++ bs " " ++ p ++ name) by (destruct k; reflexivity). apply wo_kw.
    - destruct (BE Logic.I) as (a & E & _ & W & _). unfold act_of. rewrite E. exact W. }
  destruct (names_exist g (g_actions g)) as (tn & TN).
  { rewrite GA. apply Forall_forall. intros a X. apply in_map_iff in X. destruct X as (e & <- & X). destruct (ALL e X) as (S1 & _). now apply templ_event. }
  eexists g, _. split; [exact GE|]. split; [unfold output; rewrite TN; reflexivity|].
  intros k e IK IE NT NO. destruct (ALL e IE) as (S1 & DF). cbn [o_files].
  destruct (work_actions c g bf ks (of_kind POmit (g_prag g)) [] k (act_of o e) IK) as (h & H & F).
  - rewrite GA. now apply in_map.
  - exact WD.
  - now apply TM.
  - rewrite GP, of_omit, WQ, name_key by assumption. exact NO.
  - exists h, (work_nested (g_nested g) (act_of o e)). split; [exact H|]. split.
    + unfold work_file in F. replace (exp_wblock k (onBase o) (typeNm o) e (work_nested (g_nested g) (act_of o e))) with ((bs "#include """ ++ k ++ bs "_base.h""") :: work_body g k (act_of o e)); [exact F|].
      unfold work_body, exp_wblock, work_targ. cbv zeta. rewrite (qual_event o e DF S1), (using_event o e DF S1), (WQ e IE NT). cbn [app].
      assert (CL : map (work_call k) (x_acts (act_of o e)) = match e with
         | EvClass _ _ _ _ bases cs => map (exp_base k (onBase o)) bases ++ map (exp_wcall k) cs
         | EvEnum _ _ _ _ _ => [bs "::" ++ k ++ bs "(targ,desc+""""," ++ (if typeNm o then bs "classdesc::enum_handle(arg)" else bs "(int&)arg") ++ bs ");"]
         | _ => [] end).
      { destruct e as [k0 ns p name bases cs| | | |sc ns p name keys| | |]; try discriminate; try contradiction; unfold act_of; cbn [ev_actions hd x_acts map].
        - rewrite map_app, !map_map. f_equal; apply map_ext; intros x; unfold work_call, exp_base, exp_wcall, call_act; cbn [a_base a_name a_action]; rewrite <- ?app_assoc; reflexivity.
        - unfold work_call. cbn [a_base a_name a_action]. reflexivity. }
      rewrite CL. repeat (rewrite <- !app_assoc; cbn [app]). reflexivity.
    + unfold work_nested. destruct (rfind2 _); [|constructor]. apply Forall_forall. intros l X. apply in_map_iff in X. destruct X as (n0 & <- & _). apply begins_app.
Qed.
Print Assumptions C77_workdir.
(** in these files a method is passed without its object *)
Theorem C77_workdir_object_refuted : exists g o f text, of_text plain_opts "struct S { int f(int x); }; " = Some g
  /\ output (k_workdir (bs "w/") conf0) g none [bs "pack"] = Some o /\ In (f, text) (o_files o) /\ In (bs "::pack(targ,desc+"".f"",&::S::f);") text
  /\ ~ In (bs "::pack(targ,desc+"".f"",arg,&::S::f);") text.
Proof. eexists _, _, _, _. split; [vm_compute; reflexivity|]. split; [vm_compute; reflexivity|]. split; [left; reflexivity|]. split; vm_compute; intuition discriminate. Qed.
(** an enumeration inside a class template is described by a complete specialisation that names the parameter *)
Theorem C77_template_enum_refuted : exists g o, of_text plain_opts "template <class T> struct S { enum E { a }; T x; }; " = Some g
  /\ output conf0 g none [bs "pack"] = Some o /\ In (bs "template <> struct access_pack< enum ::S<T>::E > {") (o_std o).
Proof. eexists _, _. split; [vm_compute; reflexivity|]. split; [vm_compute; reflexivity|]. apply existsb_in. vm_compute. reflexivity. Qed.
(** a structure defined in a typedef whose name begins like a keyword: the name is cut, and another type is described *)
Theorem C77_typedef_keyword_refuted : exists g o, of_text plain_opts "typedef struct { int a; } structA; " = Some g
  /\ output conf0 g none [bs "pack"] = Some o /\ In (bs "template <> struct access_pack< struct A > {") (o_std o).
Proof. eexists _, _. split; [vm_compute; reflexivity|]. split; [vm_compute; reflexivity|]. apply existsb_in. vm_compute. reflexivity. Qed.
(** one in a namespace is named without the namespace *)
Theorem C77_typedef_scope_refuted : exists g o, of_text plain_opts "namespace N { typedef struct { int a; } T; } " = Some g
  /\ output conf0 g none [bs "pack"] = Some o /\ In (bs "template <> struct access_pack<  T > {") (o_std o).
Proof. eexists _, _. split; [vm_compute; reflexivity|]. split; [vm_compute; reflexivity|]. apply existsb_in. vm_compute. reflexivity. Qed.

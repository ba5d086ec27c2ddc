(** * The pragmas in the generated text: C80 *)
From Verif Require Import Base Base_Proofs SMap Dec Desc_Model Tok_Model Parse_Model Parse_Props Ns_Props ClassParse_Model ClassParse_Spec ClassFile_Spec ClassParse_Props Gen_Model GenPP_Props Gen_Props GenFile_Props GenName_Props.

(** ** The name of a type that pragmas use: without the leading colons and the arguments *)
Definition short (a : action) : tok := plain_name 0 (without_type_qualifier (x_type a)) 0 false.
Lemma plain_id l : forall j, (forall c, In c l -> c <> " "%char /\ c <> "<"%char /\ c <> ">"%char) -> plain_name (S (S j)) l 0 false = l.
Proof.
  induction l as [|c l IH]; intros j H; [reflexivity|]. cbn [plain_name]. change (S (S j) <? 2)%nat with false. cbn [andb].
  destruct (H c (or_introl eq_refl)) as (A & B & C). unfold ceq. rewrite (proj2 (Ascii.eqb_neq c "<") B), (proj2 (Ascii.eqb_neq c " ") A), (proj2 (Ascii.eqb_neq c ">") C).
  cbn [Z.eqb app]. f_equal. apply IH. intros x X. apply H. right. exact X.
Qed.
Lemma plain_colons x : (forall c, In c x -> c <> " "%char /\ c <> "<"%char /\ c <> ">"%char) -> plain_name 0 (bs "::" ++ x) 0 false = x.
Proof. intros H. cbn [bs list_ascii_of_string app plain_name]. change (ceq ":" ":") with true. cbn [Nat.ltb Nat.leb andb]. now apply plain_id. Qed.
Lemma path_chars ws c : Forall word ws -> In c (path ws) -> c <> " "%char /\ c <> "<"%char /\ c <> ">"%char.
Proof.
  intros F IN. unfold path in IN. apply in_concat in IN. destruct IN as (l & X & IN). apply in_map_iff in X. destruct X as (w & <- & X). rewrite Forall_forall in F. specialize (F w X).
  apply in_app_or in IN. destruct IN as [IN|IN]; [destruct IN as [<-|[<-|[]]]; repeat split; discriminate|]. pose proof (word_chars w c F IN). tauto.
Qed.
Lemma plain_args args : forall j n sp rest, (forall c, In c args -> c <> "<"%char /\ c <> ">"%char) -> (0 < n)%Z ->
  plain_name (S (S j)) (args ++ rest) n sp = plain_name (S (S j) + length args) rest n sp.
Proof.
  induction args as [|c args IH]; intros j n sp0 rest H N; cbn [app length]; [now rewrite Nat.add_0_r|]. cbn [plain_name]. change (S (S j) <? 2)%nat with false. cbn [andb].
  destruct (H c (or_introl eq_refl)) as (A & B). unfold ceq. rewrite (proj2 (Ascii.eqb_neq c "<") A), (proj2 (Ascii.eqb_neq c ">") B), (proj2 (Z.eqb_neq n 0)) by lia.
  cbn [app]. rewrite IH; [now rewrite Nat.add_succ_r|intros x X; apply H; right; exact X|exact N].
Qed.
Lemma plain_run l : forall j rest, (forall c, In c l -> c <> " "%char /\ c <> "<"%char /\ c <> ">"%char) -> plain_name (S (S j)) (l ++ rest) 0 false = l ++ plain_name (S (S j) + length l) rest 0 false.
Proof.
  induction l as [|c l IH]; intros j rest H; cbn [app length]; [now rewrite Nat.add_0_r|]. cbn [plain_name]. change (S (S j) <? 2)%nat with false. cbn [andb].
  destruct (H c (or_introl eq_refl)) as (A & B & C). unfold ceq. rewrite (proj2 (Ascii.eqb_neq c "<") B), (proj2 (Ascii.eqb_neq c " ") A), (proj2 (Ascii.eqb_neq c ">") C).
  cbn [Z.eqb app]. rewrite IH; [now rewrite Nat.add_succ_r|intros x X; apply H; right; exact X].
Qed.
Theorem C80_key : forall k w ws args, word w -> Forall word ws -> (forall c, In c args -> c <> "<"%char /\ c <> ">"%char) ->
  (forall a, x_type a = kw k ++ bs " " ++ path (w :: ws) -> short a = w ++ path ws)
  /\ (forall a, x_type a = kw k ++ bs " " ++ path (w :: ws) ++ bs "<" ++ args ++ bs ">" -> short a = w ++ path ws).
Proof.
  intros k w ws args W F NA.
  assert (X : path (w :: ws) = bs "::" ++ w ++ path ws) by (unfold path; cbn [map concat]; now rewrite <- app_assoc).
  assert (Y : forall c, In c (w ++ path ws) -> c <> " "%char /\ c <> "<"%char /\ c <> ">"%char).
  { intros c IN. apply in_app_or in IN. destruct IN as [IN|IN]; [pose proof (word_chars w c W IN); tauto|now apply (path_chars ws)]. }
  split; intros a E; unfold short; rewrite E, wo_kw, X.
  - now apply plain_colons.
  - rewrite <- !app_assoc. rewrite (app_assoc w). change (plain_name 0 (bs "::" ++ ?l) 0 false) with (plain_name 2 l 0 false). rewrite plain_run by exact Y.
    rewrite <- (app_nil_r (w ++ path ws)) at 3. f_equal. change (2 + length (w ++ path ws))%nat with (S (S (length (w ++ path ws)))). generalize (length (w ++ path ws)). intros j.
    change (bs "<" ++ ?l) with ("<"%char :: l). cbn [plain_name]. change (ceq "<" "<") with true. change (ceq "<" ">") with false. cbn [Z.add Z.eqb]. change (S (S j) <? 2)%nat with false. cbn [andb app].
    change (0 + 1 =? 0)%Z with false. cbv iota. cbn [app]. rewrite plain_args by (auto; lia). reflexivity.
Qed.
Print Assumptions C80_key.

(** ** C80 *)
(** the names given by pragmas of the kind in the input *)
Definition pragmas (k : pkind) (g : glob) : list tok := map snd (filter (fun p => match k, fst p with POmit, POmit | PTree, PTree | PGraph, PGraph => true | _, _ => false end) (g_prag g)).
Definition exp_node (k type templ node : tok) : list tok :=
  [bs "template " ++ (match templ with [] => bs "<>" | t => t end); bs "struct access_" ++ k ++ bs "< " ++ type ++ bs "* >"; bs "{";
   bs "  template<class _CD_ARG_TYPE>"; bs "  void operator()(classdesc::" ++ k ++ bs "_t& targ, const classdesc::string& desc, _CD_ARG_TYPE& arg)";
   bs "{" ++ k ++ bs "(targ,desc,classdesc::" ++ node ++ bs ",arg);}"; bs "};"; []].
(** what is between the guards of a type: [seen] are the names of omit pragmas *)
Inductive body_of (c : conf) (g : glob) (seen : list tok) (k : tok) (a : action) : list tok -> Prop :=
| bo_omit : In (k ++ short a) seen -> body_of c g seen k a [[]]
| bo_full tree graph main : ~ In (k ++ short a) seen ->
    (In (short a) (pragmas PTree g) -> tree = exp_node k (x_type a) (x_templ a) (bs "is_treenode()")) -> (~ In (short a) (pragmas PTree g) -> tree = []) ->
    (In (short a) (pragmas PGraph g) -> graph = exp_node k (x_type a) (x_templ a) (bs "is_graphnode()")) -> (~ In (short a) (pragmas PGraph g) -> graph = []) ->
    (c_workdir c = [] \/ x_templ a <> [] -> main = inline_lines (c_opts c) g k a ++ [[]]) -> (c_workdir c <> [] -> x_templ a = [] -> main = work_head k a) ->
    body_of c g seen k a (tree ++ graph ++ main).
Lemma exb (x : tok) l : existsb (beq x) l = true <-> In x l.
Proof. split; [intros H; apply existsb_exists in H; destruct H as (y & I0 & E); apply beq_eq in E; now subst|intros H; apply existsb_exists; exists x; split; [exact H|apply beq_refl]]. Qed.
Lemma one_body c g seen k a hw : exists body, body_of c g seen k a body /\ o_std (fst (one c g seen k a hw)) = block (guard k a, body)
  /\ (o_err (fst (one c g seen k a hw)) = true <-> In (short a) (pragmas PTree g) /\ In (short a) (pragmas PGraph g)).
Proof.
  unfold one. cbv zeta. fold (short a). change (of_kind PTree (g_prag g)) with (pragmas PTree g). change (of_kind PGraph (g_prag g)) with (pragmas PGraph g).
  set (m := macro _). assert (M : m = guard k a) by reflexivity. clearbody m. subst m.
  assert (ER : (existsb (beq (short a)) (pragmas PTree g) && existsb (beq (short a)) (pragmas PGraph g))%bool = true <-> In (short a) (pragmas PTree g) /\ In (short a) (pragmas PGraph g))
    by (rewrite Bool.andb_true_iff, !exb; reflexivity).
  destruct (existsb (beq (k ++ short a)) seen) eqn:OM.
  - exists [[]]. split; [constructor; now apply exb|]. split; [reflexivity|exact ER].
  - assert (NO : ~ In (k ++ short a) seen) by (rewrite <- exb, OM; discriminate).
    set (tree := if existsb (beq (short a)) (pragmas PTree g) then node_lines k a "is_treenode()" else []).
    set (graph := if existsb (beq (short a)) (pragmas PGraph g) then node_lines k a "is_graphnode()" else []).
    assert (T : (In (short a) (pragmas PTree g) -> tree = exp_node k (x_type a) (x_templ a) (bs "is_treenode()")) /\ (~ In (short a) (pragmas PTree g) -> tree = [])
      /\ (In (short a) (pragmas PGraph g) -> graph = exp_node k (x_type a) (x_templ a) (bs "is_graphnode()")) /\ (~ In (short a) (pragmas PGraph g) -> graph = [])).
    { unfold tree, graph. rewrite <- !exb. destruct (existsb _ (pragmas PTree g)), (existsb _ (pragmas PGraph g)); repeat split; intros X; try congruence; unfold node_lines, exp_node; destruct (x_templ a); reflexivity. }
    destruct T as (T1 & T2 & G1 & G2). clearbody tree graph.
    destruct (beq (c_workdir c) [] || templated a)%bool eqn:IL.
    + exists (tree ++ graph ++ inline_lines (c_opts c) g k a ++ [[]]). split; [|split; [|exact ER]].
      * constructor; auto. intros W TP. exfalso. apply Bool.orb_true_iff in IL. destruct IL as [IL|IL]; [apply beq_eq in IL; congruence|]. unfold templated in IL. rewrite TP in IL. discriminate.
      * cbn [fst o_std]. unfold block. cbn [fst snd app]. rewrite <- !app_assoc. reflexivity.
    + exists (tree ++ graph ++ work_head k a). apply Bool.orb_false_iff in IL. destruct IL as (I1 & I2). split; [|split; [|exact ER]].
      * constructor; auto. intros [W|TP]; exfalso; [rewrite W in I1; discriminate|]. unfold templated in I2. destruct (x_templ a); [congruence|discriminate].
      * cbn [fst o_std]. unfold block. cbn [fst snd app]. rewrite <- !app_assoc. reflexivity.
Qed.
Lemma types_body c g seen k l : forall hw, (o_err (fst (all_types c g seen k l hw)) = true <-> exists a, In a l /\ In (short a) (pragmas PTree g) /\ In (short a) (pragmas PGraph g))
  /\ forall a, In a l -> exists x y body, o_std (fst (all_types c g seen k l hw)) = x ++ block (guard k a, body) ++ y /\ body_of c g seen k a body.
Proof.
  induction l as [|a l IH]; intros hw; cbn [all_types].
  - split; [split; [discriminate|intros (a & [] & _)]|intros a []].
  - destruct (one_body c g seen k a hw) as (body & BO & ST & ER). destruct (one c g seen k a hw) as (r, hw1). destruct (IH hw1) as (E2 & S2). destruct (all_types c g seen k l hw1) as (rs, hw2). cbn [fst oapp o_err o_std] in *. split.
    + rewrite Bool.orb_true_iff, ER, E2. split; [intros [H|(b & H1 & H2)]; [exists a|exists b]; cbn [In]; auto|]. intros (b & [<-|H1] & H2); [left; exact H2|right; eauto].
    + intros b [<-|IN]; [exists [], (o_std rs), body; split; [now rewrite ST|exact BO]|]. destruct (S2 b IN) as (x & y & bd & E & B). exists (o_std r ++ x), y, bd. split; [rewrite E; now rewrite <- app_assoc|exact B].
Qed.
Lemma actions_body c g bf ks : forall seen hw, (o_err (all_actions c g bf seen ks hw) = true <-> ks <> [] /\ exists a, In a (g_actions g) /\ In (short a) (pragmas PTree g) /\ In (short a) (pragmas PGraph g))
  /\ forall ks1 k ks2 a, ks = ks1 ++ k :: ks2 -> In a (g_actions g) ->
     exists x y body, o_std (all_actions c g bf seen ks hw) = x ++ block (guard k a, body) ++ y /\ body_of c g (seen ++ concat (map (fun k => omits_in (bf k)) (ks1 ++ [k]))) k a body.
Proof.
  induction ks as [|k ks IH]; intros seen hw; cbn [all_actions].
  - split; [split; [discriminate|intros (H & _); congruence]|intros [|? ?] ? ? ? H; discriminate].
  - destruct (types_body c g (seen ++ omits_in (bf k)) k (g_actions g) hw) as (E1 & S1). destruct (all_types c g (seen ++ omits_in (bf k)) k (g_actions g) hw) as (r, hw1).
    destruct (IH (seen ++ omits_in (bf k)) hw1) as (E2 & S2). cbn [fst oapp o_err o_std] in *. split.
    + rewrite Bool.orb_true_iff, E1, E2. split; [intros [H|(_ & H)]; (split; [discriminate|exact H])|intros (_ & H); left; exact H].
    + intros [|k1 ks1] k0 ks2 a SP IN; cbn [app] in SP; injection SP as <- SP.
      * destruct (S1 a IN) as (x & y & body & E & B). exists x, (y ++ o_std (all_actions c g bf (seen ++ omits_in (bf k)) ks hw1)), body. cbn [app map concat]. rewrite app_nil_r. split; [rewrite E; now rewrite <- !app_assoc|exact B].
      * destruct (S2 _ _ _ a SP IN) as (x & y & body & E & B). exists (o_std r ++ x), y, body. split; [rewrite E; now rewrite <- !app_assoc|]. cbn [app map concat]. now rewrite app_assoc.
Qed.
Theorem C80_block : forall c g bf ks o ks1 k ks2 a, output c g bf ks = Some o -> ks = ks1 ++ k :: ks2 -> In a (g_actions g) ->
  exists x y body, o_std o = x ++ block (guard k a, body) ++ y /\ body_of c g (pragmas POmit g ++ concat (map (fun k => omits_in (bf k)) (ks1 ++ [k]))) k a body.
Proof.
  intros c g bf ks o ks1 k ks2 a OUT SP IN. unfold output in OUT. destruct (optcat _) as [tn|]; [|discriminate].
  apply (f_equal (fun x => match x with Some y => y | None => onil end)) in OUT. cbv beta iota zeta in OUT. subst o. cbn [o_std].
  destruct (actions_body c g bf ks (of_kind POmit (g_prag g)) []) as (_ & B). destruct (B _ _ _ a SP IN) as (x & y & body & E & BO).
  exists (g_out g ++ head_lines c g ks ++ (if typeNm (c_opts c) then tn else []) ++ [bs "namespace classdesc_access {"] ++ x), (y ++ [bs "}"] ++ warn_on), body.
  split; [|exact BO]. rewrite E. unfold in_ns. rewrite <- !app_assoc. cbn [app]. rewrite <- !app_assoc. reflexivity.
Qed.
Print Assumptions C80_block.
Theorem C80_error : forall c g bf ks o, output c g bf ks = Some o ->
  (o_err o = true <-> g_err g = true \/ ks <> [] /\ exists a, In a (g_actions g) /\ In (short a) (pragmas PTree g) /\ In (short a) (pragmas PGraph g)).
Proof.
  intros c g bf ks o OUT. unfold output in OUT. destruct (optcat _) as [tn|]; [|discriminate].
  apply (f_equal (fun x => match x with Some y => y | None => onil end)) in OUT. cbv beta iota zeta in OUT. subst o. cbn [o_err].
  destruct (actions_body c g bf ks (of_kind POmit (g_prag g)) []) as (B & _). now rewrite Bool.orb_true_iff, B.
Qed.
Print Assumptions C80_error.

(** ** The omit pragmas of a header *)
Inductive hline :=
| HOmit (b1 b2 name : tok)     (* #pragma, blanks, omit, blanks, the name *)
| HOther (text : tok).
Definition hl_text (h : hline) : tok := match h with HOmit b1 b2 n => bs "#pragma" ++ b1 ++ bs "omit" ++ b2 ++ n | HOther t => t end ++ [lf].
Definition blanks (b : tok) : Prop := Forall (fun c => isspace c = true /\ c <> lf) b.
Definition hl_ok (h : hline) : Prop :=
  match h with
  | HOmit b1 b2 n => blanks b1 /\ blanks b2 /\ ~ In lf n /\ (exists c n', n = c :: n' /\ isspace c = false) /\ (N.of_nat (length n) <= 1023)%N
  | HOther t => ~ In lf t /\ (forall b r, blanks b -> t <> bs "#pragma" ++ b ++ bs "omit" ++ r) /\ (forall b, blanks b -> t <> bs "#pragma" ++ b)
  end.
Definition hl_names (h : hline) : list tok := match h with HOmit _ _ n => [filter (fun c => negb (Ascii.eqb c " ")) n] | HOther _ => [] end.
Lemma lit_app p l : lit p (p ++ l) = SYes [] l.
Proof. induction p as [|c p IH]; [reflexivity|]. cbn [app lit]. unfold ceq. now rewrite Ascii.eqb_refl. Qed.
(** a literal that is not there: what is left still holds the end of the line *)
Lemma lit_no p t r : ~ In lf p -> (forall u, t <> p ++ u) -> exists t', lit p (t ++ lf :: r) = SNo (t' ++ lf :: r) /\ (~ In lf t -> ~ In lf t').
Proof.
  revert t. induction p as [|c p IH]; intros t NP NT; [destruct (NT t eq_refl)|]. destruct t as [|d t]; cbn [app lit].
  - destruct (ceq c lf) eqn:E; [apply Ascii.eqb_eq in E; subst; destruct NP; left; reflexivity|]. exists []. split; [reflexivity|tauto].
  - destruct (ceq c d) eqn:E.
    + apply Ascii.eqb_eq in E. subst d. destruct (IH t) as (t' & L & I0); [intros X; apply NP; right; exact X|intros u ->; apply (NT u); reflexivity|]. exists t'. split; [exact L|]. intros N. apply I0. intros X. apply N. right. exact X.
    + exists (d :: t). split; [reflexivity|tauto].
Qed.
Lemma drop_blanks b l : Forall (fun c => isspace c = true) b -> dropw isspace (b ++ l) = dropw isspace l.
Proof. induction b as [|c b IH]; intros F; [reflexivity|]. inversion F; subst. cbn [app dropw]. rewrite H1. auto. Qed.
Lemma drop_line t r : ~ In lf t -> skipn 1 (dropw (fun c => negb (ceq c lf)) (t ++ lf :: r)) = r.
Proof.
  induction t as [|c t IH]; intros N; [reflexivity|]. cbn [app dropw]. destruct (ceq c lf) eqn:E; [apply Ascii.eqb_eq in E; destruct N; left; congruence|]. cbn [negb]. apply IH. intros X. apply N. right. exact X.
Qed.
Definition getline := fix line (n : nat) (l : tok) : tok * tok := match n, l with
   | S n, c :: l' => if ceq c lf then ([], l) else let '(a, r) := line n l' in (c :: a, r)
   | _, _ => ([], l)
   end.
Lemma getline_all n : forall t r, ~ In lf t -> (length t <= n)%nat -> getline n (t ++ lf :: r) = (t, lf :: r).
Proof.
  induction n as [|n IH]; intros t r N L.
  - destruct t; [reflexivity|cbn [length] in L; lia].
  - destruct t as [|c t]; [reflexivity|]. cbn [app getline]. fold getline. destruct (ceq c lf) eqn:E; [apply Ascii.eqb_eq in E; destruct N; left; congruence|].
    rewrite IH; [reflexivity|intros X; apply N; right; exact X|cbn [length] in L; lia].
Qed.
Lemma fscan_omit b1 b2 n r : blanks b1 -> blanks b2 -> ~ In lf n -> (exists c n', n = c :: n' /\ isspace c = false) -> (N.of_nat (length n) <= 1023)%N ->
  fscan ((bs "#pragma" ++ b1 ++ bs "omit" ++ b2 ++ n) ++ lf :: r) = SYes n (lf :: r).
Proof.
  intros B1 B2 N (c & n' & -> & C) L. unfold fscan. rewrite <- !app_assoc, lit_app. rewrite drop_blanks by (eapply Forall_impl; [|exact B1]; intros ? []; auto).
  rewrite (dropw_no isspace (bs "omit" ++ _)) by (intros ? ? [= <- _]; reflexivity). rewrite lit_app. rewrite drop_blanks by (eapply Forall_impl; [|exact B2]; intros ? []; auto).
  rewrite (dropw_no isspace) by (intros ? ? [= <- _]; exact C). rewrite <- app_comm_cons. rewrite app_comm_cons.
  change (match getline 1023 ((c :: n') ++ lf :: r) with (a, r) => SYes a r end = SYes (c :: n') (lf :: r)).
  rewrite getline_all; [reflexivity|exact N|]. assert (E : 1023%nat = N.to_nat 1023) by reflexivity. rewrite E. clear - L. lia.
Qed.
Lemma blanks_split t : ~ In lf t -> exists b r, t = b ++ r /\ blanks b /\ (forall c r', r = c :: r' -> isspace c = false).
Proof.
  induction t as [|c t IH]; intros N; [exists [], []; repeat split; [constructor|discriminate]|]. destruct (isspace c) eqn:S1.
  - destruct IH as (b & r & -> & B & R); [intros X; apply N; right; exact X|]. exists (c :: b), r. repeat split; [constructor; [split; [exact S1|intros ->; apply N; left; reflexivity]|exact B]|exact R].
  - exists [], (c :: t). repeat split; [constructor|]. intros ? ? [= <- _]. exact S1.
Qed.
Lemma fscan_other t r : hl_ok (HOther t) -> exists t', fscan (t ++ lf :: r) = SNo (t' ++ lf :: r) /\ ~ In lf t'.
Proof.
  intros (N & NO & NB). unfold fscan.
  destruct (starts (bs "#pragma") t) eqn:ST.
  - apply startsP in ST. destruct ST as (u & ->). rewrite <- app_assoc, lit_app. assert (NU : ~ In lf u) by (intros X; apply N, in_or_app; right; exact X).
    destruct (blanks_split u NU) as (b & w & -> & B & W). rewrite <- app_assoc, drop_blanks by (eapply Forall_impl; [|exact B]; intros ? []; auto).
    destruct w as [|c w]; [destruct (NB b B); now rewrite app_nil_r|]. rewrite (dropw_no isspace) by (intros ? ? [= <- _]; eapply W; reflexivity).
    destruct (lit_no (bs "omit") (c :: w) r) as (t' & L & I0).
    + intros X. vm_compute in X. intuition discriminate.
    + intros v EV. apply (NO b v B). rewrite EV. reflexivity.
    + rewrite L. exists t'. split; [reflexivity|]. apply I0. intros X. apply NU, in_or_app. right. exact X.
  - destruct (lit_no (bs "#pragma") t r) as (t' & L & I0).
    + intros X. vm_compute in X. intuition discriminate.
    + intros v ->. assert (X : starts (bs "#pragma") (bs "#pragma" ++ v) = true) by (apply startsP; eauto). congruence.
    + rewrite L. exists t'. auto.
Qed.
Lemma scan_lf f r : omit_scan (S f) (lf :: r) = omit_scan f r.
Proof. reflexivity. Qed.
Theorem C80_header : forall hs, Forall hl_ok hs -> omits_in (concat (map hl_text hs)) = concat (map hl_names hs).
Proof.
  assert (G : forall hs, Forall hl_ok hs -> forall f, (length (concat (map hl_text hs)) < f)%nat -> omit_scan f (concat (map hl_text hs)) = concat (map hl_names hs)).
  { induction hs as [|h hs IH]; intros F f L.
    - destruct f; [cbn in L; lia|]. reflexivity.
    - inversion F as [|? ? OK F']; subst. cbn [map concat] in *. rewrite app_length in L. destruct f as [|f]; [lia|]. destruct h as [b1 b2 n|t]; cbn [hl_text hl_names app] in *; rewrite ?app_length in L; cbn [length] in L.
      + destruct OK as (B1 & B2 & N & C & LE). rewrite <- app_assoc. cbn [app omit_scan]. rewrite (fscan_omit b1 b2 n) by assumption.
        f_equal. destruct f as [|f]; [rewrite ?app_length in L; cbn [length] in L; lia|]. rewrite scan_lf. apply IH; [exact F'|]. change (length (bs "#pragma")) with 7%nat in L. lia.
      + rewrite <- app_assoc. cbn [app omit_scan]. destruct (fscan_other t (concat (map hl_text hs)) OK) as (t' & E & NT). rewrite E, drop_line by exact NT. apply IH; [exact F'|]. lia. }
  intros hs F. apply G; [exact F|]. apply Nat.lt_succ_diag_r.
Qed.
Print Assumptions C80_header.
Example C80_header_ex : exists hs, Forall hl_ok hs /\ shown (concat (map hl_text hs)) = "#ifndef X
#pragma omit pack eco_string
class omit;
"%string /\ map shown (omits_in (concat (map hl_text hs))) = ["packeco_string"%string].
Proof.
  exists [HOther (bs "#ifndef X"); HOmit (bs " ") (bs " ") (bs "pack eco_string"); HOther (bs "class omit;")].
  split; [|split; reflexivity]. assert (NL : forall s, existsb (ceq lf) (bs s) = false -> ~ In lf (bs s)).
  { intros s H X. assert (Y : existsb (ceq lf) (bs s) = true) by (apply existsb_exists; exists lf; split; [exact X|reflexivity]). congruence. }
  constructor; [split; [now apply NL|split; discriminate]|]. constructor; [|constructor; [split; [now apply NL|split; discriminate]|constructor]].
  split; [repeat constructor; discriminate|]. split; [repeat constructor; discriminate|]. split; [now apply NL|]. split; [eexists _, _; split; reflexivity|]. vm_compute. discriminate.
Qed.
Definition with_header (s : string) (k : tok) : tok := if beq k (bs "pack") then bs s else [].
Example C80_ex : exists g o a, of_text plain_opts "#pragma treenode A
struct A { A* l; int x; }; struct B { int y; }; " = Some g /\ In a (g_actions g) /\ shown (short a) = "A"%string
  /\ output conf0 g (with_header "#pragma omit pack B
") [bs "pack"; bs "unpack"] = Some o /\ In (short a) (pragmas PTree g) /\ ~ In (bs "pack" ++ short a) (pragmas POmit g)
  /\ ~ In (short a) (pragmas PGraph g) /\ o_err o = false.
Proof.
  eexists _, _, _. split; [vm_compute; reflexivity|]. split; [left; reflexivity|]. split; [reflexivity|]. split; [vm_compute; reflexivity|]. split; [left; reflexivity|]. split; [intros []|]. split; [intros []|reflexivity].
Qed.
(** the names of the descriptor and of the type are put together: an omit pragma leaves out another type of another descriptor *)
Theorem C80_joined_refuted : exists g o n, of_text plain_opts "#pragma omit pack etB
struct etB { int x; }; struct B { int y; }; " = Some g
  /\ output conf0 g none [bs "packet"] = Some o /\ map shown (pragmas POmit g) = ["packetB"%string]
  /\ firstn 4 (skipn n (map shown (o_std o))) = ["#ifndef CLASSDESC_packet___B"; "#define CLASSDESC_packet___B"; ""; "#endif"]%string.
Proof.
  eexists _, _, 31%nat. split; [vm_compute; reflexivity|]. split; [vm_compute; reflexivity|]. split; [reflexivity|]. vm_compute. reflexivity.
Qed.
(** a pragma without a name takes the next line for it *)
Theorem C80_bare_refuted : exists h, h = bs "#pragma omit
pack_t p;
#pragma omit pack A
" /\ map shown (omits_in h) = ["pack_tp;"; "packA"]%string.
Proof. eexists. split; reflexivity. Qed.
(** the pragmas of the header of a descriptor hold for the later descriptors too *)
Theorem C80_later_refuted : exists g o1 o2, of_text plain_opts "struct A { int x; }; " = Some g
  /\ output conf0 g (with_header "#pragma omit unpack A
") [bs "pack"; bs "unpack"] = Some o1 /\ output conf0 g (with_header "#pragma omit unpack A
") [bs "unpack"; bs "pack"] = Some o2
  /\ Nat.leb 30 (length (o_std o2)) = true /\ existsb (fun l => beq l (bs "template <> struct access_unpack< struct ::A > {")) (o_std o1) = false
  /\ existsb (fun l => beq l (bs "template <> struct access_unpack< struct ::A > {")) (o_std o2) = true.
Proof.
  eexists _, _, _. split; [vm_compute; reflexivity|]. split; [vm_compute; reflexivity|]. split; [vm_compute; reflexivity|]. split; [reflexivity|]. split; vm_compute; reflexivity.
Qed.

(** * The members of a class of the grammar of ClassNest_Spec.v *)
From Verif Require Import Base Base_Proofs SMap Dec Desc_Model Tok_Model Parse_Model Parse_Props Ns_Props.
From Verif Require Import ClassParse_Model ClassParse_Proofs ClassParse_Spec ClassFile_Spec ClassMem_Proofs ClassFile_Proofs ClassEnum_Proofs.

(** ** The effects *)
Definition node_kind (k : tok) : pkind := if is k "omit" then POmit else if is k "treenode" then PTree else PGraph.
Definition ev_eff (o : opts) (g : glob) (e : event) : glob :=
  match e with
  | EvClass k ns p name bases cs => class_eff o k ns p name bases cs g
  | EvFwd p name => add_type (false, p ++ name) g
  | EvKnown p name => add_type (true, p ++ name) g
  | EvName p name => add_nested (p, name) g
  | EvEnum sc ns p name keys => enum_eff o sc ns p name keys g
  | EvPragma k name => add_prag [(node_kind k, name)] g
  | EvTempl k ns name templ args bases cs => templ_eff o k ns name templ args bases cs g
  | EvTypedef ns tag name bases cs =>
      add_action (Action name (map (base_acts o) bases ++ map to_act cs) (firstn (length ns - 2) ns) []) (match tag with Some t => add_type (true, t) g | None => g end)
  end.
Definition evs_eff (o : opts) (es : list event) (g : glob) : glob := fold_left (ev_eff o) es g.
Lemma ev_eff_ns o g e : g_ns (ev_eff o g e) = g_ns g.
Proof. destruct e; try reflexivity; [unfold ev_eff, enum_eff; cbn [g_ns add_action]; now rewrite add_keys_ns|destruct tag; reflexivity]. Qed.
Lemma evs_eff_ns o es : forall g, g_ns (evs_eff o es g) = g_ns g.
Proof. induction es as [|e es IH]; intros g; [reflexivity|]. unfold evs_eff. cbn [fold_left]. fold (evs_eff o es (ev_eff o g e)). now rewrite IH, ev_eff_ns. Qed.
Lemma evs_eff_app o a b g : evs_eff o (a ++ b) g = evs_eff o b (evs_eff o a g).
Proof. unfold evs_eff. apply fold_left_app. Qed.

(** ** Skipping *)
Lemma skip_last s ts : ~ In (bs s) ts -> forall f t2 t1 t m, teq t s = false -> (length (ts ++ bs s :: m) < f)%nat ->
  exists a, skip_to s f (Inp t2 t1 t (ts ++ bs s :: m)) = POk tt (Inp a (last ts t) (bs s) m).
Proof.
  induction ts as [|u ts IH]; intros N f t2 t1 t m T F; (destruct f as [|f]; [lia|]); cbn [app] in *.
  - cbn [skip_to tk next more pbind tk1]. rewrite T. destruct f as [|f]; [cbn in F; lia|]. cbn [skip_to tk].
    unfold teq at 1. rewrite beq_refl. exists t1. reflexivity.
  - cbn [skip_to tk next more pbind tk1]. rewrite T.
    destruct (IH (fun X => N (or_intror X)) f t1 t u m) as (a & ->); [apply is_ne; intros ->; apply N; now left|cbn in F; lia|].
    exists a. f_equal. f_equal. destruct ts as [|v ts]; [reflexivity|]. change (last (v :: ts) u = last (v :: ts) t). apply last_default. discriminate.
Qed.
Lemma skip_tok_last s ts t2 t1 t m g : ~ In (bs s) ts -> teq t s = false ->
  exists a, skip_tok s g (Inp t2 t1 t (ts ++ bs s :: m)) = COk tt g (Inp a (last ts t) (bs s) m).
Proof.
  intros N T. unfold skip_tok, lift.
  destruct (skip_last s ts N (pbound (Inp t2 t1 t (ts ++ bs s :: m))) t2 t1 t m T) as (a & ->); [unfold pbound; cbn [more]; lia|].
  exists a. reflexivity.
Qed.
Lemma skip_tok_here s g t2 t1 m : skip_tok s g (Inp t2 t1 (bs s) m) = COk tt g (Inp t2 t1 (bs s) m).
Proof. unfold skip_tok, lift, pbound. cbn [more skip_to tk]. unfold teq. now rewrite beq_refl. Qed.
Lemma td_skip_last ts : ~ In (bs ";") ts -> ~ In (bs "{") ts -> forall f t2 t1 t m, teq t ";" = false -> teq t "{" = false -> (length (ts ++ bs ";" :: m) < f)%nat ->
  exists a, td_skip f (Inp t2 t1 t (ts ++ bs ";" :: m)) = POk tt (Inp a (last ts t) (bs ";") m).
Proof.
  induction ts as [|u ts IH]; intros N B f t2 t1 t m T T' F; (destruct f as [|f]; [lia|]); cbn [app] in *.
  - cbn [td_skip tk next more pbind tk1]. rewrite T, T'. cbn [pbind next more tk tk1]. destruct f as [|f]; [cbn in F; lia|]. cbn [td_skip tk].
    exists t1. reflexivity.
  - cbn [td_skip tk next more pbind tk1]. rewrite T, T'. cbn [pbind next more tk tk1].
    destruct (IH (fun X => N (or_intror X)) (fun X => B (or_intror X)) f t1 t u m) as (a & ->);
      [apply is_ne; intros ->; apply N; now left|apply is_ne; intros ->; apply B; now left|cbn [length] in F; lia|].
    exists a. f_equal. f_equal. destruct ts as [|v ts]; [reflexivity|]. change (last (v :: ts) u = last (v :: ts) t). apply last_default. discriminate.
Qed.
Lemma skipset_any s ts : Forall (fun t => first_in s t = false) ts -> forall f t2 t1 x m u us,
  strchr s (first x) = true -> (length us < f)%nat -> ts ++ x :: m = u :: us ->
  exists a b, skipset s f (Inp t2 t1 u us) = POk tt (Inp a b x m).
Proof.
  intros T f t2 t1 x m u us X F E. destruct T as [|t ts T TS]; cbn [app] in E.
  - hdtl E u us. destruct f as [|f]; [lia|]. cbn [skipset tk]. rewrite X. eauto.
  - hdtl E u us. apply (skipset_run (fun _ _ _ => cret []) false); auto. now rewrite <- first_strchr.
Qed.
Lemma gobb_braces g t2 t1 b m : balanced (bs "{") (bs "}") b ->
  exists x a c, gobb "{" "}" g (Inp t2 t1 (bs "{") (b ++ bs "}" :: m)) = COk x g (Inp a c (bs "}") m).
Proof.
  intros D. set (i := Inp t2 t1 (bs "{") _).
  assert (LR : bs "{" <> bs "}") by (intros K; vm_compute in K; discriminate).
  assert (TK : tk i <> bs "{" ++ bs "}") by (intros K; vm_compute in K; discriminate).
  destruct (C53_stops "{" "}" i b m LR TK (balanced_bal _ _ _ D) ltac:(intros K; vm_compute in K; discriminate) eq_refl) as (G & G1 & G2).
  destruct (after (S (length b)) i) as [a c d e]. cbn [more tk] in G1, G2. subst d e.
  eexists _, a, c. unfold gobb, lift. rewrite G. reflexivity.
Qed.
Lemma gobb_parens g t2 t1 b m : balanced (bs "(") (bs ")") b ->
  exists x a c, gobb "(" ")" g (Inp t2 t1 (bs "(") (b ++ bs ")" :: m)) = COk x g (Inp a c (bs ")") m).
Proof.
  intros D. set (i := Inp t2 t1 (bs "(") _).
  assert (LR : bs "(" <> bs ")") by (intros K; vm_compute in K; discriminate).
  assert (TK : tk i <> bs "(" ++ bs ")") by (intros K; vm_compute in K; discriminate).
  destruct (C53_stops "(" ")" i b m LR TK (balanced_bal _ _ _ D) ltac:(intros K; vm_compute in K; discriminate) eq_refl) as (G & G1 & G2).
  destruct (after (S (length b)) i) as [a c d e]. cbn [more tk] in G1, G2. subst d e.
  eexists _, a, c. unfold gobb, lift. rewrite G. reflexivity.
Qed.
(** to the first closing brace *)
Lemma gobb_to g t2 t1 t b m : t <> bs "}" -> Forall (fun t => t <> [] /\ t <> bs "}") b ->
  exists x a c, gobb "" "}" g (Inp t2 t1 t (b ++ bs "}" :: m)) = COk x g (Inp a c (bs "}") m).
Proof.
  intros T D. set (i := Inp t2 t1 t _).
  assert (LR : bs "" <> bs "}") by (intros K; vm_compute in K; discriminate).
  assert (B : bal (bs "") (bs "}") b) by (clear - D; induction D as [|x l (X & Y) _ IH]; [apply bal_nil|apply bal_tok; auto]).
  destruct (C53_stops "" "}" i b m LR T B ltac:(intros K; vm_compute in K; discriminate) eq_refl) as (G & G1 & G2).
  destruct (after (S (length b)) i) as [a c d e]. cbn [more tk] in G1, G2. subst d e.
  eexists _, a, c. unfold gobb, lift. rewrite G. reflexivity.
Qed.
Lemma template_at t2 t1 ts ks nx rest : tpl ts ks ->
  exists a, get_template_args (Inp t2 t1 (bs "<") (ts ++ bs ">" :: nx :: rest)) = POk (ttxt (bs "<" :: ks ++ [bs ">"])) (Inp a (bs ">") nx rest).
Proof.
  intros T. destruct (C53_template t2 t1 ts ks nx rest T) as (a & b & E).
  enough (b = bs ">") by (subst; eauto).
  unfold get_template_args, pbound in E. cbn [more] in E. cbn [gta tk] in E. replace (ceq (first (bs "<")) "=") with false in E by reflexivity. cbn [pbind tk] in E.
  replace (ceq (first (bs "<")) "<") with true in E by reflexivity.
  replace (Z.of_nat (length (bs "<"))) with 1%Z in E by reflexivity.
  replace (0 + 1)%Z with 1%Z in E by reflexivity. replace (1 =? 0)%Z with false in E by reflexivity.
  assert (N : exists u m, ts ++ bs ">" :: nx :: rest = u :: m) by (destruct ts; cbn [app]; eauto).
  destruct N as (u & m & N). unfold next in E. cbn [more tk1 tk] in E.
  match type of E with context [gta _ _ ?acc _] => 
    destruct (gta_tpl ts ks T (length (ts ++ bs ">" :: nx :: rest)) t1 (bs "<") 1%Z acc (bs ">") (nx :: rest)) as (f' & c & d & E' & L) end; [lia|reflexivity|lia|].
  rewrite N in *. cbn [pbind] in E. cbn [at_] in E'. rewrite E' in E. cbn [length] in L. destruct f' as [|f']; [lia|]. cbn [gta tk] in E.
  replace (ceq (first (bs ">")) "=") with false in E by reflexivity. cbn [pbind tk] in E.
  replace (ceq (first (bs ">")) "<") with false in E by reflexivity.
  replace (ceq (first (bs ">")) ">") with true in E by reflexivity.
  replace (1 - Z.of_nat (length (bs ">")) =? 0)%Z with true in E by reflexivity.
  cbn [next more pbind tk tk1] in E. congruence.
Qed.

(** ** The loop *)
Section Run.
  Variables (o : opts) (pc : bool -> tok -> tok -> C (list act)) (prefix targs : tok).
  Definition runs2 (l : loc) (g : glob) (i : inp) (l' : loc) (g' : glob) (i' : inp) : Prop :=
    forall f, (len_i i < f)%nat -> exists f', (len_i i' < f')%nat /\
      members o pc prefix targs f l g i = members o pc prefix targs f' l' g' i'.
  Lemma runs2_refl l g i : runs2 l g i l g i.
  Proof. intros f F. eauto. Qed.
  Lemma runs2_trans l g i l' g' i' l'' g'' i'' : runs2 l g i l' g' i' -> runs2 l' g' i' l'' g'' i'' -> runs2 l g i l'' g'' i''.
  Proof. intros A B f F. destruct (A f F) as (f' & F' & E). destruct (B f' F') as (f'' & F'' & E'). exists f''. split; congruence. Qed.
  Lemma runs_runs2 l g i l' i' : runs o pc prefix targs g l i l' i' -> runs2 l g i l' g i'.
  Proof. intros H. exact H. Qed.
  Lemma turn2 l g t2 t1 t0 t m x g' i' : teq t "}" = false -> (len_i i' <= length m)%nat ->
    turn o pc prefix targs l g (Inp t1 t0 t m) = COk x g' i' -> runs2 l g (Inp t2 t1 t0 (t :: m)) (loc_of x) g' i'.
  Proof.
    intros T L H f F. destruct f as [|f]; [lia|]. exists f. unfold len_i in F. cbn in F. split; [lia|].
    cbn [members]. unfold cbind, nxt, lift, next, get. cbn [more tk1 tk]. rewrite T. now rewrite H.
  Qed.
  Variable ua : list tok.
  Notation L0 := (LL false ua).
  (** where one member has been read *)
  Definition bnd (t : tok) : Prop := t = bs ";" \/ t = bs "}" \/ t = bs ":" \/ t = bs "{".
  Lemma bnd_boundary t : bnd t -> boundary t.
  Proof. intros [->|[->|[->| ->]]]; split; reflexivity. Qed.
  Ltac turning R := apply (turn2 _ _ _ _ _ _ _ (Go _)) with (3 := R).

  Lemma semi_run acts pr st co rp num ret g t2 t1 t0 m : bnd t0 -> exists r a b,
    runs2 (L0 acts pr st co rp num ret) g (Inp t2 t1 t0 (bs ";" :: m)) (L0 acts pr st co rp num r) g (Inp a b (bs ";") m).
  Proof.
    intros B.
    destruct (scalar_turn o pc prefix targs g false DNone (L0 acts pr st co rp num ret) t1 t0 (bs ";") m (bs ";") m Logic.I ltac:(destruct B as [->|[->|[->| ->]]]; reflexivity) eq_refl eq_refl) as (r & a & b & R).
    exists r, a, b. unfold scalar_reg in R. replace (idt t0) with false in R by (destruct B as [->|[->|[->| ->]]]; reflexivity).
    turning R; [reflexivity|]. unfold len_i. cbn [more]. lia.
  Qed.
  Lemma using_run q n acts pr st co rp num ret g t2 t1 t0 m : ~ In (bs ";") (q ++ [n]) -> exists a,
    runs2 (L0 acts pr st co rp num ret) g (Inp t2 t1 t0 (bs "using" :: q ++ n :: bs ";" :: m))
          (LL false (ua ++ [bs "." ++ n]) acts pr st co rp num ret) g (Inp a n (bs ";") m).
  Proof.
    intros N. destruct (skip_tok_last ";" (q ++ [n]) t1 t0 (bs "using") m g N eq_refl) as (a & E). rewrite last_last, <- app_assoc in E. cbn [app] in E.
    exists a. apply (turn2 _ _ _ _ _ _ _ (Cont (LL false (ua ++ [bs "." ++ n]) acts pr st co rp num ret))); [reflexivity|unfold len_i; cbn [more]; rewrite app_length; cbn [length]; lia|].
    unfold turn, stages. cbn [run_stages]. set (l := L0 _ _ _ _ _ _ _). set (i := Inp t1 t0 _ _) in *.
    rewrite (fbind_go _ _ l g i g i) by (apply t_label_id; reflexivity).
    rewrite (fbind_go _ _ l g i g i) by (apply t_typedef_id; reflexivity).
    rewrite (fbind_go _ _ l g i g i) by (apply t_template_id; reflexivity).
    apply fbind_cont. unfold t_using. rewrite cbind_get. change (teq (tk i) "using") with true. cbv iota.
    rewrite (cbind_ok _ _ _ _ _ _ _ E). reflexivity.
  Qed.
  Lemma friend_run q acts pr st co rp num ret g t2 t1 t0 m : ~ In (bs ";") q -> exists r a b,
    runs2 (L0 acts pr st co rp num ret) g (Inp t2 t1 t0 (bs "friend" :: q ++ bs ";" :: m)) (L0 acts pr st co rp num r) g (Inp a b (bs ";") m).
  Proof.
    intros N. destruct (skip_tok_last ";" q t1 t0 (bs "friend") m g N eq_refl) as (a & E).
    set (l := L0 acts pr st co rp num ret).
    destruct (late pc [] g false l (Inp a (last q (bs "friend")) (bs ";") m) (or_introl eq_refl)) as (r & R).
    exists r, a, (last q (bs "friend")). apply (turn2 _ _ _ _ _ _ _ (Go (w_ret r l))); [reflexivity|unfold len_i; cbn [more]; rewrite app_length; cbn [length]; lia|].
    unfold turn, stages. rewrite early; [|intros s S; cbn in S; intuition; subst; reflexivity|apply Bool.andb_false_r].
    cbn [run_stages]. set (i := Inp t1 t0 _ _) in *.
    rewrite (fbind_go _ _ l g i g i) by (apply t_scalar_id; reflexivity).
    rewrite (fbind_go _ _ l g i g i) by (apply t_operator_id; reflexivity).
    rewrite (fbind_go _ _ l g i g (Inp a (last q (bs "friend")) (bs ";") m)).
    2: { unfold t_flags. rewrite cbind_get. change (teq (tk i) "alignas") with false. unfold when at 1. rewrite (cbind_ok _ _ _ _ tt g i) by reflexivity.
         rewrite cbind_get. change (teq (tk i) "friend") with true. change (teq (tk i) "static") with false. change (teq (tk i) "const") with false. unfold when.
         cbv iota zeta. rewrite (cbind_ok _ _ _ _ _ _ _ E). reflexivity. }
    rewrite (fbind_go _ _ l g _ g (Inp a (last q (bs "friend")) (bs ";") m)) by (apply t_function_id; reflexivity).
    exact R.
  Qed.
  Lemma typedef_run q n acts pr st co rp num ret g t2 t1 t0 m : ~ In (bs ";") (q ++ [n]) -> ~ In (bs "{") (q ++ [n]) ->
    ~ In (hd n q) [bs "struct"; bs "class"; bs "union"] -> exists a,
    runs2 (L0 acts pr st co rp num ret) g (Inp t2 t1 t0 (bs "typedef" :: q ++ n :: bs ";" :: m))
          (L0 acts pr st co rp num ret) (evs_eff o (if (ident n && negb pr)%bool then [EvName prefix n] else []) g) (Inp a n (bs ";") m).
  Proof.
    intros N B H.
    assert (TM : q ++ n :: bs ";" :: m = (q ++ [n]) ++ bs ";" :: m) by (rewrite <- app_assoc; reflexivity). rewrite TM.
    destruct (td_skip_last (q ++ [n]) N B (pbound (Inp t1 t0 (bs "typedef") ((q ++ [n]) ++ bs ";" :: m))) t1 t0 (bs "typedef") m eq_refl eq_refl) as (a & E); [unfold pbound; cbn [more]; lia|].
    rewrite last_last in E.
    set (g' := evs_eff o _ g).
    assert (X : exists u us, q ++ [n] = u :: us /\ u = hd n q) by (destruct q; cbn [app hd]; eauto). destruct X as (u & us & X & U).
    assert (UN : teq u "struct" = false /\ teq u "class" = false /\ teq u "union" = false).
    { rewrite <- U in H. repeat split; apply is_ne; intros ->; apply H; cbn; auto. }
    destruct UN as (U1 & U2 & U3).
    assert (P : exists a, parse_typedef pc prefix g' (Inp t1 t0 (bs "typedef") ((q ++ [n]) ++ bs ";" :: m)) = COk tt g' (Inp a n (bs ";") m)).
    { unfold parse_typedef. rewrite X. cbn [app]. unfold nxt, lift, next. unfold cbind at 1. cbn [more tk tk1].
      rewrite cbind_get. cbn [tk]. rewrite U1, U2, U3. cbn [orb].
      destruct (skip_tok_last ";" us t0 (bs "typedef") u m g') as (c & EC).
      { intros Y. apply N. rewrite X. now right. } { apply is_ne. intros ->. apply N. rewrite X. now left. }
      exists c. rewrite EC. do 2 f_equal. transitivity (last (u :: us) u); [destruct us; reflexivity|]. rewrite <- X. apply last_last. }
    destruct P as (c & P). exists c. apply (turn2 _ _ _ _ _ _ _ (Cont (L0 acts pr st co rp num ret))); [reflexivity|unfold len_i; cbn [more]; rewrite !app_length; cbn [length]; lia|].
    unfold turn, stages. cbn [run_stages]. set (l := L0 _ _ _ _ _ _ _). set (i := Inp t1 t0 _ _) in *.
    rewrite (fbind_go _ _ l g i g i) by (apply t_label_id; reflexivity).
    apply fbind_cont. unfold t_typedef. rewrite cbind_get. change (teq (tk i) "typedef") with true. cbv iota.
    unfold lift. unfold cbind at 1. rewrite E. rewrite cbind_get. cbn [tk1].
    rewrite (cbind_ok _ _ _ _ tt g' (Inp a n (bs ";") m)).
    2: { unfold g', when. rewrite ident_idt. change (l_priv l) with pr. destruct (idt n && negb pr)%bool; reflexivity. }
    unfold put at 1. unfold cbind at 1. rewrite (cbind_ok _ _ _ _ _ _ _ P). rewrite (cbind_ok _ _ _ _ _ _ _ (skip_tok_here ";" _ _ _ _)). reflexivity.
  Qed.
  Definition union_call (n : tok) : call :=
    Call (bs "." ++ n) (bs "classdesc::is_array(),(char&)(arg." ++ n ++ bs "),1,sizeof(arg." ++ n ++ bs ")") n false.
  Lemma union_turn q acts pr co rp num ret g t2 b m : balanced (bs "{") (bs "}") b -> ~ In (bs ";") q ->
    exists a, turn o pc prefix targs (L0 acts pr false co rp num ret) g (Inp t2 (bs "union") (bs "{") (b ++ bs "}" :: q ++ bs ";" :: m))
      = COk (Cont (L0 (if (rp || negb (ident (last q (bs "}"))))%bool then acts else acts ++ [to_act (union_call (last q (bs "}")))]) pr false co rp num ret)) g
          (Inp a (last q (bs "}")) (bs ";") m).
  Proof.
    intros B Q. destruct (gobb_braces g t2 (bs "union") b (q ++ bs ";" :: m) B) as (x & a & c & E).
    destruct (skip_tok_last ";" q a c (bs "}") m g Q eq_refl) as (a' & E').
    exists a'. unfold turn, stages. cbn [run_stages]. set (l := L0 _ _ _ _ _ _ _). set (i := Inp t2 _ _ _) in *.
    rewrite (fbind_go _ _ l g i g i) by (apply t_label_id; reflexivity).
    rewrite (fbind_go _ _ l g i g i) by (apply t_typedef_id; reflexivity).
    rewrite (fbind_go _ _ l g i g i) by (apply t_template_id; reflexivity).
    rewrite (fbind_go _ _ l g i g i) by (apply t_using_id; reflexivity).
    rewrite (fbind_go _ _ l g i g i) by (apply t_class_id; reflexivity).
    rewrite (fbind_go _ _ l g i g i) by (apply t_enum_id; reflexivity).
    apply fbind_cont. unfold t_union. rewrite cbind_get. change (teq (tk1 i) "union" && teq (tk i) "{")%bool with true. cbv iota.
    rewrite (cbind_ok _ _ _ _ _ _ _ E), (cbind_ok _ _ _ _ _ _ _ E'), cbind_get. cbn [tk1]. unfold cret. do 2 f_equal.
    rewrite ident_idt. destruct (idt _) eqn:I; cbn [negb]; [|rewrite Bool.orb_true_r; reflexivity]. rewrite Bool.orb_false_r.
    unfold register_class, l, LL. cbn [r_static r_const r_priv l_acts]. destruct rp; reflexivity.
  Qed.
  Lemma union_run q acts pr co rp num ret g t2 t1 t0 b m : balanced (bs "{") (bs "}") b -> ~ In (bs ";") q ->
    exists r a, runs2 (L0 acts pr false co rp num ret) g (Inp t2 t1 t0 (bs "union" :: bs "{" :: b ++ bs "}" :: q ++ bs ";" :: m))
      (L0 (if (rp || negb (ident (last q (bs "}"))))%bool then acts else acts ++ [to_act (union_call (last q (bs "}")))]) pr false co rp num r) g
          (Inp a (last q (bs "}")) (bs ";") m).
  Proof.
    intros B Q.
    destruct (word_turn o pc prefix targs g false ua acts pr false co rp num ret t1 t0 (bs "union") (bs "{" :: b ++ bs "}" :: q ++ bs ";" :: m) eq_refl) as (r & R).
    destruct (union_turn q acts pr co rp num r g t0 b m B Q) as (a & R').
    exists r, a. eapply runs2_trans.
    - turning R; [reflexivity|]. unfold len_i. cbn [more]. lia.
    - apply (turn2 _ _ _ _ _ _ _ (Cont _)) with (3 := R'); [reflexivity|]. unfold len_i. cbn [more]. rewrite app_length. cbn [length]. rewrite app_length. cbn [length]. lia.
  Qed.
  Lemma enum_run e acts st co rp num ret g t2 t1 t0 m : enum_ok e -> ends (g_ns g) ->
    exists r a, runs2 (L0 acts false st co rp num ret) g (Inp t2 t1 t0 (enumtoks e ++ m))
      (L0 acts false st co rp num r) (ev_eff o g (EvEnum (e_class e) (g_ns g) prefix (e_name e) (enum_names e))) (Inp a (bs "}") (bs ";") m).
  Proof.
    intros OK EN. assert (X : exists u us, enumtoks e ++ m = bs "enum" :: u :: us).
    { unfold enumtoks. cbn [app]. destruct (e_class e); cbn [app]; eauto. }
    destruct X as (u & us & X). rewrite X.
    assert (I : idt u = true).
    { unfold enumtoks in X. cbn [app] in X. destruct OK as (W & _). destruct (e_class e); cbn [app] in X.
      - assert (u = bs "class") by congruence. subst. reflexivity.
      - assert (u = e_name e) by congruence. subst. now apply word_idt. }
    destruct (enum_item_in o prefix e m g t0 (bs "enum") u us OK EN X) as (a & E).
    set (l := L0 acts false st co rp num ret). set (g' := enum_eff _ _ _ _ _ _ _) in *.
    destruct (late_sep o pc prefix g' false l (Inp a (bs "}") (bs ";") m) eq_refl) as (r & R).
    exists r, a. change (ev_eff o g _) with g'.
    apply (turn2 _ _ _ _ _ _ _ (Go (w_ret r l))); [reflexivity| |].
    { assert (LE := f_equal (@length _) X). unfold enumtoks in LE. repeat (rewrite app_length in LE; cbn [length] in LE).
      unfold len_i. cbn [more length]. lia. }
    unfold turn, stages. cbn [run_stages]. set (i := Inp t1 t0 _ _) in *.
    rewrite (fbind_go _ _ l g i g i) by (apply t_label_id; reflexivity).
    rewrite (fbind_go _ _ l g i g i) by (apply t_typedef_id; reflexivity).
    rewrite (fbind_go _ _ l g i g i) by (apply t_template_id; reflexivity).
    rewrite (fbind_go _ _ l g i g i) by (apply t_using_id; reflexivity).
    rewrite (fbind_go _ _ l g i g i) by (apply t_class_id; reflexivity).
    set (j := Inp a (bs "}") (bs ";") m) in *.
    rewrite (fbind_go _ _ l g i g' j).
    2: { unfold t_enum. rewrite cbind_get. change (teq (tk i) "enum") with true. cbv iota. unfold nxt, lift, next. unfold cbind at 1. cbn [more i tk1 tk].
         rewrite cbind_get. cbn [tk]. change (l_priv l) with false. rewrite I. cbn [negb andb]. rewrite (cbind_ok _ _ _ _ _ _ _ E). reflexivity. }
    rewrite (fbind_go _ _ l g' j g' j) by (apply t_union_id; reflexivity).
    rewrite (fbind_go _ _ l g' j g' j) by reflexivity.
    exact R.
  Qed.
  Lemma enum0_run b acts pr st co rp num ret g t2 t1 t0 m : b <> [] -> pr = true \/ ident (hd [] b) = false ->
    Forall (fun t => t <> [] /\ t <> bs "}") b ->
    exists r a c, runs2 (L0 acts pr st co rp num ret) g (Inp t2 t1 t0 (bs "enum" :: b ++ bs "}" :: m)) (L0 acts pr st co rp num r) g (Inp a c (bs "}") m).
  Proof.
    intros NE P B. destruct B as [|u b (U & U') B]; [congruence|]. cbn [hd] in P.
    destruct (gobb_to g t0 (bs "enum") u b m U' B) as (x & a & c & E).
    set (l := L0 acts pr st co rp num ret). set (j := Inp a c (bs "}") m) in *.
    assert (T : exists r, turn o pc prefix targs l g (Inp t1 t0 (bs "enum") (u :: b ++ bs "}" :: m)) = COk (Go (w_ret r l)) g j).
    { unfold turn, stages. cbn [run_stages]. set (i := Inp t1 t0 _ _) in *.
      rewrite (fbind_go _ _ l g i g i) by (apply t_label_id; reflexivity).
      rewrite (fbind_go _ _ l g i g i) by (apply t_typedef_id; reflexivity).
      rewrite (fbind_go _ _ l g i g i) by (apply t_template_id; reflexivity).
      rewrite (fbind_go _ _ l g i g i) by (apply t_using_id; reflexivity).
      rewrite (fbind_go _ _ l g i g i) by (apply t_class_id; reflexivity).
      rewrite (fbind_go _ _ l g i g j).
      2: { unfold t_enum. rewrite cbind_get. change (teq (tk i) "enum") with true. cbv iota. unfold nxt, lift, next. unfold cbind at 1. cbn [more i tk1 tk].
           rewrite cbind_get. cbn [tk]. change (l_priv l) with pr. rewrite ident_idt in P.
           replace (negb pr && idt u)%bool with false by (destruct P as [P|P]; rewrite P; [reflexivity|apply eq_sym, Bool.andb_false_r]).
           unfold cbind at 1 2. rewrite E. reflexivity. }
      rewrite (fbind_go _ _ l g j g j) by (apply t_union_id; apply Bool.andb_false_r).
      rewrite (fbind_go _ _ l g j g j) by (apply t_scalar_id; reflexivity).
      rewrite (fbind_go _ _ l g j g j) by (apply t_operator_id; reflexivity).
      rewrite (fbind_go _ _ l g j g j) by (rewrite t_flags_id by reflexivity; reflexivity).
      rewrite (fbind_go _ _ l g j g j) by (apply t_function_id; reflexivity).
      destruct (late pc [] g false l j) as (r & R); [auto|]. exists r. exact R. }
    destruct T as (r & T). exists r, a, c. turning T; [reflexivity|]. unfold len_i, j. cbn [more app length]. rewrite app_length. cbn [length]. lia.
  Qed.
  (** the operators *)
  Lemma skipparen_run ts : Forall (fun t => first_in "(" t = false) ts -> forall f t2 t1 x m u us, ceq (first x) "(" = true ->
    (length us < f)%nat -> ts ++ x :: m = u :: us -> exists a b, skipparen f (Inp t2 t1 u us) = POk tt (Inp a b x m).
  Proof.
    induction 1 as [|t ts T _ IH]; intros f t2 t1 x m u us X F E; cbn [app] in E; (destruct f as [|f]; [lia|]).
    - hdtl E u us. cbn [skipparen tk]. rewrite X. eauto.
    - hdtl E u us. cbn [skipparen tk]. replace (ceq (first t) "(") with false.
      2: { symmetry. rewrite first_strchr in T. unfold strchr, Tok_Model.mem in T. cbn in T.
           repeat (apply Bool.orb_false_iff in T; destruct T as (? & T)). assumption. }
      destruct (ts ++ x :: m) as [|v vs] eqn:E; [destruct ts; discriminate|]. cbn [pbind next more tk tk1]. cbn [length] in F. apply IH; auto. lia.
  Qed.
  Lemma argtoks_ne args m : exists u us, argtoks args ++ m = u :: us /\ ceq (first u) "(" = true.
  Proof. destruct args; cbn; eauto. Qed.
  Lemma oper_stage op args quals acts pr st co rp num ret g t2 t1 x m : oper_ok op ->
    match args with None => True | Some a => balanced (bs "(") (bs ")") a end ->
    Forall (fun t => first_in "{;" t = false) quals -> x = bs ";" \/ x = bs "{" ->
    exists a b, t_operator (L0 acts pr st co rp num ret) g (Inp t2 t1 (bs "operator") (op ++ argtoks args ++ quals ++ x :: m))
      = COk (Go (L0 acts pr false co rp num ret)) g (Inp a b x m).
  Proof.
    intros OP AR QU X. set (l := L0 _ _ _ _ _ _ _).
    assert (X1 : strchr "{;" (first x) = true) by (destruct X; subst; reflexivity).
    unfold t_operator. rewrite cbind_get. cbn [tk]. change (teq (bs "operator") "operator") with true. cbv iota.
    set (k := (i :- get ;; (if teq (tk i) "()" then nxt else gobb "(" ")" ;- cret tt) ;- skip_set "{;" ;- cret (Go (w_static false l)))).
    assert (K : forall a b u us, argtoks args ++ quals ++ x :: m = u :: us -> exists c d, k g (Inp a b u us) = COk (Go (L0 acts pr false co rp num ret)) g (Inp c d x m)).
    { intros a b u us E. unfold k. rewrite cbind_get. cbn [tk].
      assert (S1 : exists c d w ws, (if teq u "()" then nxt else gobb "(" ")" ;- cret tt) g (Inp a b u us) = COk tt g (Inp c d w ws)
                /\ exists qs, Forall (fun t => first_in "{;" t = false) qs /\ qs ++ x :: m = w :: ws).
      { destruct args as [ar|]; cbn [argtoks app] in E.
        - rewrite <- app_assoc in E. cbn [app] in E. assert (u = bs "(") by congruence. assert (us = ar ++ bs ")" :: quals ++ x :: m) by congruence. subst u us.
          change (teq (bs "(") "()") with false. cbv iota. destruct (gobb_parens g a b ar (quals ++ x :: m) AR) as (z & c & d & G).
          exists c, d, (bs ")"), (quals ++ x :: m). split; [unfold cbind; rewrite G; reflexivity|]. exists (bs ")" :: quals). split; [constructor; [reflexivity|exact QU]|reflexivity].
        - assert (u = bs "()") by congruence. assert (us = quals ++ x :: m) by congruence. subst u us.
          change (teq (bs "()") "()") with true. cbv iota. destruct (quals ++ x :: m) as [|w ws] eqn:Q; [destruct quals; discriminate|].
          exists b, (bs "()"), w, ws. split; [reflexivity|]. exists quals. auto. }
      destruct S1 as (c & d & w & ws & S1 & qs & QS & E2). rewrite (cbind_ok _ _ _ _ _ _ _ S1).
      destruct (skipset_any "{;" qs QS (pbound (Inp c d w ws)) c d x m w ws X1 ltac:(unfold pbound; cbn [more]; lia) E2) as (c' & d' & S2).
      exists c', d'. unfold skip_set, lift, cbind. rewrite S2. reflexivity. }
    destruct OP as [->|(ON & OP)].
    - cbn [app]. unfold nxt at 1, lift at 1, next at 1. unfold cbind at 1. cbn [more tk1 tk]. rewrite cbind_get. cbn [tk].
      change (teq (bs "()") "()") with true. unfold when.
      destruct (argtoks_ne args (quals ++ x :: m)) as (u & us & E & U). rewrite E.
      unfold nxt, lift, next. unfold cbind at 1. cbn [more tk1 tk]. unfold skip_paren, lift, pbound. unfold cbind at 1. cbn [more skipparen tk]. rewrite U.
      apply K. exact E.
    - destruct (argtoks_ne args (quals ++ x :: m)) as (u & us & E & U).
      destruct op as [|w ws]; [congruence|]. inversion OP as [|? ? (W1 & W2) WS]; subst.
      cbn [app]. unfold nxt at 1, lift at 1, next at 1. unfold cbind at 1. cbn [more tk1 tk]. rewrite cbind_get. cbn [tk].
      change (teq w "()") with (is w "()"). rewrite W1. unfold when. rewrite (cbind_ok _ _ _ _ tt g (Inp t1 (bs "operator") w (ws ++ argtoks args ++ quals ++ x :: m))) by reflexivity.
      rewrite E.
      assert (F2 : Forall (fun t => first_in "(" t = false) (w :: ws)) by (eapply Forall_impl; [|exact OP]; intros ? (_ & H); exact H).
      destruct (skipparen_run (w :: ws) F2 (pbound (Inp t1 (bs "operator") w (ws ++ u :: us))) t1 (bs "operator") u us w (ws ++ u :: us) U ltac:(unfold pbound; cbn [more]; lia) eq_refl) as (a & b & S).
      unfold skip_paren, lift. unfold cbind at 1. rewrite S. apply K. exact E.
  Qed.
  Lemma oper_run ty op args quals bd acts pr co rp num ret g t2 t1 t0 m : Forall elem_ok ty -> oper_ok op ->
    match args with None => True | Some a => balanced (bs "(") (bs ")") a end ->
    Forall (fun t => first_in "{;" t = false) quals -> bd_ok bd ->
    exists r a b x, runs2 (L0 acts pr false co rp num ret) g (Inp t2 t1 t0 (etoks ty ++ bs "operator" :: op ++ argtoks args ++ quals ++ endtoks bd ++ m))
      (L0 acts pr false (co || has_const ty) rp num r) g (Inp a b x m) /\ bnd x.
  Proof.
    intros TY OP AR QU BD.
    destruct (elems_run o pc prefix targs g false ua ty TY acts pr false co rp num ret t2 t1 t0 (bs "operator" :: op ++ argtoks args ++ quals ++ endtoks bd ++ m)) as (r1 & a1 & b1 & R1).
    set (t := last (etoks ty) t0) in *. set (st := (false || has_static ty)%bool) in *. set (co' := (co || has_const ty)%bool) in *.
    assert (LEN : forall A (x : A) b m, (length m <= length (b ++ x :: m))%nat) by (intros; rewrite app_length; cbn [length]; lia).
    assert (T : exists r a b x, turn o pc prefix targs (L0 acts pr st co' rp num r1) g (Inp b1 t (bs "operator") (op ++ argtoks args ++ quals ++ endtoks bd ++ m))
       = COk (Go (L0 acts pr false co' rp num r)) g (Inp a b x m) /\ bnd x).
    { unfold turn, stages. rewrite early; [|intros s S; cbn in S; intuition; subst; reflexivity|apply Bool.andb_false_r].
      cbn [run_stages]. set (l := L0 acts pr st co' rp num r1). set (i := Inp b1 t _ _) in *.
      rewrite (fbind_go _ _ l g i g i) by (apply t_scalar_id; reflexivity).
      destruct bd as [bd|]; cbn [endtoks app] in i.
      - destruct (oper_stage op args quals acts pr st co' rp num r1 g b1 t (bs "{") ((bd ++ [bs "}"]) ++ m) OP AR QU (or_intror eq_refl)) as (a & b & S).
        rewrite (fbind_go _ _ _ _ _ _ _ S). clear i S l. set (l := L0 _ _ _ _ _ _ _). rewrite <- app_assoc. cbn [app].
        set (i := Inp a b _ _).
        rewrite (fbind_go _ _ l g i g i) by (rewrite t_flags_id by reflexivity; reflexivity).
        rewrite (fbind_go _ _ l g i g i) by (apply t_function_id; reflexivity).
        rewrite (fbind_go _ _ l g i g i) by (apply t_array_id; reflexivity).
        destruct (brace_stage g l bd a b m BD) as (a' & b' & B). rewrite (fbind_go _ _ _ _ _ _ _ B).
        destruct (t_return_id l g (Inp a' b' (bs "}") m)) as (r & R); [reflexivity|]. rewrite (fbind_go _ _ _ _ _ _ _ R).
        exists r, a', b', (bs "}"). split; [reflexivity|]. right. now left.
      - destruct (oper_stage op args quals acts pr st co' rp num r1 g b1 t (bs ";") m OP AR QU (or_introl eq_refl)) as (a & b & S).
        rewrite (fbind_go _ _ _ _ _ _ _ S). clear i S l. set (l := L0 _ _ _ _ _ _ _). set (i := Inp a b _ _).
        rewrite (fbind_go _ _ l g i g i) by (rewrite t_flags_id by reflexivity; reflexivity).
        rewrite (fbind_go _ _ l g i g i) by (apply t_function_id; reflexivity).
        destruct (late pc [] g false l i) as (r & R); [now left|]. exists r, a, b, (bs ";"). split; [exact R|]. now left. }
    destruct T as (r & a & b & x & T & X). exists r, a, b, x. split; [|exact X].
    eapply runs2_trans; [apply runs_runs2; exact R1|]. turning T; [reflexivity|].
    unfold len_i. cbn [more]. rewrite !app_length. destruct bd; cbn [endtoks length]; lia.
  Qed.
  (** member templates *)
  Lemma fun_head ty n args quals bd m u us : mem_ok (MFun ty n args quals bd) -> mtoks1 (MFun ty n args quals bd) ++ m = u :: us ->
    forall s, In s ["private"; "protected"; "public"; "typedef"; "template"; "class"; "struct"; "}"]%string -> teq u s = false.
  Proof.
    intros (TY & N & _) E s S. cbn [mtoks1] in E.
    assert (PL : forall t, plain t = true -> teq t s = false).
    { intros t T. apply plain_facts_of in T. apply (pf_special _ T). cbn in S |- *. intuition. }
    destruct TY as [|e ty EO _].
    - cbn [etoks map concat app] in E. assert (u = n) by (unfold etoks in E; cbn [map concat app] in E; congruence). subst u. apply PL.
      unfold name_ok in N. apply Bool.andb_true_iff in N. destruct N as (N & _). apply Bool.andb_true_iff in N. apply N.
    - unfold etoks in E. cbn [map concat] in E. destruct e as [t| | |ts]; cbn [etoks1 app] in E.
      + assert (u = t) by congruence. subst u. apply PL. exact EO.
      + assert (u = bs "static") by congruence. subst u. cbn in S. intuition; subst; reflexivity.
      + assert (u = bs "const") by congruence. subst u. cbn in S. intuition; subst; reflexivity.
      + assert (u = bs "<") by congruence. subst u. cbn in S. intuition; subst; reflexivity.
  Qed.
  Hypothesis OV : overloading o = false.
  Hypothesis CP : has_lt prefix = true -> class_part prefix <> [].
  Lemma tfun_run par kar ty n args quals bd acts pr co rp num ret g t2 t1 t0 m : tpl par kar ->
    mem_ok (MFun ty n args quals bd) -> (has_static ty = true -> co = false) -> exists r a b x,
    runs2 (L0 acts pr false co rp num ret) g (Inp t2 t1 t0 (bs "template" :: bs "<" :: par ++ bs ">" :: mtoks1 (MFun ty n args quals bd) ++ m))
      (L0 acts pr false false rp (num ++ [bs "." ++ n]) r) g (Inp a b x m) /\ bnd x.
  Proof.
    intros TP M ST.
    assert (NE : exists u us, mtoks1 (MFun ty n args quals bd) ++ m = u :: us).
    { cbn [mtoks1]. destruct (etoks ty); cbn [app]; eauto. }
    destruct NE as (u & us & NE). pose proof (fun_head ty n args quals bd m u us M NE) as H.
    destruct (template_at (bs "template") (bs "template") par kar u us TP) as (z & _).
    destruct (template_at t0 (bs "template") par kar u us TP) as (a1 & E1).
    destruct (fun_run o pc prefix targs g true ua OV CP ty n args quals bd acts pr co rp num ret [] a1 (bs ">") m M ST ltac:(split; reflexivity)) as (r & a & b & x & R & _ & X).
    rewrite Bool.orb_true_r in R. cbn [map] in R. rewrite app_nil_r in R.
    exists r, a, b, x. split; [|destruct X; subst; unfold bnd; auto].
    rewrite NE in *. eapply runs2_trans; [|apply runs_runs2; exact R].
    intros f F. exists f. split; [unfold len_i in *; cbn [more length] in *; rewrite app_length in F; cbn [length] in F; lia|].
    destruct f as [|f]; [lia|]. cbn [members]. unfold nxt, lift, next. unfold cbind at 1. cbn [more tk1 tk]. rewrite cbind_get. cbn [tk].
    change (teq (bs "template") "}") with false. cbv iota.
    unfold cbind at 2. cbn [more tk1 tk]. rewrite cbind_get. cbn [tk]. rewrite (H "}"%string) by (cbn; auto 20).
    match goal with |- cbind ?x _ _ _ = cbind ?y _ _ _ => assert (Q : x g (Inp t1 t0 (bs "template") (bs "<" :: par ++ bs ">" :: u :: us)) = y g (Inp a1 (bs ">") u us)) end.
    2: { unfold cbind. rewrite Q. reflexivity. }
    unfold turn, stages. cbn [run_stages]. set (l := L0 _ _ _ _ _ _ _). set (lt := LL true ua acts pr false co rp num ret).
    set (i := Inp t1 t0 _ _). set (j := Inp a1 _ u us) in *.
    rewrite (fbind_go _ _ l g i g i) by (apply t_label_id; reflexivity).
    rewrite (fbind_go _ _ l g i g i) by (apply t_typedef_id; reflexivity).
    rewrite (fbind_go _ _ lt g j g j) by (apply t_label_id; cbn [j tk]; rewrite !H by (cbn; auto 20); reflexivity).
    rewrite (fbind_go _ _ lt g j g j) by (apply t_typedef_id; cbn [j tk]; apply H; cbn; auto 20).
    rewrite (fbind_go _ _ lt g j g j) by (apply t_template_id; cbn [j tk]; apply H; cbn; auto 20).
    rewrite (fbind_go _ _ lt g i g j); [reflexivity|].
    unfold t_template. rewrite cbind_get. change (teq (tk i) "template") with true. cbv iota.
    unfold nxt, lift, next. unfold cbind at 1. cbn [more tk tk1 i]. unfold cbind at 1. rewrite E1. rewrite cbind_get. cbn [j tk].
    rewrite !H by (cbn; auto 20). reflexivity.
  Qed.
  (** class declarations *)
  Lemma kw_turn k acts pr st co rp num ret g t1 t0 name m i' g' : teq name "}" = false -> idt name = true ->
    (assign_class_action pc prefix (merge_targs targs []) [] pr) (if pr then g else add_nested (prefix, name) g)
       (Inp t0 (if beq targs [] then kw k else bs "typename") name m) = COk tt g' i' ->
    turn o pc prefix targs (L0 acts pr st co rp num ret) g (Inp t1 t0 (kw k) (name :: m)) = COk (Cont (L0 acts pr st co rp num ret)) g' i'.
  Proof.
    intros NB NI E. unfold turn, stages. cbn [run_stages]. set (l := L0 _ _ _ _ _ _ _). set (i := Inp t1 t0 _ _).
    rewrite (fbind_go _ _ l g i g i) by (apply t_label_id; destruct k; reflexivity).
    rewrite (fbind_go _ _ l g i g i) by (apply t_typedef_id; destruct k; reflexivity).
    rewrite (fbind_go _ _ l g i g i) by (apply t_template_id; destruct k; reflexivity).
    rewrite (fbind_go _ _ l g i g i) by (apply t_using_id; destruct k; reflexivity).
    apply fbind_cont. unfold t_class. rewrite cbind_get. replace (teq (tk i) "class" || teq (tk i) "struct")%bool with true by (destruct k; reflexivity).
    unfold nxt, lift, next. unfold cbind at 1. cbn [more i tk1 tk]. rewrite cbind_get. cbn [tk tk2 tk1 more]. rewrite NI.
    change (l_priv l) with pr. change (l_templ l) with false. change (l_targs1 l) with (@nil ascii). rewrite Bool.andb_true_r.
    rewrite (cbind_ok _ _ _ _ tt (if pr then g else add_nested (prefix, name) g) (Inp t0 (kw k) name m)) by (destruct pr; reflexivity).
    rewrite (cbind_ok _ _ _ _ tt (if pr then g else add_nested (prefix, name) g) (Inp t0 (if beq targs [] then kw k else bs "typename") name m)) by (destruct (beq targs []); reflexivity).
    rewrite (cbind_ok _ _ _ _ _ _ _ E). reflexivity.
  Qed.
  Lemma cfwd_run k name acts pr st co rp num ret g t2 t1 t0 m : word name ->
    exists a b, runs2 (L0 acts pr st co rp num ret) g (Inp t2 t1 t0 (kw k :: name :: bs ";" :: m)) (L0 acts pr st co rp num ret)
      (evs_eff o ((if pr then [] else [EvName prefix name]) ++ [EvFwd prefix name]) g) (Inp a b (bs ";") m).
  Proof.
    intros W. eexists _, _. eapply (turn2 _ _ _ _ _ _ _ (Cont (L0 acts pr st co rp num ret))); [destruct k; reflexivity| |].
    2: apply kw_turn; [apply (word_tok _ _ W); reflexivity|now apply word_idt|].
    2: { unfold assign_class_action, cbind, get, nxt, lift, next. cbn [more tk1 tk].
         change (teq (bs ";") "<") with false. change (extract_targs []) with (Some ([] : tok)). unfold opt, cret. unfold pbound, qualified. cbn [more tk].
         change (teq (bs ";") "::") with false. cbn [tk]. change (strchr ":{" (first (bs ";"))) with false. unfold upd. rewrite app_nil_r.
         f_equal. destruct pr; reflexivity. }
    unfold len_i. cbn [more length]. lia.
  Qed.
End Run.

(** ** Scopes *)
Definition outer (x : tok) : tok := match rfind2 x with Some p => skipn (p + 2) x | None => x end.
Definition scope (tpar : bool) (p c : tok) (tp : bool) (targs : tok) : Prop :=
  if tp then beq targs [] = negb tpar /\ c <> [] /\ exists x y, p = x ++ "<"%char :: y ++ bs "::" /\ ~ In "<"%char x /\ outer x = c
  else targs = [] /\ c <> [] /\ ends p /\ free p /\ class_part p = c /\ tpar = false.
Lemma cut2 x : firstn (length (x ++ bs "::") - 2) (x ++ bs "::") = x.
Proof. rewrite app_length. change (length (bs "::")) with 2%nat. rewrite Nat.add_sub, firstn_app, Nat.sub_diag, firstn_all. cbn [firstn]. apply app_nil_r. Qed.
Lemma find_lt x y : forall i, ~ In "<"%char x -> find_at (bs "<") (x ++ "<"%char :: y) i = Some (i + length x)%nat.
Proof.
  induction x as [|c x IH]; intros i N; cbn [app find_at].
  - change (starts (bs "<") ("<"%char :: y)) with true. cbv iota. f_equal. cbn [length]. lia.
  - destruct (starts (bs "<") (c :: x ++ "<"%char :: y)) eqn:E.
    + exfalso. apply startsP in E. destruct E as (z & E). apply N. left. change (bs "<" ++ z) with ("<"%char :: z) in E. congruence.
    + rewrite IH by (intros X; apply N; now right). f_equal. cbn [length]. lia.
Qed.
Lemma class_part_templ x y : ~ In "<"%char x -> class_part (x ++ "<"%char :: y ++ bs "::") = outer x.
Proof.
  intros N. unfold class_part. change (x ++ "<"%char :: y ++ bs "::") with (x ++ ("<"%char :: y) ++ bs "::"). rewrite app_assoc, cut2.
  unfold find_from. cbn [Nat.leb skipn]. rewrite find_lt by exact N. cbn [Nat.add].
  rewrite firstn_app, Nat.sub_diag, firstn_all. cbn [firstn]. rewrite app_nil_r. reflexivity.
Qed.
Lemma scope_part tpar p c tp targs : scope tpar p c tp targs -> class_part p = c /\ c <> [] /\ has_lt p = tp /\ beq targs [] = negb tpar.
Proof.
  destruct tp; unfold scope.
  - intros (T & C & x & y & -> & N & E). split; [rewrite class_part_templ by exact N; exact E|]. split; [exact C|]. split.
    + unfold has_lt. rewrite existsb_app. cbn [existsb]. change (ceq "<" "<") with true. cbn [orb]. apply Bool.orb_true_r.
    + exact T.
  - intros (-> & C & E & F & P & ->). split; [exact P|]. split; [exact C|]. split; [now apply free_has_lt|reflexivity].
Qed.
Lemma word_ne t : word t -> t <> []. Proof. intros (X & _) ->. discriminate. Qed.
Lemma scope_nest tpar p c tp targs name : scope tpar p c tp targs -> word name -> scope tpar (p ++ name ++ bs "::") (if tp then c else name) tp targs.
Proof.
  intros S W. destruct tp; unfold scope in *.
  - destruct S as (T & C & x & y & -> & N & E). split; [exact T|]. split; [exact C|]. exists x, (y ++ bs "::" ++ name). split; [|auto].
    rewrite <- !app_assoc. cbn [app]. rewrite <- !app_assoc. reflexivity.
  - destruct S as (-> & C & E & F & P & ->). split; [reflexivity|]. split; [now apply word_ne|]. split; [exists (p ++ name); now rewrite app_assoc|].
    split; [|split; [now apply class_part_name|reflexivity]]. apply free_app; [exact F|]. apply free_app; [now apply word_free|exact free_colons].
Qed.

(** ** All members *)
Lemma body_names mbr resp ns tpar p c tp pr co ts rs cs fs us : body mbr resp ns tpar p c tp pr co ts rs cs fs us ->
  existsb (beq ([] : tok)) us = false /\ filter (beq ([] : tok)) fs = [].
Proof. induction 1; auto; destruct IHbody as (A & B); auto. Qed.
Section Good.
  Variable o : opts.
  Hypothesis OV : overloading o = false.
  Variable ns : tok.
  Hypothesis NE : ends ns.
  Variable tpar : bool.
  Definition good (p c : tok) (tp pr co : bool) (ts : list tok) (rs : list event) (cs : list call) (fs us : list tok) : Prop :=
    forall targs fuel ua acts num ret g t2 t1 t0 m, scope tpar p c tp targs -> (length ts <= fuel)%nat -> g_ns g = ns -> bnd t0 ->
    exists pr' co' r a b x,
    runs2 o (parse_class o fuel) p targs (LL false ua acts pr false co (respect_private o && pr) num ret) g (Inp t2 t1 t0 (ts ++ m))
      (LL false (ua ++ us) (acts ++ map to_act cs) pr' false co' (respect_private o && pr') (num ++ fs) r) (evs_eff o rs g) (Inp a b x m) /\ bnd x.
  Lemma good_class p c tp k b rb cb fb ub bl : good p c tp k false b rb cb fb ub ->
    existsb (beq ([] : tok)) ub = false -> filter (beq ([] : tok)) fb = [] -> Forall bspec_ok bl ->
    forall fuel targs g t2 t1 t m rest, scope tpar p c tp targs -> (length b < fuel)%nat -> g_ns g = ns ->
    btoks bl ++ bs "{" :: b ++ bs "}" :: rest = t :: m ->
    exists x y, parse_class o fuel k p targs g (Inp t2 t1 t m) =
      COk (concat (map (bact o k targs) bl) ++ map to_act (chosen cb fb ub)) (evs_eff o rb g) (Inp x y (bs "}") rest).
  Proof.
    intros G U N B fuel targs g t2 t1 t m rest SC FU EN E. destruct fuel as [|fuel]; [lia|]. cbn [parse_class]. unfold cbind, lift, get, cret. unfold pbound at 1. cbn [more].
    destruct (bases_run o k targs bl B (S (length m)) t2 t1 t m _ ltac:(lia) E) as (a2 & a1 & ->).
    destruct (G targs fuel [] (concat (map (bact o k targs) bl)) [] [] g a2 a1 (bs "{") (bs "}" :: rest) SC ltac:(lia) EN ltac:(unfold bnd; auto)) as (pr' & co' & r & a & b' & x & R & X).
    match goal with |- context [members o ?pc p targs ?f ?l g ?i] => destruct (R f) as (f' & F' & Q) end.
    { unfold pbound, len_i. cbn [more]. lia. }
    unfold LL at 1 in Q. rewrite Q. destruct f' as [|f']; [lia|]. cbn [members]. unfold nxt, lift, next, cbind, get, cret. cbn [more tk tk1].
    change (teq (bs "}") "}") with true. cbv iota. exists b', x. f_equal.
    unfold prune. rewrite OV. unfold LL. cbn [l_using l_acts l_num app]. rewrite filter_app. f_equal.
    - apply filter_all. eapply Forall_impl; [|apply bact_names]. intros y ->. unfold countb. rewrite U, N. reflexivity.
    - rewrite filter_map. reflexivity.
  Qed.
  Lemma class_call p c (tp k pr : bool) name b rb cb fb ub bl : word name -> Forall bspec_ok bl ->
    good (p ++ name ++ bs "::") c tp (k && negb tpar) false b rb cb fb ub ->
    existsb (beq ([] : tok)) ub = false -> filter (beq ([] : tok)) fb = [] ->
    forall (fu : inp -> nat) targs g t2 rest, scope tpar (p ++ name ++ bs "::") c tp targs -> has_lt p = tp -> (tp = false -> free p) ->
    (forall i, length b <= length (more i) -> length b < fu i)%nat -> g_ns g = ns ->
    exists x y, assign_class_action (fun k p t g i => parse_class o (fu i) k p t g i) p targs [] pr g
       (Inp t2 (if tpar then bs "typename" else kw k) name (btoks bl ++ bs "{" :: b ++ bs "}" :: rest)) =
      COk tt (evs_eff o (rb ++ [if (pr || tp)%bool then EvKnown p name else EvClass k ns p name (base_names (respect_private o) k bl) (chosen cb fb ub)]) g)
          (Inp x y (bs "}") rest).
  Proof.
    intros W B G U N fu targs g t2 rest SN HL FR FU EN. unfold assign_class_action, cbind, get, nxt, lift, next. cbn [more tk1 tk].
    destruct (btoks bl ++ bs "{" :: b ++ bs "}" :: rest) as [|t m] eqn:E; [destruct bl; discriminate|].
    assert (T : t = bs ":" \/ t = bs "{").
    { destruct bl; cbn [btoks app] in E; [right|left]; congruence. }
    assert (LM : (length b <= length m)%nat).
    { apply (f_equal (@length _)) in E. rewrite app_length in E. cbn [length] in E. rewrite app_length in E. cbn [length] in E. lia. }
    cbn [tk].
    replace (teq t "<") with false by (destruct T; subst; reflexivity).
    change (extract_targs []) with (Some ([] : tok)). unfold opt, cret. unfold pbound, qualified. cbn [more tk].
    replace (teq t "::") with false by (destruct T; subst; reflexivity). cbn [tk].
    replace (strchr ":{" (first t)) with true by (destruct T; subst; reflexivity).
    rewrite !app_nil_r.
    replace (teq ((if tpar then bs "typename" else kw k) ++ [" "%char]) "class ") with (k && negb tpar)%bool by (destruct tpar, k; reflexivity).
    rewrite <- (app_assoc p name).
    destruct (good_class _ _ _ _ _ _ _ _ _ bl G U N B (fu (Inp (if tpar then bs "typename" else kw k) name t m)) targs g (if tpar then bs "typename" else kw k) name t m rest SN ltac:(apply FU; exact LM) EN E) as (x & y & ->).
    exists x, y. rewrite evs_eff_app. set (g' := evs_eff o rb g). assert (EN' : g_ns g' = ns) by (unfold g'; now rewrite evs_eff_ns).
    rewrite HL.
    destruct pr; [reflexivity|]. destruct tp; [reflexivity|]. cbn [negb andb orb].
    destruct SN as (-> & _ & _ & _ & _ & ->). rewrite seen_templ_free by (apply free_app; [now apply FR|now apply word_free]). cbn [negb when].
    rewrite new_action_run by (rewrite EN'; exact NE). rewrite EN'. unfold upd. rewrite bacts_plain. rewrite Bool.andb_true_r. f_equal.
    unfold evs_eff. cbn [fold_left app ev_eff]. unfold add_type. do 3 f_equal. now rewrite <- !app_assoc.
  Qed.
  Ltac same := repeat (rewrite ?map_app, ?app_nil_r, <- ?app_assoc; cbn [map app]).
  Lemma body_run p c tp pr co ts rs cs fs us : body (use_mbr o) (respect_private o) ns tpar p c tp pr co ts rs cs fs us -> good p c tp pr co ts rs cs fs us.
  Proof.
    induction 1; intros targs fuel ua acts num ret g t2 t1 t0 m SC FU EN B;
      destruct (scope_part _ _ _ _ _ SC) as (CP & CN & HL & TA);
      (assert (CPH : has_lt p = true -> class_part p <> []) by (intros _; rewrite CP; exact CN)).
    - exists pr, co, ret, t2, t1, t0. split; [|exact B]. cbn [map app evs_eff fold_left]. rewrite !app_nil_r. apply runs2_refl.
    - (* ; *)
      cbn [app length] in *.
      destruct (semi_run o (parse_class o fuel) p targs ua acts pr false co (respect_private o && pr)%bool num ret g t2 t1 t0 (ts ++ m) B) as (r & a & b & R).
      destruct (IHbody targs fuel ua acts num r g a b (bs ";") m SC ltac:(lia) EN ltac:(unfold bnd; auto)) as (pr' & co' & r' & a' & b' & x' & R' & X').
      exists pr', co', r', a', b', x'. split; [|exact X']. eapply runs2_trans; eauto.
    - (* label *)
      cbn [app length] in *.
      pose proof (label_run o (parse_class o fuel) p targs g false ua OV CPH a acts pr co (respect_private o && pr)%bool num ret t2 t1 t0 (ts ++ m)) as R.
      destruct (IHbody targs fuel ua acts num ret g t0 (acctok a) (bs ":") m SC ltac:(lia) EN ltac:(unfold bnd; auto)) as (pr' & co' & r' & a' & b' & x' & R' & X').
      exists pr', co', r', a', b', x'. split; [|exact X']. eapply runs2_trans; [apply runs_runs2; exact R|exact R'].
    - (* data *)
      rewrite app_length in FU. cbn [mtoks1]. rewrite <- !app_assoc. cbn [app]. pose proof (bnd_boundary _ B) as (B1 & B2). destruct H as (D & DS & NS & SI).
      destruct (decls_run o (parse_class o fuel) p targs g false ua ds DS NS d acts pr false co (respect_private o && pr)%bool num ret t2 t1 t0 (ts ++ m) D B1) as (r & a & b & R).
      match type of R with runs _ _ _ _ _ _ _ (LL _ _ ?acts' _ _ _ _ _ _) _ =>
        destruct (IHbody targs fuel ua acts' num r g a b (bs ";") m SC ltac:(lia) EN ltac:(unfold bnd; auto)) as (pr' & co' & r' & a' & b' & x' & R' & X') end.
      exists pr', co', r', a', b', x'. split; [|exact X']. eapply runs2_trans; [apply runs_runs2; exact R|].
      assert (Q : data_call (use_mbr o) p (false || has_static (d_pre d)) (co || has_const (d_pre d)) d
                  = data_call (use_mbr o) p (has_static (d_pre d)) (has_const (d_pre d)) d).
      { cbn [orb]. destruct (has_static (d_pre d)); [|now rewrite !((data_call_nostatic o p) (_ || _)), !((data_call_nostatic o p) (has_const _))].
        destruct (has_const (d_pre d)); [now rewrite Bool.orb_true_r|]. now rewrite (H0 eq_refl eq_refl). }
      rewrite Q in R' |- *. rewrite map_app, app_assoc. unfold seen. cbn [calls1]. exact R'.
    - (* function *)
      rewrite app_length in FU. rewrite <- !app_assoc.
      destruct (fun_run o (parse_class o fuel) p targs g false ua OV CPH ty n args quals bd acts pr co (respect_private o && pr)%bool num ret t2 t1 t0 (ts ++ m) H H0 (bnd_boundary _ B)) as (r & a & b & x & R & _ & X).
      change (LF ua) with (LL false ua) in R. rewrite Bool.orb_false_r, CP in R.
      match type of R with runs _ _ _ _ _ _ _ (LL _ _ ?acts' _ _ _ _ ?num' _) _ =>
        destruct (IHbody targs fuel ua acts' num' r g a b x m SC ltac:(lia) EN ltac:(unfold bnd; tauto)) as (pr' & co' & r' & a' & b' & x' & R' & X') end.
      exists pr', co', r', a', b', x'. split; [|exact X']. eapply runs2_trans; [apply runs_runs2; exact R|].
      rewrite map_app, app_assoc. unfold seen. rewrite <- (app_assoc num) in R'. exact R'.
    - (* function template *)
      cbn [length] in FU. rewrite !app_length in FU. cbn [length] in FU. rewrite app_length in FU.
      cbn [app]. rewrite <- !app_assoc. cbn [app]. rewrite <- !app_assoc.
      destruct (tfun_run o (parse_class o fuel) p targs ua OV CPH par kar ty n args quals bd acts pr co (respect_private o && pr)%bool num ret g t2 t1 t0 (ts ++ m) H H0 H1) as (r & a & b & x & R & X).
      match type of R with runs2 _ _ _ _ _ _ _ (LL _ _ ?acts' _ _ _ _ ?num' _) _ _ =>
        destruct (IHbody targs fuel ua acts' num' r g a b x m SC ltac:(lia) EN X) as (pr' & co' & r' & a' & b' & x' & R' & X') end.
      exists pr', co', r', a', b', x'. split; [|exact X']. eapply runs2_trans; [exact R|]. rewrite <- (app_assoc num) in R'. exact R'.
    - (* operator *)
      assert (LT : (length ts <= fuel)%nat) by (repeat (rewrite app_length in FU; cbn [length] in FU); lia).
      repeat progress (cbn [app]; rewrite <- ?app_assoc).
      destruct (oper_run o (parse_class o fuel) p targs ua ty op args quals bd acts pr co (respect_private o && pr)%bool num ret g t2 t1 t0 (ts ++ m) H H0 H1 H2 H3) as (r & a & b & x & R & X).
      destruct (IHbody targs fuel ua acts num r g a b x m SC LT EN X) as (pr' & co' & r' & a' & b' & x' & R' & X').
      exists pr', co', r', a', b', x'. split; [|exact X']. eapply runs2_trans; eauto.
    - (* using *)
      assert (LT : (length ts <= fuel)%nat) by (repeat (rewrite ?app_length in FU; cbn [length] in FU); lia).
      repeat progress (cbn [app]; rewrite <- ?app_assoc).
      destruct (using_run o (parse_class o fuel) p targs ua q n acts pr false co (respect_private o && pr)%bool num ret g t2 t1 t0 (ts ++ m) H) as (a & R).
      destruct (IHbody targs fuel (ua ++ [bs "." ++ n]) acts num ret g a n (bs ";") m SC LT EN ltac:(unfold bnd; auto)) as (pr' & co' & r' & a' & b' & x' & R' & X').
      exists pr', co', r', a', b', x'. split; [|exact X']. eapply runs2_trans; [exact R|]. rewrite <- app_assoc in R'. exact R'.
    - (* friend *)
      assert (LT : (length ts <= fuel)%nat) by (repeat (rewrite ?app_length in FU; cbn [length] in FU); lia).
      repeat progress (cbn [app]; rewrite <- ?app_assoc).
      destruct (friend_run o (parse_class o fuel) p targs ua q acts pr false co (respect_private o && pr)%bool num ret g t2 t1 t0 (ts ++ m) H) as (r & a & b & R).
      destruct (IHbody targs fuel ua acts num r g a b (bs ";") m SC LT EN ltac:(unfold bnd; auto)) as (pr' & co' & r' & a' & b' & x' & R' & X').
      exists pr', co', r', a', b', x'. split; [|exact X']. eapply runs2_trans; eauto.
    - (* typedef *)
      assert (LT : (length ts <= fuel)%nat) by (repeat (rewrite ?app_length in FU; cbn [length] in FU); lia).
      repeat progress (cbn [app]; rewrite <- ?app_assoc).
      destruct (typedef_run o (parse_class o fuel) p targs ua q n acts pr false co (respect_private o && pr)%bool num ret g t2 t1 t0 (ts ++ m) H H0 H1) as (a & R).
      match type of R with runs2 _ _ _ _ _ _ _ _ ?g' _ =>
        destruct (IHbody targs fuel ua acts num ret g' a n (bs ";") m SC LT ltac:(rewrite evs_eff_ns; exact EN) ltac:(unfold bnd; auto)) as (pr' & co' & r' & a' & b' & x' & R' & X') end.
      exists pr', co', r', a', b', x'. split; [|exact X']. eapply runs2_trans; [exact R|]. rewrite evs_eff_app. exact R'.
    - (* union *)
      assert (LT : (length ts <= fuel)%nat) by (repeat (rewrite ?app_length in FU; cbn [length] in FU); lia).
      repeat progress (cbn [app]; rewrite <- ?app_assoc).
      assert (NI : ~ In (bs ";") [n]) by (intros [K|[]]; subst n; discriminate).
      destruct (union_run o (parse_class o fuel) p targs ua [n] acts pr co (respect_private o && pr)%bool num ret g t2 t1 t0 b (ts ++ m) H NI) as (r & a & R).
      cbn [last app] in R. rewrite H0, Bool.orb_false_r in R.
      match type of R with runs2 _ _ _ _ _ _ _ (LL _ _ ?acts' _ _ _ _ _ _) _ _ =>
        destruct (IHbody targs fuel ua acts' num r g a n (bs ";") m SC LT EN ltac:(unfold bnd; auto)) as (pr' & co' & r' & a' & b' & x' & R' & X') end.
      exists pr', co', r', a', b', x'. split; [|exact X']. eapply runs2_trans; [exact R|].
      rewrite map_app, app_assoc. unfold seen. destruct (respect_private o && pr)%bool; [cbn [map]; rewrite app_nil_r|cbn [map]]; exact R'.
    - (* union without a name *)
      assert (LT : (length ts <= fuel)%nat) by (repeat (rewrite ?app_length in FU; cbn [length] in FU); lia).
      repeat progress (cbn [app]; rewrite <- ?app_assoc).
      destruct (union_run o (parse_class o fuel) p targs ua [] acts pr co (respect_private o && pr)%bool num ret g t2 t1 t0 b (ts ++ m) H ltac:(intros [])) as (r & a & R).
      cbn [last app] in R. replace (negb (ident (bs "}"))) with true in R by reflexivity. rewrite Bool.orb_true_r in R.
      destruct (IHbody targs fuel ua acts num r g a (bs "}") (bs ";") m SC LT EN ltac:(unfold bnd; auto)) as (pr' & co' & r' & a' & b' & x' & R' & X').
      exists pr', co', r', a', b', x'. split; [|exact X']. eapply runs2_trans; eauto.
    - (* enum *)
      rewrite app_length in FU. rewrite <- app_assoc.
      destruct (enum_run o (parse_class o fuel) p targs ua e acts false co (respect_private o && false)%bool num ret g t2 t1 t0 (ts ++ m) H ltac:(rewrite EN; exact NE)) as (r & a & R).
      rewrite EN in R.
      match type of R with runs2 _ _ _ _ _ _ _ _ ?g' _ =>
        destruct (IHbody targs fuel ua acts num r g' a (bs "}") (bs ";") m SC ltac:(lia) ltac:(rewrite ev_eff_ns; exact EN) ltac:(unfold bnd; auto)) as (pr' & co' & r' & a' & b' & x' & R' & X') end.
      exists pr', co', r', a', b', x'. split; [|exact X']. eapply runs2_trans; [exact R|]. exact R'.
    - (* enum that is not described *)
      assert (LT : (length ts <= fuel)%nat) by (repeat (rewrite ?app_length in FU; cbn [length] in FU); lia).
      repeat progress (cbn [app]; rewrite <- ?app_assoc).
      destruct (enum0_run o (parse_class o fuel) p targs ua b acts pr false co (respect_private o && pr)%bool num ret g t2 t1 t0 (ts ++ m) H H0 H1) as (r & a & e & R).
      destruct (IHbody targs fuel ua acts num r g a e (bs "}") m SC LT EN ltac:(unfold bnd; auto)) as (pr' & co' & r' & a' & b' & x' & R' & X').
      exists pr', co', r', a', b', x'. split; [|exact X']. eapply runs2_trans; eauto.
    - (* class declaration *)
      cbn [app length] in *.
      destruct (cfwd_run o (parse_class o fuel) p targs ua k name acts pr false co (respect_private o && pr)%bool num ret g t2 t1 t0 (ts ++ m) H) as (a & b & R).
      match type of R with runs2 _ _ _ _ _ _ _ _ ?g' _ =>
        destruct (IHbody targs fuel ua acts num ret g' a b (bs ";") m SC ltac:(lia) ltac:(rewrite evs_eff_ns; exact EN) ltac:(unfold bnd; auto)) as (pr' & co' & r' & a' & b' & x' & R' & X') end.
      exists pr', co', r', a', b', x'. split; [|exact X']. eapply runs2_trans; [exact R|].
      replace ((if pr then [] else [EvName p name]) ++ EvFwd p name :: rs) with (((if pr then [] else [EvName p name]) ++ [EvFwd p name]) ++ rs) by (rewrite <- app_assoc; reflexivity).
      rewrite (evs_eff_app o (_ ++ _) rs). exact R'.
    - (* class *)
      assert (LT : (length ts <= fuel)%nat /\ (length b < fuel)%nat) by (cbn [length] in FU; repeat (rewrite ?app_length in FU; cbn [length] in FU); lia). destruct LT as (LT & LB).
      repeat progress (cbn [app]; rewrite <- ?app_assoc).
      destruct (body_names _ _ _ _ _ _ _ _ _ _ _ _ _ _ H1) as (NU & NF).
      set (g1 := if pr then g else add_nested (p, name) g).
      assert (E1 : g_ns g1 = g_ns g) by (unfold g1; destruct pr; reflexivity).
      destruct (class_call p (if tp then c else name) tp k pr name b rb cb fb ub bl H H0 IHbody1 NU NF (fun _ => fuel) targs g1 t0 (ts ++ m) (scope_nest _ _ _ _ _ _ SC H) HL
        ltac:(intros ->; destruct SC as (_ & _ & _ & X & _); exact X) (fun _ _ => LB) ltac:(rewrite E1; exact EN)) as (x & y & R).
      set (g2 := evs_eff o _ g1) in R.
      assert (R1 : turn o (parse_class o fuel) p targs (LL false ua acts pr false co (respect_private o && pr) num ret) g (Inp t1 t0 (kw k) (name :: btoks bl ++ bs "{" :: b ++ bs "}" :: ts ++ m))
        = COk (Cont (LL false ua acts pr false co (respect_private o && pr) num ret)) g2 (Inp x y (bs "}") (ts ++ m))).
      { apply kw_turn; [apply (word_tok _ _ H); reflexivity|now apply word_idt|].
        replace (merge_targs targs []) with targs by (destruct targs; cbn [merge_targs app]; rewrite ?app_nil_r; reflexivity).
        rewrite TA. replace (if negb tpar then kw k else bs "typename") with (if tpar then bs "typename" else kw k) by (now destruct tpar). exact R. }
      apply (turn2 _ _ _ _ _ _ t2) in R1; [|destruct k; reflexivity|unfold len_i; cbn [more length]; rewrite !app_length; cbn [length]; rewrite !app_length; cbn [length]; rewrite app_length; lia].
      cbn [loc_of] in R1.
      destruct (IHbody2 targs fuel ua acts num ret g2 x y (bs "}") m SC LT ltac:(unfold g2; rewrite evs_eff_ns, E1; exact EN) ltac:(unfold bnd; auto)) as (pr' & co' & r' & a' & b' & x' & R' & X').
      exists pr', co', r', a', b', x'. split; [|exact X']. eapply runs2_trans; [exact R1|].
      replace (evs_eff o ((if pr then [] else [EvName p name]) ++ rb ++ _ :: rs) g) with (evs_eff o rs g2); [exact R'|].
      unfold g2. rewrite <- evs_eff_app, <- app_assoc. cbn [app]. rewrite (evs_eff_app o (if pr then [] else [EvName p name])). unfold g1. destruct pr; reflexivity.
  Qed.
End Good.

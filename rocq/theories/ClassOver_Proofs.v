(** * The declarations that -overload gives for the members of a class *)
From Verif Require Import Base SMap Dec Desc_Model Tok_Model Parse_Model Parse_Props ClassParse_Model ClassParse_Spec ClassParse_Proofs ClassMem_Proofs ClassFile_Spec ClassFile_Proofs ClassOver_Spec.

(** ** Texts *)
Definition bl (s : tok) : Prop := s = [] \/ exists z, s = z ++ bs " ".
Lemma spells_word ts s t : spells ts s -> spells (ts ++ [t]) (s ++ bs " " ++ t).
Proof. intros H. rewrite app_assoc. apply sp_tok; [now apply sp_blank|]. right. left. eauto. Qed.
Lemma spells_txt us : forall ts s, spells ts s -> bl s -> spells (ts ++ us) (s ++ txt us) /\ bl (s ++ txt us).
Proof.
  induction us as [|u us IH]; intros ts s H B.
  - unfold txt. cbn. now rewrite !app_nil_r.
  - rewrite txt_cons. replace (ts ++ u :: us) with ((ts ++ [u]) ++ us) by now rewrite <- app_assoc.
    rewrite !app_assoc. apply IH; [|right; exists (s ++ u); reflexivity].
    apply sp_blank. apply sp_tok; [exact H|]. destruct B; auto.
Qed.
Lemma bl_blank s : bl (s ++ bs " ").
Proof. right. eauto. Qed.

(** ** Defaults *)
Lemma strip_app a : Forall (fun c => c <> "="%char /\ c <> "{"%char /\ c <> "}"%char) a ->
  forall b, strip_defaults (a ++ b) 0 true = a ++ strip_defaults b 0 true.
Proof.
  induction 1 as [|c a (C1 & C2 & C3) _ IH]; intros b; [reflexivity|]. cbn [app strip_defaults]. unfold ceq.
  rewrite (proj2 (Ascii.eqb_neq c "=") C1), (proj2 (Ascii.eqb_neq c "{") C2), (proj2 (Ascii.eqb_neq c "}") C3).
  cbn [Z.eqb]. rewrite Bool.andb_true_r. destruct (Ascii.eqb c ","); cbn [app]; now rewrite IH.
Qed.
Lemma strip_in d : inbrace d -> forall n r, (0 < n)%Z -> strip_defaults (d ++ r) n false = strip_defaults r n false.
Proof.
  induction 1 as [|c s C1 C2 _ IH|b s _ IHb _ IHs]; intros n r N; [reflexivity| |].
  - cbn [app strip_defaults]. unfold ceq.
    rewrite (proj2 (Ascii.eqb_neq c "{") C1), (proj2 (Ascii.eqb_neq c "}") C2).
    replace (n =? 0)%Z with false by (symmetry; apply Z.eqb_neq; lia). rewrite Bool.andb_false_r. cbn [app].
    destruct (Ascii.eqb c "="); now rewrite IH.
  - cbn [app strip_defaults]. unfold ceq. change (Ascii.eqb "{" "=") with false. change (Ascii.eqb "{" "{") with true. cbv iota.
    rewrite <- app_assoc. rewrite IHb by lia. cbn [app strip_defaults]. unfold ceq.
    change (Ascii.eqb "}" "=") with false. change (Ascii.eqb "}" "{") with false. change (Ascii.eqb "}" "}") with true. cbv iota.
    replace (n + 1 - 1)%Z with n by lia. now apply IHs.
Qed.
Lemma strip_dflt d : dfltext d -> forall r, strip_defaults (d ++ r) 0 false = strip_defaults r 0 false.
Proof.
  induction 1 as [|c s C1 C2 C3 _ IH|b s B _ IHs]; intros r; [reflexivity| |].
  - cbn [app strip_defaults]. unfold ceq.
    rewrite (proj2 (Ascii.eqb_neq c "{") C1), (proj2 (Ascii.eqb_neq c "}") C2), (proj2 (Ascii.eqb_neq c ",") C3). cbn [andb app].
    destruct (Ascii.eqb c "="); now rewrite IH.
  - cbn [app strip_defaults]. unfold ceq. change (Ascii.eqb "{" "=") with false. change (Ascii.eqb "{" "{") with true. cbv iota.
    rewrite <- app_assoc. rewrite (strip_in b B) by lia. cbn [app strip_defaults]. unfold ceq.
    change (Ascii.eqb "}" "=") with false. change (Ascii.eqb "}" "{") with false. change (Ascii.eqb "}" "}") with true. cbv iota.
    replace (0 + 1 - 1)%Z with 0%Z by lia. apply IHs.
Qed.
Lemma txt_clean ts : Forall (fun t => ~ In "="%char t /\ ~ In "{"%char t /\ ~ In "}"%char t) ts ->
  Forall (fun c => c <> "="%char /\ c <> "{"%char /\ c <> "}"%char) (txt ts).
Proof.
  induction 1 as [|t ts (T1 & T2 & T3) _ IH]; [constructor|]. rewrite txt_cons. apply Forall_app. split.
  - apply Forall_forall. intros c I. repeat split; intros ->; auto.
  - constructor; [repeat split; discriminate|exact IH].
Qed.
Lemma strip_par p : par_ok p -> forall r, (r = [] \/ exists r', r = ","%char :: r') -> strip_defaults (txt (par_toks p) ++ r) 0 true = txt (fst p) ++ strip_defaults r 0 true.
Proof.
  intros (_ & C & D) r R. unfold par_toks. destruct p as (ts & d). cbn [fst snd] in *. rewrite txt_app, <- app_assoc.
  rewrite strip_app by now apply txt_clean. f_equal. destruct d as [d|]; [|reflexivity].
  rewrite txt_cons. cbn [bs list_ascii_of_string app strip_defaults].
  change (ceq "=" "=") with true. cbv iota. change (ceq " " "=") with false. change (ceq " " "{") with false. change (ceq " " "}") with false. change (ceq " " ",") with false.
  cbv iota. cbn [andb app]. rewrite strip_dflt by exact D. destruct R as [->|(r' & ->)]; reflexivity.
Qed.
Lemma strip_pars ps : Forall par_ok ps -> strip_defaults (txt (pars_toks ps)) 0 true = txt (bare_toks ps).
Proof.
  unfold pars_toks, bare_toks. induction 1 as [|p ps P F IH]; [reflexivity|]. cbn [map commas].
  destruct ps as [|q ps].
  - cbn [map]. rewrite <- (app_nil_r (txt (par_toks p))), strip_par by auto. cbn. now rewrite app_nil_r.
  - cbn [map] in *. rewrite !txt_app, !txt_cons. rewrite strip_par by (try exact P; right; eexists; reflexivity). f_equal.
    rewrite !app_assoc. rewrite strip_app by (repeat constructor; discriminate). now rewrite IH.
Qed.

(** ** Arguments *)
Lemma commas_cons x l : commas (x :: l) = x ++ match l with [] => [] | _ => bs "," :: commas l end.
Proof. destruct l; cbn [commas]; [now rewrite app_nil_r|reflexivity]. Qed.
Lemma first_par ps t R : Forall par_ok ps -> pars_toks ps = t :: R ->
  exists R', bare_toks ps = t :: R' /\ strip_defaults (txt R) 0 true = txt R'
  /\ Forall (fun c => c <> "="%char /\ c <> "{"%char /\ c <> "}"%char) t
  /\ (hd [] R = bs "::" -> hd [] R' = bs "::").
Proof.
  intros F E. assert (SP := strip_pars ps F). destruct F as [|p ps P F]; [discriminate|].
  destruct P as (P1 & P2 & _). destruct p as (ts & d). cbn [fst snd] in *. destruct ts as [|u ts]; [contradiction|].
  unfold pars_toks in E. cbn [map] in E. rewrite commas_cons in E. unfold par_toks at 1 in E. cbn [fst snd app] in E.
  assert (u = t) by congruence. subst u. inversion P2 as [|? ? (T1 & T2 & T3) P3]; subst.
  assert (CL : Forall (fun c => c <> "="%char /\ c <> "{"%char /\ c <> "}"%char) t).
  { apply Forall_forall. intros c I. repeat split; intros ->; auto. }
  unfold bare_toks in *. cbn [map fst] in *. rewrite commas_cons in *. cbn [app] in *. eexists. split; [reflexivity|].
  split; [|split; [exact CL|]].
  - unfold pars_toks in SP. cbn [map] in SP. rewrite commas_cons in SP. unfold par_toks at 1 in SP. cbn [fst snd app] in SP. rewrite E in SP.
    rewrite !txt_cons in SP. rewrite app_assoc in SP. rewrite strip_app in SP. 2: { apply Forall_app. split; [exact CL|]. repeat constructor; discriminate. }
    rewrite <- app_assoc in SP. now apply app_inv_head, app_inv_head in SP.
  - assert (ER := f_equal (@tl _) E). cbn [tl] in ER. intros H. rewrite <- ER in H. destruct ts as [|v ts].
    + cbn [app] in *. destruct d as [d|]; cbn [app hd] in H; [vm_compute in H; discriminate|].
      destruct ps; cbn [map app hd] in H; vm_compute in H; discriminate.
    + cbn [app hd] in *. exact H.
Qed.
Lemma idt_paren t : idt t = true -> t <> bs "(" /\ t <> bs ")" /\ t <> bs "*".
Proof. intros H. repeat split; intros ->; discriminate. Qed.
Lemma txt_nil ts : txt ts = [] -> ts = [].
Proof. destruct ts as [|t ts]; [reflexivity|]. rewrite txt_cons. destruct t; discriminate. Qed.
Lemma gobb_exact g t2 t1 t b m : t <> bs "()" -> balanced (bs "(") (bs ")") b ->
  exists x y, gobb "(" ")" g (Inp t2 t1 t (b ++ bs ")" :: m)) = COk (t1 ++ bs " " ++ t ++ bs " " ++ txt b) g (Inp x y (bs ")") m).
Proof.
  intros T B. assert (LR : bs "(" <> bs ")") by (intros K; vm_compute in K; discriminate).
  assert (ND : nodbl (bs "(") b) by (intros K; vm_compute in K; discriminate).
  destruct (C53_stops "(" ")" (Inp t2 t1 t (b ++ bs ")" :: m)) b m LR T (balanced_bal _ _ _ B) ND eq_refl) as (G & G1 & G2).
  destruct (after _ _) as [a c d e]. cbn [more tk tk1] in *. subst d e. unfold gobb, lift. rewrite G. eauto.
Qed.
Lemma paren_free c : first_in "(" c = false -> c <> bs "(" /\ c <> bs "()".
Proof. intros H. split; intros ->; discriminate. Qed.
Lemma balanced_inv l r t ts : balanced l r (t :: ts) -> t <> l -> t <> r /\ balanced l r ts.
Proof. intros H N. inversion H; subst; auto. congruence. Qed.
Lemma fn_args_exact g p n ps m : Forall par_ok ps -> starts_ok (pars_toks ps) -> balanced (bs "(") (bs ")") (pars_toks ps) ->
  exists al x y, fn_args n g (Inp p n (bs "(") (pars_toks ps ++ bs ")" :: m)) = COk (n, al) g (Inp x y (bs ")") m)
    /\ spells (bare_toks ps) (strip_defaults al 0 true).
Proof.
  intros F SO B. destruct (pars_toks ps) as [|t R] eqn:E; [destruct SO|].
  destruct (first_par ps t R F E) as (R' & BE & SR & CL & HC). destruct SO as (IT & SO). rewrite ident_idt in IT.
  destruct (idt_paren t IT) as (T1 & T2 & T3).
  destruct (balanced_inv _ _ _ _ B T1) as (_ & B1). rewrite BE.
  unfold fn_args. unfold cbind at 1, get at 1. cbn [tk]. change (teq (bs "(") "()") with false. cbv iota.
  cbn [app]. unfold cbind at 1. unfold nxt at 1, lift at 1, next at 1. cbn [more tk1 tk].
  unfold cbind at 1. unfold get at 1. cbn [tk]. rewrite IT.
  destruct R as [|c R].
  - cbn [app]. unfold cbind at 1 2. unfold nxt at 1, lift at 1, next at 1. cbn [more tk1 tk].
    unfold cbind at 1. unfold get at 1. cbn [tk]. change (teq (bs ")") "::") with false. unfold cret at 1. cbv iota.
    unfold cbind at 1, get at 1. cbn [tk tk1]. change (teq (bs ")") "*") with false. cbn [andb]. change (teq (bs ")") ")") with true. cbn [negb].
    unfold cret. cbn [app]. eexists _, _, _. split; [reflexivity|].
    assert (R' = []) by (apply txt_nil; rewrite <- SR; reflexivity). subst R'.
    cbn [tk1]. replace (strip_defaults t 0 true) with t by (rewrite <- (app_nil_r t) at 2; rewrite strip_app by exact CL; cbn [strip_defaults]; now rewrite app_nil_r).
    apply (sp_tok [] [] t sp_nil). auto.
  - destruct SO as (C1 & SO). destruct (paren_free c C1) as (C2 & C3). destruct (balanced_inv _ _ _ _ B1 C2) as (C4 & B2).
    cbn [app]. unfold cbind at 1 2. unfold nxt at 1, lift at 1, next at 1. cbn [more tk1 tk].
    unfold cbind at 1. unfold get at 1. cbn [tk].
    destruct (teq c "::") eqn:CC.
    + apply beq_eq in CC. subst c. destruct (SO eq_refl) as (d & a' & -> & D1 & D2).
      assert (D3 : d <> bs "(") by (intros ->; discriminate). assert (D4 : d <> bs "()") by (intros ->; discriminate).
      assert (D5 : d <> bs ")") by (intros ->; discriminate).
      destruct (balanced_inv _ _ _ _ B2 D3) as (_ & B3).
      cbn [app]. unfold cbind at 1. unfold nxt at 1, lift at 1, next at 1. cbn [more tk1 tk]. unfold cret at 1.
      unfold cbind at 1, get at 1. cbn [tk tk1]. 
      replace (teq d "*") with false by (symmetry; unfold teq; destruct (beqP d (bs "*")); congruence). cbn [andb].
      replace (teq d ")") with false by (symmetry; unfold teq; destruct (beqP d (bs ")")); congruence). cbn [negb].
      destruct (gobb_exact g t (bs "::") d a' m D4 B3) as (x & y & G). unfold cbind. rewrite G. unfold cret.
      eexists _, _, _. split; [reflexivity|].
      assert (ET : bs "::" ++ bs " " ++ d ++ bs " " ++ txt a' = txt (bs "::" :: d :: a')) by (now rewrite !txt_cons).
      rewrite ET, strip_app by exact CL. rewrite SR. specialize (HC eq_refl).
      destruct R' as [|c R']; [cbn [hd] in HC; vm_compute in HC; discriminate|]. cbn [hd] in HC. subst c.
      rewrite txt_cons. change (t :: bs "::" :: R') with ([t; bs "::"] ++ R'). rewrite !app_assoc.
      apply spells_txt; [|right; eauto]. apply sp_blank. change [t; bs "::"] with ([t] ++ [bs "::"]).
      apply sp_tok; [|auto]. apply (sp_tok [] [] t sp_nil). auto.
    + unfold cret at 1. unfold cbind at 1, get at 1. cbn [tk tk1].
      replace (teq t "(") with false by (symmetry; unfold teq; destruct (beqP t (bs "(")); congruence).
      replace (teq t "::") with false by (symmetry; unfold teq; destruct (beqP t (bs "::")) as [->|]; [discriminate|reflexivity]).
      cbn [orb]. rewrite Bool.andb_false_r.
      replace (teq c ")") with false by (symmetry; unfold teq; destruct (beqP c (bs ")")); congruence). cbn [negb].
      destruct (gobb_exact g (bs "(") t c R m C3 B2) as (x & y & G). unfold cbind. rewrite G. unfold cret. cbn [app].
      eexists _, _, _. split; [reflexivity|].
      assert (ET : t ++ bs " " ++ c ++ bs " " ++ txt R = txt (t :: c :: R)) by (now rewrite !txt_cons).
      change (t ++ " "%char :: c ++ " "%char :: txt R) with (t ++ bs " " ++ c ++ bs " " ++ txt R).
      rewrite ET, <- E, strip_pars by exact F. rewrite BE. apply (spells_txt (t :: R') [] [] sp_nil). now left.
Qed.
Lemma fn_tail_exact quals : Forall (fun t => first_in ";{" t = false) quals -> forall f c d t2 t1 t x m,
  strchr ";{" (first t) = false -> x = bs ";" \/ x = bs "{" -> (length quals + 1 < f)%nat ->
  exists a b, fn_tail f c d (Inp t2 t1 t (quals ++ x :: m))
    = POk (c || existsb (fun t => is t "const") quals, d || existsb (fun t => is t "delete") quals)%bool (Inp a b x m).
Proof.
  induction 1 as [|q quals Q _ IH]; intros f c d t2 t1 t x m T X F; (destruct f as [|f]; [lia|]).
  - cbn [app fn_tail tk]. rewrite T. unfold next. cbn [more pbind tk1 tk]. destruct f as [|f]; [cbn in F; lia|].
    cbn [fn_tail tk existsb]. destruct X as [->|X]; [|subst x]; eexists _, _; rewrite !Bool.orb_false_r; reflexivity.
  - cbn [app fn_tail tk]. rewrite T. unfold next. cbn [more pbind tk1 tk].
    destruct (IH f (c || teq q "const")%bool (d || teq q "delete")%bool t1 t q x m) as (a & b & R); auto.
    { now rewrite first_strchr in Q. } { cbn in F. lia. }
    exists a, b. rewrite R. cbn [existsb]. now rewrite <- !Bool.orb_assoc.
Qed.

(** ** The return type *)
Definition nret (ret t1 : tok) : tok :=
  if (strchr ":;{}()" (first t1) && negb (teq t1 "::"))%bool then [] else if specifier t1 then ret else ret ++ bs " " ++ t1.
Lemma t_return_exact l g i : teq (tk i) "<" = false -> t_return l g i = COk (Go (w_ret (nret (l_ret l) (tk1 i)) l)) g i.
Proof.
  intros H. unfold t_return, nret, specifier. cbv [cbind get]. rewrite H.
  destruct (_ && _)%bool; [reflexivity|]. change is with teq. destruct (_ || _)%bool; [|reflexivity]. cbn [negb]. destruct l; reflexivity.
Qed.
Section Over.
  Variables (o : opts) (pc : bool -> tok -> tok -> C (list act)) (prefix targs : tok) (ua : list tok).
  Definition runsg (g : glob) (l : loc) (i : inp) (g' : glob) (l' : loc) (i' : inp) : Prop :=
    forall f, (len_i i < f)%nat -> exists f', (len_i i' < f')%nat /\
      members o pc prefix targs f l g i = members o pc prefix targs f' l' g' i'.
  Lemma runsg_trans g l i g' l' i' g'' l'' i'' : runsg g l i g' l' i' -> runsg g' l' i' g'' l'' i'' -> runsg g l i g'' l'' i''.
  Proof. intros A B f F. destruct (A f F) as (f' & F' & E). destruct (B f' F') as (f'' & F'' & E'). exists f''. split; congruence. Qed.
  Lemma runsg_turn g g' l t2 t1 t0 t m x i' : teq t "}" = false -> (len_i i' <= length m)%nat ->
    turn o pc prefix targs l g (Inp t1 t0 t m) = COk x g' i' -> runsg g l (Inp t2 t1 t0 (t :: m)) g' (loc_of x) i'.
  Proof.
    intros T L H f F. destruct f as [|f]; [lia|]. exists f. unfold len_i in F. cbn in F. split; [lia|].
    cbn [members]. unfold cbind, nxt, lift, next, get. cbn [more tk1 tk]. rewrite T. now rewrite H.
  Qed.
  Notation LL := (LL false ua).

  Ltac inl := cbn; repeat (first [left; reflexivity | right]); fail.
  Ltac early_plain P := rewrite early; [|intros s S; apply (pf_special _ P); cbn in S |- *; intuition|cbn [tk]; rewrite (pf_brace _ P); apply Bool.andb_false_r].
  Lemma word_turn_x g acts pr st co rp num ret t1 t0 t m : plain t = true ->
    turn o pc prefix targs (LL acts pr st co rp num ret) g (Inp t1 t0 t m) = COk (Go (LL acts pr st co rp num (nret ret t0))) g (Inp t1 t0 t m).
  Proof.
    intros H. apply plain_facts_of in H. rename H into P. unfold turn, stages. early_plain P. cbn [run_stages].
    set (l := LL _ _ _ _ _ _ _). set (i := Inp _ _ _ _).
    rewrite (fbind_go _ _ l g i g i) by (apply t_scalar_id; apply (pf_scalar _ P)).
    rewrite (fbind_go _ _ l g i g i) by (apply t_operator_id; apply (pf_special _ P); inl).
    rewrite (fbind_go _ _ l g i g i).
    2: { rewrite t_flags_id by (apply (pf_special _ P); inl). cbn [tk i].
         rewrite !(pf_special _ P) by inl. reflexivity. }
    rewrite (fbind_go _ _ l g i g i) by (apply t_function_id; apply (pf_paren _ P)).
    rewrite (fbind_go _ _ l g i g i) by (apply t_array_id; apply (pf_special _ P); inl).
    rewrite (fbind_go _ _ l g i g i) by (apply t_brace_id; apply (pf_brace _ P)).
    assert (R := t_return_exact l g i). rewrite (fbind_go _ _ _ g i g i (R ltac:(apply (pf_special _ P); inl))). reflexivity.
  Qed.
  Lemma fixed_turn_x g t acts pr st co rp num ret t1 t0 m : In t ["static"; "const"]%string ->
    turn o pc prefix targs (LL acts pr st co rp num ret) g (Inp t1 t0 (bs t) m)
    = COk (Go (LL acts pr (st || String.eqb t "static") (co || String.eqb t "const") rp num (nret ret t0))) g (Inp t1 t0 (bs t) m).
  Proof.
    intros H. unfold turn, stages.
    rewrite early; [|intros s S; cbn in S, H; intuition; subst; reflexivity|cbn [tk]; cbn in H; intuition; subst; apply Bool.andb_false_r].
    cbn [run_stages]. set (l := LL _ _ _ _ _ _ _). set (i := Inp _ _ _ _).
    assert (K : forall s, In s ["operator"; "alignas"; "friend"; "["; "{"; "<"]%string -> teq (tk i) s = false).
    { intros s S. cbn in H, S. intuition; subst; reflexivity. }
    rewrite (fbind_go _ _ l g i g i) by (apply t_scalar_id; cbn in H; intuition; subst t; reflexivity).
    rewrite (fbind_go _ _ l g i g i) by (apply t_operator_id; apply K; inl).
    set (l' := LL acts pr (st || String.eqb t "static") (co || String.eqb t "const") rp num ret).
    rewrite (fbind_go _ _ l' g i g i).
    2: { rewrite t_flags_id by (apply K; inl). cbn in H. destruct H as [<-|[<-|[]]]; unfold l, l', ClassMem_Proofs.LL; cbn [tk i];
         change (String.eqb "static" "static") with true; change (String.eqb "static" "const") with false;
         change (String.eqb "const" "static") with false; change (String.eqb "const" "const") with true;
         cbv [teq]; rewrite ?Bool.orb_true_r, ?Bool.orb_false_r; reflexivity. }
    rewrite (fbind_go _ _ l' g i g i) by (apply t_function_id; cbn in H; intuition; subst t; reflexivity).
    rewrite (fbind_go _ _ l' g i g i) by (apply t_array_id; apply K; inl).
    rewrite (fbind_go _ _ l' g i g i) by (apply t_brace_id; apply K; inl).
    assert (R := t_return_exact l' g i). rewrite (fbind_go _ _ _ g i g i (R ltac:(apply K; inl))). reflexivity.
  Qed.
  Lemma angle_turn_x g ts acts pr st co rp num ret t1 t0 m : balanced (bs "<") (bs ">") ts -> ~ In (bs ">>") ts -> exists t2' t1',
    turn o pc prefix targs (LL acts pr st co rp num ret) g (Inp t1 t0 (bs "<") (ts ++ bs ">" :: m))
    = COk (Go (LL acts pr st co rp num (ret ++ bs " " ++ t0 ++ bs " " ++ txt (bs "<" :: ts)))) g (Inp t2' t1' (bs ">") m).
  Proof.
    intros B N. unfold turn, stages.
    rewrite early; [|intros s S; cbn in S; intuition; subst; reflexivity|apply Bool.andb_false_r].
    cbn [run_stages]. set (l := LL _ _ _ _ _ _ _). set (i := Inp _ _ _ _).
    rewrite (fbind_go _ _ l g i g i) by (apply t_scalar_id; reflexivity).
    rewrite (fbind_go _ _ l g i g i) by (apply t_operator_id; reflexivity).
    rewrite (fbind_go _ _ l g i g i) by (rewrite t_flags_id by reflexivity; reflexivity).
    rewrite (fbind_go _ _ l g i g i) by (apply t_function_id; reflexivity).
    rewrite (fbind_go _ _ l g i g i) by (apply t_array_id; reflexivity).
    rewrite (fbind_go _ _ l g i g i) by (apply t_brace_id; reflexivity).
    assert (LR : bs "<" <> bs ">") by (intros K; vm_compute in K; discriminate).
    assert (TK : tk i <> bs "<" ++ bs ">") by (intros K; vm_compute in K; discriminate).
    destruct (C53_stops "<" ">" i ts m LR TK (balanced_bal _ _ _ B) (fun _ => N) eq_refl) as (G & G1 & G2).
    destruct (after (S (length ts)) i) as [a b c d]. cbn [more tk] in G1, G2. subst c d.
    eexists a, b. unfold fbind at 1. unfold t_return, gobb, lift. unfold cbind, get. change (teq (tk i) "<") with true. cbv beta iota.
    rewrite G. cbn [tk tk1 i]. rewrite txt_cons. reflexivity.
  Qed.
  (** [q]: the last token is a word of the type *)
  Definition pending (q : bool) (t0 : tok) : Prop := q = true -> (strchr ":;{}()" (first t0) && negb (teq t0 "::"))%bool = false /\ specifier t0 = false.
  Lemma elems_x g es : Forall elem_ok es -> Forall ret_word es -> forall q done acts pr st co rp num ret t2 t1 t0 m,
    shaped q es -> pending q t0 -> spells done (nret ret t0) -> exists r t2' t1',
    runsg g (LL acts pr st co rp num ret) (Inp t2 t1 t0 (etoks es ++ m))
         g (LL acts pr (st || has_static es) (co || has_const es) rp num r) (Inp t2' t1' (last (etoks es) t0) m)
    /\ spells (done ++ rtoks es) (nret r (last (etoks es) t0)).
  Proof.
    induction 1 as [|e es E ES IH]; intros RW q done acts pr st co rp num ret t2 t1 t0 m SH PE SP.
    { exists ret, t2, t1. cbn. rewrite !Bool.orb_false_r, app_nil_r. split; [|exact SP]. intros f F. eauto. }
    inversion RW as [|? ? RW1 RW2]; subst.
    assert (S1 : exists q' r t2' t1', runsg g (LL acts pr st co rp num ret) (Inp t2 t1 t0 (etoks1 e ++ (etoks es ++ m)))
      g (LL acts pr (st || match e with EStatic => true | _ => false end) (co || match e with EConst => true | _ => false end) rp num r)
      (Inp t2' t1' (last (etoks1 e) t0) (etoks es ++ m)) /\ shaped q' es /\ pending q' (last (etoks1 e) t0)
      /\ spells (done ++ rtoks1 e) (nret r (last (etoks1 e) t0))).
    { destruct e as [t| | |ts]; cbn [etoks1 rtoks1 app last elem_ok shaped ret_word] in *.
      - assert (R := word_turn_x g acts pr st co rp num ret t1 t0 t (etoks es ++ m) E). exists (negb (specifier t)), (nret ret t0), t1, t0.
        rewrite !Bool.orb_false_r. split; [apply (runsg_turn _ _ _ _ _ _ _ _ (Go _)) with (3 := R); [|cbn; lia]|].
        { apply plain_facts_of in E. apply (pf_special _ E). inl. }
        split; [exact SH|].
        assert (CL : (strchr ":;{}()" (first t) && negb (teq t "::"))%bool = false).
        { unfold plain in E. apply Bool.andb_true_iff in E. destruct E as (_ & E). apply Bool.orb_true_iff in E. destruct E as [E|E].
          - apply Bool.negb_true_iff in E. rewrite first_strchr in E, RW1. unfold strchr, Tok_Model.mem in *.
            revert E RW1. cbn [list_ascii_of_string existsb].
            repeat match goal with |- context [ceq (first t) ?c] => destruct (ceq (first t) c) end; cbn; congruence.
          - apply beq_eq in E. subst t. reflexivity. }
        split; [intros Q; split; [exact CL|now apply Bool.negb_true_iff in Q]|].
        unfold nret at 1. rewrite CL. destruct (specifier t); [now rewrite app_nil_r|]. now apply spells_word.
      - assert (R := fixed_turn_x g "static" acts pr st co rp num ret t1 t0 (etoks es ++ m) ltac:(inl)). exists false, (nret ret t0), t1, t0.
        split; [apply (runsg_turn _ _ _ _ _ _ _ _ (Go _)) with (3 := R); [reflexivity|cbn; lia]|].
        split; [exact SH|]. split; [intros Q; discriminate|]. rewrite app_nil_r. exact SP.
      - assert (R := fixed_turn_x g "const" acts pr st co rp num ret t1 t0 (etoks es ++ m) ltac:(inl)). exists false, (nret ret t0), t1, t0.
        split; [apply (runsg_turn _ _ _ _ _ _ _ _ (Go _)) with (3 := R); [reflexivity|cbn; lia]|].
        split; [exact SH|]. split; [intros Q; discriminate|]. apply (spells_word _ _ (bs "const")). exact SP.
      - destruct E as (B & N). destruct SH as (-> & SH). destruct (PE eq_refl) as (PE1 & PE2).
        destruct (angle_turn_x g ts acts pr st co rp num ret t1 t0 (etoks es ++ m) B N) as (a & b & R). eexists false, _, a, b.
        rewrite !Bool.orb_false_r. rewrite <- app_assoc. cbn [app].
        replace (match ts ++ [bs ">"] with [] => bs "<" | _ :: _ => last (ts ++ [bs ">"]) t0 end) with (bs ">").
        2: { rewrite last_last. destruct ts; reflexivity. }
        split; [apply (runsg_turn _ _ _ _ _ _ _ _ (Go _)) with (3 := R); [reflexivity|]; unfold len_i; cbn [more]; rewrite !app_length; cbn [length]; rewrite app_length; lia|].
        split; [exact SH|]. split; [intros Q; discriminate|].
        unfold nret at 1 in SP. rewrite PE1, PE2 in SP. unfold nret at 1. change (_ && _)%bool with false. change (specifier (bs ">")) with false. cbv iota.
        replace (done ++ bs "<" :: ts ++ [bs ">"]) with ((done ++ bs "<" :: ts) ++ [bs ">"]) by (rewrite <- app_assoc; reflexivity).
        apply spells_word. rewrite !app_assoc. apply spells_txt; [|right; eauto]. apply sp_blank. rewrite <- app_assoc. exact SP. }
    destruct S1 as (q' & r & a & b & S1 & SH' & PE' & SP').
    destruct (IH RW2 q' _ acts pr (st || match e with EStatic => true | _ => false end)%bool
      (co || match e with EConst => true | _ => false end)%bool rp num r a b (last (etoks1 e) t0) m SH' PE' SP') as (r' & a' & b' & S2 & SP2).
    assert (LA : last (etoks (e :: es)) t0 = last (etoks es) (last (etoks1 e) t0)) by apply (last_cat (etoks1 e) (etoks es)).
    exists r', a', b'. rewrite LA. split.
    - unfold etoks at 1. cbn [map concat]. fold (etoks es). rewrite <- app_assoc.
      eapply runsg_trans; [exact S1|]. revert S2. unfold has_static, has_const. cbn [existsb]. rewrite !Bool.orb_assoc. auto.
    - unfold rtoks. cbn [map concat]. fold (rtoks es). rewrite app_assoc. exact SP2.
  Qed.

  Lemma is_in (t : string) ts : existsb (fun u => is u t) ts = true <-> In (bs t) ts.
  Proof.
    rewrite existsb_exists. split.
    - intros (u & U & E). apply beq_eq in E. now subst.
    - intros H. exists (bs t). split; [exact H|apply beq_refl].
  Qed.
  Lemma static_in es : has_static es = true <-> In EStatic es.
  Proof.
    unfold has_static. rewrite existsb_exists. split.
    - intros (e & I & E). destruct e; try discriminate. exact I.
    - intros H. exists EStatic. auto.
  Qed.
  Hypothesis OV : overloading o = true.
  Hypothesis NL : has_lt prefix = false.
  Notation cls := (class_part prefix).
  Definition ftoks (f : fdecl) : list tok := match f_pars f with None => [bs "()"] | Some ps => bs "(" :: pars_toks ps ++ [bs ")"] end.
  (** what one function adds *)
  Definition added (n : nat) (rp : bool) (f : fdecl) (s : option msig) : Prop :=
    match s with
    | None => rp = true \/ ~ described f
    | Some s => rp = false /\ described f /\ sig_for prefix cls n f s
    end.
  Definition more_acts (f : fdecl) (s : option msig) : list act := match s with None => [] | Some s => [to_act (call_for f s)] end.
  Definition more_over (s : option msig) (g : glob) : glob := match s with None => g | Some s => add_over (prefix, s) g end.
  Definition funs_num (b : list tok) : list tok := map (app (bs ".")) b.
  Lemma countb_names n b : countb (bs "." ++ n) (funs_num b ++ [bs "." ++ n]) = S (count_occ (list_eq_dec ascii_dec) b n).
  Proof.
    unfold countb, funs_num. rewrite filter_app. cbn [filter]. rewrite beq_refl, app_length. cbn [length]. rewrite Nat.add_comm. cbn [Nat.add]. f_equal.
    induction b as [|x b IH]; [reflexivity|]. cbn [map filter count_occ].
    destruct (list_eq_dec ascii_dec x n) as [->|N]; [rewrite beq_refl; cbn [length]; now rewrite IH|].
    destruct (beqP (bs "." ++ n) (bs "." ++ x)) as [Q|Q]; [apply app_inv_head in Q; congruence|exact IH].
  Qed.
  Lemma function_stage_x g acts pr co rp b ret p f x m u us :
    fdecl_ok f -> spells (rtoks (f_type f)) ret -> (teq p "~" = true <-> last (etoks (f_type f)) [] = bs "~") ->
    x = bs ";" \/ x = bs "{" -> (has_static (f_type f) && co)%bool = false -> ftoks f ++ f_quals f ++ x :: m = u :: us ->
    exists r y z s, t_function o prefix (LL acts pr (has_static (f_type f)) co rp (funs_num b) ret) g (Inp p (f_name f) u us)
      = COk (Go (LL (acts ++ more_acts f s) pr false false rp (funs_num (b ++ [f_name f])) r)) (more_over s g) (Inp y z x m)
      /\ added (S (count_occ (list_eq_dec ascii_dec) b (f_name f))) rp f s.
  Proof.
    intros (EO & RO & SH & NO & SCO & AO & QO & BO) SP DE X SC E. destruct f as [ty n ps quals bd]. cbn [f_type f_name f_pars f_quals f_body] in *.
    unfold name_ok in NO. apply Bool.andb_true_iff in NO. destruct NO as (NO1 & _). apply Bool.andb_true_iff in NO1. destruct NO1 as (_ & NI). rewrite ident_idt in NI.
    assert (U : u = bs "(" \/ u = bs "()").
    { unfold ftoks in E. cbn [f_pars] in E. destruct ps; cbn [app] in E; [left|right]; congruence. }
    unfold t_function. unfold cbind at 1. unfold get at 1. cbn [tk tk1 tk2].
    replace (ceq (first u) "(") with true by (destruct U; subst u; reflexivity). cbv iota zeta.
    assert (A : exists al j2 j1 j, fn_args n g (Inp p n u us) = COk (n, al) g (Inp j2 j1 j (quals ++ x :: m))
              /\ spells (match ps with None => [] | Some ps => bare_toks ps end) (strip_defaults al 0 true) /\ strchr ";{" (first j) = false).
    { unfold ftoks in E. cbn [f_pars] in E. destruct ps as [ps|]; cbn [app] in E.
      - destruct AO as (A1 & A2 & A3). rewrite <- app_assoc in E. cbn [app] in E.
        assert (u = bs "(") by congruence. assert (us = pars_toks ps ++ bs ")" :: quals ++ x :: m) by congruence. subst u us.
        destruct (fn_args_exact g p n ps (quals ++ x :: m) A1 A2 A3) as (al & y & z & R & S2). exists al, y, z, (bs ")"). auto.
      - assert (u = bs "()") by congruence. assert (us = quals ++ x :: m) by congruence. subst u us.
        exists [], p, n, (bs "()"). repeat split. apply sp_nil. }
    destruct A as (al & j2 & j1 & j & A & SA & JT). unfold cbind at 1. rewrite A. cbv beta iota.
    destruct (fn_tail_exact quals QO (pbound (Inp j2 j1 j (quals ++ x :: m))) false false j2 j1 j x m JT X) as (y & z & T).
    { unfold pbound. cbn [more]. rewrite !app_length. cbn [length]. clear. lia. }
    unfold cbind at 1. unfold lift at 1. rewrite T. cbv beta iota. cbn [orb].
    set (del := existsb (fun t => is t "delete") quals) in *. set (isc := existsb (fun t => is t "const") quals) in *.
    rewrite NI. cbv zeta. rewrite OV, NL.
    set (l0 := w_num (l_num (LL acts pr (has_static ty) co rp (funs_num b) ret) ++ [bs "." ++ n]) (LL acts pr (has_static ty) co rp (funs_num b) ret)).
    change (r_static l0) with (has_static ty). change (l_templ l0) with false. change (r_priv l0) with rp. change (l_ret l0) with ret.
    change (l_num l0) with (funs_num b ++ [bs "." ++ n]). rewrite countb_names. set (k := S _).
    rewrite Bool.orb_true_r. cbn [negb andb]. rewrite Bool.andb_true_r.
    match goal with |- context [if ?c then _ else _] => replace c with (negb (teq p "~" || del || teq n "CLASSDESC_ACCESS" || teq n "CLASSDESC_ACCESS_TEMPLATE")%bool) end.
    2: { destruct (teq p "~"), del, (teq n "CLASSDESC_ACCESS"), (teq n "CLASSDESC_ACCESS_TEMPLATE"); reflexivity. }
    assert (NUM : funs_num b ++ [bs "." ++ n] = funs_num (b ++ [n])) by (unfold funs_num; now rewrite map_app).
    destruct (teq p "~" || del || teq n "CLASSDESC_ACCESS" || teq n "CLASSDESC_ACCESS_TEMPLATE")%bool eqn:Q.
    - exists ret, y, z, None. unfold cbind, cret, l0. cbn [negb more_acts more_over]. rewrite app_nil_r. split; [|].
      + unfold ClassMem_Proofs.LL. cbn [w_num w_templ w_const w_static l_num]. rewrite NUM. reflexivity.
      + right. unfold described. cbn [f_type f_name f_quals]. intros (D1 & D2 & D3 & D4).
        apply Bool.orb_true_iff in Q. destruct Q as [Q|Q]; [|apply beq_eq in Q; auto].
        apply Bool.orb_true_iff in Q. destruct Q as [Q|Q]; [|apply beq_eq in Q; auto].
        apply Bool.orb_true_iff in Q. destruct Q as [Q|Q]; [apply D1; now apply DE|apply D2; now apply is_in].
    - cbn [negb].
      apply Bool.orb_false_iff in Q. destruct Q as (Q & Q4). apply Bool.orb_false_iff in Q. destruct Q as (Q & Q3). apply Bool.orb_false_iff in Q. destruct Q as (Q1 & Q2).
      rewrite Q1. cbn [negb]. rewrite Bool.andb_true_r.
      assert (DS : described (FDecl ty n ps quals bd)).
      { unfold described. cbn [f_type f_name f_quals]. repeat split.
        - rewrite <- DE, Q1. discriminate.
        - rewrite <- is_in. fold del. rewrite Q2. discriminate.
        - intros ->. discriminate.
        - intros ->. discriminate. }
      set (ty' := if beq n cls then TCtor else if has_static ty then TStatic else if isc then TConst else TNone).
      set (s := Sig (bs "TmpMemPtr_" ++ n ++ dec (N.of_nat k)) ret (strip_defaults al 0 true) prefix n ty').
      assert (KI : kind cls (FDecl ty n ps quals bd) ty').
      { unfold ty', kind. cbn [f_name f_type f_quals]. destruct (beqP n cls) as [N|N]; [exact N|].
        destruct (has_static ty) eqn:HS; [split; [exact N|now apply static_in]|].
        assert (NS : ~ In EStatic ty) by (rewrite <- static_in, HS; discriminate).
        destruct isc eqn:IC; (split; [exact N|split; [exact NS|]]); [now apply is_in|]. rewrite <- is_in. fold isc. rewrite IC. discriminate. }
      assert (SF : sig_for prefix cls k (FDecl ty n ps quals bd) s).
      { unfold sig_for. cbn [s_decl s_prefix s_name s_ty s_ret s_args f_name f_pars f_type s]. auto 10. }
      unfold when, cbind, cret, upd. cbn [andb].
      destruct rp.
      + eexists _, _, _, None. cbn [negb more_acts more_over]. rewrite app_nil_r. split; [|now left].
        unfold l0, ClassMem_Proofs.LL, register_class. cbn [w_ret w_num w_templ w_const w_static r_static r_const r_priv l_acts l_num]. rewrite NUM. reflexivity.
      + eexists _, _, _, (Some s). split; [|cbn; auto]. cbn [negb more_acts more_over].
        unfold l0, ClassMem_Proofs.LL, register_class.
        cbn [w_ret w_num w_templ w_const w_static r_static r_const r_priv l_acts l_num]. rewrite NUM, SC. unfold to_act, call_for. cbn [c_name c_arg c_member c_static s_ty s_decl s f_name f_type].
        fold ty'.
        assert (CT : (if match ty' with TCtor => true | _ => false end then bs "classdesc::is_constructor()," else []) = match ty' with TCtor => bs "classdesc::is_constructor()," | _ => [] end)
          by (destruct ty'; reflexivity).
        rewrite CT. destruct (has_static ty); reflexivity.
  Qed.
  Lemma function_turn_x g acts pr co rp b ret p f m u us :
    fdecl_ok f -> spells (rtoks (f_type f)) ret -> (teq p "~" = true <-> last (etoks (f_type f)) [] = bs "~") ->
    (has_static (f_type f) && co)%bool = false -> ftoks f ++ f_quals f ++ fbody_toks (f_body f) ++ m = u :: us ->
    exists r y z s x, turn o pc prefix targs (LL acts pr (has_static (f_type f)) co rp (funs_num b) ret) g (Inp p (f_name f) u us)
      = COk (Go (LL (acts ++ more_acts f s) pr false false rp (funs_num (b ++ [f_name f])) r)) (more_over s g) (Inp y z x m)
      /\ added (S (count_occ (list_eq_dec ascii_dec) b (f_name f))) rp f s /\ (x = bs ";" \/ x = bs "}").
  Proof.
    intros FO SP DE SC E.
    assert (U : u = bs "(" \/ u = bs "()").
    { unfold ftoks in E. destruct (f_pars f); cbn [app] in E; [left|right]; congruence. }
    unfold turn, stages.
    rewrite early; [|intros s S; cbn [tk]; cbn in S; destruct U; subst u; intuition; subst; reflexivity
                    |cbn [tk]; destruct U; subst u; apply Bool.andb_false_r].
    cbn [run_stages]. set (l := LL acts pr (has_static (f_type f)) co rp (funs_num b) ret). set (i := Inp p (f_name f) u us).
    rewrite (fbind_go _ _ l g i g i) by (apply t_scalar_id; cbn [tk i]; destruct U; subst u; reflexivity).
    rewrite (fbind_go _ _ l g i g i) by (apply t_operator_id; cbn [tk i]; destruct U; subst u; reflexivity).
    rewrite (fbind_go _ _ l g i g i).
    2: { rewrite t_flags_id by (cbn [tk i]; destruct U; subst u; reflexivity). cbn [tk i]. destruct U; subst u; reflexivity. }
    assert (BO := FO). destruct BO as (_ & _ & _ & _ & _ & _ & _ & BO).
    destruct (f_body f) as [bd|] eqn:FB; cbn [fbody_toks] in E.
    - cbn [app] in E. rewrite <- app_assoc in E. cbn [app] in E.
      destruct (function_stage_x g acts pr co rp b ret p f (bs "{") (bd ++ bs "}" :: m) u us FO SP DE (or_intror eq_refl) SC E) as (r & y & z & s & R & AD).
      rewrite (fbind_go _ _ _ _ _ _ _ R). set (l' := LL (acts ++ _) _ _ _ _ _ _). set (g' := more_over s g).
      rewrite (fbind_go _ _ l' g' _ g' (Inp y z (bs "{") (bd ++ bs "}" :: m))) by (apply t_array_id; reflexivity).
      destruct (brace_stage g' l' bd y z m BO) as (a' & b' & B'). rewrite (fbind_go _ _ _ _ _ _ _ B').
      destruct (t_return_id l' g' (Inp a' b' (bs "}") m)) as (r' & R'); [reflexivity|].
      rewrite (fbind_go _ _ _ _ _ _ _ R'). exists r', a', b', s, (bs "}"). split; [reflexivity|auto].
    - cbn [app] in E.
      destruct (function_stage_x g acts pr co rp b ret p f (bs ";") m u us FO SP DE (or_introl eq_refl) SC E) as (r & y & z & s & R & AD).
      rewrite (fbind_go _ _ _ _ _ _ _ R). set (l' := LL (acts ++ _) _ _ _ _ _ _). set (g' := more_over s g).
      destruct (late pc prefix g' false l' (Inp y z (bs ";") m) (or_introl eq_refl)) as (r' & R'). cbn [run_stages] in R'. rewrite R'.
      exists r', y, z, s, (bs ";"). split; [reflexivity|auto].
  Qed.
  (** where a member can begin *)
  Definition bound (t : tok) : Prop := t = bs ";" \/ t = bs "}" \/ t = bs ":" \/ t = bs "{".
  Lemma fun_x g f acts pr co rp b ret t2 t1 t0 m : fdecl_ok f -> (has_static (f_type f) = true -> co = false) -> bound t0 ->
    exists r y z s x, runsg g (LL acts pr false co rp (funs_num b) ret) (Inp t2 t1 t0 (fdecl_toks f ++ m))
      (more_over s g) (LL (acts ++ more_acts f s) pr false false rp (funs_num (b ++ [f_name f])) r) (Inp y z x m)
      /\ added (S (count_occ (list_eq_dec ascii_dec) b (f_name f))) rp f s /\ bound x.
  Proof.
    intros FO LK BN. assert (FO' := FO). destruct FO' as (EO & RO & SH & NO & SC & AO & QO & BO).
    unfold fdecl_toks. fold (ftoks f). fold (fbody_toks (f_body f)). repeat (rewrite <- !app_assoc; cbn [app]).
    assert (S0 : spells [] (nret ret t0)) by (destruct BN as [ -> |[ -> |[ -> | -> ]]]; apply sp_nil).
    destruct (elems_x g (f_type f) EO RO false [] acts pr false co rp (funs_num b) ret t2 t1 t0 (f_name f :: ftoks f ++ f_quals f ++ fbody_toks (f_body f) ++ m) SH ltac:(discriminate) S0) as (r1 & a1 & b1 & R1 & S1).
    cbn [app orb] in R1, S1. set (p := last (etoks (f_type f)) t0) in *.
    pose proof NO as NO'. unfold name_ok in NO'. apply Bool.andb_true_iff in NO'. destruct NO' as (NO1 & _). apply Bool.andb_true_iff in NO1. destruct NO1 as (NP & _).
    assert (R2 := word_turn_x g acts pr (has_static (f_type f)) (co || has_const (f_type f)) rp (funs_num b) r1 b1 p (f_name f) (ftoks f ++ f_quals f ++ fbody_toks (f_body f) ++ m) NP).
    assert (P : teq p "~" = true <-> last (etoks (f_type f)) [] = bs "~").
    { unfold p, teq. destruct (etoks (f_type f)) as [|z zs] eqn:Z.
      - cbn [last]. destruct BN as [ -> |[ -> |[ -> | -> ]]]; split; intros K; vm_compute in K; discriminate.
      - rewrite (last_default (z :: zs) t0 []) by discriminate. split; [apply beq_eq|intros ->; apply beq_refl]. }
    assert (NE : exists u us, ftoks f ++ f_quals f ++ fbody_toks (f_body f) ++ m = u :: us) by (unfold ftoks; destruct (f_pars f); cbn; eauto). destruct NE as (u & us & NE).
    assert (SC' : (has_static (f_type f) && (co || has_const (f_type f)))%bool = false).
    { destruct (has_static (f_type f)); [|reflexivity]. rewrite (LK eq_refl). exact SC. }
    destruct (function_turn_x g acts pr (co || has_const (f_type f)) rp b (nret r1 p) p f m u us FO S1 P SC' NE) as (r & y & z & s & x & R & AD & X).
    exists r, y, z, s, x. split; [|split; [exact AD|destruct X; subst x; red; auto]].
    eapply runsg_trans; [exact R1|].
    eapply runsg_trans; [apply (runsg_turn _ _ _ _ _ _ _ _ (Go _)) with (3 := R2); [|cbn; lia]; apply plain_facts_of in NP; apply (pf_special _ NP); inl|].
    cbn [loc_of]. rewrite NE. apply (runsg_turn _ _ _ _ _ _ _ _ (Go _)) with (3 := R).
    - unfold ftoks in NE. destruct (f_pars f); cbn [app] in NE; hdtl NE u us; reflexivity.
    - clear - NE. assert (L := f_equal (@length _) NE). rewrite !app_length in L. cbn [length] in L. unfold len_i. cbn [more].
      assert (1 <= length (fbody_toks (f_body f)))%nat by (destruct (f_body f); cbn; lia).
      assert (1 <= length (ftoks f))%nat by (unfold ftoks; destruct (f_pars f); cbn; lia). lia.
  Qed.
  Lemma runs_g g l i l' i' : runs o pc prefix targs g l i l' i' -> runsg g l i g l' i'.
  Proof. intros H. exact H. Qed.
  Definition overs (ss : list msig) (g : glob) : glob := fold_left (fun g s => add_over (prefix, s) g) ss g.
  Lemma omems_x ms : Forall omem_ok ms -> forall g co acts pr rp b ret t2 t1 t0 m, ono_leak co ms -> bound t0 ->
    exists cs ss pr' co' rp' num r y z x,
    runsg g (LL acts pr false co rp (funs_num b) ret) (Inp t2 t1 t0 (omem_toks ms ++ m))
      (overs ss g) (LL (acts ++ map to_act cs) pr' false co' rp' num r) (Inp y z x m)
    /\ sigs (use_mbr o) (respect_private o) prefix cls rp b ms cs ss.
  Proof.
    induction 1 as [|mm ms M _ IH]; intros g co acts pr rp b ret t2 t1 t0 m NK B.
    - exists [], [], pr, co, rp, (funs_num b), ret, t2, t1, t0. cbn. rewrite !app_nil_r. split; [intros f F; eauto|constructor].
    - unfold omem_toks. cbn [map concat]. fold (omem_toks ms). rewrite <- app_assoc.
      destruct mm as [a|d ds|f].
      + cbn [omem_toks1 mtoks1 app]. cbn [ono_leak] in NK.
        assert (R : turn o pc prefix targs (LL acts pr false co rp (funs_num b) ret) g (Inp t1 t0 (acctok a) (bs ":" :: omem_toks ms ++ m))
          = COk (Cont (LL acts (match a with Public => false | _ => true end) false co (respect_private o && match a with Public => false | _ => true end) (funs_num b) ret)) g
              (Inp t0 (acctok a) (bs ":") (omem_toks ms ++ m))) by (destruct a; reflexivity).
        destruct (IH g co acts (match a with Public => false | _ => true end) (respect_private o && match a with Public => false | _ => true end)%bool b ret t0 (acctok a) (bs ":") m NK)
          as (cs & ss & pr' & co' & rp' & num & r & y & z & x & R' & SG); [red; auto|].
        exists cs, ss, pr', co', rp', num, r, y, z, x. split; [|now constructor].
        eapply runsg_trans; [|exact R']. apply (runsg_turn _ _ _ _ _ _ _ _ (Cont _)) with (3 := R); [destruct a; reflexivity|]. unfold len_i. cbn. lia.
      + cbn [omem_toks1 mtoks1]. rewrite <- !app_assoc. cbn [app]. destruct M as (D & DS & NS & SI). destruct NK as (L1 & NK).
        assert (B1 : teq t0 "&" = false) by (destruct B as [ -> |[ -> |[ -> | -> ]]]; reflexivity).
        destruct (decls_run o pc prefix targs g false ua ds DS NS d acts pr false co rp (funs_num b) ret t2 t1 t0 (omem_toks ms ++ m) D B1) as (r & y & z & R).
        match type of R with ClassMem_Proofs.runs _ _ _ _ _ _ _ (ClassMem_Proofs.LL _ _ ?acts' _ _ ?co' _ _ _) _ =>
          destruct (IH g co' acts' pr rp b r y z (bs ";") m NK) as (cs & ss & pr' & co2 & rp' & num & r' & y' & z' & x' & R' & SG) end; [red; auto|].
        eexists _, ss, pr', co2, rp', num, r', y', z', x'. split; [|apply sg_data; exact SG].
        eapply runsg_trans; [apply runs_g; exact R|]. rewrite <- app_assoc, <- map_app in R'.
        assert (Q : data_call (use_mbr o) prefix (false || has_static (d_pre d)) (co || has_const (d_pre d)) d
                    = data_call (use_mbr o) prefix (has_static (d_pre d)) (has_const (d_pre d)) d).
        { cbn [orb]. destruct (has_static (d_pre d)); [|now rewrite !((data_call_nostatic o prefix) (_ || _)), !((data_call_nostatic o prefix) (has_const _))].
          destruct (has_const (d_pre d)); [now rewrite Bool.orb_true_r|]. now rewrite (L1 eq_refl eq_refl). }
        rewrite Q in R' |- *. exact R'.
      + cbn [omem_toks1]. destruct NK as (L1 & NK).
        destruct (fun_x g f acts pr co rp b ret t2 t1 t0 (omem_toks ms ++ m) M L1 B) as (r & y & z & s & x & R & AD & X).
        destruct (IH (more_over s g) false (acts ++ more_acts f s) pr rp (b ++ [f_name f]) r y z x m NK X) as (cs & ss & pr' & co2 & rp' & num & r' & y' & z' & x' & R' & SG).
        destruct s as [s|]; cbn [more_over more_acts added] in *.
        * destruct AD as (-> & DE & SF). exists (call_for f s :: cs), (s :: ss), pr', co2, rp', num, r', y', z', x'.
          split; [|now apply sg_fun]. eapply runsg_trans; [exact R|]. cbn [map overs fold_left]. rewrite <- app_assoc in R'. exact R'.
        * exists cs, ss, pr', co2, rp', num, r', y', z', x'. split; [|now apply sg_skip]. rewrite app_nil_r in R, R'. eapply runsg_trans; [exact R|]. exact R'.
  Qed.
End Over.
Lemma oclass_run o fuel k prefix targs g bl ms rest t2 t1 t m :
  overloading o = true -> has_lt prefix = false -> Forall bspec_ok bl -> Forall omem_ok ms -> ono_leak false ms ->
  (0 < fuel)%nat -> btoks bl ++ bs "{" :: omem_toks ms ++ bs "}" :: rest = t :: m ->
  exists cs ss a b, parse_class o fuel k prefix targs g (Inp t2 t1 t m) =
    COk (concat (map (bact o k targs) bl) ++ map to_act cs) (overs prefix ss g) (Inp a b (bs "}") rest)
    /\ sigs (use_mbr o) (respect_private o) prefix (class_part prefix) (respect_private o && k) [] ms cs ss.
Proof.
  intros OV NL B M NK FU E. destruct fuel as [|fuel]; [lia|]. cbn [parse_class]. unfold cbind, lift, get, cret. unfold pbound at 1. cbn [more].
  destruct (bases_run o k targs bl B (S (length m)) t2 t1 t m _ ltac:(lia) E) as (a2 & a1 & ->).
  unfold pbound. cbn [more].
  match goal with |- context [members o ?pc prefix targs ?f ?l g ?i] =>
    destruct (omems_x o pc prefix targs [] OV NL ms M g false (concat (map (bact o k targs) bl)) k (respect_private o && k)%bool [] [] a2 a1 (bs "{") (bs "}" :: rest) NK)
      as (cs & ss & pr' & co' & rp' & num & r & y & z & x & R & SG) end.
  { red. auto. }
  exists cs, ss. 
  match goal with |- context [members o ?pc prefix targs ?f ?l g ?i] => destruct (R f) as (f' & F' & EQ); [unfold len_i; cbn [more]; lia|] end.
  unfold ClassMem_Proofs.LL, funs_num in EQ. cbn [map] in EQ. rewrite EQ. destruct f' as [|f']; [lia|].
  eexists z, x. split; [|exact SG]. cbn [members]. unfold cbind, nxt, lift, next, get, cret. cbn [more tk tk1]. change (teq (bs "}") "}") with true. cbv iota.
  unfold prune. rewrite OV. reflexivity.
Qed.
Print Assumptions oclass_run.

(** * The members of a class of the grammar of ClassParse_Spec.v *)
From Verif Require Import Base SMap Dec Desc_Model Tok_Model Parse_Model ClassParse_Model ClassParse_Spec Parse_Props ClassParse_Proofs.

Lemma balanced_bal l r ts : balanced l r ts -> bal l r ts.
Proof. induction 1; [apply bal_nil|now apply bal_tok|now apply bal_nest]. Qed.
Lemma is_teq t s : is t s = teq t s.
Proof. reflexivity. Qed.
Lemma first_strchr s t : first_in s t = strchr s (first t).
Proof.
  destruct t as [|c t]; [reflexivity|]. cbn [first_in first hd]. unfold strchr, Tok_Model.mem, ceq. reflexivity.
Qed.
Lemma ident_idt t : ident t = idt t.
Proof. destruct t; reflexivity. Qed.

Lemma strchr_sub a b c : (forall x, In x (list_ascii_of_string a) -> In x (list_ascii_of_string b)) ->
  strchr b c = false -> strchr a c = false.
Proof.
  unfold strchr, Tok_Model.mem. intros S H. apply Bool.orb_false_iff in H. destruct H as (H1 & H2). rewrite H1.
  cbn. rewrite <- Bool.not_true_iff_false in *. intros K. apply H2. apply existsb_exists in K. destruct K as (x & X & E).
  apply existsb_exists. exists x. auto.
Qed.
Ltac sub := apply strchr_sub; cbn; intuition.

Record plain_facts (t : tok) : Prop := {
  pf_special : forall s, In s special -> teq t s = false;
  pf_scalar : (strchr "{;,:=" (first t) && negb (teq t "::"))%bool = false;
  pf_paren : ceq (first t) "(" = false;
  pf_brace : teq t "{" = false }.
Lemma plain_facts_of t : plain t = true -> plain_facts t.
Proof.
  unfold plain. intros H. apply Bool.andb_true_iff in H. destruct H as (H1 & H2).
  apply Bool.negb_true_iff in H1. rewrite first_strchr in H2.
  assert (A : strchr "{;,:=(" (first t) = false \/ t = bs "::").
  { apply Bool.orb_true_iff in H2. destruct H2 as [H2|H2]; [left; now apply Bool.negb_true_iff|right; now apply beq_eq]. }
  constructor.
  - intros s S. rewrite <- Bool.not_true_iff_false in *. intros K. apply H1. apply existsb_exists. eauto.
  - destruct A as [A| ->]; [|reflexivity]. assert (strchr "{;,:=" (first t) = false) by (revert A; sub). now rewrite H.
  - destruct A as [A| ->]; [|reflexivity]. unfold strchr, Tok_Model.mem in A. cbn in A.
    repeat (apply Bool.orb_false_iff in A; destruct A as (? & A)). assumption.
  - destruct A as [A| ->]; [|reflexivity]. rewrite <- Bool.not_true_iff_false. intros K. apply beq_eq in K. subst t. discriminate.
Qed.

Lemma fbind_go m k l g i g' j : m g i = COk (Go l) g' j -> fbind m k g i = k l g' j.
Proof. intros H. unfold fbind, cbind. now rewrite H. Qed.
Lemma fbind_cont m k l g i g' j : m g i = COk (Cont l) g' j -> fbind m k g i = COk (Cont l) g' j.
Proof. intros H. unfold fbind, cbind. now rewrite H. Qed.

Lemma last_cat {A} (a b : list A) d : last (a ++ b) d = last b (last a d).
Proof.
  destruct b as [|x b _] using rev_ind; [now rewrite app_nil_r|]. now rewrite app_assoc, !last_last.
Qed.

Section Ids.
  Variables (o : opts) (pc : bool -> tok -> tok -> C (list act)) (prefix targs : tok) (l : loc) (g : glob) (i : inp).
  Ltac go := intros; cbv [cbind get]; match goal with H : _ = false |- _ => rewrite H end; reflexivity.
  Lemma t_label_id : (teq (tk i) "private" || teq (tk i) "protected" || teq (tk i) "public")%bool = false -> t_label o l g i = COk (Go l) g i.
  Proof. unfold t_label. go. Qed.
  Lemma t_typedef_id : teq (tk i) "typedef" = false -> t_typedef pc prefix l g i = COk (Go l) g i.
  Proof. unfold t_typedef. go. Qed.
  Lemma t_template_id : teq (tk i) "template" = false -> t_template l g i = COk (Go l) g i.
  Proof. unfold t_template. go. Qed.
  Lemma t_using_id : teq (tk i) "using" = false -> t_using l g i = COk (Go l) g i.
  Proof. unfold t_using. go. Qed.
  Lemma t_class_id : (teq (tk i) "class" || teq (tk i) "struct")%bool = false -> t_class pc prefix targs l g i = COk (Go l) g i.
  Proof. unfold t_class. go. Qed.
  Lemma t_enum_id : teq (tk i) "enum" = false -> t_enum o prefix l g i = COk (Go l) g i.
  Proof. unfold t_enum. go. Qed.
  Lemma t_union_id : (teq (tk1 i) "union" && teq (tk i) "{")%bool = false -> t_union l g i = COk (Go l) g i.
  Proof. unfold t_union. go. Qed.
  Lemma t_scalar_id : (strchr "{;,:=" (first (tk i)) && negb (teq (tk i) "::"))%bool = false -> t_scalar o prefix l g i = COk (Go l) g i.
  Proof. unfold t_scalar. go. Qed.
  Lemma t_operator_id : teq (tk i) "operator" = false -> t_operator l g i = COk (Go l) g i.
  Proof. unfold t_operator. go. Qed.
  Lemma t_flags_id : teq (tk i) "alignas" = false -> teq (tk i) "friend" = false ->
    t_flags l g i = COk (Go (let l := if teq (tk i) "static" then w_static true l else l in
                             if teq (tk i) "const" then w_const true l else l)) g i.
  Proof. intros A F. unfold t_flags, when. cbv [cbind get cret]. rewrite A. cbv beta iota zeta. rewrite F. reflexivity. Qed.
  Lemma t_function_id : ceq (first (tk i)) "(" = false -> t_function o prefix l g i = COk (Go l) g i.
  Proof. unfold t_function. go. Qed.
  Lemma t_array_id : teq (tk i) "[" = false -> t_array l g i = COk (Go l) g i.
  Proof. unfold t_array. go. Qed.
  Lemma t_brace_id : teq (tk i) "{" = false -> t_brace l g i = COk (Go l) g i.
  Proof. unfold t_brace, when. go. Qed.
  Lemma t_return_id : teq (tk i) "<" = false -> exists r, t_return l g i = COk (Go (w_ret r l)) g i.
  Proof.
    intros H. unfold t_return. cbv [cbind get]. rewrite H.
    destruct (_ && _)%bool; [eexists; reflexivity|]. destruct (negb _); [eexists; reflexivity|].
    exists (l_ret l). destruct l; reflexivity.
  Qed.
  (** the stages before the first that does something *)
  Lemma early : (forall s, In s ["private"; "protected"; "public"; "typedef"; "template"; "using"; "class"; "struct"; "enum"]%string -> teq (tk i) s = false) ->
    forall k, (teq (tk1 i) "union" && teq (tk i) "{")%bool = false ->
    run_stages (t_label o :: t_typedef pc prefix :: t_template :: t_using :: t_class pc prefix targs :: t_enum o prefix :: t_union :: k) l g i
    = run_stages k l g i.
  Proof.
    intros H k U. cbn [run_stages].
    assert (H' := fun s => H s). 
    rewrite (fbind_go _ _ l g i g i); [|apply t_label_id; rewrite !H; cbn; auto].
    rewrite (fbind_go _ _ l g i g i); [|apply t_typedef_id; apply H; cbn; auto].
    rewrite (fbind_go _ _ l g i g i); [|apply t_template_id; apply H; cbn; auto 20].
    rewrite (fbind_go _ _ l g i g i); [|apply t_using_id; apply H; cbn; auto 20].
    rewrite (fbind_go _ _ l g i g i); [|apply t_class_id; rewrite !H; cbn; auto 20].
    rewrite (fbind_go _ _ l g i g i); [|apply t_enum_id; apply H; cbn; auto 20].
    rewrite (fbind_go _ _ l g i g i); [|apply t_union_id; exact U]. reflexivity.
  Qed.
End Ids.

Ltac hdtl E u us := let E1 := fresh in let E2 := fresh in pose proof (f_equal (hd []) E) as E1; pose proof (f_equal (@tl _) E) as E2;
  cbn [hd tl] in E1, E2; subst u us; clear E.

Section Mem.
  Variables (o : opts) (pc : bool -> tok -> tok -> C (list act)) (prefix targs : tok) (g : glob).
  (** after the arguments of a template; the names of the using declarations *)
  Variables (tm : bool) (ua : list tok).
  (** the loop gets from one state to the other *)
  Definition runs (l : loc) (i : inp) (l' : loc) (i' : inp) : Prop :=
    forall f, (len_i i < f)%nat -> exists f', (len_i i' < f')%nat /\
      members o pc prefix targs f l g i = members o pc prefix targs f' l' g i'.
  Lemma runs_refl l i : runs l i l i.
  Proof. intros f F. eauto. Qed.
  Lemma runs_trans l i l' i' l'' i'' : runs l i l' i' -> runs l' i' l'' i'' -> runs l i l'' i''.
  Proof. intros A B f F. destruct (A f F) as (f' & F' & E). destruct (B f' F') as (f'' & F'' & E'). exists f''. split; congruence. Qed.
  (** one turn *)
  Lemma runs_turn l t2 t1 t0 t m x i' : teq t "}" = false -> (len_i i' <= length m)%nat ->
    turn o pc prefix targs l g (Inp t1 t0 t m) = COk x g i' -> runs l (Inp t2 t1 t0 (t :: m)) (loc_of x) i'.
  Proof.
    intros T L H f F. destruct f as [|f]; [lia|]. exists f. unfold len_i in F. cbn in F. split; [lia|].
    cbn [members]. unfold cbind, nxt, lift, next, get. cbn [more tk1 tk]. rewrite T. now rewrite H.
  Qed.
  Definition LL acts pr st co rp num ret := Loc acts tm pr st co rp num ua ret [].
  Definition LF acts pr st co rp num ret := Loc acts false pr st co rp num ua ret [].

  Ltac inl := cbn; repeat (first [left; reflexivity | right]); fail.
  Ltac early_plain P := rewrite early; [|intros s S; apply (pf_special _ P); cbn in S |- *; intuition|cbn [tk]; rewrite (pf_brace _ P); apply Bool.andb_false_r].

  Lemma word_turn acts pr st co rp num ret t1 t0 t m : plain t = true -> exists r,
    turn o pc prefix targs (LL acts pr st co rp num ret) g (Inp t1 t0 t m) = COk (Go (LL acts pr st co rp num r)) g (Inp t1 t0 t m).
  Proof.
    intros H. apply plain_facts_of in H. rename H into P. unfold turn, stages. early_plain P. cbn [run_stages].
    set (l := LL _ _ _ _ _ _ _). set (i := Inp _ _ _ _).
    rewrite (fbind_go _ _ l g i g i) by (apply t_scalar_id; apply (pf_scalar _ P)).
    rewrite (fbind_go _ _ l g i g i) by (apply t_operator_id; apply (pf_special _ P); inl).
    rewrite (fbind_go _ _ l g i g i).
    2: { rewrite t_flags_id by (apply (pf_special _ P); inl). cbn [tk i].
         rewrite !(pf_special _ P) by inl. reflexivity. }
    rewrite (fbind_go _ _ l g i g i) by (apply t_function_id; apply (pf_paren _ P)).
    rewrite (fbind_go _ _ l g i g i) by (apply t_array_id; apply (pf_special _ P); inl).
    rewrite (fbind_go _ _ l g i g i) by (apply t_brace_id; apply (pf_brace _ P)).
    destruct (t_return_id l g i) as (r & R); [apply (pf_special _ P); inl|].
    rewrite (fbind_go _ _ _ g i g i R). exists r. reflexivity.
  Qed.

  Lemma fixed_turn t acts pr st co rp num ret t1 t0 m : In t ["static"; "const"]%string -> exists r,
    turn o pc prefix targs (LL acts pr st co rp num ret) g (Inp t1 t0 (bs t) m)
    = COk (Go (LL acts pr (st || String.eqb t "static") (co || String.eqb t "const") rp num r)) g (Inp t1 t0 (bs t) m).
  Proof.
    intros H. unfold turn, stages.
    rewrite early; [|intros s S; cbn in S, H; intuition; subst; reflexivity|cbn [tk]; cbn in H; intuition; subst; apply Bool.andb_false_r].
    cbn [run_stages]. set (l := LL _ _ _ _ _ _ _). set (i := Inp _ _ _ _).
    assert (K : forall s, In s ["operator"; "alignas"; "friend"; "["; "{"; "<"]%string -> teq (tk i) s = false).
    { intros s S. cbn in H, S. intuition; subst; reflexivity. }
    rewrite (fbind_go _ _ l g i g i) by (apply t_scalar_id; cbn in H; intuition; subst t; reflexivity).
    rewrite (fbind_go _ _ l g i g i) by (apply t_operator_id; apply K; inl).
    set (l' := LL acts pr (st || String.eqb t "static") (co || String.eqb t "const") rp num ret).
    rewrite (fbind_go _ _ l' g i g i).
    2: { rewrite t_flags_id by (apply K; inl). cbn in H. destruct H as [<-|[<-|[]]]; unfold l, l', LL; cbn [tk i];
         change (String.eqb "static" "static") with true; change (String.eqb "static" "const") with false;
         change (String.eqb "const" "static") with false; change (String.eqb "const" "const") with true;
         cbv [teq]; rewrite ?Bool.orb_true_r, ?Bool.orb_false_r; reflexivity. }
    rewrite (fbind_go _ _ l' g i g i) by (apply t_function_id; cbn in H; intuition; subst t; reflexivity).
    rewrite (fbind_go _ _ l' g i g i) by (apply t_array_id; apply K; inl).
    rewrite (fbind_go _ _ l' g i g i) by (apply t_brace_id; apply K; inl).
    destruct (t_return_id l' g i) as (r & R); [apply K; inl|].
    rewrite (fbind_go _ _ _ g i g i R). exists r. reflexivity.
  Qed.
  Lemma angle_turn ts acts pr st co rp num ret t1 t0 m : balanced (bs "<") (bs ">") ts -> ~ In (bs ">>") ts -> exists r t2' t1',
    turn o pc prefix targs (LL acts pr st co rp num ret) g (Inp t1 t0 (bs "<") (ts ++ bs ">" :: m))
    = COk (Go (LL acts pr st co rp num r)) g (Inp t2' t1' (bs ">") m).
  Proof.
    intros B N. unfold turn, stages.
    rewrite early; [|intros s S; cbn in S; intuition; subst; reflexivity|apply Bool.andb_false_r].
    cbn [run_stages]. set (l := LL _ _ _ _ _ _ _). set (i := Inp _ _ _ _).
    rewrite (fbind_go _ _ l g i g i) by (apply t_scalar_id; reflexivity).
    rewrite (fbind_go _ _ l g i g i) by (apply t_operator_id; reflexivity).
    rewrite (fbind_go _ _ l g i g i) by (rewrite t_flags_id by reflexivity; reflexivity).
    rewrite (fbind_go _ _ l g i g i) by (apply t_function_id; reflexivity).
    rewrite (fbind_go _ _ l g i g i) by (apply t_array_id; reflexivity).
    rewrite (fbind_go _ _ l g i g i) by (apply t_brace_id; reflexivity).
    assert (LR : bs "<" <> bs ">") by (intros K; vm_compute in K; discriminate).
    assert (TK : tk i <> bs "<" ++ bs ">") by (intros K; vm_compute in K; discriminate).
    destruct (C53_stops "<" ">" i ts m LR TK (balanced_bal _ _ _ B) (fun _ => N) eq_refl) as (G & G1 & G2).
    destruct (after (S (length ts)) i) as [a b c d]. cbn [more tk] in G1, G2. subst c d.
    eexists _, a, b. unfold fbind at 1. unfold t_return, gobb, lift. unfold cbind, get. change (teq (tk i) "<") with true. cbv beta iota.
    rewrite G. reflexivity.
  Qed.

  Lemma elems_run es : Forall elem_ok es -> forall acts pr st co rp num ret t2 t1 t0 m, exists r t2' t1',
    runs (LL acts pr st co rp num ret) (Inp t2 t1 t0 (etoks es ++ m))
         (LL acts pr (st || has_static es) (co || has_const es) rp num r) (Inp t2' t1' (last (etoks es) t0) m).
  Proof.
    induction 1 as [|e es E ES IH]; intros.
    { exists ret, t2, t1. cbn. rewrite !Bool.orb_false_r. apply runs_refl. }
    assert (S1 : exists r t2' t1', runs (LL acts pr st co rp num ret) (Inp t2 t1 t0 (etoks1 e ++ (etoks es ++ m)))
      (LL acts pr (st || match e with EStatic => true | _ => false end) (co || match e with EConst => true | _ => false end) rp num r)
      (Inp t2' t1' (last (etoks1 e) t0) (etoks es ++ m))).
    { destruct e as [t| | |ts]; cbn [etoks1 app last elem_ok] in *.
      - destruct (word_turn acts pr st co rp num ret t1 t0 t (etoks es ++ m) E) as (r & R). exists r, t1, t0.
        rewrite !Bool.orb_false_r. apply (runs_turn _ _ _ _ _ _ (Go _)) with (3 := R); [|cbn; lia].
        apply plain_facts_of in E. apply (pf_special _ E). inl.
      - destruct (fixed_turn "static" acts pr st co rp num ret t1 t0 (etoks es ++ m) ltac:(inl)) as (r & R). exists r, t1, t0.
        apply (runs_turn _ _ _ _ _ _ (Go _)) with (3 := R); [reflexivity|cbn; lia].
      - destruct (fixed_turn "const" acts pr st co rp num ret t1 t0 (etoks es ++ m) ltac:(inl)) as (r & R). exists r, t1, t0.
        apply (runs_turn _ _ _ _ _ _ (Go _)) with (3 := R); [reflexivity|cbn; lia].
      - destruct E as (B & N).
        destruct (angle_turn ts acts pr st co rp num ret t1 t0 (etoks es ++ m) B N) as (r & a & b & R). exists r, a, b.
        rewrite !Bool.orb_false_r. rewrite <- app_assoc. cbn [app].
        replace (match ts ++ [bs ">"] with [] => bs "<" | _ :: _ => last (ts ++ [bs ">"]) t0 end) with (bs ">").
        2: { rewrite last_last. destruct ts; reflexivity. }
        apply (runs_turn _ _ _ _ _ _ (Go _)) with (3 := R); [reflexivity|]. unfold len_i. cbn [more]. rewrite !app_length. cbn [length]. rewrite app_length. lia. }
    destruct S1 as (r & a & b & S1). 
    destruct (IH acts pr (st || match e with EStatic => true | _ => false end)%bool
      (co || match e with EConst => true | _ => false end)%bool rp num r a b (last (etoks1 e) t0) m) as (r' & a' & b' & S2).
    exists r', a', b'. unfold etoks at 1. cbn [map concat]. fold (etoks es). rewrite <- app_assoc.
    eapply runs_trans; [exact S1|]. revert S2. unfold has_static, has_const. cbn [existsb].
    rewrite !Bool.orb_assoc. replace (last (etoks (e :: es)) t0) with (last (etoks es) (last (etoks1 e) t0)); [auto|].
    symmetry. apply (last_cat (etoks1 e) (etoks es)).
  Qed.

  Lemma name_run n acts pr st co rp num ret t2 t1 t0 m : name_ok n = true -> exists r,
    runs (LL acts pr st co rp num ret) (Inp t2 t1 t0 (n :: m)) (LL acts pr st co rp num r) (Inp t1 t0 n m).
  Proof.
    intros N. unfold name_ok in N. apply Bool.andb_true_iff in N. destruct N as (N & _). apply Bool.andb_true_iff in N. destruct N as (N & _).
    destruct (word_turn acts pr st co rp num ret t1 t0 n m N) as (r & R). exists r.
    apply (runs_turn _ _ _ _ _ _ (Go _)) with (3 := R); [|cbn; lia].
    apply plain_facts_of in N. apply (pf_special _ N). inl.
  Qed.
  Lemma skipset_run s ts : Forall (fun t => first_in s t = false) ts -> forall f t2 t1 t x m,
    strchr s (first t) = false -> strchr s (first x) = true -> (length (ts ++ x :: m) < f)%nat ->
    exists a b, skipset s f (Inp t2 t1 t (ts ++ x :: m)) = POk tt (Inp a b x m).
  Proof.
    induction 1 as [|u ts U _ IH]; intros f t2 t1 t x m T X F; (destruct f as [|f]; [lia|]).
    - cbn [skipset app tk next more pbind]. rewrite T. destruct f as [|f]; [cbn in F; lia|]. cbn [skipset tk tk1]. rewrite X. eauto.
    - cbn [skipset app tk next more pbind]. rewrite T. rewrite first_strchr in U. apply IH; auto. cbn in F. lia.
  Qed.
  Definition sepb (x : tok) : bool := (teq x ";" || teq x ",")%bool.
  Lemma sepb_cases x : sepb x = true -> x = bs ";" \/ x = bs ",".
  Proof. intros H. apply Bool.orb_true_iff in H. destruct H as [H|H]; apply beq_eq in H; auto. Qed.
  (** the stages after the scalar one, at a separator *)
  Lemma late l i : sepb (tk i) = true \/ tk i = bs "}" \/ tk i = bs "=" -> exists r,
    run_stages [t_array; t_brace; t_return] l g i = COk (Go (w_ret r l)) g i.
  Proof.
    intros H. assert (K : forall s, In s ["["; "{"; "<"]%string -> teq (tk i) s = false).
    { intros s S. assert (E : tk i = bs ";" \/ tk i = bs "," \/ tk i = bs "}" \/ tk i = bs "=").
      { destruct H as [H|[H|H]]; [destruct (sepb_cases _ H)| |]; auto. }
      cbn in S. destruct E as [E|[E|[E|E]]]; rewrite E; intuition; subst; reflexivity. }
    cbn [run_stages].
    rewrite (fbind_go _ _ l g i g i) by (apply t_array_id; apply K; inl).
    rewrite (fbind_go _ _ l g i g i) by (apply t_brace_id; apply K; inl).
    destruct (t_return_id l g i) as (r & R); [apply K; inl|].
    rewrite (fbind_go _ _ _ g i g i R). exists r. reflexivity.
  Qed.
  Lemma late_sep l i : sepb (tk i) = true -> exists r,
    run_stages [t_operator; t_flags; t_function o prefix; t_array; t_brace; t_return] l g i = COk (Go (w_ret r l)) g i.
  Proof.
    intros H. assert (E := sepb_cases _ H). cbn [run_stages].
    rewrite (fbind_go _ _ l g i g i) by (apply t_operator_id; destruct E as [E|E]; rewrite E; reflexivity).
    rewrite (fbind_go _ _ l g i g i).
    2: { rewrite t_flags_id by (destruct E as [E|E]; rewrite E; reflexivity). destruct E as [E|E]; rewrite E; reflexivity. }
    rewrite (fbind_go _ _ l g i g i) by (apply t_function_id; destruct E as [E|E]; rewrite E; reflexivity).
    apply late. auto.
  Qed.
  Definition scalar_reg (p n : tok) (l : loc) : loc :=
    if idt n then
      if (use_mbr o && negb (teq p "&"))%bool then register_class n (bs "arg") (bs "&" ++ prefix ++ n) l
      else register_class n [] (bs "arg." ++ n) l
    else l.
  (** what follows a name that is not an array, from the first token on *)
  Definition scalar_end (d : dend) : Prop := match d with DNone | DInit _ | DBits _ | DBrace _ => dend_ok d | _ => False end.
  Lemma scalar_turn d l p n x m u us : scalar_end d -> teq n "union" = false -> sepb x = true -> dtoks d ++ x :: m = u :: us ->
    exists r a b, turn o pc prefix targs l g (Inp p n u us) = COk (Go (w_ret r (scalar_reg p n l))) g (Inp a b x m).
  Proof.
    intros D N X E. pose proof (sepb_cases _ X) as XC.
    assert (X1 : strchr ";," (first x) = true) by (destruct XC; subst; reflexivity).
    assert (U : u = bs ";" \/ u = bs "," \/ u = bs "=" \/ u = bs ":" \/ u = bs "{").
    { destruct d; cbn in D, E; try contradiction; injection E as <- _; intuition. }
    unfold turn, stages.
    rewrite early; [|intros s S; cbn [tk]; cbn in S; decompose [or] U; subst u; intuition; subst; reflexivity
                    |cbn [tk1 tk]; rewrite N; reflexivity].
    cbn [run_stages].
    assert (G : exists a b, t_scalar o prefix l g (Inp p n u us) = COk (Go (scalar_reg p n l)) g (Inp a b x m)).
    { unfold t_scalar. unfold cbind at 1. unfold get at 1. cbn [tk tk1 tk2].
      replace (strchr "{;,:=" (first u) && negb (teq u "::"))%bool with true by (decompose [or] U; subst u; reflexivity).
      fold (scalar_reg p n l). cbv zeta.
      destruct d as [|ts|ts|ts| | |]; cbn [scalar_end dend_ok dtoks app] in D, E; try contradiction.
      - hdtl E u us. replace (ceq (first x) "{") with false by (destruct XC; subst; reflexivity).
        exists p, n. unfold when, skip_set, lift, cret, cbind, pbound. cbn [more skipset tk]. rewrite X1. reflexivity.
      - hdtl E u us. change (ceq (first (bs "=")) "{") with false.
        destruct (skipset_run ";," ts D (pbound (Inp p n (bs "=") (ts ++ x :: m))) p n (bs "=") x m eq_refl X1) as (a & b & S).
        { unfold pbound. cbn [more]. lia. }
        exists a, b. unfold when, skip_set, lift, cret, cbind.  rewrite S. reflexivity.
      - hdtl E u us. change (ceq (first (bs ":")) "{") with false.
        destruct (skipset_run ";," ts D (pbound (Inp p n (bs ":") (ts ++ x :: m))) p n (bs ":") x m eq_refl X1) as (a & b & S).
        { unfold pbound. cbn [more]. lia. }
        exists a, b. unfold when, skip_set, lift, cret, cbind. rewrite S. reflexivity.
      - hdtl E u us. change (ceq (first (bs "{")) "{") with true. rewrite <- app_assoc. cbn [app].
        set (i := Inp p n (bs "{") _).
        assert (LR : bs "{" <> bs "}") by (intros K; vm_compute in K; discriminate).
        assert (TK : tk i <> bs "{" ++ bs "}") by (intros K; vm_compute in K; discriminate).
        destruct (C53_stops "{" "}" i ts (x :: m) LR TK (balanced_bal _ _ _ D) ltac:(intros K; vm_compute in K; discriminate) eq_refl) as (G & G1 & G2).
        destruct (after (S (length ts)) i) as [a b c d]. cbn [more tk] in G1, G2. subst c d.
        destruct (skipset_run ";," [] (Forall_nil _) (pbound (Inp a b (bs "}") (x :: m))) a b (bs "}") x m eq_refl X1) as (a' & b' & S).
        { unfold pbound. cbn [more app]. lia. }
        exists a', b'. unfold when, skip_set, gobb, lift, cret, cbind. rewrite G. cbn [app] in S. rewrite S. reflexivity. }
    destruct G as (a & b & G). rewrite (fbind_go _ _ _ _ _ _ _ G).
    destruct (late_sep (scalar_reg p n l) (Inp a b x m) X) as (r & R). exists r, a, b. exact R.
  Qed.

  Definition sp (d : list tok) : tok := concat (map (fun t => " "%char :: t) d).
  Lemma arr_in_run d : ~ In (bs "]") d -> forall f acc t2 t1 t m, (length d < f)%nat ->
    t :: m = d ++ bs "]" :: tl (skipn (length d) (t :: m)) ->
    exists a b, arr_in f acc (Inp t2 t1 t m) = POk (acc ++ sp d) (Inp a b (bs "]") (tl (skipn (length d) (t :: m)))).
  Proof.
    induction d as [|u d IH]; intros N f acc t2 t1 t m F E; (destruct f as [|f]; [lia|]).
    - cbn [length skipn tl app] in E. assert (Et : t = bs "]") by congruence. subst t.
      cbn [arr_in tk length skipn tl]. change (teq (bs "]") "]") with true. cbv iota.
      exists t2, t1. unfold sp. cbn. now rewrite app_nil_r.
    - cbn [length skipn app] in E. assert (u = t) by congruence. subst u.
      assert (E' : m = d ++ bs "]" :: tl (skipn (length d) m)) by congruence.
      assert (T : teq t "]" = false). { rewrite <- Bool.not_true_iff_false. intros K. apply beq_eq in K. apply N. left. auto. }
      cbn [arr_in tk]. rewrite T. unfold next. cbn [more].
      destruct m as [|v m]; [destruct d; discriminate|]. cbn [pbind tk1 tk].
      destruct (IH (fun K => N (or_intror K)) f (acc ++ [" "%char] ++ t) t1 t v m) as (a & b & R); [cbn in F; lia|exact E'|].
      exists a, b. cbn [length skipn]. rewrite R. f_equal. unfold sp. cbn [map concat]. rewrite <- !app_assoc. reflexivity.
  Qed.
  Definition dsp (dims : list (list tok)) : tok := concat (map (fun d => sp d ++ [","%char]) dims).
  Lemma arr_dims_run dims : Forall (fun d => ~ In (bs "]") d) dims -> forall f k acc t2 t1 x m u us,
    teq x "[" = false -> (length dims < f)%nat -> dimtoks dims ++ x :: m = u :: us ->
    exists a b, arr_dims f k acc (Inp t2 t1 u us) = POk (k + length dims, acc ++ dsp dims)%nat (Inp a b x m).
  Proof.
    induction 1 as [|d dims D _ IH]; intros f k acc t2 t1 x m u us X F E; (destruct f as [|f]; [lia|]).
    - cbn in E. assert (u = x) by congruence. assert (us = m) by congruence. subst u us.
      cbn [arr_dims tk]. rewrite X. exists t2, t1. rewrite Nat.add_0_r. unfold dsp. cbn. now rewrite app_nil_r.
    - unfold dimtoks in E. cbn [map concat] in E. fold (dimtoks dims) in E. cbn [app] in E. rewrite <- !app_assoc in E. cbn [app] in E.
      hdtl E u us. cbn [arr_dims tk]. change (teq (bs "[") "[") with true. cbv iota. unfold next at 1. cbn [more].
      assert (NE : exists v vs, dimtoks dims ++ x :: m = v :: vs) by (destruct (dimtoks dims); cbn; eauto). destruct NE as (v & vs & NE).
      assert (N1 : exists w ws, d ++ bs "]" :: dimtoks dims ++ x :: m = w :: ws) by (destruct d; cbn; eauto). destruct N1 as (w & ws & N1).
      rewrite N1. cbn [pbind tk1 tk].
      assert (SK : tl (skipn (length d) (w :: ws)) = dimtoks dims ++ x :: m).
      { rewrite <- N1. rewrite skipn_app, skipn_all, Nat.sub_diag. reflexivity. }
      destruct (arr_in_run d D (pbound (Inp t1 (bs "[") w ws)) acc t1 (bs "[") w ws) as (a & b & R).
      { unfold pbound. cbn [more]. assert (L := f_equal (@length _) N1). rewrite app_length in L. cbn in L. lia. }
      { rewrite SK. auto. }
      rewrite R, SK, NE. cbn [pbind next more tk1 tk].
      destruct (IH f (S k) ((acc ++ sp d) ++ [","%char]) b (bs "]") x m v vs X) as (a' & b' & R'); [cbn in F; lia|exact NE|].
      exists a', b'. rewrite R'. f_equal. f_equal; [cbn; lia|]. unfold dsp. cbn [map concat]. now rewrite <- !app_assoc.
  Qed.
  Lemma dsp_shift dims : [","%char] ++ dsp dims = concat (map (fun d => bs "," ++ sp d) dims) ++ [","%char].
  Proof.
    induction dims as [|d dims IH]; [reflexivity|]. unfold dsp. cbn [map concat]. fold (dsp dims).
    rewrite <- !app_assoc. rewrite IH. reflexivity.
  Qed.
  Lemma firstn_drop1 {A} (l : list A) x : firstn (length (l ++ [x]) - 1) (l ++ [x]) = l.
  Proof. rewrite app_length. cbn. replace (length l + 1 - 1)%nat with (length l) by lia. rewrite firstn_app, firstn_all, Nat.sub_diag. cbn. apply app_nil_r. Qed.
  Lemma repeat_str_map {A} s (l : list A) : repeat_str (length l) s = concat (map (fun _ => s) l).
  Proof. induction l; cbn; congruence. Qed.
  Lemma pbound_len i x y l : more i = l ++ x :: y -> (length l < pbound i)%nat.
  Proof. intros H. unfold pbound. rewrite H, app_length. cbn. lia. Qed.
  Lemma dimtoks_len dims : (length dims <= length (dimtoks dims))%nat.
  Proof. induction dims as [|d dims IH]; [auto|]. unfold dimtoks. cbn [map concat]. fold (dimtoks dims). rewrite app_length. cbn. lia. Qed.

  Lemma array_stage dims l p n x m u us : dims_ok dims -> teq x "[" = false -> dimtoks dims ++ x :: m = u :: us ->
    u = bs "[" /\ exists a b, t_array l g (Inp p n u us)
      = COk (Go (register_class n n (bs "classdesc::is_array(),arg." ++ n ++ dimtext dims) l)) g (Inp a b x m).
  Proof.
    intros (NE & D) X E.
    assert (U : u = bs "["). { destruct dims; [contradiction|]. unfold dimtoks in E. cbn in E. unfold bs in *. cbn. congruence. }
    split; [exact U|].
    unfold t_array. unfold cbind at 1, get. cbn [tk tk1]. subst u. change (teq (bs "[") "[") with true. cbv iota zeta.
    destruct (arr_dims_run dims D (pbound (Inp p n (bs "[") us)) 0 (bs ",") p n x m (bs "[") us X) as (a & b & R); [|exact E|].
    { assert (L := f_equal (@length _) E). rewrite app_length in L. cbn in L. pose proof (dimtoks_len dims).
      unfold pbound. cbn [more]. lia. }
    exists a, b. unfold cbind, lift. rewrite R. cbn [Nat.add].
    unfold cret. do 2 f_equal. rewrite repeat_str_map. change (bs ",") with [","%char]. rewrite dsp_shift.
    rewrite !app_assoc. rewrite firstn_drop1. unfold dimtext. rewrite <- !app_assoc. reflexivity.
  Qed.
  Lemma array_turn dims l p n x m u us : dims_ok dims -> sepb x = true \/ x = bs "=" -> dimtoks dims ++ x :: m = u :: us ->
    exists r a b, turn o pc prefix targs l g (Inp p n u us)
      = COk (Go (w_ret r (register_class n n (bs "classdesc::is_array(),arg." ++ n ++ dimtext dims) l))) g (Inp a b x m).
  Proof.
    intros D X E. assert (X1 : teq x "[" = false).
    { destruct X as [X|X]; [destruct (sepb_cases _ X)|]; subst x; reflexivity. }
    destruct (array_stage dims l p n x m u us D X1 E) as (-> & a & b & A). set (l' := register_class _ _ _ _) in *.
    unfold turn, stages.
    rewrite early; [|intros s S; cbn in S; intuition; subst; reflexivity|apply Bool.andb_false_r].
    cbn [run_stages]. set (i := Inp p n _ us) in *.
    rewrite (fbind_go _ _ l g i g i) by (apply t_scalar_id; reflexivity).
    rewrite (fbind_go _ _ l g i g i) by (apply t_operator_id; reflexivity).
    rewrite (fbind_go _ _ l g i g i) by (rewrite t_flags_id by reflexivity; reflexivity).
    rewrite (fbind_go _ _ l g i g i) by (apply t_function_id; reflexivity).
    rewrite (fbind_go _ _ _ _ _ _ _ A).
    rewrite (fbind_go _ _ l' g _ g (Inp a b x m)).
    2: { apply t_brace_id. destruct X as [X|X]; [destruct (sepb_cases _ X)|]; subst x; reflexivity. }
    destruct (t_return_id l' g (Inp a b x m)) as (r & R).
    { destruct X as [X|X]; [destruct (sepb_cases _ X)|]; subst x; reflexivity. }
    rewrite (fbind_go _ _ _ g _ g _ R). exists r, a, b. reflexivity.
  Qed.

  Lemma brace_stage l ts p n m : balanced (bs "{") (bs "}") ts ->
    exists a b, t_brace l g (Inp p n (bs "{") (ts ++ bs "}" :: m)) = COk (Go l) g (Inp a b (bs "}") m).
  Proof.
    intros D. set (i := Inp p n (bs "{") _).
    assert (LR : bs "{" <> bs "}") by (intros K; vm_compute in K; discriminate).
    assert (TK : tk i <> bs "{" ++ bs "}") by (intros K; vm_compute in K; discriminate).
    destruct (C53_stops "{" "}" i ts m LR TK (balanced_bal _ _ _ D) ltac:(intros K; vm_compute in K; discriminate) eq_refl) as (G & G1 & G2).
    destruct (after (S (length ts)) i) as [a b c d]. cbn [more tk] in G1, G2. subst c d.
    exists a, b. unfold t_brace, when, gobb, lift, cret, cbind, get. change (teq (tk i) "{") with true. cbv beta iota. rewrite G. reflexivity.
  Qed.
  Lemma array_brace_turn dims ts l p n m u us : dims_ok dims -> balanced (bs "{") (bs "}") ts ->
    dimtoks dims ++ bs "{" :: ts ++ bs "}" :: m = u :: us ->
    exists r a b, turn o pc prefix targs l g (Inp p n u us)
      = COk (Go (w_ret r (register_class n n (bs "classdesc::is_array(),arg." ++ n ++ dimtext dims) l))) g (Inp a b (bs "}") m).
  Proof.
    intros D B E.
    destruct (array_stage dims l p n (bs "{") (ts ++ bs "}" :: m) u us D eq_refl E) as (-> & a & b & A). set (l' := register_class _ _ _ _) in *.
    unfold turn, stages.
    rewrite early; [|intros s S; cbn in S; intuition; subst; reflexivity|apply Bool.andb_false_r].
    cbn [run_stages]. set (i := Inp p n _ us) in *.
    rewrite (fbind_go _ _ l g i g i) by (apply t_scalar_id; reflexivity).
    rewrite (fbind_go _ _ l g i g i) by (apply t_operator_id; reflexivity).
    rewrite (fbind_go _ _ l g i g i) by (rewrite t_flags_id by reflexivity; reflexivity).
    rewrite (fbind_go _ _ l g i g i) by (apply t_function_id; reflexivity).
    rewrite (fbind_go _ _ _ _ _ _ _ A).
    destruct (brace_stage l' ts a b m B) as (a' & b' & B').
    rewrite (fbind_go _ _ l' g _ g _ B').
    destruct (t_return_id l' g (Inp a' b' (bs "}") m)) as (r & R); [reflexivity|].
    rewrite (fbind_go _ _ _ g _ g _ R). exists r, a', b'. reflexivity.
  Qed.

  Definition to_act (c : call) : act := Act (c_name c) (c_arg c) (c_member c) (c_static c) false.
  Lemma decl_run d acts pr st co rp num ret t2 t1 t0 x m : decl_ok d -> teq t0 "&" = false -> sepb x = true -> exists r a b,
    runs (LL acts pr st co rp num ret) (Inp t2 t1 t0 (decltoks d ++ x :: m))
         (LL (if rp then acts else acts ++ [to_act (data_call (use_mbr o) prefix (st || has_static (d_pre d)) (co || has_const (d_pre d)) d)])
             pr false (co || has_const (d_pre d)) rp num r) (Inp a b x m).
  Proof.
    destruct d as [es n d]. intros (EO & NO & DO) T X. cbn [d_pre d_name d_end decltoks] in *.
    unfold decltoks. cbn [d_pre d_name d_end]. rewrite <- app_assoc. cbn [app].
    destruct (elems_run es EO acts pr st co rp num ret t2 t1 t0 (n :: dtoks d ++ x :: m)) as (r1 & a1 & b1 & R1).
    set (st' := (st || has_static es)%bool) in *. set (co' := (co || has_const es)%bool) in *.
    destruct (name_run n acts pr st' co' rp num r1 a1 b1 (last (etoks es) t0) (dtoks d ++ x :: m) NO) as (r2 & R2).
    pose proof NO as NO'. unfold name_ok in NO'. apply Bool.andb_true_iff in NO'. destruct NO' as (NO1 & NU). apply Bool.andb_true_iff in NO1. destruct NO1 as (_ & NI).
    apply Bool.negb_true_iff in NU. change (teq n "union" = false) in NU. rewrite ident_idt in NI.
    set (p := last (etoks es) t0) in *.
    assert (P : teq p "&" = is (last (etoks es) []) "&").
    { unfold p, is, teq in *. destruct (etoks es) as [|z zs] eqn:Z; [exact T|].
      f_equal. clear. revert z. induction zs as [|y zs IH]; intros z; [reflexivity|]. cbn in *. apply (IH y). }
    assert (NE : exists u us, dtoks d ++ x :: m = u :: us) by (destruct (dtoks d); cbn; eauto). destruct NE as (u & us & NE).
    assert (UB : teq u "}" = false).
    { pose proof (f_equal (hd []) NE) as Q. cbn [hd] in Q. subst u.
      destruct (sepb_cases _ X); subst x; destruct d; try reflexivity; cbn [dend_ok] in DO; cbn [dtoks];
        (destruct dims; [exfalso; unfold dims_ok in DO; intuition congruence|reflexivity]). }
    assert (LE : (len_i (Inp [] [] x m) <= length us)%nat).
    { clear - NE. assert (L := f_equal (@length _) NE). rewrite app_length in L. cbn [length] in L. unfold len_i. cbn [more]. lia. }
    destruct d as [|ts|ts|ts|dims|dims ts|dims ts].
    1-4: match type of NE with dtoks ?dd ++ _ = _ =>
      destruct (scalar_turn dd (LL acts pr st' co' rp num r2) p n x m u us DO NU X NE) as (r & a & b & R) end.
    1-4: exists r, a, b; eapply runs_trans; [exact R1|]; eapply runs_trans; [exact R2|]; rewrite NE.
    1-4: match goal with |- runs _ _ ?l' _ => assert (Q : w_ret r (scalar_reg p n (LL acts pr st' co' rp num r2)) = l') end.
    1,3,5,7: unfold scalar_reg, data_call; rewrite NI; cbn [d_pre d_name d_end]; rewrite P;
      destruct (use_mbr o && negb _)%bool; unfold register_class, LL; cbn [r_static r_const r_priv l_acts];
      destruct rp, st', co'; reflexivity.
    1-4: rewrite <- Q; apply (runs_turn _ _ _ _ _ _ (Go _)) with (3 := R); [exact UB|exact LE].
    - destruct (array_turn dims (LL acts pr st' co' rp num r2) p n x m u us DO (or_introl X) NE) as (r & a & b & R).
      exists r, a, b. eapply runs_trans; [exact R1|]; eapply runs_trans; [exact R2|]; rewrite NE.
      match goal with |- runs _ _ ?l' _ => match type of R with _ = COk (Go ?l0) _ _ => assert (Q : l0 = l') end end.
      { unfold data_call. cbn [d_pre d_name d_end]. unfold register_class, LL. cbn [r_static r_const r_priv l_acts]. destruct rp, st', co'; reflexivity. }
      rewrite <- Q. apply (runs_turn _ _ _ _ _ _ (Go _)) with (3 := R); [exact UB|exact LE].
    - destruct DO as (DO & BO). cbn [dtoks] in NE. rewrite <- app_assoc in NE. cbn [app] in NE. rewrite <- app_assoc in NE. cbn [app] in NE.
      destruct (array_turn dims (LL acts pr st' co' rp num r2) p n (bs "=") (bs "{" :: ts ++ bs "}" :: x :: m) u us DO (or_intror eq_refl) NE) as (r & a & b & R).
      set (l1 := w_ret r _) in R.
      destruct (scalar_turn (DBrace ts) l1 b (bs "=") x m (bs "{") (ts ++ bs "}" :: x :: m) BO eq_refl X) as (r' & a' & b' & R').
      { cbn [dtoks app]. now rewrite <- app_assoc. }
      exists r', a', b'. eapply runs_trans; [exact R1|]; eapply runs_trans; [exact R2|]. cbn [dtoks].
      rewrite <- app_assoc. cbn [app]. rewrite <- app_assoc. cbn [app]. rewrite NE.
      eapply runs_trans.
      { apply (runs_turn _ _ _ _ _ _ (Go _)) with (3 := R); [exact UB|].
        clear - NE. assert (L := f_equal (@length _) NE). rewrite app_length in L. cbn [length] in L. unfold len_i. cbn [more length]. lia. }
      match goal with |- runs _ _ ?l' _ => assert (Q : w_ret r' (scalar_reg b (bs "=") l1) = l') end.
      { unfold scalar_reg, data_call, l1. cbn [d_pre d_name d_end]. change (idt (bs "=")) with false. cbv iota.
        unfold register_class, LL. cbn [r_static r_const r_priv l_acts]. destruct rp, st', co'; reflexivity. }
      rewrite <- Q. apply (runs_turn _ _ _ _ _ _ (Go _)) with (3 := R'); [reflexivity|].
      clear. unfold len_i. cbn [more]. rewrite app_length. cbn [length]. lia.
    - destruct DO as (DO & BO). cbn [dtoks] in NE. rewrite <- app_assoc in NE. cbn [app] in NE. rewrite <- app_assoc in NE. cbn [app] in NE.
      destruct (array_brace_turn dims ts (LL acts pr st' co' rp num r2) p n (x :: m) u us DO BO NE) as (r & a & b & R).
      set (l1 := w_ret r _) in R.
      destruct (scalar_turn DNone l1 b (bs "}") x m x m Logic.I eq_refl X eq_refl) as (r' & a' & b' & R').
      exists r', a', b'. eapply runs_trans; [exact R1|]; eapply runs_trans; [exact R2|]. cbn [dtoks].
      rewrite <- app_assoc. cbn [app]. rewrite <- app_assoc. cbn [app]. rewrite NE.
      eapply runs_trans.
      { apply (runs_turn _ _ _ _ _ _ (Go _)) with (3 := R); [exact UB|].
        clear - NE. assert (L := f_equal (@length _) NE). rewrite !app_length in L. cbn [length] in L. rewrite app_length in L. cbn [length] in L.
        unfold len_i. cbn [more length]. lia. }
      match goal with |- runs _ _ ?l' _ => assert (Q : w_ret r' (scalar_reg b (bs "}") l1) = l') end.
      { unfold scalar_reg, data_call, l1. cbn [d_pre d_name d_end]. change (idt (bs "}")) with false. cbv iota.
        unfold register_class, LL. cbn [r_static r_const r_priv l_acts]. destruct rp, st', co'; reflexivity. }
      rewrite <- Q. apply (runs_turn _ _ _ _ _ _ (Go _)) with (3 := R'); [destruct (sepb_cases _ X); subst x; reflexivity|].
      clear. unfold len_i. cbn [more]. lia.
  Qed.

  (** ** Functions *)
  Definition oc1 (t : tok) : Z := if teq t "(" then 1 else if teq t ")" then -1 else 0.
  Fixpoint oc (ts : list tok) : Z := match ts with [] => 0 | t :: ts => (oc1 t + oc ts)%Z end.
  Lemma oc_app a b : oc (a ++ b) = (oc a + oc b)%Z.
  Proof. induction a; cbn; lia. Qed.
  Lemma balanced_oc ts : balanced (bs "(") (bs ")") ts -> oc ts = 0%Z /\ forall k, (oc (skipn k ts) <= 0)%Z.
  Proof.
    induction 1 as [|t ts A B _ (E & S)|b ts _ (E1 & S1) _ (E2 & S2)].
    - split; [reflexivity|]. intros [|k]; cbn; lia.
    - assert (Z : oc1 t = 0%Z).
      { unfold oc1. unfold teq. destruct (beqP t (bs "(")); [contradiction|]. destruct (beqP t (bs ")")); [contradiction|]. reflexivity. }
      split; [cbn; lia|]. intros [|k]; cbn [skipn oc]; [lia|apply S].
    - assert (R : oc1 (bs ")") = (-1)%Z) by reflexivity. assert (L : oc1 (bs "(") = 1%Z) by reflexivity.
      split; [cbn [oc]; rewrite oc_app; cbn [oc]; lia|].
      intros [|k]; [cbn [skipn oc]; rewrite oc_app; cbn [oc]; lia|]. cbn [skipn]. rewrite skipn_app, oc_app.
      specialize (S1 k). destruct (k - length b)%nat as [|j]; cbn [skipn oc]; [lia|]. specialize (S2 j). lia.
  Qed.
  Lemma gob_within ts : forall t1 t c acc m, (c + oc ts <= 0)%Z -> exists acc' a b s,
    gob (bs "(") (bs ")") (ts ++ bs ")" :: m) t1 t c acc = POk acc' (Inp a b (bs ")") (s ++ m)) /\ incl s (ts ++ [bs ")"]).
  Proof.
    induction ts as [|u ts IH]; intros t1 t c acc m H.
    - cbn [oc] in H. cbn [app gob]. change (beq (bs ")") (bs ")")) with true.
      destruct (c <=? 0)%Z eqn:C; [|apply Z.leb_gt in C; lia]. cbn [andb]. exists acc, t1, t, []. split; [reflexivity|]. intros z [].
    - cbn [app gob]. cbv zeta. replace (teq u ">>" && teq (bs "(") "<")%bool with false by (symmetry; apply Bool.andb_false_r).
      destruct (beqP u (bs ")")) as [E|E].
      + destruct (c <=? 0)%Z eqn:C; cbn [andb].
        * exists acc, t1, t, (ts ++ [bs ")"]). subst u. rewrite <- app_assoc. split; [reflexivity|]. intros z Z. right. exact Z.
        * subst u. change (beq (bs ")") (bs "(")) with false. cbv iota.
          destruct (IH t (bs ")") (c - 1)%Z (acc ++ bs ")" ++ [" "%char]) m) as (acc' & a & b & s & G & I).
          { cbn [oc] in H. replace (oc1 (bs ")")) with (-1)%Z in H by reflexivity. lia. }
          exists acc', a, b, s. split; [exact G|]. intros z Z. right. now apply I.
      + cbn [andb]. destruct (IH t u (if beq u (bs "(") then c + 1 else c)%Z (acc ++ u ++ [" "%char]) m) as (acc' & a & b & s & G & I).
        { cbn [oc] in H. unfold oc1, teq in H. destruct (beqP u (bs "(")); [lia|]. destruct (beqP u (bs ")")); [contradiction|]. lia. }
        exists acc', a, b, s. split; [exact G|]. intros z Z. right. now apply I.
  Qed.
  (** where the arguments have been read: at a token that does not end the header, some of them still to come *)
  Definition inside (args m : list tok) (i : inp) : Prop :=
    exists s, more i = s ++ m /\ incl s (args ++ [bs ")"]) /\ strchr ";{" (first (tk i)) = false.
  Lemma args_end n al args m k a b v vs : balanced (bs "(") (bs ")") args ->
    Forall (fun t => first_in ";{" t = false) args ->
    v :: vs = skipn k args ++ [bs ")"] -> (k <= length args)%nat ->
    (teq v "*" && (teq b "(" || teq b "::"))%bool = false ->
    exists al' j, (i :- get ;;
      if (teq (tk i) "*" && (teq (tk1 i) "(" || teq (tk1 i) "::"))%bool then
        nxt ;- i :- get ;;
        gobb "(" ")" ;- skip_paren ;- gobb "(" ")" ;- cret (tk i, al)
      else if negb (teq (tk i) ")") then a :- gobb "(" ")" ;; cret (n, al ++ a)
      else cret (n, al ++ tk1 i)) g (Inp a b v (vs ++ m)) = COk (n, al') g j /\ inside args m j.
  Proof.
    intros B F E K P. unfold cbind at 1. unfold get at 1. cbn [tk tk1]. rewrite P. cbv beta iota.
    assert (IV : forall z, In z (v :: vs) -> In z (args ++ [bs ")"])).
    { intros z Z. rewrite E in Z. apply in_app_or in Z. apply in_or_app. destruct Z as [Z|Z]; [left|right; exact Z].
      rewrite <- (firstn_skipn k args). apply in_or_app. auto. }
    assert (FV : forall z, In z (args ++ [bs ")"]) -> strchr ";{" (first z) = false).
    { intros z Z. apply in_app_or in Z. destruct Z as [Z|[<-|[]]]; [|reflexivity]. rewrite Forall_forall in F. specialize (F z Z).
      now rewrite first_strchr in F. }
    destruct (teq v ")") eqn:V; cbn [negb].
    - eexists _, _. split; [reflexivity|]. exists vs. cbn [more tk]. split; [reflexivity|]. split; [intros z Z; apply IV; right; exact Z|].
      apply FV, IV. left. reflexivity.
    - destruct (skipn k args) as [|w ws] eqn:SK.
      { cbn [app] in E. assert (v = bs ")") by congruence. subst v. discriminate. }
      cbn [app] in E. assert (w = v) by congruence. assert (vs = ws ++ [bs ")"]) by congruence. subst w vs.
      unfold cbind, gobb, lift, gobble. cbn [tk tk1 more].
      destruct (beqP v (bs "(" ++ bs ")")) as [Q|Q].
      + eexists _, _. split; [reflexivity|]. exists (ws ++ [bs ")"]). cbn [more tk]. split; [reflexivity|].
        split; [intros z Z; apply IV; right; exact Z|]. subst v. reflexivity.
      + rewrite <- app_assoc. cbn [app].
        destruct (gob_within ws b v 0 (b ++ " "%char :: v ++ [" "%char]) m) as (acc' & a' & b' & s & G & I).
        { destruct (balanced_oc args B) as (_ & BO). specialize (BO (S k)). rewrite Z.add_0_l.
          replace ws with (skipn (S k) args); [exact BO|]. clear - SK. revert args SK. induction k; intros [|z args] H; try discriminate.
          - cbn in *. congruence.
          - cbn [skipn] in H. apply IHk in H. exact H. }
        rewrite G. eexists _, _. split; [reflexivity|]. exists s. cbn [more tk]. split; [reflexivity|].
        split; [|reflexivity]. intros z Z. apply IV. right. now apply I.
  Qed.
  Lemma fn_args_run p n args m : balanced (bs "(") (bs ")") args -> Forall (fun t => first_in ";{" t = false) args -> no_pointer args ->
    exists al j, fn_args n g (Inp p n (bs "(") (args ++ bs ")" :: m)) = COk (n, al) g j /\ inside args m j.
  Proof.
    intros B F NP. unfold fn_args. unfold cbind at 1, get at 1. cbn [tk]. change (teq (bs "(") "()") with false. cbv iota.
    destruct args as [|t a].
    - cbn [app]. unfold cbind at 1. unfold nxt at 1, lift at 1, next at 1. cbn [more tk1 tk].
      unfold cbind at 1. unfold get at 1. cbn [tk]. change (idt (bs ")")) with false. cbv iota.
      unfold cbind at 1. unfold cret at 1.
      destruct (args_end n [] [] m 0 n (bs "(") (bs ")") [] B F eq_refl (le_n _) eq_refl) as (al & j & E & I).
      exists al, j. split; [exact E|exact I].
    - cbn [app]. unfold cbind at 1. unfold nxt at 1, lift at 1, next at 1. cbn [more tk1 tk].
      unfold cbind at 1. unfold get at 1. cbn [tk].
      destruct NP as (NP1 & NP2).
      assert (TS : teq t "*" = false) by (unfold teq; destruct (beqP t (bs "*")); congruence).
      replace (a ++ bs ")" :: m) with ((a ++ [bs ")"]) ++ m) by (rewrite <- app_assoc; reflexivity).
      destruct (idt t) eqn:IT.
      2: { unfold cbind at 1. unfold cret at 1.
           apply (args_end n [] (t :: a) m 0 n (bs "(") t (a ++ [bs ")"]) B F eq_refl); [lia|now rewrite TS]. }
      assert (TP : (teq t "(" || teq t "::")%bool = false).
      { apply Bool.orb_false_iff. split; rewrite <- Bool.not_true_iff_false; intros K; apply beq_eq in K; subst t; discriminate. }
      destruct a as [|c a].
      + cbn [app]. unfold cbind at 1 2. unfold nxt at 1, lift at 1, next at 1. cbn [more tk1 tk].
        unfold cbind at 1. unfold get at 1. cbn [tk]. change (teq (bs ")") "::") with false. unfold cret at 1. cbv iota.
        apply (args_end n [] [t] m 1 (bs "(") t (bs ")") [] B F eq_refl); [cbn; lia|reflexivity].
      + cbn [app]. unfold cbind at 1 2. unfold nxt at 1, lift at 1, next at 1. cbn [more tk1 tk].
        unfold cbind at 1. unfold get at 1. cbn [tk].
        destruct (teq c "::") eqn:CC.
        2: { unfold cret at 1. apply (args_end n [] (t :: c :: a) m 1 (bs "(") t c (a ++ [bs ")"]) B F eq_refl); [cbn; lia|].
             rewrite TP. apply Bool.andb_false_r. }
        apply beq_eq in CC. subst c.
        destruct a as [|d a].
        * cbn [app]. unfold cbind at 1. unfold nxt at 1, lift at 1, next at 1. cbn [more tk1 tk]. unfold cret at 1.
          apply (args_end n t [t; bs "::"] m 2 t (bs "::") (bs ")") [] B F eq_refl); [cbn; lia|reflexivity].
        * cbn [app]. unfold cbind at 1. unfold nxt at 1, lift at 1, next at 1. cbn [more tk1 tk]. unfold cret at 1.
          apply (args_end n t (t :: bs "::" :: d :: a) m 2 t (bs "::") d (a ++ [bs ")"]) B F eq_refl); [cbn; lia|].
          destruct (teq d "*") eqn:DD; [|reflexivity]. apply beq_eq in DD. exfalso. apply NP2. auto.
  Qed.
  Lemma fn_tail_run quals : Forall (fun t => first_in ";{" t = false) quals -> forall f c d t2 t1 t x m,
    strchr ";{" (first t) = false -> strchr ";{" (first x) = true -> teq x "delete" = false -> (length quals + 1 < f)%nat ->
    exists c' a b, fn_tail f c d (Inp t2 t1 t (quals ++ x :: m)) = POk (c', d || existsb (fun t => is t "delete") quals)%bool (Inp a b x m).
  Proof.
    induction 1 as [|q quals Q _ IH]; intros f c d t2 t1 t x m T X XD F; (destruct f as [|f]; [lia|]).
    - cbn [app fn_tail tk]. rewrite T. unfold next. cbn [more pbind tk1 tk]. destruct f as [|f]; [cbn in F; lia|].
      cbn [fn_tail tk existsb]. rewrite X, XD, !Bool.orb_false_r. eauto.
    - cbn [app fn_tail tk]. rewrite T. unfold next. cbn [more pbind tk1 tk].
      destruct (IH f (c || teq q "const")%bool (d || teq q "delete")%bool t1 t q x m) as (c' & a & b & R); auto.
      { now rewrite first_strchr in Q. } { cbn in F. lia. }
      exists c', a, b. rewrite R. cbn [existsb]. now rewrite <- Bool.orb_assoc.
  Qed.

  Hypothesis OV : overloading o = false.
  Hypothesis CP : has_lt prefix = true -> class_part prefix <> [].
  Definition ends_header (x : tok) : Prop := x = bs ";" \/ x = bs "{".
  (** the call for a function, before the private ones are left out *)
  Definition fcall (st : bool) (p n : tok) (quals : list tok) : list call :=
    if (tm || beq n (class_part prefix) || teq p "~" || existsb (fun t => is t "delete") quals
        || is n "CLASSDESC_ACCESS" || is n "CLASSDESC_ACCESS_TEMPLATE")%bool then [] else [fun_call prefix st n].
  Definition fargs_ok (args : option (list tok)) : Prop :=
    match args with
    | None => True
    | Some a => balanced (bs "(") (bs ")") a /\ Forall (fun t => first_in ";{" t = false) a
                /\ ~ In (bs "delete") a /\ no_pointer a
    end.
  Definition fargs_toks (args : option (list tok)) : list tok :=
    match args with None => [bs "()"] | Some a => bs "(" :: a ++ [bs ")"] end.
  Lemma function_stage acts pr st co rp num ret p n args quals x m u us :
    idt n = true -> fargs_ok args -> Forall (fun t => first_in ";{" t = false) quals -> ends_header x ->
    (st && co)%bool = false -> fargs_toks args ++ quals ++ x :: m = u :: us ->
    exists r a b, t_function o prefix (LL acts pr st co rp num ret) g (Inp p n u us)
      = COk (Go (LF (if rp then acts else acts ++ map to_act (fcall st p n quals)) pr false false rp (num ++ [bs "." ++ n]) r)) g (Inp a b x m).
  Proof.
    intros NI AO QO X SC E.
    assert (U : u = bs "(" \/ u = bs "()").
    { destruct args; cbn [fargs_toks app] in E; [left|right]; congruence. }
    unfold t_function. unfold cbind at 1. unfold get at 1. cbn [tk tk1 tk2].
    replace (ceq (first u) "(") with true by (destruct U; subst u; reflexivity). cbv iota zeta.
    assert (A : exists al j, fn_args n g (Inp p n u us) = COk (n, al) g j /\
              exists s, more j = s ++ quals ++ x :: m /\ Forall (fun t => first_in ";{" t = false) s /\
                existsb (fun t => is t "delete") s = false /\ strchr ";{" (first (tk j)) = false).
    { destruct args as [a|]; cbn [fargs_toks fargs_ok app] in *.
      - destruct AO as (B & F & ND & NP). rewrite <- app_assoc in E. cbn [app] in E.
        assert (u = bs "(") by congruence. assert (us = a ++ bs ")" :: quals ++ x :: m) by congruence. subst u us.
        destruct (fn_args_run p n a (quals ++ x :: m) B F NP) as (al & j & R & s & M & I & T).
        exists al, j. split; [exact R|]. exists s. split; [exact M|].
        assert (FA : forall z, In z s -> In z a \/ z = bs ")").
        { intros z Z. apply I in Z. apply in_app_or in Z. destruct Z as [Z|[<-|[]]]; auto. }
        split; [|split; [|exact T]].
        + apply Forall_forall. intros z Z. destruct (FA z Z) as [Y| ->]; [|reflexivity]. rewrite Forall_forall in F. auto.
        + rewrite <- Bool.not_true_iff_false. intros K. apply existsb_exists in K. destruct K as (z & Z & K). apply beq_eq in K. subst z.
          destruct (FA _ Z) as [Y|Y]; [contradiction|vm_compute in Y; discriminate].
      - assert (u = bs "()") by congruence. assert (us = quals ++ x :: m) by congruence. subst u us.
        exists [], (Inp p n (bs "()") (quals ++ x :: m)). split; [reflexivity|]. exists []. cbn [app more tk]. auto. }
    destruct A as (al & [j2 j1 j jm] & A & s & M & SF & SD & JT). cbn [more tk] in M, JT. subst jm.
    unfold cbind at 1. rewrite A. cbv beta iota.
    assert (X1 : strchr ";{" (first x) = true) by (destruct X; subst x; reflexivity).
    assert (X2 : teq x "delete" = false) by (destruct X; subst x; reflexivity).
    assert (SQ : Forall (fun t => first_in ";{" t = false) (s ++ quals)) by (apply Forall_app; auto).
    destruct (fn_tail_run (s ++ quals) SQ (pbound (Inp j2 j1 j (s ++ quals ++ x :: m))) false false j2 j1 j x m JT X1 X2) as (c' & a & b & T).
    { unfold pbound. cbn [more]. rewrite !app_length. cbn [length]. clear. lia. }
    rewrite <- app_assoc in T. rewrite existsb_app, SD in T. cbn [orb] in T.
    unfold cbind at 1. unfold lift at 1. rewrite T. cbv beta iota. set (del := existsb _ quals) in *.
    rewrite NI. unfold fcall. fold del. cbv zeta.
    set (l0 := w_num (l_num (LL acts pr st co rp num ret) ++ [bs "." ++ n]) (LL acts pr st co rp num ret)).
    change (r_static l0) with st. change (l_templ l0) with tm. change (r_priv l0) with rp. rewrite OV. cbn [orb negb andb].
    rewrite ?Bool.orb_false_r, ?Bool.andb_true_r.
    change (is n "CLASSDESC_ACCESS") with (teq n "CLASSDESC_ACCESS").
    change (is n "CLASSDESC_ACCESS_TEMPLATE") with (teq n "CLASSDESC_ACCESS_TEMPLATE").
    assert (RS : forall y, exists r1 r2, (if has_lt prefix then
         r :- opt (replaceShornTypes (l_ret l0) (class_part prefix) (firstn (length prefix - 2) prefix)) ;;
         a :- opt (replaceShornTypes y (class_part prefix) (firstn (length prefix - 2) prefix)) ;; cret (r, a)
         else cret (l_ret l0, y)) g (Inp a b x m) = COk (r1, r2) g (Inp a b x m)).
    { intros y. destruct (has_lt prefix) eqn:HL; [|unfold cret; eauto].
      specialize (CP eq_refl). unfold cbind, opt, cret.
      destruct (replaceShornTypes (l_ret l0) _ _) eqn:R1; [|now apply C54_terminates in R1].
      destruct (replaceShornTypes y _ _) eqn:R2; [eauto|now apply C54_terminates in R2]. }
    match goal with |- context [if ?c then _ else _] => replace c with
      (negb (tm || beq n (class_part prefix) || teq p "~" || del || teq n "CLASSDESC_ACCESS" || teq n "CLASSDESC_ACCESS_TEMPLATE")%bool) end.
    2: { destruct tm, (beq n (class_part prefix)), (teq p "~"), st, c', del, (teq n "CLASSDESC_ACCESS"), (teq n "CLASSDESC_ACCESS_TEMPLATE"); reflexivity. }
    destruct (tm || beq n (class_part prefix) || teq p "~" || del || teq n "CLASSDESC_ACCESS" || teq n "CLASSDESC_ACCESS_TEMPLATE")%bool eqn:Q.
    - exists ret, a, b. unfold cbind, cret, l0. cbn [negb map]. rewrite app_nil_r. destruct rp; reflexivity.
    - assert (CT : beq n (class_part prefix) = false) by (destruct (beq n (class_part prefix)); [rewrite Bool.orb_true_r in Q; discriminate|reflexivity]).
      rewrite CT. cbn [andb negb]. cbv beta iota.
      destruct (RS (strip_defaults al 0 true)) as (r1 & r2 & R).
      exists r1, a, b. unfold cbind at 1 2. rewrite R. cbv beta iota.
      unfold when, cbind, cret. cbn [negb map app].
      assert (CT2 : match (if st then TStatic else if c' then TConst else TNone) with TCtor => true | _ => false end = false) by (destruct st, c'; reflexivity).
      rewrite CT2. cbn [app]. unfold l0, LL, LF, fun_call, to_act, register_class.
      cbn [w_ret w_num w_templ w_const w_static r_static r_const r_priv l_acts l_num c_name c_arg c_member c_static].
      rewrite SC. destruct rp, st; reflexivity.
  Qed.

  Definition fbody_toks (body : option (list tok)) : list tok := match body with None => [bs ";"] | Some b => bs "{" :: b ++ [bs "}"] end.
  Lemma function_turn acts pr st co rp num ret p n args quals body m u us :
    idt n = true -> fargs_ok args -> Forall (fun t => first_in ";{" t = false) quals ->
    match body with None => True | Some b => balanced (bs "{") (bs "}") b end ->
    (st && co)%bool = false -> fargs_toks args ++ quals ++ fbody_toks body ++ m = u :: us ->
    exists r a b x, turn o pc prefix targs (LL acts pr st co rp num ret) g (Inp p n u us)
      = COk (Go (LF (if rp then acts else acts ++ map to_act (fcall st p n quals)) pr false false rp (num ++ [bs "." ++ n]) r)) g (Inp a b x m)
      /\ (x = bs ";" \/ x = bs "}").
  Proof.
    intros NI AO QO BO SC E.
    assert (U : u = bs "(" \/ u = bs "()").
    { destruct args; cbn [fargs_toks app] in E; [left|right]; congruence. }
    unfold turn, stages.
    rewrite early; [|intros s S; cbn [tk]; cbn in S; destruct U; subst u; intuition; subst; reflexivity
                    |cbn [tk]; destruct U; subst u; apply Bool.andb_false_r].
    cbn [run_stages]. set (l := LL acts pr st co rp num ret). set (i := Inp p n u us).
    rewrite (fbind_go _ _ l g i g i) by (apply t_scalar_id; cbn [tk i]; destruct U; subst u; reflexivity).
    rewrite (fbind_go _ _ l g i g i) by (apply t_operator_id; cbn [tk i]; destruct U; subst u; reflexivity).
    rewrite (fbind_go _ _ l g i g i).
    2: { rewrite t_flags_id by (cbn [tk i]; destruct U; subst u; reflexivity). cbn [tk i]. destruct U; subst u; reflexivity. }
    destruct body as [bd|]; cbn [fbody_toks] in E.
    - cbn [app] in E. rewrite <- app_assoc in E. cbn [app] in E.
      destruct (function_stage acts pr st co rp num ret p n args quals (bs "{") (bd ++ bs "}" :: m) u us NI AO QO (or_intror eq_refl) SC E) as (r & a & b & R).
      rewrite (fbind_go _ _ _ _ _ _ _ R). set (l' := LF _ _ _ _ _ _ _).
      rewrite (fbind_go _ _ l' g _ g (Inp a b (bs "{") (bd ++ bs "}" :: m))) by (apply t_array_id; reflexivity).
      destruct (brace_stage l' bd a b m BO) as (a' & b' & B'). rewrite (fbind_go _ _ _ _ _ _ _ B').
      destruct (t_return_id l' g (Inp a' b' (bs "}") m)) as (r' & R'); [reflexivity|].
      rewrite (fbind_go _ _ _ _ _ _ _ R'). exists r', a', b', (bs "}"). split; [reflexivity|auto].
    - cbn [app] in E.
      destruct (function_stage acts pr st co rp num ret p n args quals (bs ";") m u us NI AO QO (or_introl eq_refl) SC E) as (r & a & b & R).
      rewrite (fbind_go _ _ _ _ _ _ _ R). set (l' := LF _ _ _ _ _ _ _).
      destruct (late l' (Inp a b (bs ";") m) (or_introl eq_refl)) as (r' & R'). cbn [run_stages] in R'. rewrite R'.
      exists r', a, b, (bs ";"). split; [reflexivity|auto].
  Qed.
  Lemma last_default {A} (l : list A) d d' : l <> [] -> last l d = last l d'.
  Proof. induction l as [|x l IH]; [contradiction|]. intros _. destruct l; [reflexivity|]. cbn [last] in *. apply IH. discriminate. Qed.
  Definition boundary (t : tok) : Prop := teq t "&" = false /\ teq t "~" = false.

  Lemma fun_run ty n args quals body acts pr co rp num ret t2 t1 t0 m :
    mem_ok (MFun ty n args quals body) -> (has_static ty = true -> co = false) -> boundary t0 -> exists r a b x,
    runs (LL acts pr false co rp num ret) (Inp t2 t1 t0 (mtoks1 (MFun ty n args quals body) ++ m))
      (LF (acts ++ map to_act (if (rp || tm)%bool then [] else calls1 (use_mbr o) prefix (class_part prefix) (MFun ty n args quals body)))
          pr false false rp (num ++ [bs "." ++ n]) r) (Inp a b x m) /\ boundary x /\ (x = bs ";" \/ x = bs "}").
  Proof.
    intros (EO & NO & SC & AO & QO & BO) LK (B1 & B2). cbn [mtoks1]. fold (fargs_toks args). fold (fbody_toks body).
    rewrite <- !app_assoc. cbn [app]. rewrite <- !app_assoc.
    destruct (elems_run ty EO acts pr false co rp num ret t2 t1 t0 (n :: fargs_toks args ++ quals ++ fbody_toks body ++ m)) as (r1 & a1 & b1 & R1).
    set (st' := (false || has_static ty)%bool) in *. set (co' := (co || has_const ty)%bool) in *.
    destruct (name_run n acts pr st' co' rp num r1 a1 b1 (last (etoks ty) t0) (fargs_toks args ++ quals ++ fbody_toks body ++ m) NO) as (r2 & R2).
    pose proof NO as NO'. unfold name_ok in NO'. apply Bool.andb_true_iff in NO'. destruct NO' as (NO1 & NU). apply Bool.andb_true_iff in NO1. destruct NO1 as (_ & NI).
    rewrite ident_idt in NI.
    set (p := last (etoks ty) t0) in *.
    assert (P : teq p "~" = is (last (etoks ty) []) "~").
    { unfold p, is, teq in *. destruct (etoks ty) as [|z zs] eqn:Z; [exact B2|]. f_equal. apply last_default. discriminate. }
    assert (NE : exists u us, fargs_toks args ++ quals ++ fbody_toks body ++ m = u :: us) by (destruct args; cbn; eauto). destruct NE as (u & us & NE).
    assert (SC' : (st' && co')%bool = false).
    { unfold st', co'. cbn [orb]. destruct (has_static ty); [|reflexivity]. rewrite (LK eq_refl). cbn [orb andb] in *. exact SC. }
    destruct (function_turn acts pr st' co' rp num r2 p n args quals body m u us NI AO QO BO SC' NE) as (r & a & b & x & R & X).
    exists r, a, b, x. split; [|destruct X; subst x; split; auto; split; reflexivity].
    eapply runs_trans; [exact R1|]. eapply runs_trans; [exact R2|]. rewrite NE.
    match goal with |- runs _ _ ?l' _ => match type of R with _ = COk (Go ?l0) _ _ => assert (Q : l0 = l') end end.
    { cbn [calls1]. unfold fcall. rewrite P. unfold st'. cbn [orb]. destruct rp; [cbn [map orb]; now rewrite app_nil_r|]. cbn [orb]. destruct tm; reflexivity. }
    rewrite <- Q. apply (runs_turn _ _ _ _ _ _ (Go _)) with (3 := R).
    - destruct args; cbn [fargs_toks app] in NE; hdtl NE u us; reflexivity.
    - clear - NE. assert (L := f_equal (@length _) NE). rewrite !app_length in L. cbn [length] in L. unfold len_i. cbn [more].
      assert (1 <= length (fbody_toks body))%nat by (destruct body; cbn; lia).
      assert (1 <= length (fargs_toks args))%nat by (destruct args; cbn; lia). lia.
  Qed.
  Lemma label_run a acts pr co rp num ret t2 t1 t0 m :
    runs (LL acts pr false co rp num ret) (Inp t2 t1 t0 (acctok a :: bs ":" :: m))
      (LL acts (match a with Public => false | _ => true end) false co (respect_private o && match a with Public => false | _ => true end) num ret)
      (Inp t0 (acctok a) (bs ":") m).
  Proof.
    assert (R : turn o pc prefix targs (LL acts pr false co rp num ret) g (Inp t1 t0 (acctok a) (bs ":" :: m))
      = COk (Cont (LL acts (match a with Public => false | _ => true end) false co (respect_private o && match a with Public => false | _ => true end) num ret)) g
          (Inp t0 (acctok a) (bs ":") m)) by (destruct a; reflexivity).
    apply (runs_turn _ _ _ _ _ _ (Cont _)) with (3 := R); [destruct a; reflexivity|]. unfold len_i. cbn. lia.
  Qed.
  Lemma data_call_nostatic co d : data_call (use_mbr o) prefix false co d = data_call (use_mbr o) prefix false false d.
  Proof. unfold data_call. cbn [andb]. reflexivity. Qed.
  Lemma decls_run ds : Forall decl_ok ds -> Forall (fun d => has_static (d_pre d) = false) ds ->
    forall d acts pr st co rp num ret t2 t1 t0 m, decl_ok d -> teq t0 "&" = false ->
    exists r a b, runs (LL acts pr st co rp num ret)
        (Inp t2 t1 t0 (decltoks d ++ concat (map (fun d => bs "," :: decltoks d) ds) ++ bs ";" :: m))
      (LL (acts ++ map to_act (if rp then [] else data_call (use_mbr o) prefix (st || has_static (d_pre d)) (co || has_const (d_pre d)) d
                                                  :: map (data_call (use_mbr o) prefix false false) ds)) pr false
          (co || has_const (d_pre d) || existsb (fun d => has_const (d_pre d)) ds) rp num r) (Inp a b (bs ";") m).
  Proof.
    induction 1 as [|d2 ds D2 _ IH]; intros NS d acts pr st co rp num ret t2 t1 t0 m D T.
    - cbn [map concat app existsb].
      destruct (decl_run d acts pr st co rp num ret t2 t1 t0 (bs ";") m D T eq_refl) as (r & a & b & R).
      exists r, a, b. rewrite Bool.orb_false_r. destruct rp; cbn [map]; [now rewrite app_nil_r|exact R].
    - inversion NS as [|? ? NS1 NS2]; subst. cbn [map concat app]. rewrite <- app_assoc.
      destruct (decl_run d acts pr st co rp num ret t2 t1 t0 (bs ",")
                  (decltoks d2 ++ concat (map (fun d => bs "," :: decltoks d) ds) ++ bs ";" :: m) D T eq_refl) as (r & a & b & R).
      match type of R with runs _ _ (LL ?acts' _ _ ?co' _ _ _) _ =>
        destruct (IH NS2 d2 acts' pr false co' rp num r a b (bs ",") m D2 eq_refl) as (r' & a' & b' & R') end.
      exists r', a', b'. eapply runs_trans; [exact R|]. cbn [existsb]. cbn [orb] in R'. rewrite NS1 in R'.
      rewrite data_call_nostatic in R'. rewrite <- !Bool.orb_assoc in *.
      destruct rp; [exact R'|]. rewrite <- app_assoc in R'. exact R'.
  Qed.
End Mem.
Section Mems.
  Variables (o : opts) (pc : bool -> tok -> tok -> C (list act)) (prefix targs : tok) (g : glob) (ua : list tok).
  Hypothesis OV : overloading o = false.
  Hypothesis CP : has_lt prefix = true -> class_part prefix <> [].
  Notation runs := (runs o pc prefix targs g).
  Notation LL := (LL false ua).
  Lemma mems_run ms : Forall mem_ok ms -> forall co acts pr rp num ret t2 t1 t0 m, no_leak co ms -> boundary t0 ->
    exists pr' co' rp' r a b x,
    runs (LL acts pr false co rp num ret) (Inp t2 t1 t0 (mtoks ms ++ m))
      (LL (acts ++ map to_act (calls (use_mbr o) (respect_private o) prefix (class_part prefix) rp ms)) pr' false co' rp' (num ++ fun_names ms) r)
      (Inp a b x m).
  Proof.
    induction 1 as [|mm ms M _ IH]; intros co acts pr rp num ret t2 t1 t0 m NL B.
    - exists pr, co, rp, ret, t2, t1, t0. cbn. rewrite !app_nil_r. apply runs_refl.
    - unfold mtoks. cbn [map concat]. fold (mtoks ms). rewrite <- app_assoc.
      destruct mm as [acc|d ds|ty n args quals body].
      + cbn [mtoks1 app]. cbn [no_leak] in NL.
        pose proof (label_run o pc prefix targs g false ua OV CP acc acts pr co rp num ret t2 t1 t0 (mtoks ms ++ m)) as R.
        match type of R with runs _ _ (LL _ ?p _ _ ?q _ _) (Inp ?a ?b ?c _) =>
          destruct (IH co acts p q num ret a b c m NL) as (pr' & co' & rp' & r' & a' & b' & x' & R') end; [split; reflexivity|].
        exists pr', co', rp', r', a', b', x'. eapply runs_trans; [exact R|]. cbn [calls]. exact R'.
      + cbn [mtoks1]. rewrite <- !app_assoc. cbn [app]. destruct M as (D & DS & NS & SI). destruct NL as (L1 & NL). destruct B as (B1 & B2).
        destruct (decls_run o pc prefix targs g false ua ds DS NS d acts pr false co rp num ret t2 t1 t0 (mtoks ms ++ m) D B1) as (r & a & b & R).
        match type of R with runs _ _ (LL ?acts' _ _ ?co' _ _ _) _ =>
          destruct (IH co' acts' pr rp num r a b (bs ";") m NL) as (pr' & co2 & rp' & r' & a' & b' & x' & R') end; [split; reflexivity|].
        exists pr', co2, rp', r', a', b', x'. eapply runs_trans; [exact R|]. cbn [calls calls1]. unfold fun_names. cbn [map concat app].
        fold (fun_names ms). rewrite <- app_assoc, <- map_app in R'.
        assert (Q : data_call (use_mbr o) prefix (false || has_static (d_pre d)) (co || has_const (d_pre d)) d
                    = data_call (use_mbr o) prefix (has_static (d_pre d)) (has_const (d_pre d)) d).
        { cbn [orb]. destruct (has_static (d_pre d)); [|now rewrite !((data_call_nostatic o prefix) (_ || _)), !((data_call_nostatic o prefix) (has_const _))].
          destruct (has_const (d_pre d)); [now rewrite Bool.orb_true_r|]. now rewrite (L1 eq_refl eq_refl). }
        rewrite Q in R' |- *. exact R'.
      + destruct NL as (L1 & NL).
        destruct (fun_run o pc prefix targs g false ua OV CP ty n args quals body acts pr co rp num ret t2 t1 t0 (mtoks ms ++ m) M L1 B) as (r & a & b & x & R & X & _). change (LF ua) with (LL) in R. rewrite Bool.orb_false_r in R.
        match type of R with runs _ _ (LL ?acts' _ _ ?co' _ ?num' _) _ =>
          destruct (IH co' acts' pr rp num' r a b x m NL X) as (pr' & co2 & rp' & r' & a' & b' & x' & R') end.
        exists pr', co2, rp', r', a', b', x'. eapply runs_trans; [exact R|]. cbn [calls]. rewrite map_app, app_assoc.
        unfold fun_names. cbn [map concat]. fold (fun_names ms). rewrite app_assoc. exact R'.
  Qed.
  Lemma members_body ms acts pr rp t2 t1 t0 rest f : Forall mem_ok ms -> no_leak false ms -> boundary t0 -> (length (mtoks ms ++ bs "}" :: rest) < f)%nat ->
    exists l a b, members o pc prefix targs f (LL acts pr false false rp [] []) g (Inp t2 t1 t0 (mtoks ms ++ bs "}" :: rest)) = COk l g (Inp a b (bs "}") rest)
      /\ l_acts l = acts ++ map to_act (calls (use_mbr o) (respect_private o) prefix (class_part prefix) rp ms)
      /\ l_num l = fun_names ms /\ l_using l = ua.
  Proof.
    intros M NL B F.
    destruct (mems_run ms M false acts pr rp [] [] t2 t1 t0 (bs "}" :: rest) NL B) as (pr' & co' & rp' & r & a & b & x & R).
    destruct (R f F) as (f' & F' & E). rewrite E. destruct f' as [|f']; [lia|].
    eexists _, b, x. split; [cbn [members]; reflexivity|]. cbn. auto.
  Qed.
End Mems.

(** * The guards of the generated text: C74 *)
From Verif Require Import Base Base_Proofs SMap Dec Desc_Model Tok_Model Parse_Model Parse_Props ClassParse_Model ClassParse_Spec ClassParse_Props Gen_Model.

(** ** The preprocessor, on lines: #if (whose truth [orc] gives), #ifndef, #define, #endif.
    [st]: the conditions open, innermost first; the result: the lines kept, the macros defined *)
Section PP.
  Variable orc : tok -> bool.
  Fixpoint unblank (l : tok) : tok :=
    match l with c :: l' => if (Ascii.eqb c " " || Ascii.eqb c "009")%bool then unblank l' else l | [] => [] end.
  Definition hash (l : tok) : bool := match unblank l with c :: _ => Ascii.eqb c "#" | [] => false end.
  Definition prefixed (p : string) (l : tok) : option tok :=
    if beq (firstn (length (bs p)) l) (bs p) then Some (skipn (length (bs p)) l) else None.
  Definition live (st : list bool) : bool := forallb (fun b => b) st.
  Fixpoint pp (defs : list tok) (st : list bool) (ls : list tok) : option (list tok * list tok) :=
    match ls with
    | [] => match st with [] => Some ([], defs) | _ => None end
    | l :: ls =>
        if hash l then
          match prefixed "#ifndef " l, prefixed "#if " l, prefixed "#endif" l, prefixed "#define " l with
          | Some m, _, _, _ => pp defs (negb (existsb (beq m) defs) :: st) ls
          | _, Some e, _, _ => pp defs (orc e :: st) ls
          | _, _, Some _, _ => match st with _ :: st => pp defs st ls | [] => None end
          | _, _, _, Some m => pp (if live st then m :: defs else defs) st ls
          | _, _, _, _ => match pp defs st ls with Some (k, d) => Some (if live st then l :: k else k, d) | None => None end
          end
        else match pp defs st ls with Some (k, d) => Some (if live st then l :: k else k, d) | None => None end
    end.
End PP.

(** ** Plain lines *)
Lemma pp_body orc body : forall defs st rest, Forall (fun l => hash l = false) body ->
  pp orc defs st (body ++ rest) = match pp orc defs st rest with Some (k, d) => Some ((if live st then body else []) ++ k, d) | None => None end.
Proof.
  induction body as [|l body IH]; intros defs st rest F; cbn [app].
  - destruct (pp orc defs st rest) as [(k, d)|]; [|reflexivity]. destruct (live st); reflexivity.
  - inversion F; subst. cbn [pp]. rewrite H1, IH by assumption. destruct (pp orc defs st rest) as [(k, d)|]; [|reflexivity]. destruct (live st); reflexivity.
Qed.
Lemma prefixed_app p l : prefixed p (bs p ++ l) = Some l.
Proof.
  unfold prefixed. rewrite firstn_app, Nat.sub_diag, firstn_O, app_nil_r, firstn_all, beq_refl. now rewrite skipn_app, skipn_all, Nat.sub_diag.
Qed.
Lemma pp_ifndef orc defs st m ls : pp orc defs st ((bs "#ifndef " ++ m) :: ls) = pp orc defs (negb (existsb (beq m) defs) :: st) ls.
Proof. cbn [pp]. change (hash (bs "#ifndef " ++ m)) with true. cbv iota. now rewrite prefixed_app. Qed.
Lemma pp_define orc defs st m ls : pp orc defs st ((bs "#define " ++ m) :: ls) = pp orc (if live st then m :: defs else defs) st ls.
Proof.
  cbn [pp]. change (hash (bs "#define " ++ m)) with true. cbv iota.
  change (prefixed "#ifndef " (bs "#define " ++ m)) with (@None tok). change (prefixed "#if " (bs "#define " ++ m)) with (@None tok).
  change (prefixed "#endif" (bs "#define " ++ m)) with (@None tok). now rewrite prefixed_app.
Qed.
Lemma pp_endif orc defs b st ls : pp orc defs (b :: st) (bs "#endif" :: ls) = pp orc defs st ls.
Proof. reflexivity. Qed.
(** a guarded block *)
Lemma pp_block orc m body defs st rest : Forall (fun l => hash l = false) body -> live st = true ->
  pp orc defs st ((bs "#ifndef " ++ m) :: (bs "#define " ++ m) :: body ++ bs "#endif" :: rest) =
  if existsb (beq m) defs then pp orc defs st rest
  else match pp orc (m :: defs) st rest with Some (k, d) => Some (body ++ k, d) | None => None end.
Proof.
  intros F L. rewrite pp_ifndef, pp_define, pp_body by exact F. cbn [live forallb]. fold (live st). rewrite L, Bool.andb_true_r, pp_endif.
  destruct (existsb (beq m) defs); cbn [negb]; [|reflexivity]. destruct (pp orc defs st rest) as [(k, d)|]; reflexivity.
Qed.

(** ** The lines of a block are plain *)
Definition tidy (g : glob) : Prop := forall p, In p (g_over g) -> ~ In "#"%char (s_ret (snd p)).
Notation plain := (Forall (fun l => hash l = false)).
Lemma app_hash (c : ascii) (l : tok) : Ascii.eqb c " " = false -> Ascii.eqb c "009" = false -> Ascii.eqb c "#" = false -> hash (c :: l) = false.
Proof. intros A B C. unfold hash. cbn [unblank]. rewrite A, B. cbn [orb]. exact C. Qed.
Lemma node_plain k a s : plain (node_lines k a s).
Proof. unfold node_lines. repeat constructor. Qed.
Lemma level_plain kw scope names : forall avoid, plain (fst (nest_level kw scope names avoid)).
Proof.
  induction names as [|n names IH]; intros avoid; cbn [nest_level]; [constructor|]. specialize (IH (avoid ++ [n])). destruct (nest_level kw scope names (avoid ++ [n])) as (out, av).
  cbn [fst] in *. destruct (existsb (beq n) avoid); [exact IH|]. constructor; [reflexivity|exact IH].
Qed.
Lemma nest_plain nested f : forall scope templ avoid, plain (nest_lines f nested scope templ avoid).
Proof.
  induction f as [|f IH]; intros; cbn [nest_lines]; [constructor|]. pose proof (level_plain (if templ then bs "typename" else []) scope (at_key (scope ++ bs "::") nested) avoid) as P.
  destruct (nest_level _ _ _ _) as (out, av). cbn [fst] in P. apply Forall_app. split; [exact P|]. destruct (rfind2 scope); [|constructor].
  destruct (teq _ _); [constructor|apply IH].
Qed.
Lemma in_dropw p l c : In c (dropw p l) -> In c l.
Proof. induction l as [|d l IH]; cbn [dropw]; [tauto|]. destruct (p d); [right; auto|auto]. Qed.
Lemma in_trim l c : In c (trimWS l) -> In c l.
Proof. unfold trimWS. intros H. apply in_rev, in_dropw, in_rev, in_dropw in H. exact H. Qed.
Lemma in_firstn {A} n (l : list A) x : In x (firstn n l) -> In x l.
Proof. revert l. induction n as [|n IH]; intros [|y l]; cbn [firstn In]; try tauto. intros [H|H]; auto. Qed.
Lemma in_skipn {A} n (l : list A) x : In x (skipn n l) -> In x l.
Proof. revert l. induction n as [|n IH]; intros [|y l]; cbn [skipn In]; try tauto. intros H; right; auto. Qed.
Lemma unblank_in l c l' : unblank l = c :: l' -> In c l.
Proof. induction l as [|d l IH]; [discriminate|]. cbn [unblank]. destruct (_ || _)%bool; [right; auto|]. intros H. left. congruence. Qed.
Lemma no_hash l : ~ In "#"%char l -> hash l = false.
Proof.
  intros H. unfold hash. destruct (unblank l) as [|c l'] eqn:E; [reflexivity|]. apply Ascii.eqb_neq. intros ->. apply H. eapply unblank_in; eauto.
Qed.
Lemma ret_hash r rest : ~ In "#"%char r -> hash rest = false -> hash (r ++ rest) = false.
Proof.
  intros N R. induction r as [|c r IH]; [exact R|]. unfold hash in *. cbn [app unblank]. destruct (_ || _)%bool eqn:E.
  - apply IH. intros H. apply N. right. exact H.
  - apply Ascii.eqb_neq. intros ->. apply N. left. reflexivity.
Qed.
Lemma typename_in r c : In c (insertTypename r) -> In c r \/ In c (bs "const typename ").
Proof.
  unfold insertTypename. set (r' := map _ r). assert (M : In c r' -> In c r \/ In c (bs "const typename ")).
  { unfold r'. intros H. apply in_map_iff in H. destruct H as (x & E & I). destruct (isspace x); subst; [|auto]. right. vm_compute. tauto. }
  assert (T : In c (bs "typename ") -> In c (bs "const typename ")).
  { intros H. change (bs "const typename ") with (bs "const " ++ bs "typename "). apply in_or_app. right. exact H. }
  destruct (_ || _)%bool; [exact M|]. destruct (starts _ _); intros H; apply in_app_or in H; destruct H as [H|H]; auto.
  - apply in_skipn, in_trim in H. auto.
  - apply in_trim in H. auto.
Qed.
Lemma declare_plain s : ~ In "#"%char (s_ret s) -> hash (declare s) = false.
Proof.
  intros N. assert (X : ~ In "#"%char (insertTypename (s_ret s))).
  { intros H. apply typename_in in H. destruct H as [H|H]; [auto|]. vm_compute in H. intuition discriminate. }
  unfold declare. destruct (s_ty s); try reflexivity; apply ret_hash; auto; reflexivity.
Qed.
Lemma op_plain k a : plain (op_line k a).
Proof. unfold op_line. destruct (_ && _)%bool; [repeat constructor|]. destruct (has _ _); repeat constructor. Qed.
Lemma type_plain b k t a : plain (type_line b k t a).
Proof.
  unfold type_line. destruct (a_base a); [repeat constructor|]. destruct (_ || _)%bool; [repeat constructor|].
  destruct (_ && _)%bool; [repeat constructor|]. destruct (_ && _)%bool; repeat constructor.
Qed.
Lemma concat_plain {A} (f : A -> list tok) l : (forall x, plain (f x)) -> plain (concat (map f l)).
Proof. intros H. induction l; cbn; [constructor|]. apply Forall_app. auto. Qed.
Lemma using_plain ns : plain (using_ns ns). Proof. destruct ns; repeat constructor. Qed.
Lemma over_plain g key : tidy g -> plain (map declare (at_key key (g_over g))).
Proof.
  intros T. apply Forall_forall. intros l H. apply in_map_iff in H. destruct H as (s & <- & H). unfold at_key in H. apply in_map_iff in H. destruct H as (p & <- & H).
  apply filter_In in H. destruct H as (H & _). apply declare_plain. now apply T.
Qed.
Lemma inline_plain o g k a : tidy g -> plain (inline_lines o g k a).
Proof.
  intros T. unfold inline_lines. cbv zeta. repeat (apply Forall_app; split);
    try apply using_plain; try (apply nest_plain); try (now apply over_plain); try (apply concat_plain; intros; apply op_plain || apply type_plain); repeat constructor.
Qed.
Lemma work_plain k a : plain (work_head k a).
Proof. unfold work_head. repeat constructor. Qed.

(** ** Sequences of guarded blocks *)
Definition block (b : tok * list tok) : list tok := [] :: (bs "#ifndef " ++ fst b) :: (bs "#define " ++ fst b) :: snd b ++ [bs "#endif"].
Definition tblock (b : tok * list tok) : list tok := (bs "#ifndef " ++ fst b) :: (bs "#define " ++ fst b) :: snd b ++ [bs "#endif"].
(** what is kept of them: the text before each block, and the block if its macro is new *)
Fixpoint kept (pre : list tok) (defs : list tok) (l : list (tok * list tok)) : list tok * list tok :=
  match l with
  | [] => ([], defs)
  | b :: l => if existsb (beq (fst b)) defs then let '(k, d) := kept pre defs l in (pre ++ k, d)
              else let '(k, d) := kept pre (fst b :: defs) l in (pre ++ snd b ++ k, d)
  end.
Lemma hash_nil : hash [] = false. Proof. reflexivity. Qed.
Lemma pp_blocks orc l : forall defs st rest, live st = true -> Forall (fun b => plain (snd b)) l ->
  pp orc defs st (concat (map block l) ++ rest) =
  let '(k, d) := kept [[]] defs l in match pp orc d st rest with Some (k', d') => Some (k ++ k', d') | None => None end.
Proof.
  induction l as [|b l IH]; intros defs st rest L F; cbn [map concat app kept].
  - destruct (pp orc defs st rest) as [(k, d)|]; reflexivity.
  - inversion F; subst. unfold block at 1. rewrite <- app_assoc. cbn [app].
    change ([] :: ?x) with ([[]] ++ x). rewrite pp_body by (repeat constructor). rewrite L, <- app_assoc. cbn [app]. rewrite pp_block by assumption.
    destruct (existsb (beq (fst b)) defs).
    + rewrite IH by assumption. destruct (kept [[]] defs l) as (k, d). destruct (pp orc d st rest) as [(k', d')|]; reflexivity.
    + rewrite IH by assumption. destruct (kept [[]] (fst b :: defs) l) as (k, d). destruct (pp orc d st rest) as [(k', d')|]; [|reflexivity]. cbn [app]. now rewrite <- !app_assoc.
Qed.
Lemma pp_tblocks orc l : forall defs st rest, live st = true -> Forall (fun b => plain (snd b)) l ->
  pp orc defs st (concat (map tblock l) ++ rest) =
  let '(k, d) := kept [] defs l in match pp orc d st rest with Some (k', d') => Some (k ++ k', d') | None => None end.
Proof.
  induction l as [|b l IH]; intros defs st rest L F; cbn [map concat app kept].
  - destruct (pp orc defs st rest) as [(k, d)|]; reflexivity.
  - inversion F; subst. unfold tblock at 1. rewrite <- app_assoc. cbn [app]. rewrite <- app_assoc. cbn [app]. rewrite pp_block by assumption.
    destruct (existsb (beq (fst b)) defs).
    + rewrite IH by assumption. destruct (kept [] defs l) as (k, d). destruct (pp orc d st rest) as [(k', d')|]; reflexivity.
    + rewrite IH by assumption. destruct (kept [] (fst b :: defs) l) as (k, d). destruct (pp orc d st rest) as [(k', d')|]; [|reflexivity]. now rewrite <- app_assoc.
Qed.
Lemma existsb_in x l : existsb (beq x) l = true <-> In x l.
Proof.
  rewrite existsb_exists. split; [intros (y & I & E); apply beq_eq in E; subst; exact I|intros I; exists x; split; [exact I|apply beq_refl]].
Qed.
Lemma kept_defs pre l : forall defs x, In x (snd (kept pre defs l)) <-> In x defs \/ In x (map fst l).
Proof.
  induction l as [|b l IH]; intros defs x; cbn [kept map In]; [cbn; tauto|]. destruct (existsb (beq (fst b)) defs) eqn:E.
  - specialize (IH defs x). destruct (kept pre defs l) as (k, d). cbn [snd] in *. apply existsb_in in E. rewrite IH. intuition (subst; auto).
  - specialize (IH (fst b :: defs) x). destruct (kept pre (fst b :: defs) l) as (k, d). cbn [snd] in *. rewrite IH. cbn [In]. intuition auto.
Qed.
Lemma kept_none pre l : forall defs, incl (map fst l) defs -> (forall x, In x (fst (kept pre defs l)) -> In x pre) /\ snd (kept pre defs l) = defs.
Proof.
  induction l as [|b l IH]; intros defs H; cbn [kept]; [split; [intros x []|reflexivity]|].
  assert (E : existsb (beq (fst b)) defs = true) by (apply existsb_in, H; left; reflexivity). rewrite E.
  destruct (IH defs) as (A & B); [intros x X; apply H; right; exact X|]. destruct (kept pre defs l) as (k, d). cbn [fst snd] in *. split; [|exact B].
  intros x X. apply in_app_or in X. destruct X; auto.
Qed.
Lemma kept_new pre l1 b l2 : forall defs, ~ In (fst b) defs -> ~ In (fst b) (map fst l1) -> exists x y, fst (kept pre defs (l1 ++ b :: l2)) = x ++ snd b ++ y.
Proof.
  induction l1 as [|a l1 IH]; intros defs N M; cbn [app kept].
  - replace (existsb (beq (fst b)) defs) with false by (symmetry; apply Bool.not_true_iff_false; rewrite existsb_in; exact N).
    destruct (kept pre (fst b :: defs) l2) as (k, d). exists pre, k. reflexivity.
  - cbn [map In] in M. destruct (existsb (beq (fst a)) defs).
    + destruct (IH defs) as (x & y & E); [tauto|tauto|]. destruct (kept pre defs (l1 ++ b :: l2)) as (k, d). cbn [fst] in *. exists (pre ++ x), y. now rewrite E, <- app_assoc.
    + destruct (IH (fst a :: defs)) as (x & y & E); [cbn [In]; tauto|tauto|]. destruct (kept pre (fst a :: defs) (l1 ++ b :: l2)) as (k, d). cbn [fst] in *.
      exists (pre ++ snd a ++ x), y. now rewrite E, <- !app_assoc.
Qed.

(** ** The text of the generator as blocks *)
Definition guard (k : tok) (a : action) : tok := macro (bs "CLASSDESC_" ++ k ++ bs "_" ++ without_type_qualifier (x_type a)).
Definition tguard (a : action) : tok := macro (bs "CLASSDESC_TYPENAME_" ++ without_type_qualifier (x_type a)).
Definition pairs (ks : list tok) (l : list action) : list (tok * action) := concat (map (fun k => map (fun a => (k, a)) l) ks).
(** named by some omit pragma, of the input or of one of the headers *)
Definition omitted (g : glob) (bf : tok -> tok) (ks : list tok) (k : tok) (a : action) : Prop :=
  In (k ++ plain_name 0 (without_type_qualifier (x_type a)) 0 false) (of_kind POmit (g_prag g) ++ concat (map (fun k => omits_in (bf k)) ks)).
Lemma one_block c g omit k a hw : tidy g -> exists body, plain body /\ o_std (fst (one c g omit k a hw)) = block (guard k a, body)
  /\ (~ In (k ++ plain_name 0 (without_type_qualifier (x_type a)) 0 false) omit -> (c_workdir c = [] \/ x_templ a <> []) ->
      exists x y, body = x ++ inline_lines (c_opts c) g k a ++ y).
Proof.
  intros T. unfold one. cbv zeta. destruct (existsb _ omit) eqn:E.
  - exists [[]]. split; [repeat constructor|]. split; [reflexivity|]. intros N. apply existsb_in in E. contradiction.
  - set (n1 := (if existsb _ (of_kind PTree _) then _ else _) ++ _).
    assert (P : plain n1). { unfold n1. apply Forall_app. split; match goal with |- Forall _ (if ?b then _ else _) => destruct b end; try apply node_plain; constructor. }
    destruct (beq (c_workdir c) [] || templated a)%bool eqn:W; cbn [fst o_std].
    + exists (n1 ++ inline_lines (c_opts c) g k a ++ [[]]). split; [apply Forall_app; split; [exact P|apply Forall_app; split; [now apply inline_plain|repeat constructor]]|].
      split; [unfold block; cbn [fst snd app]; rewrite <- !app_assoc; reflexivity|]. intros _ _. eauto.
    + exists (n1 ++ work_head k a). split; [apply Forall_app; split; [exact P|apply work_plain]|].
      split; [unfold block; cbn [fst snd app]; rewrite <- !app_assoc; reflexivity|]. intros _ [H|H]; exfalso.
      * rewrite H, beq_refl in W. discriminate.
      * destruct (beq _ _); [discriminate|]. cbn [orb] in W. unfold templated in W. destruct (x_templ a); [congruence|discriminate].
Qed.
Lemma types_blocks c g omit k l : tidy g -> forall hw, exists bl, Forall (fun b => plain (snd b)) bl /\ o_std (fst (all_types c g omit k l hw)) = concat (map block bl)
  /\ map fst bl = map (guard k) l
  /\ (forall l1 a l2, l = l1 ++ a :: l2 -> ~ In (k ++ plain_name 0 (without_type_qualifier (x_type a)) 0 false) omit -> (c_workdir c = [] \/ x_templ a <> []) ->
      exists b1 b b2 x y, bl = b1 ++ b :: b2 /\ map fst b1 = map (guard k) l1 /\ fst b = guard k a /\ snd b = x ++ inline_lines (c_opts c) g k a ++ y).
Proof.
  intros T. induction l as [|a l IH]; intros hw; cbn [all_types].
  - exists []. split; [constructor|]. split; [reflexivity|]. split; [reflexivity|]. intros [|? ?] ? ? H; discriminate.
  - destruct (one_block c g omit k a hw T) as (body & P & E & IN). destruct (one c g omit k a hw) as (r, hw1). cbn [fst] in E.
    destruct (IH hw1) as (bl & F & E2 & M & SP). destruct (all_types c g omit k l hw1) as (rs, hw2). cbn [fst] in *.
    exists ((guard k a, body) :: bl). split; [constructor; assumption|]. split; [cbn [oapp o_std map concat]; now rewrite E, E2|]. split; [cbn [map fst]; now rewrite M|].
    intros [|a1 l1] a0 l2 EQ N W.
    + cbn [app] in EQ. injection EQ as <- <-. destruct (IN N W) as (x & y & B). exists [], (guard k a, body), bl, x, y. repeat split; auto.
    + cbn [app] in EQ. injection EQ as <- EQ. destruct (SP _ _ _ EQ N W) as (b1 & b & b2 & x & y & B & Q & G & H).
      exists ((guard k a, body) :: b1), b, b2, x, y. rewrite B. repeat split; auto. cbn [map fst]. now rewrite Q.
Qed.
Lemma concat_split {A B} (f : A -> list B) l : forall p x q, concat (map f l) = p ++ x :: q ->
  exists l1 a l2 u v, l = l1 ++ a :: l2 /\ f a = u ++ x :: v /\ p = concat (map f l1) ++ u.
Proof.
  induction l as [|a l IH]; intros p x q H; cbn [map concat] in H; [destruct p; discriminate|].
  destruct (Nat.lt_ge_cases (length p) (length (f a))) as [L|L].
  - exists [], a, l. assert (X : exists v, f a = p ++ x :: v).
    { clear - H L. revert p L H. generalize (f a) as m. intros m. induction m as [|y m IHm]; intros [|z p] L H; cbn [length app] in *; try lia.
      - injection H as <- H. eauto.
      - injection H as <- H. destruct (IHm p) as (v & E); [lia|exact H|]. exists v. now rewrite E. }
    destruct X as (v & X). exists p, v. repeat split; auto.
  - assert (X : exists p', p = f a ++ p' /\ concat (map f l) = p' ++ x :: q).
    { clear - H L. revert p L H. generalize (f a) as m. intros m. induction m as [|y m IHm]; intros p L H; cbn [app] in *; [eauto|].
      destruct p as [|z p]; cbn [length] in L; [lia|]. cbn [app] in H. injection H as <- H. destruct (IHm p) as (p' & -> & E); [lia|exact H|]. eauto. }
    destruct X as (p' & -> & E). destruct (IH _ _ _ E) as (l1 & a0 & l2 & u & v & -> & F & ->). exists (a :: l1), a0, l2, u, v. repeat split; auto.
    cbn [map concat]. now rewrite <- app_assoc.
Qed.
Lemma map_split {A B} (f : A -> B) l p x q : map f l = p ++ x :: q -> exists l1 a l2, l = l1 ++ a :: l2 /\ p = map f l1 /\ x = f a.
Proof.
  revert p. induction l as [|a l IH]; intros [|y p] H; try discriminate; cbn [map app] in H; injection H as <- H.
  - exists [], a, l. auto.
  - destruct (IH _ H) as (l1 & b & l2 & -> & -> & ->). exists (a :: l1), b, l2. auto.
Qed.
Definition guards_of (l : list (tok * action)) : list tok := map (fun p => guard (fst p) (snd p)) l.
Lemma guards_pairs ks l : guards_of (pairs ks l) = concat (map (fun k => map (guard k) l) ks).
Proof.
  unfold guards_of, pairs. rewrite concat_map, map_map. f_equal. apply map_ext. intros k. now rewrite map_map.
Qed.
Lemma actions_blocks c g bf ks : tidy g -> forall omit hw, exists bl, Forall (fun b => plain (snd b)) bl
  /\ o_std (all_actions c g bf omit ks hw) = concat (map block bl) /\ map fst bl = guards_of (pairs ks (g_actions g))
  /\ (forall p k a q, pairs ks (g_actions g) = p ++ (k, a) :: q ->
      ~ In (k ++ plain_name 0 (without_type_qualifier (x_type a)) 0 false) (omit ++ concat (map (fun k => omits_in (bf k)) ks)) -> (c_workdir c = [] \/ x_templ a <> []) ->
      exists b1 b b2 x y, bl = b1 ++ b :: b2 /\ map fst b1 = guards_of p /\ fst b = guard k a /\ snd b = x ++ inline_lines (c_opts c) g k a ++ y).
Proof.
  intros T. induction ks as [|k ks IH]; intros omit hw; cbn [all_actions].
  - exists []. split; [constructor|]. split; [reflexivity|]. split; [reflexivity|]. intros [|? ?] ? ? ? H; discriminate.
  - destruct (types_blocks c g (omit ++ omits_in (bf k)) k (g_actions g) T hw) as (b1 & F1 & E1 & M1 & S1).
    destruct (all_types c g (omit ++ omits_in (bf k)) k (g_actions g) hw) as (r, hw1). cbn [fst] in *.
    destruct (IH (omit ++ omits_in (bf k)) hw1) as (b2 & F2 & E2 & M2 & S2).
    exists (b1 ++ b2). split; [apply Forall_app; auto|]. split; [cbn [oapp o_std]; now rewrite E1, E2, map_app, concat_app|].
    assert (G : guards_of (pairs (k :: ks) (g_actions g)) = map (guard k) (g_actions g) ++ guards_of (pairs ks (g_actions g))).
    { now rewrite !guards_pairs. }
    split; [now rewrite map_app, M1, M2|].
    intros p k' a q H N W. unfold pairs in H. cbn [map concat] in H. fold (pairs ks (g_actions g)) in H.
    destruct (Nat.lt_ge_cases (length p) (length (g_actions g))) as [L|L].
    + assert (X : exists v, map (fun a => (k, a)) (g_actions g) = p ++ (k', a) :: v).
      { clear - H L. rewrite <- (map_length (fun a => (k, a)) (g_actions g)) in L. revert p L H. generalize (map (fun a => (k, a)) (g_actions g)) as m. intros m.
        induction m as [|y m IHm]; intros [|z p] L H; cbn [length app] in *; try lia.
        - injection H as <- H. eauto.
        - injection H as <- H. destruct (IHm p) as (v & E); [lia|exact H|]. exists v. now rewrite E. }
      destruct X as (v & X). destruct (map_split _ _ _ _ _ X) as (l1 & a' & l2 & EQ & -> & EA). injection EA as -> ->.
      destruct (S1 l1 a' l2 EQ) as (c1 & b & c2 & x & y & B & Q & GG & HH).
      { intros X0. apply N. cbn [map concat]. apply in_app_or in X0. apply in_or_app. destruct X0; [auto|]. right. apply in_or_app. auto. }
      { exact W. }
      exists c1, b, (c2 ++ b2), x, y. rewrite B, <- app_assoc. repeat split; auto. rewrite Q. unfold guards_of. now rewrite map_map.
    + assert (X : exists p', p = map (fun a => (k, a)) (g_actions g) ++ p' /\ pairs ks (g_actions g) = p' ++ (k', a) :: q).
      { clear - H L. rewrite <- (map_length (fun a => (k, a)) (g_actions g)) in L. revert p L H. generalize (map (fun a => (k, a)) (g_actions g)) as m. intros m.
        induction m as [|y m IHm]; intros p L H; cbn [app] in *; [eauto|].
        destruct p as [|z p]; cbn [length] in L; [lia|]. cbn [app] in H. injection H as <- H. destruct (IHm p) as (p' & -> & E); [lia|exact H|]. eauto. }
      destruct X as (p' & -> & E). destruct (S2 _ _ _ _ E) as (c1 & b & c2 & x & y & B & Q & GG & HH).
      { intros X0. apply N. rewrite <- app_assoc in X0. exact X0. }
      { exact W. }
      exists (b1 ++ c1), b, c2, x, y. rewrite B, <- app_assoc. repeat split; auto. rewrite map_app, M1, Q. unfold guards_of. now rewrite map_app, map_map.
Qed.

(** ** Text that leaves the conditions and the macros as they were *)
Definition neutral (L : list tok) : Prop := forall orc D, exists K, incl K L /\ forall rest,
  pp orc D [] (L ++ rest) = match pp orc D [] rest with Some (k, d) => Some (K ++ k, d) | None => None end.
Lemma neutral_nil : neutral [].
Proof. intros orc D. exists []. split; [intros x []|]. intros rest. cbn [app]. destruct (pp orc D [] rest) as [(k, d)|]; reflexivity. Qed.
Lemma neutral_app a b : neutral a -> neutral b -> neutral (a ++ b).
Proof.
  intros A B orc D. destruct (A orc D) as (K1 & I1 & E1), (B orc D) as (K2 & I2 & E2). exists (K1 ++ K2). split.
  - intros x X. apply in_app_or in X. apply in_or_app. destruct X; auto.
  - intros rest. rewrite <- app_assoc, E1, E2. destruct (pp orc D [] rest) as [(k, d)|]; [|reflexivity]. now rewrite <- app_assoc.
Qed.
Lemma neutral_plain L : plain L -> neutral L.
Proof. intros F orc D. exists L. split; [apply incl_refl|]. intros rest. rewrite pp_body by exact F. reflexivity. Qed.
Lemma neutral_other l : prefixed "#ifndef " l = None -> prefixed "#if " l = None -> prefixed "#endif" l = None -> prefixed "#define " l = None -> neutral [l].
Proof.
  intros A B C E orc D. exists [l]. split; [apply incl_refl|]. intros rest. cbn [app pp]. rewrite A, B, C, E.
  destruct (hash l), (pp orc D [] rest) as [(k, d)|]; reflexivity.
Qed.
Lemma neutral_cond e body : Forall (fun l => prefixed "#ifndef " l = None /\ prefixed "#if " l = None /\ prefixed "#endif" l = None /\ prefixed "#define " l = None) body ->
  neutral ((bs "#if " ++ e) :: body ++ [bs "#endif"]).
Proof.
  intros F orc D. exists (if orc e then body else []). split.
  - destruct (orc e); [intros x X; right; apply in_or_app; auto|intros x []].
  - intros rest. cbn [app]. rewrite <- app_assoc. cbn [pp]. change (hash (bs "#if " ++ e)) with true. cbv iota.
    change (prefixed "#ifndef " (bs "#if " ++ e)) with (@None tok). rewrite prefixed_app.
    assert (G : forall st rest, pp orc D st (body ++ rest) = match pp orc D st rest with Some (k, d) => Some ((if live st then body else []) ++ k, d) | None => None end).
    { clear - F. induction body as [|l body IH]; intros st rest; cbn [app].
      - destruct (pp orc D st rest) as [(k, d)|]; [|reflexivity]. destruct (live st); reflexivity.
      - inversion F; subst. destruct H1 as (A & B & C & E). cbn [pp]. rewrite A, B, C, E, IH by assumption.
        destruct (hash l), (pp orc D st rest) as [(k, d)|], (live st); reflexivity. }
    rewrite G. cbn [app]. rewrite pp_endif. cbn [live forallb]. destruct (orc e); reflexivity.
Qed.
Lemma neutral_concat {A} (f : A -> list tok) l : (forall x, neutral (f x)) -> neutral (concat (map f l)).
Proof. intros H. induction l; cbn; [apply neutral_nil|apply neutral_app; auto]. Qed.
Lemma concat_map_single {A B} (f : A -> B) l : concat (map (fun x => [f x]) l) = map f l.
Proof. induction l; cbn; congruence. Qed.
Lemma neutral_head c g ks : neutral (head_lines c g ks).
Proof.
  unfold head_lines. apply neutral_app; [change [bs "#include ""classdesc.h"""; []] with ([bs "#include ""classdesc.h"""] ++ [[]]); apply neutral_app;
    [apply neutral_other; reflexivity|apply neutral_plain; repeat constructor]|].
  apply neutral_app; [apply (neutral_cond (bs "defined(__GNUC__) && !defined(__ICC) && !defined(__clang__)") (firstn 3 (skipn 1 warn_off))); repeat constructor|].
  apply neutral_app; [destruct (c_def c); [|apply neutral_nil]; unfold dummies; apply neutral_plain, Forall_forall; intros x X; apply in_map_iff in X; destruct X as (p & <- & _); reflexivity|].
  apply neutral_app; [rewrite <- concat_map_single; apply neutral_concat; intros k; apply neutral_other; reflexivity|].
  apply neutral_app; [|apply neutral_plain, Forall_forall; intros x X; apply in_map_iff in X; destruct X as (p & <- & _); reflexivity].
  destruct ks as [|k ks]; [apply neutral_nil|]. apply neutral_plain. unfold in_ns. constructor; [reflexivity|]. apply Forall_app. split; [|repeat constructor].
  apply concat_plain. intros x. repeat constructor.
Qed.
Lemma neutral_on : neutral warn_on.
Proof. apply (neutral_cond (bs "defined(__GNUC__) && !defined(__ICC) && !defined(__clang__)") (firstn 1 (skipn 1 warn_on))). repeat constructor. Qed.

(** ** The type names *)
Definition tguards (l : list action) : list tok := map tguard (filter (fun a => negb (teq (type_qualifier (x_type a)) "typename")) l).
Lemma keys_plain q keys : plain (key_lines q keys).
Proof.
  unfold key_lines. destruct (rev keys) as [|l ks]; [constructor|]. apply Forall_app. split; [|repeat constructor].
  apply Forall_forall. intros x X. apply in_map_iff in X. destruct X as (p & <- & _). reflexivity.
Qed.
Lemma ns_plain ns body : plain body -> plain (in_ns ns body).
Proof. intros F. constructor; [reflexivity|]. apply Forall_app. split; [exact F|repeat constructor]. Qed.
Lemma enum_plain g t n : plain (enum_lines g t n).
Proof.
  apply ns_plain. apply Forall_app. split; [|repeat constructor]. destruct (at_key t (g_enums g)) as [|k ks]; [constructor|].
  apply Forall_app. split; [repeat constructor|]. apply Forall_app. split; [apply keys_plain|repeat constructor].
Qed.
Lemma tn_blocks g l : forall tn, optcat (map (tn_lines g) l) = Some tn -> exists bl, Forall (fun b => plain (snd b)) bl
  /\ tn = concat (map tblock bl) /\ map fst bl = tguards l
  /\ (forall l1 a l2, l = l1 ++ a :: l2 -> type_qualifier (x_type a) <> bs "typename" ->
      exists b1 b b2, bl = b1 ++ b :: b2 /\ map fst b1 = tguards l1 /\ fst b = tguard a /\ tn_lines g a = Some (tblock b)).
Proof.
  induction l as [|a l IH]; intros tn H; cbn [map optcat] in H.
  - injection H as <-. exists []. split; [constructor|]. split; [reflexivity|]. split; [reflexivity|]. intros [|? ?] ? ? X; discriminate.
  - destruct (tn_lines g a) as [x|] eqn:X; [|discriminate]. destruct (optcat (map (tn_lines g) l)) as [r|] eqn:R; [|discriminate]. injection H as <-.
    destruct (IH r eq_refl) as (bl & F & -> & M & SP). clear IH. pose proof X as XL. unfold tn_lines in X. destruct (tnTempl (x_templ a)) as [t|] eqn:TT; [|discriminate].
    unfold tguards. cbn [filter]. destruct (teq (type_qualifier (x_type a)) "typename") eqn:Q; cbn [negb map].
    + injection X as <-. exists bl. split; [exact F|]. split; [reflexivity|]. split; [exact M|].
      intros [|a1 l1] a0 l2 E NQ; cbn [app] in E; injection E as <- E.
      * exfalso. apply NQ. apply beq_eq in Q. exact Q.
      * destruct (SP _ _ _ E NQ) as (b1 & b & b2 & B & Q1 & G & S1). exists b1, b, b2. repeat split; auto.
        unfold tguards in *. cbn [filter map]. rewrite Q. exact Q1.
    + set (body := in_ns _ _) in X. assert (P : plain body).
      { unfold body. apply ns_plain. apply Forall_app. split; [destruct (templated a); repeat constructor|]. destruct (leadeq (x_type a) "enum"); [apply enum_plain|constructor]. }
      clearbody body. injection X as <-. exists ((tguard a, body) :: bl). split; [constructor; assumption|]. split; [reflexivity|].
      split; [cbn [map fst]; now rewrite M|]. intros [|a1 l1] a0 l2 E NQ; cbn [app] in E; injection E as <- E.
      * exists [], (tguard a, body), bl. repeat split; auto.
      * destruct (SP _ _ _ E NQ) as (b1 & b & b2 & B & Q1 & G & S1). exists ((tguard a, body) :: b1), b, b2. rewrite B. repeat split; auto.
        cbn [map fst filter]. rewrite Q. cbn [negb map]. now rewrite Q1.
Qed.

(** ** C74 *)
(** the macros of the text *)
Definition all_guards (c : conf) (g : glob) (ks : list tok) : list tok :=
  (if typeNm (c_opts c) then tguards (g_actions g) else []) ++ guards_of (pairs ks (g_actions g)).
(** the lines around the blocks *)
Definition frame (c : conf) (g : glob) (ks : list tok) : list tok :=
  head_lines c g ks ++ [bs "namespace classdesc_access {"; []; bs "}"] ++ warn_on.
Lemma output_pp c g bf ks o orc D : output c g bf ks = Some o -> g_out g = [] -> tidy g ->
  exists tb ab K1 K2, incl K1 (head_lines c g ks) /\ incl K2 warn_on /\ map fst tb = (if typeNm (c_opts c) then tguards (g_actions g) else [])
  /\ map fst ab = guards_of (pairs ks (g_actions g))
  /\ (typeNm (c_opts c) = true -> forall l1 a l2, g_actions g = l1 ++ a :: l2 -> type_qualifier (x_type a) <> bs "typename" ->
      exists b1 b b2, tb = b1 ++ b :: b2 /\ map fst b1 = tguards l1 /\ fst b = tguard a /\ tn_lines g a = Some (tblock b))
  /\ (forall p k a q, pairs ks (g_actions g) = p ++ (k, a) :: q -> ~ omitted g bf ks k a -> (c_workdir c = [] \/ x_templ a <> []) ->
      exists b1 b b2 x y, ab = b1 ++ b :: b2 /\ map fst b1 = guards_of p /\ fst b = guard k a /\ snd b = x ++ inline_lines (c_opts c) g k a ++ y)
  /\ forall rest, pp orc D [] (o_std o ++ rest) =
     match pp orc (snd (kept [[]] (snd (kept [] D tb)) ab)) [] rest with
     | Some (k, d) => Some ((K1 ++ fst (kept [] D tb) ++ [bs "namespace classdesc_access {"] ++ fst (kept [[]] (snd (kept [] D tb)) ab) ++ [bs "}"] ++ K2) ++ k, d)
     | None => None
     end.
Proof.
  intros H GO T. unfold output in H. destruct (optcat _) as [tn|] eqn:TN; [|discriminate].
  apply (f_equal (fun x => match x with Some y => y | None => onil end)) in H. cbv beta iota zeta in H. subst o. cbn [o_std]. rewrite GO. cbn [app].
  destruct (tn_blocks g _ _ TN) as (tb0 & TF & -> & TM & TS).
  destruct (actions_blocks c g bf ks T (of_kind POmit (g_prag g)) []) as (ab & AF & AE & AM & AS).
  set (tb := if typeNm (c_opts c) then tb0 else []).
  assert (TB : (if typeNm (c_opts c) then concat (map tblock tb0) else []) = concat (map tblock tb)) by (unfold tb; destruct (typeNm _); reflexivity).
  assert (F2 : Forall (fun b => plain (snd b)) tb) by (unfold tb; destruct (typeNm _); [exact TF|constructor]).
  destruct (neutral_head c g ks orc D) as (K1 & I1 & E1).
  destruct (kept [] D tb) as (k1, d1) eqn:KT. destruct (kept [[]] d1 ab) as (k2, d2) eqn:KA.
  destruct (neutral_on orc d2) as (K2 & I2 & E2).
  exists tb, ab, K1, K2. split; [exact I1|]. split; [exact I2|]. split; [unfold tb; destruct (typeNm _); [exact TM|reflexivity]|]. split; [exact AM|].
  split; [intros TT; unfold tb; rewrite TT; exact TS|]. split; [intros p k a q E N W; exact (AS p k a q E N W)|].
  intros rest. rewrite TB, AE, <- !app_assoc, E1. rewrite pp_tblocks by auto. cbn [snd fst]. rewrite KT. cbn [fst snd]. rewrite ?KA. cbn [fst snd].
  unfold in_ns. cbn [app]. rewrite <- !app_assoc. change (?x :: ?y) with ([x] ++ y) at 1.
  rewrite pp_body by (repeat constructor). rewrite pp_blocks by auto. rewrite KA. cbn [app]. change (?x :: ?y) with ([x] ++ y) at 1.
  rewrite pp_body by (repeat constructor). rewrite E2. destruct (pp orc d2 [] rest) as [(k, d)|]; [|reflexivity].
  cbn [live forallb]. f_equal. f_equal. repeat (rewrite <- app_assoc; cbn [app]). reflexivity.
Qed.
Theorem C74_once : forall c g bf ks o orc D, output c g bf ks = Some o -> g_out g = [] -> tidy g ->
  exists K d, pp orc D [] (o_std o) = Some (K, d)
  /\ (forall m, In m d <-> In m D \/ In m (all_guards c g ks))
  /\ (forall p k a q, pairs ks (g_actions g) = p ++ (k, a) :: q -> ~ omitted g bf ks k a -> (c_workdir c = [] \/ x_templ a <> []) ->
      ~ In (guard k a) D -> ~ In (guard k a) (tguards (g_actions g) ++ guards_of p) ->
      exists x y, K = x ++ inline_lines (c_opts c) g k a ++ y)
  /\ (typeNm (c_opts c) = true -> forall l1 a l2, g_actions g = l1 ++ a :: l2 -> type_qualifier (x_type a) <> bs "typename" ->
      ~ In (tguard a) D -> ~ In (tguard a) (tguards l1) -> exists x y body, tn_lines g a = Some (tblock (tguard a, body)) /\ K = x ++ body ++ y).
Proof.
  intros c g bf ks o orc D H GO T. destruct (output_pp c g bf ks o orc D H GO T) as (tb & ab & K1 & K2 & I1 & I2 & TM & AM & TS & AS & E).
  specialize (E []). rewrite app_nil_r in E. cbn [pp] in E. rewrite app_nil_r in E. eexists _, _. split; [exact E|].
  split; [intros m; rewrite !kept_defs, TM, AM; unfold all_guards; rewrite in_app_iff; tauto|]. split.
  - intros p k a q EQ N W ND NP. destruct (AS p k a q EQ N W) as (b1 & b & b2 & x & y & -> & B1 & B & SB).
    rewrite in_app_iff in NP.
    destruct (kept_new [[]] b1 b b2 (snd (kept [] D tb))) as (u & v & KK).
    { rewrite kept_defs, TM, B. destruct (typeNm (c_opts c)); cbn [In]; tauto. }
    { rewrite B, B1. tauto. }
    rewrite KK, SB. exists (K1 ++ fst (kept [] D tb) ++ [bs "namespace classdesc_access {"] ++ u ++ x), (y ++ v ++ [bs "}"] ++ K2).
    now rewrite <- !app_assoc.
  - intros TT l1 a l2 EQ NQ ND NP. destruct (TS TT l1 a l2 EQ NQ) as (b1 & (m, body) & b2 & -> & B1 & B & SB). cbn [fst] in B. subst m.
    destruct (kept_new [] b1 (tguard a, body) b2 D) as (u & v & KK); [exact ND|now rewrite B1|].
    eexists (K1 ++ u), _, body. split; [exact SB|]. rewrite KK, <- !app_assoc. reflexivity.
Qed.
Print Assumptions C74_once.
(** when the macros are already there only the frame is left *)
Theorem C74_again : forall c g bf ks o orc D rest, output c g bf ks = Some o -> g_out g = [] -> tidy g -> incl (all_guards c g ks) D ->
  exists K, incl K (frame c g ks) /\ pp orc D [] (o_std o ++ rest) = match pp orc D [] rest with Some (k, d) => Some (K ++ k, d) | None => None end.
Proof.
  intros c g bf ks o orc D rest H GO T IN. destruct (output_pp c g bf ks o orc D H GO T) as (tb & ab & K1 & K2 & I1 & I2 & TM & AM & _ & _ & E).
  destruct (kept_none [] tb D) as (A1 & A2). { rewrite TM. intros x X. apply IN. unfold all_guards. apply in_or_app. auto. }
  destruct (kept_none [[]] ab D) as (B1 & B2). { rewrite AM. intros x X. apply IN. unfold all_guards. apply in_or_app. auto. }
  rewrite A2, B2 in E. eexists. split; [|apply E]. unfold frame. intros x X.
  rewrite !in_app_iff in X. destruct X as [X|[X|[X|[X|[X|X]]]]].
  - apply in_or_app. left. auto.
  - destruct (A1 _ X).
  - apply in_or_app. right. apply in_or_app. left. destruct X as [<-|[]]. left. reflexivity.
  - apply in_or_app. right. apply in_or_app. left. destruct (B1 _ X) as [<-|[]]. right. left. reflexivity.
  - apply in_or_app. right. apply in_or_app. left. destruct X as [<-|[]]. right. right. left. reflexivity.
  - apply in_or_app. right. apply in_or_app. right. auto.
Qed.
Print Assumptions C74_again.
(** any number of inclusions: the first gives all there is *)
Theorem C74_included : forall n c g bf ks o orc D, output c g bf ks = Some o -> g_out g = [] -> tidy g ->
  exists K K' d, pp orc D [] (o_std o) = Some (K, d) /\ incl K' (frame c g ks) /\ pp orc D [] (concat (repeat (o_std o) (S n))) = Some (K ++ K', d).
Proof.
  intros n c g bf ks o orc D H GO T. destruct (C74_once c g bf ks o orc D H GO T) as (K & d & E & MD & _).
  assert (IN : incl (all_guards c g ks) d) by (intros x X; apply MD; auto).
  assert (R : exists K', incl K' (frame c g ks) /\ pp orc d [] (concat (repeat (o_std o) n)) = Some (K', d)).
  { induction n as [|n (K' & IK & EK)]; [exists []; split; [intros x []|reflexivity]|]. cbn [repeat concat].
    destruct (C74_again c g bf ks o orc d (concat (repeat (o_std o) n)) H GO T IN) as (K2 & I2 & E2). rewrite E2, EK.
    exists (K2 ++ K'). split; [apply incl_app; assumption|reflexivity]. }
  destruct R as (K' & IK & EK). exists K, K', d. split; [exact E|]. split; [exact IK|]. cbn [repeat concat].
  destruct (output_pp c g bf ks o orc D H GO T) as (tb & ab & K1 & K2 & _ & _ & _ & _ & _ & _ & EE).
  pose proof (EE []) as E0. rewrite app_nil_r in E0. cbn [pp] in E0. rewrite app_nil_r in E0. rewrite E in E0. injection E0 as -> ->.
  rewrite EE, EK. reflexivity.
Qed.
Print Assumptions C74_included.

(** ** Examples *)
Definition none (_ : tok) : tok := [].
Definition of_text (o : opts) (s : string) : option glob := match generate o (scan s) with CEof g => Some g | _ => None end.
Definition names_on : conf := k_tn conf0.
Example C74_ex : exists g o, of_text plain_opts "namespace N {struct A {int x; double y;}; class B {public: A a;};} " = Some g
  /\ output names_on g none [bs "pack"; bs "unpack"] = Some o /\ g_out g = [] /\ tidy g
  /\ (exists p a q, pairs [bs "pack"; bs "unpack"] (g_actions g) = p ++ (bs "unpack", a) :: q /\ p <> [] /\ ~ omitted g none [bs "pack"; bs "unpack"] (bs "unpack") a
      /\ ~ In (guard (bs "unpack") a) (tguards (g_actions g) ++ guards_of p)).
Proof.
  eexists _, _. split; [vm_compute; reflexivity|]. split; [vm_compute; reflexivity|]. split; [reflexivity|]. split; [intros p []|].
  eexists [_; _], _, _. split; [reflexivity|]. split; [discriminate|]. split; [intros []|].
  vm_compute. intuition discriminate.
Qed.
(** ** What the guards do not do *)
(** two types have one macro: the block of the second is never seen *)
Theorem C74_collision_refuted : exists g o K d k a, of_text plain_opts "namespace A {struct B {int x;};} struct A__B {int y;}; " = Some g
  /\ output conf0 g none [bs "pack"] = Some o /\ pp (fun _ => false) [] [] (o_std o) = Some (K, d)
  /\ In (k, a) (pairs [bs "pack"] (g_actions g)) /\ ~ In (hd [] (inline_lines (c_opts conf0) g k a)) K.
Proof.
  eexists _, _, _, _, _, _. split; [vm_compute; reflexivity|]. split; [vm_compute; reflexivity|]. split; [vm_compute; reflexivity|].
  split; [right; left; reflexivity|]. vm_compute. intuition discriminate.
Qed.
(** the definition made up for a class that is only declared is in no conditional section *)
Theorem C74_undeclared_twice_refuted : exists g o K d, of_text plain_opts "class F; struct A {F* f;}; " = Some g
  /\ output conf0 g none [bs "pack"] = Some o /\ pp (fun _ => false) [] [] (o_std o ++ o_std o) = Some (K, d)
  /\ length (filter (beq (bs "class F {};")) K) = 2%nat.
Proof. eexists _, _, _, _. split; [vm_compute; reflexivity|]. split; [vm_compute; reflexivity|]. split; vm_compute; reflexivity. Qed.

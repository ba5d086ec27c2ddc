(** * insert-friend: C85, C86 *)
From Verif Require Import Base Base_Proofs SMap Dec Desc_Model Tok_Model Tok_Props Tok2_Props Parse_Model Parse_Props Ns_Props ClassParse_Model ClassParse_Proofs InsFriend_Model.

(** ** Specification: where an access declaration belongs *)
Definition nl : list ascii := [lf].
(** the declaration for a class, and the two for a specialisation of a template *)
Definition access (name : tok) : list ascii := nl ++ bs "CLASSDESC_ACCESS(" ++ name ++ bs ");" ++ nl.
Definition taccess (name : tok) : list ascii := nl ++ bs "CLASSDESC_ACCESS_TEMPLATE(" ++ name ++ bs ");" ++ nl.
Definition fdef (targs name : tok) : list ascii :=
  nl ++ bs "#define CLASSDESC_TDEC template" ++ targs ++ nl ++ bs "CLASSDESC_FDEF(" ++ name ++ bs ");" ++ nl.
Definition hidden (t : tok) : Prop := t = bs "private" \/ t = bs "protected".
(** a label for hidden members somewhere in the tokens *)
Definition labelled (ts : list tok) : Prop := exists a l b, ts = a ++ l :: bs ":" :: b /\ hidden l.
Definition kwd (t : tok) : Prop := t = bs "class" \/ t = bs "struct".
Definition name_ok (t : tok) : Prop := isalpha (first t) = true /\ ~ In ","%char t.
(** what may follow the name of a class that is only mentioned *)
Definition ender (t : tok) : Prop := mem (first t) ";,>)*&=" = true.
(** the base clause *)
Definition bclause (bt : list tok) : Prop := (bt = [] \/ exists b, bt = bs ":" :: b) /\ ~ In (bs "{") bt.
(** members among which no class needs a declaration: classes are only mentioned there, or they are
    structs without labels.  The braces are balanced. *)
Inductive bare : list tok -> Prop :=
| ba_nil : bare []
| ba_tok t ts : ~ kwd t -> t <> bs "{" -> t <> bs "}" -> bare ts -> bare (t :: ts)
| ba_kwd k t u ts : kwd k -> t <> bs "{" -> t <> bs "}" -> ender u -> bare ts -> bare (k :: t :: u :: ts)
| ba_nest b ts : bare b -> bare ts -> bare (bs "{" :: b ++ bs "}" :: ts)
| ba_struct name bt b ts : name_ok name -> bclause bt -> ~ In (bs "}") bt -> bare b -> ~ labelled b -> bare ts ->
    bare (bs "struct" :: name :: bt ++ bs "{" :: b ++ bs "}" :: ts).
Definition targs_text (ks : list tok) : list ascii := ttxt (bs "<" :: ks ++ [bs ">"]).
(** the tokens of a file, each with the text that belongs after it *)
Notation marked := (list (tok * list ascii)) (only parsing).
Definition none (ts : list tok) : list (tok * list ascii) := map (fun t => (t, [])) ts.
(** the tokens of an explicit instantiation: semicolons are inside braces *)
Inductive quiet : list tok -> Prop :=
| q_nil : quiet []
| q_tok t l : ~ In t [bs ";"; bs "{"; bs "}"] -> quiet l -> quiet (t :: l)
| q_body b l : bal (bs "{") (bs "}") b -> quiet l -> quiet (bs "{" :: b ++ bs "}" :: l).
Inductive fr : list (tok * list ascii) -> Prop :=
| fr_nil : fr []
| fr_tok t l : ~ In t [bs "class"; bs "struct"; bs "template"; bs "friend"; bs "enum"] -> fr l -> fr ((t, []) :: l)
(* friend class A; and friend void f(); *)
| fr_friend t l : t <> bs "template" -> t <> bs "friend" -> fr l -> fr (none [bs "friend"; t] ++ l)
| fr_enum t l : ~ In t [bs "class"; bs "struct"; bs "template"; bs "friend"] -> fr l -> fr (none [bs "enum"; t] ++ l)
(* a class without a name, and one that is only mentioned *)
| fr_anon k t l : kwd k -> isalpha (first t) = false -> fr l -> fr (none [k; t] ++ l)
| fr_fwd k name t l : kwd k -> name_ok name -> ender t -> fr l -> fr (none [k; name; t] ++ l)
(* a class: all its members are hidden at first *)
| fr_class name bt l : name_ok name -> bclause bt -> fr l ->
    fr (none (bs "class" :: name :: bt) ++ (bs "{", access name) :: l)
(* a struct with no hidden members, and one with some *)
| fr_struct0 name bt b l : name_ok name -> bclause bt -> bare b -> ~ labelled b -> fr l ->
    fr (none (bs "struct" :: name :: bt ++ bs "{" :: b ++ [bs "}"]) ++ l)
| fr_struct name bt b lab l : name_ok name -> bclause bt -> bare b -> ~ labelled b -> hidden lab -> fr l ->
    fr (none (bs "struct" :: name :: bt ++ bs "{" :: b ++ [lab]) ++ (bs ":", access name) :: l)
(* templates: anything but a class; an explicit instantiation; a class that is only mentioned; a
   struct with no hidden members *)
| fr_tother ts ks t l : tpl ts ks -> ~ kwd t -> fr ((t, []) :: l) -> fr (none (bs "template" :: bs "<" :: ts ++ [bs ">"]) ++ (t, []) :: l)
| fr_inst t b l : t <> bs "<" -> quiet (t :: b) -> fr l ->
    fr (none (bs "template" :: t :: b ++ [bs ";"]) ++ l)
| fr_tfwd ts ks k name t l : tpl ts ks -> kwd k -> name_ok name -> ender t -> fr l ->
    fr (none (bs "template" :: bs "<" :: ts ++ [bs ">"; k; name; t]) ++ l)
| fr_tstruct0 ts ks name sp bt b l : tpl ts ks -> name_ok name -> (sp = [] \/ exists a ka, tpl a ka /\ sp = bs "<" :: a ++ [bs ">"]) -> bclause bt ->
    bare b -> ~ labelled b -> fr l ->
    fr (none (bs "template" :: bs "<" :: ts ++ bs ">" :: bs "struct" :: name :: sp ++ bt ++ bs "{" :: b ++ [bs "}"]) ++ l)
(* specialisations; their arguments are in the macro *)
| fr_spec ts ks name a ka bt b l : tpl ts ks -> name_ok name -> tpl a ka -> ~ In ","%char (targs_text ka) -> bclause bt -> bare b -> fr l ->
    fr (none (bs "template" :: bs "<" :: ts ++ bs ">" :: bs "class" :: name :: bs "<" :: a ++ bs ">" :: bt)
        ++ (bs "{", taccess (name ++ targs_text ka)) :: none b ++ (bs "}", fdef (targs_text ks) (name ++ targs_text ka)) :: l)
| fr_sspec ts ks name a ka bt b lab b' l : tpl ts ks -> name_ok name -> tpl a ka -> ~ In ","%char (targs_text ka) -> bclause bt ->
    bare b -> ~ labelled b -> hidden lab -> bare b' -> fr l ->
    fr (none (bs "template" :: bs "<" :: ts ++ bs ">" :: bs "struct" :: name :: bs "<" :: a ++ bs ">" :: bt ++ bs "{" :: b ++ [lab])
        ++ (bs ":", taccess (name ++ targs_text ka)) :: none b' ++ (bs "}", fdef (targs_text ks) (name ++ targs_text ka)) :: l).

(** the texts with the number of tokens after them *)
Fixpoint texts (l : list (tok * list ascii)) : list (nat * list ascii) :=
  match l with
  | [] => []
  | (_, []) :: l => texts l
  | (_, x) :: l => (length l, x) :: texts l
  end.

(** ** Proofs *)
Lemma texts_none ts l : texts (none ts ++ l) = texts l.
Proof. induction ts as [|t ts IH]; [reflexivity|]. exact IH. Qed.
Lemma map_none ts l : map fst (none ts ++ l) = ts ++ map fst l.
Proof. unfold none. rewrite map_app, map_map. cbn. now rewrite map_id. Qed.
Lemma bare_bal ts : bare ts -> bal (bs "{") (bs "}") ts.
Proof.
  induction 1 as [|t ts K A B _ IH|k t u ts K A B E _ IH|b ts _ IHb _ IH|name bt b ts N (C1 & C2) C3 _ IHb _ _ IH].
  - apply bal_nil.
  - now apply bal_tok.
  - apply bal_tok; [destruct K; subst; discriminate|destruct K; subst; discriminate|]. apply bal_tok; [exact A|exact B|].
    apply bal_tok; [intros ->; discriminate E|intros ->; discriminate E|exact IH].
  - now apply bal_nest.
  - apply bal_tok; [discriminate|discriminate|]. apply bal_tok; [destruct N as (N & _); intros ->; discriminate N|destruct N as (N & _); intros ->; discriminate N|].
    assert (X : bal (bs "{") (bs "}") bt) by now apply bal_none. apply bal_app; [exact X|]. now apply bal_nest.
Qed.
(** the scan over the members of a struct *)
Lemma labelled_in p x q : labelled x -> labelled (p ++ x ++ q).
Proof. intros (a & l & b & -> & H). exists (p ++ a), l, (b ++ q). split; [|exact H]. now rewrite <- !app_assoc. Qed.
Lemma sscan_bal b : bal (bs "{") (bs "}") b -> forall t1 t nb tl, ~ labelled (t :: b) -> (0 <= nb)%Z ->
  exists a1 a, sscan (b ++ tl) t1 t nb = sscan tl a1 a nb.
Proof.
  assert (LAB : forall t u c, ~ labelled (t :: u :: c) -> (teq u ":" && (teq t "protected" || teq t "private"))%bool = false).
  { intros t u c N. unfold teq. destruct (beqP u (bs ":")) as [->|_]; [|reflexivity]. cbn [andb].
    destruct (beqP t (bs "protected")) as [->|_]; [exfalso; apply N; exists [], (bs "protected"), c; split; [reflexivity|now right]|].
    destruct (beqP t (bs "private")) as [->|_]; [exfalso; apply N; exists [], (bs "private"), c; split; [reflexivity|now left]|reflexivity]. }
  induction 1 as [|u b N1 N2 _ IH|x b _ IHx _ IH]; intros t1 t nb tl N Z.
  - exists t1, t. reflexivity.
  - cbn [app sscan]. rewrite (LAB _ _ _ N). unfold teq. destruct (beqP u (bs "}")); [congruence|]. destruct (beqP u (bs "{")); [congruence|]. cbn [andb].
    apply IH; [|exact Z]. intros L. apply N. apply (labelled_in [t] _ []) in L. now rewrite app_nil_r in L.
  - cbn [app sscan]. rewrite (LAB _ _ _ N). change (teq (bs "{") "}") with false. change (teq (bs "{") "{") with true. cbn [andb].
    rewrite <- app_assoc. cbn [app].
    destruct (IHx t (bs "{") (nb + 1)%Z (bs "}" :: b ++ tl)) as (a1 & a & ->); [|lia|].
    { intros L. apply N. apply (labelled_in [t] _ (bs "}" :: b)) in L. exact L. }
    cbn [sscan]. change (teq (bs "}") "}") with true. change (teq (bs "}") "{") with false. change (teq (bs "}") ":") with false.
    replace (nb + 1 <=? 0)%Z with false by (symmetry; apply Z.leb_gt; lia). cbn [andb]. replace (nb + 1 - 1)%Z with nb by lia.
    apply IH; [|exact Z]. intros L. apply N. apply (labelled_in (t :: bs "{" :: x) _ []) in L. rewrite app_nil_r in L. exact L.
Qed.
Lemma brace_label b : ~ labelled b -> ~ labelled (bs "{" :: b).
Proof.
  intros N (a & l & c & E & H). destruct a as [|x a]; cbn [app] in E.
  - assert (l = bs "{") by congruence. subst. destruct H; discriminate.
  - apply N. exists a, l, c. split; [congruence|exact H].
Qed.
Lemma skip_clause bt tl : bclause bt -> forall t2 t1, exists a2 a1,
  match bt ++ bs "{" :: tl with
  | [] => False
  | t :: m => strchr ":{" (first t) = true /\ teq t "<" = false /\ skip_to "{" (pbound (Inp t2 t1 t m)) (Inp t2 t1 t m) = POk tt (Inp a2 a1 (bs "{") tl)
  end.
Proof.
  intros (C & N) t2 t1. destruct C as [->|(x & ->)]; cbn [app].
  - exists t2, t1. repeat split.
  - assert (NX : ~ In (bs "{") x) by (intros X; apply N; now right).
    destruct (skip_to_body (fun _ _ => None) "{" x NX (length (x ++ bs "{" :: tl)) t2 t1 (bs ":") tl) as (a2 & a1 & E);
      [rewrite app_length; cbn [length]; lia|discriminate|].
    exists a2, a1. repeat split. exact E.
Qed.
Lemma no_comma t : ~ In ","%char t -> existsb (ceq ",") t = false.
Proof.
  intros N. apply Bool.not_true_iff_false. intros E. apply existsb_exists in E. destruct E as (c & I & E). apply Ascii.eqb_eq in E. subst. tauto.
Qed.
Lemma teq_ne t x : t <> bs x -> teq t x = false.
Proof. intros N. unfold teq. destruct (beqP t (bs x)); congruence. Qed.
Lemma alpha_facts t : isalpha (first t) = true -> teq t "<" = false /\ strchr ":{" (first t) = false.
Proof.
  intros H. split; [apply teq_ne; intros ->; discriminate|]. destruct (strchr ":{" (first t)) eqn:E; [|reflexivity]. exfalso.
  unfold strchr, mem in E. cbn in E. apply Bool.orb_true_iff in E. destruct E as [E|E]; [apply Ascii.eqb_eq in E; rewrite E in H; discriminate|].
  apply Bool.orb_true_iff in E. destruct E as [E|E]; [apply Ascii.eqb_eq in E; rewrite E in H; discriminate|].
  rewrite Bool.orb_false_r in E. apply Ascii.eqb_eq in E. rewrite E in H. discriminate.
Qed.
Lemma ender_facts t : ender t -> teq t "<" = false /\ strchr ":{" (first t) = false /\ t <> bs "friend".
Proof.
  unfold ender. intros H. split; [apply teq_ne; intros ->; discriminate|]. split; [|intros ->; discriminate].
  destruct (strchr ":{" (first t)) eqn:E; [|reflexivity]. exfalso.
  unfold strchr, mem in E. cbn in E. apply Bool.orb_true_iff in E. destruct E as [E|E]; [apply Ascii.eqb_eq in E; rewrite E in H; discriminate|].
  apply Bool.orb_true_iff in E. destruct E as [E|E]; [apply Ascii.eqb_eq in E; rewrite E in H; discriminate|].
  rewrite Bool.orb_false_r in E. apply Ascii.eqb_eq in E. rewrite E in H. discriminate.
Qed.
Lemma kwd_class k : kwd k -> isclass k = true /\ teq k "template" = false. Proof. intros [->| ->]; split; reflexivity. Qed.

(** one turn of the loop at a class *)
Definition start (f : nat) (t2 t1 : tok) (ts : list tok) (s : st) : ir unit :=
  match ts with [] => IEof s | t :: m => loop f [] (Inp t2 t1 t m) s end.
Definition turn (f : nat) (targs : tok) (i : inp) (s : st) : ir unit :=
  ibind (if (isclass (tk i) && negb (teq (tk1 i) "friend"))%bool then
           ibind (ilift (next i) s) (fun _ i s =>
             ibind (if isalpha (first (tk i)) then insert_friend targs (teq (tk1 i) "struct") i s else IOk tt i s)
               (fun _ i s => IOk [] i s))
         else IOk targs i s)
    (fun targs i s => ibind (ilift (next i) s) (fun _ i s => loop f targs i s)).
Lemma loop_turn f targs i s : teq (tk i) "template" = false -> loop (S f) targs i s = turn f targs i s.
Proof. intros H. cbn [loop]. rewrite H. reflexivity. Qed.
Lemma gta_last : forall f ac targs i x j, ac <> 0%Z -> gta f ac targs i = POk x j -> teq (tk1 j) "friend" = false.
Proof.
  induction f as [|f IH]; intros ac targs i x j A E; [discriminate|]. cbn [gta] in E.
  destruct (if ceq (first (tk i)) "=" then skipdef (pbound i) i else POk tt i) as [[] i1| |]; [|discriminate|discriminate]. cbn [pbind] in E.
  unfold next in E. destruct (more i1) as [|u m]; [discriminate|]. cbn [pbind] in E.
  destruct (ceq (first (tk i1)) "<") eqn:L.
  - destruct (_ =? 0)%Z eqn:Z in E; [|apply Z.eqb_neq in Z; eapply IH; [exact Z|exact E]].
    assert (j = Inp (tk1 i1) (tk i1) u m) by congruence. subst j. cbn [tk1]. apply teq_ne. intros X. rewrite X in L. discriminate.
  - destruct (ceq (first (tk i1)) ">") eqn:G.
    + destruct (_ =? 0)%Z eqn:Z in E; [|apply Z.eqb_neq in Z; eapply IH; [exact Z|exact E]].
      assert (j = Inp (tk1 i1) (tk i1) u m) by congruence. subst j. cbn [tk1]. apply teq_ne. intros X. rewrite X in G. discriminate.
    + destruct (_ =? 0)%Z eqn:Z in E; [apply Z.eqb_eq in Z; congruence|]. eapply IH; [exact A|exact E].
Qed.
Lemma template_args t2 t1 ts ks nx rest : tpl ts ks -> exists a2 a1,
  get_template_args (Inp t2 t1 (bs "<") (ts ++ bs ">" :: nx :: rest)) = POk (targs_text ks) (Inp a2 a1 nx rest) /\ teq a1 "friend" = false.
Proof.
  intros T. destruct (C53_template t2 t1 ts ks nx rest T) as (a2 & a1 & E). exists a2, a1. split; [exact E|].
  unfold get_template_args in E. destruct (pbound _) as [|f]; [discriminate|]. cbn [gta tk] in E. change (ceq (first (bs "<")) "=") with false in E. cbv iota in E. cbn [pbind tk] in E.
  change (ceq (first (bs "<")) "<") with true in E. change (Z.of_nat (length (bs "<"))) with 1%Z in E. cbv iota in E. change (0 + 1 =? 0)%Z with false in E. cbv iota in E.
  unfold next in E. cbn [more] in E. destruct (ts ++ bs ">" :: nx :: rest); [discriminate|]. cbn [pbind] in E.
  apply gta_last in E; [exact E|discriminate].
Qed.
Lemma loop_template f targs t2 t1 ts ks nx rest s : tpl ts ks -> exists a2 a1, teq a1 "friend" = false /\
  loop (S f) targs (Inp t2 t1 (bs "template") (bs "<" :: ts ++ bs ">" :: nx :: rest)) s =
    (if isclass nx then turn f (targs_text ks) (Inp a2 a1 nx rest) s else loop f [] (Inp a2 a1 nx rest) s).
Proof.
  intros T. destruct (template_args t1 (bs "template") ts ks nx rest T) as (a2 & a1 & E & A). exists a2, a1. split; [exact A|].
  cbn [loop tk]. change (teq (bs "template") "template") with true. cbv iota. unfold next at 1. cbn [more ilift ibind tk]. change (teq (bs "<") "<") with true. cbv iota.
  cbn [tk1]. rewrite E. cbn [ilift ibind tk]. reflexivity.
Qed.
(** [insert_friend] at a class that is defined: up to the brace, or the label of a struct *)
Definition sptext (sp : list tok) (x : list ascii) : Prop := (sp = [] /\ x = []) \/ exists a ka, tpl a ka /\ sp = bs "<" :: a ++ [bs ">"] /\ x = targs_text ka.
Lemma insert_at targs st t2 t1 name sp x bt tl s : sptext sp x -> bclause bt ->
  exists a2 a1, insert_friend targs st (Inp t2 t1 name (sp ++ bt ++ bs "{" :: tl)) s =
    (if st then ibind (ilift (sscan tl a1 (bs "{") 0) s) (fun b i s => if b then really (name ++ x) targs i s else IOk tt i s)
     else really (name ++ x) targs (Inp a2 a1 (bs "{") tl) s).
Proof.
  intros SP C. unfold insert_friend. destruct SP as [(-> & ->)|(a & ka & T & -> & ->)].
  - cbn [app tk]. destruct (skip_clause bt tl C t1 name) as (a2 & a1 & E).
    destruct (bt ++ bs "{" :: tl) as [|u m] eqn:EQ; [destruct E|]. destruct E as (E1 & E2 & E3).
    unfold next. cbn [more ilift ibind tk tk1]. rewrite E2. cbn [ibind tk]. rewrite E1, E3. cbn [ilift ibind more tk1 tk]. exists a2, a1. now rewrite app_nil_r.
  - cbn [app tk]. unfold next. cbn [more ilift ibind tk tk1]. change (teq (bs "<") "<") with true. cbv iota.
    rewrite <- app_assoc. cbn [app].
    destruct (bt ++ bs "{" :: tl) as [|u m] eqn:EQ; [destruct bt; discriminate|].
    destruct (template_args t1 name a ka u m T) as (b2 & b1 & -> & _). cbn [ilift ibind tk].
    destruct (skip_clause bt tl C b2 b1) as (a2 & a1 & E). rewrite EQ in E. destruct E as (E1 & _ & E3).
    rewrite E1, E3. cbn [ilift ibind more tk1 tk]. exists a2, a1. reflexivity.
Qed.
Lemma really_plain name i s : ~ In ","%char name -> really name [] i s = IOk tt i (put (access name) i s).
Proof. intros N. unfold really, deal_with_commas. rewrite (no_comma _ N). reflexivity. Qed.
Lemma targs_text_ne ks : exists x, targs_text ks = "<"%char :: " "%char :: x.
Proof. unfold targs_text. rewrite ttxt_cons. eexists. reflexivity. Qed.
Lemma really_spec name ks t2 t1 t b tl s : ~ In ","%char name -> In "<"%char name -> bal (bs "{") (bs "}") b -> t = bs "{" \/ t = bs ":" ->
  exists a2 a1, really name (targs_text ks) (Inp t2 t1 t (b ++ bs "}" :: tl)) s =
    IOk tt (Inp a2 a1 (bs "}") tl) (put (fdef (targs_text ks) name) (Inp a2 a1 (bs "}") tl) (put (taccess name) (Inp t2 t1 t (b ++ bs "}" :: tl)) s)).
Proof.
  intros N L B T. unfold really, deal_with_commas. rewrite (no_comma _ N). destruct (targs_text_ne ks) as (x & EX). rewrite EX.
  change (teq ("<"%char :: " "%char :: x) "") with false. cbv iota. cbn [tk].
  replace (teq t "}") with false by (destruct T; subst; reflexivity).
  destruct (C53_stops "{" "}" (Inp t2 t1 t (b ++ bs "}" :: tl)) b tl) as (G & M & K); [discriminate|destruct T; subst; discriminate|exact B|intros X; discriminate X|reflexivity|].
  rewrite G. destruct (after (S (length b)) _) as [a2 a1 a am]. cbn [more tk] in M, K. subst a am. cbn [ilift ibind]. exists a2, a1.
  assert (LT : existsb (ceq "<") name = true) by (apply existsb_exists; exists "<"%char; split; [exact L|reflexivity]).
  rewrite LT. rewrite (no_comma _ N). reflexivity.
Qed.
Definition from (t2 t1 : tok) (l : list tok) : inp := match l with [] => Inp t2 t1 [] [] | t :: m => Inp t2 t1 t m end.
Lemma inst_step f nb t2 t1 t u m : ((0 <? nb)%Z || negb (teq t ";"))%bool = true ->
  inst (S f) nb (from t2 t1 (t :: u :: m)) =
  inst f (let nb := if teq t "{" then (nb + 1)%Z else nb in if teq t "}" then (nb - 1)%Z else nb) (from t1 t (u :: m)).
Proof. intros H. cbn [inst tk from]. rewrite H. reflexivity. Qed.
Lemma inst_bal b : bal (bs "{") (bs "}") b -> forall f nb t2 t1 u k, (0 < nb)%Z ->
  exists a2 a1, inst (length b + f) nb (from t2 t1 (b ++ u :: k)) = inst f nb (from a2 a1 (u :: k)).
Proof.
  induction 1 as [|t ts N1 N2 _ IH|b ts _ IH1 _ IH2]; intros f nb t2 t1 u k P.
  - exists t2, t1. reflexivity.
  - cbn [app length Nat.add]. assert (E : exists v m, ts ++ u :: k = v :: m) by (destruct ts; cbn [app]; eauto).
    destruct E as (v & m & E). rewrite E. rewrite inst_step by (apply Z.ltb_lt in P; now rewrite P).
    rewrite (teq_ne t "{"), (teq_ne t "}") by assumption. cbv zeta. rewrite <- E. now apply IH.
  - cbn [app length Nat.add]. rewrite <- app_assoc. cbn [app].
    assert (E : exists v m, b ++ bs "}" :: ts ++ u :: k = v :: m) by (destruct b; cbn [app]; eauto).
    destruct E as (v & m & E). rewrite E. rewrite inst_step by (apply Z.ltb_lt in P; now rewrite P).
    change (teq (bs "{") "{") with true. change (teq (bs "{") "}") with false. cbv zeta iota. rewrite <- E.
    rewrite app_length. cbn [length]. replace (length b + S (length ts) + f) with (length b + S (length ts + f)) by lia.
    destruct (IH1 (S (length ts + f)) (nb + 1)%Z t1 (bs "{") (bs "}") (ts ++ u :: k)) as (a2 & a1 & ->); [lia|].
    assert (E' : exists v m, ts ++ u :: k = v :: m) by (destruct ts; cbn [app]; eauto).
    destruct E' as (v' & m' & E'). rewrite E'. rewrite inst_step by (replace (0 <? nb + 1)%Z with true by (symmetry; apply Z.ltb_lt; lia); reflexivity).
    change (teq (bs "}") "{") with false. change (teq (bs "}") "}") with true. cbv zeta iota. rewrite <- E'.
    replace (nb + 1 - 1)%Z with nb by lia. now apply IH2.
Qed.
Lemma inst_quiet l : quiet l -> forall f t2 t1 tl, (length l < f)%nat ->
  exists a2 a1, inst f 0 (from t2 t1 (l ++ bs ";" :: tl)) = POk tt (Inp a2 a1 (bs ";") tl).
Proof.
  induction 1 as [|t l N _ IH|b l B _ IH]; intros f t2 t1 tl F; (destruct f as [|f]; [cbn in F; lia|]).
  - exists t2, t1. reflexivity.
  - cbn [length] in F. cbn [app]. assert (E : exists v m, l ++ bs ";" :: tl = v :: m) by (destruct l; cbn [app]; eauto).
    destruct E as (v & m & E). rewrite E.
    rewrite inst_step by (rewrite (teq_ne t ";"); [reflexivity|intros ->; apply N; cbn; tauto]).
    rewrite (teq_ne t "{"), (teq_ne t "}") by (intros ->; apply N; cbn; tauto). cbv zeta. rewrite <- E. apply IH. lia.
  - cbn [app length] in F |- *. rewrite app_length in F. cbn [length] in F. rewrite <- app_assoc. cbn [app].
    assert (E : exists v m, b ++ bs "}" :: l ++ bs ";" :: tl = v :: m) by (destruct b; cbn [app]; eauto).
    destruct E as (v & m & E). rewrite E. rewrite inst_step by reflexivity.
    change (teq (bs "{") "{") with true. change (teq (bs "{") "}") with false. cbv zeta iota. rewrite <- E.
    replace f with (length b + S (f - length b - 1)) by lia.
    destruct (inst_bal b B (S (f - length b - 1)) (0 + 1)%Z t1 (bs "{") (bs "}") (l ++ bs ";" :: tl)) as (a2 & a1 & ->); [lia|].
    assert (E' : exists v m, l ++ bs ";" :: tl = v :: m) by (destruct l; cbn [app]; eauto).
    destruct E' as (v' & m' & E'). rewrite E'. rewrite inst_step by reflexivity.
    change (teq (bs "}") "{") with false. change (teq (bs "}") "}") with true. cbv zeta iota. rewrite <- E'.
    apply IH. lia.
Qed.
Definition adds (s : st) (l : list (nat * list ascii)) : st := St (cnt s) (prints s ++ l).
Lemma adds_nil s : adds s [] = s. Proof. destruct s. unfold adds. cbn. now rewrite app_nil_r. Qed.
Lemma adds_put t i s l : adds (put t i s) l = adds s ((length (more i), t) :: l).
Proof. unfold adds, put. cbn [cnt prints]. now rewrite <- app_assoc. Qed.
(** a turn at something that is not a class; what follows a class *)
Lemma turn_next f targs t2 t1 t m s : (isclass t && negb (teq t1 "friend"))%bool = false ->
  turn f targs (Inp t2 t1 t m) s = match m with [] => IEof s | u :: m => loop f targs (Inp t1 t u m) s end.
Proof. intros H. unfold turn. cbn [tk tk1]. rewrite H. cbn [ibind]. unfold next. cbn [more]. destruct m; reflexivity. Qed.
Lemma turn_class f targs t2 t1 k n m s : isclass k = true -> teq t1 "friend" = false ->
  turn f targs (Inp t2 t1 k (n :: m)) s =
    ibind (if isalpha (first n) then insert_friend targs (teq k "struct") (Inp t1 k n m) s else IOk tt (Inp t1 k n m) s)
      (fun _ i s => match more i with [] => IEof s | u :: m => loop f [] (Inp (tk1 i) (tk i) u m) s end).
Proof.
  intros K F. unfold turn. cbn [tk tk1]. rewrite K, F. cbn [andb negb]. unfold next at 1. cbn [more ilift ibind tk tk1].
  destruct (if isalpha _ then _ else _) as [a i s'|s'|s'|]; cbn [ibind]; try reflexivity. unfold next. destruct (more i); reflexivity.
Qed.
Lemma len_none ts l : length (map fst (none ts ++ l)) = (length ts + length l)%nat.
Proof. rewrite map_length, app_length. unfold none. now rewrite map_length. Qed.
Lemma fr_run l : fr l -> forall f t2 t1 s, teq t1 "friend" = false -> (length l < f)%nat -> start f t2 t1 (map fst l) s = IEof (adds s (texts l)).
Proof.
  induction 1 as [|t l N _ IH|t l N1 N2 _ IH|t l N _ IH|k t l K A _ IH|k name t l K NM E _ IH|name bt l NM BC _ IH
    |name bt b l NM BC BA NL _ IH|name bt b lab l NM BC BA NL HL _ IH|ts ks t l T K _ IH|t b l N Q _ IH|ts ks k name t l T K NM E _ IH
    |ts ks name sp bt b l T NM SP BC BA NL _ IH|ts ks name a ka bt b l T NM TA NC BC BA _ IH|ts ks name a ka bt b lab b' l T NM TA NC BC BA NL HL BA' _ IH];
  intros f t2 t1 s TF F.
  - now rewrite adds_nil.
  - cbn [map fst start texts]. destruct f as [|f]; [cbn in F; lia|]. cbn [length] in F.
    rewrite loop_turn by (cbn [tk]; apply teq_ne; intros ->; apply N; cbn; tauto).
    rewrite turn_next by (unfold isclass; rewrite (teq_ne t "class"), (teq_ne t "struct") by (intros ->; apply N; cbn; tauto); reflexivity).
    apply (IH f t1 t s); [apply teq_ne; intros ->; apply N; cbn; tauto|lia].
  - rewrite texts_none, map_none. cbn [app start]. rewrite app_length in F. cbn [none map length] in F. destruct f as [|[|f]]; [lia|lia|].
    rewrite loop_turn by reflexivity. rewrite turn_next by reflexivity.
    rewrite loop_turn by (cbn [tk]; now apply teq_ne). rewrite turn_next by (change (teq (bs "friend") "friend") with true; now rewrite Bool.andb_false_r).
    apply (IH f (bs "friend") t s); [now apply teq_ne|lia].
  - rewrite texts_none, map_none. cbn [app start]. rewrite app_length in F. cbn [none map length] in F. destruct f as [|[|f]]; [lia|lia|].
    rewrite loop_turn by reflexivity. rewrite turn_next by reflexivity.
    rewrite loop_turn by (cbn [tk]; apply teq_ne; intros ->; apply N; cbn; tauto).
    rewrite turn_next by (unfold isclass; rewrite (teq_ne t "class"), (teq_ne t "struct") by (intros ->; apply N; cbn; tauto); reflexivity).
    apply (IH f (bs "enum") t s); [apply teq_ne; intros ->; apply N; cbn; tauto|lia].
  - rewrite texts_none, map_none. cbn [app start]. rewrite app_length in F. cbn [none map length] in F. destruct f as [|f]; [lia|].
    destruct (kwd_class _ K) as (K1 & K2). rewrite loop_turn by exact K2. rewrite turn_class by assumption. rewrite A. cbn [ibind more tk1 tk].
    apply (IH f k t s); [apply teq_ne; intros ->; discriminate|lia].
  - rewrite texts_none, map_none. cbn [app start]. rewrite app_length in F. cbn [none map length] in F. destruct f as [|f]; [lia|].
    destruct (kwd_class _ K) as (K1 & K2). destruct NM as (NM & _). destruct (ender_facts _ E) as (E1 & E2 & E3).
    rewrite loop_turn by exact K2. rewrite turn_class by assumption. rewrite NM.
    unfold insert_friend, next. cbn [more ilift ibind tk tk1]. rewrite E1. cbn [ibind tk]. rewrite E2. cbn [ibind more tk1 tk].
    apply (IH f name t s); [now apply teq_ne|lia].
  - rewrite map_none, texts_none. cbn [app start map fst texts access nl]. rewrite app_length in F. cbn [none map length] in F. destruct f as [|f]; [lia|].
    destruct NM as (NM & NC). rewrite loop_turn by reflexivity. rewrite turn_class by (reflexivity || assumption). rewrite NM.
    change (teq (bs "class") "struct") with false.
    destruct (insert_at [] false t1 (bs "class") name [] [] bt (map fst l) s (or_introl (conj eq_refl eq_refl)) BC) as (a2 & a1 & E). cbn [app] in E. rewrite E. clear E.
    rewrite app_nil_r. rewrite really_plain by exact NC. cbn [ibind more tk1 tk].
    etransitivity; [apply (IH f a1 (bs "{") (put (access name) (Inp a2 a1 (bs "{") (map fst l)) s)); [reflexivity|lia]|].
    rewrite adds_put. cbn [more]. now rewrite map_length.
  - rewrite texts_none, map_none. cbn [app start]. rewrite app_length in F. cbn [none map length] in F. destruct f as [|f]; [lia|].
    destruct NM as (NM & NC). rewrite loop_turn by reflexivity. rewrite turn_class by (reflexivity || assumption). rewrite NM.
    change (teq (bs "struct") "struct") with true. rewrite <- app_assoc. cbn [app]. rewrite <- app_assoc. cbn [app].
    destruct (insert_at [] true t1 (bs "struct") name [] [] bt (b ++ bs "}" :: map fst l) s (or_introl (conj eq_refl eq_refl)) BC) as (a2 & a1 & E). cbn [app] in E. rewrite E. clear E.
    destruct (sscan_bal b (bare_bal _ BA) a1 (bs "{") 0 (bs "}" :: map fst l) (brace_label _ NL) ltac:(lia)) as (c1 & c & ->).
    cbn [sscan]. change (teq (bs "}") "}") with true. change (0 <=? 0)%Z with true. cbn [andb ilift ibind more tk1 tk].
    apply (IH f c (bs "}") s); [reflexivity|lia].
  - rewrite texts_none, map_none. cbn [app start map fst texts access nl]. rewrite app_length in F. cbn [none map length] in F. destruct f as [|f]; [lia|].
    destruct NM as (NM & NC). rewrite loop_turn by reflexivity. rewrite turn_class by (reflexivity || assumption). rewrite NM.
    change (teq (bs "struct") "struct") with true. rewrite <- app_assoc. cbn [app]. rewrite <- app_assoc. cbn [app].
    destruct (insert_at [] true t1 (bs "struct") name [] [] bt (b ++ lab :: bs ":" :: map fst l) s (or_introl (conj eq_refl eq_refl)) BC) as (a2 & a1 & E). cbn [app] in E. rewrite E. clear E.
    destruct (sscan_bal b (bare_bal _ BA) a1 (bs "{") 0 (lab :: bs ":" :: map fst l) (brace_label _ NL) ltac:(lia)) as (c1 & c & ->).
    cbn [sscan]. replace (teq lab "}") with false by (destruct HL; subst; reflexivity). replace (teq lab "{") with false by (destruct HL; subst; reflexivity).
    replace (teq lab ":") with false by (destruct HL; subst; reflexivity). cbn [andb]. change (teq (bs ":") "}") with false. change (teq (bs ":") "{") with false. change (teq (bs ":") ":") with true.
    replace (teq lab "protected" || teq lab "private")%bool with true by (destruct HL; subst; reflexivity). cbn [andb ilift ibind].
    rewrite app_nil_r. rewrite really_plain by exact NC. cbn [ibind more tk1 tk].
    etransitivity; [apply (IH f lab (bs ":") (put (access name) (Inp c lab (bs ":") (map fst l)) s)); [destruct HL; subst; reflexivity|lia]|].
    rewrite adds_put. cbn [more]. now rewrite map_length.
  - rewrite texts_none, map_none. cbn [app start]. rewrite app_length in F. cbn [none map length] in F. destruct f as [|f]; [lia|].
    rewrite <- app_assoc. cbn [app map fst].
    destruct (loop_template f [] t2 t1 ts ks t (map fst l) s T) as (a2 & a1 & A1 & ->).
    replace (isclass t) with false.
    2: { unfold isclass. rewrite (teq_ne t "class"), (teq_ne t "struct"); [reflexivity|intros ->; apply K; now right|intros ->; apply K; now left]. }
    apply (IH f a2 a1 s); [exact A1|]. cbn [length] in F |- *. lia.
  - rewrite texts_none, map_none. cbn [app start]. rewrite app_length in F. cbn [none map length] in F. unfold none in F. rewrite map_length, app_length in F. cbn [length] in F. destruct f as [|[|f]]; [lia|lia|].
    rewrite <- app_assoc. cbn [app].
    change (loop (S (S f)) [] (Inp t2 t1 (bs "template") (t :: b ++ bs ";" :: map fst l)) s) with
      (if teq t "<" then ibind (ilift (get_template_args (Inp t1 (bs "template") t (b ++ bs ";" :: map fst l))) s) (fun targs i s => if isclass (tk i) then turn (S f) targs i s else loop (S f) [] i s)
       else ibind (ilift (inst (pbound (Inp t1 (bs "template") t (b ++ bs ";" :: map fst l))) 0 (Inp t1 (bs "template") t (b ++ bs ";" :: map fst l))) s) (fun _ i s => loop (S f) [] i s)).
    rewrite (teq_ne _ _ N).
    destruct (inst_quiet (t :: b) Q (S (length (b ++ bs ";" :: map fst l))) t1 (bs "template") (map fst l)) as (a2 & a1 & E).
    { rewrite app_length. cbn [length]. lia. }
    cbn [app from] in E. unfold pbound. cbn [more]. rewrite E. cbn [ilift ibind].
    rewrite loop_turn by reflexivity. rewrite turn_next by reflexivity.
    apply (IH f a1 (bs ";") s); [reflexivity|lia].
  - rewrite texts_none, map_none. cbn [app start]. rewrite app_length in F. cbn [none map length] in F. unfold none in F. rewrite map_length, app_length in F. cbn [length] in F. destruct f as [|f]; [lia|].
    rewrite <- app_assoc. cbn [app].
    destruct (loop_template f [] t2 t1 ts ks k (name :: t :: map fst l) s T) as (a2 & a1 & A1 & ->).
    destruct (kwd_class _ K) as (K1 & K2). destruct NM as (NM & _). destruct (ender_facts _ E) as (E1 & E2 & E3).
    rewrite K1. rewrite turn_class by assumption. rewrite NM.
    unfold insert_friend, next. cbn [more ilift ibind tk tk1]. rewrite E1. cbn [ibind tk]. rewrite E2. cbn [ibind more tk1 tk].
    apply (IH f name t s); [now apply teq_ne|lia].
  - rewrite texts_none, map_none. cbn [app start]. rewrite app_length in F. cbn [none map length] in F. unfold none in F. rewrite map_length, app_length in F. cbn [length] in F. destruct f as [|f]; [lia|].
    rewrite <- app_assoc. cbn [app].
    destruct (loop_template f [] t2 t1 ts ks (bs "struct") (name :: (sp ++ bt ++ bs "{" :: b ++ [bs "}"]) ++ map fst l) s T) as (a2 & a1 & A1 & ->).
    change (isclass (bs "struct")) with true. cbv iota. rewrite turn_class by (reflexivity || assumption). destruct NM as (NM & NC). rewrite NM.
    change (teq (bs "struct") "struct") with true. rewrite <- !app_assoc. cbn [app]. rewrite <- !app_assoc. cbn [app].
    assert (SPT : exists x, sptext sp x).
    { destruct SP as [->|(a & ka & TA & ->)]; [exists []; now left|exists (targs_text ka); right; eauto]. }
    destruct SPT as (x & SPT).
    destruct (insert_at (targs_text ks) true a1 (bs "struct") name sp x bt (b ++ bs "}" :: map fst l) s SPT BC) as (b2 & b1 & ->).
    destruct (sscan_bal b (bare_bal _ BA) b1 (bs "{") 0 (bs "}" :: map fst l) (brace_label _ NL) ltac:(lia)) as (c1 & c & ->).
    cbn [sscan]. change (teq (bs "}") "}") with true. change (0 <=? 0)%Z with true. cbn [andb ilift ibind more tk1 tk].
    apply (IH f c (bs "}") s); [reflexivity|lia].
  - rewrite map_none, texts_none. cbn [app start map fst]. rewrite map_none. cbn [map fst]. rewrite !app_length in F. cbn [none map length] in F. unfold none in F. rewrite !app_length, !map_length in F. cbn [length] in F. destruct f as [|f]; [lia|].
    rewrite <- app_assoc. cbn [app].
    destruct (loop_template f [] t2 t1 ts ks (bs "class") (name :: bs "<" :: (a ++ bs ">" :: bt) ++ bs "{" :: b ++ bs "}" :: map fst l) s T) as (a2 & a1 & A1 & ->).
    change (isclass (bs "class")) with true. cbv iota. rewrite turn_class by (reflexivity || assumption). destruct NM as (NM & NN). rewrite NM.
    change (teq (bs "class") "struct") with false.
    replace (bs "<" :: (a ++ bs ">" :: bt) ++ bs "{" :: b ++ bs "}" :: map fst l) with ((bs "<" :: a ++ [bs ">"]) ++ bt ++ bs "{" :: b ++ bs "}" :: map fst l)
      by (cbn [app]; rewrite <- !app_assoc; reflexivity).
    destruct (insert_at (targs_text ks) false a1 (bs "class") name (bs "<" :: a ++ [bs ">"]) (targs_text ka) bt (b ++ bs "}" :: map fst l) s) as (b2 & b1 & ->); [right; eauto|exact BC|].
    destruct (really_spec (name ++ targs_text ka) ks b2 b1 (bs "{") b (map fst l) s) as (c2 & c1 & ->).
    { intros X. apply in_app_or in X. tauto. }
    { apply in_or_app. right. destruct (targs_text_ne ka) as (x & ->). now left. }
    { now apply bare_bal. }
    { now left. }
    cbn [ibind more tk1 tk].
    etransitivity; [apply (IH f c1 (bs "}")); [reflexivity|lia]|].
    rewrite !adds_put. cbn [more]. f_equal. f_equal. cbn [texts taccess nl app]. rewrite texts_none. cbn [texts fdef nl app].
    rewrite !app_length. cbn [length]. unfold none. now rewrite !map_length.
  - rewrite map_none, texts_none. cbn [app start map fst]. rewrite map_none. cbn [map fst]. rewrite !app_length in F. cbn [none map length] in F. unfold none in F. rewrite !app_length, !map_length in F. cbn [length] in F. destruct f as [|f]; [lia|].
    rewrite <- app_assoc. cbn [app].
    destruct (loop_template f [] t2 t1 ts ks (bs "struct") (name :: bs "<" :: (a ++ bs ">" :: bt ++ bs "{" :: b ++ [lab]) ++ bs ":" :: b' ++ bs "}" :: map fst l) s T) as (a2 & a1 & A1 & ->).
    change (isclass (bs "struct")) with true. cbv iota. rewrite turn_class by (reflexivity || assumption). destruct NM as (NM & NN). rewrite NM.
    change (teq (bs "struct") "struct") with true.
    replace (bs "<" :: (a ++ bs ">" :: bt ++ bs "{" :: b ++ [lab]) ++ bs ":" :: b' ++ bs "}" :: map fst l) with ((bs "<" :: a ++ [bs ">"]) ++ bt ++ bs "{" :: b ++ lab :: bs ":" :: b' ++ bs "}" :: map fst l)
      by (cbn [app]; rewrite <- !app_assoc; cbn [app]; rewrite <- !app_assoc; cbn [app]; rewrite <- !app_assoc; reflexivity).
    destruct (insert_at (targs_text ks) true a1 (bs "struct") name (bs "<" :: a ++ [bs ">"]) (targs_text ka) bt (b ++ lab :: bs ":" :: b' ++ bs "}" :: map fst l) s) as (b2 & b1 & ->); [right; eauto|exact BC|].
    destruct (sscan_bal b (bare_bal _ BA) b1 (bs "{") 0 (lab :: bs ":" :: b' ++ bs "}" :: map fst l) (brace_label _ NL) ltac:(lia)) as (c1 & c & ->).
    cbn [sscan]. replace (teq lab "}") with false by (destruct HL; subst; reflexivity). replace (teq lab "{") with false by (destruct HL; subst; reflexivity).
    replace (teq lab ":") with false by (destruct HL; subst; reflexivity). cbn [andb]. change (teq (bs ":") "}") with false. change (teq (bs ":") "{") with false. change (teq (bs ":") ":") with true.
    replace (teq lab "protected" || teq lab "private")%bool with true by (destruct HL; subst; reflexivity). cbn [andb ilift ibind].
    destruct (really_spec (name ++ targs_text ka) ks c lab (bs ":") b' (map fst l) s) as (d2 & d1 & ->).
    { intros X. apply in_app_or in X. tauto. }
    { apply in_or_app. right. destruct (targs_text_ne ka) as (x & ->). now left. }
    { now apply bare_bal. }
    { now right. }
    cbn [ibind more tk1 tk].
    etransitivity; [apply (IH f d1 (bs "}")); [reflexivity|lia]|].
    rewrite !adds_put. cbn [more]. f_equal. f_equal. cbn [texts taccess nl app]. rewrite texts_none. cbn [texts fdef nl app].
    rewrite !app_length. cbn [length]. unfold none. now rewrite !map_length.
Qed.

(** *** C85: an access declaration is inserted exactly where it belongs *)
Theorem C85_inserts : forall l, fr l -> run_tokens [] (map fst l) = RDone (St 0 (texts l)).
Proof.
  intros l F. unfold run_tokens. cbv iota.
  rewrite loop_turn by reflexivity. rewrite turn_next by reflexivity.
  assert (E := fr_run l F (S (length (map fst l))) [] [] (St 0 []) eq_refl ltac:(rewrite map_length; lia)).
  unfold start in E. rewrite E. reflexivity.
Qed.
Print Assumptions C85_inserts.

(** *** Termination, for every file *)
Definition nfuel (x : xres) : Prop := match x with XFuel => False | _ => True end.
Lemma skipws_len l : (length (skipws l) <= length l)%nat.
Proof. induction l as [|c l IH]; cbn [skipws]; [lia|]. destruct (isspace c); cbn [length]; lia. Qed.
Lemma skipangle_len l : forall n l', skipangle l n = Some l' -> (length l' < length l)%nat.
Proof.
  induction l as [|c l IH]; intros n l' E; [discriminate|]. cbn [skipangle] in E. cbn [length].
  destruct (ceq c "<"); [apply IH in E; lia|]. destruct (ceq c ">"); [|apply IH in E; lia]. destruct n; [|apply IH in E; lia].
  assert (l = l') by congruence. subst. lia.
Qed.
Lemma skipeq_len l : forall n d l', skipeq l n = Some (d, l') -> ceq d zero = false -> (length l' < length l)%nat.
Proof.
  induction l as [|c l IH]; intros n d l' E Z; cbn [skipeq] in E.
  - destruct (n =? 0)%Z; [|discriminate]. assert (d = zero) by congruence. subst. discriminate.
  - cbn [length]. destruct (_ && _)%bool; [assert (l = l') by congruence; subst; lia|]. apply IH in E; [lia|exact Z].
Qed.
Lemma ext0_fuel : forall f l r t, (length l < f)%nat -> nfuel (ext0 f l r t).
Proof.
  induction f as [|f IH]; intros l r t L; [lia|]. cbn [ext0]. destruct l as [|c l]; [exact Logic.I|]. cbn [length] in L.
  destruct (isident c) eqn:I; [apply IH; lia|].
  assert (W : forall c' l', skipws (c :: l) = c' :: l' -> (length l' < f)%nat /\ (isident c' = true -> (S (length l') < f)%nat)).
  { intros c' l' E. pose proof (skipws_len (c :: l)) as H. rewrite E in H. cbn [length] in H. split; [lia|]. intros K.
    cbn [skipws] in E. destruct (isspace c).
    - pose proof (skipws_len l) as H'. rewrite E in H'. cbn [length] in H'. lia.
    - assert (c = c') by congruence. subst. congruence. }
  destruct (skipws (c :: l)) as [|c' l'] eqn:E; [exact Logic.I|]. destruct (W _ _ eq_refl) as (W1 & W2). clear W.
  destruct (ceq c' "<"); [destruct (skipangle l' 0) eqn:S1; [apply skipangle_len in S1; apply IH; lia|exact Logic.I]|].
  destruct (ceq c' "="); [destruct (skipeq (c' :: l') 0) as [[d m]|] eqn:S1; [|exact Logic.I]; destruct (ceq d zero) eqn:Z; [exact Logic.I|]; apply skipeq_len in S1; [cbn [length] in S1; apply IH; lia|exact Z]|].
  destruct (mem c' ">,"); [apply IH; lia|]. destruct (isident c'); [apply IH; cbn [length]; auto|apply IH; lia].
Qed.
(** the texts printed so far: in the order of the file, with at least [n] and fewer than [N] tokens to come *)
Fixpoint desc (l : list (nat * list ascii)) : Prop :=
  match l with [] => True | x :: l => Forall (fun y => (fst y <= fst x)%nat) l /\ desc l end.
Definition inv (N n : nat) (s : st) : Prop := Forall (fun x => (n <= fst x < N)%nat) (prints s) /\ desc (prints s).
Definition iok {A} (N n : nat) (r : ir A) : Prop :=
  match r with IOk _ i s => (len_i i <= n)%nat /\ inv N (len_i i) s | IEof s | IUb s => inv N 0 s | IFuel => False end.
Lemma inv_le N n n' s : (n' <= n)%nat -> inv N n s -> inv N n' s.
Proof. intros L (A & B). split; [|exact B]. eapply Forall_impl; [|exact A]. cbn. intros; lia. Qed.
Lemma desc_app l x : desc l -> Forall (fun y => (fst x <= fst y)%nat) l -> desc (l ++ [x]).
Proof.
  induction l as [|y l IH]; intros D F; [repeat constructor|]. cbn [app desc] in *. destruct D as (D1 & D2). inversion F; subst. split; [|auto].
  apply Forall_app. split; [exact D1|]. repeat constructor. assumption.
Qed.
Lemma inv_put N i s t : (len_i i < N)%nat -> inv N (len_i i) s -> inv N (len_i i) (put t i s).
Proof.
  intros L (A & B). split; cbn [put prints].
  - apply Forall_app. split; [exact A|]. repeat constructor; cbn [fst]; unfold len_i in *; lia.
  - apply desc_app; [exact B|]. eapply Forall_impl; [|exact A]. cbn. unfold len_i. intros; lia.
Qed.
Lemma inv_cnt N n s c : inv N n s -> inv N n (St c (prints s)). Proof. exact (fun x => x). Qed.
Lemma iok_bind {A B} N n n' (r : ir A) (k : A -> inp -> st -> ir B) : iok N n r -> (forall a i s, (len_i i <= n)%nat -> inv N (len_i i) s -> iok N n' (k a i s)) -> iok N n' (ibind r k).
Proof. destruct r as [a i s|s|s|]; cbn [ibind iok]; auto. intros (H1 & H2) H. now apply H. Qed.
Lemma iok_mono {A} N n n' (r : ir A) : (n <= n')%nat -> iok N n r -> iok N n' r.
Proof. destruct r; cbn [iok]; auto. intros L (A1 & A2). split; [lia|exact A2]. Qed.
Lemma iok_lift {A} N n (r : pres A) s i : pok n r -> inv N (len_i i) s -> (n <= len_i i)%nat -> iok N n (ilift r s).
Proof. destruct r as [a j| |]; cbn [pok ilift iok]; auto; intros P H L; [split; [exact P|apply (inv_le N (len_i i)); [lia|exact H]]|apply (inv_le N (len_i i)); [lia|exact H]]. Qed.
Lemma next_pok i : pok (len_i i - 1) (next i).
Proof. unfold next, len_i. destruct (more i); cbn; [exact Logic.I|]. unfold len_i. cbn. lia. Qed.
Lemma sscan_pok ts : forall t1 t nb, pok (length ts) (sscan ts t1 t nb).
Proof.
  induction ts as [|u m IH]; intros t1 t nb; cbn [sscan]; [exact Logic.I|]. destruct (_ && _)%bool; [cbn; unfold len_i; cbn; lia|]. cbv zeta.
  destruct (_ && _)%bool; [cbn; unfold len_i; cbn; lia|]. eapply pok_mono; [apply IH|cbn; lia].
Qed.
Lemma inst_pok f : forall nb i, (len_i i < f)%nat -> pok (len_i i) (inst f nb i).
Proof. induction f as [|f IH]; intros nb i L; [lia|]. cbn [inst]. destruct (_ || _)%bool; [|cbn; lia]. cbv zeta. loop1. Qed.
Lemma deal_inv name s td name' s' : deal_with_commas name s = (td, name', s') -> prints s' = prints s.
Proof. unfold deal_with_commas. destruct (existsb _ _); intros E; [now replace s' with (St (cnt s + 1) (prints s)) by congruence|now replace s' with s by congruence]. Qed.
Lemma really_iok N name targs i s : (len_i i < N)%nat -> inv N (len_i i) s -> iok N (len_i i) (really name targs i s).
Proof.
  intros L H. unfold really. destruct (deal_with_commas name s) as [[td name'] s'] eqn:D. apply deal_inv in D.
  assert (H' : inv N (len_i i) s') by (unfold inv in *; rewrite D; exact H).
  match goal with |- context [put ?x i s'] => assert (HP := inv_put N i s' x L H') end. cbv zeta. destruct targs as [|c targs]; [cbn [iok]; split; [lia|exact HP]|].
  apply iok_bind with (n := len_i i).
  - destruct (teq (tk i) "}"); [cbn [iok]; split; [lia|exact HP]|]. apply iok_bind with (n := len_i i); [eapply iok_lift; [apply gobble_ok|exact HP|apply Nat.le_refl]|].
    intros a j s1 J1 J2. cbn [iok]. auto.
  - intros a j s1 J1 J2. cbv zeta.
    assert (NF : nfuel (if existsb (ceq "<") name' then XOk name' else match extract_targs0 (c :: targs) with XOk a => XOk (name' ++ a) | x => x end)).
    { destruct (existsb _ _); [exact Logic.I|]. pose proof (ext0_fuel (S (length targs + length targs)) targs ["<"%char] [] ltac:(lia)) as X.
      unfold extract_targs0. destruct (ext0 _ _ _ _); [exact Logic.I|exact Logic.I|destruct X]. }
    destruct (if existsb _ _ then _ else _) as [n2| |]; [|apply (inv_le N (len_i j)); [lia|]; apply inv_put; [lia|exact J2]|destruct NF].
    destruct (deal_with_commas n2 s1) as [[td2 n3] s2] eqn:D2. apply deal_inv in D2. cbn [iok]. split; [exact J1|]. apply inv_put; [lia|]. unfold inv in *. now rewrite D2.
Qed.
Lemma insert_iok N targs st i s : (len_i i < N)%nat -> inv N (len_i i) s -> iok N (len_i i) (insert_friend targs st i s).
Proof.
  intros L H. unfold insert_friend. cbv zeta.
  apply iok_bind with (n := (len_i i - 1)%nat); [eapply iok_lift; [apply next_pok|exact H|lia]|]. intros _ i1 s1 L1 H1.
  apply iok_bind with (n := len_i i1).
  { destruct (teq (tk i1) "<"); [|cbn [iok]; split; [lia|exact H1]].
    apply iok_bind with (n := len_i i1); [eapply iok_lift; [apply template_ok|exact H1|lia]|]. intros t i2 s2 L2 H2. cbn [iok]. auto. }
  intros name i2 s2 L2 H2. destruct (strchr ":{" (first (tk i2))); [|cbn [iok]; split; [lia|exact H2]].
  apply iok_bind with (n := len_i i2).
  { eapply iok_lift; [apply skip_to_ok; unfold pbound, len_i; lia|exact H2|lia]. }
  intros _ i3 s3 L3 H3. destruct st.
  - apply iok_bind with (n := len_i i3); [eapply iok_lift; [apply sscan_pok|exact H3|unfold len_i; lia]|]. intros b i4 s4 L4 H4.
    destruct b; [|cbn [iok]; split; [lia|exact H4]]. eapply iok_mono; [|apply really_iok; [lia|exact H4]]. lia.
  - eapply iok_mono; [|apply really_iok; [lia|exact H3]]. lia.
Qed.
Lemma turn_iok N f targs i s : (forall targs i' s, (len_i i' < f)%nat -> (len_i i' < len_i i)%nat -> inv N (len_i i') s -> iok N (len_i i') (loop f targs i' s)) ->
  (len_i i <= f)%nat -> (len_i i < N)%nat -> inv N (len_i i) s -> iok N (len_i i) (turn f targs i s).
Proof.
  intros IH F L H. unfold turn. apply iok_bind with (n := len_i i).
  - destruct (_ && _)%bool; [|cbn [iok]; split; [lia|exact H]].
    apply iok_bind with (n := (len_i i - 1)%nat); [eapply iok_lift; [apply next_pok|exact H|lia]|]. intros _ i1 s1 L1 H1.
    apply iok_bind with (n := len_i i1).
    + destruct (isalpha _); [apply insert_iok; [lia|exact H1]|cbn [iok]; split; [lia|exact H1]].
    + intros _ i2 s2 L2 H2. cbn [iok]. split; [lia|exact H2].
  - intros t i1 s1 L1 H1. unfold next. unfold len_i in L1. destruct (more i1) as [|u m] eqn:E; cbn [ilift ibind iok].
    + apply (inv_le N (len_i i1)); [lia|exact H1].
    + eapply iok_mono; [|apply IH]; unfold len_i in *; cbn [more length] in *; try lia. apply (inv_le N (length (more i1))); [rewrite E; cbn [length]; lia|exact H1].
Qed.
Lemma loop_iok N : forall f targs i s, (len_i i < f)%nat -> (len_i i < N)%nat -> inv N (len_i i) s -> iok N (len_i i) (loop f targs i s).
Proof.
  induction f as [|f IH]; intros targs i s F L H; [lia|].
  destruct (teq (tk i) "template") eqn:T.
  2: { rewrite loop_turn by exact T. apply turn_iok; [|lia|exact L|exact H]. intros. apply IH; [assumption|lia|assumption]. }
  cbn [loop]. rewrite T.
  unfold next at 1. destruct (more i) as [|u m] eqn:E; cbn [ilift ibind]; [apply (inv_le N (len_i i)); [lia|exact H]|].
  set (i1 := Inp (tk1 i) (tk i) u m). assert (L1 : (len_i i1 < len_i i)%nat) by (unfold i1, len_i; rewrite E; cbn; lia).
  assert (H1 : inv N (len_i i1) s) by (apply (inv_le N (len_i i)); [lia|exact H]).
  destruct (teq (tk i1) "<").
  - apply iok_bind with (n := len_i i1); [eapply iok_lift; [apply template_ok|exact H1|lia]|]. intros ta i2 s2 L2 H2.
    change (iok N (len_i i) (if isclass (tk i2) then turn f ta i2 s2 else loop f [] i2 s2)). destruct (isclass (tk i2)).
    + eapply iok_mono; [|apply turn_iok; [|lia|lia|exact H2]]; [lia|]. intros. apply IH; [assumption|lia|assumption].
    + eapply iok_mono; [|apply IH; [lia|lia|exact H2]]. lia.
  - apply iok_bind with (n := len_i i1); [eapply iok_lift; [apply inst_pok; unfold pbound, len_i; lia|exact H1|lia]|]. intros ta i2 s2 L2 H2.
    eapply iok_mono; [|apply IH; [lia|lia|exact H2]]. lia.
Qed.
Lemma loop_end : forall f targs i s a j s', loop f targs i s <> IOk a j s'.
Proof.
  assert (B : forall A B (r : ir A) (k : A -> inp -> st -> ir B) a j s', (forall x i s, k x i s <> IOk a j s') -> ibind r k <> IOk a j s').
  { intros A B [x i s|s|s|] k a j s' H; cbn [ibind]; [apply H|discriminate|discriminate|discriminate]. }
  induction f as [|f IH]; intros targs i s a j s'; [discriminate|].
  assert (T : forall targs i s, turn f targs i s <> IOk a j s').
  { intros ta i1 s1. unfold turn. apply B. intros t i2 s2. apply B. intros _ i3 s3. apply IH. }
  destruct (teq (tk i) "template") eqn:E; [|rewrite loop_turn by exact E; apply T].
  cbn [loop]. rewrite E. apply B. intros _ i1 s1. destruct (teq (tk i1) "<").
  - apply B. intros ta i2 s2. change ((if isclass (tk i2) then turn f ta i2 s2 else loop f [] i2 s2) <> IOk a j s'). destruct (isclass (tk i2)); [apply T|apply IH].
  - apply B. intros _ i2 s2. apply IH.
Qed.
(** the first argument is the name of a file: it does not begin with a dash *)
Definition dash (opts : list tok) : Prop := exists o l, opts = ("-"%char :: o) :: l.
Lemma run_opts opts ts : ~ dash opts -> run_tokens opts ts = run_tokens [] ts.
Proof.
  intros N. unfold run_tokens. destruct opts as [|[|c o] l]; [reflexivity|reflexivity|].
  destruct c as [[] [] [] [] [] [] [] []]; try reflexivity. exfalso. apply N. unfold dash. eauto.
Qed.
(** *** C85: the program ends, or its behaviour is undefined, on every file; with an option it never does *)
Theorem C85_terminates : forall opts ts,
  (dash opts -> run_tokens opts ts = RNever) /\ (~ dash opts -> exists s, run_tokens opts ts = RDone s \/ run_tokens opts ts = RUb s).
Proof.
  intros opts ts. split; [intros (o & l & ->); reflexivity|]. intros N. rewrite run_opts by exact N. unfold run_tokens. cbv iota.
  pose proof (loop_iok (S (length ts)) (S (S (length ts))) [] (Inp [] [] [] ts) (St 0 [])) as P. unfold len_i in P. cbn [more] in P.
  specialize (P ltac:(lia) ltac:(lia)). assert (X : inv (S (length ts)) (length ts) (St 0 [])) by (split; constructor). specialize (P X).
  pose proof (loop_end (S (S (length ts))) [] (Inp [] [] [] ts) (St 0 [])) as Q.
  destruct (loop _ _ _ _) as [a j s'|s|s|]; [exfalso; eapply Q; reflexivity|exists s; now left|exists s; now right|destruct P].
Qed.
Example C85_terminates_ex : run_tokens [bs "-x"] [bs "int"] = RNever /\ run_tokens [bs "a.h"] [bs "int"] = RDone (St 0 []).
Proof. vm_compute. auto. Qed.
Print Assumptions C85_terminates.
(** an option makes it run for ever: the argument is not removed *)
Theorem C85_option_refuted : exists opts, forall ts, run_tokens opts ts = RNever.
Proof. exists [bs "-targ"]. reflexivity. Qed.
Print Assumptions C85_option_refuted.

(** *** Class templates *)
Definition ends (l : list ascii) : Prop := exists x, l = x ++ [" "%char].
Lemma ends_cons c l : ends (c :: l) -> isspace c = false -> ends l.
Proof.
  intros (x & E) N. destruct x as [|d x]; cbn [app] in E.
  - assert (c = " "%char) by congruence. subst. discriminate.
  - exists x. congruence.
Qed.
Lemma ends_suffix p l : ends (p ++ l) -> l <> [] -> ends l.
Proof.
  induction p as [|c p IH]; intros H N; [exact H|]. apply IH; [|exact N]. destruct H as (x & E). destruct x as [|d x]; cbn [app] in E.
  - exfalso. apply N. assert (X : p ++ l = []) by congruence. now apply app_eq_nil in X.
  - exists x. congruence.
Qed.
Lemma skipws_ends l : ends l -> skipws l = [] \/ ends (skipws l).
Proof.
  induction l as [|c l IH]; intros H; [now left|]. cbn [skipws]. destruct (isspace c); [|now right].
  destruct l as [|d l]; [now left|]. apply IH. apply (ends_suffix [c]); [exact H|discriminate].
Qed.
Lemma ends_tail c l : ends (c :: l) -> l = [] \/ ends l.
Proof. intros H. destruct l as [|d l]; [now left|right]. apply (ends_suffix [c]); [exact H|discriminate]. Qed.
Lemma skipangle_ends l : forall n l', ends l -> skipangle l n = Some l' -> ends l'.
Proof.
  induction l as [|c l IH]; intros n l' H E; [discriminate|]. cbn [skipangle] in E.
  assert (T : forall n, skipangle l n = Some l' -> ends l') by (intros m X; destruct (ends_tail _ _ H) as [T|T]; [rewrite T in X; cbn [skipangle] in X; discriminate X|now apply (IH m)]).
  destruct (ceq c "<"); [eapply T, E|]. destruct (ceq c ">") eqn:G; [|eapply T, E]. destruct n; [|eapply T, E].
  assert (l = l') by congruence. subst l'. apply (ends_cons c); [exact H|]. apply Ascii.eqb_eq in G. now subst.
Qed.
Lemma skipeq_ends l : forall n d l', ends l -> skipeq l n = Some (d, l') -> ceq d zero = false -> ends l'.
Proof.
  induction l as [|c l IH]; intros n d l' H E Z; cbn [skipeq] in E.
  - destruct (n =? 0)%Z; [|discriminate]. assert (d = zero) by congruence. subst. discriminate.
  - destruct (strchr ">," c && _)%bool eqn:Q.
    + assert (l = l') by congruence. assert (c = d) by congruence. subst l' d. apply (ends_cons c); [exact H|].
      apply Bool.andb_true_iff in Q. destruct Q as (Q & _). destruct (isspace c) eqn:Sp; [|reflexivity]. exfalso.
      unfold strchr, mem in Q. cbn in Q. rewrite Z in Q. cbn [orb] in Q. 
      apply Bool.orb_true_iff in Q. destruct Q as [Q|Q]; [apply Ascii.eqb_eq in Q; subst; discriminate|].
      rewrite Bool.orb_false_r in Q. apply Ascii.eqb_eq in Q. subst. discriminate.
    + destruct (ends_tail _ _ H) as [->|T]; [|now apply (IH _ _ _ T) in E].
      cbn [skipeq] in E. match type of E with (if ?b then _ else _) = _ => destruct b; [|discriminate] end. assert (d = zero) by congruence. subst. discriminate.
Qed.
Lemma ident_nospace c : isident c = true -> isspace c = false.
Proof. intros H. apply C52_identifier_characters in H. now apply id_plain. Qed.
(** the arguments of a template as get_template_args returns them end in a space: they cannot be read *)
Lemma ext0_ub : forall f l r t, (length l < f)%nat -> ends l -> ext0 f l r t = XUb.
Proof.
  induction f as [|f IH]; intros l r t L E; [lia|]. cbn [ext0]. destruct l as [|c l]; [destruct E as ([|] & E); discriminate|]. cbn [length] in L.
  destruct (isident c) eqn:I; [apply IH; [lia|]; apply (ends_cons c); [exact E|now apply ident_nospace]|].
  assert (W : forall c' l', skipws (c :: l) = c' :: l' -> (length l' < f)%nat /\ (isident c' = true -> (S (length l') < f)%nat) /\ isspace c' = false).
  { intros c' l' E'. pose proof (skipws_len (c :: l)) as H. rewrite E' in H. cbn [length] in H. split; [lia|]. split.
    - intros K. cbn [skipws] in E'. destruct (isspace c).
      + pose proof (skipws_len l) as H'. rewrite E' in H'. cbn [length] in H'. lia.
      + assert (c = c') by congruence. subst. congruence.
    - clear - E'. revert E'. generalize (c :: l). intros m. induction m as [|d m IH]; cbn [skipws]; [discriminate|]. destruct (isspace d) eqn:D; [exact IH|]. intros X. assert (d = c') by congruence. now subst. }
  destruct (skipws_ends _ E) as [->|E1]; [reflexivity|].
  destruct (skipws (c :: l)) as [|c' l']; [reflexivity|]. destruct (W _ _ eq_refl) as (W1 & W2 & W3). clear W. pose proof (ends_cons _ _ E1 W3) as E2.
  destruct (ceq c' "<"); [destruct (skipangle l' 0) eqn:S1; [pose proof (skipangle_ends _ _ _ E2 S1); apply skipangle_len in S1; apply IH; [lia|assumption]|reflexivity]|].
  destruct (ceq c' "="); [destruct (skipeq (c' :: l') 0) as [[d m]|] eqn:S1; [|reflexivity]; destruct (ceq d zero) eqn:Z; [reflexivity|]; pose proof (skipeq_ends _ _ _ _ E1 S1 Z); apply skipeq_len in S1; [cbn [length] in S1; apply IH; [lia|assumption]|exact Z]|].
  destruct (mem c' ">,"); [apply IH; [lia|exact E2]|]. destruct (isident c') eqn:I2; [apply IH; [cbn [length]; auto|exact E1]|apply IH; [lia|exact E2]].
Qed.
Lemma targs_ends ks : exists l, targs_text ks = "<"%char :: l /\ ends l.
Proof.
  unfold targs_text. rewrite ttxt_cons, ttxt_app. change (ttxt [bs ">"]) with (bs "> "). exists ([" "%char] ++ ttxt ks ++ bs "> "). split; [reflexivity|].
  exists ([" "%char] ++ ttxt ks ++ bs ">"). rewrite <- !app_assoc. reflexivity.
Qed.
(** the behaviour is undefined at every class template that is defined, but for specialisations:
    after the class the program has printed the macro, then it reads past the end of a string *)
Theorem C85_template : forall ts ks name bt b rest, tpl ts ks -> name_ok name -> ~ In "<"%char name -> bclause bt -> bal (bs "{") (bs "}") b ->
  run_tokens [] (bs "template" :: bs "<" :: ts ++ bs ">" :: bs "class" :: name :: bt ++ bs "{" :: b ++ bs "}" :: rest) =
  RUb (St 0 [(length (b ++ bs "}" :: rest), taccess name); (length rest, nl ++ bs "#define CLASSDESC_TDEC template" ++ targs_text ks ++ nl)]).
Proof.
  intros ts ks name bt b rest T (NM & NC) NL BC B. unfold run_tokens. cbv iota.
  set (all := bs "template" :: _). rewrite loop_turn by reflexivity. rewrite turn_next by reflexivity. unfold all at 2. unfold all. clear all.
  destruct (loop_template (length (bs "template" :: bs "<" :: ts ++ bs ">" :: bs "class" :: name :: bt ++ bs "{" :: b ++ bs "}" :: rest)) [] [] [] ts ks (bs "class") (name :: bt ++ bs "{" :: b ++ bs "}" :: rest) (St 0 []) T) as (a2 & a1 & A1 & E).
  cbn [length]. cbn [length] in E. rewrite E. clear E. change (isclass (bs "class")) with true. cbv iota. rewrite turn_class by (reflexivity || assumption). rewrite NM.
  change (teq (bs "class") "struct") with false.
  destruct (insert_at (targs_text ks) false a1 (bs "class") name [] [] bt (b ++ bs "}" :: rest) (St 0 []) (or_introl (conj eq_refl eq_refl)) BC) as (b2 & b1 & E). cbn [app] in E. rewrite E. clear E.
  rewrite app_nil_r. unfold really, deal_with_commas. rewrite (no_comma _ NC).
  destruct (targs_ends ks) as (x & EX & EN). rewrite EX. change (teq ("<"%char :: x) "") with false. cbv iota. cbn [tk]. change (teq (bs "{") "}") with false. cbv iota.
  destruct (C53_stops "{" "}" (Inp b2 b1 (bs "{") (b ++ bs "}" :: rest)) b rest) as (G & M & K); [discriminate|discriminate|exact B|intros X; discriminate X|reflexivity|].
  rewrite G. destruct (after (S (length b)) _) as [c2 c1 c cm]. cbn [more tk] in M, K. subst c cm. cbn [ilift ibind].
  assert (LT : existsb (ceq "<") name = false).
  { apply Bool.not_true_iff_false. intros X. apply existsb_exists in X. destruct X as (c & I1 & X). apply Ascii.eqb_eq in X. subst. tauto. }
  rewrite LT. unfold extract_targs0. rewrite ext0_ub; [|lia|exact EN]. reflexivity.
Qed.
Example C85_template_ex : exists t, run_tokens [] (map bs ["template"; "<"; "class"; "T"; ">"; "class"; "A"; ":"; "B"; "{"; "T"; "x"; ";"; "}"; ";"]%string) = RUb t.
Proof. eexists. vm_compute. reflexivity. Qed.
Print Assumptions C85_template.
(** the behaviour is undefined at a class template *)
Theorem C85_template_refuted : exists ts s, ts = map bs ["template"; "<"; "class"; "T"; ">"; "class"; "A"; "{"; "T"; "x"; ";"; "}"; ";"]%string /\ run_tokens [] ts = RUb s.
Proof. eexists. eexists. split; [reflexivity|]. vm_compute. reflexivity. Qed.
Print Assumptions C85_template_refuted.

(** *** C86: the output *)
Lemma run_inv opts ts s : run_tokens opts ts = RDone s -> Forall (fun x => (fst x < length ts)%nat) (prints s) /\ desc (prints s).
Proof.
  intros E. assert (E' : run_tokens [] ts = RDone s).
  { rewrite <- E. symmetry. apply run_opts. intros (o & l & ->). discriminate E. }
  clear E. unfold run_tokens in E'. cbv iota in E'. rewrite loop_turn in E' by reflexivity. rewrite turn_next in E' by reflexivity.
  destruct ts as [|t m]; [assert (s = St 0 []) by congruence; subst; split; constructor|].
  pose proof (loop_iok (length (t :: m)) (S (length (t :: m))) [] (Inp [] [] t m) (St 0 [])) as P. unfold len_i in P. cbn [more length] in P.
  specialize (P ltac:(lia) ltac:(lia)). assert (X : inv (S (length m)) (length m) (St 0 [])) by (split; constructor). specialize (P X).
  cbn [length] in E'. destruct (loop _ _ _ _) as [a j s'|s'|s'|]; [discriminate| |discriminate|discriminate].
  assert (s' = s) by congruence. subst. destruct P as (P1 & P2). split; [|exact P2]. eapply Forall_impl; [|exact P1]. cbn. intros; lia.
Qed.
Definition pre (a b : list ascii) : Prop := exists x, b = a ++ x.
Lemma pre_refl a : pre a a. Proof. exists []. now rewrite app_nil_r. Qed.
Lemma pre_trans a b c : pre a b -> pre b c -> pre a c.
Proof. intros (x & ->) (y & ->). exists (x ++ y). now rewrite app_assoc. Qed.
Lemma get_pre p s : pre p (out s) -> match getnextc s with TOk _ s' | TEof s' => pre p (out s') | _ => True end.
Proof.
  intros H. unfold getnextc. destruct (gn None (rest s)) as [c r e o| |]; cbn [out]; try exact Logic.I; [|exact H].
  eapply pre_trans; [exact H|]. now exists o.
Qed.
(** the echo only grows *)
Lemma next_grows file p s : EI file s -> pre p (out s) -> good (fun s => EI file s /\ pre p (out s)) (fun s => EJ file s /\ pre p (out s)) (nexttok s).
Proof.
  intros H P. apply good_nexttok; [| | |split; assumption].
  - intros s1 s2 A B C D (H1 & H2). split; [now apply (EI_ext file s1)|now rewrite D].
  - intros s1 (H1 & H2) E. split; [now apply EI_J|exact H2].
  - intros s1 (H1 & H2). pose proof (EI_get file s1 H1) as G. pose proof (get_pre p s1 H2) as Q. destruct (getnextc s1); cbn [good] in *; auto.
Qed.
Inductive chain : list ascii -> list (list ascii) -> list ascii -> Prop :=
| ch_nil a e : pre a e -> chain a [] e
| ch_cons a b es e : pre a b -> chain b es e -> chain a (b :: es) e.
Lemma echoes_chain file : forall f s ts o, EI file s -> lex f s = (ts, LEof o) ->
  let (es, e) := echoes f s in length es = length ts /\ e = o /\ chain (out s) es e /\ whole file e.
Proof.
  induction f as [|f IH]; intros s ts o H E; [discriminate|]. cbn [lex] in E. cbn [echoes].
  pose proof (next_grows file (out s) s H (pre_refl _)) as G. destruct (nexttok s) as [a s'|s'| |]; cbn [good] in G; try discriminate.
  - destruct G as (G1 & G2). destruct (lex f s') as [ts' r] eqn:L. assert (r = LEof o) by congruence. assert (ts = token s' :: ts') by congruence. subst.
    specialize (IH s' ts' o G1 L). destruct (echoes f s') as [es e]. destruct IH as (I1 & I2 & I3 & I4). cbn [length]. split; [lia|]. split; [exact I2|]. split; [now apply ch_cons|exact I4].
  - destruct G as (G1 & G2). assert (ts = []) by congruence. assert (o = out s') by congruence. subst. repeat split; [now apply ch_nil|exact G1].
Qed.
Lemma chain_pre a es e : chain a es e -> pre a e.
Proof. induction 1 as [a e H|a b es e H _ IH]; [exact H|]. now apply (pre_trans a b). Qed.
Lemma chain_nth a es e : chain a es e -> forall i, (i < length es)%nat -> pre a (nth i es []) /\ pre (nth i es []) e /\ forall j, (i <= j < length es)%nat -> pre (nth i es []) (nth j es []).
Proof.
  induction 1 as [a e H|a b es e H C IH]; intros i L; [cbn in L; lia|]. cbn [length] in L. destruct i as [|i]; cbn [nth].
  - split; [exact H|]. split; [now apply chain_pre in C|]. intros [|j] J; [apply pre_refl|]. apply IH. cbn [length] in J. lia.
  - destruct (IH i ltac:(lia)) as (I1 & I2 & I3). split; [now apply (pre_trans a b)|]. split; [exact I2|]. intros [|j] J; [lia|]. apply I3. cbn [length] in J. lia.
Qed.
Lemma chain_nil a es e : chain a es e -> chain [] es e.
Proof. destruct 1; [constructor; now exists e|]. constructor; [now exists b|assumption]. Qed.
Lemma pre_skip a b : pre a b -> b = a ++ skipn (length a) b.
Proof. intros (x & ->). f_equal. rewrite skipn_app, skipn_all, Nat.sub_diag. reflexivity. Qed.
(** the pieces of the echo between the texts *)
Lemma weave_pieces a es e : chain a es e -> forall l p, Forall (fun x => (fst x < length es)%nat) l -> desc l -> pre p e ->
  Forall (fun x => pre p (nth (length es - fst x - 1) es [])) l ->
  exists ps z, weave es e (length p) l = concat (map (fun q => fst q ++ snd q) ps) ++ z /\ skipn (length p) e = concat (map fst ps) ++ z /\ map snd ps = map snd l.
Proof.
  intros C. induction l as [|[m t] l IH]; intros p F D P Q.
  - exists [], (skipn (length p) e). repeat split.
  - apply Forall_cons_iff in F as [F1 F]. cbn [fst] in F1. apply Forall_cons_iff in Q as [Q1 Q]. cbn [fst] in Q1. cbn [desc fst] in D. destruct D as (D1 & D).
    cbn [weave]. set (x := nth (length es - m - 1) es []) in *.
    destruct (chain_nth _ _ _ C (length es - m - 1) ltac:(lia)) as (_ & X & Y). fold x in X, Y.
    destruct (IH x F D X) as (ps & z & E1 & E2 & E3).
    { rewrite Forall_forall in *. intros y I1. apply Y. specialize (D1 y I1). specialize (F y I1). lia. }
    exists ((skipn (length p) x, t) :: ps), z. cbn [map concat fst snd]. rewrite E1, E3. split; [now rewrite <- !app_assoc|]. split; [|reflexivity].
    rewrite (pre_skip _ _ X). rewrite skipn_app. destruct Q1 as (y & EY). rewrite E2.
    replace (length p - length x)%nat with 0%nat by (rewrite EY, app_length; lia). rewrite <- app_assoc. reflexivity.
Qed.
(** What the program writes is the file with the texts put in it; nothing is dropped or changed (but a
    last backslash or bracket, C65_echo). *)
Theorem C86_copy : forall opts file o, noattr file -> program opts file = Some o ->
  exists l e s, run_tokens opts (fst (lex_file file)) = RDone s /\ map snd l = map snd (prints s) /\
    o = concat (map (fun p => fst p ++ snd p) l) ++ e /\ whole file (concat (map fst l) ++ e).
Proof.
  intros opts file o N E. unfold program in E. destruct (lex_file file) as [ts [r| |]] eqn:L; [|discriminate|discriminate]. cbn [fst].
  destruct (run_tokens opts ts) as [s|s| |] eqn:R; try discriminate. destruct (run_inv _ _ _ R) as (R1 & R2).
  assert (K : EI file (mktin file false None [] [] [] [])) by (split; [exact N|reflexivity]).
  assert (G := EI_get _ _ K). unfold lex_file, echo_file in *. fold (tok_init file) in G. destruct (tok_init file) as [a s0|s0| |]; cbn [good] in G; try discriminate.
  - pose proof (echoes_chain file (S (length file)) s0 ts r G L) as X. destruct (echoes _ _) as [es e]. destruct X as (X1 & X2 & X3 & X4).
    destruct (weave_pieces _ _ _ (chain_nil _ _ _ X3) (prints s) []) as (ps & z & E1 & E2 & E3).
    { rewrite X1. exact R1. } { exact R2. } { now exists e. } { rewrite Forall_forall. intros y _. now eexists. }
    exists ps, z, s. split; [reflexivity|]. split; [exact E3|]. cbn [length skipn] in E1, E2. split; [congruence|]. now rewrite <- E2.
  - assert (ts = []) by congruence. subst. destruct (prints s) as [|[m t] l] eqn:PS; [|inversion R1; subst; cbn in *; lia].
    exists [], (out s0), s. cbn [weave] in E. rewrite PS. split; [reflexivity|]. split; [reflexivity|]. split; [cbn; cbn in E; congruence|]. exact G.
Qed.
Print Assumptions C86_copy.

(** *** The output for a file of tokens, each followed by one blank *)
Lemma noattr_app a y b : noattr a -> y <> "["%char -> noattr b -> noattr (a ++ y :: b).
Proof.
  induction a as [|c a IH]; intros A Y B u v E; cbn [app] in E.
  - destruct u as [|d u]; cbn [app] in E; [congruence|]. apply (B u v). congruence.
  - destruct u as [|d u]; cbn [app] in E.
    + destruct a as [|d a]; cbn [app] in E; [congruence|]. apply (A [] a). cbn [app]. congruence.
    + apply (IH (noattr_suffix [c] _ A) Y B u v). congruence.
Qed.
Lemma noattr_not t : ~ In "["%char t -> noattr t.
Proof. intros N u v ->. apply N. apply in_or_app. right. now left. Qed.
Lemma plain_noattr t : plain_token t -> noattr t.
Proof.
  intros [t' N F|t' I NB|q b Q F].
  - apply noattr_not. intros X. rewrite Forall_forall in F. specialize (F _ X). destruct (id_plain _ F) as (_ & _ & _ & _ & _ & _ & Z). discriminate Z.
  - assert (H := tabP (fun o => negb (existsb (ceq "[") (tl o))) ltac:(vm_compute; reflexivity) t' I). apply Bool.negb_true_iff in H. apply Bool.not_true_iff_false in H.
    intros u v ->. apply H. apply existsb_exists. exists "["%char. split; [|reflexivity]. destruct u as [|c u]; cbn [app tl]; [now left|]. apply in_or_app. right. now left.
  - apply noattr_not. intros [X|X]; [destruct Q; subst; discriminate|]. apply in_app_or in X. destruct X as [X|[X|[]]]; [|destruct Q; subst; discriminate].
    rewrite Forall_forall in F. specialize (F _ X). tauto.
Qed.
Example C86_copy_ex : noattr (bs "class A { int a[2]; };") /\ exists o, program [] (bs "class A { int a[2]; };") = Some o.
Proof.
  split; [|eexists; vm_compute; reflexivity].
  assert (N : forall t, existsb (ceq "[") t = false -> noattr t).
  { intros t E. apply noattr_not. intros X. apply Bool.not_true_iff_false in E. apply E. apply existsb_exists. exists "["%char. split; [exact X|reflexivity]. }
  apply (noattr_app (bs "class A { int a[") "2"%char (bs "]; };")); [|discriminate|now apply N].
  apply (noattr_app (bs "class A { int ") "a"%char (bs "[")); [now apply N|discriminate|]. apply plain_noattr, pt_op; [cbn; intuition|discriminate].
Qed.
Lemma blank_nobracket y : In y blanks -> y <> "["%char.
Proof. intros Y ->. now destruct (blank_plain _ Y) as (_ & _ & _ & Z). Qed.
Lemma spaced_noattr l : Forall (fun p => plain_token (fst p) /\ In (snd p) blanks) l -> noattr (spaced l).
Proof.
  induction 1 as [|[t y] l (P & Y) _ IH]; [intros u v E; destruct u; discriminate|]. unfold spaced. cbn [map concat fst snd]. rewrite <- app_assoc. cbn [app].
  apply noattr_app; [now apply plain_noattr|now apply blank_nobracket|exact IH].
Qed.
Fixpoint outs (o : list ascii) (l : list (tok * ascii)) : list (list ascii) :=
  match l with [] => [] | (t, y) :: l => (o ++ t ++ [y]) :: outs (o ++ t ++ [y]) l end.
Lemma spaced_cons t y l : spaced ((t, y) :: l) = t ++ y :: spaced l.
Proof. unfold spaced. cbn [map concat fst snd]. now rewrite <- app_assoc. Qed.
Lemma echoes_spaced : forall l, Forall (fun p => plain_token (fst p) /\ In (snd p) blanks) l ->
  forall f w o' tk lt tb, In w blanks -> (length l < f)%nat ->
  echoes f (mktin (spaced l) false (Some w) (o' ++ [w]) tk lt tb) = (outs (o' ++ [w]) l, (o' ++ [w]) ++ spaced l).
Proof.
  induction l as [|[t y] l IH]; intros F f w o' tk lt tb W L; (destruct f as [|f]; [cbn in L; lia|]); cbn [echoes].
  - set (s := mktin _ _ _ _ _ _ _).
    assert (H : EI (o' ++ [w]) s) by (split; [intros u v X; destruct u; discriminate X|unfold s; cbn; now rewrite app_nil_r]).
    pose proof (next_grows _ (out s) s H (pre_refl _)) as G.
    assert (E : exists s', nexttok s = TEof s').
    { unfold s. cbn in W. repeat (destruct W as [<-|W]; [eexists; vm_compute; reflexivity|]). destruct W. }
    destruct E as (s' & E). rewrite E in *. cbn [good] in G. destruct G as (_ & G). destruct G as (x & G). clear H.
    assert (X : out s' = o' ++ [w]).
    { unfold s in E. cbn in W. repeat (destruct W as [<-|W]; [vm_compute in E; injection E as <-; cbn [out]; try rewrite app_nil_r; reflexivity|]). destruct W. }
    rewrite X. cbn [outs spaced map concat]. now rewrite app_nil_r.
  - pose proof F as F0. apply Forall_cons_iff in F as [[F1 F2] F]. cbn [fst snd] in F1, F2. rewrite spaced_cons.
    set (s := mktin _ _ _ _ _ _ _).
    assert (H : EI ((o' ++ [w]) ++ t ++ y :: spaced l) s).
    { split; [|reflexivity]. unfold s. cbn [rest]. rewrite <- spaced_cons. now apply spaced_noattr. }
    pose proof (next_grows _ (out s) s H (pre_refl _)) as G. unfold s in *. clear s.
    destruct (next_plain t y F1 F2 w (spaced l) (o' ++ [w]) tk lt tb W) as [o1 E]. rewrite E in *. cbn [good] in G. destruct G as ((_ & G) & _). cbn [ef rest out] in G.
    assert (O1 : o1 = ((o' ++ [w]) ++ t) ++ [y]).
    { apply (app_inv_tail (spaced l)). rewrite G. rewrite <- !app_assoc. reflexivity. }
    cbn [out]. subst o1. rewrite IH; [|exact F|exact F2|cbn in L; lia].
    cbn [outs]. rewrite !app_assoc. rewrite <- !app_assoc. reflexivity.
Qed.
Notation line := ((tok * ascii) * list ascii)%type (only parsing).
Definition render (l : list ((tok * ascii) * list ascii)) : list ascii := concat (map (fun p => fst (fst p) ++ [snd (fst p)] ++ snd p) l).
Definition unblank (l : list ((tok * ascii) * list ascii)) : list (tok * list ascii) := map (fun p => (fst (fst p), snd p)) l.
Lemma outs_len o l : length (outs o l) = length l.
Proof. revert o. induction l as [|[t y] l IH]; intros o; cbn; auto. Qed.
Lemma weave_render l : forall es1 o w, (w <= length o)%nat ->
  weave (es1 ++ outs o (map fst l)) (o ++ spaced (map fst l)) w (texts (unblank l)) = skipn w o ++ render l.
Proof.
  induction l as [|[[t y] x] l IH]; intros es1 o w L.
  - cbn [map spaced concat unblank texts weave render]. now rewrite !app_nil_r.
  - cbn [map fst outs]. rewrite spaced_cons. set (o1 := o ++ t ++ [y]).
    replace (o ++ t ++ y :: spaced (map fst l)) with (o1 ++ spaced (map fst l)) by (unfold o1; rewrite <- !app_assoc; reflexivity).
    replace (es1 ++ o1 :: outs o1 (map fst l)) with ((es1 ++ [o1]) ++ outs o1 (map fst l)) by (rewrite <- app_assoc; reflexivity).
    assert (SK : skipn w o1 = skipn w o ++ t ++ [y]).
    { unfold o1. rewrite skipn_app. replace (w - length o)%nat with 0%nat by lia. reflexivity. }
    unfold render. cbn [map concat fst snd]. fold (render l). destruct x as [|c x]; cbn [unblank map fst snd texts].
    + change (map (fun p => (fst (fst p), snd p)) l) with (unblank l). rewrite IH by (unfold o1; rewrite app_length; lia). rewrite SK. rewrite app_nil_r, <- !app_assoc. reflexivity.
    + change (map (fun p => (fst (fst p), snd p)) l) with (unblank l). cbn [weave].
      replace (nth _ ((es1 ++ [o1]) ++ outs o1 (map fst l)) []) with o1.
      * rewrite IH by lia. rewrite skipn_all, SK. cbn [app]. rewrite <- !app_assoc. reflexivity.
      * rewrite !app_length, outs_len. unfold unblank. rewrite !map_length. cbn [length].
        replace (length es1 + 1 + length l - length l - 1)%nat with (length es1) by lia.
        rewrite <- app_assoc. rewrite app_nth2 by lia. now rewrite Nat.sub_diag.
Qed.
Theorem C86_output : forall w l, In w blanks -> Forall (fun p => plain_token (fst p) /\ In (snd p) blanks) (map fst l) -> fr (unblank l) ->
  program [] (w :: spaced (map fst l)) = Some (w :: render l).
Proof.
  intros w l W F FR. destruct (C52_plain_text w (map fst l) W F) as (o & E). unfold program. rewrite E.
  assert (R := C85_inserts _ FR). replace (map fst (unblank l)) with (map fst (map fst l)) in R by (unfold unblank; now rewrite !map_map). rewrite R. cbn [prints].
  unfold echo_file, tok_init, getnextc. cbn [rest out token lasttoken tokenBeforeLast].
  destruct (blank_plain w W) as (_ & _ & C & D). rewrite (gn_plain w _ C D). rewrite app_nil_l.
  assert (X := echoes_spaced _ F (S (length (w :: spaced (map fst l)))) w [] [] [] [] W). cbn [app] in X. rewrite X.
  - f_equal. exact (weave_render l [] [w] 0 (Nat.le_0_l _)).
  - cbn [length]. clear - F. induction (map fst l) as [|[t y] m IH]; [cbn; lia|]. apply Forall_cons_iff in F as [_ F]. rewrite spaced_cons, app_length. cbn [length]. specialize (IH F). lia.
Qed.
Print Assumptions C86_output.
(** an example with most of the cases *)
Definition w_ (ts : list string) : list (tok * list ascii) := none (map bs ts).
Definition ex_fr : list (tok * list ascii) :=
  w_ ["class"; "A"; ":"; "public"; "B"]%string ++ (bs "{", access (bs "A")) :: w_ ["int"; "x"; ";"; "friend"; "class"; "D"; ";"; "}"; ";"]%string ++
  w_ ["struct"; "S"; "{"; "int"; "x"; ";"; "}"; ";"]%string ++
  w_ ["struct"; "P"; "{"; "int"; "x"; ";"; "private"]%string ++ (bs ":", access (bs "P")) :: w_ ["int"; "y"; ";"; "}"; ";"]%string ++
  w_ ["template"; "<"; "class"; "T"; ">"; "class"; "V"; ";"]%string ++
  w_ ["template"; "<"; ">"; "class"; "V"; "<"; "int"; ">"]%string ++ (bs "{", taccess (bs "V< int > ")) :: w_ ["int"; "z"; ";"]%string ++ (bs "}", fdef (bs "< > ") (bs "V< int > ")) :: w_ [";"]%string ++
  w_ ["template"; "class"; "V"; ";"]%string.
Ltac notin := let H := fresh in intros H; repeat (destruct H as [H|H]; [discriminate H|]); exact H.
Ltac toks := repeat (apply fr_tok; [notin|]).
Lemma no_label b : ~ In (bs ":") b -> ~ labelled b.
Proof. intros N (a & l & c & -> & _). apply N. apply in_or_app. right. right. now left. Qed.
Lemma bare_plain b : ~ In (bs "class") b -> ~ In (bs "struct") b -> ~ In (bs "{") b -> ~ In (bs "}") b -> bare b.
Proof.
  induction b as [|t b IH]; intros A B C D; [constructor|]. apply ba_tok.
  - intros [->| ->]; [apply A|apply B]; now left.
  - intros ->. apply C. now left.
  - intros ->. apply D. now left.
  - apply IH; intros X; [apply A|apply B|apply C|apply D]; now right.
Qed.
Lemma ex_fr_ok : fr ex_fr.
Proof.
  unfold ex_fr.
  apply (fr_class (bs "A") (map bs [":"; "public"; "B"]%string)); [split; [reflexivity|notin]|split; [right; eexists; reflexivity|notin]|].
  do 3 (apply fr_tok; [notin|]). apply (fr_friend (bs "class")); [discriminate|discriminate|]. toks.
  apply (fr_struct0 (bs "S") [] (map bs ["int"; "x"; ";"]%string)); [split; [reflexivity|notin]|split; [now left|notin]|apply bare_plain; notin|apply no_label; notin|]. toks.
  apply (fr_struct (bs "P") [] (map bs ["int"; "x"; ";"]%string) (bs "private")); [split; [reflexivity|notin]|split; [now left|notin]|apply bare_plain; notin|apply no_label; notin|now left|]. toks.
  apply (fr_tfwd (map bs ["class"; "T"]%string) (map bs ["class"; "T"]%string) (bs "class") (bs "V") (bs ";")); [repeat (apply t_tok; [reflexivity|]); apply t_nil|now left|split; [reflexivity|notin]|reflexivity|].
  apply (fr_spec [] [] (bs "V") [bs "int"] [bs "int"] [] (map bs ["int"; "z"; ";"]%string));
    [apply t_nil|split; [reflexivity|notin]|apply t_tok; [reflexivity|apply t_nil]|notin|split; [now left|notin]|apply bare_plain; notin|]. toks.
  apply (fr_inst (bs "class") [bs "V"] []); [discriminate|apply q_tok; [notin|]; apply q_tok; [notin|apply q_nil]|apply fr_nil].
Qed.
Example C85_inserts_ex : fr ex_fr /\ length (texts ex_fr) = 4%nat.
Proof. split; [exact ex_fr_ok|reflexivity]. Qed.
Example C86_output_ex : exists l, In " "%char blanks /\ Forall (fun p => plain_token (fst p) /\ In (snd p) blanks) (map fst l) /\ fr (unblank l) /\
  render l = bs "class A { 
CLASSDESC_ACCESS(A);
int x ; } ; ".
Proof.
  exists [((bs "class", " "%char), []); ((bs "A", " "%char), []); ((bs "{", " "%char), access (bs "A")); ((bs "int", " "%char), []); ((bs "x", " "%char), []);
     ((bs ";", " "%char), []); ((bs "}", " "%char), []); ((bs ";", " "%char), [])].
  split; [now left|]. split; [|split; [|vm_compute; reflexivity]].
  - repeat apply Forall_cons; try apply Forall_nil; (split; [|now left]); cbn [fst];
      first [apply pt_op; [cbn; tauto|discriminate] | apply pt_word; [discriminate|repeat apply Forall_cons; try apply Forall_nil; cbn; tauto]].
  - apply (fr_class (bs "A") [] (w_ ["int"; "x"; ";"; "}"; ";"]%string)); [split; [reflexivity|notin]|split; [now left|notin]|]. unfold w_. cbn [none map]. toks. apply fr_nil.
Qed.

(** *** What does not hold *)
(** the character after the brace has been echoed already when the declaration is inserted: a word that
    follows the brace at once is split *)
Theorem C86_split_refuted : exists f o, f = bs "class A {int x;}; " /\ program [] f = Some o /\ o = bs "class A {i
CLASSDESC_ACCESS(A);
nt x;}; ".
Proof. eexists. eexists. split; [reflexivity|]. split; [vm_compute; reflexivity|reflexivity]. Qed.
Print Assumptions C86_split_refuted.
(** the declaration is inserted in an enumeration *)
Theorem C85_enum_class_refuted : exists f o, f = bs "enum class D { a, b }; " /\ program [] f = Some o /\ o = bs "enum class D { 
CLASSDESC_ACCESS(D);
a, b }; ".
Proof. eexists. eexists. split; [reflexivity|]. split; [vm_compute; reflexivity|reflexivity]. Qed.
Print Assumptions C85_enum_class_refuted.
(** a final class gets none *)
Theorem C85_final_refuted : exists f, f = bs "class A final { int x; }; " /\ program [] f = Some f.
Proof. eexists. split; [reflexivity|]. vm_compute. reflexivity. Qed.
Print Assumptions C85_final_refuted.
(** a variable of a class with a qualified name: the declaration is inserted in the next function *)
Theorem C85_qualified_refuted : exists f o, f = bs "class A::B x; void f() { g(); } " /\ program [] f = Some o /\ o = bs "class A::B x; void f() { 
CLASSDESC_ACCESS(A);
g(); } ".
Proof. eexists. eexists. split; [reflexivity|]. split; [vm_compute; reflexivity|reflexivity]. Qed.
Print Assumptions C85_qualified_refuted.
(** a class within a struct gets none; one with a label gets that of the struct *)
Theorem C85_nested_refuted : exists f g o, f = bs "struct A { class B { int x; }; }; " /\ program [] f = Some f /\
  g = bs "struct A { class B { private: int x; }; }; " /\ program [] g = Some o /\ o = bs "struct A { class B { private: 
CLASSDESC_ACCESS(A);
int x; }; }; ".
Proof. eexists. eexists. eexists. split; [reflexivity|]. split; [vm_compute; reflexivity|]. split; [reflexivity|]. split; [vm_compute; reflexivity|reflexivity]. Qed.
Print Assumptions C85_nested_refuted.
(** a class specialised with two arguments: a typedef replaces the name, so that the arguments of the
    template are read as if it were no specialisation; the behaviour is undefined *)
Theorem C85_comma_refuted : exists ts s, ts = map bs ["template"; "<"; ">"; "class"; "A"; "<"; "int"; ","; "int"; ">"; "{"; "int"; "x"; ";"; "}"; ";"]%string /\
  run_tokens [] ts = RUb s /\ nth 0 (map snd (prints s)) [] = bs "
typedef A< int , int >  ___ecotif0         ;
CLASSDESC_ACCESS_TEMPLATE(___ecotif0         );
".
Proof. eexists. eexists. split; [reflexivity|]. split; [vm_compute; reflexivity|]. vm_compute. reflexivity. Qed.
Print Assumptions C85_comma_refuted.

(** * The namespace prefix while a file is processed (C55) *)
From Verif Require Import Base Base_Proofs SMap Desc_Model Tok_Model Parse_Model Parse_Props.

(** ** Specification: the structure of a file, and the namespaces that enclose each token *)
Section Spec.
  Variable eat : list ascii -> inp -> option nat.
  Definition isname (t : tok) : Prop := t <> [] /\ Forall (fun c => isident c = true) t.
  Definition special (t : tok) : bool :=
    (keyword t || teq t "using" || teq t "namespace" || teq t "(" || teq t "{" || teq t "}" || starts (bs "#pragma") t)%bool.
  (** [sem ns ts tr]: the tokens [ts], inside the namespaces [ns], are a sequence of declarations;
      [tr] lists their tokens (as far as the main loop looks at them) with the enclosing namespaces *)
  Inductive sem : list ascii -> list tok -> list (tok * list ascii) -> Prop :=
  | s_nil ns : sem ns [] []
  | s_tok ns t ts tr : special t = false -> sem ns ts tr -> sem ns (t :: ts) ((t, ns) :: tr)
  | s_brace ns b trb ts tr : sem ns b trb -> sem ns ts tr ->
      sem ns (bs "{" :: b ++ bs "}" :: ts) ((bs "{", ns) :: trb ++ (bs "}", ns) :: tr)
  | s_ns ns name b trb ts tr : isname name ->
      sem (ns ++ name ++ bs "::") b trb -> sem ns ts tr ->
      sem ns (bs "namespace" :: name :: bs "{" :: b ++ bs "}" :: ts)
        ((bs "namespace", ns) :: trb ++ (bs "}", ns ++ name ++ bs "::") :: tr)
  | s_anon ns b trb ts tr : sem ns b trb -> sem ns ts tr ->
      sem ns (bs "namespace" :: bs "{" :: b ++ bs "}" :: ts) ((bs "namespace", ns) :: trb ++ (bs "}", ns) :: tr)
  | s_alias ns name b ts tr : isname name -> ~ In (bs ";") b -> ~ In (bs "{") b -> ~ In (bs "}") b -> sem ns ts tr ->
      sem ns (bs "namespace" :: name :: bs "=" :: b ++ bs ";" :: ts) ((bs "namespace", ns) :: tr)
  | s_using ns b ts tr : ~ In (bs ";") b -> ~ In (bs "{") b -> ~ In (bs "}") b -> sem ns ts tr ->
      sem ns (bs "using" :: b ++ bs ";" :: ts) ((bs ";", ns) :: tr)
  | s_pragma ns p ts tr : starts (bs "#pragma") p = true -> sem ns ts tr -> sem ns (p :: ts) tr
  | s_paren ns b ts tr : bal (bs "(") (bs ")") b -> bal (bs "{") (bs "}") b -> sem ns ts tr ->
      sem ns (bs "(" :: b ++ bs ")" :: ts) ((bs "(", ns) :: tr)
  | s_item ns k e ts tr : keyword k = true -> bal (bs "{") (bs "}") e -> last (k :: e) [] <> bs "(" ->
      (forall i tl, tk i = k -> more i = e ++ tl -> eat ns i = Some (length e)) -> sem ns ts tr ->
      sem ns (k :: e ++ ts) ((k, ns) :: tr).
End Spec.

(** ** Proofs *)
Lemma rfind2_last a b : rfind2 (a ++ bs "::" ++ b) = match rfind2 (":"%char :: b) with Some n => Some (length a + S n)%nat | None => Some (length a) end.
Proof.
  induction a as [|c a IH].
  - change ([] ++ bs "::" ++ b) with (":"%char :: ":"%char :: b). cbn [rfind2].
    destruct (rfind2 b) eqn:E; [reflexivity|]. destruct (starts (bs "::") (":"%char :: b)) eqn:S1; [reflexivity|].
    change (starts (bs "::") (":"%char :: ":"%char :: b)) with (starts (bs ":") (":"%char :: b)) || idtac.
    replace (starts (bs "::") (":"%char :: ":"%char :: b)) with true; [reflexivity|].
    symmetry. apply startsP. exists b. reflexivity.
  - cbn [app]. change (rfind2 (c :: a ++ bs "::" ++ b)) with (match rfind2 (a ++ bs "::" ++ b) with Some n => Some (S n) | None => if starts (bs "::") (c :: a ++ bs "::" ++ b) then Some 0%nat else None end).
    rewrite IH. destruct (rfind2 (":"%char :: b)); reflexivity.
Qed.
Lemma rfind2_none b : ~ In ":"%char b -> rfind2 b = None.
Proof.
  induction b as [|c b IH]; intros H; [reflexivity|]. cbn [rfind2]. rewrite IH by (intros X; apply H; now right).
  destruct (starts (bs "::") (c :: b)) eqn:E; [|reflexivity]. apply startsP in E. destruct E as (x & E). injection E as -> _.
  exfalso. apply H. now left.
Qed.
Lemma rfind2_colon b : ~ In ":"%char b -> rfind2 (":"%char :: b) = None.
Proof.
  intros H. cbn [rfind2]. rewrite (rfind2_none _ H). destruct (starts (bs "::") (":"%char :: b)) eqn:E; [|reflexivity].
  apply startsP in E. destruct E as (x & E). injection E as E. exfalso. apply H. rewrite E. now left.
Qed.
Definition ends (ns : list ascii) : Prop := exists x, ns = x ++ bs "::".
Lemma pop_name_push ns name : ends ns -> ~ In ":"%char name -> pop_name (ns ++ name ++ bs "::") = Some ns.
Proof.
  intros (x & ->) H. unfold pop_name.
  assert (E1 : rfind2 ((x ++ bs "::") ++ name ++ bs "::") = Some (length ((x ++ bs "::") ++ name))).
  { rewrite app_assoc. rewrite <- (app_nil_r (bs "::")) at 2. rewrite (rfind2_last ((x ++ bs "::") ++ name) []).
    change (rfind2 [":"%char]) with (@None nat). reflexivity. }
  rewrite E1. f_equal. rewrite app_assoc. rewrite firstn_app, firstn_all, Nat.sub_diag. cbn [firstn]. rewrite app_nil_r.
  rewrite <- (app_assoc x). rewrite rfind2_last, (rfind2_colon _ H).
  rewrite app_assoc. replace (length x + 2)%nat with (length (x ++ bs "::")) by (rewrite app_length; reflexivity).
  rewrite firstn_app, firstn_all, Nat.sub_diag. cbn [firstn]. now rewrite app_nil_r.
Qed.
Lemma ends_push ns name : ends (ns ++ name ++ bs "::").
Proof. exists (ns ++ name). now rewrite app_assoc. Qed.

Lemma bal_plain l r t ts : t <> l -> t <> r -> bal l r ts -> bal l r (t :: ts). Proof. apply bal_tok. Qed.
Lemma bal_none l r ts : ~ In l ts -> ~ In r ts -> bal l r ts.
Proof.
  induction ts as [|t ts IH]; intros A B; [apply bal_nil|]. apply bal_tok.
  - intros ->. apply A. now left.
  - intros ->. apply B. now left.
  - apply IH; intros X; [apply A|apply B]; now right.
Qed.
Lemma special_brace t : special t = false -> t <> bs "{" /\ t <> bs "}".
Proof. intros H. split; intros ->; discriminate H. Qed.
Lemma keyword_brace t : keyword t = true -> t <> bs "{" /\ t <> bs "}".
Proof. intros H. split; intros ->; discriminate H. Qed.
Lemma name_facts t : isname t -> ~ In ":"%char t /\ t <> bs "{" /\ t <> bs "}" /\ t <> bs "=".
Proof.
  intros (N & F). split; [|split; [|split]]; [intros X; rewrite Forall_forall in F; apply F in X; discriminate| | |]; intros ->; inversion F; discriminate.
Qed.
Lemma pragma_facts t : starts (bs "#pragma") t = true -> t <> bs "{" /\ t <> bs "}".
Proof. intros H. split; intros ->; discriminate H. Qed.
Lemma sem_bal eat ns ts tr : sem eat ns ts tr -> bal (bs "{") (bs "}") ts.
Proof.
  induction 1.
  - apply bal_nil.
  - apply special_brace in H. now apply bal_tok.
  - now apply bal_nest.
  - apply name_facts in H. destruct H as (_ & N1 & N2 & _). apply bal_tok; [discriminate|discriminate|].
    apply bal_tok; auto. now apply bal_nest.
  - apply bal_tok; [discriminate|discriminate|]. now apply bal_nest.
  - apply name_facts in H. destruct H as (_ & N1 & N2 & _). apply bal_tok; [discriminate|discriminate|].
    apply bal_tok; auto. apply bal_tok; [discriminate|discriminate|]. apply bal_app; [now apply bal_none|].
    apply bal_tok; [discriminate|discriminate|assumption].
  - apply bal_tok; [discriminate|discriminate|]. apply bal_app; [now apply bal_none|].
    apply bal_tok; [discriminate|discriminate|assumption].
  - apply pragma_facts in H. now apply bal_tok.
  - apply bal_tok; [discriminate|discriminate|]. apply bal_app; [assumption|].
    apply bal_tok; [discriminate|discriminate|assumption].
  - apply keyword_brace in H. apply bal_tok; try tauto. now apply bal_app.
Qed.

(** one pending end of a namespace is allowed: it is noticed at the next token *)
Definition cfg (ns : list ascii) (marks : list nat) (L : nat) (ns' : list ascii) (marks' : list nat) : Prop :=
  (ns' = ns /\ marks' = marks) \/ (exists m, marks' = m :: marks /\ pop_name ns' = Some ns /\ (L <= m)%nat).
Definition low (marks : list nat) (n : nat) : Prop := match marks with [] => True | h :: _ => (h <= n)%nat end.
Lemma cfg_le ns marks L L' ns' marks' : (L' <= L)%nat -> cfg ns marks L ns' marks' -> cfg ns marks L' ns' marks'.
Proof. intros LE [H|(m & A & B & C)]; [now left|]. right. exists m. repeat split; auto. lia. Qed.
Lemma low_le marks n n' : (n <= n')%nat -> low marks n -> low marks n'.
Proof. destruct marks; cbn; lia. Qed.
Definition pops (ns : list ascii) (marks : list nat) (rem : nat) : option (list ascii * list nat) :=
  match marks with
  | m :: ms => if (rem <? m)%nat then match pop_name ns with Some ns => Some (ns, ms) | None => None end else Some (ns, marks)
  | [] => Some (ns, marks)
  end.
Lemma pops_ok ns marks L ns' marks' rem : cfg ns marks L ns' marks' -> (rem < L)%nat -> low marks rem -> pops ns' marks' rem = Some (ns, marks).
Proof.
  intros [(-> & ->)|(m & -> & P & C)] R LO; unfold pops.
  - destruct marks as [|h ms]; [reflexivity|]. cbn in LO. replace (rem <? h)%nat with false; [reflexivity|]. symmetry. apply Nat.ltb_ge. exact LO.
  - replace (rem <? m)%nat with true by (symmetry; apply Nat.ltb_lt; lia). now rewrite P.
Qed.

Section Loop.
  Variable eat : list ascii -> inp -> option nat.
  Notation loop := (main_loop eat).
  (** a turn, after the pragma and using tests *)
  Definition turn (f : nat) (ns : list ascii) (marks : list nat) (i : inp) : list (tok * list ascii) * mend :=
    match pops ns marks (length (more i)) with
    | None => ([], MThrow)
    | Some (ns, marks) =>
        match pbind (enter ns marks i) (fun nm i => pbind (rest_of_loop eat (fst nm) i) (fun _ i => POk nm i)) with
        | POk (ns', marks) j => let (tr, x) := loop f ns' marks j in ((tk i, ns) :: tr, x)
        | PEof => ([(tk i, ns)], MEof)
        | PFuel => ([(tk i, ns)], MFuel)
        end
    end.
  Lemma loop_S f ns marks t2 t1 t u m : starts (bs "#pragma") u = false ->
    loop (S f) ns marks (Inp t2 t1 t (u :: m)) =
      match (if teq u "using" then skip_to ";" (S (length m)) (Inp t1 t u m) else POk tt (Inp t1 t u m)) with
      | POk _ i => turn f ns marks i
      | PEof => ([], MEof)
      | PFuel => ([], MFuel)
      end.
  Proof.
    intros H. cbn [main_loop next more tk1 tk]. rewrite H. unfold pbound. cbn [more tk].
    destruct (if teq u "using" then _ else _) as [[] i| |]; [|reflexivity|reflexivity].
    unfold turn, pops. destruct marks as [|h ms]; [reflexivity|]. destruct (_ <? _)%nat; [|reflexivity].
    destruct (pop_name ns); reflexivity.
  Qed.

  Lemma skip_to_body s b : ~ In (bs s) b -> forall f t2 t1 t tl, (length b < f)%nat -> t <> bs s ->
    exists a2 a1, skip_to s (S f) (Inp t2 t1 t (b ++ bs s :: tl)) = POk tt (Inp a2 a1 (bs s) tl).
  Proof.
    induction b as [|u b IH]; intros H f t2 t1 t tl F T; (destruct f as [|f]; [lia|]).
    - cbn [app skip_to tk]. unfold teq at 1. destruct (beqP t (bs s)); [congruence|]. cbn [next more pbind tk tk1].
      unfold teq. rewrite beq_refl. eauto.
    - cbn [app]. change (skip_to s (S (S f)) (Inp t2 t1 t (u :: b ++ bs s :: tl)))
        with (if teq t s then POk tt (Inp t2 t1 t (u :: b ++ bs s :: tl)) else pbind (next (Inp t2 t1 t (u :: b ++ bs s :: tl))) (fun _ i => skip_to s (S f) i)).
      unfold teq. destruct (beqP t (bs s)); [congruence|]. cbn [next more pbind tk tk1].
      apply IH; [intros X; apply H; now right|cbn in F; lia|intros ->; apply H; now left].
  Qed.
  Lemma nexts_e e : forall t2 t1 t tl, exists a2 a1, nexts (length e) (Inp t2 t1 t (e ++ tl)) = POk tt (Inp a2 a1 (last (t :: e) []) tl).
  Proof.
    induction e as [|u e IH]; intros t2 t1 t tl; [cbn; eauto|].
    cbn [length nexts app next more pbind tk tk1]. destruct (IH t1 t u tl) as (a2 & a1 & ->).
    exists a2, a1. destruct e; reflexivity.
  Qed.

  Definition reach (f : nat) (ns : list ascii) (marks : list nat) (i : inp) (tr : list (tok * list ascii)) (ns0 : list ascii) (marks0 : list nat) (tl : list tok) : Prop :=
    exists f' ns' marks' a2 a1 a, cfg ns0 marks0 (length tl) ns' marks' /\ (S (length tl) <= f')%nat /\
      loop f ns marks i = (tr ++ fst (loop f' ns' marks' (Inp a2 a1 a tl)), snd (loop f' ns' marks' (Inp a2 a1 a tl))).
  Lemma reach_cons f ns marks i e tr ns0 marks0 tl g ns1 marks1 j :
    loop f ns marks i = (e :: fst (loop g ns1 marks1 j), snd (loop g ns1 marks1 j)) ->
    reach g ns1 marks1 j tr ns0 marks0 tl -> reach f ns marks i (e :: tr) ns0 marks0 tl.
  Proof. intros H (f' & ns' & marks' & a2 & a1 & a & C & F & E). exists f', ns', marks', a2, a1, a. rewrite H, E. auto. Qed.

  (** a turn on a token that leads to nothing *)
  Lemma turn_plain f ns marks ns' marks' t2 t1 u m L : cfg ns marks L ns' marks' -> (length m < L)%nat -> low marks (length m) ->
    keyword u = false -> teq u "namespace" = false -> teq u "(" = false ->
    turn f ns' marks' (Inp t2 t1 u m) = ((u, ns) :: fst (loop f ns marks (Inp t2 t1 u m)), snd (loop f ns marks (Inp t2 t1 u m))).
  Proof.
    intros C R LO K N P. unfold turn. cbn [more tk]. rewrite (pops_ok _ _ _ _ _ _ C R LO).
    unfold enter. cbn [tk]. rewrite N. cbn [pbind fst]. unfold rest_of_loop. cbn [tk]. rewrite K. cbn [pbind tk]. rewrite P. cbn [pbind].
    destruct (loop f ns marks _). reflexivity.
  Qed.

  Lemma loop_sem ns ts tr : sem eat ns ts tr -> forall f ns' marks marks' t2 t1 t tl,
    ends ns -> cfg ns marks (length (ts ++ tl)) ns' marks' -> low marks (length tl) -> (S (length (ts ++ tl)) <= f)%nat ->
    reach f ns' marks' (Inp t2 t1 t (ts ++ tl)) tr ns marks tl.
  Proof.
    induction 1; intros f ns' marks marks' t2 t1 t0 tl EN C LO F; (destruct f as [|f]; [lia|]); cbn [app length] in F, C |- *.
    - exists (S f), ns', marks', t2, t1, t0. split; [exact C|]. split; [exact F|]. cbn [app]. now destruct (loop _ _ _ _).
    - (* a plain token *)
      unfold special in H. rewrite !orb_false_iff in H. destruct H as ((((((K & U) & N) & P) & _) & _) & PR).
      eapply reach_cons.
      + rewrite loop_S, U by exact PR. eapply turn_plain; [exact C|lia| |exact K|exact N|exact P].
        eapply low_le; [|exact LO]. rewrite app_length. lia.
      + apply IHsem; auto. 2: lia. left. auto.
    - (* braces *)
      rewrite <- app_assoc in *. cbn [app] in *.
      eapply reach_cons.
      + rewrite loop_S by reflexivity. cbn [teq]. change (teq (bs "{") "using") with false. cbv iota.
        eapply turn_plain; [exact C|lia| |reflexivity|reflexivity|reflexivity].
        eapply low_le; [|exact LO]. rewrite !app_length. cbn [length]. rewrite app_length. lia.
      + destruct (IHsem1 f ns marks marks t1 t0 (bs "{") (bs "}" :: ts ++ tl)) as (f1 & n1 & m1 & a2 & a1 & a & C1 & F1 & E1).
        { exact EN. } { now left. } { eapply low_le; [|exact LO]. cbn [length]. rewrite app_length. lia. } { lia. }
        destruct f1 as [|f1]; [lia|]. cbn [length] in F1.
        destruct (IHsem2 f1 ns marks marks a1 a (bs "}") tl) as (f2 & n2 & m2 & c2 & c1 & c & C2 & F2 & E2).
        { exact EN. } { now left. } { exact LO. } { lia. }
        exists f2, n2, m2, c2, c1, c. split; [exact C2|]. split; [exact F2|]. rewrite E1.
        assert (T : loop (S f1) n1 m1 (Inp a2 a1 a (bs "}" :: ts ++ tl)) = ((bs "}", ns) :: fst (loop f1 ns marks (Inp a1 a (bs "}") (ts ++ tl))), snd (loop f1 ns marks (Inp a1 a (bs "}") (ts ++ tl))))).
        { rewrite loop_S by reflexivity. change (teq (bs "}") "using") with false. cbv iota.
          eapply turn_plain; [exact C1|cbn [length]; lia| |reflexivity|reflexivity|reflexivity].
          eapply low_le; [|exact LO]. rewrite app_length. lia. }
        rewrite T, E2. cbn [fst snd]. now rewrite <- app_assoc.
    - (* a namespace *)
      pose proof (name_facts _ H) as (NC & NB & NB' & NE).
      rewrite <- app_assoc in *. cbn [app] in *.
      set (nsn := ns ++ name ++ bs "::") in *.
      assert (LEN : (length (b ++ bs "}" :: ts ++ tl) = length b + S (length ts + length tl))%nat) by (rewrite !app_length; cbn [length]; rewrite app_length; reflexivity).
      assert (G : exists a2 a1, gobble "{" "}" (Inp (bs "namespace") name (bs "{") (b ++ bs "}" :: ts ++ tl)) = POk (name ++ [" "%char] ++ bs "{" ++ [" "%char] ++ txt b) (Inp a2 a1 (bs "}") (ts ++ tl))).
      { destruct (C53_stops "{" "}" (Inp (bs "namespace") name (bs "{") (b ++ bs "}" :: ts ++ tl)) b (ts ++ tl)) as (G & G1 & G2);
          [discriminate|discriminate|eapply sem_bal; eassumption|intros X; discriminate X|reflexivity|].
        rewrite G. destruct (after _ _) as [x2 x1 x xm]. cbn [more tk] in G1, G2. subst. eauto. }
      destruct G as (g2 & g1 & G).
      eapply reach_cons.
      + rewrite loop_S by reflexivity. change (teq (bs "namespace") "using") with false. cbv iota.
        unfold turn. cbn [more tk]. rewrite (pops_ok _ _ _ _ _ _ C) by (cbn [length]; first [lia | (eapply low_le; [|exact LO]; lia)]).
        unfold enter. cbn [tk]. change (teq (bs "namespace") "namespace") with true. cbv iota. cbn [next more tk1 tk pbind].
        unfold teq at 1. destruct (beqP name (bs "{")); [congruence|].
        cbn [next more tk1 tk pbind]. change (teq (bs "{") "=") with false. change (teq (bs "{") "{") with true. cbv iota.
        rewrite G. cbn [pbind fst more]. unfold rest_of_loop. cbn [tk].
        change (keyword (bs "{")) with false. cbn [pbind tk]. change (teq (bs "{") "(") with false. cbn [pbind]. fold nsn.
        match goal with |- (let (_, _) := ?X in _) = _ => destruct X eqn:EX end.
        instantiate (1 := Inp (bs "namespace") name (bs "{") (b ++ bs "}" :: ts ++ tl)).
        instantiate (1 := length (ts ++ tl) :: marks). instantiate (1 := nsn). instantiate (1 := f). rewrite EX. reflexivity.
      + destruct (IHsem1 f nsn (length (ts ++ tl) :: marks) (length (ts ++ tl) :: marks) (bs "namespace") name (bs "{") (bs "}" :: ts ++ tl)) as (f1 & n1 & m1 & a2 & a1 & a & C1 & F1 & E1).
        { apply ends_push. } { now left. } { cbn [low length]. lia. } { lia. }
        destruct f1 as [|f1]; [lia|]. cbn [length] in F1.
        destruct (IHsem2 f1 nsn marks (length (ts ++ tl) :: marks) a1 a (bs "}") tl) as (f2 & n2 & m2 & c2 & c1 & c & C2 & F2 & E2).
        { exact EN. } { right. exists (length (ts ++ tl)). split; [reflexivity|]. split; [now apply pop_name_push|lia]. } { exact LO. } { lia. }
        exists f2, n2, m2, c2, c1, c. split; [exact C2|]. split; [exact F2|]. rewrite E1.
        assert (T : loop (S f1) n1 m1 (Inp a2 a1 a (bs "}" :: ts ++ tl)) = ((bs "}", nsn) :: fst (loop f1 nsn (length (ts ++ tl) :: marks) (Inp a1 a (bs "}") (ts ++ tl))), snd (loop f1 nsn (length (ts ++ tl) :: marks) (Inp a1 a (bs "}") (ts ++ tl))))).
        { rewrite loop_S by reflexivity. change (teq (bs "}") "using") with false. cbv iota.
          eapply turn_plain; [exact C1|cbn [length]; lia| |reflexivity|reflexivity|reflexivity]. cbn [low]. lia. }
        rewrite T, E2. cbn [fst snd]. now rewrite <- app_assoc.
    - (* an unnamed namespace *)
      rewrite <- app_assoc in *. cbn [app] in *.
      assert (LEN : (length (b ++ bs "}" :: ts ++ tl) = length b + S (length ts + length tl))%nat) by (rewrite !app_length; cbn [length]; rewrite app_length; reflexivity).
      eapply reach_cons.
      + rewrite loop_S by reflexivity. change (teq (bs "namespace") "using") with false. cbv iota.
        unfold turn. cbn [more tk]. rewrite (pops_ok _ _ _ _ _ _ C) by (cbn [length]; first [lia | (eapply low_le; [|exact LO]; lia)]).
        unfold enter. cbn [tk]. change (teq (bs "namespace") "namespace") with true. cbv iota. cbn [next more tk1 tk pbind].
        change (teq (bs "{") "{") with true. cbn [pbind fst]. unfold rest_of_loop. cbn [tk].
        change (keyword (bs "{")) with false. cbn [pbind tk]. change (teq (bs "{") "(") with false. cbn [pbind].
        match goal with |- (let (_, _) := ?X in _) = _ => destruct X eqn:EX end.
        instantiate (1 := Inp t0 (bs "namespace") (bs "{") (b ++ bs "}" :: ts ++ tl)).
        instantiate (1 := marks). instantiate (1 := ns). instantiate (1 := f). rewrite EX. reflexivity.
      + destruct (IHsem1 f ns marks marks t0 (bs "namespace") (bs "{") (bs "}" :: ts ++ tl)) as (f1 & n1 & m1 & a2 & a1 & a & C1 & F1 & E1).
        { exact EN. } { now left. } { eapply low_le; [|exact LO]. cbn [length]. rewrite app_length. lia. } { lia. }
        destruct f1 as [|f1]; [lia|]. cbn [length] in F1.
        destruct (IHsem2 f1 ns marks marks a1 a (bs "}") tl) as (f2 & n2 & m2 & c2 & c1 & c & C2 & F2 & E2).
        { exact EN. } { now left. } { exact LO. } { lia. }
        exists f2, n2, m2, c2, c1, c. split; [exact C2|]. split; [exact F2|]. rewrite E1.
        assert (T : loop (S f1) n1 m1 (Inp a2 a1 a (bs "}" :: ts ++ tl)) = ((bs "}", ns) :: fst (loop f1 ns marks (Inp a1 a (bs "}") (ts ++ tl))), snd (loop f1 ns marks (Inp a1 a (bs "}") (ts ++ tl))))).
        { rewrite loop_S by reflexivity. change (teq (bs "}") "using") with false. cbv iota.
          eapply turn_plain; [exact C1|cbn [length]; lia| |reflexivity|reflexivity|reflexivity].
          eapply low_le; [|exact LO]. rewrite app_length. lia. }
        rewrite T, E2. cbn [fst snd]. now rewrite <- app_assoc.
    - (* a namespace alias *)
      pose proof (name_facts _ H) as (NC & NB & NB' & NE).
      rewrite <- app_assoc in *. cbn [app] in *.
      assert (LEN : (length (b ++ bs ";" :: ts ++ tl) = length b + S (length ts + length tl))%nat) by (rewrite !app_length; cbn [length]; rewrite app_length; reflexivity).
      destruct (skip_to_body ";" b H0 (length (b ++ bs ";" :: ts ++ tl)) (bs "namespace") name (bs "=") (ts ++ tl)) as (a2 & a1 & SK); [lia|discriminate|].
      eapply reach_cons.
      + rewrite loop_S by reflexivity. change (teq (bs "namespace") "using") with false. cbv iota.
        unfold turn. cbn [more tk]. rewrite (pops_ok _ _ _ _ _ _ C) by (cbn [length]; first [lia | (eapply low_le; [|exact LO]; lia)]).
        unfold enter. cbn [tk]. change (teq (bs "namespace") "namespace") with true. cbv iota. cbn [next more tk1 tk pbind].
        unfold teq at 1. destruct (beqP name (bs "{")); [congruence|].
        cbn [next more tk1 tk pbind]. change (teq (bs "=") "=") with true. cbv iota. unfold pbound. cbn [more]. rewrite SK. cbn [pbind fst].
        unfold rest_of_loop. cbn [tk]. change (keyword (bs ";")) with false. cbn [pbind tk]. change (teq (bs ";") "(") with false. cbn [pbind].
        match goal with |- (let (_, _) := ?X in _) = _ => destruct X eqn:EX end.
        instantiate (1 := Inp a2 a1 (bs ";") (ts ++ tl)).
        instantiate (1 := marks). instantiate (1 := ns). instantiate (1 := f). rewrite EX. reflexivity.
      + apply IHsem; auto. { now left. } rewrite app_length. lia.
    - (* using *)
      rewrite <- app_assoc in *. cbn [app] in *.
      assert (LEN : (length (b ++ bs ";" :: ts ++ tl) = length b + S (length ts + length tl))%nat) by (rewrite !app_length; cbn [length]; rewrite app_length; reflexivity).
      destruct (skip_to_body ";" b H (length (b ++ bs ";" :: ts ++ tl)) t1 t0 (bs "using") (ts ++ tl)) as (a2 & a1 & SK); [lia|discriminate|].
      eapply reach_cons.
      + rewrite loop_S by reflexivity. change (teq (bs "using") "using") with true. cbv iota. rewrite SK.
        eapply turn_plain; [exact C|rewrite app_length; lia| |reflexivity|reflexivity|reflexivity].
        eapply low_le; [|exact LO]. rewrite app_length. lia.
      + apply IHsem; auto. { now left. } rewrite app_length. lia.
    - (* a pragma *)
      destruct (IHsem f ns' marks marks' t1 t0 p tl) as (f1 & n1 & m1 & a2 & a1 & a & C1 & F1 & E1); [exact EN| |exact LO|lia|].
      { eapply cfg_le; [|exact C]. lia. }
      exists f1, n1, m1, a2, a1, a. split; [exact C1|]. split; [exact F1|].
      cbn [main_loop next more tk1 tk]. rewrite H. exact E1.
    - (* parentheses *)
      rewrite <- app_assoc in *. cbn [app] in *.
      assert (LEN : (length (b ++ bs ")" :: ts ++ tl) = length b + S (length ts + length tl))%nat) by (rewrite !app_length; cbn [length]; rewrite app_length; reflexivity).
      assert (G : exists v a2 a1, gobble "(" ")" (Inp t1 t0 (bs "(") (b ++ bs ")" :: ts ++ tl)) = POk v (Inp a2 a1 (bs ")") (ts ++ tl))).
      { destruct (C53_stops "(" ")" (Inp t1 t0 (bs "(") (b ++ bs ")" :: ts ++ tl)) b (ts ++ tl)) as (G & G1 & G2);
          [discriminate|discriminate|assumption|intros X; discriminate X|reflexivity|].
        rewrite G. destruct (after _ _) as [x2 x1 x xm]. cbn [more tk] in G1, G2. subst. eauto. }
      destruct G as (v & g2 & g1 & G).
      eapply reach_cons.
      + rewrite loop_S by reflexivity. change (teq (bs "(") "using") with false. cbv iota.
        unfold turn. cbn [more tk]. rewrite (pops_ok _ _ _ _ _ _ C) by (cbn [length]; first [lia | (eapply low_le; [|exact LO]; lia)]).
        unfold enter. cbn [tk]. change (teq (bs "(") "namespace") with false. cbn [pbind fst]. unfold rest_of_loop. cbn [tk].
        change (keyword (bs "(")) with false. cbn [pbind tk]. change (teq (bs "(") "(") with true. cbv iota. rewrite G. cbn [pbind].
        match goal with |- (let (_, _) := ?X in _) = _ => destruct X eqn:EX end.
        instantiate (1 := Inp g2 g1 (bs ")") (ts ++ tl)).
        instantiate (1 := marks). instantiate (1 := ns). instantiate (1 := f). rewrite EX. reflexivity.
      + apply IHsem; auto. { now left. } rewrite app_length. lia.
    - (* a declaration *)
      rewrite <- app_assoc in *.
      assert (LEN : (length (e ++ ts ++ tl) = length e + (length ts + length tl))%nat) by (rewrite !app_length; reflexivity).
      assert (KF : starts (bs "#pragma") k = false /\ teq k "using" = false /\ teq k "namespace" = false).
      { unfold keyword in H. rewrite !orb_true_iff in H. unfold teq in H.
        destruct H as [[[[H|H]|H]|H]|H]; apply beq_eq in H; subst k; auto. }
      destruct KF as (K1 & K2 & K3).
      destruct (nexts_e e t1 t0 k (ts ++ tl)) as (a2 & a1 & NX).
      eapply reach_cons.
      + rewrite loop_S, K2 by exact K1.
        unfold turn. cbn [more tk]. rewrite (pops_ok _ _ _ _ _ _ C) by first [lia | (eapply low_le; [|exact LO]; lia)].
        unfold enter. cbn [tk]. rewrite K3. cbn [pbind fst]. unfold rest_of_loop. cbn [tk]. rewrite H.
        rewrite (H2 (Inp t1 t0 k (e ++ ts ++ tl)) (ts ++ tl) eq_refl eq_refl), NX. cbn [pbind]. cbn [tk].
        unfold teq at 1. destruct (beqP (last (k :: e) []) (bs "(")); [congruence|]. cbn [pbind].
        match goal with |- (let (_, _) := ?X in _) = _ => destruct X eqn:EX end.
        instantiate (1 := Inp a2 a1 (last (k :: e) []) (ts ++ tl)).
        instantiate (1 := marks). instantiate (1 := ns). instantiate (1 := f). rewrite EX. reflexivity.
      + apply IHsem; auto. { now left. } rewrite app_length. lia.
  Qed.
End Loop.

(** ** C55 *)
(** at each turn of the main loop the prefix is the list of the namespaces around the token *)
Theorem C55_prefix : forall eat ts tr, sem eat (bs "::") ts tr -> run_main eat ts = (tr, MEof).
Proof.
  intros eat ts tr H. unfold run_main.
  destruct (loop_sem eat _ ts tr H (S (length ts)) (bs "::") [] [] [] [] [] []) as (f & ns & ms & a2 & a1 & a & C & F & E).
  - exists []. reflexivity.
  - now left.
  - exact Logic.I.
  - rewrite app_nil_r. lia.
  - rewrite app_nil_r in E. rewrite E. destruct f; [cbn in F; lia|]. cbn. now rewrite app_nil_r.
Qed.
(** a handler for the examples: it reads up to the next semicolon *)
Fixpoint semi (ts : list tok) : option nat :=
  match ts with [] => None | t :: ts => if teq t ";" then Some 1%nat else option_map S (semi ts) end.
Definition eat_semi (ns : list ascii) (i : inp) : option nat := semi (more i).
Definition lexed (s : string) : list tok := fst (lex_file (bs s ++ [lf])).
Example C55_ex : exists tr, lexed "namespace A { namespace B { class C; } } using namespace A; class D;"
    = map bs ["namespace"; "A"; "{"; "namespace"; "B"; "{"; "class"; "C"; ";"; "}"; "}"; "using"; "namespace"; "A"; ";"; "class"; "D"; ";"]%string
  /\ sem eat_semi (bs "::") (lexed "namespace A { namespace B { class C; } } using namespace A; class D;") tr
  /\ In (bs "class", bs "::A::B::") tr /\ In (bs "class", bs "::") tr.
Proof.
  eexists. split; [vm_compute; reflexivity|]. split.
  - replace (lexed _) with (map bs ["namespace"; "A"; "{"; "namespace"; "B"; "{"; "class"; "C"; ";"; "}"; "}"; "using"; "namespace"; "A"; ";"; "class"; "D"; ";"]%string) by (vm_compute; reflexivity).
    assert (ID : forall t, t <> [] -> forallb isident t = true -> isname t).
    { intros t N H. split; [exact N|]. apply Forall_forall. apply forallb_forall. exact H. }
    assert (IT : forall ns x, (forall i tl, tk i = bs "class" -> more i = [bs x; bs ";"] ++ tl -> teq (bs x) ";" = false -> eat_semi ns i = Some 2%nat)).
    { intros ns x i tl _ M X. unfold eat_semi. rewrite M. cbn [app semi]. rewrite X. reflexivity. }
    eapply (s_ns _ _ (bs "A") (map bs ["namespace"; "B"; "{"; "class"; "C"; ";"; "}"]%string) _ (map bs ["using"; "namespace"; "A"; ";"; "class"; "D"; ";"]%string)).
    + apply ID; [discriminate|reflexivity].
    + eapply (s_ns _ _ (bs "B") (map bs ["class"; "C"; ";"]%string) _ []); [apply ID; [discriminate|reflexivity]| |apply s_nil].
      eapply (s_item _ _ (bs "class") [bs "C"; bs ";"] []); [reflexivity| |discriminate| |apply s_nil].
      * apply bal_tok; [discriminate|discriminate|]. apply bal_tok; [discriminate|discriminate|apply bal_nil].
      * intros i tl T M. now apply (IT _ "C"%string i tl T M).
    + eapply (s_using _ _ [bs "namespace"; bs "A"] [bs "class"; bs "D"; bs ";"]); [intros [X|[X|[]]]; discriminate X|intros [X|[X|[]]]; discriminate X|intros [X|[X|[]]]; discriminate X|].
      eapply (s_item _ _ (bs "class") [bs "D"; bs ";"] []); [reflexivity| |discriminate| |apply s_nil].
      * apply bal_tok; [discriminate|discriminate|]. apply bal_tok; [discriminate|discriminate|apply bal_nil].
      * intros i tl T M. now apply (IT _ "D"%string i tl T M).
  - split; cbn [In app]; tauto.
Qed.
(** namespace A::B { ... } is not entered: the prefix inside it is that of the outside *)
Theorem C55_nested_refuted : exists s, s = "namespace A::B { class C; }"%string
  /\ In (bs "class", bs "::") (fst (run_main eat_semi (lexed s))) /\ ~ In (bs "class", bs "::A::B::") (fst (run_main eat_semi (lexed s))).
Proof.
  eexists. split; [reflexivity|]. split; [vm_compute; tauto|].
  vm_compute. intros X. repeat (destruct X as [X|X]; [discriminate X|]). exact X.
Qed.
(** a file whose last character closes a namespace: the tokeniser does not deliver that brace, so the
    namespace is not closed and nothing in it is processed *)
Theorem C55_last_refuted : exists s, s = "namespace A { class C; }"%string
  /\ run_main eat_semi (fst (lex_file (bs s))) = ([(bs "namespace", bs "::")], MEof)
  /\ In (bs "class", bs "::A::") (fst (run_main eat_semi (fst (lex_file (bs s ++ [lf]))))).
Proof. eexists. split; [reflexivity|]. split; [vm_compute; reflexivity|]. vm_compute. tauto. Qed.
(** a namespace that is not closed is never looked into *)
Theorem C55_unclosed : forall eat name ts, isname name ->
  (~ exists body rest, ts = body ++ bs "}" :: rest /\ bal (bs "{") (bs "}") body) ->
  run_main eat (bs "namespace" :: name :: bs "{" :: ts) = ([(bs "namespace", bs "::")], MEof).
Proof.
  intros eat name ts N H. pose proof (name_facts _ N) as (NC & NB & NB' & NE).
  unfold run_main. cbn [length]. rewrite loop_S by reflexivity. change (teq (bs "namespace") "using") with false. cbv iota.
  unfold turn. cbn [more tk pops]. unfold enter. cbn [tk]. change (teq (bs "namespace") "namespace") with true. cbv iota. cbn [next more tk1 tk pbind].
  unfold teq at 1. destruct (beqP name (bs "{")); [congruence|].
  cbn [next more tk1 tk pbind]. change (teq (bs "{") "=") with false. change (teq (bs "{") "{") with true. cbv iota.
  rewrite (proj2 (C53_eof "{" "}" (Inp (bs "namespace") name (bs "{") ts) ltac:(discriminate) ltac:(discriminate) ltac:(intros X; discriminate X)) H).
  reflexivity.
Qed.
Print Assumptions C55_prefix.
Print Assumptions C55_nested_refuted.
Print Assumptions C55_last_refuted.
Print Assumptions C55_unclosed.

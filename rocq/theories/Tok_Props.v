(** * The tokeniser: C52, C65 *)
From Verif Require Import Base Base_Proofs Desc_Model Tok_Model.

(** ** Specification *)
(** the text of a file as the tokeniser sees it: without line continuations and attributes *)
Fixpoint pp (attr : option ascii) (l : list ascii) : list ascii :=
  match attr, l with
  | _, [] => []
  | Some lc, x :: r => if (ceq lc "]" && ceq x "]")%bool then pp None r else pp (Some x) r
  | None, x :: r =>
      match r with
      | y :: r1 => if (ceq x bsl && ceq y lf)%bool
                   then match r1 with z :: r2 => z :: pp None r2 | [] => [] end
                   else if (ceq x "[" && ceq y "[")%bool then pp (Some "["%char) r1 else x :: pp None r
      | [] => [x]
      end
  end.
(** a comment: nothing between its ends contains the end mark *)
Definition iscomment (t : list ascii) : Prop :=
  exists b, t = bs "/*" ++ b ++ bs "*/" /\ forall u v, b <> u ++ bs "*/" ++ v.
(** a preprocessor line and the text nexttok collects from it *)
Inductive hash : list ascii -> list ascii -> Prop :=
| h_nil : hash [] []
| h_char : forall x t k, x <> lf -> x <> "/"%char -> hash t k -> hash (x :: t) ((if ceq x cr then [] else [x]) ++ k)
| h_slash : forall x t k, x <> "*"%char -> hash t k -> hash ("/"%char :: x :: t) ("/"%char :: k)
| h_comment : forall c t k, iscomment c -> hash t k -> hash (c ++ t) ("/"%char :: k).
Definition other (x : ascii) : Prop :=
  isspace x = false /\ strchr ops x = false /\ isident x = false /\ x <> """"%char /\ x <> "'"%char.
(** what is between tokens: [skips v v'] if [v'] remains of [v] *)
Inductive skips : list ascii -> list ascii -> Prop :=
| s_done : forall v, skips v v
| s_space : forall x v v', isspace x = true -> skips v v' -> skips (x :: v) v'
| s_comment : forall c v v', iscomment c -> skips v v' -> skips (c ++ v) v'
| s_line : forall b v v', ~ In lf b -> skips (lf :: v) v' -> skips (bs "//" ++ b ++ lf :: v) v'
| s_hash : forall h k v v', hash ("#"%char :: h) k -> starts pragma k = false -> skips (lf :: v) v' -> skips ("#"%char :: h ++ lf :: v) v'
| s_other : forall x v v', other x -> skips v v' -> skips (x :: v) v'.
(** the operators: every single one and these *)
Definition op_table : list (list ascii) :=
  map (fun c => [c]) (zero :: bs "\!@$~(){}[]:;,.?%*|-+=<>^&/") ++
  map bs ["%="; "*="; "|="; "-="; "+="; "=="; "<="; ">="; "^="; "&="; "/=";
          "<<"; ">>"; "||"; "&&"; "++"; "--"; "::"; "<<="; ">>="; "->"; "->*"; ".."; "..."; "[]"; "()"]%string.
Fixpoint qscan (q : ascii) (esc : bool) (b : list ascii) : Prop :=
  match b with
  | [] => esc = false
  | x :: b' => (x = q -> esc = true) /\ qscan q (ceq x bsl && negb esc) b'
  end.
Inductive lexeme (t : list ascii) (after : list ascii) : Prop :=
| l_ident : t <> [] -> Forall (fun x => isident x = true) t -> (forall x v, after = x :: v -> isident x = false) -> lexeme t after
| l_string : forall q b, t = q :: b ++ [q] -> q = """"%char \/ q = "'"%char -> qscan q false b -> lexeme t after
| l_op : In t op_table -> (forall o u, In o op_table -> t ++ after = o ++ u -> length o <= length t) ->
    (t = ["/"%char] -> forall x v, after = x :: v -> x <> "/"%char /\ x <> "*"%char) -> lexeme t after.
(** what the tokeniser still has to see *)
Definition view (s : tin) : list ascii := match cur s with Some c => c :: pp None (rest s) | None => [] end.
Definition wf (s : tin) : Prop := (cur s = None -> rest s = []) /\
  (ef s = true -> rest s = [] /\ (cur s = None \/ cur s = Some bsl \/ cur s = Some "["%char)).

(** ** Single characters *)
Lemma ceq_eq : forall a b, ceq a b = true <-> a = b.
Proof. intros. apply Ascii.eqb_eq. Qed.
Lemma ceq_refl : forall a, ceq a a = true.
Proof. intros. now apply ceq_eq. Qed.
Lemma ceq_neq : forall a b, ceq a b = false <-> a <> b.
Proof. intros. apply Ascii.eqb_neq. Qed.
Lemma gn_spec : forall l attr c r e o, gn attr l = GC c r e o ->
  length r < length l /\ (c = None -> r = []) /\ (e = true -> r = [] /\ (c = None \/ c = Some bsl \/ c = Some "["%char)) /\
  pp attr l = match c with Some x => x :: pp None r | None => [] end.
Proof.
  induction l as [l IH] using (well_founded_induction (Wf_nat.well_founded_ltof _ (@length ascii))). unfold Wf_nat.ltof in IH.
  intros attr c r e o H. destruct l as [|x l]; destruct attr as [lc|]; cbn [gn] in H; try discriminate.
  - cbn [pp]. rewrite andb_comm in H. destruct (ceq lc "]" && ceq x "]")%bool.
    + destruct (gn None l) as [c0 r0 e0 o0| |] eqn:G; try discriminate. injection H as <- <- <- <-.
      apply (IH l) in G; [|cbn; lia]. destruct G as (A & B & C & D). cbn [length]. auto with arith.
    + apply (IH l) in H; [|cbn; lia]. destruct H as (A & B & C & D). cbn [length]. auto with arith.
  - cbn [pp]. destruct l as [|y l1].
    + destruct (ceq x bsl) eqn:E1.
      { injection H as <- <- <- <-. apply ceq_eq in E1. subst. cbn [length]. repeat split; try discriminate; auto. }
      destruct (ceq x "[") eqn:E2; injection H as <- <- <- <-; cbn [length]; [apply ceq_eq in E2; subst|]; repeat split; try discriminate; auto.
    + destruct (ceq x bsl) eqn:E1.
      { apply ceq_eq in E1. subst. change (ceq bsl "[") with false. cbn [andb]. destruct (ceq y lf) eqn:E3.
        - destruct l1 as [|z l2]; injection H as <- <- <- <-; cbn [length]; repeat split; try discriminate; auto; lia.
        - injection H as <- <- <- <-. cbn [length]. repeat split; try discriminate; lia. }
      cbn [andb]. destruct (ceq x "[") eqn:E2.
      { apply ceq_eq in E2. subst. cbn [andb]. destruct (ceq y "[") eqn:E3.
        - apply (IH l1) in H; [|cbn; lia]. destruct H as (A & B & C & D). cbn [length]. auto with arith.
        - injection H as <- <- <- <-. cbn [length]. repeat split; try discriminate; lia. }
      cbn [andb]. injection H as <- <- <- <-. cbn [length]. repeat split; try discriminate; lia.
Qed.
Definition same_toks (s s' : tin) : Prop :=
  token s' = token s /\ lasttoken s' = lasttoken s /\ tokenBeforeLast s' = tokenBeforeLast s.
Lemma getnextc_ok : forall s a s', getnextc s = TOk a s' -> wf s ->
  wf s' /\ length (rest s') < length (rest s) /\ same_toks s s' /\ exists x, cur s = Some x /\ view s = x :: view s'.
Proof.
  intros s a s' H [W1 W2]. unfold getnextc in H. destruct (gn None (rest s)) as [c r e o| |] eqn:G; try discriminate.
  injection H as <- <-. apply gn_spec in G as (A & B & C & D). unfold wf, view, same_toks. cbn.
  split; [split; assumption|]. split; [exact A|]. split; [auto|].
  destruct (cur s) as [x|] eqn:E; [|rewrite W1 in A by reflexivity; cbn in A; lia]. exists x. split; [reflexivity|]. now rewrite D.
Qed.
Lemma getnextc_ef : forall s a s', getnextc s = TOk a s' -> wf s -> ef s = false.
Proof.
  intros s a s' H W. destruct (getnextc_ok _ _ _ H W) as (_ & L & _). destruct W as [_ W2]. destruct (ef s); [|reflexivity].
  destruct (W2 eq_refl) as [E _]. rewrite E in L. cbn in L. lia.
Qed.
(** results: fuel never runs out *)
Definition nofuel {A} (r : tres A) : Prop := r <> TFuel.
Lemma getnextc_nofuel : forall s, nofuel (getnextc s).
Proof. intros s. unfold nofuel, getnextc. destruct (gn None (rest s)); discriminate. Qed.

Lemma while_ok : forall P f s a s', while_ f P s = TOk a s' -> wf s ->
  wf s' /\ length (rest s') <= length (rest s) /\ same_toks s s' /\ P (cur s') = false /\
  (s' = s \/ (ef s = false /\ length (rest s') < length (rest s))) /\
  exists w, view s = w ++ view s' /\ Forall (fun x => P (Some x) = true) w.
Proof.
  intros P. induction f as [|f IH]; intros s a s' H W; cbn [while_] in H.
  - destruct (P (cur s)) eqn:E; [discriminate|]. injection H as <- <-. unfold same_toks. split; [exact W|]. split; [lia|]. split; [auto|]. split; [exact E|]. split; [now left|]. exists []. auto.
  - destruct (P (cur s)) eqn:E.
    + destruct (getnextc s) as [b s1| | |] eqn:G; try discriminate. cbn [tbind] in H.
      destruct (getnextc_ok _ _ _ G W) as (W1 & L1 & (T1 & T2 & T3) & x & C & V).
      destruct (IH _ _ _ H W1) as (W2 & L2 & (T4 & T5 & T6) & Q & _ & w & Vw & Fw).
      split; [exact W2|]. split; [lia|]. split; [unfold same_toks; repeat split; congruence|]. split; [exact Q|].
      split; [right; split; [eapply getnextc_ef; eassumption|lia]|]. exists (x :: w). cbn [app]. rewrite V, Vw. split; [reflexivity|]. constructor; [now rewrite <- C|exact Fw].
    + injection H as <- <-. unfold same_toks. split; [exact W|]. split; [lia|]. split; [auto|]. split; [exact E|]. split; [now left|]. exists []. auto.
Qed.
Lemma while_nofuel : forall P f s, wf s -> length (rest s) < f -> nofuel (while_ f P s).
Proof.
  intros P. induction f as [|f IH]; intros s W L; [lia|]. cbn [while_]. destruct (P (cur s)); [|discriminate].
  destruct (getnextc s) as [b s1| | |] eqn:G; try discriminate; [|now apply getnextc_nofuel in G]. cbn [tbind].
  destruct (getnextc_ok _ _ _ G W) as (W1 & L1 & _). apply IH; [exact W1|lia].
Qed.

(** ** Comments *)
Inductive cbody : ascii -> list ascii -> Prop :=
| cb_end : cbody "*"%char ["/"%char]
| cb_more : forall l x w, ~ (l = "*"%char /\ x = "/"%char) -> cbody x w -> cbody l (x :: w).
Lemma cbody_split : forall l w, cbody l w -> exists b, l :: w = b ++ bs "*/" /\ forall u v, b <> u ++ bs "*/" ++ v.
Proof.
  induction 1 as [|l x w N0 _ (b & E & K)].
  - exists []. split; [reflexivity|]. intros u v H. apply (f_equal (@length ascii)) in H. rewrite !app_length in H. cbn in H. lia.
  - exists (l :: b). split; [cbn [app]; now rewrite E|]. intros u v H. destruct u as [|y u]; cbn [app] in H.
    + cbn [bs list_ascii_of_string app] in H. injection H as -> ->. cbn [app] in E. injection E as -> _. auto.
    + injection H as _ H. now apply (K u v).
Qed.
Lemma comm_ok : forall f l s a s', comm f l s = TOk a s' -> wf s -> forall lc, l = Some lc -> 
  wf s' /\ length (rest s') <= length (rest s) /\ same_toks s s' /\
  exists w v, view s' = "/"%char :: v /\ cbody lc (w ++ ["/"%char]) /\ view s = w ++ view s'.
Proof.
  induction f as [|f IH]; intros l s a s' H W lc Hl; cbn [comm] in H; subst l;
  destruct (ceq lc "*" && is s "/")%bool eqn:E; try discriminate.
  1, 2: injection H as <- <-; apply andb_true_iff in E as [E1 E2]; apply ceq_eq in E1; unfold is in E2;
    destruct (cur s) as [c|] eqn:C; [|discriminate]; apply ceq_eq in E2; subst; split; [exact W|]; split; [lia|];
    split; [unfold same_toks; auto|]; exists [], (pp None (rest s)); unfold view; rewrite C; split; [reflexivity|]; split; [constructor|reflexivity].
  destruct (getnextc s) as [b s1| | |] eqn:G; try discriminate. cbn [tbind] in H.
  destruct (getnextc_ok _ _ _ G W) as (W1 & L1 & (T1 & T2 & T3) & x & C & V).
  destruct (IH _ _ _ _ H W1 x C) as (W2 & L2 & (T4 & T5 & T6) & w & v & Vs & CB & Vw).
  split; [exact W2|]. split; [lia|]. split; [unfold same_toks; repeat split; congruence|].
  exists (x :: w), v. split; [exact Vs|]. cbn [app]. split; [|now rewrite V, Vw]. constructor; [|exact CB].
  intros [-> ->]. unfold is in E. rewrite C in E. discriminate.
Qed.
Lemma comm_nofuel : forall f l s, wf s -> length (rest s) < f -> nofuel (comm f l s).
Proof.
  induction f as [|f IH]; intros l s W L; [lia|]. cbn [comm].
  destruct (match l with Some x => ceq x "*" | None => false end && is s "/")%bool; [discriminate|].
  destruct (getnextc s) as [b s1| | |] eqn:G; try discriminate; [|now apply getnextc_nofuel in G]. cbn [tbind].
  destruct (getnextc_ok _ _ _ G W) as (W1 & L1 & _). apply IH; [exact W1|lia].
Qed.
(** called with c the star of the opening mark; ends with c the slash of the closing one *)
Lemma comment_ok : forall s a s', comment s = TOk a s' -> wf s -> is s "*" = true ->
  wf s' /\ length (rest s') < length (rest s) /\ same_toks s s' /\
  exists t v, iscomment ("/"%char :: t ++ ["/"%char]) /\ view s' = "/"%char :: v /\ view s = t ++ view s'.
Proof.
  intros s a s' H W St. unfold comment in H. destruct (getnextc s) as [b s1| | |] eqn:G; try discriminate. cbn [tbind] in H.
  destruct (getnextc_ok _ _ _ G W) as (W1 & L1 & (T1 & T2 & T3) & x & C & V).
  assert (x = "*"%char) as ->. { unfold is in St. rewrite C in St. now apply ceq_eq in St. }
  destruct (cur s1) as [c1|] eqn:C1.
  - destruct (comm_ok _ _ _ _ _ H W1 c1 eq_refl) as (W2 & L2 & (T4 & T5 & T6) & w & v & Vs & CB & Vw).
    split; [exact W2|]. split; [lia|]. split; [unfold same_toks; repeat split; congruence|].
    exists ("*"%char :: w), v. split; [|split; [exact Vs|rewrite V, Vw; reflexivity]].
    assert (Vc : exists u, view s1 = c1 :: u) by (unfold view; rewrite C1; eauto). destruct Vc as (u & Vc).
    destruct w as [|c w].
    { cbn [app] in *. inversion CB; subst.
      - exfalso. rewrite Vw, Vs in Vc. injection Vc as E _. discriminate E.
      - match goal with H : cbody _ [] |- _ => inversion H end. }
    assert (c = c1) as ->. { rewrite Vw in Vc. cbn [app] in Vc. congruence. }
    destruct (cbody_split _ _ CB) as (bb & E & K). cbn [app] in E.
    destruct bb as [|y bb]; cbn [app] in E.
    { cbn [bs list_ascii_of_string] in E. injection E as E1 E2 E3. subst c1. exfalso. discriminate E2. }
    injection E as _ E. exists bb. cbn [bs list_ascii_of_string app] in *. split; [now rewrite E|].
    intros u0 v0 Hu. apply (K (y :: u0) v0). cbn [app]. now rewrite Hu.
  - (* EOF after the star: the loop meets EOF *)
    exfalso. destruct W1 as [Wn _]. specialize (Wn C1). unfold bound in H. rewrite Wn in H. cbn [comm length] in H.
    unfold getnextc in H. rewrite Wn in H. discriminate.
Qed.
Lemma comment_nofuel : forall s, wf s -> nofuel (comment s).
Proof.
  intros s W. unfold comment. destruct (getnextc s) as [b s1| | |] eqn:G; try discriminate; [|now apply getnextc_nofuel in G].
  cbn [tbind]. destruct (getnextc_ok _ _ _ G W) as (W1 & _). apply comm_nofuel; [exact W1|]. unfold bound. lia.
Qed.
(** ** Preprocessor lines *)
Lemma wf_settok : forall s t, wf s -> wf (settok s t).
Proof. intros s t W. exact W. Qed.
Lemma view_settok : forall s t, view (settok s t) = view s.
Proof. reflexivity. Qed.
Definition same_last (s s' : tin) : Prop := lasttoken s' = lasttoken s /\ tokenBeforeLast s' = tokenBeforeLast s.
Lemma is_cur : forall s x, is s x = true -> cur s = Some x.
Proof. intros s x H. unfold is in H. destruct (cur s); [|discriminate]. apply ceq_eq in H. now subst. Qed.
Lemma is_view : forall s x, is s x = true -> exists v, view s = x :: v.
Proof. intros s x H. unfold view. rewrite (is_cur _ _ H). eauto. Qed.
Lemma is_cons : forall s x v y, view s = x :: v -> is s y = false -> x <> y.
Proof. intros s x v y V H ->. unfold view in V. unfold is in H. destruct (cur s); [|discriminate]. injection V as -> _. now rewrite ceq_refl in H. Qed.

Lemma hashline_ok : forall f s a s', hashline f s = TOk a s' -> wf s ->
  wf s' /\ length (rest s') <= length (rest s) /\ same_last s s' /\ (ef s' = true \/ is s' lf = true) /\
  (ef s = false -> notlf (cur s) = true -> length (rest s') < length (rest s)) /\
  exists h k, view s = h ++ view s' /\ hash h k /\ token s' = token s ++ k.
Proof.
  induction f as [|f IH]; intros s a s' H W; cbn [hashline] in H.
  - destruct (notlf (cur s) && negb (ef s))%bool eqn:E; [discriminate|]. injection H as <- <-.
    split; [exact W|]. split; [lia|]. split; [split; reflexivity|].
    assert (Q : ef s = true \/ is s lf = true). { apply andb_false_iff in E as [E|E]; [right|left; now destruct (ef s)]. unfold notlf in E. unfold is. destruct (cur s) as [c|]; [now destruct (ceq c lf)|discriminate]. }
    split; [exact Q|]. split. { intros E1 E2. rewrite E1, E2 in E. discriminate. }
    exists [], []. split; [reflexivity|]. split; [constructor|now rewrite app_nil_r].
  - destruct (notlf (cur s) && negb (ef s))%bool eqn:E.
    + apply andb_true_iff in E as [E1 E2].
      set (s1 := if is s cr then s else addc s) in *.
      assert (W1 : wf s1) by (unfold s1; destruct (is s cr); exact W).
      assert (V1 : view s1 = view s) by (unfold s1; destruct (is s cr); reflexivity).
      assert (R1 : length (rest s1) = length (rest s)) by (unfold s1; destruct (is s cr); reflexivity).
      assert (S1 : same_last s s1) by (unfold s1; destruct (is s cr); split; reflexivity).
      assert (C1 : cur s1 = cur s) by (unfold s1; destruct (is s cr); reflexivity).
      destruct (is s1 "/") eqn:Sl.
      * assert (Cs : cur s = Some "/"%char) by (rewrite <- C1; now apply is_cur).
        assert (T1 : token s1 = token s ++ ["/"%char]). { unfold s1. unfold is. rewrite Cs. cbn. unfold addc, settok. cbn. now rewrite Cs. }
        destruct (getnextc s1) as [b s2| | |] eqn:G; try discriminate. cbn [tbind] in H.
        destruct (getnextc_ok _ _ _ G W1) as (W2 & L2 & (Ta & Tb & Tc) & x & Cx & V2).
        assert (x = "/"%char) as -> by congruence.
        destruct (is s2 "*") eqn:St.
        -- destruct (comment s2) as [b3 s3| | |] eqn:Cm; try discriminate. cbn [tbind] in H.
           destruct (comment_ok _ _ _ Cm W2 St) as (W3 & L3 & (Td & Te & Tf) & t & v & IC & V3 & Vt).
           destruct (getnextc s3) as [b4 s4| | |] eqn:G4; try discriminate. cbn [tbind] in H.
           destruct (getnextc_ok _ _ _ G4 W3) as (W4 & L4 & (Tg & Th & Ti) & y & Cy & V4).
           destruct (IH _ _ _ H W4) as (W5 & L5 & (Tj & Tk) & Q5 & _ & h & k & Vh & Hh & Th5).
           split; [exact W5|]. split; [lia|]. split; [split; destruct S1; congruence|]. split; [exact Q5|]. split; [intros; lia|].
           assert (y = "/"%char) as -> by (rewrite V3 in V4; congruence).
           exists (("/"%char :: t ++ ["/"%char]) ++ h), ("/"%char :: k). split; [|split; [now constructor|]].
           ++ rewrite <- V1, V2, Vt, V4, Vh. cbn [app]. rewrite <- !app_assoc. reflexivity.
           ++ rewrite Th5. replace (token s4) with (token s1) by congruence. rewrite T1, <- app_assoc. reflexivity.
        -- cbn [tbind] in H. destruct (getnextc s2) as [b4 s4| | |] eqn:G4; try discriminate. cbn [tbind] in H.
           destruct (getnextc_ok _ _ _ G4 W2) as (W4 & L4 & (Tg & Th & Ti) & y & Cy & V4).
           destruct (IH _ _ _ H W4) as (W5 & L5 & (Tj & Tk) & Q5 & _ & h & k & Vh & Hh & Th5).
           split; [exact W5|]. split; [lia|]. split; [split; destruct S1; congruence|]. split; [exact Q5|]. split; [intros; lia|].
           exists ("/"%char :: y :: h), ("/"%char :: k). split; [|split; [constructor; [|exact Hh]|]].
           ++ rewrite <- V1, V2, V4, Vh. reflexivity.
           ++ intros ->. unfold is in St. rewrite Cy in St. discriminate.
           ++ rewrite Th5. replace (token s4) with (token s1) by congruence. rewrite T1, <- app_assoc. reflexivity.
      * cbn [tbind] in H. destruct (getnextc s1) as [b4 s4| | |] eqn:G4; try discriminate. cbn [tbind] in H.
        destruct (getnextc_ok _ _ _ G4 W1) as (W4 & L4 & (Tg & Th & Ti) & y & Cy & V4).
        destruct (IH _ _ _ H W4) as (W5 & L5 & (Tj & Tk) & Q5 & _ & h & k & Vh & Hh & Th5).
        split; [exact W5|]. split; [lia|]. split; [split; destruct S1; congruence|]. split; [exact Q5|]. split; [intros; lia|].
        rewrite C1 in Cy.
        exists (y :: h), ((if ceq y cr then [] else [y]) ++ k). split; [|split; [constructor; [| |exact Hh]|]].
        -- rewrite <- V1, V4, Vh. reflexivity.
        -- intros ->. rewrite Cy in E1. discriminate.
        -- intros ->. unfold is in Sl. rewrite C1, Cy in Sl. discriminate.
        -- rewrite Th5, Tg. unfold s1, is. rewrite Cy. destruct (ceq y cr); [reflexivity|]. unfold addc, settok. cbn. rewrite Cy. now rewrite <- app_assoc.
    + injection H as <- <-.
      split; [exact W|]. split; [lia|]. split; [split; reflexivity|].
      assert (Q : ef s = true \/ is s lf = true). { apply andb_false_iff in E as [E|E]; [right|left; now destruct (ef s)]. unfold notlf in E. unfold is. destruct (cur s) as [c|]; [now destruct (ceq c lf)|discriminate]. }
      split; [exact Q|]. split. { intros E1 E2. rewrite E1, E2 in E. discriminate. }
      exists [], []. split; [reflexivity|]. split; [constructor|now rewrite app_nil_r].
Qed.
Lemma hashline_nofuel : forall f s, wf s -> length (rest s) < f -> nofuel (hashline f s).
Proof.
  induction f as [|f IH]; intros s W L; [lia|]. cbn [hashline]. destruct (notlf (cur s) && negb (ef s))%bool; [|discriminate].
  set (s1 := if is s cr then s else addc s) in *.
  assert (W1 : wf s1) by (unfold s1; destruct (is s cr); exact W).
  assert (R1 : length (rest s1) = length (rest s)) by (unfold s1; destruct (is s cr); reflexivity).
  destruct (is s1 "/").
  - destruct (getnextc s1) as [b s2| | |] eqn:G; try discriminate; [|now apply getnextc_nofuel in G]. cbn [tbind].
    destruct (getnextc_ok _ _ _ G W1) as (W2 & L2 & _).
    destruct (is s2 "*") eqn:St.
    + destruct (comment s2) as [b3 s3| | |] eqn:Cm; try discriminate; [|now apply comment_nofuel in Cm]. cbn [tbind].
      destruct (comment_ok _ _ _ Cm W2 St) as (W3 & L3 & _).
      destruct (getnextc s3) as [b4 s4| | |] eqn:G4; try discriminate; [|now apply getnextc_nofuel in G4]. cbn [tbind].
      destruct (getnextc_ok _ _ _ G4 W3) as (W4 & L4 & _). apply IH; [exact W4|lia].
    + cbn [tbind]. destruct (getnextc s2) as [b4 s4| | |] eqn:G4; try discriminate; [|now apply getnextc_nofuel in G4]. cbn [tbind].
      destruct (getnextc_ok _ _ _ G4 W2) as (W4 & L4 & _). apply IH; [exact W4|lia].
  - cbn [tbind]. destruct (getnextc s1) as [b4 s4| | |] eqn:G4; try discriminate; [|now apply getnextc_nofuel in G4]. cbn [tbind].
    destruct (getnextc_ok _ _ _ G4 W1) as (W4 & L4 & _). apply IH; [exact W4|lia].
Qed.

Lemma skips_trans : forall a b c, skips a b -> skips b c -> skips a c.
Proof. induction 1; intros; [assumption|apply s_space|apply s_comment|apply s_line|eapply s_hash|apply s_other]; eauto. Qed.
Lemma skips_spaces : forall w v, Forall (fun x => isspace_o (Some x) = true) w -> skips (w ++ v) v.
Proof. induction 1; [constructor|]. cbn [app]. apply s_space; assumption. Qed.

(** a pragma line ends before a newline or where the file ends *)
Lemma hashes_ok : forall f s p s', hashes f s = TOk p s' -> wf s -> token s = [] ->
  wf s' /\ length (rest s') <= length (rest s) /\ same_last s s' /\
  if p then length (rest s') < length (rest s) /\ exists h, skips (view s) ("#"%char :: h ++ view s') /\ hash ("#"%char :: h) (token s') /\ starts pragma (token s') = true /\ (ef s' = true \/ is s' lf = true)
  else token s' = [] /\ is s' "#" = false /\ (s' = s \/ isspace_o (cur s') = false) /\ (ef s' = false -> skips (view s) (view s')).
Proof.
  induction f as [|f IH]; intros s p s' H W T; cbn [hashes] in H.
  - destruct (is s "#") eqn:E; [discriminate|]. injection H as <- <-. split; [exact W|]. split; [lia|]. split; [split; reflexivity|]. split; [exact T|]. split; [exact E|]. split; [now left|]. intros _. constructor.
  - destruct (is s "#") eqn:E.
    2:{ injection H as <- <-. split; [exact W|]. split; [lia|]. split; [split; reflexivity|]. split; [exact T|]. split; [exact E|]. split; [now left|]. intros _. constructor. }
    destruct (hashline (bound s) s) as [a1 s1| | |] eqn:Hl; try discriminate. cbn [tbind] in H.
    destruct (hashline_ok _ _ _ _ Hl W) as (W1 & L1 & (Sa & Sb) & Q1 & Pr & h & k & Vh & Hh & Tk).
    assert (Cs := is_cur _ _ E).
    assert (Ef : ef s = false). { destruct W as [_ W2]. destruct (ef s); [|reflexivity]. destruct (W2 eq_refl) as [_ K]. rewrite Cs in K. destruct K as [K|[K|K]]; discriminate. }
    assert (L1' : length (rest s1) < length (rest s)). { apply Pr; [exact Ef|]. now rewrite Cs. }
    rewrite T in Tk. cbn [app] in Tk.
    assert (Hd : exists h', h = "#"%char :: h').
    { destruct (is_view _ _ E) as (v0 & V0). destruct h as [|y h'].
      - cbn [app] in Vh. exfalso. destruct Q1 as [Q1|Q1].
        + destruct W1 as [_ W12]. destruct (W12 Q1) as [_ K]. unfold view in Vh at 2. rewrite V0 in Vh.
          destruct K as [K|[K|K]]; rewrite K in Vh; discriminate.
        + destruct (is_view _ _ Q1) as (v1 & V1). rewrite V0, V1 in Vh. discriminate.
      - cbn [app] in Vh. rewrite V0 in Vh. injection Vh as <- _. eauto. }
    destruct Hd as (h' & ->).
    destruct (starts pragma (token s1)) eqn:P.
    + injection H as <- <-. split; [exact W1|]. split; [lia|]. split; [split; assumption|]. split; [exact L1'|]. exists h'. rewrite Vh. cbn [app].
      split; [constructor|]. split; [now rewrite Tk|]. split; [exact P|exact Q1].
    + destruct (skipspace (settok s1 [])) as [a2 s2| | |] eqn:Sp; try discriminate. cbn [tbind] in H.
      destruct (while_ok _ _ _ _ _ Sp (wf_settok s1 [] W1)) as (W2 & L2 & (T2 & Sc & Sd) & NS & EQ & w & Vw & Fw).
      destruct (IH _ _ _ H W2 T2) as (W3 & L3 & (Se & Sf) & K).
      split; [exact W3|]. split; [cbn [rest settok] in *; lia|]. split; [split; cbn in *; congruence|].
      rewrite view_settok in Vw.
      assert (SK : is s1 lf = true -> skips (view s) (view s2)).
      { intros Q. destruct (is_view _ _ Q) as (v1 & V1). rewrite Vh, V1. cbn [app]. apply (s_hash h' k); [exact Hh|now rewrite <- Tk|].
        rewrite <- V1, Vw. now apply skips_spaces. }
      assert (EF : ef s1 = true -> s2 = settok s1 [] /\ is s2 "#" = false).
      { intros Q. destruct EQ as [->|[E0 _]]; [|cbn in E0; congruence]. split; [reflexivity|]. destruct W1 as [_ W12]. destruct (W12 Q) as [_ K0].
        unfold is, settok. cbn [cur]. destruct K0 as [K0|[K0|K0]]; rewrite K0; reflexivity. }
      destruct p.
      * destruct K as (L & hh & K1 & K2 & K3 & K4). split; [cbn in *; lia|]. exists hh. split; [|auto].
        destruct Q1 as [Q1|Q1]; [|eapply skips_trans; [now apply SK|exact K1]].
        exfalso. destruct (EF Q1) as [-> N0]. destruct f; cbn [hashes] in H; rewrite N0 in H; discriminate.
      * destruct K as (K1 & K2 & K3 & K4). split; [exact K1|]. split; [exact K2|].
        split. { right. destruct K3 as [->|K3]; assumption. }
        intros E0. destruct Q1 as [Q1|Q1]; [|eapply skips_trans; [now apply SK|now apply K4]].
        exfalso. destruct (EF Q1) as [-> N0]. destruct f; cbn [hashes] in H; rewrite N0 in H; injection H as <-; cbn in E0; congruence.
Qed.
Lemma hashes_nofuel : forall f s, wf s -> length (rest s) < f -> nofuel (hashes f s).
Proof.
  induction f as [|f IH]; intros s W L; [lia|]. cbn [hashes]. destruct (is s "#") eqn:E; [|discriminate].
  destruct (hashline (bound s) s) as [a1 s1| | |] eqn:Hl; try discriminate; [|apply hashline_nofuel in Hl; [contradiction|exact W|unfold bound; lia]]. cbn [tbind].
  destruct (hashline_ok _ _ _ _ Hl W) as (W1 & L1 & _ & _ & Pr & _).
  assert (Cs := is_cur _ _ E).
  assert (Ef : ef s = false). { destruct W as [_ W2]. destruct (ef s); [|reflexivity]. destruct (W2 eq_refl) as [_ K]. rewrite Cs in K. destruct K as [K|[K|K]]; discriminate. }
  assert (L1' : length (rest s1) < length (rest s)). { apply Pr; [exact Ef|]. now rewrite Cs. }
  destruct (starts pragma (token s1)); [discriminate|].
  destruct (skipspace (settok s1 [])) as [a2 s2| | |] eqn:Sp; try discriminate;
    [|apply while_nofuel in Sp; [contradiction|exact W1|unfold bound; cbn; lia]]. cbn [tbind].
  destruct (while_ok _ _ _ _ _ Sp (wf_settok s1 [] W1)) as (W2 & L2 & _). apply IH; [exact W2|]. cbn in L2. lia.
Qed.

(** ** Strings and identifiers *)
Lemma take_ok : forall s a s', take s = TOk a s' -> wf s ->
  wf s' /\ length (rest s') < length (rest s) /\ same_last s s' /\ exists x, cur s = Some x /\ view s = x :: view s' /\ token s' = token s ++ [x].
Proof.
  intros s a s' H W. unfold take in H. destruct (getnextc_ok _ _ _ H W) as (W1 & L & (T1 & T2 & T3) & x & C & V).
  split; [exact W1|]. split; [exact L|]. split; [split; assumption|]. exists x. cbn in C. split; [exact C|]. split; [exact V|].
  rewrite T1. unfold addc, settok. cbn. now rewrite C.
Qed.
Lemma strlit_ok : forall f q esc s a s', strlit f q esc s = TOk a s' -> wf s ->
  wf s' /\ length (rest s') < length (rest s) /\ same_last s s' /\
  exists x b, cur s = Some x /\ view s = x :: b ++ q :: view s' /\ token s' = token s ++ x :: b ++ [q] /\ qscan q (ceq x bsl && negb esc) b.
Proof.
  induction f as [|f IH]; intros q esc s a s' H W; cbn [strlit] in H; [discriminate|]. fold (take s) in H.
  destruct (take s) as [b1 s1| | |] eqn:G; try discriminate. cbn [tbind] in H.
  destruct (take_ok _ _ _ G W) as (W1 & L1 & (T1 & T2) & x & C & V & Tk).
  assert (E : is s bsl = ceq x bsl) by (unfold is; now rewrite C). rewrite E in H.
  destruct (negb (is s1 q) || (ceq x bsl && negb esc))%bool eqn:B.
  - destruct (IH _ _ _ _ _ H W1) as (W2 & L2 & (T3 & T4) & y & b & Cy & Vb & Tb & Q).
    split; [exact W2|]. split; [lia|]. split; [split; congruence|]. exists x, (y :: b). split; [exact C|]. cbn [app].
    split; [now rewrite V, Vb|]. split; [rewrite Tb, Tk, <- app_assoc; reflexivity|]. cbn [qscan]. split; [|exact Q].
    intros ->. unfold is in B. rewrite Cy, ceq_refl in B. exact B.
  - fold (take s1) in H. destruct (take_ok _ _ _ H W1) as (W2 & L2 & (T3 & T4) & y & Cy & Vy & Ty).
    apply orb_false_iff in B as [B1 B2]. apply negb_false_iff in B1. apply is_cur in B1. assert (y = q) as -> by congruence.
    split; [exact W2|]. split; [lia|]. split; [split; congruence|]. exists x, []. split; [exact C|]. cbn [app].
    split; [now rewrite V, Vy|]. split; [rewrite Ty, Tk, <- app_assoc; reflexivity|]. exact B2.
Qed.
Lemma strlit_nofuel : forall f q esc s, wf s -> length (rest s) < f -> nofuel (strlit f q esc s).
Proof.
  induction f as [|f IH]; intros q esc s W L; [lia|]. cbn [strlit]. fold (take s).
  destruct (take s) as [b1 s1| | |] eqn:G; try discriminate; [|now apply getnextc_nofuel in G]. cbn [tbind].
  destruct (take_ok _ _ _ G W) as (W1 & L1 & _). destruct (_ || _)%bool; [apply IH; [exact W1|lia]|apply getnextc_nofuel].
Qed.
Lemma ident_ok : forall f s a s', ident f s = TOk a s' -> wf s ->
  wf s' /\ length (rest s') <= length (rest s) /\ same_last s s' /\ test s' isident = false /\
  exists t, view s = t ++ view s' /\ token s' = token s ++ t /\ Forall (fun x => isident x = true) t /\ (test s isident = true -> t <> [] /\ length (rest s') < length (rest s)).
Proof.
  induction f as [|f IH]; intros s a s' H W; cbn [ident] in H.
  - destruct (test s isident) eqn:E; [discriminate|]. injection H as <- <-. split; [exact W|]. split; [lia|]. split; [split; reflexivity|]. split; [exact E|].
    exists []. split; [reflexivity|]. split; [now rewrite app_nil_r|]. split; [constructor|discriminate].
  - destruct (test s isident) eqn:E.
    + destruct (take s) as [b1 s1| | |] eqn:G; try discriminate. cbn [tbind] in H.
      destruct (take_ok _ _ _ G W) as (W1 & L1 & (T1 & T2) & x & C & V & Tk).
      destruct (IH _ _ _ H W1) as (W2 & L2 & (T3 & T4) & NI & t & Vt & Tt & Ft & _).
      split; [exact W2|]. split; [lia|]. split; [split; congruence|]. split; [exact NI|]. exists (x :: t). cbn [app].
      split; [now rewrite V, Vt|]. split; [rewrite Tt, Tk, <- app_assoc; reflexivity|]. split; [constructor; [|exact Ft]|].
      * unfold test in E. now rewrite C in E.
      * intros _. split; [discriminate|lia].
    + injection H as <- <-. split; [exact W|]. split; [lia|]. split; [split; reflexivity|]. split; [exact E|].
      exists []. split; [reflexivity|]. split; [now rewrite app_nil_r|]. split; [constructor|discriminate].
Qed.
Lemma ident_nofuel : forall f s, wf s -> length (rest s) < f -> nofuel (ident f s).
Proof.
  induction f as [|f IH]; intros s W L; [lia|]. cbn [ident]. destruct (test s isident); [|discriminate].
  destruct (take s) as [b1 s1| | |] eqn:G; try discriminate; [|now apply getnextc_nofuel in G]. cbn [tbind].
  destruct (take_ok _ _ _ G W) as (W1 & L1 & _). apply IH; [exact W1|lia].
Qed.

(** ** Operators *)
Definition all256 : list ascii := map ascii_of_nat (seq 0 256).
Lemma allc : forall P : ascii -> bool, forallb P all256 = true -> forall c, P c = true.
Proof.
  intros P H c. rewrite forallb_forall in H. apply H. unfold all256. rewrite <- (ascii_nat_embedding c). apply in_map.
  apply in_seq. pose proof (nat_ascii_bounded c). lia.
Qed.
Definition inb (t : list ascii) : bool := existsb (fun o => if list_eq_dec ascii_dec t o then true else false) op_table.
Lemma inb_in : forall t, inb t = true <-> In t op_table.
Proof.
  intros t. unfold inb. rewrite existsb_exists. split.
  - intros (o & H & E). destruct (list_eq_dec ascii_dec t o); [now subst|discriminate].
  - intros H. exists t. split; [exact H|]. now destruct (list_eq_dec ascii_dec t t).
Qed.
Lemma tabP : forall P : list ascii -> bool, forallb P op_table = true -> forall o, In o op_table -> P o = true.
Proof. intros P H. now apply forallb_forall. Qed.
Lemma prefix_closed : forall o k, In o op_table -> 1 <= k <= length o -> In (firstn k o) op_table.
Proof.
  intros o k H K. assert (Q := tabP (fun o => forallb (fun k => inb (firstn k o)) (seq 1 (length o))) ltac:(vm_compute; reflexivity) o H).
  cbn beta in Q. rewrite forallb_forall in Q. apply inb_in. apply Q. apply in_seq. lia.
Qed.
Lemma maximal : forall t after, (forall x v, after = x :: v -> ~ In (t ++ [x]) op_table) ->
  forall o u, In o op_table -> t ++ after = o ++ u -> length o <= length t.
Proof.
  intros t after H o u Ho E. destruct (Nat.le_gt_cases (length o) (length t)) as [L|L]; [exact L|]. exfalso.
  assert (Fo : firstn (length t) o = t).
  { assert (Q := f_equal (firstn (length t)) E). rewrite firstn_app, Nat.sub_diag, firstn_all, firstn_O, app_nil_r in Q.
    rewrite firstn_app in Q. replace (length t - length o) with 0 in Q by lia. rewrite firstn_O, app_nil_r in Q. now symmetry. }
  rewrite <- (firstn_skipn (length t) o), Fo in E. rewrite <- app_assoc in E. apply app_inv_head in E.
  destruct (skipn (length t) o) as [|x w] eqn:Sk.
  { apply (f_equal (@length ascii)) in Sk. rewrite skipn_length in Sk. cbn in Sk. lia. }
  cbn [app] in E. apply (H x (w ++ u) E). replace (t ++ [x]) with (firstn (S (length t)) o); [apply prefix_closed; [exact Ho|lia]|].
  rewrite <- (firstn_skipn (length t) o) at 1. rewrite Fo, Sk. rewrite firstn_app. rewrite firstn_all2 by lia.
  replace (S (length t) - length t) with 1 by lia. reflexivity.
Qed.
Lemma op_lexeme : forall t after, In t op_table -> (forall x v, after = x :: v -> ~ In (t ++ [x]) op_table) -> t <> ["/"%char] -> lexeme t after.
Proof. intros t after H K N0. apply l_op; [exact H|now apply maximal|]. intros E. contradiction. Qed.
Lemma is_ncur : forall s x v y, view s = x :: v -> is s y = false -> ceq x y = false.
Proof. intros s x v y V H. apply ceq_neq. eapply is_cons; eassumption. Qed.

Lemma operator_ok : forall lc s b s', operator lc s = TOk b s' -> wf s -> cur s = Some lc -> token s = [] ->
  strchr ops lc = true -> lc <> "#"%char ->
  wf s' /\ length (rest s') < length (rest s) /\ same_last s s' /\
  if b then skips (view s) (view s') else view s = token s' ++ view s' /\ lexeme (token s') (view s').
Proof.
  intros lc s b s' H W C T O NH. unfold operator in H.
  destruct (take s) as [a1 s1| | |] eqn:G1; try discriminate. cbn [tbind] in H.
  destruct (take_ok _ _ _ G1 W) as (W1 & L1 & (Sa & Sb) & x & Cx & V1 & T1).
  assert (x = lc) as -> by congruence. rewrite T in T1. cbn [app] in T1. clear Cx T.
  assert (I1 : In [lc] op_table).
  { apply inb_in. assert (Q := allc (fun c => negb (strchr ops c) || ceq c "#" || inb [c])%bool ltac:(vm_compute; reflexivity) lc).
    cbn beta in Q. rewrite O in Q. apply ceq_neq in NH. now rewrite NH in Q. }
  assert (P2 : forall a c, In [a; c] op_table ->
     (if mem a "<>|&+-:" then ceq c a || (ceq c "=" && negb (strchr noassign a)) || (ceq a "-" && ceq c ">")
      else if ceq a "." then ceq c "." else if ceq a "[" then ceq c "]" else if ceq a "(" then ceq c ")"
      else (ceq c "=" && negb (strchr noassign a)))%bool = true).
  { intros a c. exact (tabP (fun o => match o with [a; c] => 
     (if mem a "<>|&+-:" then ceq c a || (ceq c "=" && negb (strchr noassign a)) || (ceq a "-" && ceq c ">")
      else if ceq a "." then ceq c "." else if ceq a "[" then ceq c "]" else if ceq a "(" then ceq c ")"
      else (ceq c "=" && negb (strchr noassign a))) | _ => true end)%bool ltac:(vm_compute; reflexivity) [a; c]). }
  assert (P3 : forall a c d, In [a; c; d] op_table ->
     ((mem a "<>" && ceq a c && ceq d "=") || (ceq a "-" && ceq c ">" && ceq d "*") || (ceq a "." && ceq c "." && ceq d "."))%bool = true).
  { intros a c d. exact (tabP (fun o => match o with [a; c; d] => 
     ((mem a "<>" && ceq a c && ceq d "=") || (ceq a "-" && ceq c ">" && ceq d "*") || (ceq a "." && ceq c "." && ceq d ".")) | _ => true end)%bool ltac:(vm_compute; reflexivity) [a; c; d]). }
  assert (P4 : forall a c d e, ~ In [a; c; d; e] op_table).
  { intros a c d e Q. assert (Z := tabP (fun o => Nat.leb (length o) 3) ltac:(vm_compute; reflexivity) _ Q). discriminate. }
  (* a token of one, two, three characters *)
  assert (one : forall s2, TOk false s1 = TOk b s2 -> (forall x v, view s1 = x :: v -> ~ In [lc; x] op_table) -> lc <> "/"%char -> s2 = s' ->
     wf s' /\ length (rest s') < length (rest s) /\ same_last s s' /\
     (if b then skips (view s) (view s') else view s = token s' ++ view s' /\ lexeme (token s') (view s'))).
  { intros s2 E K N0 ->. injection E as <- <-. split; [exact W1|]. split; [exact L1|]. split; [split; assumption|]. rewrite T1. split; [exact V1|].
    apply op_lexeme; [exact I1|exact K|congruence]. }
  assert (two : forall a2 s2 c, take s1 = TOk a2 s2 -> is s1 c = true -> In [lc; c] op_table -> 
     (forall x v, view s2 = x :: v -> ~ In [lc; c; x] op_table) ->
     wf s2 /\ length (rest s2) < length (rest s) /\ same_last s s2 /\ view s = token s2 ++ view s2 /\ lexeme (token s2) (view s2)).
  { intros a2 s2 c G2 Ic J K. destruct (take_ok _ _ _ G2 W1) as (W2 & L2 & (Sc & Sd) & x & Cx & V2 & T2).
    assert (x = c) as -> by (apply is_cur in Ic; congruence).
    split; [exact W2|]. split; [lia|]. split; [split; congruence|]. rewrite T1 in T2. cbn [app] in T2. rewrite T2.
    split; [rewrite V1, V2; reflexivity|]. apply op_lexeme; [exact J|exact K|discriminate]. }
  assert (three : forall a2 s2 c a3 s3 d, take s1 = TOk a2 s2 -> is s1 c = true -> take s2 = TOk a3 s3 -> is s2 d = true -> In [lc; c; d] op_table ->
     wf s3 /\ length (rest s3) < length (rest s) /\ same_last s s3 /\ view s = token s3 ++ view s3 /\ lexeme (token s3) (view s3)).
  { intros a2 s2 c a3 s3 d G2 Ic G3 Id J. destruct (take_ok _ _ _ G2 W1) as (W2 & L2 & (Sc & Sd) & x & Cx & V2 & T2).
    assert (x = c) as -> by (apply is_cur in Ic; congruence).
    destruct (take_ok _ _ _ G3 W2) as (W3 & L3 & (Se & Sf) & y & Cy & V3 & T3).
    assert (y = d) as -> by (apply is_cur in Id; congruence).
    split; [exact W3|]. split; [lia|]. split; [split; congruence|]. rewrite T2, T1 in T3. cbn [app] in T3. rewrite T3.
    split; [rewrite V1, V2, V3; reflexivity|]. apply op_lexeme; [exact J|intros; apply P4|discriminate]. }
  destruct (is s1 "=" && negb (strchr noassign lc))%bool eqn:B1.
  { apply andb_true_iff in B1 as [B1 B2]. destruct (take s1) as [a2 s2| | |] eqn:G2; try discriminate. cbn [tbind] in H. injection H as <- <-.
    eapply two; [reflexivity|exact B1| |].
    - apply inb_in. assert (Q := allc (fun c => negb (strchr ops c) || strchr noassign c || inb [c; "="%char])%bool ltac:(vm_compute; reflexivity) lc).
      cbn beta in Q. rewrite O in Q. apply negb_true_iff in B2. now rewrite B2 in Q.
    - intros x v _ Q. apply P3 in Q. clear -Q. change (ceq "=" ">") with false in Q. change (ceq "=" ".") with false in Q.
      rewrite !andb_false_r, !orb_false_r in Q. apply andb_true_iff in Q as [Q _]. apply andb_true_iff in Q as [Q1 Q2]. apply ceq_eq in Q2. subst. discriminate. }
  destruct (mem lc "<>|&+-:") eqn:M.
  { assert (Nsl : lc <> "/"%char) by (intros ->; discriminate).
    destruct (is s1 lc) eqn:B2.
    - destruct (take s1) as [a2 s2| | |] eqn:G2; try discriminate. cbn [tbind] in H.
      destruct (mem lc "<>" && is s2 "=")%bool eqn:B3.
      + apply andb_true_iff in B3 as [B3 B4]. destruct (take s2) as [a3 s3| | |] eqn:G3; try discriminate. cbn [tbind] in H. injection H as <- <-.
        eapply three; [reflexivity|exact B2|exact G3|exact B4|]. apply inb_in.
        assert (Q := allc (fun c => negb (mem c "<>") || inb [c; c; "="%char])%bool ltac:(vm_compute; reflexivity) lc). cbn beta in Q. now rewrite B3 in Q.
      + cbn [tbind] in H. injection H as <- <-. eapply two; [reflexivity|exact B2| |].
        * apply inb_in. assert (Q := allc (fun c => negb (mem c "<>|&+-:") || inb [c; c])%bool ltac:(vm_compute; reflexivity) lc). cbn beta in Q. now rewrite M in Q.
        * intros x v Vx Q. apply P3 in Q. rewrite ceq_refl in Q. rewrite andb_true_r in Q. apply orb_true_iff in Q as [Q|Q].
          -- apply orb_true_iff in Q as [Q|Q].
             ++ apply andb_true_iff in Q as [Q1 Q2]. rewrite Q1 in B3. cbn [andb] in B3. now rewrite (is_ncur _ _ _ _ Vx B3) in Q2.
             ++ apply andb_true_iff in Q as [Q _]. apply andb_true_iff in Q as [Q1 Q2]. apply ceq_eq in Q1, Q2. congruence.
          -- apply andb_true_iff in Q as [Q _]. apply andb_true_iff in Q as [Q _]. apply ceq_eq in Q. subst. discriminate.
    - destruct (ceq lc "-" && is s1 ">")%bool eqn:B3.
      + apply andb_true_iff in B3 as [B3 B4]. apply ceq_eq in B3. subst lc. destruct (take s1) as [a2 s2| | |] eqn:G2; try discriminate. cbn [tbind] in H.
        destruct (is s2 "*") eqn:B5.
        * destruct (take s2) as [a3 s3| | |] eqn:G3; try discriminate. cbn [tbind] in H. injection H as <- <-.
          eapply three; [reflexivity|exact B4|exact G3|exact B5|]. apply inb_in. reflexivity.
        * cbn [tbind] in H. injection H as <- <-. eapply two; [reflexivity|exact B4|apply inb_in; reflexivity|].
          intros x v Vx Q. apply P3 in Q. change (mem "-" "<>") with false in Q. change (ceq "-" "-") with true in Q. change (ceq ">" ">") with true in Q.
          change (ceq "-" ".") with false in Q. cbn [andb orb] in Q. rewrite orb_false_r in Q. now rewrite (is_ncur _ _ _ _ Vx B5) in Q.
      + apply (one s'); [exact H| |exact Nsl|reflexivity]. intros x v Vx Q. apply P2 in Q. rewrite M in Q.
        rewrite (is_ncur _ _ _ _ Vx B2) in Q. cbn [orb] in Q. apply orb_true_iff in Q as [Q|Q]; apply andb_true_iff in Q as [Q1 Q2].
        * rewrite Q2, andb_true_r in B1. now rewrite (is_ncur _ _ _ _ Vx B1) in Q1.
        * rewrite Q1 in B3. cbn [andb] in B3. now rewrite (is_ncur _ _ _ _ Vx B3) in Q2. }
  destruct (ceq lc ".") eqn:D1.
  { apply ceq_eq in D1. subst lc. destruct (is s1 ".") eqn:B2.
    - destruct (take s1) as [a2 s2| | |] eqn:G2; try discriminate. cbn [tbind] in H. destruct (is s2 ".") eqn:B3.
      + destruct (take s2) as [a3 s3| | |] eqn:G3; try discriminate. cbn [tbind] in H. injection H as <- <-.
        eapply three; [reflexivity|exact B2|exact G3|exact B3|]. apply inb_in. reflexivity.
      + cbn [tbind] in H. injection H as <- <-. eapply two; [reflexivity|exact B2|apply inb_in; reflexivity|].
        intros x v Vx Q. apply P3 in Q. cbn in Q. now rewrite (is_ncur _ _ _ _ Vx B3) in Q.
    - apply (one s'); [exact H| |discriminate|reflexivity]. intros x v Vx Q. apply P2 in Q. cbn in Q. now rewrite (is_ncur _ _ _ _ Vx B2) in Q. }
  destruct (ceq lc "[") eqn:D2.
  { apply ceq_eq in D2. subst lc. destruct (is s1 "]") eqn:B2.
    - destruct (take s1) as [a2 s2| | |] eqn:G2; try discriminate. cbn [tbind] in H. injection H as <- <-.
      eapply two; [reflexivity|exact B2|apply inb_in; reflexivity|]. intros x v Vx Q. apply P3 in Q. cbn in Q. discriminate.
    - apply (one s'); [exact H| |discriminate|reflexivity]. intros x v Vx Q. apply P2 in Q. cbn in Q. now rewrite (is_ncur _ _ _ _ Vx B2) in Q. }
  destruct (ceq lc "(") eqn:D3.
  { apply ceq_eq in D3. subst lc. destruct (is s1 ")") eqn:B2.
    - destruct (take s1) as [a2 s2| | |] eqn:G2; try discriminate. cbn [tbind] in H. injection H as <- <-.
      eapply two; [reflexivity|exact B2|apply inb_in; reflexivity|]. intros x v Vx Q. apply P3 in Q. cbn in Q. discriminate.
    - apply (one s'); [exact H| |discriminate|reflexivity]. intros x v Vx Q. apply P2 in Q. cbn in Q. now rewrite (is_ncur _ _ _ _ Vx B2) in Q. }
  assert (N2 : forall x v, view s1 = x :: v -> ~ In [lc; x] op_table).
  { intros x v Vx Q. apply P2 in Q. rewrite M, D1, D2, D3 in Q. apply andb_true_iff in Q as [Q1 Q2]. rewrite Q2, andb_true_r in B1.
    now rewrite (is_ncur _ _ _ _ Vx B1) in Q1. }
  destruct (ceq lc "/") eqn:D4.
  { apply ceq_eq in D4. subst lc. destruct (is s1 "*") eqn:B2.
    - destruct (comment s1) as [a2 s2| | |] eqn:Cm; try discriminate. cbn [tbind] in H.
      destruct (comment_ok _ _ _ Cm W1 B2) as (W2 & L2 & (Td & Te & Tf) & t & v & IC & V2 & Vt).
      destruct (getnextc s2) as [a3 s3| | |] eqn:G3; try discriminate. cbn [tbind] in H. injection H as <- <-.
      destruct (getnextc_ok _ _ _ G3 W2) as (W3 & L3 & (Tg & Th & Ti) & y & Cy & V3).
      split; [exact W3|]. split; [lia|]. split; [split; congruence|].
      assert (y = "/"%char) as -> by (rewrite V2 in V3; congruence).
      rewrite V1, Vt, V3. replace ("/"%char :: t ++ "/"%char :: view s3) with (("/"%char :: t ++ ["/"%char]) ++ view s3) by (cbn [app]; now rewrite <- app_assoc).
      apply s_comment; [exact IC|constructor].
    - destruct (is s1 "/") eqn:B3.
      + destruct (while_ (bound s1) notlf s1) as [a2 s2| | |] eqn:Wh; try discriminate. cbn [tbind] in H. injection H as <- <-.
        destruct (while_ok _ _ _ _ _ Wh W1) as (W2 & L2 & (Td & Te & Tf) & NL & _ & w & Vw & Fw).
        split; [exact W2|]. split; [lia|]. split; [split; congruence|].
        destruct (cur s2) as [y|] eqn:C2; [|discriminate]. unfold notlf in NL. apply negb_false_iff in NL. apply ceq_eq in NL. subst y.
        destruct (is_view _ _ B3) as (v1 & Vs1). assert (V2 : exists v2, view s2 = lf :: v2) by (unfold view; rewrite C2; eauto). destruct V2 as (v2 & V2).
        destruct w as [|y w]; [rewrite Vs1, V2 in Vw; discriminate|]. assert (y = "/"%char) as -> by (rewrite Vs1 in Vw; cbn [app] in Vw; congruence).
        rewrite V1, Vw, V2. change (skips (bs "//" ++ w ++ lf :: v2) (lf :: v2)). apply s_line; [|constructor].
        intro Hin. inversion Fw as [|z1 z2 z3 F2]; subst. rewrite Forall_forall in F2. specialize (F2 lf Hin). discriminate.
      + injection H as <- <-. split; [exact W1|]. split; [exact L1|]. split; [split; assumption|]. rewrite T1. split; [exact V1|].
        apply l_op; [exact I1|apply maximal; exact N2|]. intros _ x v Vx. split; eapply is_cons; eassumption. }
  apply (one s'); [exact H|exact N2|now apply ceq_neq in D4|reflexivity].
Qed.
Lemma operator_nofuel : forall lc s, wf s -> nofuel (operator lc s).
Proof.
  intros lc s W. unfold operator.
  destruct (take s) as [a1 s1| | |] eqn:G1; try discriminate; [|now apply getnextc_nofuel in G1]. cbn [tbind].
  destruct (take_ok _ _ _ G1 W) as (W1 & L1 & _).
  assert (K : forall s r, r = take s -> nofuel (tbind r (fun (_ : unit) s => TOk false s))).
  { intros s0 r ->. destruct (take s0) eqn:G; try discriminate. now apply getnextc_nofuel in G. }
  assert (K2 : forall s (P : tin -> bool), nofuel (tbind (tbind (take s) (fun (_ : unit) s => if P s then take s else TOk tt s)) (fun (_ : unit) s => TOk false s))).
  { intros s0 P. destruct (take s0) as [a2 s2| | |] eqn:G; try discriminate; [|now apply getnextc_nofuel in G]. cbn [tbind].
    destruct (P s2); [eapply K; reflexivity|discriminate]. }
  destruct (_ && _)%bool; [eapply K; reflexivity|]. destruct (mem lc "<>|&+-:").
  { destruct (is s1 lc); [apply (K2 s1 (fun s => mem lc "<>" && is s "=")%bool)|]. destruct (_ && _)%bool; [apply (K2 s1 (fun s => is s "*"))|discriminate]. }
  destruct (ceq lc "."); [destruct (is s1 "."); [apply (K2 s1 (fun s => is s "."))|discriminate]|].
  destruct (ceq lc "["); [destruct (is s1 "]"); [eapply K; reflexivity|discriminate]|].
  destruct (ceq lc "("); [destruct (is s1 ")"); [eapply K; reflexivity|discriminate]|].
  destruct (ceq lc "/"); [|discriminate]. destruct (is s1 "*") eqn:B.
  - destruct (comment s1) as [a2 s2| | |] eqn:Cm; try discriminate; [|now apply comment_nofuel in Cm]. cbn [tbind].
    destruct (getnextc s2) as [a3 s3| | |] eqn:G3; try discriminate. now apply getnextc_nofuel in G3.
  - destruct (is s1 "/"); [|discriminate]. destruct (while_ (bound s1) notlf s1) as [a2 s2| | |] eqn:Wh; try discriminate.
    apply while_nofuel in Wh; [contradiction|exact W1|unfold bound; lia].
Qed.

(** ** nexttok *)
Definition tokof (h t after : list ascii) : Prop :=
  (h = t /\ lexeme t after) \/ (hash h t /\ starts pragma t = true /\ (exists h', h = "#"%char :: h') /\ (length after <= 1 \/ exists v, after = lf :: v)).
Lemma again_ok : forall f s a s', again f s = TOk a s' -> wf s ->
  wf s' /\ length (rest s') < length (rest s) /\ same_last s s' /\
  exists h, skips (view s) (h ++ view s') /\ tokof h (token s') (view s').
Proof.
  induction f as [|f IH]; intros s a s' H W; cbn [again] in H; [discriminate|].
  destruct (ef (settok s [])) eqn:E0; [discriminate|].
  destruct (skipspace (settok s [])) as [a1 s1| | |] eqn:Sp; try discriminate. cbn [tbind] in H.
  destruct (while_ok _ _ _ _ _ Sp (wf_settok s [] W)) as (W1 & L1 & (T1 & Sa & Sb) & NS & EQ & w & Vw & Fw). cbn in T1.
  rewrite view_settok in Vw. cbn [settok rest lasttoken tokenBeforeLast] in L1, Sa, Sb.
  assert (K1 : skips (view s) (view s1)) by (rewrite Vw; now apply skips_spaces).
  destruct (hashes (bound s1) s1) as [p s2| | |] eqn:Hs; try discriminate. cbn [tbind] in H.
  destruct (hashes_ok _ _ _ _ Hs W1 T1) as (W2 & L2 & (Sc & Sd) & K2).
  destruct p.
  { injection H as <- <-. destruct K2 as (L & h & K2 & K3 & K4 & K5). split; [exact W2|]. split; [lia|]. split; [split; congruence|].
    exists ("#"%char :: h). split; [eapply skips_trans; eassumption|]. right. split; [exact K3|]. split; [exact K4|]. split; [eauto|].
    destruct K5 as [K5|K5]; [left|right; now apply is_view].
    destruct W2 as [_ W22]. destruct (W22 K5) as [R _]. unfold view. rewrite R. destruct (cur s2); cbn; lia. }
  destruct K2 as (T2 & N2 & Sp2 & K2). destruct (ef s2) eqn:E2; [discriminate|]. specialize (K2 eq_refl).
  assert (K3 : skips (view s) (view s2)) by (eapply skips_trans; eassumption).
  assert (NS2 : isspace_o (cur s2) = false) by (destruct Sp2 as [->|Sp2]; assumption).
  destruct (cur s2) as [c|] eqn:C2.
  2:{ exfalso. destruct W2 as [W21 _]. unfold getnextc in H. rewrite (W21 C2) in H. discriminate. }
  assert (V2 : view s2 = c :: pp None (rest s2)) by (unfold view; now rewrite C2).
  destruct (ceq c """" || ceq c "'")%bool eqn:Q.
  { destruct (strlit_ok _ _ _ _ _ _ H W2) as (W3 & L3 & (Se & Sf) & x & b & Cx & Vb & Tb & Qb).
    assert (x = c) as -> by congruence. rewrite T2 in Tb. cbn [app] in Tb.
    split; [exact W3|]. split; [lia|]. split; [split; congruence|]. exists (token s'). split.
    - rewrite Tb. cbn [app]. rewrite <- app_assoc. cbn [app]. rewrite <- Vb. exact K3.
    - left. split; [reflexivity|]. apply orb_true_iff in Q. eapply l_string; [exact Tb| |].
      + destruct Q as [Q|Q]; apply ceq_eq in Q; auto.
      + replace (ceq c bsl && negb false)%bool with false in Qb; [exact Qb|]. destruct Q as [Q|Q]; apply ceq_eq in Q; subst; reflexivity. }
  destruct (strchr ops c) eqn:O.
  { destruct (operator c s2) as [b s3| | |] eqn:Op; try discriminate. cbn [tbind] in H.
    assert (NH : c <> "#"%char) by (intros ->; unfold is in N2; rewrite C2 in N2; discriminate).
    destruct (operator_ok _ _ _ _ Op W2 C2 T2 O NH) as (W3 & L3 & (Se & Sf) & K4). destruct b.
    - destruct (IH _ _ _ H W3) as (W4 & L4 & (Sg & Sh) & h & K5 & K6). split; [exact W4|]. split; [lia|]. split; [split; congruence|].
      exists h. split; [|exact K6]. eapply skips_trans; [exact K3|]. eapply skips_trans; eassumption.
    - injection H as <- <-. destruct K4 as [K4 K5]. split; [exact W3|]. split; [lia|]. split; [split; congruence|]. exists (token s3).
      split; [now rewrite <- K4|]. left. auto. }
  destruct (isident c) eqn:Id; cbn [negb] in H.
  - destruct (ident_ok _ _ _ _ H W2) as (W3 & L3 & (Se & Sf) & NI & t & Vt & Tt & Ft & Nt). rewrite T2 in Tt. cbn [app] in Tt.
    assert (Ti : test s2 isident = true) by (unfold test; rewrite C2; exact Id). destruct (Nt Ti) as [Nt1 Nt2].
    split; [exact W3|]. split; [lia|]. split; [split; congruence|]. exists t. split; [now rewrite <- Vt|]. left. split; [now rewrite Tt|].
    rewrite Tt. apply l_ident; [exact Nt1|exact Ft|]. intros x v Vx. unfold test in NI. unfold view in Vx. destruct (cur s'); [|discriminate].
    injection Vx as -> _. exact NI.
  - destruct (getnextc s2) as [a3 s3| | |] eqn:G; try discriminate. cbn [tbind] in H.
    destruct (getnextc_ok _ _ _ G W2) as (W3 & L3 & (Se & Sf & Sg) & x & Cx & V3). assert (x = c) as -> by congruence.
    destruct (IH _ _ _ H W3) as (W4 & L4 & (Sh & Si) & h & K5 & K6). split; [exact W4|]. split; [lia|]. split; [split; congruence|].
    exists h. split; [|exact K6]. eapply skips_trans; [exact K3|]. rewrite V3. apply s_other; [|exact K5].
    apply orb_false_iff in Q as [Q1 Q2]. apply ceq_neq in Q1, Q2. cbn in NS2. repeat split; assumption.
Qed.
Lemma again_nofuel : forall f s, wf s -> length (rest s) < f -> nofuel (again f s).
Proof.
  induction f as [|f IH]; intros s W L; [lia|]. cbn [again]. destruct (ef (settok s [])); [discriminate|].
  destruct (skipspace (settok s [])) as [a1 s1| | |] eqn:Sp; try discriminate;
    [|apply while_nofuel in Sp; [contradiction|exact W|unfold bound; cbn; lia]]. cbn [tbind].
  destruct (while_ok _ _ _ _ _ Sp (wf_settok s [] W)) as (W1 & L1 & (T1 & _) & _). cbn in L1, T1.
  destruct (hashes (bound s1) s1) as [p s2| | |] eqn:Hs; try discriminate;
    [|apply hashes_nofuel in Hs; [contradiction|exact W1|unfold bound; lia]]. cbn [tbind].
  destruct (hashes_ok _ _ _ _ Hs W1 T1) as (W2 & L2 & _ & K2). destruct p; [discriminate|]. destruct K2 as (T2 & N2 & _).
  destruct (ef s2); [discriminate|].
  assert (K : nofuel (tbind (getnextc s2) (fun _ s => again f s))).
  { destruct (getnextc s2) as [a3 s3| | |] eqn:G; try discriminate; [|now apply getnextc_nofuel in G]. cbn [tbind].
    destruct (getnextc_ok _ _ _ G W2) as (W3 & L3 & _). apply IH; [exact W3|lia]. }
  destruct (cur s2) as [c|] eqn:C2; [|exact K].
  destruct (ceq c """" || ceq c "'")%bool; [apply strlit_nofuel; [exact W2|unfold bound; lia]|].
  destruct (strchr ops c) eqn:O.
  - destruct (operator c s2) as [b s3| | |] eqn:Op; try discriminate; [|now apply operator_nofuel in Op]. cbn [tbind]. destruct b; [|discriminate].
    assert (NH : c <> "#"%char) by (intros ->; unfold is in N2; rewrite C2 in N2; discriminate).
    destruct (operator_ok _ _ _ _ Op W2 C2 T2 O NH) as (W3 & L3 & _). apply IH; [exact W3|lia].
  - destruct (negb (isident c)); [exact K|]. apply ident_nofuel; [exact W2|unfold bound; lia].
Qed.

(** C52, one call: the next token is the next lexeme of the text, after spaces, comments,
    preprocessor lines and characters foreign to C++ *)
Theorem C52_token : forall s a s', wf s -> nexttok s = TOk a s' ->
  wf s' /\ lasttoken s' = token s /\ tokenBeforeLast s' = lasttoken s /\
  exists h, skips (view s) (h ++ view s') /\ tokof h (token s') (view s').
Proof.
  intros s a s' W H. unfold nexttok in H.
  destruct (again_ok _ _ _ _ H) as (W1 & L1 & (Sa & Sb) & h & K & T); [exact W|]. cbn in *. split; [exact W1|]. split; [exact Sa|]. split; [exact Sb|].
  exists h. split; [exact K|exact T].
Qed.
(** the whole file: the tokens are lexemes of the text, in its order, without overlap *)
Inductive lexes : list ascii -> list (list ascii) -> Prop :=
| lx_end : forall v, lexes v []
| lx_tok : forall v h t v' ts, skips v (h ++ v') -> tokof h t v' -> lexes v' ts -> lexes v (t :: ts).
Lemma lex_ok : forall f s ts e, wf s -> length (rest s) < f -> lex f s = (ts, e) -> lexes (view s) ts /\ e <> LFuel.
Proof.
  induction f as [|f IH]; intros s ts e W L H; [lia|]. cbn [lex] in H. destruct (nexttok s) as [a s'|s'| |] eqn:N0.
  - destruct (C52_token _ _ _ W N0) as (W1 & _ & _ & h & K & T). destruct (lex f s') as [ts' e'] eqn:X. injection H as <- <-.
    assert (L1 : length (rest s') < length (rest s)).
    { unfold nexttok in N0. destruct (again_ok _ _ _ _ N0) as (_ & L1 & _); [exact W|]. exact L1. }
    destruct (IH s' ts' e' W1) as [A B]; [lia|exact X|]. split; [econstructor; eassumption|exact B].
  - injection H as <- <-. split; [constructor|discriminate].
  - injection H as <- <-. split; [constructor|discriminate].
  - exfalso. unfold nexttok in N0. apply again_nofuel in N0; [contradiction|exact W|]. unfold bound. cbn. lia.
Qed.
Lemma tok_init_ok : forall file a s, tok_init file = TOk a s -> wf s /\ length (rest s) < length file /\ view s = pp None file.
Proof.
  intros file a s H. unfold tok_init, getnextc in H. cbn [rest] in H. destruct (gn None file) as [c r e o| |] eqn:G; try discriminate.
  injection H as <- <-. destruct (gn_spec _ _ _ _ _ _ G) as (A & B & C & D). unfold wf, view. cbn. auto.
Qed.
Theorem C52_tokens : forall file ts e, lex_file file = (ts, e) -> lexes (pp None file) ts.
Proof.
  intros file ts e H. unfold lex_file in H. destruct (tok_init file) as [a s|s| |] eqn:I.
  - destruct (tok_init_ok _ _ _ I) as (W & L & V). rewrite <- V. eapply lex_ok; [exact W| |exact H]. lia.
  - injection H as <- <-. constructor.
  - injection H as <- <-. constructor.
  - injection H as <- <-. constructor.
Qed.
Theorem C52_terminates : forall file, snd (lex_file file) <> LFuel.
Proof.
  intros file. unfold lex_file. destruct (tok_init file) as [a s|s| |] eqn:I; try discriminate.
  - destruct (tok_init_ok _ _ _ I) as (W & L & V). destruct (lex (S (length file)) s) as [ts e] eqn:X.
    assert (L2 : length (rest s) < S (length file)) by lia. destruct (lex_ok _ _ _ _ W L2 X) as [_ B]. exact B.
  - unfold tok_init in I. now apply getnextc_nofuel in I.
Qed.
Example C52_ex : exists e, lex_file (bs "int a; // b
x<<=c; /* d */ ""e\"""" ") = (map bs ["int"; "a"; ";"; "x"; "<<="; "c"; ";"; """e\"""""]%string, e).
Proof. eexists. vm_compute. reflexivity. Qed.

(** ** A general induction over everything that reads characters *)
Section Pres.
Variables (I J : tin -> Prop).
Hypothesis Iext : forall s s', rest s' = rest s -> ef s' = ef s -> cur s' = cur s -> out s' = out s -> I s -> I s'.
Hypothesis IJ : forall s, I s -> ef s = true -> J s.
Definition good {A} (r : tres A) : Prop := match r with TOk _ s' => I s' | TEof s' => J s' | TLoop => False | TFuel => True end.
Hypothesis Ig : forall s, I s -> good (getnextc s).
Lemma good_bind : forall A B (r : tres A) (k : A -> tin -> tres B), good r -> (forall a s, I s -> good (k a s)) -> good (tbind r k).
Proof. intros A B [a s|s| |] k H K; cbn [tbind good] in *; auto. Qed.
Lemma Iset : forall s t, I s -> I (settok s t).
Proof. intros s t. now apply Iext. Qed.
Lemma good_while : forall f P s, I s -> good (while_ f P s).
Proof.
  induction f as [|f IH]; intros P s H; cbn [while_]; destruct (P (cur s)); try exact H; [exact Logic.I|].
  apply good_bind; [now apply Ig|auto].
Qed.
Lemma good_comm : forall f l s, I s -> good (comm f l s).
Proof.
  induction f as [|f IH]; intros l s H; cbn [comm]; destruct (_ && _)%bool; try exact H; [exact Logic.I|].
  apply good_bind; [now apply Ig|auto].
Qed.
Lemma good_comment : forall s, I s -> good (comment s).
Proof. intros s H. unfold comment. apply good_bind; [now apply Ig|]. intros. now apply good_comm. Qed.
Lemma good_take : forall s, I s -> good (take s).
Proof. intros s H. unfold take. apply Ig. now apply Iset. Qed.
Lemma good_hashline : forall f s, I s -> good (hashline f s).
Proof.
  induction f as [|f IH]; intros s H; cbn [hashline]; destruct (_ && _)%bool; try exact H; [exact Logic.I|].
  assert (H1 : I (if is s cr then s else addc s)) by (destruct (is s cr); [exact H|now apply Iset]).
  apply good_bind.
  - destruct (is _ "/"); [|exact H1]. apply good_bind; [now apply Ig|]. intros a0 s0 H0. destruct (is s0 "*"); [now apply good_comment|exact H0].
  - intros a0 s0 H0. apply good_bind; [now apply Ig|auto].
Qed.
Lemma good_hashes : forall f s, I s -> good (hashes f s).
Proof.
  induction f as [|f IH]; intros s H; cbn [hashes]; destruct (is s "#"); try exact H; [exact Logic.I|].
  apply good_bind; [now apply good_hashline|]. intros a0 s0 H0. destruct (starts pragma (token s0)); [exact H0|].
  apply good_bind; [apply good_while; now apply Iset|auto].
Qed.
Lemma good_strlit : forall f q e s, I s -> good (strlit f q e s).
Proof.
  induction f as [|f IH]; intros q e s H; cbn [strlit]; [exact Logic.I|]. apply good_bind; [now apply good_take|].
  intros a0 s0 H0. destruct (_ || _)%bool; [auto|now apply good_take].
Qed.
Lemma good_ident : forall f s, I s -> good (ident f s).
Proof.
  induction f as [|f IH]; intros s H; cbn [ident]; destruct (test s isident); try exact H; [exact Logic.I|].
  apply good_bind; [now apply good_take|auto].
Qed.
Lemma good_operator : forall lc s, I s -> good (operator lc s).
Proof.
  intros lc s H. unfold operator. apply good_bind; [now apply good_take|]. intros _ s1 H1.
  assert (K : forall r : tres unit, good r -> good (tbind r (fun _ s => TOk false s))) by (intros; apply good_bind; [assumption|auto]).
  assert (K2 : forall P : tin -> bool, good (tbind (take s1) (fun _ s => if P s then take s else TOk tt s))).
  { intros P. apply good_bind; [now apply good_take|]. intros a0 s0 H0. destruct (P s0); [now apply good_take|exact H0]. }
  cbv zeta.
  repeat match goal with
         | |- good (if ?b then _ else _) => destruct b
         | |- good (TOk _ _) => assumption
         | |- good (tbind (take s1) (fun _ s => TOk false s)) => apply K; now apply good_take
         end.
  - apply K. apply (K2 (fun s => mem lc "<>" && is s "=")%bool).
  - apply K. apply (K2 (fun s => is s "*")).
  - apply K. apply (K2 (fun s => is s ".")).
  - apply good_bind; [now apply good_comment|]. intros a0 s0 H0. apply good_bind; [now apply Ig|auto].
  - apply good_bind; [now apply good_while|auto].
Qed.
Lemma good_again : forall f s, I s -> good (again f s).
Proof.
  induction f as [|f IH]; intros s H; cbn [again]; [exact Logic.I|]. destruct (ef (settok s [])) eqn:E; [apply IJ; [now apply Iset|exact E]|].
  apply good_bind; [apply good_while; now apply Iset|]. intros _ s1 H1. apply good_bind; [now apply good_hashes|]. intros p s2 H2.
  destruct p; [exact H2|]. destruct (ef s2) eqn:E2; [now apply IJ|]. destruct (cur s2) as [c|].
  - destruct (_ || _)%bool; [now apply good_strlit|]. destruct (strchr ops c).
    + apply good_bind; [now apply good_operator|]. intros b s3 H3. destruct b; [auto|exact H3].
    + destruct (negb (isident c)); [|now apply good_ident]. apply good_bind; [now apply Ig|auto].
  - apply good_bind; [now apply Ig|auto].
Qed.
Lemma good_nexttok : forall s, I s -> good (nexttok s).
Proof. intros s H. apply good_again. now apply (Iext s). Qed.
Lemma good_lex : forall f s, I s -> match snd (lex f s) with LEof o => exists s', J s' /\ out s' = o | LLoop => False | LFuel => True end.
Proof.
  induction f as [|f IH]; intros s H; cbn [lex]; [exact Logic.I|]. assert (G := good_nexttok s H). destruct (nexttok s) as [a s'|s'| |]; cbn [good] in G.
  - specialize (IH s' G). destruct (lex f s') as [ts e]. exact IH.
  - cbn [snd]. eauto.
  - destruct G.
  - exact Logic.I.
Qed.
End Pres.

(** ** Attributes *)
Definition noattr (l : list ascii) : Prop := forall u v, l <> u ++ "["%char :: "["%char :: v.
Lemma noattr_suffix : forall p l, noattr (p ++ l) -> noattr l.
Proof. intros p l H u v E. apply (H (p ++ u) v). now rewrite E, app_assoc. Qed.
Lemma gn_noattr : forall l, noattr l ->
  match gn None l with
  | GC c r e o => noattr r /\ (if e then r = [] /\ (l = o \/ exists x, l = o ++ [x] /\ (x = bsl \/ x = "["%char)) else l = o ++ r)
  | GEof => l = []
  | GLoop => False
  end.
Proof.
  intros [|x r] H; [reflexivity|]. cbn [gn]. assert (Hr : noattr r) by (apply (noattr_suffix [x]); exact H).
  destruct (ceq x bsl) eqn:E1.
  { apply ceq_eq in E1. subst. destruct r as [|y r1].
    - split; [exact Hr|]. split; [reflexivity|]. right. exists bsl. auto.
    - destruct (ceq y lf) eqn:E2; [|split; [exact Hr|reflexivity]]. apply ceq_eq in E2. subst.
      destruct r1 as [|z r2].
      + split; [intros u v E; destruct u; discriminate|]. split; [reflexivity|]. now left.
      + split; [|reflexivity]. apply (noattr_suffix [lf; z]). exact Hr. }
  destruct (ceq x "[") eqn:E3.
  { apply ceq_eq in E3. subst. destruct r as [|y r1].
    - split; [exact Hr|]. split; [reflexivity|]. right. exists "["%char. auto.
    - destruct (ceq y "[") eqn:E4; [|split; [exact Hr|reflexivity]]. apply ceq_eq in E4. subst. exfalso. exact (H [] r1 eq_refl). }
  split; [exact Hr|reflexivity].
Qed.
Definition whole (file o : list ascii) : Prop := o = file \/ exists x, file = o ++ [x] /\ (x = bsl \/ x = "["%char).
Definition EI (file : list ascii) (s : tin) : Prop :=
  noattr (rest s) /\ if ef s then rest s = [] /\ whole file (out s) else out s ++ rest s = file.
Definition EJ (file : list ascii) (s : tin) : Prop := whole file (out s).
Lemma EI_get : forall file s, EI file s -> good (EI file) (EJ file) (getnextc s).
Proof.
  intros file s [N0 H]. unfold getnextc. destruct (ef s) eqn:E.
  { destruct H as [H1 H2]. rewrite H1. cbn [gn good]. exact H2. }
  assert (G := gn_noattr _ N0). destruct (gn None (rest s)) as [c r e o| |].
  - destruct G as [Nr G]. cbn [good]. split; [exact Nr|]. cbn [ef rest out]. destruct e.
    + destruct G as [-> G]. split; [reflexivity|]. rewrite <- H. destruct G as [G|(x & G & X)]; rewrite G.
      * left. reflexivity.
      * right. exists x. rewrite app_assoc. auto.
    + now rewrite <- app_assoc, <- G.
  - cbn [good]. unfold EJ, whole. cbn. left. now rewrite G, app_nil_r in H.
  - exact G.
Qed.
Lemma EI_ext : forall file s s', rest s' = rest s -> ef s' = ef s -> cur s' = cur s -> out s' = out s -> EI file s -> EI file s'.
Proof. intros file s s' A B C D H. unfold EI in *. now rewrite A, B, D. Qed.
Lemma EI_J : forall file s, EI file s -> ef s = true -> EJ file s.
Proof. intros file s [_ H] E. rewrite E in H. apply H. Qed.

(** C52: without attributes the end is reached; what is echoed to the output stream, as
    insert-friend does, is the file (C65) *)
Theorem C65_echo : forall file, noattr file -> exists ts o, lex_file file = (ts, LEof o) /\ whole file o.
Proof.
  intros file H. assert (K : EI file (mktin file false None [] [] [] [])) by (split; [exact H|reflexivity]).
  assert (G := EI_get _ _ K). assert (F := C52_terminates file). unfold lex_file in *. fold (tok_init file) in G.
  destruct (tok_init file) as [a s|s| |]; cbn [good snd] in *.
  - assert (L := good_lex (EI file) (EJ file) (EI_ext file) (EI_J file) (EI_get file) (S (length file)) s G).
    destruct (lex (S (length file)) s) as [ts e]. cbn [snd] in *. destruct e as [o| |]; [|destruct L|contradiction].
    destruct L as (s' & L1 & <-). exists ts, (out s'). auto.
  - exists [], (out s). auto.
  - destruct G.
  - contradiction.
Qed.
Theorem C52_eof : forall file, noattr file -> exists ts o, lex_file file = (ts, LEof o).
Proof. intros file H. destruct (C65_echo file H) as (ts & o & E & _). eauto. Qed.
Example C52_noattr_ex : noattr (bs "int a[3];").
Proof.
  intros u v H. assert (K : nth (length u) (bs "int a[3];") zero = "["%char /\ nth (S (length u)) (bs "int a[3];") zero = "["%char).
  { rewrite H. rewrite !app_nth2 by lia. replace (length u - length u) with 0 by lia. replace (S (length u) - length u) with 1 by lia. split; reflexivity. }
  destruct K as [K1 K2]. do 9 (destruct u as [|? u]; [cbn in K1, K2; discriminate|]). cbn [length] in K1. apply (f_equal (fun l => length l)) in H.
  rewrite app_length in H. cbn [length bs list_ascii_of_string] in H. lia.
Qed.
Lemma skips_suffix : forall v v', skips v v' -> exists p, v = p ++ v'.
Proof.
  induction 1 as [v|x v v' _ _ (p & ->)|c v v' _ _ (p & ->)|b v v' _ _ (p & E)|h k v v' _ _ _ (p & E)|x v v' _ _ (p & ->)].
  - now exists []. - now exists (x :: p). - exists (c ++ p). now rewrite app_assoc.
  - exists (bs "//" ++ b ++ p). now rewrite E, <- !app_assoc.
  - exists ("#"%char :: h ++ p). rewrite E. cbn [app]. now rewrite <- app_assoc.
  - now exists (x :: p).
Qed.
(** every token but a #pragma is a contiguous piece of the text *)
Theorem C52_contiguous : forall s a s', wf s -> nexttok s = TOk a s' -> starts pragma (token s') = false ->
  exists p, view s = p ++ token s' ++ view s'.
Proof.
  intros s a s' W H P. destruct (C52_token _ _ _ W H) as (_ & _ & _ & h & K & [[-> _]|(_ & Q & _)]); [|congruence].
  apply skips_suffix in K as (p & ->). eauto.
Qed.
(** the character after a slash is lost from a #pragma *)
Theorem C52_pragma_refuted : exists file e, lex_file file = ([bs "#pragma omit a/c"], e) /\ file = bs "#pragma omit a/bc
x".
Proof. eexists. eexists. split; [|reflexivity]. vm_compute. reflexivity. Qed.
(** a preprocessor line ending in a slash swallows the next line *)
Theorem C52_swallow_refuted : exists e1 e2, lex_file (bs "#define D /
int x;
") = ([], e1) /\ lex_file (bs "#define D %
int x;
") = (map bs ["int"; "x"; ";"]%string, e2).
Proof. eexists. eexists. split; vm_compute; reflexivity. Qed.
(** "[[" without "]]", even in a string or a comment: tokenising never ends *)
Theorem C52_attr_refuted : exists file ts, lex_file file = (ts, LLoop) /\ file = bs "char* s=""[["";
int x;
".
Proof. eexists. eexists. split; [|reflexivity]. vm_compute. reflexivity. Qed.
(** a comment or string with "[[" and "]]" swallows the code between *)
Theorem C52_string_refuted : exists e, lex_file (bs "f(""[[""); int x; g(""]]"");
") = (map bs ["f"; "("; """"""; ")"; ";"]%string, e).
Proof. eexists. vm_compute. reflexivity. Qed.
(** a token that ends with the file is not delivered *)
Theorem C52_last_refuted : exists e1 e2, lex_file (bs "int x;") = (map bs ["int"; "x"]%string, e1) /\
  lex_file (bs "int x; ") = (map bs ["int"; "x"; ";"]%string, e2).
Proof. eexists. eexists. split; vm_compute; reflexivity. Qed.
(** with attributes the output is not the input: the attribute is gone and the next
    character comes twice *)
Theorem C65_attr_refuted : exists ts, lex_file (bs "[[nodiscard]] int f();
") = (ts, LEof (bs "  int f();
")).
Proof. eexists. vm_compute. reflexivity. Qed.
Print Assumptions C52_token.
Print Assumptions C52_tokens.
Print Assumptions C52_contiguous.
Print Assumptions C52_terminates.
Print Assumptions C52_eof.
Print Assumptions C65_echo.
Print Assumptions C52_attr_refuted.
Print Assumptions C65_attr_refuted.
